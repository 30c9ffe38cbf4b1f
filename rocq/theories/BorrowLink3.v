(** * The calls BorrowModel.v lists for a method of [Chunk] leave the elements where ChunkModel.v puts them *)
From Verif Require Import Machine Spec Prims ChunkModel ChunkProofs BorrowLink.
From Verif Require BorrowModel.
Import BorrowModel(chunk_op(..), chunk_calls, call(..)).

(** ** What a call does to the slots, [v] being the value a write puts there *)
Definition leaves {A} (v : A) (c : call) (m m1 : mem A) : Prop :=
  forall p, match c with
            | ChunkCopy _ from to n => m1 p = mmove m from to n p
            | ChunkWrite _ i => m1 p = if p =? i then Some v else m p
            | ChunkRead _ i => m1 p = if p =? i then None else m p
            | SliceWrite _ s n => s <= p < s + n \/ m1 p = m p
            | _ => m1 p = m p
            end.
Fixpoint replays {A} (v : A) (cs : list call) (m m' : mem A) : Prop :=
  match cs with
  | [] => forall p, m' p = m p
  | c :: cs => exists m1, leaves v c m m1 /\ replays v cs m1 m'
  end.

Section link.
Context {A : Type} (e : env A) (N : nat).
Definition fpm {X} (m : M A (chunk A) X) (l r : nat) (d : mem A) (Q : nat -> nat -> mem A -> X -> Prop) : Prop :=
  forall g, match m (Chunk l r d) g with Ret c' _ x => Q (left c') (right c') (cdata c') x | _ => True end.
Lemma fpm_bind {X Y} (m : M A (chunk A) X) (k : X -> M A (chunk A) Y) l r d Q :
  fpm m l r d (fun l' r' d' x => fpm (k x) l' r' d' Q) -> fpm (bind m k) l r d Q.
Proof.
  intros H g. specialize (H g). unfold bind. destruct (m _ _) as [c' g' x| | | |]; auto.
  destruct c' as [l' r' d']. exact (H g').
Qed.
Lemma fpm_get {Y} (k : chunk A -> M A (chunk A) Y) l r d Q :
  fpm (k (Chunk l r d)) l r d Q -> fpm (bind get k) l r d Q.
Proof. intros H g. exact (H g). Qed.
Lemma fpm_ret {X} (x : X) l r d (Q : nat -> nat -> mem A -> X -> Prop) : Q l r d x -> fpm (ret x) l r d Q.
Proof. intros H g. exact H. Qed.
Lemma fpm_usub a b l r d (Q : nat -> nat -> mem A -> nat -> Prop) : b <= a -> Q l r d (a - b) -> fpm (usub e a b) l r d Q.
Proof. intros H1 H g. unfold usub. destruct (Nat.leb_spec b a); [exact H|lia]. Qed.
Lemma fpm_uadd a b l r d (Q : nat -> nat -> mem A -> nat -> Prop) : a + b < word e -> Q l r d (a + b) -> fpm (uadd e a b) l r d Q.
Proof. intros H1 H g. unfold uadd. destruct (Nat.ltb_spec (a + b) (word e)); [exact H|lia]. Qed.
Lemma fpm_left x l r d (Q : nat -> nat -> mem A -> unit -> Prop) : Q x r d tt -> fpm (set_left x) l r d Q.
Proof. intros H g. exact H. Qed.
Lemma fpm_right x l r d (Q : nat -> nat -> mem A -> unit -> Prop) : Q l x d tt -> fpm (set_right x) l r d Q.
Proof. intros H g. exact H. Qed.
Lemma fpm_write i v l r d (Q : nat -> nat -> mem A -> unit -> Prop) :
  Q l r (upd d i (Some v)) tt -> fpm (slot_write N i v) l r d Q.
Proof. intros H g. unfold slot_write. destruct (i <? N); [exact H|exact I]. Qed.
Lemma fpm_read i l r d (Q : nat -> nat -> mem A -> A -> Prop) :
  (forall a, Q l r (upd d i None) a) -> fpm (slot_read N i) l r d Q.
Proof. intros H g. unfold slot_read. destruct (i <? N); [|exact I]. cbn. destruct (d i); [apply H|exact I]. Qed.
Lemma fpm_peek i n l r d (Q : nat -> nat -> mem A -> list A -> Prop) :
  (forall a, Q l r d a) -> fpm (slots_peek N i n) l r d Q.
Proof. intros H g. unfold slots_peek. destruct (_ <=? N); [|exact I]. destruct (mapM _ _); [apply H|exact I]. Qed.
Lemma fpm_copy a b n l r d (Q : nat -> nat -> mem A -> unit -> Prop) :
  Q l r (if 0 <? n then mmove d a b n else d) tt -> fpm (force_copy N a b n) l r d Q.
Proof.
  intros H g. unfold force_copy. destruct (0 <? n); [|exact H].
  unfold slots_move. destruct (_ && _); [exact H|exact I].
Qed.
Lemma fpm_panic {X} l r d (Q : nat -> nat -> mem A -> X -> Prop) : fpm panic l r d Q.
Proof. intros g. exact I. Qed.
Lemma fpm_panic_dropping {X} v l r d (Q : nat -> nat -> mem A -> X -> Prop) : fpm (panic_dropping e v) l r d Q.
Proof. intros g. unfold panic_dropping. destruct (bomb e v); exact I. Qed.
Lemma fpm_drop (HC : calm e) a n l r d (Q : nat -> nat -> mem A -> unit -> Prop) :
  Q l r (mclear d a n) tt -> fpm (slots_drop e N a n) l r d Q.
Proof.
  intros H. unfold slots_drop. apply fpm_bind, fpm_peek. intros vs. apply fpm_bind. intros g. cbn. intros g'.
  unfold drop_values. replace (List.filter (bomb e) vs) with (@nil A); [exact H|].
  induction vs as [|v vs IH]; cbn; [reflexivity|]. rewrite (HC v). exact IH.
Qed.

Hypothesis HW : N + N < word e.
Hypothesis HC : calm e.
Ltac fstep :=
  cbn [left right];
  match goal with
  | |- fpm (bind get _) _ _ _ _ => apply fpm_get
  | |- fpm (bind _ _) _ _ _ _ => apply fpm_bind
  | |- fpm (ret _) _ _ _ _ => apply fpm_ret
  | |- fpm (len _) _ _ _ _ => unfold len
  | |- fpm (usub _ _ _) _ _ _ _ => apply fpm_usub; [lia|]
  | |- fpm (uadd _ _ _) _ _ _ _ => apply fpm_uadd; [lia|]
  | |- fpm (set_left _) _ _ _ _ => apply fpm_left
  | |- fpm (set_right _) _ _ _ _ => apply fpm_right
  | |- fpm (force_write _ _ _) _ _ _ _ => apply fpm_write
  | |- fpm (slot_write _ _ _) _ _ _ _ => apply fpm_write
  | |- fpm (force_read _ _) _ _ _ _ => apply fpm_read; intros ?
  | |- fpm (slot_read _ _) _ _ _ _ => apply fpm_read; intros ?
  | |- fpm (slots_peek _ _ _) _ _ _ _ => apply fpm_peek; intros ?
  | |- fpm (force_copy _ _ _ _) _ _ _ _ => apply fpm_copy
  | |- fpm panic _ _ _ _ => apply fpm_panic
  | |- fpm (panic_dropping _ _) _ _ _ _ => apply fpm_panic_dropping
  | |- fpm (slots_drop _ _ _ _) _ _ _ _ => apply (fpm_drop HC)
  | |- fpm (if is_full _ _ then _ else _) _ _ _ _ => unfold is_full
  | |- fpm (if is_empty _ then _ else _) _ _ _ _ => unfold is_empty
  | |- fpm (if ?b then _ else _) _ _ _ _ => let E := fresh "E" in destruct b eqn:E; try lia
  end.
Ltac decide_ifs :=
  repeat match goal with |- context [if ?b then _ else _] => let E := fresh "E" in destruct b eqn:E; try lia end.
Ltac slots :=
  let p := fresh "p" in intros p; unfold upd, mmove, mclear;
  repeat match goal with |- context [if ?b then _ else _] => let E := fresh "E" in destruct b eqn:E; try lia end;
  try reflexivity; try (f_equal; lia); try (right; reflexivity); try (left; lia).
Ltac replay :=
  cbn [app replays];
  repeat match goal with
  | |- exists m1, leaves _ (ChunkCopy _ ?a ?b ?n) ?m m1 /\ _ => exists (mmove m a b n); split; [intros ?; reflexivity|]
  | |- exists m1, leaves ?v (ChunkWrite _ ?i) ?m m1 /\ _ => exists (upd m i (Some v)); split; [intros ?; reflexivity|]
  | |- exists m1, leaves ?v (ChunkRead _ ?i) ?m m1 /\ _ => exists (upd m i None); split; [intros ?; reflexivity|]
  | |- exists m1, leaves ?v (SliceRead _ _ _) ?m m1 /\ _ => exists m; split; [intros ?; reflexivity|]
  | |- exists m1, leaves ?v (Fields _) ?m m1 /\ _ => exists m; split; [intros ?; reflexivity|]
  | |- exists m1, leaves ?v (SetFields _) ?m m1 /\ _ => exists m; split; [intros ?; reflexivity|]
  end.
Lemma op_code_fpm op v l r d o : l <= r -> r <= N ->
  fpm (op_code e N op v) l r d
     (fun l' r' d' _ => exists cs, chunk_calls N o l r op = Some (cs, (l', r')) /\ replays v cs d d').
Proof.
  intros H1 H2.
  destruct op; cbn [op_code]; unfold push_front, push_back, pop_front, pop_back, set, insert, remove, drop_left, drop_right, clear, as_slice;
    repeat fstep; cbn [left right chunk_calls]; cbv zeta;
    match goal with
    | |- exists cs, ?x = _ /\ _ =>
        let y := fresh "y" in remember x as y eqn:Ey;
        repeat match type of Ey with context [if ?b then _ else _] => let E := fresh "E" in destruct b eqn:E; try lia end; subst y
    end;
    (eexists; split; [repeat f_equal; lia|]); replay.
  all: try slots.
  all: match goal with
       | |- context [upd (upd ?d ?i None) ?j (Some ?v)] => exists (upd (upd d i None) j (Some v))
       | |- context [mclear ?d ?i ?n] => exists (mclear d i n)
       end; split; [unfold leaves; slots|]; replay; intros ?; reflexivity.
Qed.
Lemma op_code_replays op v c g o : left c <= right c -> right c <= N ->
  match op_code e N op v c g with
  | Ret c' _ _ => exists cs, chunk_calls N o (left c) (right c) op = Some (cs, (left c', right c')) /\ replays v cs (cdata c) (cdata c')
  | _ => True
  end.
Proof. destruct c as [l r d]. intros H1 H2. exact (op_code_fpm op v l r d o H1 H2 g). Qed.
End link.
