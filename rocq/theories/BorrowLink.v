(** * The methods of [Chunk] in BorrowModel.v move the fields as in ChunkModel.v *)
From Verif Require Import Machine Spec Prims ChunkModel ChunkProofs.
From Verif Require BorrowModel BorrowSpec BorrowProofs3.
Import BorrowModel(chunk_op(..), chunk_calls, chunk_program).

Section link.
Context {A : Type} (e : env A) (N : nat).
(** The method each [chunk_op] stands for, on the machine of ChunkModel.v. *)
Definition op_code (op : chunk_op) (v : A) : M A (chunk A) unit :=
  match op with
  | CPushFront => push_front e N v
  | CPushBack => push_back e N v
  | CPopFront => pop_front e N ;;; ret tt
  | CPopBack => pop_back e N ;;; ret tt
  | CSet i => set e N i v ;;; ret tt
  | CInsert i => insert e N i v
  | CRemove i => remove e N i ;;; ret tt
  | CDropLeft i => drop_left e N i
  | CDropRight i => drop_right e N i
  | CClear => clear e N
  | CRead => as_slice e N ;;; ret tt
  end.

Definition fp {X} (m : M A (chunk A) X) (l r : nat) (P : Prop) (Q : nat -> nat -> X -> Prop) : Prop :=
  forall d g, match m (Chunk l r d) g with
              | Ret c' _ x => Q (left c') (right c') x
              | Panic _ _ => P
              | _ => True
              end.
Lemma fp_bind {X Y} (m : M A (chunk A) X) (k : X -> M A (chunk A) Y) l r P Q :
  fp m l r P (fun l' r' x => fp (k x) l' r' P Q) -> fp (bind m k) l r P Q.
Proof.
  intros H d g. specialize (H d g). unfold bind. destruct (m _ _) as [c' g' x| | | |]; auto.
  destruct c' as [l' r' d']. exact (H d' g').
Qed.
Lemma fp_get {Y} (k : chunk A -> M A (chunk A) Y) l r P Q :
  (forall d, fp (k (Chunk l r d)) l r P Q) -> fp (bind get k) l r P Q.
Proof. intros H d g. exact (H d d g). Qed.
Lemma fp_ret {X} (x : X) l r P (Q : nat -> nat -> X -> Prop) : Q l r x -> fp (ret x) l r P Q.
Proof. intros H d g. exact H. Qed.
Lemma fp_usub a b l r P (Q : nat -> nat -> nat -> Prop) : b <= a -> Q l r (a - b) -> fp (usub e a b) l r P Q.
Proof. intros H1 H d g. unfold usub. destruct (Nat.leb_spec b a); [exact H|lia]. Qed.
Lemma fp_uadd a b l r P (Q : nat -> nat -> nat -> Prop) : a + b < word e -> Q l r (a + b) -> fp (uadd e a b) l r P Q.
Proof. intros H1 H d g. unfold uadd. destruct (Nat.ltb_spec (a + b) (word e)); [exact H|lia]. Qed.
Lemma fp_left x l r P (Q : nat -> nat -> unit -> Prop) : Q x r tt -> fp (set_left x) l r P Q.
Proof. intros H d g. exact H. Qed.
Lemma fp_right x l r P (Q : nat -> nat -> unit -> Prop) : Q l x tt -> fp (set_right x) l r P Q.
Proof. intros H d g. exact H. Qed.
Lemma fp_write i v l r P (Q : nat -> nat -> unit -> Prop) : Q l r tt -> fp (slot_write N i v) l r P Q.
Proof. intros H d g. unfold slot_write. destruct (i <? N); [exact H|exact I]. Qed.
Lemma fp_read i l r P (Q : nat -> nat -> A -> Prop) : (forall a, Q l r a) -> fp (slot_read N i) l r P Q.
Proof. intros H d g. unfold slot_read. destruct (i <? N); [|exact I]. cbn. destruct (d i); [apply H|exact I]. Qed.
Lemma fp_peek i n l r P (Q : nat -> nat -> list A -> Prop) : (forall a, Q l r a) -> fp (slots_peek N i n) l r P Q.
Proof. intros H d g. unfold slots_peek. destruct (_ <=? N); [|exact I]. destruct (mapM _ _); [apply H|exact I]. Qed.
Lemma fp_move a b n l r P (Q : nat -> nat -> unit -> Prop) : Q l r tt -> fp (slots_move N a b n) l r P Q.
Proof. intros H d g. unfold slots_move. destruct (_ && _); [exact H|exact I]. Qed.
Lemma fp_copy a b n l r P (Q : nat -> nat -> unit -> Prop) : Q l r tt -> fp (force_copy N a b n) l r P Q.
Proof. intros H. unfold force_copy. destruct (0 <? n); [apply fp_move|apply fp_ret]; exact H. Qed.
Lemma fp_panic {X} l r (P : Prop) (Q : nat -> nat -> X -> Prop) : P -> fp panic l r P Q.
Proof. intros H d g. exact H. Qed.
Lemma fp_panic_dropping {X} v l r (P : Prop) (Q : nat -> nat -> X -> Prop) : P -> fp (panic_dropping e v) l r P Q.
Proof. intros H d g. unfold panic_dropping. destruct (bomb e v); [exact I|exact H]. Qed.
Lemma fp_drop (HC : calm e) a n l r P (Q : nat -> nat -> unit -> Prop) : Q l r tt -> fp (slots_drop e N a n) l r P Q.
Proof.
  intros H. unfold slots_drop. apply fp_bind, fp_peek. intros vs. apply fp_bind. intros d g. cbn. intros d' g'.
  unfold drop_values. replace (List.filter (bomb e) vs) with (@nil A); [exact H|].
  induction vs as [|v vs IH]; cbn; [reflexivity|]. rewrite (HC v). exact IH.
Qed.

Hypothesis HW : N + N < word e.
Hypothesis HC : calm e.
Ltac fstep :=
  cbn [left right];
  match goal with
  | |- fp (bind get _) _ _ _ _ => apply fp_get; intros ?
  | |- fp (bind _ _) _ _ _ _ => apply fp_bind
  | |- fp (ret _) _ _ _ _ => apply fp_ret
  | |- fp (len _) _ _ _ _ => unfold len
  | |- fp (usub _ _ _) _ _ _ _ => apply fp_usub; [lia|]
  | |- fp (uadd _ _ _) _ _ _ _ => apply fp_uadd; [lia|]
  | |- fp (set_left _) _ _ _ _ => apply fp_left
  | |- fp (set_right _) _ _ _ _ => apply fp_right
  | |- fp (force_write _ _ _) _ _ _ _ => apply fp_write
  | |- fp (slot_write _ _ _) _ _ _ _ => apply fp_write
  | |- fp (force_read _ _) _ _ _ _ => apply fp_read; intros ?
  | |- fp (slot_read _ _) _ _ _ _ => apply fp_read; intros ?
  | |- fp (slots_peek _ _ _) _ _ _ _ => apply fp_peek; intros ?
  | |- fp (force_copy _ _ _ _) _ _ _ _ => apply fp_copy
  | |- fp panic _ _ _ _ => apply fp_panic
  | |- fp (panic_dropping _ _) _ _ _ _ => apply fp_panic_dropping
  | |- fp (slots_drop _ _ _ _) _ _ _ _ => apply (fp_drop HC)
  | |- fp (if is_full _ _ then _ else _) _ _ _ _ => unfold is_full
  | |- fp (if is_empty _ then _ else _) _ _ _ _ => unfold is_empty
  | |- fp (if ?b then _ else _) _ _ _ _ => let E := fresh "E" in destruct b eqn:E; try lia
  end.
Ltac decide_ifs :=
  repeat match goal with |- context [if ?b then _ else _] => let E := fresh "E" in destruct b eqn:E; try lia end.
Lemma op_code_fp op v l r o : l <= r -> r <= N ->
  fp (op_code op v) l r (chunk_calls N o l r op = None)
     (fun l' r' _ => exists cs, chunk_calls N o l r op = Some (cs, (l', r'))).
Proof.
  intros H1 H2.
  destruct op; cbn [op_code]; unfold push_front, push_back, pop_front, pop_back, set, insert, remove, drop_left, drop_right, clear, as_slice;
    repeat fstep; cbn [left right chunk_calls]; cbv zeta;
    decide_ifs; try reflexivity; eexists; repeat f_equal; lia.
Qed.
(** Whether a method returns or panics, and where the two fields are afterwards, is the same in both models. *)
Lemma op_code_fields op v c g o : left c <= right c -> right c <= N ->
  match op_code op v c g with
  | Ret c' _ _ => exists cs, chunk_calls N o (left c) (right c) op = Some (cs, (left c', right c'))
  | Panic _ _ => chunk_calls N o (left c) (right c) op = None
  | _ => True
  end.
Proof. destruct c as [l r d]. intros H1 H2. exact (op_code_fp op v l r o H1 H2 d g). Qed.
Definition kept {X} (x : outcome A (chunk A) X) : Prop :=
  match x with Ret c' _ _ | Panic c' _ => exists l', Holds N c' l' | _ => False end.
Lemma kept_agrees {X Y} (RR : X -> Y -> Prop) g x s : agrees (Holds N) RR g x s -> kept x.
Proof.
  destruct s; cbn; intros H; repeat match goal with H : exists _, _ |- _ => destruct H | H : _ /\ _ |- _ => destruct H end; subst x; cbn; eauto.
Qed.
Lemma kept_unit {X} (m : M A (chunk A) X) c g : kept (m c g) -> kept ((m ;;; ret tt) c g).
Proof. unfold bind. destruct (m c g); cbn; auto. Qed.
(** On a chunk with contents every method returns or panics, and leaves a chunk with contents. *)
Lemma op_code_kept op v c l g : Holds N c l -> kept (op_code op v c g).
Proof.
  intros H. destruct op; cbn [op_code]; try apply kept_unit; eapply kept_agrees;
    eauto using push_front_ok, push_back_ok, pop_front_ok, pop_back_ok, set_ok, insert_ok, remove_ok, drop_left_ok, drop_right_ok, clear_ok, as_slice_ok.
Qed.

(** ** Histories of method calls on one chunk; a method that panics ends the history. *)
(** The methods that return, each with the chunk it was called on. *)
Fixpoint performed (ops : list (chunk_op * A)) (c : chunk A) (g : log A) : list (chunk A * chunk_op) :=
  match ops with
  | [] => []
  | (op, v) :: ops' =>
      match op_code op v c g with
      | Ret c' g' _ => (c, op) :: performed ops' c' g'
      | _ => []
      end
  end.
Lemma chunk_calls_ok o k l r op cs l' r' : o < k -> l <= r -> r <= N -> chunk_calls N o l r op = Some (cs, (l', r')) ->
  l' <= r' /\ r' <= N /\ Forall (BorrowSpec.valid_call N k) cs /\ (Exists BorrowSpec.stale cs <-> BorrowSpec.moves N l r op).
Proof.
  intros Ho H1 H2 E.
  destruct op; cbn [chunk_calls BorrowSpec.moves] in *; cbv zeta in E;
    repeat match type of E with context [if ?b then _ else _] => let E1 := fresh "E" in destruct b eqn:E1 end; try discriminate E; try lia;
    cbn [app] in E; injection E as <- <- <-;
    (split; [lia|split; [lia|split; [repeat constructor; cbn [BorrowSpec.valid_call]; lia|]]]);
    repeat (rewrite Exists_cons); rewrite Exists_nil; cbn [BorrowSpec.stale];
    repeat match goal with |- context [if ?b then _ else _] => let E1 := fresh "E" in destruct b eqn:E1 end; lia.
Qed.
Lemma chunk_program_ok o k ops : o < k -> forall c l g, Holds N c l ->
  Forall (BorrowSpec.valid_call N k) (chunk_program N o (left c) (right c) (map fst ops)) /\
  (Exists BorrowSpec.stale (chunk_program N o (left c) (right c) (map fst ops)) <->
   Exists (fun x => BorrowSpec.moves N (left (fst x)) (right (fst x)) (snd x)) (performed ops c g)).
Proof.
  intros Ho. induction ops as [|[op v] ops IH]; intros c l g H; cbn [map fst chunk_program performed].
  { split; [constructor|]. rewrite !Exists_nil. reflexivity. }
  pose proof H as (H1 & H2 & _). pose proof (op_code_fields op v c g o ltac:(lia) ltac:(lia)) as HF.
  pose proof (op_code_kept op v c l g H) as HK.
  destruct (op_code op v c g) as [c' g' []|c' g'| | |]; try contradiction.
  - destruct HF as (cs & E). rewrite E. destruct HK as (l' & H').
    destruct (chunk_calls_ok o k (left c) (right c) op cs _ _ Ho ltac:(lia) ltac:(lia) E) as (_ & _ & V & S). destruct (IH c' l' g' H') as (V' & S').
    split; [apply Forall_app; auto|]. rewrite Exists_app, Exists_cons, S, S'. reflexivity.
  - rewrite HF. split; [constructor|]. rewrite !Exists_nil. reflexivity.
Qed.
End link.
