(** * The steps BorrowModel2.v lists for a method of [RingBuffer] are the ones RingModel.v takes *)
From Verif Require Import Machine Spec Prims RingModel RingProofs.
From Verif Require BorrowModel BorrowSpec.
From Verif Require Import BorrowModel2.

Lemma replay_app {A} (v : A) s t m : replay v (s ++ t) m = replay v t (replay v s m).
Proof. revert m. induction s as [|x s IH]; intros m; [reflexivity|]. apply IH. Qed.
Lemma seq_S_map {X} (f : nat -> X) k : map f (seq 0 (S k)) = f 0 :: map (fun j => f (S j)) (seq 0 k).
Proof. cbn [seq map]. rewrite <- seq_shift, map_map. reflexivity. Qed.
Lemma seq_S_last {X} (f : nat -> X) k : map f (seq 0 (S k)) = map f (seq 0 k) ++ [f k].
Proof. rewrite seq_S, map_app. reflexivity. Qed.

Section link.
Context {A : Type} (e : env A) (N : nat).
(** The method each [ring_op] stands for, on the machine of RingModel.v. *)
Definition ring_code (op : ring_op) (v : A) : M A (ring A) unit :=
  match op with
  | RPushFront => rb_push_front e N v
  | RPushBack => rb_push_back e N v
  | RPopFront => rb_pop_front e N ;;; ret tt
  | RPopBack => rb_pop_back e N ;;; ret tt
  | RGet i => rb_get e N i ;;; ret tt
  | RIndex i => rb_index e N i ;;; ret tt
  | RAssign i => rb_assign e N i v
  | RInsert i => rb_insert e N i v
  | RRemove i => rb_remove e N i ;;; ret tt
  | RDropLeft i => rb_drop_left e N i
  | RDropRight i => rb_drop_right e N i
  | RClear => rb_clear e N
  | RRead => rb_contents e N ;;; ret tt
  end.

Definition rp {X} (m : M A (ring A) X) (o n : nat) (d : mem A) (P : ring A -> Prop) (Q : nat -> nat -> mem A -> X -> Prop) : Prop :=
  forall g, match m (Ring o n d) g with
            | Ret r' _ x => Q (origin r') (rlen r') (rdata r') x
            | Panic r' _ => P r'
            | _ => True
            end.
Lemma rp_bind {X Y} (m : M A (ring A) X) (k : X -> M A (ring A) Y) o n d P Q :
  rp m o n d P (fun o' n' d' x => rp (k x) o' n' d' P Q) -> rp (bind m k) o n d P Q.
Proof. intros H g. specialize (H g). unfold bind. destruct (m _ _) as [r' g' x| | | |]; auto. destruct r' as [o' n' d']. exact (H g'). Qed.
Lemma rp_get {Y} (k : ring A -> M A (ring A) Y) o n d P Q : rp (k (Ring o n d)) o n d P Q -> rp (bind get k) o n d P Q.
Proof. intros H g. exact (H g). Qed.
Lemma rp_eq {X} (m : M A (ring A) X) (x : X) o n d P (Q : nat -> nat -> mem A -> X -> Prop) :
  (forall r g, m r g = Ret r g x) -> Q o n d x -> rp m o n d P Q.
Proof. intros E H g. rewrite E. exact H. Qed.
Lemma rp_origin x o n d P (Q : nat -> nat -> mem A -> unit -> Prop) : Q x n d tt -> rp (set_origin x) o n d P Q.
Proof. intros H g. exact H. Qed.
Lemma rp_length x o n d P (Q : nat -> nat -> mem A -> unit -> Prop) : Q o x d tt -> rp (set_length x) o n d P Q.
Proof. intros H g. exact H. Qed.
Lemma rp_write i v o n d P (Q : nat -> nat -> mem A -> unit -> Prop) : Q o n (upd d i (Some v)) tt -> rp (slot_write N i v) o n d P Q.
Proof. intros H g. unfold slot_write. destruct (i <? N); [exact H|exact I]. Qed.
Lemma rp_read i o n d P (Q : nat -> nat -> mem A -> A -> Prop) :
  (forall a, d i = Some a -> Q o n (upd d i None) a) -> rp (slot_read N i) o n d P Q.
Proof. intros H g. unfold slot_read. destruct (i <? N); [|exact I]. cbn. destruct (d i) eqn:E; [apply H; exact eq_refl|exact I]. Qed.
Lemma rp_peek i o n d P (Q : nat -> nat -> mem A -> A -> Prop) : (forall a, Q o n d a) -> rp (slot_peek N i) o n d P Q.
Proof. intros H g. unfold slot_peek. destruct (i <? N); [|exact I]. cbn. destruct (d i); [apply H|exact I]. Qed.
Lemma rp_panic {X} o n d (P : ring A -> Prop) (Q : nat -> nat -> mem A -> X -> Prop) : P (Ring o n d) -> rp panic o n d P Q.
Proof. intros H g. exact H. Qed.
Lemma rp_panic_dropping {X} v o n d (P : ring A -> Prop) (Q : nat -> nat -> mem A -> X -> Prop) : P (Ring o n d) -> rp (panic_dropping e v) o n d P Q.
Proof. intros H g. unfold panic_dropping. destruct (bomb e v); [exact I|exact H]. Qed.
Lemma rp_drop_values (HC : calm e) vs o n d P (Q : nat -> nat -> mem A -> unit -> Prop) : Q o n d tt -> rp (drop_values e vs) o n d P Q.
Proof.
  intros H g. unfold drop_values. replace (List.filter (bomb e) vs) with (@nil A); [exact H|].
  induction vs as [|v vs IH]; cbn; [reflexivity|]. rewrite (HC v). exact IH.
Qed.

Hypothesis HW : N + N < word e.
Hypothesis HC : calm e.
Hypothesis HN : 0 < N.
Notation slot := (slot_of N). Notation left := (left_of N).
Lemma slot_lt o i : slot o i < N. Proof. apply Nat.mod_upper_bound. lia. Qed.
Lemma left_lt o : left o < N. Proof. apply Nat.mod_upper_bound. lia. Qed.
Lemma slot_wr o i : o + i < N + N -> wr N (o + i) = slot o i.
Proof.
  intros H. unfold wr, slot_of. destruct (_ <? _) eqn:E; [rewrite Nat.mod_small by lia; reflexivity|].
  replace (o + i) with (o + i - N + 1 * N) at 2 by lia. rewrite Nat.mod_add, Nat.mod_small by lia. reflexivity.
Qed.
Lemma left_lg i : i < N -> lg N 1 i = left i.
Proof.
  intros H. unfold lg, left_of. destruct (1 <=? i) eqn:E.
  - replace (i + (N - 1)) with (i - 1 + 1 * N) by lia. rewrite Nat.mod_add, Nat.mod_small by lia. reflexivity.
  - rewrite Nat.mod_small by lia. lia.
Qed.
Lemma slot_slot o i j : slot (slot o i) j = slot o (i + j).
Proof. unfold slot_of. rewrite Nat.add_mod_idemp_l by lia. f_equal. lia. Qed.
Lemma slot_0 o : o < N -> slot o 0 = o. Proof. intros H. unfold slot_of. rewrite Nat.add_0_r. apply Nat.mod_small, H. Qed.
Lemma left_slot o i : 0 < i -> left (slot o i) = slot o (i - 1).
Proof.
  intros Hi. unfold left_of, slot_of. rewrite Nat.add_mod_idemp_l by lia. replace (o + i + (N - 1)) with (o + (i - 1) + 1 * N) by lia. apply Nat.mod_add. lia.
Qed.
Lemma slot_inj o i j : i < N -> j < N -> slot o i = slot o j -> i = j.
Proof.
  unfold slot_of. intros Hi Hj H.
  pose proof (Nat.div_mod_eq (o + i) N). pose proof (Nat.div_mod_eq (o + j) N). rewrite H in *.
  assert ((o + i) / N = (o + j) / N); [|nia].
  destruct (Nat.lt_trichotomy ((o + i) / N) ((o + j) / N)) as [?|[?|?]]; [|assumption|]; nia.
Qed.

Lemma rp_ret {X} (x : X) o n d P (Q : nat -> nat -> mem A -> X -> Prop) : Q o n d x -> rp (ret x) o n d P Q.
Proof. intros H g. exact H. Qed.
Lemma rp_raw_add i k o n d P (Q : nat -> nat -> mem A -> nat -> Prop) : i + k < N + N -> Q o n d (slot i k) -> rp (raw_add e N i k) o n d P Q.
Proof. intros Hi H. eapply rp_eq; [|exact H]. intros. rewrite raw_add_ok by assumption. rewrite slot_wr by assumption. reflexivity. Qed.
Lemma rp_raw_add_assign i k o n d P (Q : nat -> nat -> mem A -> nat -> Prop) : i + k < N + N -> Q o n d (slot i k) -> rp (raw_add_assign e N i k) o n d P Q.
Proof. intros Hi H. eapply rp_eq; [|exact H]. intros. rewrite raw_add_assign_ok by assumption. rewrite slot_wr by assumption. reflexivity. Qed.
Lemma rp_raw_sub i o n d P (Q : nat -> nat -> mem A -> nat -> Prop) : i < N -> Q o n d (left i) -> rp (raw_sub e N i 1) o n d P Q.
Proof. intros Hi H. eapply rp_eq; [|exact H]. intros. rewrite raw_sub_ok by (try assumption; lia). rewrite left_lg by assumption. reflexivity. Qed.
Lemma rp_raw_sub_assign i o n d P (Q : nat -> nat -> mem A -> nat -> Prop) : i < N -> Q o n d (left i) -> rp (raw_sub_assign e N i 1) o n d P Q.
Proof. intros Hi H. eapply rp_eq; [|exact H]. intros. rewrite raw_sub_assign_ok by (try assumption; lia). rewrite left_lg by assumption. reflexivity. Qed.
Lemma rp_raw_inc i o n d P (Q : nat -> nat -> mem A -> nat -> Prop) : i < N -> Q o n d (slot i 1) -> rp (raw_inc e N i) o n d P Q.
Proof. intros Hi H. eapply rp_eq; [|exact H]. intros. rewrite raw_inc_ok by (try assumption; lia). rewrite slot_wr by lia. reflexivity. Qed.
Lemma rp_raw_dec i o n d P (Q : nat -> nat -> mem A -> nat -> Prop) : i < N -> Q o n d (left i) -> rp (raw_dec e N i) o n d P Q.
Proof. intros Hi H. eapply rp_eq; [|exact H]. intros. rewrite raw_dec_ok by (try assumption; lia). rewrite left_lg by assumption. reflexivity. Qed.
Lemma rp_raw_from i o n d P (Q : nat -> nat -> mem A -> nat -> Prop) : i < N -> Q o n d i -> rp (raw_from e N i) o n d P Q.
Proof. intros Hi H. eapply rp_eq; [|exact H]. intros. apply raw_from_ok. assumption. Qed.
Lemma rp_ptr i o n d P (Q : nat -> nat -> mem A -> unit -> Prop) : i < N -> Q o n d tt -> rp (ptr e N i) o n d P Q.
Proof. intros Hi H. eapply rp_eq; [|exact H]. intros. apply ptr_ok. assumption. Qed.
Lemma rp_usub a b o n d P (Q : nat -> nat -> mem A -> nat -> Prop) : b <= a -> Q o n d (a - b) -> rp (usub e a b) o n d P Q.
Proof. intros Hi H. eapply rp_eq; [|exact H]. intros. apply usub_ok. assumption. Qed.
Lemma rp_uadd a b o n d P (Q : nat -> nat -> mem A -> nat -> Prop) : a + b < word e -> Q o n d (a + b) -> rp (uadd e a b) o n d P Q.
Proof. intros Hi H. eapply rp_eq; [|exact H]. intros. apply uadd_ok. assumption. Qed.

Ltac slia := first [lia | apply slot_lt | apply left_lt | assumption].
Ltac rstep :=
  cbn [origin rlen fst snd];
  match goal with
  | |- rp (bind get _) _ _ _ _ _ => apply rp_get
  | |- rp (bind _ _) _ _ _ _ _ => apply rp_bind
  | |- rp (ret _) _ _ _ _ _ => apply rp_ret
  | |- rp (raw _ _ _) _ _ _ _ _ => unfold raw
  | |- rp (rb_len) _ _ _ _ _ => unfold rb_len
  | |- rp (rb_range _ _) _ _ _ _ _ => unfold rb_range
  | |- rp (usub _ _ _) _ _ _ _ _ => apply rp_usub; [lia|]
  | |- rp (uadd _ _ _) _ _ _ _ _ => apply rp_uadd; [lia|]
  | |- rp (raw_add _ _ _ _) _ _ _ _ _ => apply rp_raw_add; [lia|]
  | |- rp (raw_add_assign _ _ _ _) _ _ _ _ _ => apply rp_raw_add_assign; [lia|]
  | |- rp (raw_sub _ _ _ 1) _ _ _ _ _ => apply rp_raw_sub; [slia|]
  | |- rp (raw_sub_assign _ _ _ 1) _ _ _ _ _ => apply rp_raw_sub_assign; [slia|]
  | |- rp (raw_inc _ _ _) _ _ _ _ _ => apply rp_raw_inc; [slia|]
  | |- rp (raw_dec _ _ _) _ _ _ _ _ => apply rp_raw_dec; [slia|]
  | |- rp (raw_from _ _ _) _ _ _ _ _ => apply rp_raw_from; [slia|]
  | |- rp (ptr _ _ _) _ _ _ _ _ => apply rp_ptr; [slia|]
  | |- rp (set_origin _) _ _ _ _ _ => apply rp_origin
  | |- rp (set_length _) _ _ _ _ _ => apply rp_length
  | |- rp (rb_force_write _ _ _ _) _ _ _ _ _ => unfold rb_force_write
  | |- rp (slot_write _ _ _) _ _ _ _ _ => apply rp_write
  | |- rp (rb_force_read _ _ _) _ _ _ _ _ => unfold rb_force_read
  | |- rp (rb_get_unchecked _ _ _) _ _ _ _ _ => unfold rb_get_unchecked
  | |- rp (slot_read _ _) _ _ _ _ _ => apply rp_read; intros ? ?
  | |- rp (slot_peek _ _) _ _ _ _ _ => apply rp_peek; intros ?
  | |- rp (rb_force_drop _ _ _) _ _ _ _ _ => unfold rb_force_drop
  | |- rp (drop_values _ _) _ _ _ _ _ => apply (rp_drop_values HC)
  | |- rp panic _ _ _ _ _ => apply rp_panic
  | |- rp (panic_dropping _ _) _ _ _ _ _ => apply rp_panic_dropping
  end.
Ltac rsplit := cbn [origin rlen fst snd]; match goal with |- rp (if ?b then _ else _) _ _ _ _ _ => let E := fresh "E" in destruct b eqn:E; try lia end.

(** ** The loops *)
Context (v : A).
Lemma rp_for_drop k : forall i o n d P (Q : nat -> nat -> mem A -> unit -> Prop), i < N ->
  Q o n (replay v (map (fun j => SDrop (slot i j)) (seq 0 k)) d) tt -> rp (for_range e N k i (rb_force_drop e N)) o n d P Q.
Proof.
  induction k as [|k IH]; intros i o n d P Q Hi H; [apply rp_ret; exact H|]. cbn [for_range]. repeat rstep.
  apply IH; [apply slot_lt|]. rewrite seq_S_map in H. cbn [replay leave] in H. rewrite slot_0 in H by exact Hi.
  erewrite map_ext in H; [exact H|]. intros j. cbv beta. rewrite slot_slot. reflexivity.
Qed.
Lemma rp_for_pull k : forall i o n d P (Q : nat -> nat -> mem A -> unit -> Prop), i < N -> k < N ->
  Q o n (replay v (map (fun j => SMove (slot i (j + 1)) (slot i j)) (seq 0 k)) d) tt -> rp (for_range e N k i (pull_one e N 1)) o n d P Q.
Proof.
  induction k as [|k IH]; intros i o n d P Q Hi Hk H; [apply rp_ret; exact H|]. cbn [for_range]. unfold pull_one at 1. repeat rstep.
  apply IH; [apply slot_lt|lia|]. rewrite seq_S_map in H. cbn [replay leave Nat.add] in H. rewrite slot_0 in H by exact Hi.
  rewrite <- H0 at 1. erewrite map_ext in H; [exact H|]. intros j. cbv beta. rewrite !slot_slot. f_equal.
Qed.
Lemma rp_shift_down fuel : forall k i t o n d P (Q : nat -> nat -> mem A -> unit -> Prop), k <= fuel -> k < N -> t <= N - 1 - k ->
  i = slot o (t + k) ->
  Q o n (replay v (map (fun j => SMove (slot o (t + k - j)) (slot o (t + k - j + 1))) (seq 0 k)) d) tt ->
  rp (shift_down e N fuel i (slot o t) 1) o n d P Q.
Proof.
  induction fuel as [|fuel IH]; intros k i t o n d P Q Hf Hk Ht -> H.
  - assert (k = 0) as -> by lia. cbn [shift_down]. rewrite Nat.add_0_r, Nat.eqb_refl. apply rp_ret. exact H.
  - cbn [shift_down]. destruct k as [|k]; [rewrite Nat.add_0_r, Nat.eqb_refl; apply rp_ret; exact H|].
    rewrite (proj2 (Nat.eqb_neq _ _)); [|intros E; apply slot_inj in E; lia]. 
    pose proof (slot_lt o (t + S k)). repeat rstep.
    rewrite left_slot by lia. replace (t + S k - 1) with (t + k) by lia.
    eapply (IH k); [lia|lia|lia|reflexivity|].
    rewrite seq_S_map in H. cbn [replay leave] in H. rewrite Nat.sub_0_r in H. rewrite slot_slot. rewrite <- H1 at 1.
    erewrite map_ext in H; [exact H|]. intros j. cbv beta. replace (t + S k - S j) with (t + k - j) by lia. reflexivity.
Qed.
Lemma rp_close_up fuel : forall k i o n d P (Q : nat -> nat -> mem A -> unit -> Prop), k <= fuel -> i + k < N ->
  Q o n (replay v (map (fun j => SMove (slot o (i + j + 1)) (slot o (i + j))) (seq 0 k)) d) tt ->
  rp (close_up e N fuel (slot o i) (slot o (i + k))) o n d P Q.
Proof.
  induction fuel as [|fuel IH]; intros k i o n d P Q Hf Hk H.
  - assert (k = 0) as -> by lia. cbn [close_up]. rewrite Nat.add_0_r, Nat.eqb_refl. apply rp_ret. exact H.
  - cbn [close_up]. destruct k as [|k]; [rewrite Nat.add_0_r, Nat.eqb_refl; apply rp_ret; exact H|].
    rewrite (proj2 (Nat.eqb_neq _ _)); [|intros E; apply slot_inj in E; lia]. 
    pose proof (slot_lt o i). repeat rstep.
    rewrite slot_slot. replace (i + S k) with (i + 1 + k) by lia.
    apply (IH k); [lia|lia|].
    rewrite seq_S_map in H. cbn [replay leave] in H. rewrite Nat.add_0_r in H. rewrite slot_slot in H1. rewrite <- H1 at 1.
    erewrite map_ext in H; [exact H|]. intros j. cbv beta. replace (i + S j) with (i + 1 + j) by lia. reflexivity.
Qed.
Lemma rp_close_down fuel : forall k o n d P (Q : nat -> nat -> mem A -> unit -> Prop), k <= fuel -> k < N -> o < N ->
  Q o n (replay v (map (fun j => SMove (slot o (k - 1 - j)) (slot o (k - j))) (seq 0 k)) d) tt ->
  rp (close_down e N fuel (slot o k) o) o n d P Q.
Proof.
  induction fuel as [|fuel IH]; intros k o n d P Q Hf Hk Ho H.
  - assert (k = 0) as -> by lia. cbn [close_down]. rewrite slot_0, Nat.eqb_refl by exact Ho. apply rp_ret. exact H.
  - cbn [close_down]. destruct k as [|k]; [rewrite slot_0, Nat.eqb_refl by exact Ho; apply rp_ret; exact H|].
    rewrite (proj2 (Nat.eqb_neq _ _)); [|rewrite <- (slot_0 o Ho) at 2; intros E; apply slot_inj in E; lia]. 
    pose proof (slot_lt o (S k)). repeat rstep.
    rewrite left_slot by lia. replace (S k - 1) with k by lia.
    apply (IH k); [lia|lia|exact Ho|].
    rewrite seq_S_map in H. cbn [replay leave] in H. rewrite !Nat.sub_0_r in H. replace (S k - 1) with k in * by lia.
    rewrite left_slot in H1 by lia. replace (S k - 1) with k in * by lia. rewrite <- H1 at 1.
    erewrite map_ext in H; [exact H|]. intros j. cbv beta. replace (k - S j) with (k - 1 - j) by lia. replace (S k - S j) with (k - j) by lia. reflexivity.
Qed.
Lemma rp_peek_all k : forall i o n d P (Q : nat -> nat -> mem A -> list A -> Prop), i < N ->
  (forall l, Q o n d l) -> rp (rb_peek_all_ e N k i) o n d P Q.
Proof.
  induction k as [|k IH]; intros i o n d P Q Hi H; [apply rp_ret; apply H|]. cbn [rb_peek_all_]. repeat rstep.
  apply IH; [apply slot_lt|]. intros l. repeat rstep. apply H.
Qed.
Lemma rp_skip k : forall i o n d P (Q : nat -> nat -> mem A -> nat -> Prop), i < N -> Q o n d (slot i k) -> rp (skip_range e N k i) o n d P Q.
Proof.
  induction k as [|k IH]; intros i o n d P Q Hi H; cbn [skip_range]; [apply rp_ret; rewrite slot_0 in H by exact Hi; exact H|].
  repeat rstep. apply IH; [apply slot_lt|]. rewrite slot_slot. exact H.
Qed.
Lemma replay_look k (f : nat -> nat) (m : mem A) : replay v (map (fun j => SLook (f j)) (seq 0 k)) m = m.
Proof. clear. generalize 0. induction k as [|k IH]; intros i; [reflexivity|]. apply IH. Qed.

Ltac no_panic := match goal with |- _ /\ _ => split; [cbn [ring_steps]; repeat (match goal with |- context [if ?b then _ else _] => let E := fresh "E" in destruct b eqn:E; try lia end); reflexivity|reflexivity] end.
Ltac branch :=
  cbn [ring_steps]; cbv zeta;
  match goal with
  | |- exists cs, ?x = _ /\ _ =>
      let y := fresh "y" in remember x as y eqn:Ey;
      repeat match type of Ey with context [if ?b then _ else _] => let E := fresh "E" in destruct b eqn:E; try lia end; subst y
  end.
Lemma ring_code_rp op o n d : o < N -> n <= N ->
  rp (ring_code op v) o n d (fun r' => ring_steps N o n op = None /\ r' = Ring o n d)
     (fun o' n' d' _ => exists ss, ring_steps N o n op = Some (ss, (o', n')) /\ forall p, d' p = replay v ss d p).
Proof.
  intros Ho Hn. destruct op; cbn [ring_code];
    unfold rb_push_front, rb_push_back, rb_pop_front, rb_pop_back, rb_get, rb_index, rb_assign, rb_insert, rb_remove, rb_drop_left, rb_drop_right,
      rb_clear, rb_contents, rb_is_full, rb_is_empty; repeat (rstep || rsplit); try no_panic.
  all: try (branch; eexists; split; [reflexivity|intros p; reflexivity]).
  (* insert at the ends *)
  - branch. eexists. split; [reflexivity|]. intros p. cbn [replay leave]. unfold upd. destruct (_ =? _); reflexivity.
  - unfold rb_push_front, rb_is_full. repeat (rstep || rsplit); branch. eexists. split; [reflexivity|intros p; reflexivity].
  - unfold rb_push_back, rb_is_full. repeat (rstep || rsplit); branch. eexists. split; [reflexivity|intros p; reflexivity].
  - replace (n - 1) with (i + (n - 1 - i)) by lia.
    eapply (rp_shift_down N (n - 1 - i)); [lia|lia|lia|reflexivity|]. pose proof (slot_lt o i). repeat rstep. branch.
    eexists. split; [reflexivity|]. intros p. rewrite !replay_app. cbn [replay leave]. rewrite slot_slot in *.
    replace (n - i) with (S (n - 1 - i)) by lia. rewrite seq_S_last, replay_app. cbn [replay leave].
    replace (n - 1 - (n - 1 - i)) with i by lia. replace (n - (n - 1 - i)) with (i + 1) by lia.
    replace (map (fun j => SMove (slot o (i + (n - 1 - i) - j)) (slot o (i + (n - 1 - i) - j + 1))) (seq 0 (n - 1 - i)))
      with (map (fun j => SMove (slot o (n - 1 - j)) (slot o (n - j))) (seq 0 (n - 1 - i))) in *; [rewrite <- H0 at 1; reflexivity|].
    apply map_ext_in. intros j Hj. apply in_seq in Hj. f_equal; f_equal; lia.
  - pose proof (left_lt o). repeat rstep. cbn [fst snd]. rewrite Nat.min_l by lia. apply rp_for_pull; [assumption|lia|]. repeat rstep. branch.
    eexists. split; [reflexivity|]. intros p. rewrite !replay_app. reflexivity.
  - replace (n - 1) with (i + (n - 1 - i)) at 1 by lia. apply rp_close_up; [lia|lia|]. repeat rstep. branch.
    eexists. split; [reflexivity|]. intros p. rewrite !replay_app. reflexivity.
  - apply rp_close_down; [lia|lia|assumption|]. repeat rstep. branch.
    eexists. split; [reflexivity|]. intros p. rewrite !replay_app. reflexivity.
  - rewrite Nat.min_l by lia. apply rp_for_drop; [assumption|]. repeat rstep. branch.
    eexists. split; [reflexivity|]. intros p. rewrite !replay_app. reflexivity.
  - apply rp_skip; [assumption|]. repeat rstep. apply rp_for_drop; [apply slot_lt|]. repeat rstep. branch.
    eexists. split; [reflexivity|]. intros p. rewrite !replay_app. cbn [replay leave].
    erewrite map_ext; [reflexivity|]. intros j. cbv beta. rewrite slot_slot. reflexivity.
  - apply rp_for_drop; [assumption|]. repeat rstep. branch.
    eexists. split; [reflexivity|]. intros p. rewrite !replay_app. reflexivity.
  - apply rp_peek_all; [assumption|]. intros l. repeat rstep. branch.
    eexists. split; [reflexivity|]. intros p. cbn [app replay leave]. rewrite replay_look. reflexivity.
Qed.
(** Whether a method returns or panics, where the two fields are afterwards and what is in the slots is the same in both
    models; a method that panics changes nothing. *)
Lemma ring_code_replays op r g : origin r < N -> rlen r <= N ->
  match ring_code op v r g with
  | Ret r' _ _ => exists ss, ring_steps N (origin r) (rlen r) op = Some (ss, (origin r', rlen r')) /\ forall p, rdata r' p = replay v ss (rdata r) p
  | Panic r' _ => ring_steps N (origin r) (rlen r) op = None /\ r' = r
  | _ => True
  end.
Proof. destruct r as [o n d]. intros H1 H2. exact (ring_code_rp op o n d H1 H2 g). Qed.
End link.
