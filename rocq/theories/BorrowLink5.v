(** * The blocks BorrowModel2.v lists for methods on two [RingBuffer]s are the ones RingModel.v copies *)
From Verif Require Import Machine Spec Prims RingModel RingProofs.
From Verif Require BorrowModel BorrowSpec.
From Verif Require Import BorrowModel2 BorrowLink4.

Lemma replay2_app {A} s t (m : mem A * mem A) : replay2 (s ++ t) m = replay2 t (replay2 s m).
Proof. revert m. induction s as [|x s IH]; intros m; [reflexivity|]. apply IH. Qed.
Definition same2 {A} (m m' : mem A * mem A) : Prop := forall p, fst m p = fst m' p /\ snd m p = snd m' p.
Lemma leave2_same {A} b (m m' : mem A * mem A) : same2 m m' -> same2 (leave2 b m) (leave2 b m').
Proof. destruct b as [[f t] n]. intros H p. cbn. destruct (H p) as [-> ->]. destruct (H (f + (p - t))) as [_ ->]. auto. Qed.
Lemma replay2_same {A} bs : forall (m m' : mem A * mem A), same2 m m' -> same2 (replay2 bs m) (replay2 bs m').
Proof. induction bs as [|b bs IH]; intros m m' H; [exact H|]. apply IH, leave2_same, H. Qed.

Section link.
Context {A : Type} (e : env A) (N : nat).
Notation st := (ring A * ring A)%type.
(** The method each [ring_op2] stands for; [split_off] gets the empty buffer the method makes. *)
Definition ring_code2 (op : ring_op2) : M A st unit :=
  match op with
  | RDrainFront count => rb_drain_from_front e N count
  | RDrainBack count => rb_drain_from_back e N count
  | RAppend => rb_append e N
  | RSplitOff i => fun s g =>
      match rb_split_off e N i (snd s) g with
      | Ret r g' (b, _) => Ret (b, r) g' tt
      | Panic r g' => Panic (fst s, r) g'
      | UB u => UB u | Hang => Hang | Abort => Abort
      end
  end.
Definition shape (r : ring A) : nat * nat := (origin r, rlen r).
Definition mems (s : st) : mem A * mem A := (rdata (fst s), rdata (snd s)).

Definition rq {X} (m : M A st X) (s : st) (P : st -> Prop) (Q : st -> X -> Prop) : Prop :=
  forall g, match m s g with Ret s' _ x => Q s' x | Panic s' _ => P s' | _ => True end.
Lemma rq_bind {X Y} (m : M A st X) (k : X -> M A st Y) s P Q : rq m s P (fun s' x => rq (k x) s' P Q) -> rq (bind m k) s P Q.
Proof. intros H g. specialize (H g). unfold bind. destruct (m _ _) as [r' g' x| | | |]; auto. exact (H g'). Qed.
Lemma rq_get {Y} (k : st -> M A st Y) s P Q : rq (k s) s P Q -> rq (bind get k) s P Q.
Proof. intros H g. exact (H g). Qed.
Lemma rq_eq {X} (m : M A st X) (x : X) s P (Q : st -> X -> Prop) : (forall r g, m r g = Ret r g x) -> Q s x -> rq m s P Q.
Proof. intros E H g. rewrite E. exact H. Qed.
Lemma rq_ret {X} (x : X) s P (Q : st -> X -> Prop) : Q s x -> rq (ret x) s P Q.
Proof. intros H g. exact H. Qed.
Lemma rq_panic {X} s (P : st -> Prop) (Q : st -> X -> Prop) : P s -> rq panic s P Q.
Proof. intros H g. exact H. Qed.
Lemma rq_fst {X} (m : M A (ring A) X) r1 r2 P (Q : st -> X -> Prop) :
  (forall g, match m r1 g with Ret r' _ x => Q (r', r2) x | Panic r' _ => P (r', r2) | _ => True end) -> rq (on_fst m) (r1, r2) P Q.
Proof. intros H g. specialize (H g). unfold on_fst. cbn [fst snd]. destruct (m r1 g); exact H. Qed.
Lemma rq_snd {X} (m : M A (ring A) X) r1 r2 P (Q : st -> X -> Prop) :
  (forall g, match m r2 g with Ret r' _ x => Q (r1, r') x | Panic r' _ => P (r1, r') | _ => True end) -> rq (on_snd m) (r1, r2) P Q.
Proof. intros H g. specialize (H g). unfold on_snd. cbn [fst snd]. destruct (m r2 g); exact H. Qed.
Lemma rq_transfer f t n s P (Q : st -> unit -> Prop) :
  Q (Ring (origin (fst s)) (rlen (fst s)) (mrecv (rdata (fst s)) (rdata (snd s)) f t n),
     Ring (origin (snd s)) (rlen (snd s)) (mclear (rdata (snd s)) f n)) tt -> rq (slots_transfer N N f t n) s P Q.
Proof. intros H g. unfold slots_transfer. destruct (_ && _); [exact H|exact I]. Qed.

Hypothesis HW : N + N < word e.
Hypothesis HN : 0 < N.
Notation slot := (slot_of N).
(** The fields are left alone, the blocks moved. *)
Definition moves_blocks (bs : list (nat * nat * nat)) (s s' : st) : Prop :=
  shape (fst s') = shape (fst s) /\ shape (snd s') = shape (snd s) /\ same2 (mems s') (replay2 bs (mems s)).
Lemma moves_app bs bs' s s1 s2 : moves_blocks bs s s1 -> moves_blocks bs' s1 s2 -> moves_blocks (bs ++ bs') s s2.
Proof.
  intros (H1 & H2 & H3) (K1 & K2 & K3). split; [congruence|]. split; [congruence|]. rewrite replay2_app.
  intros p. destruct (K3 p) as [-> ->]. apply replay2_same. exact H3.
Qed.
Ltac qstep :=
  match goal with
  | |- rq (bind get _) _ _ _ => apply rq_get
  | |- rq (bind _ _) _ _ _ => apply rq_bind
  | |- rq (ret _) _ _ _ => apply rq_ret
  | |- rq (usub _ _ _) _ _ _ => eapply rq_eq; [intros; apply usub_ok; lia|]
  | |- rq (uadd _ _ _) _ _ _ => eapply rq_eq; [intros; apply uadd_ok; lia|]
  | |- rq (raw_from _ _ _) _ _ _ => eapply rq_eq; [intros; apply raw_from_ok; lia|]
  | |- rq (raw_add _ _ _ _) _ _ _ => eapply rq_eq; [intros; rewrite raw_add_ok, (slot_wr e N HW HN) by lia; reflexivity|]
  | |- rq (raw_add_assign _ _ _ _) _ _ _ => eapply rq_eq; [intros; rewrite raw_add_assign_ok, (slot_wr e N HW HN) by lia; reflexivity|]
  | |- rq (debug_assert _ _) _ _ _ => eapply rq_eq; [intros; apply debug_assert_ok; lia|]
  | |- rq (ptr _ _ _) _ _ _ => eapply rq_eq; [intros; apply ptr_ok; lia|]
  | |- rq (slots_transfer _ _ _ _ _) _ _ _ => apply rq_transfer
  | |- rq (if ?b then _ else _) _ _ _ => let E := fresh "E" in destruct b eqn:E; try lia
  end.
Lemma rq_conseq {X} (m : M A st X) s P (Q Q' : st -> X -> Prop) : rq m s P Q -> (forall s' x, Q s' x -> Q' s' x) -> rq m s P Q'.
Proof. intros H HQ g. specialize (H g). destruct (m s g); auto. Qed.
Lemma rq_force_copy f t n s P : f + n <= N -> t + n <= N ->
  rq (rb_force_copy_to e N f t n) s P (fun s' _ => moves_blocks [(f, t, n)] s s').
Proof.
  intros Hf Ht. unfold rb_force_copy_to. destruct (0 <? n) eqn:E.
  - repeat qstep. split; [reflexivity|]. split; [reflexivity|]. intros p. cbn. auto.
  - apply rq_ret. split; [reflexivity|]. split; [reflexivity|]. intros p. assert (n = 0) as -> by lia. cbn [replay2 leave2 fst snd mems].
    split; match goal with |- _ = if ?b then _ else _ => destruct b eqn:?; [lia|reflexivity] end.
Qed.
Lemma rq_copy_to f t n s P fuel : f + n <= N -> f < N -> t < N -> n <= N ->
  rq (copy_from_ e N fuel f t n) s P (fun s' _ => moves_blocks (copy_to N f t n) s s').
Proof.
  intros Hf Hf' Ht Hn. destruct fuel; cbn [copy_from_]; repeat qstep; unfold copy_to.
  all: destruct (N <? t + n) eqn:E'; try lia.
  all: try (apply rq_force_copy; lia).
  all: eapply rq_conseq; [apply rq_force_copy; lia|]; intros s1 [] H1; repeat qstep;
    (eapply rq_conseq; [apply rq_force_copy; [unfold slot_of; rewrite Nat.mod_small by lia; lia|lia]|]);
    intros s2 [] H2; exact (moves_app [_] [_] s s1 s2 H1 H2).
Qed.
Lemma rq_copy_from f t n s P : f < N -> t < N -> n <= N -> 
  rq (copy_from e N f t n) s P (fun s' _ => moves_blocks (copy_blocks N f t n) s s').
Proof.
  intros Hf Ht Hn. unfold copy_from, copy_blocks. destruct (N <? f + n) eqn:E; [|apply rq_copy_to; lia].
  cbn [copy_from_]. apply rq_bind. eapply rq_eq; [intros; apply uadd_ok; lia|]. rewrite E.
  do 4 qstep. apply rq_bind. eapply rq_conseq; [apply rq_copy_to; lia|]. intros s1 [] H1.
  repeat qstep. eapply rq_conseq; [apply rq_copy_to; [lia|lia|apply (slot_lt e N HW HN)|lia]|].
  intros s2 [] H2. exact (moves_app _ _ s s1 s2 H1 H2).
Qed.

Lemma uadd_cases (a b : nat) (s : st) P (Q : st -> nat -> Prop) : a <= N -> b < word e ->
  (a + b < word e -> Q s (a + b)) -> (word e <= a + b -> P s /\ forall x, Q s x) -> rq (uadd e a b) s P Q.
Proof.
  intros Ha Hb H1 H2 g. unfold uadd. destruct (_ <? _) eqn:E; [apply H1; lia|]. destruct (H2 ltac:(lia)) as [H3 H4].
  destruct (debug e); [exact H3|apply H4].
Qed.
Lemma raw_slot i (r : ring A) g : origin r + i < N + N -> raw e N i r g = Ret r g (slot (origin r) i).
Proof. intros H. unfold raw, bind, get. rewrite raw_add_ok, (slot_wr e N HW HN) by lia. reflexivity. Qed.
Definition fits (s : st) : Prop := origin (fst s) < N /\ rlen (fst s) <= N /\ origin (snd s) < N /\ rlen (snd s) <= N.
Ltac blocks := cbn [ring_blocks shape]; repeat match goal with |- context [if ?b then _ else _] => let E := fresh "E" in destruct b eqn:E; try lia end.
Ltac nothing := split; [blocks; reflexivity|reflexivity].
Lemma drain_front_rq count r1 r2 : fits (r1, r2) -> count < word e ->
  rq (rb_drain_from_front e N count) (r1, r2)
    (fun s' => ring_blocks N (shape r1) (shape r2) (RDrainFront count) = None /\ s' = (r1, r2))
    (fun s' _ => exists bs, ring_blocks N (shape r1) (shape r2) (RDrainFront count) = Some (bs, (shape (fst s'), shape (snd s'))) /\
       same2 (mems s') (replay2 bs (rdata r1, rdata r2))).
Proof.
  intros (H1 & H2 & H3 & H4) Hc. cbn [fst snd] in *. unfold rb_drain_from_front. apply rq_get. cbn [fst snd]. apply rq_bind, uadd_cases; [lia|lia| |].
  2: { intros HO. split; [nothing|]. intros x. qstep; [apply rq_panic; nothing|]. qstep. apply rq_panic. nothing. }
  intros HS. qstep; [apply rq_panic; nothing|]. qstep; [apply rq_panic; nothing|].
  apply rq_bind, rq_fst. intros g. rewrite raw_slot by lia.
  apply rq_bind. eapply rq_conseq; [apply rq_copy_from; [lia|apply (slot_lt e N HW HN)|lia]|]. intros [s1 s2] [] (K1 & K2 & K3).
  cbn [fst snd shape] in K1, K2. injection K1 as K1 K1'. injection K2 as K2 K2'.
  repeat qstep. apply rq_snd. intros ?. unfold set_origin. repeat qstep. apply rq_snd. intros ?. unfold set_length at 1. repeat qstep. apply rq_fst. intros ?. unfold set_length at 1.
  cbn [fst snd shape ring_blocks origin rlen]. replace ((N <? rlen r1 + count) || (rlen r2 <? count)) with false by lia.
  rewrite K1. eexists. split; [reflexivity|]. exact K3.
Qed.
Lemma drain_back_rq count r1 r2 : fits (r1, r2) -> count < word e ->
  rq (rb_drain_from_back e N count) (r1, r2)
    (fun s' => ring_blocks N (shape r1) (shape r2) (RDrainBack count) = None /\ s' = (r1, r2))
    (fun s' _ => exists bs, ring_blocks N (shape r1) (shape r2) (RDrainBack count) = Some (bs, (shape (fst s'), shape (snd s'))) /\
       same2 (mems s') (replay2 bs (rdata r1, rdata r2))).
Proof.
  intros (H1 & H2 & H3 & H4) Hc. cbn [fst snd] in *. unfold rb_drain_from_back. apply rq_get. cbn [fst snd]. apply rq_bind, uadd_cases; [lia|lia| |].
  2: { intros HO. split; [nothing|]. intros x. qstep; [apply rq_panic; nothing|]. qstep. apply rq_panic. nothing. }
  intros HS. qstep; [apply rq_panic; nothing|]. qstep; [apply rq_panic; nothing|].
  assert (EL : lg N count (origin r1) = (origin r1 + (N - count)) mod N).
  { unfold lg. destruct (count <=? origin r1) eqn:E'.
    - replace (origin r1 + (N - count)) with (origin r1 - count + 1 * N) by lia. rewrite Nat.mod_add, Nat.mod_small by lia. reflexivity.
    - rewrite Nat.mod_small by lia. lia. }
  apply rq_bind. eapply rq_eq; [intros; rewrite raw_sub_assign_ok, EL by lia; reflexivity|].
  apply rq_bind, rq_fst. intros g. unfold set_origin. repeat qstep.
  eapply rq_conseq; [apply rq_copy_from; [apply (slot_lt e N HW HN)|apply Nat.mod_upper_bound; lia|lia]|]. intros [s1 s2] [] (K1 & K2 & K3).
  cbn [fst snd shape origin rlen] in K1, K2. injection K1 as K1 K1'. injection K2 as K2 K2'.
  repeat qstep. apply rq_snd. intros ?. unfold set_length at 1. repeat qstep. apply rq_fst. intros ?. unfold set_length at 1.
  cbn [fst snd shape ring_blocks origin rlen]. replace ((N <? rlen r1 + count) || (rlen r2 <? count)) with false by lia.
  rewrite K1, K2. eexists. split; [reflexivity|]. exact K3.
Qed.
(** Whether the method returns or panics, where the fields are afterwards and what is in the slots is the same in both
    models; a method that panics changes nothing. *)
Lemma ring_code2_replays op r1 r2 g : fits (r1, r2) ->
  match op with RDrainFront count | RDrainBack count => count < word e | RSplitOff _ => r1 = ring0 | RAppend => True end ->
  match ring_code2 op (r1, r2) g with
  | Ret (r1', r2') _ _ => exists bs, ring_blocks N (shape r1) (shape r2) op = Some (bs, (shape r1', shape r2')) /\
      forall p, rdata r1' p = fst (replay2 bs (rdata r1, rdata r2)) p /\ rdata r2' p = snd (replay2 bs (rdata r1, rdata r2)) p
  | Panic s' _ => ring_blocks N (shape r1) (shape r2) op = None /\ s' = (r1, r2)
  | _ => True
  end.
Proof.
  intros HF Hop. destruct op as [count|count| |i]; cbn [ring_code2].
  - pose proof (drain_front_rq count r1 r2 HF Hop g) as H. destruct (rb_drain_from_front _ _ _ _ _) as [[r1' r2'] g' x| | | |]; exact H.
  - pose proof (drain_back_rq count r1 r2 HF Hop g) as H. destruct (rb_drain_from_back _ _ _ _ _) as [[r1' r2'] g' x| | | |]; exact H.
  - unfold rb_append, bind, get. cbn [fst snd]. pose proof HF as (H1 & H2 & H3 & H4). cbn [fst snd] in *.
    pose proof (drain_front_rq (rlen r2) r1 r2 HF ltac:(lia) g) as H.
    assert (E : ring_blocks N (shape r1) (shape r2) (RDrainFront (rlen r2)) = ring_blocks N (shape r1) (shape r2) RAppend).
    { cbn [ring_blocks shape]. replace (rlen r2 <? rlen r2) with false by lia. rewrite Bool.orb_false_r. reflexivity. }
    rewrite E in H. destruct (rb_drain_from_front _ _ _ _ _) as [[r1' r2'] g' x| | | |]; exact H.
  - subst r1. pose proof HF as (H1 & H2 & H3 & H4). cbn [fst snd] in *. unfold rb_split_off. erewrite (bind_Ret get) by reflexivity.
    destruct (rlen r2 <? i) eqn:E1; [split; [cbn [ring_blocks shape]; rewrite E1; reflexivity|reflexivity]|].
    destruct (i =? rlen r2) eqn:E2.
    { unfold rb_new, bind. rewrite raw_from_ok by lia. cbn [ret]. exists []. cbn [ring_blocks shape]. rewrite E1, E2. split; [reflexivity|]. intros p. split; reflexivity. }
    erewrite bind_Ret; [|unfold rb_new, bind; rewrite raw_from_ok by lia; reflexivity].
    set (m := bind (on_snd (usub e (rlen r2) i)) _).
    assert (Q : rq m (ring0, r2) (fun s' => False)
       (fun s' _ => exists bs, ring_blocks N (shape ring0) (shape r2) (RSplitOff i) = Some (bs, (shape (fst s'), shape (snd s'))) /\
         same2 (mems s') (replay2 bs (rdata ring0, rdata r2)))).
    { subst m. apply rq_bind, rq_snd. intros g1. rewrite usub_ok by lia. apply rq_bind, rq_snd. intros g2. rewrite raw_slot by lia. do 2 qstep. apply rq_bind. eapply rq_conseq; [apply rq_copy_from; [apply (slot_lt e N HW HN)|lia|lia]|].
      intros [s1 s2] [] (K1 & K2 & K3). cbn [fst snd shape origin rlen ring0] in K1, K2. injection K1 as K1 K1'. injection K2 as K2 K2'.
      apply rq_bind, rq_snd. intros ?. unfold set_length at 1. apply rq_fst. intros ?. unfold set_length at 1.
      cbn [fst snd shape ring_blocks origin rlen]. rewrite E1, E2, K1, K2. eexists. split; [reflexivity|]. exact K3. }
    specialize (Q g). unfold with_local. destruct (m (ring0, r2) g) as [[r1' r2'] g' x|s' g'| | |]; try exact I; [exact Q|contradiction].
Qed.
End link.
