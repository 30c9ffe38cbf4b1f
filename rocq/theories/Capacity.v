(** * The capacity is only a limit: a program that does not panic does the same with a larger capacity. *)
From Verif Require Import Machine Spec SpecProps Prims Program ChunkModel ChunkProofs ChunkProgram
  RingModel RingProofs RingProgram InlineModel InlineSpec InlineProgram Portable.

Definition keeps {A S R} (x y : sres A S R) : Prop := match x with SRet _ _ _ => y = x | SPanic _ _ _ => True end.
Lemma keeps_refl {A S R} (x : sres A S R) : keeps x x.
Proof. destruct x; cbn; auto. Qed.
Lemma keeps_map {A S R R'} (f : R -> R') (x y : sres A S R) : keeps x y -> keeps (smapR f x) (smapR f y).
Proof. destruct x; cbn; [intros ->|]; auto. Qed.

Section generic.
Context {A op0 op1 opn op2 res st : Type} (S1 S2 : skit A op0 op1 opn op2 res st) (ok : op1 -> Prop).
Hypothesis K0 : forall o, keeps (spec0 S1 o) (spec0 S2 o).
Hypothesis K1 : forall o x, ok o -> keeps (spec1 S1 o x) (spec1 S2 o x).
Hypothesis Kn : forall o x, keeps (specn S1 o x) (specn S2 o x).
Hypothesis K2 : forall o x, keeps (spec2 S1 o x) (spec2 S2 o x).
Hypothesis Ki : forall x, items S2 x = items S1 x.
Definition asks (c : cmd op0 op1 opn op2) : Prop := match c with Call _ o => ok o | _ => True end.
Lemma keeps_step c s : asks c -> (let '(_, _, _, ev) := sstep S1 c s in ev <> Panicked) -> sstep S2 c s = sstep S1 c s.
Proof.
  destruct c as [o|i o|i o|i j o|i]; cbn [asks sstep]; intros Ho.
  - specialize (K0 o). destruct (spec0 S1 o); cbn in K0; [rewrite K0; auto|congruence].
  - destruct (s !! i) as [[x|]|]; auto. specialize (K1 o x Ho). destruct (spec1 S1 o x); cbn in K1; [rewrite K1; auto|congruence].
  - destruct (s !! i) as [[x|]|]; auto. specialize (Kn o x). destruct (specn S1 o x); cbn in Kn; [rewrite Kn; auto|congruence].
  - destruct (i =? j); auto. destruct (s !! i) as [[x|]|]; auto. destruct (s !! j) as [[y|]|]; auto.
    specialize (K2 o (x, y)). destruct (spec2 S1 o (x, y)) as [[x' y'] r d|[x' y'] d k]; cbn in K2; [rewrite K2; auto|congruence].
  - destruct (s !! i) as [[x|]|]; auto. rewrite Ki. auto.
Qed.
Lemma keeps_run p : Forall asks p -> forall s, ~ In Panicked (s_events (srun S1 p s)) ->
  s_store (srun S2 p s) = s_store (srun S1 p s) /\ s_dropped (srun S2 p s) = s_dropped (srun S1 p s) /\
  s_leaked (srun S2 p s) = s_leaked (srun S1 p s) /\ s_events (srun S2 p s) = s_events (srun S1 p s).
Proof.
  induction 1 as [|c p Hc _ IH]; intros s; cbn [srun]; [auto|]. pose proof (keeps_step c s Hc) as E.
  destruct (sstep S1 c s) as [[[s' d] k] ev] eqn:E1. cbn [s_events]. intros Hn.
  rewrite E by (intros ->; apply Hn; left; reflexivity).
  destruct (IH s') as (H1 & H2 & H3 & H4); [intros H; apply Hn; right; exact H|]. cbn [s_store s_dropped s_leaked s_events].
  rewrite H1, H2, H3, H4. auto.
Qed.
End generic.

(** That nothing panics can be seen from the run of the code. *)
Lemma no_panic {A op0 op1 opn op2 res st sst} (K : kit A op0 op1 opn op2 res st) (S : skit A op0 op1 opn op2 res sst) (holds : st -> sst -> Prop)
  (R : refines K S holds) p X Y g : Forall2 (orel holds) X Y -> all_legal S p Y ->
  ~ (exists x g' evs, run K p X g = Some (x, g', evs) /\ In Panicked evs) -> ~ In Panicked (s_events (srun S p Y)).
Proof. intros HX HL Hn Hin. apply Hn. destruct (run_sim K S holds R p X Y g HX HL) as (X' & g' & k & E & _). eauto 6. Qed.

Section lists.
Context {A : Type} (N N' : nat).
Hypothesis HN : N <= N'.
Ltac lim := repeat match goal with
  | |- keeps (if ?b then _ else _) _ => let E := fresh "E" in destruct b eqn:E; [|exact I]
  | |- keeps (SPanic _ _ _) _ => exact I
  end.
Lemma keep_push_back (v : A) l : keeps (bl_push_back N v l) (bl_push_back N' v l).
Proof. unfold bl_push_back. lim. rewrite if_true by lia. reflexivity. Qed.
Lemma keep_push_front (v : A) l : keeps (bl_push_front N v l) (bl_push_front N' v l).
Proof. unfold bl_push_front. lim. rewrite if_true by lia. reflexivity. Qed.
Lemma keep_insert i (v : A) l : keeps (bl_insert N i v l) (bl_insert N' i v l).
Proof. unfold bl_insert. lim. rewrite if_true by lia. reflexivity. Qed.
Lemma keep_extend it : forall (l : list A), keeps (bl_extend N it l) (bl_extend N' it l).
Proof.
  induction it as [|[a|] it IH]; intros l; cbn [bl_extend]; [reflexivity| |exact I]. lim. rewrite (if_true (length l <? N')) by lia. apply IH.
Qed.
Lemma keep_insert_from_any i n it (l : list A) : keeps (bl_insert_from_any N i n it l) (bl_insert_from_any N' i n it l).
Proof. unfold bl_insert_from_any. lim. rewrite if_true by lia. reflexivity. Qed.
Lemma keep_insert_from_tail i n it (l : list A) : keeps (bl_insert_from_tail N i n it l) (bl_insert_from_tail N' i n it l).
Proof.
  unfold bl_insert_from_tail. destruct ((length l + n <=? N) && (i =? length l)) eqn:E.
  - rewrite if_true by lia. apply keep_extend.
  - destruct (length l + n <=? N) eqn:E1.
    + rewrite if_false by lia. apply keep_insert_from_any.
    + unfold bl_insert_from_any at 1. rewrite if_false by lia. exact I.
Qed.
Lemma keep_from_iter (it : list (ev A)) : keeps (bl_from_iter N it) (bl_from_iter N' it).
Proof. unfold bl_from_iter. pose proof (keep_extend it []) as K. destruct (bl_extend N it []); cbn in K; [rewrite K; reflexivity|exact I]. Qed.
Lemma keep_unit (v : A) : keeps (bl_unit N v) (bl_unit N' v).
Proof. unfold bl_unit. lim. rewrite if_true by lia. reflexivity. Qed.
Lemma keep_pair (v1 v2 : A) : keeps (bl_pair N v1 v2) (bl_pair N' v1 v2).
Proof. unfold bl_pair. lim. rewrite if_true by lia. reflexivity. Qed.
Lemma keep_collect k : forall it (l : list A), keeps (bl_collect N k it l) (bl_collect N' k it l).
Proof.
  induction k as [|k IH]; intros it l; cbn [bl_collect]; [reflexivity|]. destruct it as [|[a|] it]; try exact I.
  lim. rewrite (if_true (length l <? N')) by lia. apply IH.
Qed.
Lemma keep_sealed {S R : Type} (x y : sres A S R) : keeps x y -> keeps (ssealed x) (ssealed y).
Proof. destruct x; cbn; [intros ->; reflexivity|auto]. Qed.
Lemma keep_append (ll : list A * list A) : keeps (bl_append N ll) (bl_append N' ll).
Proof. unfold bl_append. lim. rewrite if_true by lia. reflexivity. Qed.
Lemma keep_drain_from_front k (ll : list A * list A) : keeps (bl_drain_from_front N k ll) (bl_drain_from_front N' k ll).
Proof. unfold bl_drain_from_front. lim. rewrite if_true by lia. reflexivity. Qed.
Lemma keep_drain_from_back k (ll : list A * list A) : keeps (bl_drain_from_back N k ll) (bl_drain_from_back N' k ll).
Proof. unfold bl_drain_from_back. lim. rewrite if_true by lia. reflexivity. Qed.
Lemma keep_ordered (o : option nat) (v : A) l :
  keeps (if length l <? N then match o with Some i => smapR (unit_res (A:=A)) (bl_insert N i v l) | None => SPanic l [v] [] end else SPanic l [v] [])
        (if length l <? N' then match o with Some i => smapR unit_res (bl_insert N' i v l) | None => SPanic l [v] [] end else SPanic l [v] []).
Proof. lim. rewrite (if_true (length l <? N')) by lia. destruct o; [|exact I]. apply keeps_map, keep_insert. Qed.
End lists.

Ltac keep HN := repeat first [apply keeps_refl | apply keeps_map |
  apply keep_push_back; exact HN | apply keep_push_front; exact HN | apply keep_insert; exact HN | apply keep_extend; exact HN
  | apply keep_insert_from_any; exact HN | apply keep_insert_from_tail; exact HN | apply keep_from_iter; exact HN
  | apply keep_unit; exact HN | apply keep_pair; exact HN | apply keep_sealed | apply keep_collect; exact HN
  | apply keep_append; exact HN | apply keep_drain_from_front; exact HN | apply keep_drain_from_back; exact HN
  | apply keep_ordered; exact HN].

(** The program does not ask whether a container is full. *)
Definition chunk_asks {A} (c : cmd (chunk_op0 A) (chunk_op1 A) (chunk_opn A) (chunk_op2 A)) : Prop :=
  match c with Call _ CIsFull => False | _ => True end.
Definition ring_asks {A} (c : cmd (ring_op0 A) (ring_op1 A) (ring_opn A) (ring_op2 A)) : Prop :=
  match c with Call _ BIsFull => False | _ => True end.
Definition ia_asks {A} (c : cmd (ia_op0 A) (ia_op1 A) (ia_opn A) (ia_op2 A)) : Prop :=
  match c with Call _ IIsFull => False | _ => True end.

Section containers.
Context {A : Type} (e1 e2 : env A) (N1 N2 : nat).
Hypothesis Hc1 : calm e1.
Hypothesis Hc2 : calm e2.
Hypothesis HN : N1 <= N2.
Theorem chunk_capacity p X1 X2 L g1 g2 : N1 + N1 < word e1 -> N2 + N2 < word e2 ->
  Forall2 (orel (Holds N1)) X1 L -> Forall2 (orel (Holds N2)) X2 L ->
  all_legal (chunk_spec e1 N1) p L -> all_legal (chunk_spec e2 N2) p L ->
  Forall chunk_asks p -> ~ In Panicked (s_events (srun (chunk_spec e1 N1) p L)) ->
  alike (Holds N1) (Holds N2) g1 g2 (run (chunk_kit e1 N1) p X1 g1) (run (chunk_kit e2 N2) p X2 g2).
Proof.
  intros W1 W2 HX1 HX2 L1 L2 Ha Hp.
  destruct (keeps_run (chunk_spec e1 N1) (chunk_spec e2 N2) (fun o => match o with CIsFull => False | _ => True end)) with (p := p) (s := L)
    as (E1 & E2 & E3 & E4); [..|exact Hp|].
  - intros o. destruct o; cbn [spec0 chunk_spec]; keep HN.
  - intros o l Ho. destruct o; cbn [spec1 chunk_spec]; try contradiction; keep HN.
  - intros o l. destruct o; cbn [specn chunk_spec]; keep HN.
  - intros o l. destruct o; cbn [spec2 chunk_spec]; keep HN.
  - reflexivity.
  - eapply Forall_impl; [|exact Ha]. intros c. destruct c as [|? o| | |]; cbn; auto.
  - exact (runs_alike_parts _ _ _ _ _ _ (chunk_refines e1 N1 W1 Hc1) (chunk_refines e2 N2 W2 Hc2) p p X1 X2 L g1 g2 E1 E2 E3 E4 HX1 HX2 L1 L2).
Qed.
Theorem ring_capacity p X1 X2 L g1 g2 : N1 + N1 < word e1 -> N2 + N2 < word e2 -> 0 < N1 ->
  Forall2 (orel (RHolds N1)) X1 L -> Forall2 (orel (RHolds N2)) X2 L ->
  all_legal (ring_spec e1 N1) p L -> all_legal (ring_spec e2 N2) p L ->
  Forall ring_asks p -> ~ In Panicked (s_events (srun (ring_spec e1 N1) p L)) ->
  alike (RHolds N1) (RHolds N2) g1 g2 (run (ring_kit e1 N1) p X1 g1) (run (ring_kit e2 N2) p X2 g2).
Proof.
  intros W1 W2 H0 HX1 HX2 L1 L2 Ha Hp.
  destruct (keeps_run (ring_spec e1 N1) (ring_spec e2 N2) (fun o => match o with BIsFull => False | _ => True end)) with (p := p) (s := L)
    as (E1 & E2 & E3 & E4); [..|exact Hp|].
  - intros o. destruct o; cbn [spec0 ring_spec]; keep HN.
  - intros o l Ho. destruct o; cbn [spec1 ring_spec]; try contradiction; keep HN.
  - intros o l. destruct o; cbn [specn ring_spec]; keep HN.
  - intros o l. destruct o; cbn [spec2 ring_spec]; keep HN.
  - reflexivity.
  - eapply Forall_impl; [|exact Ha]. intros c. destruct c as [|? o| | |]; cbn; auto.
  - exact (runs_alike_parts _ _ _ _ _ _ (ring_refines e1 N1 W1 H0 Hc1) (ring_refines e2 N2 W2 ltac:(lia) Hc2) p p X1 X2 L g1 g2 E1 E2 E3 E4 HX1 HX2 L1 L2).
Qed.
End containers.
Theorem inline_capacity {A} (e1 e2 : env A) (L1 L2 : layout) p X1 X2 L g1 g2 :
  calm e1 -> calm e2 -> wf_layout e1 L1 -> wf_layout e2 L2 -> host_ok e1 L1 -> host_ok e2 L2 ->
  capacity e1 L1 <= capacity e2 L2 ->
  Forall2 (orel (LHolds e1 L1)) X1 L -> Forall2 (orel (LHolds e2 L2)) X2 L ->
  all_legal (ia_spec (A:=A) (capacity e1 L1)) p L -> all_legal (ia_spec (A:=A) (capacity e2 L2)) p L ->
  Forall ia_asks p -> ~ In Panicked (s_events (srun (ia_spec (A:=A) (capacity e1 L1)) p L)) ->
  alike (LHolds e1 L1) (LHolds e2 L2) g1 g2 (run (ia_kit e1 L1) p X1 g1) (run (ia_kit e2 L2) p X2 g2).
Proof.
  intros Hc1 Hc2 WF1 WF2 HO1 HO2 HN HX1 HX2 LL1 LL2 Ha Hp.
  destruct (keeps_run (ia_spec (A:=A) (capacity e1 L1)) (ia_spec (A:=A) (capacity e2 L2)) (fun o => match o with IIsFull => False | _ => True end)) with (p := p) (s := L)
    as (E1 & E2 & E3 & E4); [..|exact Hp|].
  - intros o. destruct o; cbn [spec0 ia_spec]; keep HN.
  - intros o l Ho. destruct o; cbn [spec1 ia_spec]; try contradiction; keep HN.
  - intros o l. destruct o; cbn [specn ia_spec]; keep HN.
  - intros o l. destruct o; cbn [spec2 ia_spec]; keep HN.
  - reflexivity.
  - eapply Forall_impl; [|exact Ha]. intros c. destruct c as [|? o| | |]; cbn; auto.
  - exact (runs_alike_parts _ _ _ _ _ _ (ia_refines e1 L1 WF1 HO1 Hc1) (ia_refines e2 L2 WF2 HO2 Hc2) p p X1 X2 L g1 g2 E1 E2 E3 E4 HX1 HX2 LL1 LL2).
Qed.
