(** * The same program on two implementations of one specification. *)
From Verif Require Import Machine Spec Prims Program ChunkModel ChunkProofs ChunkProgram
  RingModel RingProofs RingProgram SparseModel SparseSpec SparseProofs SparseProgram
  InlineModel InlineSpec InlineProgram.

(** The two runs cannot be told apart: the same events, the same values dropped in the same order, as many and the
    same values leaked, and the containers have the same contents at the end. *)
Definition alike {A obj1 obj2 st res} (H1 : obj1 -> st -> Prop) (H2 : obj2 -> st -> Prop) (g1 g2 : log A)
  (x1 : option (list (option obj1) * log A * list (event res)))
  (x2 : option (list (option obj2) * log A * list (event res))) : Prop :=
  exists X1 X2 g1' g2' evs Y d k1 k2,
    x1 = Some (X1, g1', evs) /\ x2 = Some (X2, g2', evs) /\
    Forall2 (orel H1) X1 Y /\ Forall2 (orel H2) X2 Y /\
    dropped g1' = dropped g1 ++ d /\ dropped g2' = dropped g2 ++ d /\
    leaked g1' = leaked g1 ++ k1 /\ leaked g2' = leaked g2 ++ k2 /\ Permutation k1 k2.

Section generic.
Context {A op0 op1 opn op2 op0' op1' opn' op2' res obj1 obj2 st : Type}.
Context (K1 : kit A op0 op1 opn op2 res obj1) (K2 : kit A op0' op1' opn' op2' res obj2).
Context (S1 : skit A op0 op1 opn op2 res st) (S2 : skit A op0' op1' opn' op2' res st).
Context (H1 : obj1 -> st -> Prop) (H2 : obj2 -> st -> Prop).
Lemma runs_alike_parts (R1 : refines K1 S1 H1) (R2 : refines K2 S2 H2) p1 p2 X1 X2 Y g1 g2 :
  s_store (srun S2 p2 Y) = s_store (srun S1 p1 Y) -> s_dropped (srun S2 p2 Y) = s_dropped (srun S1 p1 Y) ->
  s_leaked (srun S2 p2 Y) = s_leaked (srun S1 p1 Y) -> s_events (srun S2 p2 Y) = s_events (srun S1 p1 Y) ->
  Forall2 (orel H1) X1 Y -> Forall2 (orel H2) X2 Y ->
  all_legal S1 p1 Y -> all_legal S2 p2 Y ->
  alike H1 H2 g1 g2 (run K1 p1 X1 g1) (run K2 p2 X2 g2).
Proof.
  intros Es Ed El Ee HX1 HX2 L1 L2.
  destruct (run_sim K1 S1 H1 R1 p1 X1 Y g1 HX1 L1) as (X1' & g1' & k1 & E1 & HR1 & D1 & Lk1 & P1).
  destruct (run_sim K2 S2 H2 R2 p2 X2 Y g2 HX2 L2) as (X2' & g2' & k2 & E2 & HR2 & D2 & Lk2 & P2).
  rewrite Ee in E2. rewrite Es in HR2. rewrite Ed in D2. rewrite El in P2.
  exists X1', X2', g1', g2', (s_events (srun S1 p1 Y)), (s_store (srun S1 p1 Y)), (s_dropped (srun S1 p1 Y)), k1, k2.
  repeat (split; [assumption|]). rewrite <- P1. exact P2.
Qed.
Lemma runs_alike (R1 : refines K1 S1 H1) (R2 : refines K2 S2 H2) p1 p2 X1 X2 Y g1 g2 :
  srun S1 p1 Y = srun S2 p2 Y ->
  Forall2 (orel H1) X1 Y -> Forall2 (orel H2) X2 Y ->
  all_legal S1 p1 Y -> all_legal S2 p2 Y ->
  alike H1 H2 g1 g2 (run K1 p1 X1 g1) (run K2 p2 X2 g2).
Proof. intros E. apply runs_alike_parts; auto; rewrite E; reflexivity. Qed.
End generic.

Section containers.
Context {A : Type} (e1 e2 : env A) (N : nat).
Hypothesis Hc1 : calm e1.
Hypothesis Hc2 : calm e2.
Theorem chunk_alike p X1 X2 L g1 g2 : N + N < word e1 -> N + N < word e2 ->
  Forall2 (orel (Holds N)) X1 L -> Forall2 (orel (Holds N)) X2 L ->
  all_legal (chunk_spec e1 N) p L -> all_legal (chunk_spec e2 N) p L ->
  alike (Holds N) (Holds N) g1 g2 (run (chunk_kit e1 N) p X1 g1) (run (chunk_kit e2 N) p X2 g2).
Proof.
  intros W1 W2 HX1 HX2 L1 L2.
  exact (runs_alike _ _ _ _ _ _ (chunk_refines e1 N W1 Hc1) (chunk_refines e2 N W2 Hc2) p p X1 X2 L g1 g2 eq_refl HX1 HX2 L1 L2).
Qed.
Theorem ring_alike p X1 X2 L g1 g2 : N + N < word e1 -> N + N < word e2 -> 0 < N ->
  Forall2 (orel (RHolds N)) X1 L -> Forall2 (orel (RHolds N)) X2 L ->
  all_legal (ring_spec e1 N) p L -> all_legal (ring_spec e2 N) p L ->
  alike (RHolds N) (RHolds N) g1 g2 (run (ring_kit e1 N) p X1 g1) (run (ring_kit e2 N) p X2 g2).
Proof.
  intros W1 W2 HN HX1 HX2 L1 L2.
  exact (runs_alike _ _ _ _ _ _ (ring_refines e1 N W1 HN Hc1) (ring_refines e2 N W2 HN Hc2) p p X1 X2 L g1 g2 eq_refl HX1 HX2 L1 L2).
Qed.
Lemma array_legal_any (p : list (cmd (sp_op0 A) (sp_op1 A) (sp_opn A) (sp_op2 A))) s : all_legal (array_spec N) p s.
Proof. revert s. induction p as [|c p IH]; intros s; cbn [all_legal]; [exact I|]. split.
  - destruct c; cbn; auto; repeat case_match; exact I.
  - destruct (sstep (array_spec N) c s) as [[[s' d] k] ev]. apply IH.
Qed.
Theorem sparse_alike p X1 X2 L g1 g2 : N < word e1 -> N < word e2 ->
  Forall2 (orel (SHolds N)) X1 L -> Forall2 (orel (SHolds N)) X2 L ->
  alike (SHolds N) (SHolds N) g1 g2 (run (sparse_kit e1 N) p X1 g1) (run (sparse_kit e2 N) p X2 g2).
Proof.
  intros W1 W2 HX1 HX2.
  exact (runs_alike _ _ _ _ _ _ (sparse_refines e1 N Hc1 W1) (sparse_refines e2 N Hc2 W2) p p X1 X2 L g1 g2 eq_refl HX1 HX2
           (array_legal_any p L) (array_legal_any p L)).
Qed.

(** The program that does the same, with the arrays at other addresses. *)
Definition relocate (f : nat -> nat) (c : cmd (ia_op0 A) (ia_op1 A) (ia_opn A) (ia_op2 A))
  : cmd (ia_op0 A) (ia_op1 A) (ia_opn A) (ia_op2 A) :=
  match c with
  | Make (INew q) => Make (INew (f q))
  | Make (IFromIter q it) => Make (IFromIter (f q) it)
  | Call i (IMove q) => Call i (IMove (f q))
  | Spawn i (ISplitOff q k) => Spawn i (ISplitOff (f q) k)
  | Spawn i (IClone q cl) => Spawn i (IClone (f q) cl)
  | c => c
  end.
Lemma relocate_sstep f c s : sstep (ia_spec N) (relocate f c) s = sstep (ia_spec N) c s.
Proof. destruct c as [[q|q it]|i o|i [q k|q cl]|i j o|i]; try reflexivity. destruct o; reflexivity. Qed.
Lemma relocate_given f c s : given (ia_spec N) (relocate f c) s = given (ia_spec N) c s.
Proof. destruct c as [[q|q it]|i o|i [q k|q cl]|i j o|i]; try reflexivity. destruct o; reflexivity. Qed.
Lemma relocate_legal f c s : legal (ia_spec N) c s -> legal (ia_spec N) (relocate f c) s.
Proof. destruct c as [[q|q it]|i o|i [q k|q cl]|i j o|i]; auto. destruct o; auto. Qed.
Lemma relocate_srun f p : forall s, srun (ia_spec N) (map (relocate f) p) s = srun (ia_spec N) p s.
Proof.
  induction p as [|c p IH]; intros s; cbn [map srun]; [reflexivity|].
  rewrite relocate_sstep, relocate_given. destruct (sstep (ia_spec N) c s) as [[[s' d] k] ev]. rewrite IH. reflexivity.
Qed.
Lemma relocate_all_legal f p : forall s, all_legal (ia_spec N) p s -> all_legal (ia_spec N) (map (relocate f) p) s.
Proof.
  induction p as [|c p IH]; intros s; cbn [map all_legal]; [auto|]. intros [H1 H2]. split; [apply relocate_legal, H1|].
  rewrite relocate_sstep. destruct (sstep (ia_spec N) c s) as [[[s' d] k] ev]. apply IH, H2.
Qed.
End containers.
Theorem inline_alike {A} (e1 e2 : env A) (L1 L2 : layout) f p X1 X2 L g1 g2 :
  calm e1 -> calm e2 -> wf_layout e1 L1 -> wf_layout e2 L2 -> host_ok e1 L1 -> host_ok e2 L2 ->
  capacity e1 L1 = capacity e2 L2 ->
  Forall2 (orel (LHolds e1 L1)) X1 L -> Forall2 (orel (LHolds e2 L2)) X2 L ->
  all_legal (ia_spec (capacity e1 L1)) p L ->
  alike (LHolds e1 L1) (LHolds e2 L2) g1 g2 (run (ia_kit e1 L1) p X1 g1) (run (ia_kit e2 L2) (map (relocate f) p) X2 g2).
Proof.
  intros Hc1 Hc2 WF1 WF2 HO1 HO2 E HX1 HX2 HL.
  refine (runs_alike _ _ (ia_spec (capacity e1 L1)) (ia_spec (capacity e2 L2)) _ _ (ia_refines e1 L1 WF1 HO1 Hc1)
    (ia_refines e2 L2 WF2 HO2 Hc2) p (map (relocate f) p) X1 X2 L g1 g2 _ HX1 HX2 HL _); rewrite <- E.
  - symmetry. apply relocate_srun.
  - apply relocate_all_legal, HL.
Qed.
