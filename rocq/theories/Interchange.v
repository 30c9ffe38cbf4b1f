(** * Chunk and RingBuffer offer many of the same methods: replacing one by the other. *)
From Verif Require Import Machine Spec SpecProps Prims Program ChunkModel ChunkProofs ChunkProgram
  RingModel RingProofs RingProgram Portable.

(** An iterator that yields [n] items, as announced, and does not panic. *)
Definition honest {A} (n : nat) (it : list (ev A)) : bool :=
  (length it =? n) && forallb (fun x => match x with Yield _ => true | Boom => false end) it.

(** The same method of the other container; [None] if there is none, or if the two are specified differently:
    [Chunk]'s [pop_front] and [pop_back] panic where those of [RingBuffer] return [None], [set] and the mutable slice
    exist on [Chunk] only, and [insert_from] treats an iterator with a wrong length differently. *)
Definition to_ring0 {A} (o : chunk_op0 A) : ring_op0 A :=
  match o with
  | CNew => BNew | CUnit v => BUnit v | CPair v1 v2 => BPair v1 v2 | CFromIter it => BFromIter it
  | CCollectFrom k it => BCollectFrom k it
  end.
Definition to_ring1 {A} (o : chunk_op1 A) : option (ring_op1 A) :=
  match o with
  | CPushFront v => Some (BPushFront v) | CPushBack v => Some (BPushBack v)
  | CInsert i v => Some (BInsert i v)
  | CInsertFrom i n it => if honest n it then Some (BInsertFrom i n it) else None
  | CInsertOrdered bs v => Some (BInsertOrdered bs v)
  | CRemove i => Some (BRemove i) | CAssign i v => Some (BAssign i v) | CIndex i => Some (BIndex i)
  | CDropLeft i => Some (BDropLeft i) | CDropRight i => Some (BDropRight i) | CClear => Some BClear
  | CExtend it => Some (BExtend it)
  | CDrainNext => Some BPopFront | CDrainNextBack => Some BPopBack
  | CAsSlice => Some BContents
  | CLen => Some BLen | CIsEmpty => Some BIsEmpty | CIsFull => Some BIsFull
  | CPopFront | CPopBack | CSet _ _ | CUpdateSlice _ => None
  end.
Definition to_ringn {A} (o : chunk_opn A) : ring_opn A :=
  match o with
  | CSplitOff i => BSplitOff i | CFromFront k => BFromFront k | CFromBack k => BFromBack k | CDrainFrom => BDrainFrom
  | CClone cl => BClone cl
  end.
Definition to_ring2 {A} (o : chunk_op2 A) : ring_op2 A :=
  match o with
  | CAppend => BAppend | CDrainFromFront k => BDrainFromFront k | CDrainFromBack k => BDrainFromBack k
  | CEq eqA => BEq eqA | CPartialCmp pc => BPartialCmp pc
  end.
Definition to_ring {A} (c : cmd (chunk_op0 A) (chunk_op1 A) (chunk_opn A) (chunk_op2 A))
  : option (cmd (ring_op0 A) (ring_op1 A) (ring_opn A) (ring_op2 A)) :=
  match c with
  | Make o => Some (Make (to_ring0 o))
  | Call i o => match to_ring1 o with Some o' => Some (Call i o') | None => None end
  | Spawn i o => Some (Spawn i (to_ringn o))
  | Call2 i j o => Some (Call2 i j (to_ring2 o))
  | Kill i => Some (Kill i)
  end.
(** [q] is [p] with the other container. *)
Inductive translated {A} : list (cmd (chunk_op0 A) (chunk_op1 A) (chunk_opn A) (chunk_op2 A)) ->
  list (cmd (ring_op0 A) (ring_op1 A) (ring_opn A) (ring_op2 A)) -> Prop :=
  | translated_nil : translated [] []
  | translated_cons c c' p q : to_ring c = Some c' -> translated p q -> translated (c :: p) (c' :: q).

Lemma honest_yields {A} n (it : list (ev A)) : honest n it = true -> length (yields n it) = n /\
  forall N l, length l + n <= N -> bl_extend N it l = SRet (l ++ yields n it) tt [] /\ yields (S (N - length l)) it = yields n it.
Proof.
  unfold honest. revert n. induction it as [|[a|] it IH]; intros [|n]; cbn [length forallb]; try (rewrite ?andb_false_r; discriminate).
  - intros _. split; [reflexivity|]. intros N l Hl. cbn. rewrite app_nil_r. auto.
  - cbn [Nat.eqb andb]. intros H. destruct (IH n H) as [H1 H2]. split; [cbn; f_equal; exact H1|].
    intros N l Hl. cbn [bl_extend yields]. rewrite if_true by (apply Nat.ltb_lt; lia).
    destruct (H2 N (l ++ [a])) as [E1 E2]; [rewrite app_length; cbn; lia|]. rewrite E1, <- app_assoc. split; [reflexivity|].
    f_equal. rewrite app_length in E2. cbn in E2. replace (N - length l) with (S (N - (length l + 1))) by lia. exact E2.
Qed.
Section proofs.
Context {A : Type} (e1 e2 : env A) (N : nat).
Lemma to_ring1_spec o o' l : to_ring1 o = Some o' ->
  spec1 (ring_spec e2 N) o' l = spec1 (chunk_spec e1 N) o l /\ given1 (ring_spec e2 N) o' l = given1 (chunk_spec e1 N) o l.
Proof.
  destruct o as [v|v| | |i v|i n it|bs v|i|i v|i v|i|i|i| |it| | | |f| | |]; cbn [to_ring1]; try discriminate;
    try (intros [= <-]; split; reflexivity).
  destruct (honest n it) eqn:E; [|discriminate]. intros [= <-]. destruct (honest_yields n it E) as [H1 H2].
  cbn [spec1 ring_spec chunk_spec given1]. unfold bl_insert_from_tail, taken_from_tail, bl_insert_from_any.
  destruct (length l + n <=? N) eqn:E1; cbn [andb]; [|auto]. apply Nat.leb_le in E1. destruct (H2 N l E1) as [Q1 Q2].
  destruct (i =? length l) eqn:E2; [|split; [reflexivity|destruct (i <=? length l); reflexivity]]. apply Nat.eqb_eq in E2. subst i.
  rewrite Q1, Q2, Nat.leb_refl, H1, Nat.eqb_refl. rewrite firstn_all, drop_all, app_nil_r. auto.
Qed.
Lemma to_ring_step c c' s : to_ring c = Some c' ->
  sstep (ring_spec e2 N) c' s = sstep (chunk_spec e1 N) c s /\ given (ring_spec e2 N) c' s = given (chunk_spec e1 N) c s.
Proof.
  destruct c as [o|i o|i o|i j o|i]; cbn [to_ring].
  - intros [= <-]. destruct o; split; reflexivity.
  - destruct (to_ring1 o) as [o'|] eqn:E; [|discriminate]. intros [= <-]. unfold sstep, given.
    destruct (s !! i) as [[l|]|]; auto. destruct (to_ring1_spec o o' l E) as [-> ->]. auto.
  - intros [= <-]. destruct o; split; reflexivity.
  - intros [= <-]. destruct o; split; reflexivity.
  - intros [= <-]. split; reflexivity.
Qed.
Lemma translated_srun p q : translated p q -> forall s, srun (chunk_spec e1 N) p s = srun (ring_spec e2 N) q s.
Proof.
  induction 1 as [|c c' p q E _ IH]; intros s; [reflexivity|]. cbn [srun].
  destruct (to_ring_step c c' s E) as [-> ->]. destruct (sstep (chunk_spec e1 N) c s) as [[[s' d] k] ev]. rewrite IH. reflexivity.
Qed.
Hypothesis Hc1 : calm e1.
Hypothesis Hc2 : calm e2.
Theorem chunk_ring_alike p q X1 X2 L g1 g2 : N + N < word e1 -> N + N < word e2 -> 0 < N -> translated p q ->
  Forall2 (orel (Holds N)) X1 L -> Forall2 (orel (RHolds N)) X2 L ->
  all_legal (chunk_spec e1 N) p L -> all_legal (ring_spec e2 N) q L ->
  alike (Holds N) (RHolds N) g1 g2 (run (chunk_kit e1 N) p X1 g1) (run (ring_kit e2 N) q X2 g2).
Proof.
  intros W1 W2 HN T HX1 HX2 L1 L2.
  exact (runs_alike _ _ _ _ _ _ (chunk_refines e1 N W1 Hc1) (ring_refines e2 N W2 HN Hc2) p q X1 X2 L g1 g2
    (translated_srun p q T L) HX1 HX2 L1 L2).
Qed.
End proofs.
