(** * Containers as keys: the laws of [PartialEq], [Eq], [PartialOrd], [Ord] and [Hash]. *)
From Verif Require Import Machine Spec Prims IterSpec ChunkExamples ChunkModel ChunkProofs ChunkProofs3 ChunkProofs4 ChunkLaws
  RingModel RingProofs RingProofs4 RingProofs5 RingLaws SparseModel SparseSpec SparseProofs SparseProofs2
  InlineModel InlineSpec InlineProofs InlineProofs2 InlineProofs3 InlineLaws PropertiesInline KeySpec KeyProofs KeyProofs2.

(** C71.  If the elements obey the laws of [PartialEq] and [PartialOrd], so do the containers; if the elements can be the
    keys of maps ([Eq], [Ord], [Hash]), so can the containers - whatever their layouts and addresses.  [h a] is what the
    element [a] feeds a hasher, [hl n] what a length would feed it.  [answer m x]: what the call [m] returns on [x]. *)
Theorem C71_chunk_key_laws :
  forall (A H : Type) (e : env A) (N : nat) (eqA : A -> A -> bool) (pc : A -> A -> option comparison)
    (cm : A -> A -> comparison) (h : A -> list H) (hl : nat -> list H),
  N + N < word e ->
  let valid c := exists l, Holds N c l in
  let eq c1 c2 := answer (eq_ e N eqA) (c1, c2) in
  let pcmp c1 c2 := answer (partial_cmp e N pc) (c1, c2) in
  (lawful_partial anything (elt2 eqA) (elt2 pc) -> lawful_partial valid eq pcmp) /\
  (lawful_key anything (elt2 eqA) (elt2 pc) (elt2 cm) (elt1 h) ->
   lawful_key valid eq pcmp (fun c1 c2 => answer (cmp_ e N cm) (c1, c2)) (fun c => fed h hl <$> answer (hash e N) c)).
Proof.
  intros A H e N eqA pc cm h hl HW valid eq pcmp. apply (lifts (A:=A)) with (R := Holds N) (hl := hl); [auto|..]; unfold eq, pcmp, answer.
  - intros x x' l l' H1 H2. rewrite (ChunkLaws.eq_ok e N HW eqA x x' l l' log0 H1 H2). reflexivity.
  - intros x x' l l' H1 H2. rewrite (ChunkLaws.partial_cmp_ok e N HW pc x x' l l' log0 H1 H2). reflexivity.
  - intros x x' l l' H1 H2. rewrite (ChunkLaws.cmp_ok e N HW cm x x' l l' log0 H1 H2). reflexivity.
  - intros x l H1. rewrite (ChunkProofs4.hash_ok e N HW x l log0 H1). reflexivity.
Qed.
Print Assumptions C71_chunk_key_laws.
Theorem C71_ring_key_laws :
  forall (A H : Type) (e : env A) (N : nat) (eqA : A -> A -> bool) (pc : A -> A -> option comparison)
    (cm : A -> A -> comparison) (h : A -> list H) (hl : nat -> list H),
  N + N < word e -> 0 < N ->
  let valid r := exists l, RHolds N r l in
  let eq r1 r2 := answer (rb_eq e N eqA) (r1, r2) in
  let pcmp r1 r2 := answer (rb_partial_cmp e N pc) (r1, r2) in
  (lawful_partial anything (elt2 eqA) (elt2 pc) -> lawful_partial valid eq pcmp) /\
  (lawful_key anything (elt2 eqA) (elt2 pc) (elt2 cm) (elt1 h) ->
   lawful_key valid eq pcmp (fun r1 r2 => answer (rb_cmp e N cm) (r1, r2)) (fun r => fed h hl <$> answer (rb_hash e N) r)).
Proof.
  intros A H e N eqA pc cm h hl HW HN valid eq pcmp. apply (lifts (A:=A)) with (R := RHolds N) (hl := hl); [auto|..]; unfold eq, pcmp, answer.
  - intros x x' l l' H1 H2. rewrite (rb_eq_ok e N HW HN eqA x x' l l' log0 H1 H2). reflexivity.
  - intros x x' l l' H1 H2. rewrite (rb_partial_cmp_ok e N HW HN pc x x' l l' log0 H1 H2). reflexivity.
  - intros x x' l l' H1 H2. rewrite (rb_cmp_ok e N HW HN cm x x' l l' log0 H1 H2). reflexivity.
  - intros x l H1. rewrite (rb_hash_ok e N HW HN x l log0 H1). reflexivity.
Qed.
Print Assumptions C71_ring_key_laws.
(** Slices of ring buffers: a buffer and a range in it. *)
Theorem C71_ring_slice_key_laws :
  forall (A H : Type) (e : env A) (N : nat) (eqA : A -> A -> bool) (pc : A -> A -> option comparison)
    (cm : A -> A -> comparison) (h : A -> list H) (hl : nat -> list H),
  N + N < word e -> 0 < N ->
  let valid (x : ring A * (nat * nat)) := exists l, RHolds N (fst x) l /\ fst (snd x) <= snd (snd x) <= length l in
  let eq x1 x2 := answer (sl_eq e N eqA (snd x1) (snd x2)) (fst x1, fst x2) in
  let pcmp x1 x2 := answer (sl_partial_cmp e N pc (snd x1) (snd x2)) (fst x1, fst x2) in
  (lawful_partial anything (elt2 eqA) (elt2 pc) -> lawful_partial valid eq pcmp) /\
  (lawful_key anything (elt2 eqA) (elt2 pc) (elt2 cm) (elt1 h) ->
   lawful_key valid eq pcmp (fun x1 x2 => answer (sl_cmp e N cm (snd x1) (snd x2)) (fst x1, fst x2))
     (fun x => fed h hl <$> answer (sl_hash e N (snd x)) (fst x))).
Proof.
  intros A H e N eqA pc cm h hl HW HN valid eq pcmp.
  apply (lifts (A:=A)) with (R := fun x v => exists l, RHolds N (fst x) l /\ in_range (snd x) l /\ v = sub_list (snd x) l) (hl := hl);
    unfold eq, pcmp, valid, answer.
  - intros x (l & H1 & H2). eauto.
  - intros x x' v v' (l & H1 & I1 & ->) (l' & H2 & I2 & ->). rewrite (sl_eq_ok e N HW HN eqA _ _ _ _ l l' log0 H1 H2 I1 I2). reflexivity.
  - intros x x' v v' (l & H1 & I1 & ->) (l' & H2 & I2 & ->). rewrite (sl_partial_cmp_ok e N HW HN pc _ _ _ _ l l' log0 H1 H2 I1 I2). reflexivity.
  - intros x x' v v' (l & H1 & I1 & ->) (l' & H2 & I2 & ->). rewrite (sl_cmp_ok e N HW HN cm _ _ _ _ l l' log0 H1 H2 I1 I2). reflexivity.
  - intros x v (l & H1 & I1 & ->). rewrite (sl_hash_ok e N HW HN _ _ l log0 H1 I1). reflexivity.
Qed.
Print Assumptions C71_ring_slice_key_laws.
(** An array is its address and its bytes. *)
Theorem C71_inline_key_laws :
  forall (A H : Type) (e : env A) (L : layout) (eqA : A -> A -> bool) (pc : A -> A -> option comparison)
    (cm : A -> A -> comparison) (h : A -> list H) (hl : nat -> list H),
  wf_layout e L -> host_ok e L ->
  let valid (x : nat * inline A) := placed L (fst x) /\ exists l, IHolds e L (snd x) l in
  let eq x1 x2 := answer (ia_eq2 e L (fst x1) (fst x2) eqA) (snd x1, snd x2) in
  let pcmp x1 x2 := answer (ia_partial_cmp e L (fst x1) (fst x2) pc) (snd x1, snd x2) in
  (lawful_partial anything (elt2 eqA) (elt2 pc) -> lawful_partial valid eq pcmp) /\
  (lawful_key anything (elt2 eqA) (elt2 pc) (elt2 cm) (elt1 h) ->
   lawful_key valid eq pcmp (fun x1 x2 => answer (ia_cmp e L (fst x1) (fst x2) cm) (snd x1, snd x2))
     (fun x => fed h hl <$> answer (ia_hash e L (fst x)) (snd x))).
Proof.
  intros A H e L eqA pc cm h hl WF HOST valid eq pcmp.
  apply (lifts (A:=A)) with (R := fun x l => placed L (fst x) /\ IHolds e L (snd x) l) (hl := hl); unfold eq, pcmp, valid, answer.
  - intros x (Hp & l & H1). eauto.
  - intros x x' l l' [P1 H1] [P2 H2]. rewrite (ia_eq2_ok e L WF HOST) with (l1 := l) (l2 := l') by assumption. reflexivity.
  - intros x x' l l' [P1 H1] [P2 H2]. rewrite (ia_partial_cmp_ok e L WF HOST) with (l1 := l) (l2 := l') by assumption. reflexivity.
  - intros x x' l l' [P1 H1] [P2 H2]. rewrite (ia_cmp_ok e L WF HOST) with (l1 := l) (l2 := l') by assumption. reflexivity.
  - intros x l [P1 H1]. rewrite (ia_hash_eq e L WF HOST) with (l := l) by assumption. reflexivity.
Qed.
Print Assumptions C71_inline_key_laws.
(** [SparseChunk] has [PartialEq] and [Eq] only. *)
Theorem C71_sparse_eq_laws :
  forall (A : Type) (N : nat) (eqA : A -> A -> bool),
  let valid c := exists s, SHolds N c s in
  let eq c1 c2 := answer (sp_eq N eqA) (c1, c2) in
  (peq_laws anything (elt2 eqA) -> peq_laws valid eq) /\
  (eq_refl_law anything (elt2 eqA) -> eq_refl_law valid eq).
Proof.
  intros A N eqA valid eq.
  assert (E : forall x x' s s', SHolds N x s -> SHolds N x' s' -> eq x x' = Some (slice_eq (opt_eqb eqA) s s')).
  { intros x x' s s' H1 H2. unfold eq, answer. rewrite (sp_eq_ok N eqA x x' s s' log0 H1 H2). reflexivity. }
  split.
  - intros P. eapply (transfer_peq (Y := list (option A))) with (R := SHolds N); [auto|exact E|]. apply list_peq, opt_peq, P.
  - intros P. eapply (transfer_refl (Y := list (option A))) with (R := SHolds N); [auto|exact E|]. apply list_refl, opt_refl, P.
Qed.
Print Assumptions C71_sparse_eq_laws.
(** A clone is equal to its source if the clones of the elements are. *)
Theorem C71_clones_are_equal :
  forall (A : Type) (e : env A) (N : nat) (L : layout) (eqA : A -> A -> bool) (cl : nat -> A -> option A) (g : log A),
  N + N < word e -> 0 < N -> wf_layout e L -> host_ok e L -> calm e ->
  (forall k a a', cl k a = Some a' -> eqA a' a = true) ->
  (forall c l c1 g1 c2, Holds N c l -> clone e N cl c g = Ret c1 g1 (c2, tt) -> answer (eq_ e N eqA) (c2, c1) = Some true) /\
  (forall r l r1 g1 r2, RHolds N r l -> rb_clone e N cl r g = Ret r1 g1 (r2, tt) -> answer (rb_eq e N eqA) (r2, r1) = Some true) /\
  (forall b b2 x l x1 g1 x2, placed L b -> placed L b2 -> IHolds e L x l -> ia_clone e L b b2 cl x g = Ret x1 g1 (x2, tt) ->
     answer (ia_eq2 e L b2 b eqA) (x2, x1) = Some true) /\
  (forall c s c1 g1 c2, SHolds N c s -> sp_clone e N cl c g = Ret c1 g1 (c2, tt) -> answer (sp_eq N eqA) (c2, c1) = Some true).
Proof.
  intros A e N L eqA cl g HW HN WF HOST Hc same. split; [|split; [|split]].
  - intros c l c1 g1 c2 H E. pose proof (ChunkProofs3.clone_ok e N HW Hc cl c l g H) as P. unfold bl_clone in P.
    destruct (_ =? _) eqn:El in P; destruct P as (o & g' & r & P & H1 & HR & _); rewrite E in P; [|discriminate].
    injection P as -> -> <-. unfold answer. rewrite (ChunkLaws.eq_ok e N HW eqA c2 o _ _ log0 HR H1).
    rewrite (clones_eq cl eqA same) by lia. reflexivity.
  - intros c l c1 g1 c2 H E. pose proof (rb_clone_ok e N HW HN Hc cl c l g H) as P. unfold bl_clone in P.
    destruct (_ =? _) eqn:El in P; destruct P as (o & g' & r & P & H1 & HR & _); rewrite E in P; [|discriminate].
    injection P as -> -> <-. unfold answer. rewrite (rb_eq_ok e N HW HN eqA c2 o _ _ log0 HR H1).
    rewrite (clones_eq cl eqA same) by lia. reflexivity.
  - intros b b2 x l x1 g1 x2 Hb Hb2 H E. pose proof (InlineProofs3.clone_ok e L WF HOST b b2 cl x l g Hb Hb2 H) as P. unfold bl_clone_leaking in P.
    destruct (_ =? _) eqn:El in P; destruct P as (o & g' & r & P & H1 & HR & _); rewrite E in P; [|discriminate].
    injection P as -> -> <-. unfold answer. rewrite (ia_eq2_ok e L WF HOST) with (l1 := clones cl 0 l) (l2 := l) by assumption.
    rewrite (clones_eq cl eqA same) by lia. reflexivity.
  - intros c s c1 g1 c2 H E. pose proof (sp_clone_ok e N Hc cl c s g H) as P. unfold ar_clone in P.
    destruct (_ =? _) eqn:El in P; destruct P as (o & g' & r & P & H1 & HR & _); rewrite E in P; [|discriminate].
    injection P as -> -> <-. unfold answer. rewrite (sp_eq_ok N eqA c2 o _ _ log0 HR H1). unfold cells_eq.
    apply Nat.eqb_eq in El. rewrite (refill_eq eqA); [reflexivity|exact El|]. apply (clones_eq cl eqA same). exact El.
Qed.
Print Assumptions C71_clones_are_equal.
(** The hypotheses are met: numbers are keys; numbers with a NaN are ordered partially, and are not [Eq]. *)
Lemma nat_key : lawful_key anything (elt2 Nat.eqb) (elt2 (fun a b => Some (Nat.compare a b))) (elt2 Nat.compare) (elt1 (fun a => [a])).
Proof.
  assert (I : forall X (a b : X), Some a = Some b -> a = b) by congruence. unfold elt1, elt2.
  repeat split; try (intros; eexists; reflexivity).
  - intros x y _ _ HE%I. apply Nat.eqb_eq in HE as ->. now rewrite Nat.eqb_refl.
  - intros x y z _ _ _ H1%I H2%I. apply Nat.eqb_eq in H1 as ->. now rewrite H2.
  - intros x _. now rewrite Nat.eqb_refl.
  - intros HE%I%I. apply Nat.compare_eq_iff in HE as ->. now rewrite Nat.eqb_refl.
  - intros HE%I. apply Nat.eqb_eq in HE as ->. now rewrite Nat.compare_refl.
  - intros HE%I%I. rewrite Nat.compare_antisym, HE. reflexivity.
  - intros HE%I%I. rewrite Nat.compare_antisym, HE. reflexivity.
  - intros x y z _ _ _ H1%I%I H2%I%I. apply Nat.compare_lt_iff in H1, H2. do 2 f_equal. apply Nat.compare_lt_iff. lia.
  - apply I, Nat.eqb_eq in H2 as ->. reflexivity.
  - apply I, Nat.eqb_eq in H2 as ->. reflexivity.
  - intros HE%I%I. now rewrite HE.
  - intros HE%I. now rewrite HE.
  - intros x y _ _ HE%I. apply Nat.eqb_eq in HE as ->. reflexivity.
Qed.
Definition nan_eq (a b : option nat) : bool := match a, b with Some a, Some b => Nat.eqb a b | _, _ => false end.
Definition nan_cmp (a b : option nat) : option comparison := match a, b with Some a, Some b => Some (Nat.compare a b) | _, _ => None end.
Lemma nan_partial : lawful_partial anything (elt2 nan_eq) (elt2 nan_cmp).
Proof.
  assert (I : forall X (a b : X), Some a = Some b -> a = b) by congruence. unfold elt1, elt2.
  repeat split; try (intros; eexists; reflexivity).
  - intros [x|] [y|] _ _ HE%I; cbn in *; try discriminate. now rewrite Nat.eqb_sym, HE.
  - intros [x|] [y|] [z|] _ _ _ H1%I H2%I; cbn in *; try discriminate. apply Nat.eqb_eq in H1 as ->. now rewrite H2.
  - destruct x, y; cbn; intros HE; try discriminate. apply I, I, Nat.compare_eq_iff in HE as ->. now rewrite Nat.eqb_refl.
  - destruct x, y; cbn; intros HE; try discriminate. apply I, Nat.eqb_eq in HE as ->. now rewrite Nat.compare_refl.
  - destruct x, y; cbn; intros HE; try discriminate. apply I, I in HE. rewrite Nat.compare_antisym, HE. reflexivity.
  - destruct x, y; cbn; intros HE; try discriminate. apply I, I in HE. rewrite Nat.compare_antisym, HE. reflexivity.
  - intros [x|] [y|] [z|] _ _ _ H1%I H2%I; cbn in *; try discriminate. apply I, Nat.compare_lt_iff in H1, H2.
    do 2 f_equal. apply Nat.compare_lt_iff. lia.
  - destruct x, y; cbn in *; try discriminate. apply I, Nat.eqb_eq in H2 as ->. reflexivity.
  - destruct x, y; cbn in *; try discriminate. apply I, Nat.eqb_eq in H2 as ->. reflexivity.
Qed.
Print Assumptions nat_key.
Print Assumptions nan_partial.
(** Two chunks with the same elements at different places in their storage are equal, feed a hasher the same, and come
    before a longer chunk; a chunk with a NaN is not equal to itself. *)
Example C71_example :
  let e2 := @Env (option nat) (2 ^ 10) true (fun _ => false) in
  match (push_back dbg 4 1 ;;; push_back dbg 4 2) new log0, (push_front dbg 4 2 ;;; push_front dbg 4 1) new log0,
        push_back e2 4 None new log0 with
  | Ret c1 _ _, Ret c2 _ _, Ret cn _ _ =>
      ChunkModel.left c1 <> ChunkModel.left c2 /\ answer (eq_ dbg 4 Nat.eqb) (c1, c2) = Some true /\
      answer (hash dbg 4) c1 = answer (hash dbg 4) c2 /\
      match push_back dbg 4 0 c2 log0 with
      | Ret c3 _ _ => answer (cmp_ dbg 4 Nat.compare) (c1, c3) = Some Lt
      | _ => False
      end /\ answer (eq_ e2 4 nan_eq) (cn, cn) = Some false
  | _, _, _ => False
  end.
Proof. vm_compute. repeat split. discriminate. Qed.
