(** * Moves *)
From Verif Require Import Machine Spec Prims InlineModel InlineSpec InlineProofs InlineProofs2 InlineProgram Program ChunkProgram
  MoveModel MoveSpec.

Section proofs.
Context {A : Type} (e : env A) (L : layout) (P : padding).
Hypothesis WF : wf_layout e L.
Hypothesis HOST : host_ok e L.
Notation cap := (capacity e L).
Notation s := (size_a L).

Lemma header_at_eq : header_at e L = hoff e L.
Proof. unfold header_at, hoff, header_skip, element_skip, header_first. destruct (_ <=? _); lia. Qed.
Lemma elements_at_eq : elements_at L = doff L.
Proof. unfold elements_at, doff, element_skip, header_first. destruct (_ <=? _); lia. Qed.

Lemma moved_holds c l : IHolds e L c l -> harmless e L P (length l) -> IHolds e L (moved P c) l.
Proof.
  intros [Hl (H1 & H2 & H3 & H4)] HP. split; [exact Hl|].
  assert (HB : forall q, (in_header e L q \/ (exists j m, j < length l /\ in_element L q j m) \/ bytes c q = None) ->
    bytes (moved P c) q = bytes c q).
  { intros q Hq. cbn. destruct (pad_t P q) eqn:E; [|reflexivity]. destruct (HP q E) as [N1 N2]. cbn [andb].
    destruct Hq as [Hq|[(j & m & Hj & Hq)|Hq]]; [contradiction| |].
    - pose proof (N2 j m Hj Hq) as Em. destruct Hq as [Hm ->]. rewrite elements_at_eq.
      specialize (H2 j m). rewrite Nat.add_assoc in H2. rewrite H2 by lia.
      destruct (l !! j) as [a|] eqn:Ea; [|cbn; reflexivity]. cbn. unfold cell. destruct (m =? 0) eqn:E0; cbn.
      + assert (m = 0) as -> by lia. rewrite Em. reflexivity.
      + rewrite Em. reflexivity.
    - rewrite Hq. reflexivity. }
  split; [|split; [|split]].
  - intros i Hi. rewrite HB, H1 by (auto; left; unfold in_header; rewrite header_at_eq; lia). reflexivity.
  - intros j m Hj Hm. rewrite HB; [auto|]. destruct (Nat.lt_ge_cases j (length l)) as [Hjl|Hjl].
    + right. left. exists j, m. split; [exact Hjl|]. split; [exact Hm|]. rewrite elements_at_eq. lia.
    + right. right. rewrite H2 by assumption. rewrite lookup_ge_None_2 by exact Hjl. reflexivity.
  - intros p Hp Hp'. rewrite HB; [auto|]. right. right. auto.
  - exact H4.
Qed.

Lemma header_lost b c l g q : placed L b -> IHolds e L c l -> pad_t P q = true -> in_header e L q ->
  ia_len e L b (moved P c) g = UB DeadSlot.
Proof.
  intros Hb [Hl (H1 & H2 & H3 & H4)] Hq Hin. unfold in_header in Hin. rewrite header_at_eq in Hin. unfold ia_len.
  erewrite bind_Ret by (apply (len_ptr_ok e L WF HOST); assumption). unfold usize_read.
  rewrite (valid_header e L WF HOST) by assumption. cbn [negb].
  assert (E0 : forall i, i < size_us L -> bytes (moved P c) (hoff e L + i) =
                 if pad_t P (hoff e L + i) then None else Some (BLen (length l) i)).
  { intros i Hi. cbn. rewrite H1 by exact Hi. cbn [meaningful]. rewrite andb_true_r. reflexivity. }
  pose proof (wf_us_pos _ _ WF) as Hpos. pose proof (E0 0 Hpos) as E. rewrite Nat.add_0_r in E. rewrite E.
  destruct (pad_t P (hoff e L)) eqn:Ep; [reflexivity|].
  destruct (forallb _ _) eqn:F; [|reflexivity]. exfalso. rewrite forallb_forall in F.
  specialize (F (q - hoff e L)). rewrite in_seq in F. specialize (F ltac:(lia)). rewrite E0 in F by lia.
  replace (hoff e L + (q - hoff e L)) with q in F by lia. rewrite Hq in F. discriminate.
Qed.
Lemma mapM_None {X Y} (f : X -> option Y) l x : In x l -> f x = None -> mapM f l = None.
Proof.
  induction l as [|y l IH]; intros Hin Hx; [destruct Hin|]. destruct Hin as [->|Hin]; cbn.
  - rewrite Hx. reflexivity.
  - destruct (f y); [|reflexivity]. cbn. rewrite IH by assumption. reflexivity.
Qed.
Lemma element_lost b c l g q j m : placed L b -> IHolds e L c l -> pad_t P q = true -> j < length l ->
  in_element L q j m -> pad_a P m = false -> (forall q', pad_t P q' = true -> ~ in_header e L q') ->
  ia_deref e L b (moved P c) g = UB DeadSlot.
Proof.
  intros Hb H Hq Hj [Hm Eq] Hpa Hh. pose proof H as [Hl (H1 & H2 & H3 & H4)]. rewrite elements_at_eq in Eq.
  assert (HL : ia_len e L b (moved P c) g = Ret (moved P c) g (length l)).
  { unfold ia_len. erewrite bind_Ret by (apply (len_ptr_ok e L WF HOST); assumption). unfold usize_read.
    rewrite (valid_header e L WF HOST) by assumption. cbn [negb].
    assert (E0 : forall i, i < size_us L -> bytes (moved P c) (hoff e L + i) = Some (BLen (length l) i)).
    { intros i Hi. cbn. rewrite H1 by exact Hi. destruct (pad_t P (hoff e L + i)) eqn:E; [|reflexivity]. exfalso. apply (Hh _ E).
      unfold in_header. rewrite header_at_eq. lia. }
    pose proof (wf_us_pos _ _ WF) as Hpos. pose proof (E0 0 Hpos) as E. rewrite Nat.add_0_r in E. rewrite E.
    rewrite (mem_forallb); [reflexivity|]. intros i Hi. rewrite E0 by lia. cbn. rewrite !Nat.eqb_refl. reflexivity. }
  unfold ia_deref. erewrite bind_Ret by (apply (data_ok e L WF HOST); assumption).
  erewrite bind_Ret by exact HL.
  assert (Hc : cap <> 0) by lia. unfold elems_peek.
  rewrite (valid_data e L WF HOST) by (auto; lia). cbn [negb].
  replace (s =? 0) with false by lia. replace (cap =? 0) with false by lia.
  rewrite (mapM_None _ _ j); [reflexivity|apply in_seq; lia|].
  assert (EB : bytes (moved P c) q = None).
  { cbn. rewrite Hq. specialize (H2 j m). rewrite Nat.add_assoc in H2. subst q. rewrite H2 by lia.
    destruct (lookup_lt_is_Some_2 l j Hj) as [a ->]. cbn. unfold cell. destruct (m =? 0) eqn:E0; cbn.
    - assert (m = 0) as -> by lia. rewrite Hpa. reflexivity.
    - rewrite Hpa. reflexivity. }
  unfold decode. destruct (Nat.eq_dec m 0) as [->|Hm0].
  - replace (doff L + j * s) with q by lia. rewrite EB. reflexivity.
  - destruct (bytes (moved P c) (doff L + j * s)) as [[| |]|]; try reflexivity.
    destruct (forallb _ _) eqn:F; [|reflexivity]. exfalso. rewrite forallb_forall in F. specialize (F m).
    rewrite in_seq in F. specialize (F ltac:(lia)). replace (doff L + j * s + m) with q in F by lia. rewrite EB in F. discriminate.
Qed.

Hypothesis Hcalm : calm e.
Lemma moving_refines : harmless e L P cap -> refines (ia_kit_moving P e L) (ia_spec cap) (LHolds e L).
Proof.
  intros HP. assert (HM : forall x l, LHolds e L x l -> LHolds e L (fst x, moved P (snd x)) l).
  { intros x l H. unfold LHolds in *. cbn. apply moved_holds; [exact H|]. intros q Hq. destruct (HP q Hq) as [N1 N2].
    split; [exact N1|]. intros j m Hj. apply N2. destruct H as [H _]. lia. }
  destruct (ia_refines e L WF HOST Hcalm) as [R0 R1 RN R2 RK]. split.
  - intros o g. pose proof (R0 o g) as Q. cbn [run0 ia_kit_moving].
    apply (mapR_agrees _ _ (LHolds e L) (fun x => (fst x, moved P (snd x))) (fun x => x) _ _ _ _ _ HM) in Q.
    destruct (spec0 _ o); exact Q.
  - intros o x l g Hx HL. pose proof (R1 o x l g Hx HL) as Q. destruct o; try exact Q.
    cbn. exists (q, moved P (snd x)), g, RUnit. rewrite app_nil_r. split; [reflexivity|]. split; [exact (HM x l Hx)|auto].
  - intros o x l g Hx HL. pose proof (RN o x l g Hx HL) as Q. cbn [runn ia_kit_moving].
    apply (mapR_agrees _ _ (LHolds e L) (fun x => (fst x, moved P (snd x))) (fun x => x) _ _ _ _ _ HM) in Q.
    destruct (specn _ o l); exact Q.
  - exact R2.
  - exact RK.
Qed.
Lemma moving_program (p : list (cmd (ia_op0 A) (ia_op1 A) (ia_opn A) (ia_op2 A))) : harmless e L P cap -> all_legal (ia_spec cap) p [] ->
  exists X g, run (ia_kit_moving P e L) p [] log0 = Some (X, g, s_events (srun (ia_spec cap) p [])) /\
    Forall2 (orel (LHolds e L)) X (s_store (srun (ia_spec cap) p [])) /\
    dropped g = s_dropped (srun (ia_spec cap) p []) /\
    Permutation (leaked g) (s_leaked (srun (ia_spec cap) p [])).
Proof.
  intros HP HL.
  destruct (run_sim _ _ _ (moving_refines HP) p [] [] log0 (Forall2_nil _) HL) as (X & g & k & E & HR & D & Lk & Q).
  exists X, g. rewrite Lk. cbn. repeat split; auto. symmetry. exact Q.
Qed.
End proofs.

Lemma array_move {A} size pad (m : mem A) i a k : k < size -> pad k = false -> m i = Some a ->
  moved_bytes size pad (array_bytes size m) (i * size + k) = Some (a, k).
Proof.
  intros Hk Hp Hm. unfold moved_bytes, array_bytes.
  assert (E1 : (i * size + k) mod size = k) by (rewrite Nat.add_comm, Nat.mod_add by lia; apply Nat.mod_small; exact Hk).
  assert (E2 : (i * size + k) / size = i) by (rewrite Nat.div_add_l by lia; rewrite Nat.div_small by exact Hk; lia).
  rewrite E1, E2, Hp, Hm. reflexivity.
Qed.
