(** * Consequences of the [InlineArray] lemmas, in the form the properties are stated. *)
From Verif Require Import Machine Spec Prims IterSpec Program ChunkLaws ChunkProgram ChunkModel ChunkProofs InlineModel InlineSpec InlineProofs InlineProofs2
  InlineProofs3 InlineProgram.

Section proofs.
Context {A : Type} (e : env A) (L : layout).
Hypothesis WF : wf_layout e L.
Notation cap := (capacity e L).
Implicit Types (c : inline A) (g : log A) (v : A) (l : list A) (b i n k : nat).
(** [new] succeeds exactly for the types of [host_ok]. *)
Lemma new_fails b (u : unit) g : ~ host_ok e L -> ia_new e L b u g = Panic u g.
Proof.
  intros H. unfold ia_new, assert. destruct (size_us L <? size_t L) eqn:E1; [|reflexivity].
  destruct ((cap =? 0) || (align_self L mod align_a L =? 0)) eqn:E2; [|reflexivity].
  exfalso. apply H. split; [lia|]. intros Hz. apply orb_true_iff in E2. destruct E2 as [E2|E2].
  - exfalso. unfold capacity in E2. rewrite Hz in E2. cbn in E2. pose proof (wf_word _ _ WF).
    pose proof (wf_us_pos _ _ WF). lia.
  - apply Nat.mod_divide; [pose proof (pos_a e L WF)|]; lia.
Qed.
Lemma host_dec : host_ok e L \/ ~ host_ok e L.
Proof.
  unfold host_ok. pose proof (pos_a e L WF).
  destruct (Nat.lt_ge_cases (size_us L) (size_t L)) as [H1|H1]; [|right; lia].
  destruct (Nat.eq_dec (size_a L) 0) as [E|E]; [|left; lia].
  destruct (Nat.eq_dec (align_self L mod align_a L) 0) as [E2|E2].
  - left. split; [assumption|]. intros _. apply Nat.mod_divide; lia.
  - right. intros [_ Hd]. specialize (Hd E). apply Nat.mod_divide in Hd; lia.
Qed.
Lemma new_host b (u : unit) g g' c : ia_new e L b u g = Ret u g' c -> host_ok e L.
Proof. intros E. destruct host_dec as [|H]; [assumption|]. rewrite (new_fails b u g H) in E. discriminate. Qed.
Lemma new_panics b g : placed L b ->
  (ia_new e L b tt g = Panic tt g <->
   size_t L <= size_us L \/ (size_a L = 0 /\ ~ Nat.divide (align_a L) (align_self L))).
Proof.
  intros Hb. split.
  - intros E. destruct (Nat.lt_ge_cases (size_us L) (size_t L)) as [H1|H1]; [|auto]. right.
    destruct (Nat.eq_dec (size_a L) 0) as [Ez|Ez].
    + split; [assumption|]. intros Hd.
      destruct (new_ok e L WF (conj H1 (fun _ => Hd)) b tt g Hb) as (c & E' & _). rewrite E' in E. discriminate.
    + assert (HH : host_ok e L) by (split; [assumption|intros; contradiction]).
      destruct (new_ok e L WF HH b tt g Hb) as (c & E' & _). rewrite E' in E. discriminate.
  - intros H. apply new_fails. intros [H1 H2]. destruct H as [H|[H3 H4]]; [lia|]. auto.
Qed.

(** Zero-sized elements need the alignment of the host to be a multiple of theirs; since both are powers of
    two this means that it is not smaller. *)
Lemma divide_align : Nat.divide (align_a L) (align_self L) <-> align_a L <= align_self L.
Proof.
  split.
  - intros H. apply Nat.divide_pos_le; [|assumption]. apply pow2_pos, (align_self_pow2 e L WF).
  - apply (self_a e L WF).
Qed.

Lemma capacity_max :
  (size_a L = 0 -> cap = word e - 1) /\
  (size_a L <> 0 -> align_a L <= align_self L -> size_us L < size_t L ->
     size_us L + cap * size_a L <= size_t L < size_us L + (cap + 1) * size_a L) /\
  (size_a L <> 0 -> align_self L < align_a L -> cap = 0).
Proof.
  split; [|split].
  - intros H. unfold capacity. rewrite H. reflexivity.
  - intros H Ha Hs. unfold capacity. rewrite if_false by lia. rewrite if_true by lia.
    pose proof (Nat.div_mod (size_t L - size_us L) (size_a L) H) as E.
    pose proof (Nat.mod_upper_bound (size_t L - size_us L) (size_a L) H). nia.
  - intros H Ha. unfold capacity. rewrite if_false by lia. rewrite if_false by lia. reflexivity.
Qed.

(** Where the pointers of the code point. *)
Lemma layout_sound b c g : host_ok e L -> placed L b ->
  exists h, ia_len_ptr e L b c g = Ret c g (At h) /\
    h + size_us L <= size_t L /\ (b + h) mod align_us L = 0 /\
    (cap = 0 -> ia_data e L b c g = Ret c g Dangling) /\
    forall i, i < cap -> exists p, ia_ptr_at e L b i c g = Ret c g (At p) /\
      p + size_a L <= size_t L /\ (b + p) mod align_a L = 0 /\
      (size_a L <> 0 -> p + size_a L <= h \/ h + size_us L <= p) /\
      forall j, j < i -> exists q, ia_ptr_at e L b j c g = Ret c g (At q) /\ q + size_a L <= p.
Proof.
  intros HH Hb. exists (hoff e L). split; [apply len_ptr_ok; assumption|].
  split; [apply header_in; apply HH|]. split; [apply header_aligned; assumption|].
  split; [intros Hc; rewrite data_ok by assumption; rewrite if_true by lia; reflexivity|].
  intros i Hi. exists (doff L + i * size_a L). split; [apply ptr_at_ok; assumption|].
  pose proof (elements_in e L (proj1 HH)) as Hin.
  split; [nia|]. split; [apply (element_aligned e L WF); [assumption|lia|assumption]|]. split.
  - intros Hz. unfold hoff, doff, header_skip, element_skip. destruct (header_first L); nia.
  - intros j Hj. exists (doff L + j * size_a L). split; [apply ptr_at_ok; [assumption|assumption|assumption|lia]|]. nia.
Qed.

Lemma capacity_and_new b g : wf_layout e L -> placed L b ->
  (size_a L = 0 -> cap = word e - 1) /\
  (size_a L <> 0 -> align_a L <= align_self L -> size_us L < size_t L ->
     cap = (size_t L - size_us L) / size_a L /\
     size_us L + cap * size_a L <= size_t L < size_us L + (cap + 1) * size_a L) /\
  (size_a L <> 0 -> align_self L < align_a L -> cap = 0) /\
  (ia_new e L b tt g = Panic tt g <->
     size_t L <= size_us L \/ (size_a L = 0 /\ align_self L < align_a L)) /\
  (ia_new e L b tt g = Panic tt g \/ exists c, ia_new e L b tt g = Ret tt g c /\ IHolds e L c []).
Proof.
  intros _ Hb. destruct capacity_max as (H1 & H2 & H3). split; [exact H1|]. split; [|split; [exact H3|]].
  - intros Ha Hb' Hc. split; [|auto]. unfold capacity. rewrite if_false by lia. rewrite if_true by lia. reflexivity.
  - split.
    + rewrite (new_panics b g Hb). rewrite divide_align. intuition lia.
    + destruct host_dec as [H|H]; [right; exact (new_ok e L WF H b tt g Hb)|left; exact (new_fails b tt g H)].
Qed.
Lemma host_iff_new b g : wf_layout e L -> placed L b -> (host_ok e L <-> exists c, ia_new e L b tt g = Ret tt g c).
Proof.
  intros _ Hb. split.
  - intros H. destruct (new_ok e L WF H b tt g Hb) as (c & E & _). eauto.
  - intros (c & E). exact (new_host b tt g g c E).
Qed.

Hypothesis HOST : host_ok e L.
(** Panicking destructors. *)
Definition one_bomb l (x : A) : Prop := List.filter (bomb e) l = [x].
Lemma destroy_bomb b c l x g : placed L b -> IHolds e L c l -> one_bomb l x ->
  exists c', ia_destroy e L b c g = Panic c' (log_drop l g).
Proof.
  intros Hb H Hx. destruct (drop_contents_any e L WF HOST b c l g Hb H) as (c' & E & H').
  unfold ia_destroy. rewrite E. unfold drop_values. rewrite Hx.
  rewrite (leftover_none _ _ _ _ _ _ H') by reflexivity. rewrite log_leak_nil. eauto.
Qed.
Lemma dead_slice b c n g : placed L b -> IRep e L c n mem0 0 -> 0 < n <= cap ->
  ia_deref e L b c g = UB DeadSlot /\ ia_destroy e L b c g = UB DeadSlot.
Proof.
  intros Hb H Hn.
  assert (E : elems_peek L b (if cap =? 0 then Dangling else At (doff L)) n c g = UB DeadSlot).
  { unfold elems_peek. rewrite (valid_data e L WF HOST b n Hb) by lia. cbn [negb].
    destruct (size_a L =? 0) eqn:Ez.
    - destruct H as (_ & _ & _ & H4). rewrite Ez in H4. rewrite if_false by lia. reflexivity.
    - rewrite if_false by lia. destruct n as [|n]; [lia|]. cbn [seq mapM].
      pose proof (decode_ok e L c _ _ _ 0 H ltac:(lia) ltac:(lia)) as Ed. rewrite Ed. reflexivity. }
  split.
  - unfold ia_deref. erewrite bind_Ret by (apply data_ok; assumption).
    erewrite bind_Ret by (eapply len_ok; eassumption). exact E.
  - unfold ia_destroy, ia_drop_contents. unfold bind at 1. rewrite (data_ok e L WF HOST b c g Hb).
    unfold bind at 1. rewrite (len_ok e L WF HOST b c _ _ _ g Hb H). unfold elems_drop, elems_take.
    unfold bind at 1. unfold bind at 1. rewrite E. reflexivity.
Qed.
Lemma clear_bomb b b2 c l x g : placed L b -> placed L b2 -> IHolds e L c l -> one_bomb l x ->
  exists c', ia_clear e L b c g = Panic c' (log_drop l g) /\
    forall g', ia_len e L b2 c' g' = Ret c' g' (length l) /\
      ia_deref e L b2 c' g' = UB DeadSlot /\ ia_destroy e L b2 c' g' = UB DeadSlot.
Proof.
  intros Hb Hb2 H Hx. destruct (drop_contents_any e L WF HOST b c l g Hb H) as (c' & E & H').
  exists c'. unfold ia_clear, bind. rewrite E. unfold drop_values. rewrite Hx. split; [reflexivity|].
  intros g'. split; [eapply len_ok; eassumption|]. apply dead_slice with (n := length l); [assumption|assumption|].
  destruct H as [Hl _]. split; [|assumption]. destruct l; [discriminate|cbn; lia].
Qed.

Lemma ia_hash_eq b c l g : placed L b -> IHolds e L c l -> ia_hash e L b c g = Ret c g (map HItem l).
Proof.
  intros Hb H. unfold ia_hash. erewrite bind_Ret by (apply (deref_ok e L WF HOST); eassumption). reflexivity.
Qed.
(** Iterators. *)
Hypothesis Hcalm : calm e.
Lemma ia_iter_ok b script c l g : placed L b -> IHolds e L c l ->
  exists c' g', pull_all (ia_next e L b) (ia_pop e L b) (ia_size_hint e L b) script c g =
      Ret c' g' (fst (pulls script l)) /\
    IHolds e L c' (snd (pulls script l)) /\ dropped g' = dropped g /\ leaked g' = leaked g.
Proof.
  intros Hb. apply pull_all_ok.
  - intros o l0 g0 H. apply agrees_take_side. rewrite take_side_pop_front. apply next_ok; assumption.
  - intros o l0 g0 H. apply agrees_take_side. rewrite take_side_pop_back. apply pop_ok; assumption.
  - intros o l0 g0 [Hl H]. unfold ia_size_hint. erewrite bind_Ret by (eapply len_ok; eassumption).
    erewrite bind_Ret by (eapply len_ok; eassumption). reflexivity.
Qed.
Lemma ia_iter_drop b script c l g : placed L b -> IHolds e L c l ->
  exists c' g' c'' g'', pull_all (ia_next e L b) (ia_pop e L b) (ia_size_hint e L b) script c g =
      Ret c' g' (fst (pulls script l)) /\
    ia_destroy e L b c' g' = Ret c'' g'' tt /\
    dropped g'' = dropped g ++ snd (pulls script l) /\ leaked g'' = leaked g.
Proof.
  intros Hb H. destruct (ia_iter_ok b script c l g Hb H) as (c' & g' & E & H' & D & Lk).
  destruct (destroy_ok e L WF HOST Hcalm b c' _ g' Hb H') as (c'' & E').
  exists c', g', c'', (log_drop (snd (pulls script l)) g'). cbn. rewrite D, Lk. auto.
Qed.
Lemma ia_eq2_ok b b2 eqA c1 c2 l1 l2 g : placed L b -> placed L b2 -> IHolds e L c1 l1 -> IHolds e L c2 l2 ->
  ia_eq2 e L b b2 eqA (c1, c2) g = Ret (c1, c2) g (slice_eq eqA l1 l2).
Proof.
  intros Hb Hb2 H1 H2. unfold ia_eq2.
  erewrite bind_Ret by (apply on_fst_Ret; apply (deref_ok e L WF HOST); eassumption).
  erewrite bind_Ret by (apply on_snd_Ret; apply (deref_ok e L WF HOST); eassumption). reflexivity.
Qed.
Lemma ia_partial_cmp_ok b b2 pc c1 c2 l1 l2 g : placed L b -> placed L b2 -> IHolds e L c1 l1 -> IHolds e L c2 l2 ->
  ia_partial_cmp e L b b2 pc (c1, c2) g = Ret (c1, c2) g (iter_partial_cmp pc l1 l2).
Proof.
  intros Hb Hb2 H1 H2. unfold ia_partial_cmp.
  erewrite bind_Ret by (apply on_fst_Ret; apply (deref_ok e L WF HOST); eassumption).
  erewrite bind_Ret by (apply on_snd_Ret; apply (deref_ok e L WF HOST); eassumption). reflexivity.
Qed.
Lemma ia_cmp_ok b b2 cmp c1 c2 l1 l2 g : placed L b -> placed L b2 -> IHolds e L c1 l1 -> IHolds e L c2 l2 ->
  ia_cmp e L b b2 cmp (c1, c2) g = Ret (c1, c2) g (iter_cmp cmp l1 l2).
Proof.
  intros Hb Hb2 H1 H2. unfold ia_cmp.
  erewrite bind_Ret by (apply on_fst_Ret; apply (deref_ok e L WF HOST); eassumption).
  erewrite bind_Ret by (apply on_snd_Ret; apply (deref_ok e L WF HOST); eassumption). reflexivity.
Qed.
Lemma ia_eq_cmp_hash b b2 c1 c2 l1 l2 g eqA pc cmp : placed L b -> placed L b2 -> IHolds e L c1 l1 -> IHolds e L c2 l2 ->
  ia_eq2 e L b b2 eqA (c1, c2) g = Ret (c1, c2) g (slice_eq eqA l1 l2) /\
  ia_partial_cmp e L b b2 pc (c1, c2) g = Ret (c1, c2) g (iter_partial_cmp pc l1 l2) /\
  ia_cmp e L b b2 cmp (c1, c2) g = Ret (c1, c2) g (iter_cmp cmp l1 l2) /\
  ia_hash e L b c1 g = Ret c1 g (map HItem l1) /\ ia_hash e L b2 c2 g = Ret c2 g (map HItem l2) /\
  ((forall x y, eqA x y = true <-> x = y) -> slice_eq eqA l1 l2 = true <-> l1 = l2).
Proof.
  intros Hb Hb2 H1 H2.
  split; [apply ia_eq2_ok; assumption|]. split; [apply ia_partial_cmp_ok; assumption|].
  split; [apply ia_cmp_ok; assumption|].
  split; [apply ia_hash_eq; assumption|]. split; [apply ia_hash_eq; assumption|].
  intros Heq. apply slice_eq_iff. exact Heq.
Qed.

Lemma ia_iter_and_drop b script c l g : placed L b -> IHolds e L c l ->
  exists c' g' c'' g'', pull_all (ia_next e L b) (ia_pop e L b) (ia_size_hint e L b) script c g =
      Ret c' g' (fst (pulls script l)) /\
    IHolds e L c' (snd (pulls script l)) /\ dropped g' = dropped g /\ leaked g' = leaked g /\
    ia_destroy e L b c' g' = Ret c'' g'' tt /\
    dropped g'' = dropped g ++ snd (pulls script l) /\ leaked g'' = leaked g.
Proof.
  intros Hb H. destruct (ia_iter_ok b script c l g Hb H) as (c' & g' & E & H' & D & Lk).
  destruct (destroy_ok e L WF HOST Hcalm b c' _ g' Hb H') as (c'' & E').
  exists c', g', c'', (log_drop (snd (pulls script l)) g'). cbn. rewrite D, Lk. auto 10.
Qed.
Lemma bl_extend_all N xs : forall l, length l + length xs <= N -> bl_extend N (map Yield xs) l = SRet (l ++ xs) tt [].
Proof.
  induction xs as [|x xs IH]; intros l H; cbn [map bl_extend].
  - rewrite app_nil_r. reflexivity.
  - cbn in H. replace (length l <? N) with true by lia.
    rewrite IH by (rewrite app_length; cbn; lia). rewrite <- app_assoc. reflexivity.
Qed.
Lemma ia_from_list b l : placed L b -> length l <= cap ->
  exists c g, ia_from_iter e L b (map Yield l) tt log0 = Ret tt g (c, tt) /\ IHolds e L c l /\
    dropped g = [] /\ leaked g = [].
Proof.
  intros Hb Hl. pose proof (from_iter_ok e L WF HOST Hcalm b (map Yield l) tt log0 Hb) as P.
  unfold bl_from_iter in P. rewrite (bl_extend_all cap l []) in P by (cbn; lia). cbn in P.
  destruct P as (u & g' & [c v] & E & _ & H & D & Lk). destruct u, v. eauto 10.
Qed.
Lemma ia_convert N (HN : N + N < word e) b c l g : placed L b -> IHolds e L c l ->
  (length l <= N ->
     (exists c' g' ch, chunk_from_mut e L b N c g = Ret c' g' ch /\ IHolds e L c' [] /\ Holds N ch l /\
        dropped g' = dropped g /\ leaked g' = leaked g) /\
     (exists g' ch, chunk_from e L b N c tt g = Ret tt g' ch /\ Holds N ch l /\
        dropped g' = dropped g /\ leaked g' = leaked g)) /\
  (N < length l ->
     (exists c' g', chunk_from_mut e L b N c g = Panic c' g' /\ IHolds e L c' l /\
        dropped g' = dropped g /\ leaked g' = leaked g) /\
     (exists g', chunk_from e L b N c tt g = Panic tt g' /\
        dropped g' = dropped g ++ l /\ leaked g' = leaked g)).
Proof.
  intros Hb H. pose proof (chunk_from_mut_ok e L WF HOST N HN b c l g Hb H) as P1.
  pose proof (chunk_from_ok e L WF HOST Hcalm N HN b c l g tt Hb H) as P2. unfold bl_convert, bl_convert_owned in *. split; intros Hl.
  - rewrite if_true in P1 by lia; rewrite if_true in P2 by lia. cbn in P1, P2. destruct P1 as (c1 & g1 & r1 & E1 & ? & ? & D1 & L1).
    destruct P2 as (u & g2 & r2 & E2 & ? & ? & D2 & L2). destruct u. rewrite app_nil_r in D1, D2.
    split; eauto 12.
  - rewrite if_false in P1 by lia; rewrite if_false in P2 by lia. cbn in P1, P2. destruct P1 as (c1 & g1 & k1 & E1 & ? & D1 & L1 & R1).
    destruct P2 as (u & g2 & k2 & E2 & ? & D2 & L2 & R2). destruct u. rewrite app_nil_r in D1.
    apply Permutation_nil in R1, R2. subst. rewrite app_nil_r in L1, L2. split; eauto 12.
Qed.
End proofs.
