(** * [RingBuffer], continued: insert_from, bulk moves, constructors, clone, comparisons. *)
From Verif Require Import Machine Spec Prims RingModel RingProofs RingProofs2.

Section proofs.
Context {A : Type} (e : env A) (N : nat).
Hypothesis HW : N + N < word e.
Hypothesis HN : 0 < N.
Hypothesis Hcalm : calm e.
Implicit Types (r : ring A) (l : list A) (g : log A) (v : A) (i k index count : nat).
Notation agr := (agrees (RHolds N) eq).
Notation RHolds2 := (both (RHolds N) (RHolds N)).
Notation Rep := (Rep N).
Lemma rb_extend_ok it : forall r l g, RHolds N r l -> agr g (rb_extend e N it r g) (bl_extend N it l).
Proof.
  induction it as [|[a|] it IH]; intros c l g H; cbn [rb_extend bl_extend].
  - eexists _, _, _. split; [reflexivity|]. rewrite app_nil_r. auto.
  - pose proof (rb_push_back_ok e N HW HN Hcalm c l g a H) as Hp. unfold bl_push_back in Hp.
    destruct (length l <? N) eqn:E; destruct Hp as (c' & g' & r & E1 & H1 & E2 & E3 & E4).
    + rewrite (bind_Ret _ _ _ _ _ _ _ E1). rewrite app_nil_r in E3.
      apply (agrees_same _ _ g g'); auto.
    + rewrite (bind_Panic _ _ _ _ _ _ E1). exists c', g', r. auto.
  - eexists _, _, []. split; [reflexivity|]. rewrite !app_nil_r. auto.
Qed.

Lemma rb_insert_from_fits r l g i n it : RHolds N r l -> length l + n < word e ->
  agr g (rb_insert_from e N i n it r g) (bl_insert_from_tail N i n it l).
Proof.
  intros H Hw. unfold rb_insert_from, bl_insert_from_tail, bl_insert_from_any.
  destruct (length l + n <=? N) eqn:E1.
  2: { cbn [andb]. start. exec. done_panic. }
  destruct (i =? length l) eqn:E2.
  { cbn [andb]. pose proof (rb_extend_ok it r l g H) as He. start. exec. exact He. }
  cbn [andb].
  pose proof (rep_of_holds N r l H) as R. start. cbn [origin rdata] in R. subst n0.
  destruct (i <=? length l) eqn:E3; [|exec; done_panic].
  exec.
  - (* shift right *)
    destruct (shift_down_ok e N HW HN n (length l - 1 - i) i N o o (length l) m _ g R Ho ltac:(lia) ltac:(lia))
      as (m1 & g1 & E' & R1 & W).
    { intros t Ht. apply lookup_live. lia. }
    { intros t Ht Ht'. apply lookup_none. lia. }
    replace (i + (length l - 1 - i)) with (length l - 1) in E' by lia.
    erewrite bind_Ret by exact E'. rewrite bind_bind.
    erewrite bind_Ret by (apply raw_add_ok; ring_lia). rewrite wr_add by lia.
    destruct (l !! i) as [x|] eqn:Hx; [|exfalso; revert Hx; apply lookup_live; lia].
    edestruct (move_one' e N HW HN o o (length l) m1 _ i (i + n) g1 x R1 Ho ltac:(lia) ltac:(lia)) as (m0 & m2 & R2 & Em1 & Em2).
    { unfold mmove. repeat split_if; try lia. exact Hx. }
    { intros Hne. unfold mmove. pw. }
    rewrite bind_bind. erewrite bind_Ret by exact Em1. rewrite bind_bind. erewrite bind_Ret by exact Em2.
    rewrite bind_bind. erewrite bind_Ret by (apply uadd_ok; lia). erewrite bind_Ret by reflexivity.
    cbn [origin rlen rdata]. destruct W as (W1 & W2 & W3).
    apply (agrees_same _ _ _ (log_write 1 g1)); [exact W1|exact W2|].
    apply (fill_ok e N HW HN); try lia.
    eapply Rep_ext; [exact R2| |exact Ho]. rep_done.
  - (* shift left *)
    apply (Rep_left N o n) in R; [|lia|lia].
    destruct (pull_ok e N HW HN n i 0 (lg N n o) (lg N n o) (length l + n) m _ g R) as (m1 & g1 & E' & R1 & W).
    { ring_lia. } { lia. }
    { intros t Ht. rewrite if_true by lia. apply lookup_live. lia. }
    { intros t Ht Ht'. rewrite if_false by lia. apply lookup_none. lia. }
    replace (i `min` (length l + n)) with i by lia.
    replace (wr N (lg N n o + 0)) with (lg N n o) in E' by ring_lia.
    erewrite bind_Ret by exact E'. destruct W as (W1 & W2 & W3).
    apply (agrees_same _ _ _ g1); [exact W1|exact W2|].
    apply (fill_ok e N HW HN); try lia; [|ring_lia].
    eapply Rep_ext; [exact R1| |ring_lia]. rep_done.
Qed.
Lemma rb_insert_from_ok r l g i n it : RHolds N r l -> length l + n < word e \/ debug e = true ->
  agr g (rb_insert_from e N i n it r g) (bl_insert_from_tail N i n it l).
Proof.
  intros H Hd. destruct (decide (length l + n < word e)) as [Hw|Hw]; [apply rb_insert_from_fits; assumption|].
  destruct Hd as [Hd|Hd]; [lia|].
  unfold bl_insert_from_tail, bl_insert_from_any. rewrite if_false by lia. rewrite if_false by lia.
  start. unfold rb_insert_from. erewrite (bind_Ret get) by reflexivity. cbn [rlen]. subst n0.
  erewrite bind_Panic by (unfold uadd; rewrite if_false by lia; rewrite Hd; reflexivity).
  done_panic.
Qed.

(** ** Copying between two rings *)
Definition received (m1 m2 m1' m2' : mem A) (from to c : nat) : Prop :=
  (forall p, m1' p = if (p <? N) && (lg N to p <? c) then m2 (wr N (from + lg N to p)) else m1 p) /\
  (forall p, m2' p = if (p <? N) && (lg N from p <? c) then None else m2 p).
Lemma force_copy_to_ok from to c o1 n1 m1 o2 n2 m2 g : from + c <= N -> to + c <= N ->
  (forall p, to <= p < to + c -> m1 p = None) ->
  exists m1' m2' g', rb_force_copy_to e N from to c (Ring o1 n1 m1, Ring o2 n2 m2) g =
    Ret (Ring o1 n1 m1', Ring o2 n2 m2') g' tt /\ received m1 m2 m1' m2' from to c /\ steady g g' c.
Proof.
  clear Hcalm. intros Hf Ht Hfree. unfold rb_force_copy_to. destruct (0 <? c) eqn:E.
  - steps. rewrite (slots_transfer_ok N N from to c) by assumption.
    eexists _, _, _. split; [reflexivity|]. split; [|apply log_write_steady].
    split; intros p; cbn [getm ring_mem rdata]; unfold mrecv, mclear, lg, wr; repeat split_if; try lia; try reflexivity;
      f_equal; lia.
  - eexists _, _, _. split; [reflexivity|]. replace c with 0 by lia. split; [|apply steady_refl].
    split; intros p; repeat split_if; lia || reflexivity.
Qed.
Lemma copy_from_straight fuel from to c o1 n1 m1 o2 n2 m2 g : from + c <= N -> to < N -> c <= N ->
  (forall p, p < N -> lg N to p < c -> m1 p = None) ->
  exists m1' m2' g', copy_from_ e N fuel from to c (Ring o1 n1 m1, Ring o2 n2 m2) g =
    Ret (Ring o1 n1 m1', Ring o2 n2 m2') g' tt /\ received m1 m2 m1' m2' from to c /\ steady g g' c.
Proof.
  clear Hcalm. intros Hf Ht Hc Hfree.
  assert (E : copy_from_ e N fuel from to c (Ring o1 n1 m1, Ring o2 n2 m2) g =
   (let! t := uadd e to c in
    if N <? t then
      let! first_length := usub e N to in
      let! last_length := usub e c first_length in
      rb_force_copy_to e N from to first_length ;;;
      let! from' := raw_add e N from first_length in
      let! zero := raw_from e N 0 in
      rb_force_copy_to e N from' zero last_length
    else rb_force_copy_to e N from to c) (Ring o1 n1 m1, Ring o2 n2 m2) g).
  { destruct fuel; cbn [copy_from_]; erewrite bind_Ret by (apply uadd_ok; lia);
      rewrite if_false by lia; reflexivity. }
  rewrite E. clear E. erewrite bind_Ret by (apply uadd_ok; lia).
  destruct (N <? to + c) eqn:E.
  - steps.
    destruct (force_copy_to_ok from to (N - to) o1 n1 m1 o2 n2 m2 g) as (m1a & m2a & ga & Ea & [Ra1 Ra2] & Wa); try lia.
    { intros p Hp. apply Hfree; [lia|]. ring_lia. }
    erewrite bind_Ret by exact Ea. steps.
    replace (wr N (from + (N - to))) with (from + (N - to)) by ring_lia.
    destruct (force_copy_to_ok (from + (N - to)) 0 (c - (N - to)) o1 n1 m1a o2 n2 m2a ga)
      as (m1b & m2b & gb & Eb & [Rb1 Rb2] & Wb); try lia.
    { intros p Hp. rewrite Ra1. rewrite if_false by ring_lia. apply Hfree; ring_lia. }
    rewrite Eb. eexists _, _, _. split; [reflexivity|]. split.
    + split; intros p; rewrite ?Rb1, ?Rb2, ?Ra1, ?Ra2; unfold lg, wr; repeat split_if; try lia; try reflexivity;
        f_equal; lia.
    + replace c with ((N - to) + (c - (N - to))) by lia. eapply steady_trans; eassumption.
  - apply force_copy_to_ok; try lia. intros p Hp. apply Hfree; ring_lia.
Qed.
Lemma copy_from_ok from to c o1 n1 m1 o2 n2 m2 g : from < N -> to < N -> c <= N ->
  (forall p, p < N -> lg N to p < c -> m1 p = None) ->
  exists m1' m2' g', copy_from e N from to c (Ring o1 n1 m1, Ring o2 n2 m2) g =
    Ret (Ring o1 n1 m1', Ring o2 n2 m2') g' tt /\ received m1 m2 m1' m2' from to c /\ steady g g' c.
Proof.
  clear Hcalm. intros Hf Ht Hc Hfree. unfold copy_from. destruct (N <? from + c) eqn:E.
  2: { apply copy_from_straight; lia || assumption. }
  cbn [copy_from_]. erewrite bind_Ret by (apply uadd_ok; lia). rewrite E. 
  erewrite bind_Ret by (apply usub_ok; lia). erewrite bind_Ret by (apply usub_ok; lia).
  destruct (copy_from_straight c from to (N - from) o1 n1 m1 o2 n2 m2 g) as (m1a & m2a & ga & Ea & [Ra1 Ra2] & Wa); try lia.
  { intros p Hp Hl. apply Hfree; lia. }
  erewrite bind_Ret by exact Ea.
  erewrite bind_Ret by (apply raw_from_ok; lia). erewrite bind_Ret by (apply raw_add_ok; lia).
  destruct (copy_from_straight c 0 (wr N (to + (N - from))) (c - (N - from)) o1 n1 m1a o2 n2 m2a ga)
    as (m1b & m2b & gb & Eb & [Rb1 Rb2] & Wb); try lia.
  { ring_lia. }
  { intros p Hp Hl. rewrite Ra1. rewrite if_false by (revert Hl; ring_lia). apply Hfree; [lia|].
    revert Hl. ring_lia. }
  rewrite Eb. eexists _, _, _. split; [reflexivity|]. split.
  + split; intros p; rewrite ?Rb1, ?Rb2, ?Ra1, ?Ra2; unfold lg, wr; repeat split_if; try lia; try reflexivity;
      f_equal; lia.
  + replace c with ((N - from) + (c - (N - from))) by lia. eapply steady_trans; eassumption.
Qed.

(** Two consecutive checks [a + k > N] and [n < k] after a possibly overflowing sum. *)
Lemma rchecked_sum {O T} a k n (K : M A O T) (o : O) g : a <= N -> n <= N -> k < word e ->
  (let! total := uadd e a k in if N <? total then panic else if n <? k then panic else K) o g =
  if (a + k <=? N) && (k <=? n) then K o g else Panic o g.
Proof.
  intros Ha Hn Hk. unfold uadd, bind. 
  destruct (a + k <? word e) eqn:E1; cbn [ret].
  - unfold ret. destruct (a + k <=? N) eqn:E2, (k <=? n) eqn:E3; cbn [andb]; repeat split_if; lia || reflexivity.
  - replace ((a + k <=? N) && (k <=? n)) with false by lia. destruct (debug e); [reflexivity|]. unfold ret.
    repeat split_if; lia || reflexivity.
Qed.
Ltac rings := unfold RHolds; cbn [origin rlen rdata getm setm ring_mem fst snd];
  split; [|split; [|split]]; [ring_lia | lookups; lia | lookups; lia | intros p; mem_unfold; pw; try find_elem].
Lemma rb_drain_from_front_ok rr ll g k : RHolds2 rr ll -> k < word e ->
  agrees RHolds2 eq g (rb_drain_from_front e N k rr g) (bl_drain_from_front N k ll).
Proof.
  intros H Hk. start2. unfold rb_drain_from_front, bl_drain_from_front. step1.
  rewrite rchecked_sum by lia. cbn [fst snd].
  replace (n0 + k <=? N) with (length l1 + k <=? N) by lia. replace (k <=? n) with (k <=? length l2) by lia.
  destruct ((length l1 + k <=? N) && (k <=? length l2)) eqn:Ec; [|done_panic]. steps.
  edestruct (copy_from_ok o (wr N (o0 + n0)) k o0 n0 m0 o n m g) as (m1' & m2' & g' & E' & [R1 R2] & W1 & W2 & W3);
    [ring_lia|ring_lia|lia| |].
  { intros p Hp. rewrite Hm0. ring_lia || (unfold lg, wr; pw). }
  erewrite bind_Ret by exact E'. steps. exec.
  eexists _, _, _. split; [reflexivity|]. rewrite W1, W2, app_nil_r. split; [|auto]. subst n0 n.
  split; cbn [fst snd]; unfold RHolds; cbn [origin rlen rdata].
  - split; [ring_lia|]. split; [lookups; lia|]. split; [lookups; lia|].
    intros p. rewrite R1, Hm, Hm0. unfold lg, wr. pw.
  - split; [ring_lia|]. split; [lookups; lia|]. split; [lookups; lia|].
    intros p. rewrite R2, Hm. unfold lg, wr. pw.
Qed.
Lemma rb_drain_from_back_ok rr ll g k : RHolds2 rr ll -> k < word e ->
  agrees RHolds2 eq g (rb_drain_from_back e N k rr g) (bl_drain_from_back N k ll).
Proof.
  intros H Hk. start2. unfold rb_drain_from_back, bl_drain_from_back. step1.
  rewrite rchecked_sum by lia. cbn [fst snd].
  replace (n0 + k <=? N) with (length l1 + k <=? N) by lia. replace (k <=? n) with (k <=? length l2) by lia.
  destruct ((length l1 + k <=? N) && (k <=? length l2)) eqn:Ec; [|done_panic]. steps.
  edestruct (copy_from_ok (wr N (o + (n - k))) (lg N k o0) k (lg N k o0) n0 m0 o n m g) as (m1' & m2' & g' & E' & [R1 R2] & W1 & W2 & W3);
    [ring_lia|ring_lia|lia| |].
  { intros p Hp. rewrite Hm0. ring_lia || (unfold lg, wr; pw). }
  erewrite bind_Ret by exact E'. steps. exec.
  eexists _, _, _. split; [reflexivity|]. rewrite W1, W2, app_nil_r. split; [|auto]. subst n0 n.
  split; cbn [fst snd]; unfold RHolds; cbn [origin rlen rdata].
  - split; [ring_lia|]. split; [lookups; lia|]. split; [lookups; lia|].
    intros p. rewrite R1, Hm, Hm0. unfold lg, wr. pw.
  - split; [ring_lia|]. split; [lookups; lia|]. split; [lookups; lia|].
    intros p. rewrite R2, Hm. unfold lg, wr. pw.
Qed.
Lemma rb_append_ok rr ll g : RHolds2 rr ll -> agrees RHolds2 eq g (rb_append e N rr g) (bl_append N ll).
Proof.
  intros H. assert (Hl : rlen (snd rr) = length (snd ll)) by (destruct H as [_ (_ & Hl & _)]; exact Hl).
  assert (Hc : length (snd ll) <= N) by (destruct H as [_ (_ & _ & Hc & _)]; exact Hc).
  unfold rb_append. erewrite (bind_Ret get) by reflexivity. rewrite Hl.
  pose proof (rb_drain_from_front_ok rr ll g (length (snd ll)) H ltac:(lia)) as Hd.
  unfold bl_drain_from_front in Hd. unfold bl_append. rewrite Nat.leb_refl, andb_true_r in Hd.
  rewrite take_ge, drop_ge in Hd by lia. exact Hd.
Qed.
Lemma rb_new_eq {O} (o : O) g : rb_new e N o g = Ret o g (@ring0 A).
Proof. unfold rb_new. erewrite bind_Ret by (apply raw_from_ok; lia). reflexivity. Qed.
Lemma rb_from_front_ok r l g k : RHolds N r l -> k < word e ->
  agrees (RHolds N) (RMade N) g (rb_from_front e N k r g) (bl_from_front k l).
Proof.
  intros H Hk. unfold rb_from_front. erewrite bind_Ret by apply rb_new_eq.
  pose proof (rb_drain_from_front_ok (ring0, r) ([], l) g k (conj (ring0_holds N HN) H) Hk) as Hd.
  eapply rbuilding in Hd; [|eassumption..]. unfold bl_drain_from_front in Hd. unfold bl_from_front.
  pose proof (rholds_length N r l H). cbn [fst snd length plus] in Hd.
  replace ((k <=? N) && (k <=? length l)) with (k <=? length l) in Hd by lia.
  destruct (k <=? length l); exact Hd.
Qed.
Lemma rb_from_back_ok r l g k : RHolds N r l -> k < word e ->
  agrees (RHolds N) (RMade N) g (rb_from_back e N k r g) (bl_from_back k l).
Proof.
  intros H Hk. unfold rb_from_back. erewrite bind_Ret by apply rb_new_eq.
  pose proof (rb_drain_from_back_ok (ring0, r) ([], l) g k (conj (ring0_holds N HN) H) Hk) as Hd.
  eapply rbuilding in Hd; [|eassumption..]. unfold bl_drain_from_back in Hd. unfold bl_from_back.
  pose proof (rholds_length N r l H). cbn [fst snd length plus] in Hd.
  replace ((k <=? N) && (k <=? length l)) with (k <=? length l) in Hd by lia.
  rewrite app_nil_r in Hd. destruct (k <=? length l); exact Hd.
Qed.
Lemma rb_drain_from_ok r l g : RHolds N r l ->
  agrees (RHolds N) (RMade N) g (rb_drain_from e N r g) (bl_drain_all l).
Proof.
  intros H. pose proof (rholds_length N r l H).
  pose proof (rb_from_front_ok r l g (length l) H ltac:(lia)) as Hf.
  unfold bl_from_front in Hf. rewrite Nat.leb_refl, firstn_all, drop_all in Hf.
  unfold rb_drain_from. erewrite (bind_Ret get) by reflexivity.
  destruct H as (_ & -> & _). exact Hf.
Qed.
Lemma rb_split_off_ok r l g i : RHolds N r l ->
  agrees (RHolds N) (RMade N) g (rb_split_off e N i r g) (bl_split_off i l).
Proof.
  intros H. start. unfold rb_split_off, bl_split_off. step1.
  destruct (n <? i) eqn:E1; [replace (i <=? length l) with false by lia; done_panic|].
  replace (i <=? length l) with true by lia. destruct (i =? n) eqn:E2.
  - erewrite bind_Ret by apply rb_new_eq. rewrite drop_ge, take_ge by lia. done_ret.
  - erewrite bind_Ret by apply rb_new_eq. 
    assert (W : agrees RHolds2 eq g ((
      let! length := on_snd (usub e n i) in
      let! from := on_snd (raw e N i) in
      let! zero := raw_from e N 0 in
      copy_from e N from zero length ;;;
      on_snd (set_length i) ;;;
      on_fst (set_length length)) (ring0, Ring o n m) g) (SRet (drop i l, take i l) tt [])).
    { exec. unfold ring0.
      edestruct (copy_from_ok (wr N (o + i)) 0 (n - i) 0 0 mem0 o n m g) as (m1' & m2' & g' & E' & [R1 R2] & W1 & W2 & W3);
        [ring_lia|ring_lia|lia|intros; reflexivity|].
      erewrite bind_Ret by exact E'. exec.
      eexists _, _, _. split; [reflexivity|]. rewrite W1, W2, app_nil_r. split; [|auto]. subst n.
      split; cbn [fst snd]; unfold RHolds; cbn [origin rlen rdata].
      - split; [ring_lia|]. split; [lookups; lia|]. split; [lookups; lia|].
        intros p. rewrite R1, Hm. unfold lg, wr, mem0. pw.
      - split; [ring_lia|]. split; [lookups; lia|]. split; [lookups; lia|].
        intros p. rewrite R2, Hm. unfold lg, wr. pw. }
    eapply rbuilding in W; [|eassumption..]. exact W.
Qed.
End proofs.
