(** * [RingBuffer]: costs, panicking destructors, capacity zero, and other corner cases. *)
From Verif Require Import Machine Spec Prims IterSpec RingModel RingProofs RingProofs2 RingProofs3 RingProofs4
  RingProofs5.

Section costs.
Context {A : Type} (e : env A) (N : nat).
Hypothesis HW : N + N < word e.
Hypothesis HN : 0 < N.
Implicit Types (r : ring A) (l : list A) (g : log A) (v : A) (i k index count : nat).
Notation agr := (agrees (RHolds N) eq).
Notation Rep := (Rep N).
Notation wrote n := (fun _ g' _ => writes g' = n).
Lemma rb_push_back_cost r l g v : RHolds N r l -> length l < N ->
  post (wrote (writes g + 1)) (rb_push_back e N v r g).
Proof. intros H Hl. start. unfold rb_push_back. exec. reflexivity. Qed.
Lemma rb_push_front_cost r l g v : RHolds N r l -> length l < N ->
  post (wrote (writes g + 1)) (rb_push_front e N v r g).
Proof. intros H Hl. start. unfold rb_push_front. exec. reflexivity. Qed.
Lemma rb_pop_front_cost r l g : RHolds N r l -> post (wrote (writes g)) (rb_pop_front e N r g).
Proof.
  intros H. start. unfold rb_pop_front. destruct l as [|a l]; cbn [length] in *; exec; reflexivity.
Qed.
Lemma rb_pop_back_cost r l g : RHolds N r l -> post (wrote (writes g)) (rb_pop_back e N r g).
Proof.
  intros H. start. unfold rb_pop_back. destruct (l !! (length l - 1)) as [a|] eqn:Ha.
  - pose proof (lookup_lt_Some _ _ _ Ha). exec. reflexivity.
  - apply lookup_ge_None in Ha. exec. reflexivity.
Qed.
Lemma rb_remove_cost r l g i : RHolds N r l -> i < length l ->
  post (wrote (writes g + if length l - i <? i then length l - 1 - i else i)) (rb_remove e N i r g).
Proof.
  intros H Hi. pose proof (rep_of_holds N r l H) as R. start. unfold rb_remove.
  cbn [origin rdata] in R. subst n.
  destruct (l !! i) as [a|] eqn:Ha; [|apply lookup_ge_None in Ha; lia].
  exec.
  - pose proof (Rep_upd N o m _ i None R Ho ltac:(lia)) as R1.
    destruct (close_up_ok e N HW HN (length l - 1 - i) i N o o (length l - 1) _ _ g R1 Ho ltac:(lia) ltac:(lia))
      as (m' & g' & E' & R' & W).
    { intros t Ht. unfold upd. rewrite if_false by lia. 
      intros Hn. apply lookup_ge_None in Hn. lia. }
    { unfold upd. rewrite Nat.eqb_refl. reflexivity. }
    replace (i + (length l - 1 - i)) with (length l - 1) in E' by lia.
    erewrite bind_Ret by exact E'. exec. destruct W as (W1 & W2 & W3). cbn. exact W3.
  - pose proof (Rep_upd N o m _ i None R Ho ltac:(lia)) as R1.
    destruct (close_down_ok e N HW HN i 0 N o o (length l) _ _ g R1 Ho ltac:(lia) ltac:(lia))
      as (m' & g' & E' & R' & W).
    { intros t Ht. unfold upd. rewrite if_false by lia. 
      intros Hn. apply lookup_ge_None in Hn. lia. }
    { cbn [plus]. unfold upd. rewrite Nat.eqb_refl. reflexivity. }
    cbn [plus] in E'. replace (wr N (o + 0)) with o in E' by ring_lia.
    erewrite bind_Ret by exact E'. exec. destruct W as (W1 & W2 & W3). cbn. exact W3.
Qed.
Lemma rb_insert_cost r l g i v : RHolds N r l -> i <= length l -> length l < N ->
  post (wrote (writes g + (i `min` (length l - i) + 1))) (rb_insert e N i v r g).
Proof.
  intros H Hi Hl. 
  destruct (i =? 0) eqn:E0.
  { assert (i = 0) by lia. subst i. pose proof (rb_push_front_cost r l g v H Hl) as Hp.
    cbn [Nat.min plus]. unfold rb_insert. erewrite (bind_Ret get) by reflexivity.
    start; exec; try lia. exact Hp. }
  destruct (i =? length l) eqn:E1.
  { assert (i = length l) by lia. subst i. pose proof (rb_push_back_cost r l g v H Hl) as Hp.
    replace (length l `min` (length l - length l) + 1) with 1 by lia. 
    unfold rb_insert. erewrite (bind_Ret get) by reflexivity.
    start; exec; try lia. exact Hp. }
  pose proof (rep_of_holds N r l H) as R. start. unfold rb_insert.
  cbn [origin rdata] in R. subst n. exec; try lia.
  - (* shift right *)
    destruct (shift_down_ok e N HW HN 1 (length l - 1 - i) i N o o (length l) m _ g R Ho ltac:(lia) ltac:(lia))
      as (m1 & g1 & E' & R1 & W).
    { intros t Ht. eapply lookup_live; (lia || eassumption). }
    { intros t Ht Ht'. apply lookup_none. lia. }
    replace (i + (length l - 1 - i)) with (length l - 1) in E' by lia.
    erewrite bind_Ret by exact E'. rewrite bind_bind.
    erewrite bind_Ret by (apply raw_add_ok; ring_lia). rewrite wr_add by lia.
    destruct (l !! i) as [x|] eqn:Hx; [|apply lookup_ge_None in Hx; lia].
    edestruct (move_one' e N HW HN o o (length l) m1 _ i (i + 1) g1 x R1 Ho ltac:(lia) ltac:(lia)) as (m0 & m2 & R2 & Em1 & Em2).
    { unfold mmove. repeat split_if; try lia. exact Hx. }
    { intros _. unfold mmove. pw. }
    rewrite bind_bind. erewrite bind_Ret by exact Em1. rewrite bind_bind. erewrite bind_Ret by exact Em2.
    rewrite bind_bind.
    erewrite bind_Ret by (apply uadd_ok; lia). erewrite bind_Ret by reflexivity. cbn [origin rlen rdata].
    unfold raw. rewrite bind_bind. erewrite (bind_Ret get) by reflexivity.
    erewrite bind_Ret by (apply raw_add_ok; expand; lia). expand.
    erewrite (write_one e N HW HN o _ _ _ _ _ _ _ R2) by (lia || (unfold upd, mmove; pw)).
    destruct W as (W1 & W2 & W3). cbn. lia.
  - (* shift left *)
    apply (Rep_left N o 1) in R; [|lia|lia].
    destruct (pull_ok e N HW HN 1 i 0 (lg N 1 o) (lg N 1 o) (length l + 1) m _ g R) as (m1 & g1 & E' & R1 & W).
    { ring_lia. } { lia. }
    { intros t Ht. rewrite if_true by lia. eapply lookup_live; (lia || eassumption). }
    { intros t Ht Ht'. rewrite if_false by lia. apply lookup_none. lia. }
    replace (i `min` (length l + 1)) with i by lia.
    replace (wr N (lg N 1 o + 0)) with (lg N 1 o) in E' by ring_lia.
    erewrite bind_Ret by exact E'. 
    unfold raw. rewrite bind_bind. erewrite (bind_Ret get) by reflexivity.
    erewrite bind_Ret by (apply raw_add_ok; expand; ring_lia). expand.
    erewrite (write_one e N HW HN _ _ _ _ _ _ _ _ R1) by (ring_lia || (unfold mmove; pw)).
    destruct W as (W1 & W2 & W3). cbn. lia.
Qed.
End costs.

Section bombs.
Context {A : Type} (e : env A) (N : nat).
Hypothesis HW : N + N < word e.
Hypothesis HN : 0 < N.
Implicit Types (r : ring A) (l : list A) (g : log A) (v : A) (i k index count : nat).
Notation Rep := (Rep N).

Lemma until_bomb_prefix l : until_bomb e l = take (length (until_bomb e l)) l.
Proof. clear. induction l as [|a l IH]; cbn; [reflexivity|]. destruct (bomb e a); cbn; [rewrite take_0; reflexivity|]. f_equal. exact IH. Qed.
Lemma until_bomb_length l : length (until_bomb e l) <= length l.
Proof. clear. induction l as [|a l IH]; cbn; [lia|]. destruct (bomb e a); cbn; lia. Qed.
Lemma until_bomb_pos l : no_bomb e l = false -> 0 < length (until_bomb e l).
Proof. clear. destruct l as [|a l]; cbn; [discriminate|]. destruct (bomb e a); cbn; lia. Qed.
Lemma no_bomb_until l : no_bomb e l = true -> until_bomb e l = l.
Proof.
  clear. unfold no_bomb. induction l as [|a l IH]; cbn; [reflexivity|].
  destruct (bomb e a); cbn; [discriminate|]. intros H. f_equal. auto.
Qed.

(** The destructor stops at the first element whose own destructor panics; the rest is leaked. *)
Lemma rb_destroy_bombs r l g : RHolds N r l ->
  exists r' g', rb_destroy e N r g = (if no_bomb e l then Ret r' g' tt else Panic r' g') /\
    dropped g' = dropped g ++ until_bomb e l /\
    exists ks, leaked g' = leaked g ++ ks /\ Permutation ks (drop (length (until_bomb e l)) l).
Proof.
  intros H. pose proof (rep_of_holds N r l H) as R. pose proof (until_bomb_length l) as Hu.
  start. cbn [origin rdata] in R. subst n.
  destruct (drop_loop_ok e N HW HN l 0 o o (length l) m _ g R Ho) as (m' & R' & E').
  { lia. } { intros; reflexivity. }
  replace (wr N (o + 0)) with o in E' by ring_lia.
  assert (Ed : rb_drop e N (Ring o (length l) m) g =
    if no_bomb e l then Ret (Ring o (length l) m') (log_drop (until_bomb e l) g) tt
    else Panic (Ring o (length l) m') (log_drop (until_bomb e l) g)).
  { unfold rb_drop. exec. exact E'. }
  assert (P : Permutation (omap m' (seq 0 N)) (drop (length (until_bomb e l)) l)).
  { rewrite <- (Rep_perm N o m' _ R' Ho). apply Permutation_refl'.
    apply (omap_window _ N (length (until_bomb e l)) (drop (length (until_bomb e l)) l)); [rewrite drop_length; lia|].
    intros p Hp. unfold mclear. pw. }
  unfold rb_destroy, destroying. rewrite Ed.
  destruct (no_bomb e l); unfold slots_release; cbn [getm ring_mem rdata setm];
    (eexists _, _; split; [reflexivity|]; split; [reflexivity|]; exists (omap m' (seq 0 N)); split; [reflexivity|exact P]).
Qed.

Lemma drop_dead o n m f g : Rep o m f -> o < N -> 0 < n <= N -> f 0 = None ->
  rb_destroy e N (Ring o n m) g = UB DeadSlot.
Proof.
  intros R Ho Hn Hf. unfold rb_destroy, destroying, rb_drop.
  assert (E : for_range e N n o (rb_force_drop e N) (Ring o n m) g = UB DeadSlot).
  { destruct n as [|n]; [lia|]. cbn [for_range].
    erewrite bind_Ret by (apply raw_inc_ok; assumption).
    unfold rb_force_drop at 1. rewrite bind_bind. erewrite bind_Ret by (apply ptr_ok; lia).
    unfold bind at 1. unfold bind at 1. unfold slot_read. rewrite if_true by lia. cbn [getm ring_mem rdata].
    pose proof (Rep_at N o m f 0 R Ho ltac:(lia)) as E. replace (wr N (o + 0)) with o in E by ring_lia.
    rewrite E, Hf. reflexivity. }
  unfold rb_range. rewrite bind_bind. erewrite (bind_Ret get) by reflexivity. cbn [origin rlen].
  rewrite bind_bind. unfold bind at 1.
  erewrite raw_add_ok by lia. unfold bind, ret. cbn [fst snd]. rewrite E. reflexivity.
Qed.

(** A destructor that panics inside [clear], [drop_left] or [drop_right] leaves the buffer as if nothing had
    been dropped; when it is destroyed later, dropped slots are dropped again. *)
Lemma rb_clear_bomb r l g : RHolds N r l -> no_bomb e l = false ->
  exists r' g', rb_clear e N r g = Panic r' g' /\ dropped g' = dropped g ++ until_bomb e l /\ rb_destroy e N r' g' = UB DeadSlot.
Proof.
  intros H Hb. pose proof (rep_of_holds N r l H) as R. pose proof (until_bomb_pos l Hb) as Hp.
  pose proof (until_bomb_length l) as Hu.
  start. cbn [origin rdata] in R. subst n.
  destruct (drop_loop_ok e N HW HN l 0 o o (length l) m _ g R Ho) as (m' & R' & E').
  { lia. } { intros; reflexivity. }
  replace (wr N (o + 0)) with o in E' by ring_lia. rewrite Hb in E'.
  eexists _, _. split.
  - unfold rb_clear. exec. erewrite bind_Panic by exact E'. reflexivity.
  - split; [reflexivity|]. eapply drop_dead; [exact R'|lia|lia|]. unfold mclear. rewrite if_true by lia. reflexivity.
Qed.
Lemma rb_drop_left_bomb r l g i : RHolds N r l -> i <= length l -> no_bomb e (take i l) = false ->
  exists r' g', rb_drop_left e N i r g = Panic r' g' /\ dropped g' = dropped g ++ until_bomb e (take i l) /\ rb_destroy e N r' g' = UB DeadSlot.
Proof.
  intros H Hi Hb. pose proof (rep_of_holds N r l H) as R. pose proof (until_bomb_pos _ Hb) as Hp.
  pose proof (until_bomb_length (take i l)) as Hu. rewrite take_length in Hu.
  start. cbn [origin rdata] in R. subst n.
  destruct (drop_loop_ok e N HW HN (take i l) 0 o o (length l) m _ g R Ho) as (m' & R' & E').
  { lookups; lia. }
  { intros j Hj. rewrite take_length in Hj. pw. }
  replace (wr N (o + 0)) with o in E' by ring_lia. rewrite Hb, take_length in E'.
  eexists _, _. split.
  - unfold rb_drop_left. rewrite if_true by lia. exec. erewrite bind_Panic by exact E'. reflexivity.
  - split; [reflexivity|]. eapply drop_dead; [exact R'|lia|lia|]. unfold mclear. rewrite if_true by lia. reflexivity.
Qed.
Lemma for_range_dead ds : forall a k o o' n m f g, Rep o m f -> o < N -> a + length ds + k <= N -> 0 < k ->
  (forall i, i < length ds -> f (a + i) = ds !! i) -> no_bomb e ds = true -> f (a + length ds) = None ->
  for_range e N (length ds + k) (wr N (o + a)) (rb_force_drop e N) (Ring o' n m) g = UB DeadSlot.
Proof.
  induction ds as [|x ds IH]; intros a k o o' n m f g R Ho Hk Hk0 Hl Hb Hd; cbn [length] in *.
  - destruct k as [|k]; [lia|]. cbn [plus for_range].
    pose proof (wr_lt N (o + a) ltac:(lia)).
    erewrite bind_Ret by (apply raw_inc_ok; assumption).
    unfold rb_force_drop at 1. rewrite bind_bind. erewrite bind_Ret by (apply ptr_ok; lia).
    unfold bind at 1. unfold bind at 1. unfold slot_read. rewrite if_true by lia. cbn [getm ring_mem rdata].
    rewrite (Rep_at N o m f a R Ho ltac:(lia)). rewrite Nat.add_0_r in Hd. rewrite Hd. reflexivity.
  - cbn [plus for_range].
    pose proof (wr_lt N (o + a) ltac:(lia)).
    erewrite bind_Ret by (apply raw_inc_ok; assumption). rewrite wr_add by lia.
    assert (Hx : f a = Some x).
    { specialize (Hl 0). rewrite Nat.add_0_r in Hl. apply Hl. lia. }
    unfold rb_force_drop at 1. rewrite bind_bind. erewrite bind_Ret by (apply ptr_ok; lia).
    rewrite bind_bind.
    erewrite bind_Ret by (apply slot_read_ok; [lia|]; cbn; rewrite (Rep_at N o _ f) by (assumption || lia); exact Hx).
    expand. pose proof (Rep_upd N o m f a None R Ho ltac:(lia)) as R1.
    unfold no_bomb in Hb. cbn [forallb] in Hb. apply andb_true_iff in Hb. destruct Hb as [Hb1 Hb2].
    erewrite bind_Ret.
    2: { unfold drop_values. cbn. destruct (bomb e x); [discriminate|]. reflexivity. }
    eapply (IH (a + 1)); try eassumption; try lia.
    + intros i Hi. unfold upd. rewrite if_false by lia. specialize (Hl (S i)).
      rewrite <- Nat.add_succ_comm in Hl. replace (a + 1 + i) with (S a + i) by lia. apply Hl. lia.
    + unfold upd. rewrite if_false by lia. rewrite <- Hd. f_equal. lia.
Qed.
Lemma rb_drop_right_bomb r l g i : RHolds N r l -> i <= length l -> no_bomb e (drop i l) = false ->
  no_bomb e (take i l) = true ->
  exists r' g', rb_drop_right e N i r g = Panic r' g' /\ dropped g' = dropped g ++ until_bomb e (drop i l) /\ rb_destroy e N r' g' = UB DeadSlot.
Proof.
  intros H Hi Hb Hb2. pose proof (rep_of_holds N r l H) as R. pose proof (until_bomb_pos _ Hb) as Hp.
  pose proof (until_bomb_length (drop i l)) as Hu. rewrite drop_length in Hu.
  start. cbn [origin rdata] in R. subst n.
  assert (Hi2 : i < length l) by lia.
  destruct (drop_loop_ok e N HW HN (drop i l) i o o (length l) m _ g R Ho) as (m' & R' & E').
  { lookups; lia. }
  { intros j Hj. pw. }
  rewrite Hb, drop_length in E'.
  eexists _, _. split.
  - unfold rb_drop_right. exec.
    pose proof (skip_range_ok e N HW HN i 0 o (Ring o (length l) m) g Ho ltac:(lia)) as Es.
    replace (wr N (o + 0)) with o in Es by ring_lia. erewrite bind_Ret by exact Es. cbn [plus].
    erewrite bind_Panic by exact E'. reflexivity.
  - split; [reflexivity|].
    pose proof (for_range_dead (take i l) 0 (length l - i) o o (length l) m' _ (log_drop (until_bomb e (drop i l)) g) R' Ho) as D.
    rewrite take_length in D. replace (i `min` length l) with i in D by lia.
    replace (i + (length l - i)) with (length l) in D by lia.
    replace (wr N (o + 0)) with o in D by ring_lia.
    unfold rb_destroy, destroying, rb_drop. 
    unfold rb_range. rewrite bind_bind. erewrite (bind_Ret get) by reflexivity. cbn [origin rlen].
    rewrite bind_bind. erewrite bind_Ret by (apply raw_add_ok; lia). unfold bind, ret. cbn [fst snd].
    rewrite D; [reflexivity|lia|lia| |exact Hb2|].
    + intros j Hj. cbn [plus]. unfold mclear. rewrite if_false by lia. rewrite lookup_take by lia. reflexivity.
    + cbn [plus]. unfold mclear. rewrite if_true by lia. reflexivity.
Qed.
End bombs.

(** Raw index arithmetic for arbitrary operands. *)
Section modular.
Context {A O : Type} (e : env A) (N : nat).
Hypothesis HN : 0 < N.
Implicit Types (o : O) (g : log A) (i k x : nat).
Lemma wrap_down_mod : forall fuel x o g, x < fuel -> x < word e -> wrap_down e N fuel x o g = Ret o g (x mod N).
Proof.
  induction fuel as [|f IH]; intros x o g Hf Hx; [lia|]. cbn [wrap_down].
  destruct (x <? N) eqn:E; [rewrite Nat.mod_small by lia; reflexivity|].
  erewrite bind_Ret by (apply usub_ok; lia). rewrite IH by lia.
  f_equal. rewrite <- (Nat.mod_add (x - N) 1 N) by lia. f_equal. lia.
Qed.
Lemma raw_add_mod i k o g : i + k < word e ->
  raw_add e N i k o g = Ret o g ((i + k) mod N) /\ raw_add_assign e N i k o g = Ret o g ((i + k) mod N).
Proof.
  intros H. split.
  - unfold raw_add, raw_from. erewrite bind_Ret by (apply uadd_ok; lia).
    erewrite bind_Ret by (apply wrap_down_mod; lia).
    erewrite bind_Ret by (apply debug_assert_ok; pose proof (Nat.mod_upper_bound (i + k) N); lia). reflexivity.
  - unfold raw_add_assign. erewrite bind_Ret by (apply uadd_ok; lia). apply wrap_down_mod; lia.
Qed.
Lemma wrap_up_mod : forall fuel start k o g, k - start < fuel -> k + N < word e -> 
  exists m, wrap_up e N fuel start k o g = Ret o g (start + m * N) /\ k <= start + m * N /\
    (m = 0 \/ start + m * N < k + N).
Proof.
  induction fuel as [|f IH]; intros s k o g Hf Hk; [lia|]. cbn [wrap_up].
  destruct (s <? k) eqn:E.
  - erewrite bind_Ret by (apply uadd_ok; lia). 
    destruct (IH (s + N) k o g) as (m & Em & Hm & Hm'); [lia|lia|].
    exists (S m). rewrite Em. split; [f_equal; lia|]. split; [lia|]. right. destruct Hm' as [->|]; lia.
  - exists 0. split; [unfold ret; f_equal; lia|]. lia.
Qed.
(** Subtracting [k]: the least number congruent to [i - k] (when [k] exceeds [i]), or [i - k] itself. *)
Lemma raw_sub_mod i k o g : i < N -> k + N < word e ->
  exists x, x < N /\ (x + k) mod N = i mod N /\
    raw_sub_assign e N i k o g = Ret o g x /\ raw_sub e N i k o g = Ret o g x.
Proof.
  intros Hi Hk. destruct (wrap_up_mod (S k + word e) i k o g) as (m & Em & Hm & Hm'); [lia|lia|].
  exists (i + m * N - k). assert (i + m * N - k < N) by (destruct Hm' as [->|]; lia).
  split; [assumption|]. split.
  { replace (i + m * N - k + k) with (i + m * N) by lia. apply Nat.mod_add; lia. }
  unfold raw_sub, raw_sub_assign, raw_from. erewrite !bind_Ret by exact Em.
  erewrite !bind_Ret by (apply usub_ok; lia). rewrite usub_ok by lia. split; [reflexivity|].
  erewrite bind_Ret by (apply debug_assert_ok; lia). reflexivity.
Qed.
Lemma raw_inc_mod i o g : i < N -> N < word e -> raw_inc e N i o g = Ret o g ((i + 1) mod N).
Proof.
  intros Hi HW. unfold raw_inc. erewrite bind_Ret by (apply usub_ok; lia).
  destruct (i =? N - 1) eqn:E.
  - replace (i + 1) with N by lia. rewrite Nat.mod_same by lia. reflexivity.
  - rewrite uadd_ok by lia. rewrite Nat.mod_small by lia. reflexivity.
Qed.
Lemma raw_dec_mod i o g : i < N -> raw_dec e N i o g = Ret o g ((i + (N - 1)) mod N).
Proof.
  intros Hi. unfold raw_dec. destruct (i =? 0) eqn:E; rewrite usub_ok by lia.
  - replace (i + (N - 1)) with (N - 1) by lia. rewrite Nat.mod_small by lia. reflexivity.
  - replace (i + (N - 1)) with (i - 1 + 1 * N) by lia. rewrite Nat.mod_add, Nat.mod_small by lia. reflexivity.
Qed.
End modular.

(** Capacity zero. *)
Section zero.
Context {A : Type} (e : env A).
Implicit Types (g : log A).
Lemma wrap_down_zero {O} : forall fuel x (o : O) g, wrap_down e 0 fuel x o g = Hang.
Proof.
  induction fuel as [|f IH]; intros x o g; cbn [wrap_down]; rewrite if_false by lia; [reflexivity|].
  erewrite bind_Ret by (apply usub_ok; lia). apply IH.
Qed.
Lemma rb_new_zero_debug {O} (o : O) g : debug e = true -> rb_new e 0 o g = Panic o g.
Proof. intros H. unfold rb_new, raw_from, bind, debug_assert. rewrite H. reflexivity. Qed.
Lemma rb_new_zero_release {O} (o : O) g : debug e = false -> rb_new e 0 o g = Ret o g ring0.
Proof. intros H. unfold rb_new, raw_from, bind, debug_assert. rewrite H. reflexivity. Qed.
Lemma rb_range_zero (r : ring A) g : origin r + rlen r < word e -> rb_range e 0 r g = Hang.
Proof.
  intros H. unfold rb_range, raw_add. unfold bind, get, uadd. rewrite if_true by lia. unfold ret. rewrite wrap_down_zero. reflexivity.
Qed.
Lemma rb_destroy_zero g : 0 < word e -> rb_destroy e 0 ring0 g = Hang.
Proof. intros H. unfold rb_destroy, destroying, rb_drop, bind. rewrite rb_range_zero by (cbn; lia). reflexivity. Qed.
Lemma rb_iter_zero g : 0 < word e -> rb_iter e 0 ring0 g = Hang.
Proof.
  intros H. unfold rb_iter, raw_add, bind, get, uadd. cbn [ring0 origin rlen]. rewrite if_true by lia.
  unfold ret. rewrite wrap_down_zero. reflexivity.
Qed.
End zero.
