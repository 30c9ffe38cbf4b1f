(** * [RingBuffer], continued: methods with loops. *)
From Verif Require Import Machine Spec Prims RingModel RingProofs.

Section proofs.
Context {A : Type} (e : env A) (N : nat).
Hypothesis HW : N + N < word e.
Hypothesis HN : 0 < N.
Hypothesis Hcalm : calm e.
Implicit Types (r : ring A) (l : list A) (g : log A) (v : A) (i k index count : nat).
Notation agr := (agrees (RHolds N) eq).
Notation RHolds2 := (both (RHolds N) (RHolds N)).
Notation Rep := (Rep N).
Lemma rb_drop_left_ok r l g i : RHolds N r l -> agr g (rb_drop_left e N i r g) (bl_drop_left i l).
Proof.
  intros H. pose proof (rep_of_holds N r l H) as R. start. unfold rb_drop_left, bl_drop_left.
  destruct (0 <? i) eqn:E0.
  - exec; split_if; try lia; [done_panic|].
    cbn [origin rdata] in R.
    destruct (drop_loop_ok e N HW HN (take i l) 0 o o n m _ g R Ho) as (m' & R' & E').
    { lookups; lia. }
    { intros j Hj. rewrite take_length in Hj. pw. }
    destruct (until_bomb_calm e (take i l) Hcalm) as [U1 U2]. rewrite U1, U2 in *.
    rewrite take_length in E'. replace (wr N (o + 0)) with o in E' by ring_lia.
    replace (i `min` n) with (i `min` length l) by lia.
    erewrite bind_Ret by exact E'. exec. eexists _, _, _. split; [reflexivity|].
    split; [|split; [reflexivity|split; log_eq]].
    rewrite take_length in R'. subst n.
    unfold RHolds. cbn [origin rlen rdata]. split; [ring_lia|]. split; [lookups; lia|]. split; [lookups; lia|].
    intros p. rewrite R'. unfold mclear. unfold lg, wr. pw.
  - assert (i = 0) by lia. subst i. run.
Qed.
Lemma rb_drop_right_ok r l g i : RHolds N r l -> agr g (rb_drop_right e N i r g) (bl_drop_right i l).
Proof.
  intros H. pose proof (rep_of_holds N r l H) as R. start. unfold rb_drop_right, bl_drop_right.
  exec; split_if; try lia; [done_panic| |].
  - rewrite drop_ge, take_ge by lia. done_ret.
  - cbn [origin rdata] in R.
    pose proof (skip_range_ok e N HW HN i 0 o (Ring o n m) g Ho ltac:(lia)) as Es.
    replace (wr N (o + 0)) with o in Es by ring_lia. erewrite bind_Ret by exact Es. clear Es.
    destruct (drop_loop_ok e N HW HN (drop i l) i o o n m _ g R Ho) as (m' & R' & E').
    { lookups; lia. }
    { intros j Hj. pw. }
    destruct (until_bomb_calm e (drop i l) Hcalm) as [U1 U2]. rewrite U1, U2 in *.
    rewrite drop_length in E', R'. cbn [plus].
    replace (n - i) with (length l - i) by lia.
    erewrite bind_Ret by exact E'. exec. eexists _, _, _. split; [reflexivity|].
    split; [|split; [reflexivity|split; log_eq]].
    eapply holds_of_rep; [lia| lookups; lia | lookups; lia|exact R'|]. rep_done.
Qed.
Lemma rb_drop_ok r l g : RHolds N r l ->
  exists r', rb_drop e N r g = Ret r' (log_drop l g) tt /\ forall p, rdata r' p = None.
Proof.
  intros H. pose proof (rep_of_holds N r l H) as R. start. unfold rb_drop. exec.
  cbn [origin rdata] in R.
  destruct (drop_loop_ok e N HW HN l 0 o o n m _ g R Ho) as (m' & R' & E').
  { lia. } { intros; reflexivity. }
  destruct (until_bomb_calm e l Hcalm) as [U1 U2]. rewrite U1, U2 in *.
  replace (wr N (o + 0)) with o in E' by ring_lia. subst n. rewrite E'.
  eexists. split; [reflexivity|]. intros p. cbn [rdata]. rewrite R'. unfold mclear, lg. pw.
Qed.
Lemma rb_clear_ok r l g : RHolds N r l -> agr g (rb_clear e N r g) (bl_clear l).
Proof.
  intros H. destruct (rb_drop_ok r l g H) as (r' & E & Hr). unfold rb_clear, bl_clear.
  replace (bind (rb_range e N) _ r g) with
    ((let! _ := rb_drop e N in let! z := raw_from e N 0 in set_origin z ;;; set_length 0) r g)
    by (unfold rb_drop; rewrite bind_bind; reflexivity).
  erewrite bind_Ret by exact E. destruct r' as [o' n' m']. cbn [rdata] in Hr. exec.
  eexists _, _, _. split; [reflexivity|].
  split; [|split; [reflexivity|split; log_eq]].
  unfold RHolds. cbn [origin rlen rdata length]. split; [lia|]. split; [lia|]. split; [lia|].
  intros p. rewrite Hr. pw.
Qed.
Lemma ring_release_clean r g : (forall p, p < N -> rdata r p = None) ->
  slots_release N r g = Ret (Ring (origin r) (rlen r) mem0) g tt.
Proof.
  intros H. unfold slots_release. cbn. rewrite omap_seq_nil, log_leak_nil by (intros; apply H; lia).
  reflexivity.
Qed.
Lemma rb_destroy_ret r l g : RHolds N r l -> exists r', rb_destroy e N r g = Ret r' (log_drop l g) tt.
Proof.
  intros H. destruct (rb_drop_ok r l g H) as (c' & E & Hc). unfold rb_destroy, destroying.
  rewrite E, ring_release_clean by auto. eauto.
Qed.
Lemma rb_destroy_ok r l g : RHolds N r l ->
  agrees (fun _ _ => True) eq g (rb_destroy e N r g) (bl_destroy l).
Proof.
  intros H. destruct (rb_destroy_ret r l g H) as (c' & E). rewrite E. eexists _, _, _. 
  split; [reflexivity|]. repeat split. 
Qed.
(** A ring built in a local variable. *)
Lemma rbuilding {O2 S2 R R'} (H2 : O2 -> S2 -> Prop) (RR : R -> R' -> Prop) (init : ring A)
    (m : M A (ring A * O2) R) o2 g s :
  agrees (both (RHolds N) H2) RR g (m (init, o2) g) s ->
  agrees H2 (fun x l => RHolds N (fst x) l) g (with_local init (rb_destroy e N) m o2 g) (closing s).
Proof.
  intros H. eapply with_local_agrees; [| |exact H].
  - auto.
  - intros. apply rb_destroy_ret. assumption.
Qed.

Lemma rb_remove_ok r l g i : RHolds N r l ->
  agr g (rb_remove e N i r g) (bl_remove i l).
Proof.
  intros H. pose proof (rep_of_holds N r l H) as R. start. unfold rb_remove, bl_remove.
  cbn [origin rdata] in R. subst n.
  destruct (l !! i) as [a|] eqn:Ha.
  - pose proof (lookup_lt_Some _ _ _ Ha) as Hi.
    exec.
    + (* the right part moves left *)
      pose proof (Rep_upd N o m _ i None R Ho ltac:(lia)) as R1.
      destruct (close_up_ok e N HW HN (length l - 1 - i) i N o o (length l - 1) _ _ g R1 Ho ltac:(lia) ltac:(lia))
        as (m' & g' & E' & R' & W).
      { intros t Ht. unfold upd. rewrite if_false by lia. 
        intros Hn. apply lookup_ge_None in Hn. lia. }
      { unfold upd. rewrite Nat.eqb_refl. reflexivity. }
      replace (i + (length l - 1 - i)) with (length l - 1) in E' by lia.
      erewrite bind_Ret by exact E'. exec. destruct W as (W1 & W2 & W3).
      eexists _, _, _. split; [reflexivity|]. rewrite W1, W2, app_nil_r.
      split; [|auto].
      eapply holds_of_rep; [lia| lookups; lia | lookups; lia|exact R'|]. rep_done.
    + (* the left part moves right *)
      pose proof (Rep_upd N o m _ i None R Ho ltac:(lia)) as R1.
      destruct (close_down_ok e N HW HN i 0 N o o (length l) _ _ g R1 Ho ltac:(lia) ltac:(lia))
        as (m' & g' & E' & R' & W).
      { intros t Ht. unfold upd. rewrite if_false by lia. 
        intros Hn. apply lookup_ge_None in Hn. lia. }
      { cbn [plus]. unfold upd. rewrite Nat.eqb_refl. reflexivity. }
      cbn [plus] in E'. replace (wr N (o + 0)) with o in E' by ring_lia.
      erewrite bind_Ret by exact E'. exec. destruct W as (W1 & W2 & W3).
      eexists _, _, _. split; [reflexivity|]. rewrite W1, W2, app_nil_r.
      split; [|auto].
      apply (Rep_right N o 1) in R'; [|lia|lia].
      eapply holds_of_rep; [apply wr_lt; lia| lookups; lia | lookups; lia|exact R'|]. rep_done.
  - apply lookup_ge_None in Ha. exec. done_panic.
Qed.

Lemma lookup_live l t : t < length l -> l !! t <> None.
Proof using. clear. intros H Hn. apply lookup_ge_None in Hn. lia. Qed.
Lemma write_one o o' n m f t v g : Rep o m f -> o < N -> t < N -> f t = None ->
  rb_force_write e N (wr N (o + t)) v (Ring o' n m) g =
  Ret (Ring o' n (upd m (wr N (o + t)) (Some v))) (log_write 1 g) tt.
Proof.
  intros R Ho Ht Hf. pose proof (wr_lt N (o + t) ltac:(lia)). unfold rb_force_write.
  erewrite bind_Ret by (apply ptr_ok; lia). rewrite slot_write_ok; [reflexivity|lia|].
  cbn [getm ring_mem rdata]. rewrite (Rep_at N o _ f) by assumption. exact Hf.
Qed.
Lemma move_one' o o' n m f s t g (a : A) : Rep o m f -> o < N -> s < N -> t < N -> f s = Some a ->
  (t <> s -> f t = None) ->
  exists m0 m', Rep o m' (upd (upd f s None) t (Some a)) /\
    rb_force_read e N (wr N (o + s)) (Ring o' n m) g = Ret (Ring o' n m0) g a /\
    rb_force_write e N (wr N (o + t)) a (Ring o' n m0) g = Ret (Ring o' n m') (log_write 1 g) tt.
Proof.
  intros H Ho Hs Ht Ha Hn. pose proof (wr_lt N (o + s) ltac:(lia)).
  pose proof (Rep_upd N o m f s None H Ho Hs) as R1.
  pose proof (Rep_upd N o _ _ t (Some a) R1 Ho Ht) as R2.
  exists (upd m (wr N (o + s)) None). eexists. split; [exact R2|]. split.
  - unfold rb_force_read. erewrite bind_Ret by (apply ptr_ok; lia).
    erewrite slot_read_ok; [reflexivity|lia|]. cbn [getm ring_mem rdata].
    rewrite (Rep_at N o _ f) by assumption. exact Ha.
  - eapply write_one; [exact R1|lia|lia|]. unfold upd. destruct (t =? s) eqn:E; [reflexivity|].
    apply Hn. lia.
Qed.
Lemma rb_insert_ok r l g i v : RHolds N r l -> agr g (rb_insert e N i v r g) (bl_insert N i v l).
Proof.
  intros H. 
  destruct (i =? 0) eqn:E0.
  { assert (i = 0) by lia. subst i. pose proof (rb_push_front_ok e N HW HN Hcalm r l g v H) as Hp.
    unfold bl_push_front in Hp. unfold bl_insert. rewrite take_0, drop_0. cbn [app].
    replace ((length l <? N) && (0 <=? length l)) with (length l <? N) by lia.
    unfold rb_insert. erewrite (bind_Ret get) by reflexivity.
    destruct (length l <? N) eqn:E; start; exec; try lia; [exact Hp|done_panic]. }
  destruct (i =? length l) eqn:E1.
  { assert (i = length l) by lia. subst i. pose proof (rb_push_back_ok e N HW HN Hcalm r l g v H) as Hp.
    unfold bl_push_back in Hp. unfold bl_insert. rewrite take_ge, drop_ge by lia. 
    replace ((length l <? N) && (length l <=? length l)) with (length l <? N) by lia.
    unfold rb_insert. erewrite (bind_Ret get) by reflexivity.
    destruct (length l <? N) eqn:E; start; exec; try lia; [exact Hp|done_panic]. }
  pose proof (rep_of_holds N r l H) as R. start. unfold rb_insert, bl_insert.
  cbn [origin rdata] in R. subst n. exec; split_if; try lia; try done_panic.
  - (* shift right *)
    destruct (shift_down_ok e N HW HN 1 (length l - 1 - i) i N o o (length l) m _ g R Ho ltac:(lia) ltac:(lia))
      as (m1 & g1 & E' & R1 & W).
    { intros t Ht. apply lookup_live. lia. }
    { intros t Ht Ht'. apply lookup_none. lia. }
    replace (i + (length l - 1 - i)) with (length l - 1) in E' by lia.
    erewrite bind_Ret by exact E'. rewrite bind_bind.
    erewrite bind_Ret by (apply raw_add_ok; ring_lia). rewrite wr_add by lia.
    destruct (l !! i) as [x|] eqn:Hx; [|exfalso; revert Hx; apply lookup_live; lia].
    edestruct (move_one' o o (length l) m1 _ i (i + 1) g1 x R1 Ho ltac:(lia) ltac:(lia)) as (m0 & m2 & R2 & Em1 & Em2).
    { unfold mmove. repeat split_if; try lia. exact Hx. }
    { intros _. unfold mmove. pw. }
    rewrite bind_bind. erewrite bind_Ret by exact Em1. rewrite bind_bind. erewrite bind_Ret by exact Em2.
    rewrite bind_bind.
    erewrite bind_Ret by (apply uadd_ok; lia). erewrite bind_Ret by reflexivity. cbn [origin rlen rdata].
    unfold raw. rewrite bind_bind. erewrite (bind_Ret get) by reflexivity.
    erewrite bind_Ret by (apply raw_add_ok; expand; lia). expand.
    erewrite (write_one o _ _ _ _ _ _ _ R2) by (lia || (unfold upd, mmove; pw)).
    destruct W as (W1 & W2 & W3).
    eexists _, _, _. split; [reflexivity|]. cbn [log_write dropped leaked]. rewrite W1, W2, app_nil_r.
    split; [|auto]. 
    eapply holds_of_rep; [lia| lookups; lia | lookups; lia|apply (Rep_upd N o _ _ i _ R2); lia|]. rep_done.
  - (* shift left *)
    apply (Rep_left N o 1) in R; [|lia|lia].
    destruct (pull_ok e N HW HN 1 i 0 (lg N 1 o) (lg N 1 o) (length l + 1) m _ g R) as (m1 & g1 & E' & R1 & W).
    { ring_lia. } { lia. }
    { intros t Ht. rewrite if_true by lia. apply lookup_live. lia. }
    { intros t Ht Ht'. rewrite if_false by lia. apply lookup_none. lia. }
    replace (i `min` (length l + 1)) with i by lia.
    replace (wr N (lg N 1 o + 0)) with (lg N 1 o) in E' by ring_lia.
    erewrite bind_Ret by exact E'. 
    unfold raw. rewrite bind_bind. erewrite (bind_Ret get) by reflexivity.
    erewrite bind_Ret by (apply raw_add_ok; expand; ring_lia). expand.
    erewrite (write_one _ _ _ _ _ _ _ _ R1) by (ring_lia || (unfold mmove; pw)).
    destruct W as (W1 & W2 & W3).
    eexists _, _, _. split; [reflexivity|]. cbn [log_write dropped leaked]. rewrite W1, W2, app_nil_r.
    split; [|auto]. 
    eapply holds_of_rep; [ring_lia| lookups; lia | lookups; lia|apply (Rep_upd N _ _ _ i _ R1); ring_lia|]. rep_done.
Qed.

Lemma rb_assign_ok r l g i v : RHolds N r l -> agr g (rb_assign e N i v r g) (bl_assign i v l).
Proof.
  intros H. start. unfold rb_assign, bl_assign. destruct (l !! i) as [a|] eqn:Ha.
  - pose proof (lookup_lt_Some _ _ _ Ha). exec. rewrite drop_values_calm by assumption. done_ret.
  - apply lookup_ge_None in Ha. run.
Qed.

Lemma fill_ok o m l i n it g : 
  Rep o m (fun t => if t <? i then l !! t else if t <? i + n then None else l !! (t - n)) ->
  o < N -> i <= length l -> length l + n <= N ->
  agr g ((let! i := raw e N i in
    let! length := rb_len in
    set_length 0 ;;;
    let! inserted := fill_loop e N n it i 0 in
    (if inserted =? n then ret tt else slots_forget N 0 0 ;;; panic) ;;;
    set_length length) (Ring o (length l + n) m) g)
   (if length (yields n it) =? n then SRet (take i l ++ yields n it ++ drop i l) tt []
    else SPanic [] [] (l ++ yields n it)).
Proof.
  intros R Ho Hi Hn. exec.
  edestruct (fill_loop_ok e N HW HN n it i 0 o o 0 m _ g R Ho ltac:(lia) ltac:(lia)) as (m' & g' & R' & W & E').
  { intros t Ht. repeat split_if; lia || reflexivity. }
  pose proof (yields_length n it) as Hy. destruct W as (W1 & W2 & W3).
  assert (HP : Permutation (l ++ yields n it) (omap m' (seq 0 N))).
  { etransitivity; [|eapply Rep_perm; eassumption].
    replace N with (i + (length (yields n it) + ((n - length (yields n it)) + ((length l - i) + (N - length l - n))))) by lia.
    rewrite !seq_app, !omap_app'. cbn [plus].
    rewrite (omap_seq_nil _ (i + length (yields n it))), (omap_seq_nil _ (i + length (yields n it) + _ + _)).
    - rewrite app_nil_r. cbn [app].
      pose proof (omap_seq (fun t => if (i <=? t) && (t <? i + length (yields n it)) then yields n it !! (t - i)
         else if t <? i then l !! t else if t <? i + n then None else l !! (t - n)) 0 (take i l)) as O1.
      pose proof (omap_seq (fun t => if (i <=? t) && (t <? i + length (yields n it)) then yields n it !! (t - i)
         else if t <? i then l !! t else if t <? i + n then None else l !! (t - n)) i (yields n it)) as O2.
      pose proof (omap_seq (fun t => if (i <=? t) && (t <? i + length (yields n it)) then yields n it !! (t - i)
         else if t <? i then l !! t else if t <? i + n then None else l !! (t - n)) (i + n) (drop i l)) as O3.
      rewrite take_length in O1. rewrite drop_length in O3. replace (i `min` length l) with i in O1 by lia.
      replace (i + length (yields n it) + (n - length (yields n it))) with (i + n) by lia.
      rewrite O1, O2, O3.
      + rewrite <- (take_drop i l) at 1. perm.
      + intros j Hj. pw.
      + intros j Hj. pw.
      + intros j Hj. pw.
    - intros p Hp. pw.
    - intros p Hp. pw. }
  assert (HF : exists o'' g'' ks, 
    (forall T, bind (slots_forget N 0 0) (fun _ => panic (R:=T)) (Ring o 0 m') g' = Panic o'' g'') /\ RHolds N o'' [] /\
      dropped g'' = dropped g ++ [] /\ leaked g'' = leaked g ++ ks /\ Permutation (l ++ yields n it) ks).
  { eexists _, _, _. split; [reflexivity|]. split; [|split; [|split]].
    - unfold RHolds. cbn [setm ring_mem origin rlen rdata length]. repeat split; try lia. intros p. pw.
    - cbn [log_leak dropped]. rewrite W1, app_nil_r. reflexivity.
    - cbn [log_leak leaked]. rewrite W2. reflexivity.
    - rewrite HP. erewrite omap_ext'; [reflexivity|]. intros x Hx. unfold mclear. cbn [getm ring_mem rdata].
      repeat split_if; lia || reflexivity. }
  destruct HF as (o'' & g'' & ks & EF & HF).
  destruct E' as [E'|[Hlt E']].
  - erewrite bind_Ret by exact E'. cbn [plus].
    destruct (length (yields n it) =? n) eqn:En.
    + exec. eexists _, _, _. split; [reflexivity|]. rewrite W1, W2, app_nil_r. split; [|auto].
      eapply holds_of_rep; [lia| lookups; lia | lookups; lia|exact R'|]. rep_done.
    + rewrite bind_bind. rewrite EF. exists o'', g'', ks. auto.
  - destruct (length (yields n it) =? n) eqn:En; [lia|].
    rewrite EF in E'. erewrite (bind_Panic (fill_loop _ _ _ _ _ _)) by exact E'. exists o'', g'', ks. auto.
Qed.
End proofs.
