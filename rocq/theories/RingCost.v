(** * How many values the bulk operations of [RingBuffer] write. *)
From Verif Require Import Machine Spec Prims IterSpec RingModel RingProofs RingProofs2 RingProofs3 RingProofs6 RingLaws BulkCost.

Section free.
Context {A : Type} (e : env A) (N : nat).
Implicit Types (r : ring A) (l : list A) (g : log A) (v : A) (i k index count : nat).
Lemma wrap_down_cost {O} f : forall x (o : O) g, within (writes g) (wrap_down e N f x o g).
Proof.
  induction f as [|f IH]; intros x o g; cbn [wrap_down]; destruct (x <? N); try (cbn; lia).
  apply within_bind; [apply usub_cost|]. intros y o' g' Hg. eapply within_le; [apply IH|exact Hg].
Qed.
Lemma raw_add_assign_cost {O} a b (o : O) g : within (writes g) (raw_add_assign e N a b o g).
Proof. unfold raw_add_assign. apply within_bind; [apply uadd_cost|]. intros y o' g' Hg. eapply within_le; [apply wrap_down_cost|exact Hg]. Qed.
Lemma raw_cost i r g : within (writes g) (raw e N i r g).
Proof.
  unfold raw, raw_add. erewrite (bind_Ret get) by reflexivity.
  apply within_bind; [apply uadd_cost|]. intros y o' g' Hg.
  apply within_bind; [eapply within_le; [apply wrap_down_cost|exact Hg]|]. intros y' o'' g'' Hg'.
  unfold raw_from, debug_assert, bind. destruct (debug e && _); cbn; exact Hg'.
Qed.
Lemma fill_loop_cost k : forall it index inserted r g b, writes g + k <= b -> within b (fill_loop e N k it index inserted r g).
Proof.
  induction k as [|k IH]; intros it index inserted r g b Hb; [destruct it as [|[]]; cbn; lia|].
  destruct it as [|[a|] it]; cbn [fill_loop]; [cbn; lia| |cbn; lia].
  unfold rb_force_write, ptr, debug_assert, slot_write. rewrite bind_bind. unfold bind at 1. destruct (debug e && _); [cbn; lia|]. 
  unfold bind at 1, ret. destruct (index <? N); [|exact I].
  apply (step_bind _ (writes g + 1)); [eapply within_le; [apply raw_add_assign_cost|cbn; lia]|lia|]. intros x r1 g1 H1.
  apply (step_bind _ (writes g + 1)); [eapply within_le; [apply uadd_cost|cbn; lia]|lia|]. intros y r2 g2 H2.
  apply IH. lia.
Qed.
Lemma fill_tail_cost n it i b r g : writes g + n <= b ->
  within b ((let! i0 := raw e N i in let! length := rb_len in set_length 0;;;
            (let! inserted := fill_loop e N n it i0 0
             in (if inserted =? n then ret () else slots_forget N 0 0;;; panic);;; set_length length)) r g).
Proof.
  intros Hb. apply (step_bind _ (writes g)); [apply raw_cost|lia|]. intros x r1 g1 H1.
  unfold rb_len. rewrite bind_bind. erewrite (bind_Ret get) by reflexivity. rewrite bind_ret.
  erewrite (bind_Ret (set_length 0)) by reflexivity.
  apply within_bind; [apply fill_loop_cost; lia|]. intros y r2 g2 H2.
  destruct (y =? n); cbn; exact H2.
Qed.
(** Dropping writes nothing, however it ends. *)
Lemma raw_inc_cost {O} i (o : O) g : within (writes g) (raw_inc e N i o g).
Proof.
  unfold raw_inc. apply (step_bind _ (writes g)); [apply usub_cost|lia|]. intros x o' g' Hg.
  destruct (i =? x); [exact Hg|]. eapply within_le; [apply uadd_cost|exact Hg].
Qed.
Lemma raw_from_cost {O} i (o : O) g : within (writes g) (raw_from e N i o g).
Proof. unfold raw_from, debug_assert, bind. destruct (debug e && _); cbn; lia. Qed.
Lemma range_cost r g : within (writes g) (rb_range e N r g).
Proof.
  unfold rb_range, raw_add. erewrite (bind_Ret get) by reflexivity. rewrite bind_bind.
  apply (step_bind _ (writes g)); [apply uadd_cost|lia|]. intros y o' g' Hg. rewrite bind_bind.
  apply within_bind; [eapply within_le; [apply wrap_down_cost|exact Hg]|]. intros y' o'' g'' Hg'.
  apply within_bind; [eapply within_le; [apply raw_from_cost|exact Hg']|]. intros y2 o2 g2 Hg2. exact Hg2.
Qed.
Lemma force_drop_cost i r g : within (writes g) (rb_force_drop e N i r g).
Proof.
  unfold rb_force_drop, ptr, debug_assert, slot_read. unfold bind at 1. destruct (debug e && _); [cbn; lia|]. cbn [ret].
  unfold ret, bind. destruct (i <? N); [|exact I]. destruct (getm r i); [|exact I]. apply drop_values_cost.
Qed.
Lemma for_drop_cost n : forall left r g, within (writes g) (for_range e N n left (rb_force_drop e N) r g).
Proof.
  induction n as [|n IH]; intros lf r g; cbn [for_range]; [cbn; lia|].
  apply (step_bind _ (writes g)); [apply raw_inc_cost|lia|]. intros x r1 g1 H1.
  apply within_bind; [eapply within_le; [apply force_drop_cost|exact H1]|]. intros u r2 g2 H2.
  eapply within_le; [apply IH|exact H2].
Qed.
Lemma skip_cost n : forall left r g, within (writes g) (skip_range e N n left r g).
Proof.
  induction n as [|n IH]; intros lf r g; cbn [skip_range]; [cbn; lia|].
  apply (step_bind _ (writes g)); [apply raw_inc_cost|lia|]. intros x r1 g1 H1. eapply within_le; [apply IH|exact H1].
Qed.
Lemma rb_drop_left_free i r g : within (writes g) (rb_drop_left e N i r g).
Proof.
  unfold rb_drop_left. destruct (0 <? i); [|cbn; lia]. erewrite (bind_Ret get) by reflexivity.
  destruct (rlen r <? i); [cbn; lia|].
  apply (step_bind _ (writes g)); [apply range_cost|lia|]. intros n r1 g1 H1.
  apply within_bind; [eapply within_le; [apply for_drop_cost|exact H1]|]. intros u r2 g2 H2.
  apply within_bind; [eapply within_le; [apply raw_add_assign_cost|exact H2]|]. intros o r3 g3 H3.
  erewrite (bind_Ret (set_origin o)) by reflexivity.
  apply within_bind; [eapply within_le; [apply usub_cost|exact H3]|]. intros x r4 g4 H4. exact H4.
Qed.
Lemma rb_drop_right_free i r g : within (writes g) (rb_drop_right e N i r g).
Proof.
  unfold rb_drop_right. erewrite (bind_Ret get) by reflexivity.
  destruct (rlen r <? i); [cbn; lia|]. destruct (i =? rlen r); [cbn; lia|].
  apply (step_bind _ (writes g)); [apply range_cost|lia|]. intros n r1 g1 H1.
  apply within_bind; [eapply within_le; [apply skip_cost|exact H1]|]. intros x r2 g2 H2.
  apply within_bind; [eapply within_le; [apply for_drop_cost|exact H2]|]. intros u r3 g3 H3. exact H3.
Qed.
Lemma rb_clear_free r g : within (writes g) (rb_clear e N r g).
Proof.
  unfold rb_clear. apply (step_bind _ (writes g)); [apply range_cost|lia|]. intros n r1 g1 H1.
  apply within_bind; [eapply within_le; [apply for_drop_cost|exact H1]|]. intros u r2 g2 H2.
  apply within_bind; [eapply within_le; [apply raw_from_cost|exact H2]|]. intros o r3 g3 H3. exact H3.
Qed.
End free.

Section ring.
Context {A : Type} (e : env A) (N : nat).
Hypothesis HW : N + N < word e.
Hypothesis HN : 0 < N.
Implicit Types (r : ring A) (l : list A) (g : log A) (v : A) (i k index count : nat).
Notation wrote n := (fun _ g' _ => writes g' = n).
Lemma rb_drain_from_front_cost r1 r2 l1 l2 g k : RHolds N r1 l1 -> RHolds N r2 l2 -> length l1 + k <= N -> k <= length l2 ->
  post (wrote (writes g + k)) (rb_drain_from_front e N k (r1, r2) g).
Proof.
  intros H1 H2 HL HK. do 2 start. unfold rb_drain_from_front. step1.
  rewrite (rchecked_sum e N) by (cbn; lia). cbn [fst snd]. rewrite if_true by lia. steps.
  edestruct (copy_from_ok e N HW HN o (wr N (o0 + n0)) k o0 n0 m0 o n m g) as (m1' & m2' & g' & E' & [R1 R2] & W1 & W2 & W3);
    [ring_lia|ring_lia|lia| |].
  { intros p Hp. rewrite Hm0. ring_lia || (unfold lg, wr; pw). }
  erewrite bind_Ret by exact E'. steps. exec. cbn [post]. exact W3.
Qed.
Lemma rb_drain_from_back_cost r1 r2 l1 l2 g k : RHolds N r1 l1 -> RHolds N r2 l2 -> length l1 + k <= N -> k <= length l2 ->
  post (wrote (writes g + k)) (rb_drain_from_back e N k (r1, r2) g).
Proof.
  intros H1 H2 HL HK. do 2 start. unfold rb_drain_from_back. step1.
  rewrite (rchecked_sum e N) by (cbn; lia). cbn [fst snd]. rewrite if_true by lia. steps.
  edestruct (copy_from_ok e N HW HN (wr N (o + (n - k))) (lg N k o0) k (lg N k o0) n0 m0 o n m g) as (m1' & m2' & g' & E' & [R1 R2] & W1 & W2 & W3);
    [ring_lia|ring_lia|lia| |].
  { intros p Hp. rewrite Hm0. ring_lia || (unfold lg, wr; pw). }
  erewrite bind_Ret by exact E'. steps. exec. cbn [post]. exact W3.
Qed.
Lemma rb_append_cost r1 r2 l1 l2 g : RHolds N r1 l1 -> RHolds N r2 l2 -> length l1 + length l2 <= N ->
  post (wrote (writes g + length l2)) (rb_append e N (r1, r2) g).
Proof.
  intros H1 H2 HL. unfold rb_append. erewrite (bind_Ret get) by reflexivity. cbn [snd].
  replace (rlen r2) with (length l2) by (destruct H2 as (_ & -> & _); reflexivity).
  eapply rb_drain_from_front_cost; eassumption || lia.
Qed.
Lemma local_cost {O1 O2 R} n (i : O1) d (m : M A (O1 * O2) R) o g :
  post (wrote n) (m (i, o) g) -> post (wrote n) (with_local i d m o g).
Proof. unfold with_local. destruct (m (i, o) g) as [[] ? ?|[] ?| | | ]; cbn; auto; contradiction. Qed.
Lemma rb_from_front_cost r l g k : RHolds N r l -> k <= length l -> post (wrote (writes g + k)) (rb_from_front e N k r g).
Proof.
  intros H Hk. unfold rb_from_front. erewrite bind_Ret by (apply rb_new_eq; assumption). apply local_cost.
  pose proof (rholds_length N r l H). eapply rb_drain_from_front_cost; [apply (ring0_holds N HN)|exact H|cbn; lia|lia].
Qed.
Lemma rb_from_back_cost r l g k : RHolds N r l -> k <= length l -> post (wrote (writes g + k)) (rb_from_back e N k r g).
Proof.
  intros H Hk. unfold rb_from_back. erewrite bind_Ret by (apply rb_new_eq; assumption). apply local_cost.
  pose proof (rholds_length N r l H). eapply rb_drain_from_back_cost; [apply (ring0_holds N HN)|exact H|cbn; lia|lia].
Qed.
Lemma rb_split_off_cost r l g i : RHolds N r l -> i <= length l -> post (wrote (writes g + (length l - i))) (rb_split_off e N i r g).
Proof.
  intros H Hi. start. unfold rb_split_off. destruct (i =? n) eqn:E; [exec; cbn; lia|].
  edestruct (copy_from_ok e N HW HN (wr N (o + i)) 0 (n - i) 0 0 mem0 o n m g) as (m1' & m2' & g' & E' & [R1 R2] & W1 & W2 & W3);
    [ring_lia|ring_lia|lia|reflexivity|].
  exec.
  { unfold ring0. erewrite bind_Ret by exact E'. steps. reflexivity. }
  cbn [post]. subst n. exact W3.
Qed.

Lemma rb_insert_from_cost r l g i n it : RHolds N r l -> length l + n <= N -> i < length l ->
  within (writes g + i `min` (length l - i) + n) (rb_insert_from e N i n it r g).
Proof.
  intros H Hn Hi. pose proof (rep_of_holds N r l H) as R. start. cbn [origin rdata] in R. subst n0.
  unfold rb_insert_from.
  repeat (steps; try match goal with |- within _ ((if ?b then ?x else ?y) _ _) => head_if b x y end); try lia.
  - (* shift right *)
    destruct (shift_down_ok e N HW HN n (length l - 1 - i) i N o o (length l) m _ g R Ho ltac:(lia) ltac:(lia))
      as (m1 & g1 & E' & R1 & W).
    { intros t Ht. apply lookup_live. lia. }
    { intros t Ht Ht'. apply lookup_none. lia. }
    replace (i + (length l - 1 - i)) with (length l - 1) in E' by lia.
    erewrite bind_Ret by exact E'. rewrite bind_bind.
    erewrite bind_Ret by (apply raw_add_ok; ring_lia). rewrite wr_add by lia.
    destruct (l !! i) as [x|] eqn:Hx; [|exfalso; revert Hx; apply lookup_live; lia].
    edestruct (move_one' e N HW HN o o (length l) m1 _ i (i + n) g1 x R1 Ho ltac:(lia) ltac:(lia)) as (m0 & m2 & R2 & Em1 & Em2).
    { unfold mmove. repeat split_if; try lia. exact Hx. }
    { intros Hne. unfold mmove. pw. }
    rewrite bind_bind. erewrite bind_Ret by exact Em1. rewrite bind_bind. erewrite bind_Ret by exact Em2.
    rewrite bind_bind. erewrite bind_Ret by (apply uadd_ok; lia). erewrite bind_Ret by reflexivity.
    cbn [origin rlen rdata]. destruct W as (W1 & W2 & W3). apply fill_tail_cost. cbn. lia.
  - (* shift left *)
    apply (Rep_left N o n) in R; [|lia|lia].
    destruct (pull_ok e N HW HN n i 0 (lg N n o) (lg N n o) (length l + n) m _ g R) as (m1 & g1 & E' & R1 & W).
    { ring_lia. } { lia. }
    { intros t Ht. rewrite if_true by lia. apply lookup_live. lia. }
    { intros t Ht Ht'. rewrite if_false by lia. apply lookup_none. lia. }
    replace (i `min` (length l + n)) with i by lia.
    replace (wr N (lg N n o + 0)) with (lg N n o) in E' by ring_lia.
    erewrite bind_Ret by exact E'. destruct W as (W1 & W2 & W3). apply fill_tail_cost. lia.
Qed.
(** At the end of the buffer [insert_from] is [extend]. *)
Lemma rb_extend_cost xs : calm e -> forall r l g, RHolds N r l -> length l + length xs <= N ->
  post (wrote (writes g + length xs)) (rb_extend e N (map Yield xs) r g).
Proof.
  intros Hc. induction xs as [|x xs IH]; intros r l g H Hl; cbn [map rb_extend length] in *; [cbn; lia|].
  pose proof (rb_push_back_cost e N HW HN r l g x H ltac:(lia)) as C.
  pose proof (rb_push_back_ok e N HW HN Hc r l g x H) as P. unfold bl_push_back in P. rewrite if_true in P by lia.
  destruct P as (r' & g' & [] & E & H' & _). rewrite E in C. cbn in C.
  erewrite bind_Ret by exact E. replace (writes g + S (length xs)) with (writes g' + length xs) by lia.
  eapply IH; [exact H'|]. rewrite app_length. cbn. lia.
Qed.
(** An iterator that yields what it announces. *)
Lemma rb_insert_from_truthful_cost r l g i xs : calm e -> RHolds N r l -> length l + length xs <= N -> i <= length l ->
  post (fun _ g' _ => writes g' <= writes g + i `min` (length l - i) + length xs) (rb_insert_from e N i (length xs) (map Yield xs) r g).
Proof.
  intros Hc H Hn Hi. destruct (i =? length l) eqn:E.
  - pose proof (rb_extend_cost xs Hc r l g H Hn) as C. start. subst n. unfold rb_insert_from. exec.
    destruct (rb_extend _ _ _ _ _) in *; cbn in *; try contradiction. lia.
  - pose proof (rb_insert_from_cost r l g i (length xs) (map Yield xs) H Hn ltac:(lia)) as C.
    pose proof (RingLaws.rb_insert_from_truthful e N HW HN r l g i xs Hc H ltac:(lia)) as P.
    rewrite if_true in P by lia. destruct P as (r' & g' & x & E' & _). rewrite E' in *. exact C.
Qed.

End ring.
