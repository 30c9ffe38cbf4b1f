(** * [RingBuffer::insert_from] when the sum of the lengths overflows in a release build *)
From Verif Require Import Machine Spec Prims RingModel RingProofs RingProofs6.

(** The loop [while other > start { start += N; }] never ends if it has not ended after [word e] rounds. *)
Section loop.
Context {A O : Type} (e : env A) (N : nat).
Hypothesis HD : debug e = false.
Hypothesis HN : N < word e.
Implicit Types (o : O) (g : log A).
Lemma uadd_mod x y o g : x < word e -> y < word e -> uadd e x y o g = Ret o g ((x + y) mod word e).
Proof.
  clear HN. intros Hx Hy. unfold uadd. rewrite HD. destruct (_ <? _) eqn:E.
  - rewrite Nat.mod_small by lia. reflexivity.
  - unfold ret. f_equal. rewrite <- (Nat.mod_small (x + y - word e) (word e)) by lia.
    rewrite <- (Nat.mod_add (x + y - word e) 1) by lia. f_equal. lia.
Qed.
Lemma wrap_up_hang_iff other o g : forall fuel start, start < word e ->
  (wrap_up e N fuel start other o g = Hang <-> forall k, k <= fuel -> (start + k * N) mod word e < other).
Proof.
  induction fuel as [|f IH]; intros s Hs; cbn [wrap_up]; destruct (s <? other) eqn:E.
  - split; [|reflexivity]. intros _ k Hk. replace k with 0 by lia. rewrite Nat.add_0_r, Nat.mod_small; lia.
  - split; [discriminate|]. intros H. specialize (H 0 ltac:(lia)). rewrite Nat.add_0_r, Nat.mod_small in H; lia.
  - erewrite bind_Ret by (apply uadd_mod; lia). rewrite IH by (apply Nat.mod_upper_bound; lia). split; intros H k Hk.
    + destruct k as [|k]; [rewrite Nat.add_0_r, Nat.mod_small; lia|]. specialize (H k ltac:(lia)).
      rewrite Nat.add_mod_idemp_l in H by lia. replace (s + S k * N) with (s + N + k * N) by lia. exact H.
    + rewrite Nat.add_mod_idemp_l by lia. replace (s + N + k * N) with (s + S k * N) by lia. apply H. lia.
  - split; [discriminate|]. intros H. specialize (H 0 ltac:(lia)). rewrite Nat.add_0_r, Nat.mod_small in H; lia.
Qed.
Lemma wrap_up_hangs other start o g fuel : start < word e -> word e <= fuel -> wrap_up e N fuel start other o g = Hang ->
  forall fuel', wrap_up e N fuel' start other o g = Hang.
Proof.
  intros Hs Hf H fuel'. rewrite wrap_up_hang_iff in H |- * by exact Hs. intros k _.
  assert (Hm := Nat.mod_upper_bound k (word e) ltac:(lia)).
  specialize (H (k mod word e) ltac:(lia)).
  replace (start + k * N) with (start + k mod word e * N + (k / word e * N) * word e); [rewrite Nat.mod_add by lia; exact H|].
  pose proof (Nat.div_mod k (word e) ltac:(lia)). nia.
Qed.
Lemma wrap_up_ret other o g : forall fuel start, start < word e ->
  wrap_up e N fuel start other o g = Hang \/
  exists x, wrap_up e N fuel start other o g = Ret o g x /\ other <= x < word e /\ (x = start \/ x < other + N).
Proof.
  induction fuel as [|f IH]; intros s Hs; cbn [wrap_up]; destruct (s <? other) eqn:E.
  - left; reflexivity.
  - right. exists s. split; [reflexivity|]. lia.
  - unfold uadd. rewrite HD. destruct (s + N <? word e) eqn:E2; erewrite bind_Ret by reflexivity.
    + destruct (IH (s + N)) as [H|(x & H & Hx)]; [lia|left; exact H|right]. exists x. split; [exact H|]. lia.
    + destruct (IH (s + N - word e)) as [H|(x & H & Hx)]; [lia|left; exact H|right]. exists x. split; [exact H|]. lia.
  - right. exists s. split; [reflexivity|]. lia.
Qed.
End loop.

Section overflow.
Context {A : Type} (e : env A) (N : nat).
Hypothesis HW : N + N < word e.
Hypothesis HN : 0 < N.
Hypothesis HD : debug e = false.
Notation M := (M A (ring A)).
Implicit Types (r : ring A) (g : log A).

Definition inv r := origin r < N /\ rlen r < word e.
(** A step that does not panic or abort, and if it ends drops nothing; its result has [P]. *)
Definition calmly {X} (P : X -> Prop) (m : M X) : Prop := forall r g, inv r ->
  match m r g with
  | Ret r' g' x => inv r' /\ dropped g' = dropped g /\ P x
  | UB _ | Hang => True
  | _ => False
  end.
Lemma calmly_bind {X Y} (P : X -> Prop) (Q : Y -> Prop) (m : M X) k :
  calmly P m -> (forall x, P x -> calmly Q (k x)) -> calmly Q (bind m k).
Proof.
  intros Hm Hk r g Hr. unfold bind. specialize (Hm r g Hr). destruct (m r g) as [r' g' x| | | |]; auto.
  destruct Hm as (Hr' & Hd & HP). specialize (Hk x HP r' g' Hr'). destruct (k x r' g') as [r'' g'' y| | | |]; auto.
  destruct Hk as (H1 & H2 & H3). rewrite H2, Hd. auto.
Qed.
Lemma calmly_ret {X} (P : X -> Prop) x : P x -> calmly P (ret x).
Proof. intros H r g Hr. cbn. auto. Qed.
Lemma calmly_uadd x y : x < word e -> y < word e -> calmly (fun z => z < word e) (uadd e x y).
Proof.
  intros Hx Hy r g Hr. rewrite uadd_mod by assumption. split; [exact Hr|]. split; [reflexivity|].
  apply Nat.mod_upper_bound. lia.
Qed.
Lemma calmly_usub x y : x < word e -> y < word e -> calmly (fun z => z < word e) (usub e x y).
Proof.
  intros Hx Hy r g Hr. unfold usub. rewrite HD. destruct (_ <=? _) eqn:E; cbn; (split; [exact Hr|]); (split; [reflexivity|]); lia.
Qed.
Lemma calmly_raw_add x y : x < word e -> y < word e -> calmly (fun z => z < N) (raw_add e N x y).
Proof.
  intros Hx Hy. unfold raw_add. eapply calmly_bind; [apply calmly_uadd; assumption|]. intros z Hz; cbv beta in Hz.
  eapply calmly_bind with (P := fun z => z < N).
  - intros r g Hr. rewrite wrap_down_mod by lia. split; [exact Hr|]. split; [reflexivity|]. apply Nat.mod_upper_bound. lia.
  - intros w Hw r g Hr. unfold raw_from, debug_assert. rewrite HD. cbn. auto.
Qed.
Lemma calmly_raw_add_assign x y : x < word e -> y < word e -> calmly (fun z => z < N) (raw_add_assign e N x y).
Proof.
  intros Hx Hy. unfold raw_add_assign. eapply calmly_bind; [apply calmly_uadd; assumption|]. intros z Hz; cbv beta in Hz.
  intros r g Hr. rewrite wrap_down_mod by lia. split; [exact Hr|]. split; [reflexivity|]. apply Nat.mod_upper_bound. lia.
Qed.
Lemma calmly_raw_sub_assign x y : x < N -> y < word e -> calmly (fun z => z < N) (raw_sub_assign e N x y).
Proof.
  intros Hx Hy r g Hr. unfold raw_sub_assign, bind.
  destruct (wrap_up_ret e N HD ltac:(lia) y r g (S y + word e) x ltac:(lia)) as [->|(z & -> & Hz)]; [exact I|].
  rewrite usub_ok by lia. split; [exact Hr|]. split; [reflexivity|]. lia.
Qed.
Lemma calmly_raw x : x < word e -> calmly (fun z => z < N) (raw e N x).
Proof.
  intros Hx r g Hr. unfold raw. erewrite bind_Ret by reflexivity. destruct Hr. apply calmly_raw_add; try split; lia.
Qed.
Lemma calmly_inc x : x < N -> calmly (fun z => z < N) (raw_inc e N x).
Proof.
  intros Hx r g Hr. unfold raw_inc. erewrite bind_Ret by (apply usub_ok; lia). destruct (x =? N - 1) eqn:E.
  - cbn. auto.
  - rewrite uadd_ok by lia. split; [exact Hr|]. split; [reflexivity|]. lia.
Qed.
Lemma calmly_read x : calmly (fun _ => True) (rb_force_read e N x).
Proof.
  intros r g Hr. unfold rb_force_read, bind, ptr, debug_assert. rewrite HD. cbn [andb]. unfold ret, slot_read.
  destruct (x <? N); [|exact I]. destruct (getm r x); [|exact I]. cbn. auto.
Qed.
Lemma calmly_write x a : calmly (fun _ => True) (rb_force_write e N x a).
Proof.
  intros r g Hr. unfold rb_force_write, bind, ptr, debug_assert. rewrite HD. cbn [andb]. unfold ret, slot_write.
  destruct (x <? N); [|exact I]. cbn. auto.
Qed.
Lemma calmly_set_length x : x < word e -> calmly (fun _ => True) (set_length (A:=A) x).
Proof. intros Hx r g [Hr Hl]. unfold inv. cbn. auto. Qed.
Lemma calmly_set_origin x : x < N -> calmly (fun _ => True) (set_origin (A:=A) x).
Proof. intros Hx r g [Hr Hl]. unfold inv. cbn. auto. Qed.
Lemma calmly_shift by_ : by_ < word e -> forall fuel i target, i < N -> calmly (fun _ => True) (shift_down e N fuel i target by_).
Proof.
  intros Hb. induction fuel as [|f IH]; intros i t Hi; cbn [shift_down]; destruct (i =? t).
  1,3: apply calmly_ret; exact I.
  - intros r g Hr. exact I.
  - eapply calmly_bind; [apply calmly_raw_add; lia|]. intros to Hto; cbv beta in Hto.
    eapply calmly_bind; [apply calmly_read|]. intros a _. eapply calmly_bind; [apply calmly_write|]. intros _ _.
    eapply calmly_bind; [apply calmly_raw_sub_assign; lia|]. intros i' Hi'; cbv beta in Hi'. apply IH. exact Hi'.
Qed.
Lemma calmly_for_range by_ : by_ < word e -> forall count left, left < N ->
  calmly (fun _ => True) (for_range e N count left (pull_one e N by_)).
Proof.
  intros Hb. induction count as [|c IH]; intros left Hl; cbn [for_range]; [apply calmly_ret; exact I|].
  eapply calmly_bind; [apply calmly_inc; exact Hl|]. intros l' Hl'; cbv beta in Hl'. eapply calmly_bind; [|intros _ _; apply IH; exact Hl'].
  unfold pull_one. eapply calmly_bind; [apply calmly_raw_add; lia|]. intros fr Hfr; cbv beta in Hfr.
  eapply calmly_bind; [apply calmly_read|]. intros a _. apply calmly_write.
Qed.

(** Never a result: it runs for ever, is undefined, or panics with the buffer empty and nothing dropped. *)
Definition lost {X} g (x : outcome A (ring A) X) : Prop :=
  x = Hang \/ (exists u, x = UB u) \/ exists r' g', x = Panic r' g' /\ RHolds N r' [] /\ dropped g' = dropped g.
Lemma lost_calmly {X Y} (P : X -> Prop) (m : M X) (k : X -> M Y) r g d : inv r -> dropped g = dropped d ->
  calmly P m -> (forall r' g' x, inv r' -> dropped g' = dropped d -> m r g = Ret r' g' x -> P x -> lost d (k x r' g')) ->
  lost d (bind m k r g).
Proof.
  intros Hr Hd Hm Hk. unfold bind. specialize (Hm r g Hr). destruct (m r g) as [r' g' x| | | |] eqn:E; try (exfalso; exact Hm).
  - destruct Hm as (H1 & H2 & H3). eapply Hk; eauto. congruence.
  - right; left; eauto.
  - left; reflexivity.
Qed.
Lemma lost_bind {X Y} d (m : M X) (k : X -> M Y) r g : lost d (m r g) -> lost d (bind m k r g).
Proof. unfold bind. intros [->|[(u & ->)|(r' & g' & -> & H)]]; [left; reflexivity|right; left; eauto|right; right; eauto]. Qed.
Lemma lost_forgotten {X} r g d : origin r < N -> rlen r = 0 -> dropped g = dropped d ->
  lost d ((slots_forget N 0 0 ;;; panic (R := X)) r g).
Proof.
  intros Hr Hl Hd. right; right. unfold bind, slots_forget, panic.
  eexists _, _. split; [reflexivity|]. split; [|exact Hd]. unfold RHolds. cbn [getm setm ring_mem origin rlen rdata length].
  split; [exact Hr|]. split; [exact Hl|]. split; [lia|]. intros p.
  replace ((0 <=? p) && (p <? 0 + 0)) with false by (destruct (p <? 0 + 0) eqn:?; lia). destruct (p <? N); reflexivity.
Qed.
(** The loop that writes the items, with the length set to zero. *)
Lemma fill_lost d : forall k it i n0 r g, origin r < N -> rlen r = 0 -> dropped g = dropped d -> i < N -> n0 + k < word e ->
  lost d (fill_loop e N k it i n0 r g) \/
  exists r' g', fill_loop e N k it i n0 r g = Ret r' g' (n0 + length (yields k it)) /\ origin r' < N /\ rlen r' = 0 /\
    dropped g' = dropped d.
Proof.
  induction k as [|k IH]; intros [|[a|] it] i n0 r g Hr Hl Hd Hi Hn; cbn [fill_loop yields length];
    try (right; exists r, g; rewrite Nat.add_0_r; repeat split; auto; fail).
  - unfold rb_force_write, ptr, debug_assert. rewrite HD. cbn [andb].
    assert (EE : forall (k0 : unit -> M nat), bind (ret tt ;;; slot_write N i a) k0 r g =
      k0 tt (Ring (origin r) (rlen r) (upd (rdata r) i (Some a))) (log_write 1 (log_leak (option_list (rdata r i)) g))).
    { intros k0. unfold bind, ret, slot_write. rewrite if_true by lia. reflexivity. }
    rewrite EE.
    match goal with |- lost _ ?x \/ _ => assert (E0 : x = fill_loop e N k it ((i + 1) mod N) (n0 + 1)
      (Ring (origin r) (rlen r) (upd (rdata r) i (Some a))) (log_write 1 (log_leak (option_list (rdata r i)) g))) end.
    { unfold raw_add_assign. rewrite bind_bind. erewrite bind_Ret by (apply uadd_ok; lia).
      erewrite bind_Ret by (apply wrap_down_mod; lia). erewrite bind_Ret by (apply uadd_ok; lia). reflexivity. }
    rewrite E0. clear E0 EE.
    destruct (IH it ((i + 1) mod N) (n0 + 1) (Ring (origin r) (rlen r) (upd (rdata r) i (Some a)))
      (log_write 1 (log_leak (option_list (rdata r i)) g))) as [H|(r' & g' & E & H)]; try assumption.
    + apply Nat.mod_upper_bound. lia.
    + lia.
    + left. exact H.
    + right. exists r', g'. rewrite E. split; [f_equal; lia|exact H].
  - left. apply lost_forgotten; assumption.
Qed.

Lemma insert_from_overflow r l g i n it : RHolds N r l -> n < word e -> word e <= length l + n ->
  (N < length l + n - word e \/ length l < i -> rb_insert_from e N i n it r g = Panic r g) /\
  (i < length l -> length (yields n it) < n -> 
     rb_insert_from e N i n it r g = Panic r g \/ lost g (rb_insert_from e N i n it r g)).
Proof.
  intros (Ho & Hl & HlN & HM) Hn Hw.
  assert (EU : forall g, uadd e (rlen r) n r g = Ret r g (length l + n - word e)).
  { intros g0. unfold uadd. rewrite HD, Hl. rewrite if_false by lia. reflexivity. }
  eassert (E0 : rb_insert_from e N i n it r g = _).
  { unfold rb_insert_from. erewrite bind_Ret by reflexivity. erewrite bind_Ret by apply EU. rewrite Hl. reflexivity. }
  rewrite !E0. clear E0. split.
  { intros [H|H]; [rewrite if_true by lia; reflexivity|]. destruct (_ <? _); [reflexivity|]. rewrite if_true by lia. reflexivity. }
  intros Hi Hy. destruct (N <? length l + n - word e) eqn:EN; [left; reflexivity|right]. rewrite !if_false by lia.
  erewrite bind_Ret by (apply usub_ok; lia).
  eapply (lost_calmly (fun _ => True)); [split; lia|reflexivity| |].
  { destruct (_ <? i).
    - eapply calmly_bind; [apply calmly_usub; lia|]. intros l1 Hl1; cbv beta in Hl1. eapply calmly_bind; [apply calmly_raw; exact Hl1|]. intros j Hj; cbv beta in Hj.
      eapply calmly_bind; [apply calmly_raw; lia|]. intros t Ht; cbv beta in Ht. eapply calmly_bind; [apply calmly_shift; assumption|]. intros _ _.
      eapply calmly_bind; [apply calmly_raw_add; lia|]. intros to Hto; cbv beta in Hto. eapply calmly_bind; [apply calmly_read|]. intros a _.
      eapply calmly_bind; [apply calmly_write|]. intros _ _. eapply calmly_bind; [apply calmly_uadd; lia|]. intros z Hz.
      apply calmly_set_length. exact Hz.
    - eapply calmly_bind; [apply calmly_raw_sub_assign; lia|]. intros o Hoo; cbv beta in Hoo. eapply calmly_bind; [apply calmly_set_origin; exact Hoo|].
      intros _ _. eapply calmly_bind; [apply calmly_uadd; lia|]. intros z Hz; cbv beta in Hz. 
      eapply calmly_bind; [apply calmly_set_length; exact Hz|]. intros _ _. unfold rb_range.
      eapply calmly_bind with (P := fun rg => fst rg < N); [|intros rg Hrg; apply calmly_for_range; assumption].
      intros r0 g0 Hr0. erewrite bind_Ret by reflexivity. generalize (calmly_raw_add (origin r0) (rlen r0)). intros C.
      destruct Hr0 as [Hr0 Hr1]. specialize (C ltac:(lia) Hr1 r0 g0 (conj Hr0 Hr1)).
      unfold bind. destruct (raw_add _ _ _ _ r0 g0) eqn:ER; auto. destruct C as (C1 & C2 & C3). unfold ret, raw_add in *.
      split; [exact C1|]. split; [exact C2|]. exact Hr0. }
  intros r1 g1 [] Hr1 Hd1 _ _.
  eapply (lost_calmly (fun z => z < N)); [exact Hr1|exact Hd1|apply calmly_raw; lia|].
  intros r2 g2 j Hr2 Hd2 _ Hj; cbv beta in Hj. erewrite bind_Ret by reflexivity. unfold bind at 1, set_length. 
  destruct (fill_lost g n it j 0 (Ring (origin r2) 0 (rdata r2)) g2) as [H|(r3 & g3 & E & H1 & H2 & H3)];
    [apply Hr2|reflexivity|exact Hd2|exact Hj|lia|apply lost_bind; exact H|].
  erewrite bind_Ret by exact E. rewrite if_false by lia. apply lost_bind. apply lost_forgotten; assumption.
Qed.
End overflow.

(** In a release build a subtraction of raw indices fails to end exactly when no multiple of [N] added to the index,
    modulo the number of [usize] values, reaches the operand. *)
Lemma raw_sub_assign_hang_iff {A O} (e : env A) (N i k : nat) (o : O) (g : log A) :
  debug e = false -> N < word e -> i < word e ->
  (raw_sub_assign e N i k o g = Hang <-> forall m, (i + m * N) mod word e < k) /\
  (raw_sub_assign e N i k o g = Hang -> forall fuel, wrap_up e N fuel i k o g = Hang).
Proof.
  intros HD HN Hi.
  assert (E1 : raw_sub_assign e N i k o g = Hang <-> wrap_up e N (S k + word e) i k o g = Hang).
  { unfold raw_sub_assign, bind.
    destruct (wrap_up_ret e N HD HN k o g (S k + word e) i Hi) as [->|(x & -> & Hx & _)]; [reflexivity|].
    rewrite usub_ok by lia. split; discriminate. }
  assert (E2 : raw_sub_assign e N i k o g = Hang -> forall fuel, wrap_up e N fuel i k o g = Hang).
  { rewrite E1. intros H. apply (wrap_up_hangs e N HD HN k i o g (S k + word e)); [exact Hi|lia|exact H]. }
  split; [|exact E2]. split.
  - intros H m. specialize (E2 H m). rewrite (wrap_up_hang_iff e N HD HN) in E2 by exact Hi. apply E2. lia.
  - intros H. rewrite E1, (wrap_up_hang_iff e N HD HN) by exact Hi. intros m _. apply H.
Qed.
