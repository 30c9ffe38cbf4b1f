(** * [RingBuffer] does what the list specification says: index arithmetic and simple methods. *)
From Verif Require Import Machine Spec Prims RingModel.

(** Wrapping a number below [2N] into the ring, and the distance from [o] to [p] going right. *)
Definition wr (N x : nat) : nat := if x <? N then x else x - N.
Definition lg (N o p : nat) : nat := if o <=? p then p - o else p + N - o.

(** The ring [r] (capacity [N]) holds exactly the list [l]: element [t] is in slot [origin + t]
    (wrapped), and no other slot is live. *)
Definition RHolds {A} (N : nat) (r : ring A) (l : list A) : Prop :=
  origin r < N /\ rlen r = length l /\ length l <= N /\
  forall p, rdata r p = if p <? N then l !! lg N (origin r) p else None.

(** A call that returns a new ring holding [l]. *)
Definition RMade {A} (N : nat) (ru : ring A * unit) (l : list A) : Prop := RHolds N (fst ru) l.

(** ** Index arithmetic *)
Section index.
Context {A O : Type} (e : env A) (N : nat).
Hypothesis HW : N + N < word e.
Implicit Types (o : O) (g : log A).

Lemma raw_from_ok i o g : i < N -> raw_from e N i o g = Ret o g i.
Proof using. clear. intros H. unfold raw_from, bind. rewrite debug_assert_ok by lia. reflexivity. Qed.
Lemma ptr_ok i o g : i < N -> ptr e N i o g = Ret o g tt.
Proof using. clear. intros H. unfold ptr. apply debug_assert_ok. lia. Qed.
Lemma wrap_down_ok fuel x o g : x < N + N -> 0 < fuel -> wrap_down e N fuel x o g = Ret o g (wr N x).
Proof using.
  clear. intros Hx Hf. unfold wr. destruct fuel as [|[|fuel]]; [lia| |]; cbn [wrap_down].
  - destruct (x <? N) eqn:E; [reflexivity|]. unfold bind. rewrite usub_ok by lia.
    replace (x - N <? N) with true by lia. reflexivity.
  - destruct (x <? N) eqn:E; [reflexivity|]. unfold bind. rewrite usub_ok by lia.
    replace (x - N <? N) with true by lia. reflexivity.
Qed.
Lemma wr_lt x : x < N + N -> wr N x < N.
Proof using. clear. unfold wr. intros. destruct (x <? N) eqn:E; lia. Qed.
Lemma raw_add_assign_ok i k o g : i + k < N + N -> raw_add_assign e N i k o g = Ret o g (wr N (i + k)).
Proof using HW.
  intros H. unfold raw_add_assign, bind. rewrite uadd_ok by lia. apply wrap_down_ok; lia.
Qed.
Lemma raw_add_ok i k o g : i + k < N + N -> raw_add e N i k o g = Ret o g (wr N (i + k)).
Proof using HW.
  intros H. unfold raw_add, bind. rewrite uadd_ok by lia. rewrite wrap_down_ok by lia.
  apply raw_from_ok. apply wr_lt. lia.
Qed.
Lemma wrap_up_ok f i k o g : i < N -> k <= N ->
  wrap_up e N (S f) i k o g = Ret o g (if k <=? i then i else i + N).
Proof using HW.
  intros Hi Hk. cbn [wrap_up]. destruct (i <? k) eqn:E.
  - unfold bind. rewrite uadd_ok by lia.
    replace (k <=? i) with false by lia. destruct f; cbn [wrap_up]; (replace (i + N <? k) with false by lia); reflexivity.
  - replace (k <=? i) with true by lia. reflexivity.
Qed.
Lemma raw_sub_assign_ok i k o g : i < N -> k <= N ->
  raw_sub_assign e N i k o g = Ret o g (lg N k i).
Proof using HW.
  intros Hi Hk. unfold raw_sub_assign, bind, lg. cbn [Nat.add]. rewrite wrap_up_ok by lia.
  destruct (k <=? i) eqn:E; rewrite usub_ok by lia; reflexivity.
Qed.
Lemma raw_sub_ok i k o g : i < N -> 0 < k <= N -> raw_sub e N i k o g = Ret o g (lg N k i).
Proof using HW.
  intros Hi Hk. unfold raw_sub, bind. cbn [Nat.add]. rewrite wrap_up_ok by lia.
  unfold lg. destruct (k <=? i) eqn:E; rewrite usub_ok by lia; apply raw_from_ok; lia.
Qed.
Hypothesis HN : 0 < N.
Lemma raw_inc_ok i o g : i < N -> raw_inc e N i o g = Ret o g (wr N (i + 1)).
Proof using HW HN.
  intros Hi. unfold raw_inc, bind. rewrite usub_ok by lia. unfold wr.
  destruct (i =? N - 1) eqn:E.
  - replace (i + 1 <? N) with false by lia. unfold ret. f_equal. lia.
  - rewrite uadd_ok by lia. replace (i + 1 <? N) with true by lia. reflexivity.
Qed.
Lemma raw_dec_ok i o g : i < N -> raw_dec e N i o g = Ret o g (lg N 1 i).
Proof using HN.
  clear HW. intros Hi. unfold raw_dec, lg. destruct (i =? 0) eqn:E.
  - rewrite usub_ok by lia. replace (1 <=? i) with false by lia. f_equal. lia.
  - rewrite usub_ok by lia. replace (1 <=? i) with true by lia. reflexivity.
Qed.
End index.

(** ** Tactics *)
Ltac expand ::= cbn [origin rlen rdata getm setm ring_mem fst snd]; unfold rb_is_full, rb_is_empty;
  cbn [origin rlen rdata].
Ltac mem_unfold := unfold ring0; cbn [getm setm ring_mem rdata origin rlen fst snd];
  unfold upd, mmove, mrecv, mclear, mem0;
  repeat match goal with H : forall p, ?m p = if p <? _ then _ else _ |- context [?m _] => rewrite H end;
  unfold lg, wr.
Ltac find_elem :=
  match goal with
  | H : ?l !! ?i = Some ?a |- ?l !! ?j = Some _ => replace j with i by lia; exact H
  | H : ?l !! ?i = Some ?a |- Some _ = ?l !! ?j => replace j with i by lia; symmetry; exact H
  end.
Ltac mem_side ::= mem_unfold; pw; try find_elem.
Ltac unfold_method m ::=
  let rec head t := lazymatch t with ?f _ => head f | _ => t end in
  let h := head m in
  lazymatch h with
  | @raw => unfold raw
  | @rb_len => unfold rb_len
  | @rb_force_read => unfold rb_force_read
  | @rb_force_write => unfold rb_force_write
  | @rb_range => unfold rb_range
  | @rb_get_unchecked => unfold rb_get_unchecked
  | @rb_new => unfold rb_new
  end.
Ltac ring_lia := unfold lg, wr; repeat split_if; lia.
Ltac prim ::=
  lazymatch goal with
  | |- get _ _ = _ => reflexivity
  | |- put _ _ _ = _ => reflexivity
  | |- ret _ _ _ = _ => reflexivity
  | |- uadd _ _ _ _ _ = _ => apply uadd_ok; lia
  | |- usub _ _ _ _ _ = _ => apply usub_ok; lia
  | |- debug_assert _ _ _ _ = _ => apply debug_assert_ok; lia
  | |- assert _ _ _ = _ => apply assert_ok; lia
  | |- raw_from _ _ _ _ _ = _ => apply raw_from_ok; ring_lia
  | |- ptr _ _ _ _ _ = _ => apply ptr_ok; ring_lia
  | |- raw_add _ _ _ _ _ _ = _ => apply raw_add_ok; ring_lia
  | |- raw_add_assign _ _ _ _ _ _ = _ => apply raw_add_assign_ok; ring_lia
  | |- raw_sub _ _ _ _ _ _ = _ => apply raw_sub_ok; ring_lia
  | |- raw_sub_assign _ _ _ _ _ _ = _ => apply raw_sub_assign_ok; ring_lia
  | |- raw_inc _ _ _ _ _ = _ => apply raw_inc_ok; ring_lia
  | |- raw_dec _ _ _ _ _ = _ => apply raw_dec_ok; ring_lia
  | |- slot_read _ _ _ _ = _ => eapply slot_read_ok; [ring_lia | mem_side]
  | |- slot_peek _ _ _ _ = _ => eapply slot_peek_ok; [ring_lia | mem_side]
  | |- slot_write _ _ _ _ _ = _ => eapply slot_write_ok; [ring_lia | mem_side]
  | |- slots_transfer _ _ _ _ _ (_, _) _ = _ =>
      eapply slots_transfer_ok; [ring_lia | ring_lia | intros p ?; mem_side]
  | |- on_fst _ (_, _) _ = _ => eapply on_fst_Ret; prim
  | |- on_snd _ (_, _) _ = _ => eapply on_snd_Ret; prim
  | |- _ => reflexivity
  end.
Ltac start :=
  match goal with
  | H : RHolds ?N ?c ?l |- _ =>
      let o := fresh "o" in let n := fresh "n" in let m := fresh "m" in
      let H0 := fresh "Ho" in let H1 := fresh "Hlen" in let H2 := fresh "Hcap" in let H3 := fresh "Hm" in
      destruct c as [o n m]; destruct H as (H0 & H1 & H2 & H3); cbn [origin rlen rdata] in H0, H1, H2, H3
  end.
Ltac holds1 :=
  unfold RHolds, ring0; cbn [origin rlen rdata getm setm ring_mem fst snd];
  split; [|split; [|split]];
  [ring_lia | lookups; lia | lookups; lia | intros p; mem_unfold; pw; try find_elem].
Ltac holds :=
  lazymatch goal with
  | |- both _ _ _ _ => split; holds1
  | |- RMade _ _ _ => unfold RMade; holds1
  | |- _ => holds1
  end.
Ltac log_eq := cbn [dropped leaked log_drop log_leak log_write];
  solve [reflexivity | rewrite ?app_nil_r, <- ?app_assoc; reflexivity].
Ltac done_ret := lazymatch goal with |- agrees _ _ _ _ (SRet _ _ _) => idtac end; eexists _, _, _; split; [reflexivity|]; split; [holds|];
  split; [try reflexivity; try holds | split; [try log_eq | try log_eq]].
Ltac done_panic := lazymatch goal with |- agrees _ _ _ _ (SPanic _ _ _) => idtac end; eexists _, _, []; split; [reflexivity|]; split; [holds|];
  split; [try log_eq | split; [try log_eq | try reflexivity]].
Ltac run := exec; repeat split_if; try lia; first [done_ret | done_panic].
Ltac start2 :=
  match goal with
  | H : both _ _ ?c ?l |- _ =>
      let c1 := fresh "r1" in let c2 := fresh "r2" in
      let l1 := fresh "l1" in let l2 := fresh "l2" in
      let H1 := fresh "H1" in let H2 := fresh "H2" in
      destruct c as [c1 c2]; destruct l as [l1 l2]; destruct H as [H1 H2];
      cbn [fst snd] in H1, H2; start; start
  end.

Ltac rep_done := intros t Ht; unfold mmove, mclear, upd; pw; try find_elem.

Section steady.
Context {A : Type}.
Implicit Types (g : log A).
Definition steady (g g' : log A) (n : nat) : Prop :=
  dropped g' = dropped g /\ leaked g' = leaked g /\ writes g' = writes g + n.

Lemma log_write_steady n g : steady g (log_write n g) n.
Proof. repeat split. Qed.
Lemma steady_trans g g' g'' n n' : steady g g' n -> steady g' g'' n' -> steady g g'' (n + n').
Proof. intros (D & L & W) (D' & L' & W'). repeat split; congruence || lia. Qed.
Lemma steady_refl g : steady g g 0.
Proof. repeat split. lia. Qed.

End steady.

Section rep.
Context {A : Type} (N : nat).
Implicit Types (r : ring A) (l : list A).
(** ** Loops, on the logical memory.  [Rep o m f]: seen from slot [o], the storage [m] holds [f 0, f 1, ...]. *)
Definition Rep (o : nat) (m f : mem A) : Prop := forall p, m p = if p <? N then f (lg N o p) else None.
Lemma lg_wr o t : o < N -> t < N -> lg N o (wr N (o + t)) = t.
Proof. intros. ring_lia. Qed.
Lemma wr_lg o p : o < N -> p < N -> wr N (o + lg N o p) = p.
Proof. intros. ring_lia. Qed.
Lemma wr_inj o t u : o < N -> t < N -> u < N -> wr N (o + t) = wr N (o + u) -> t = u.
Proof. intros ? ? ?. unfold wr. repeat split_if; lia. Qed.
Lemma Rep_at o m f t : Rep o m f -> o < N -> t < N -> m (wr N (o + t)) = f t.
Proof.
  intros H Ho Ht. rewrite H, lg_wr by lia. replace (wr N (o + t) <? N) with true; [reflexivity|].
  pose proof (wr_lt N (o + t)). lia.
Qed.
Lemma Rep_upd o m f t x : Rep o m f -> o < N -> t < N -> Rep o (upd m (wr N (o + t)) x) (upd f t x).
Proof.
  intros H Ho Ht p. unfold upd. rewrite H. destruct (p <? N) eqn:E.
  - replace (lg N o p =? t) with (p =? wr N (o + t)); [reflexivity|].
    unfold lg, wr. repeat split_if; lia.
  - pose proof (wr_lt N (o + t)). replace (p =? wr N (o + t)) with false by lia. reflexivity.
Qed.
Lemma Rep_ext o m f f' : Rep o m f -> (forall t, t < N -> f t = f' t) -> o < N -> Rep o m f'.
Proof.
  intros H E Ho p. rewrite H. destruct (p <? N) eqn:Ep; [|reflexivity]. apply E. ring_lia.
Qed.
Lemma wr_add o t k : o < N -> t + k <= N -> wr N (wr N (o + t) + k) = wr N (o + (t + k)).
Proof. intros. ring_lia. Qed.
Lemma lg_wr1 o t k : o < N -> t < N -> k <= t -> lg N k (wr N (o + t)) = wr N (o + (t - k)).
Proof. intros. ring_lia. Qed.

Lemma rep_of_holds r l : RHolds N r l -> Rep (origin r) (rdata r) (fun t => l !! t).
Proof. intros (_ & _ & _ & H). exact H. Qed.
Lemma holds_of_rep o n m f l : o < N -> n = length l -> length l <= N -> Rep o m f ->
  (forall t, t < N -> f t = l !! t) -> RHolds N (Ring o n m) l.
Proof.
  intros H1 H2 H3 H4 H5. repeat split; try assumption. intros p. cbn [origin rlen rdata]. rewrite H4.
  destruct (p <? N) eqn:E; [|reflexivity]. apply H5. ring_lia.
Qed.
(** Rebasing: the same storage seen from [k] slots further left. *)
Lemma Rep_left o k m (f : mem A) : Rep o m f -> o < N -> k <= N ->
  Rep (lg N k o) m (fun t => if k <=? t then f (t - k) else f (N + t - k)).
Proof.
  intros H Ho Hk p. rewrite H. destruct (p <? N) eqn:E; [|reflexivity].
  unfold lg. repeat split_if; try lia; f_equal; lia.
Qed.
Lemma Rep_right o k m (f : mem A) : Rep o m f -> o < N -> k <= N ->
  Rep (wr N (o + k)) m (fun t => if k + t <? N then f (k + t) else f (k + t - N)).
Proof.
  intros H Ho Hk p. rewrite H. destruct (p <? N) eqn:E; [|reflexivity].
  unfold lg, wr. repeat split_if; try lia; f_equal; lia.
Qed.

Lemma Rep_perm o m (f : mem A) : Rep o m f -> o < N -> Permutation (omap f (seq 0 N)) (omap m (seq 0 N)).
Proof.
  intros H Ho.
  replace (seq 0 N) with (seq 0 o ++ seq o (N - o)) at 2 by (rewrite <- seq_app; f_equal; lia).
  replace (seq 0 N) with (seq 0 (N - o) ++ seq (N - o) o) by (rewrite <- seq_app; f_equal; lia).
  rewrite !omap_app'. rewrite Permutation_app_comm.
  assert (Hs : forall a b n, (forall t, t < n -> m (a + t) = f (b + t)) -> omap f (seq b n) = omap m (seq a n)).
  { clear. intros a b n. revert a b. induction n as [|n IH]; intros a b E; [reflexivity|].
    cbn [seq]. cbn [omap list_omap]. pose proof (E 0 ltac:(lia)) as E0. rewrite !Nat.add_0_r in E0.
    rewrite E0. rewrite (IH (S a) (S b)); [reflexivity|].
    intros t Ht. specialize (E (S t)). rewrite <- !Nat.add_succ_comm in E. apply E. lia. }
  rewrite (Hs 0 (N - o) o), (Hs o 0 (N - o)); [reflexivity| |]; intros t Ht; rewrite H; unfold lg;
    repeat split_if; try lia; f_equal; lia.
Qed.

Lemma ring0_holds : 0 < N -> RHolds N (@ring0 A) [].
Proof. intros HN. holds. Qed.
Lemma rb_is_full_ok r l : RHolds N r l -> rb_is_full N r = (length l =? N).
Proof. intros H. start. expand. lia. Qed.
Lemma rb_is_empty_ok r l : RHolds N r l -> rb_is_empty r = (length l =? 0).
Proof. intros H. start. expand. lia. Qed.
Lemma rholds_length r l : RHolds N r l -> length l <= N.
Proof. intros (_ & _ & H & _). exact H. Qed.
Lemma rholds_inj r l1 l2 : RHolds N r l1 -> RHolds N r l2 -> l1 = l2.
Proof.
  intros (H1 & H2 & H3 & H4) (_ & H5 & H6 & H7). apply list_eq. intros i.
  destruct (i <? N) eqn:E; [|rewrite !lookup_none by lia; reflexivity].
  specialize (H4 (wr N (origin r + i))). rewrite H7 in H4. revert H4. unfold wr, lg.
  repeat split_if; try lia; intros H; replace (origin r + i - origin r) with i in H by lia;
    try replace (origin r + i - N + N - origin r) with i in H by lia; congruence.
Qed.
End rep.

Section proofs.
Context {A : Type} (e : env A) (N : nat).
Hypothesis HW : N + N < word e.
Hypothesis HN : 0 < N.
Hypothesis Hcalm : calm e.
Implicit Types (r : ring A) (l : list A) (g : log A) (v : A) (i k index count : nat).
Notation agr := (agrees (RHolds N) eq).
Notation RHolds2 := (both (RHolds N) (RHolds N)).
Notation Rep := (Rep N).
Lemma rb_len_ok r l g : RHolds N r l -> agr g (rb_len r g) (bl_len l).
Proof. intros H. start. unfold rb_len, bl_len. run. lia. Qed.
Lemma rb_push_back_ok r l g v : RHolds N r l -> agr g (rb_push_back e N v r g) (bl_push_back N v l).
Proof. intros H. start. unfold rb_push_back, bl_push_back. run. Qed.
Lemma rb_push_front_ok r l g v : RHolds N r l -> agr g (rb_push_front e N v r g) (bl_push_front N v l).
Proof. intros H. start. unfold rb_push_front, bl_push_front. run. Qed.
Lemma rb_pop_front_ok r l g : RHolds N r l -> agr g (rb_pop_front e N r g) (bl_try_pop_front l).
Proof.
  intros H. start. unfold rb_pop_front, bl_try_pop_front. destruct l as [|a l]; cbn [length] in *.
  - run.
  - assert (Ha : (a :: l) !! 0 = Some a) by reflexivity. run.
Qed.
Lemma rb_pop_back_ok r l g : RHolds N r l -> agr g (rb_pop_back e N r g) (bl_try_pop_back l).
Proof.
  intros H. start. unfold rb_pop_back, bl_try_pop_back.
  destruct (l !! (length l - 1)) as [a|] eqn:Ha.
  - pose proof (lookup_lt_Some _ _ _ Ha). run.
  - apply lookup_ge_None in Ha. run.
Qed.
Lemma rb_get_ok r l g i : RHolds N r l -> agr g (rb_get e N i r g) (bl_get i l).
Proof.
  intros H. start. unfold rb_get, bl_get. destruct (l !! i) as [a|] eqn:Ha.
  - pose proof (lookup_lt_Some _ _ _ Ha). run.
  - apply lookup_ge_None in Ha. run.
Qed.
Lemma rb_index_ok r l g i : RHolds N r l -> agr g (rb_index e N i r g) (bl_index i l).
Proof.
  intros H. start. unfold rb_index, bl_index. destruct (l !! i) as [a|] eqn:Ha.
  - pose proof (lookup_lt_Some _ _ _ Ha). run.
  - apply lookup_ge_None in Ha. run.
Qed.

(** Moving one element from logical position [s] to logical position [t]. *)
Lemma move_one o o' n m f s t g (a : A) : Rep o m f -> o < N -> s < N -> t < N -> f s = Some a ->
  (t <> s -> f t = None) ->
  exists m', Rep o m' (upd (upd f s None) t (Some a)) /\
  forall R (K : M A (ring A) R), (let! a := rb_force_read e N (wr N (o + s)) in rb_force_write e N (wr N (o + t)) a ;;; K) (Ring o' n m) g =
  K (Ring o' n m') (log_write 1 g).
Proof.
  intros H Ho Hs Ht Ha Hn. pose proof (wr_lt N (o + s) ltac:(lia)). pose proof (wr_lt N (o + t) ltac:(lia)).
  pose proof (Rep_upd N o m f s None H Ho Hs) as R1.
  pose proof (Rep_upd N o _ _ t (Some a) R1 Ho Ht) as R2.
  eexists. split; [exact R2|]. intros R K.
  unfold rb_force_read, rb_force_write.
  rewrite bind_bind. erewrite bind_Ret by (apply ptr_ok; lia).
  erewrite bind_Ret by (apply slot_read_ok; [lia|]; cbn; rewrite (Rep_at N o _ f) by assumption; exact Ha).
  rewrite bind_bind. erewrite bind_Ret by (apply ptr_ok; lia). expand.
  erewrite bind_Ret.
  2: { apply slot_write_ok; [lia|]. cbn. rewrite (Rep_at N o _ _ t R1) by assumption. unfold upd.
       destruct (t =? s) eqn:E; [reflexivity|]. apply Hn. lia. }
  reflexivity.
Qed.
(** [shift_down] moves the elements at logical positions [a+1 .. a+d] right by [k]. *)
Lemma shift_down_ok k d : forall a fuel o o' n m f g, Rep o m f -> o < N -> a + d + k < N -> d <= fuel ->
  (forall t, a < t <= a + d -> f t <> None) ->
  (forall t, a + k < t <= a + d + k -> ~ (a < t <= a + d) -> f t = None) ->
  exists m' g', shift_down e N fuel (wr N (o + (a + d))) (wr N (o + a)) k (Ring o' n m) g = Ret (Ring o' n m') g' tt /\
    Rep o m' (mmove f (a + 1) (a + 1 + k) d) /\ steady g g' d.
Proof.
  induction d as [|d IH]; intros a fuel o o' n m f g H Ho Hk Hf Hlive Hfree.
  - exists m, g. split; [|split; [|apply steady_refl]].
    + rewrite Nat.add_0_r. destruct fuel; cbn [shift_down]; rewrite Nat.eqb_refl; reflexivity.
    + eapply Rep_ext; [exact H| |exact Ho]. intros t Ht. unfold mmove.
      repeat split_if; reflexivity || lia.
  - destruct fuel as [|fuel]; [lia|]. cbn [shift_down].
    rewrite if_false.
    2: { destruct (_ =? _) eqn:E; [|reflexivity]. apply Nat.eqb_eq in E. apply wr_inj in E; lia. }
    pose proof (wr_lt N (o + (a + S d)) ltac:(lia)).
    erewrite bind_Ret by (apply raw_add_ok; lia). rewrite wr_add by lia.
    destruct (f (a + S d)) as [x|] eqn:Ex; [|exfalso; apply (Hlive (a + S d)); [lia|assumption]].
    edestruct (move_one o o' n m f (a + S d) (a + S d + k) g) as (m1 & R1 & E1);
      [exact H|exact Ho|lia|lia|exact Ex| |rewrite E1; clear E1].
    { intros Hne. destruct (a + S d + k <=? a + S d) eqn:E; [lia|]. apply Hfree; lia. }
    erewrite bind_Ret by (apply raw_sub_assign_ok; lia). rewrite lg_wr1 by lia.
    replace (a + S d - 1) with (a + d) by lia.
    destruct (IH a fuel o o' n m1 _ (log_write 1 g) R1) as (m' & g' & E & R & W); try lia.
    + intros t Ht. unfold upd. repeat split_if; try congruence; try lia. apply Hlive. lia.
    + intros t Ht Ht'. unfold upd. repeat split_if; try lia; try reflexivity.
      apply Hfree; lia.
    + exists m', g'. split; [exact E|]. split.
      * eapply Rep_ext; [exact R| |exact Ho]. intros t Ht. unfold mmove, upd.
        repeat split_if; try lia; try reflexivity; try (rewrite <- Ex; f_equal; lia); try (f_equal; lia).
      * apply (steady_trans _ _ _ 1 d (log_write_steady 1 g) W).
Qed.
(** [close_up] moves the elements at logical positions [a+1 .. a+d] left by one. *)
Lemma close_up_ok d : forall a fuel o o' n m f g, Rep o m f -> o < N -> a + d < N -> d <= fuel ->
  (forall t, a < t <= a + d -> f t <> None) -> f a = None ->
  exists m' g', close_up e N fuel (wr N (o + a)) (wr N (o + (a + d))) (Ring o' n m) g = Ret (Ring o' n m') g' tt /\
    Rep o m' (mmove f (a + 1) a d) /\ steady g g' d.
Proof.
  induction d as [|d IH]; intros a fuel o o' n m f g H Ho Hk Hf Hlive Hfree.
  - exists m, g. split; [|split; [|apply steady_refl]].
    + rewrite Nat.add_0_r. destruct fuel; cbn [close_up]; rewrite Nat.eqb_refl; reflexivity.
    + eapply Rep_ext; [exact H| |exact Ho]. intros t Ht. unfold mmove.
      repeat split_if; reflexivity || lia.
  - destruct fuel as [|fuel]; [lia|]. cbn [close_up].
    rewrite if_false.
    2: { destruct (_ =? _) eqn:E; [|reflexivity]. apply Nat.eqb_eq in E. apply wr_inj in E; lia. }
    pose proof (wr_lt N (o + a) ltac:(lia)).
    erewrite bind_Ret by (apply raw_add_ok; lia). rewrite wr_add by lia.
    destruct (f (a + 1)) as [x|] eqn:Ex; [|exfalso; apply (Hlive (a + 1)); [lia|assumption]].
    edestruct (move_one o o' n m f (a + 1) a g) as (m1 & R1 & E1);
      [exact H|exact Ho|lia|lia|exact Ex| |rewrite E1; clear E1].
    { intros Hne. exact Hfree. }
    erewrite bind_Ret by (apply raw_add_assign_ok; lia). rewrite wr_add by lia.
    replace (a + S d) with (a + 1 + d) by lia.
    destruct (IH (a + 1) fuel o o' n m1 _ (log_write 1 g) R1) as (m' & g' & E & R & W); try lia.
    + intros t Ht. unfold upd. repeat split_if; try congruence; try lia. apply Hlive. lia.
    + unfold upd. repeat split_if; lia || reflexivity.
    + exists m', g'. split; [exact E|]. split.
      * eapply Rep_ext; [exact R| |exact Ho]. intros t Ht. unfold mmove, upd.
        repeat split_if; try lia; try reflexivity; try (rewrite <- Ex; f_equal; lia); try (f_equal; lia).
      * apply (steady_trans _ _ _ 1 d (log_write_steady 1 g) W).
Qed.
(** [close_down] moves the elements at logical positions [a .. a+d-1] right by one. *)
Lemma close_down_ok d : forall a fuel o o' n m f g, Rep o m f -> o < N -> a + d < N -> d <= fuel ->
  (forall t, a <= t < a + d -> f t <> None) -> f (a + d) = None ->
  exists m' g', close_down e N fuel (wr N (o + (a + d))) (wr N (o + a)) (Ring o' n m) g = Ret (Ring o' n m') g' tt /\
    Rep o m' (mmove f a (a + 1) d) /\ steady g g' d.
Proof.
  induction d as [|d IH]; intros a fuel o o' n m f g H Ho Hk Hf Hlive Hfree.
  - exists m, g. split; [|split; [|apply steady_refl]].
    + rewrite Nat.add_0_r. destruct fuel; cbn [close_down]; rewrite Nat.eqb_refl; reflexivity.
    + eapply Rep_ext; [exact H| |exact Ho]. intros t Ht. unfold mmove.
      repeat split_if; reflexivity || lia.
  - destruct fuel as [|fuel]; [lia|]. cbn [close_down].
    rewrite if_false.
    2: { destruct (_ =? _) eqn:E; [|reflexivity]. apply Nat.eqb_eq in E. apply wr_inj in E; lia. }
    pose proof (wr_lt N (o + (a + S d)) ltac:(lia)).
    erewrite bind_Ret by (apply raw_sub_ok; lia). rewrite lg_wr1 by lia.
    replace (a + S d - 1) with (a + d) by lia.
    destruct (f (a + d)) as [x|] eqn:Ex; [|exfalso; apply (Hlive (a + d)); [lia|assumption]].
    edestruct (move_one o o' n m f (a + d) (a + S d) g) as (m1 & R1 & E1);
      [exact H|exact Ho|lia|lia|exact Ex| |rewrite E1; clear E1].
    { intros Hne. exact Hfree. }
    erewrite bind_Ret by (apply raw_sub_assign_ok; lia). rewrite lg_wr1 by lia.
    replace (a + S d - 1) with (a + d) by lia.
    destruct (IH a fuel o o' n m1 _ (log_write 1 g) R1) as (m' & g' & E & R & W); try lia.
    + intros t Ht. unfold upd. repeat split_if; try congruence; try lia. apply Hlive. lia.
    + unfold upd. repeat split_if; lia || reflexivity.
    + exists m', g'. split; [exact E|]. split.
      * eapply Rep_ext; [exact R| |exact Ho]. intros t Ht. unfold mmove, upd.
        repeat split_if; try lia; try reflexivity; try (rewrite <- Ex; f_equal; lia); try (f_equal; lia).
      * apply (steady_trans _ _ _ 1 d (log_write_steady 1 g) W).
Qed.
(** [for i in range.take(d) { write(i, read(i + k)) }] moves [a+k .. a+k+d) left by [k]. *)
Lemma pull_ok k d : forall a o o' n m f g, Rep o m f -> o < N -> a + d + k < N \/ (a + d + k <= N) ->
  (forall t, a + k <= t < a + k + d -> f t <> None) ->
  (forall t, a <= t < a + d -> t < a + k -> f t = None) ->
  exists m' g', for_range e N d (wr N (o + a)) (pull_one e N k) (Ring o' n m) g = Ret (Ring o' n m') g' tt /\
    Rep o m' (mmove f (a + k) a d) /\ steady g g' d.
Proof.
  induction d as [|d IH]; intros a o o' n m f g H Ho Hk Hlive Hfree.
  - exists m, g. split; [|split; [|apply steady_refl]].
    + reflexivity.
    + eapply Rep_ext; [exact H| |exact Ho]. intros t Ht. unfold mmove.
      repeat split_if; reflexivity || lia.
  - cbn [for_range]. pose proof (wr_lt N (o + a) ltac:(lia)).
    erewrite bind_Ret by (apply raw_inc_ok; assumption).
    unfold pull_one at 1. rewrite bind_bind. erewrite bind_Ret by (apply raw_add_ok; lia).
    rewrite wr_add by lia. rewrite bind_bind.
    destruct (f (a + k)) as [x|] eqn:Ex; [|exfalso; apply (Hlive (a + k)); [lia|assumption]].
    edestruct (move_one o o' n m f (a + k) a g) as (m1 & R1 & E1);
      [exact H|exact Ho|lia|lia|exact Ex| |rewrite E1; clear E1].
    { intros Hne. apply Hfree; lia. }
    destruct d as [|d].
    { exists m1, (log_write 1 g). split; [reflexivity|]. split; [|apply log_write_steady].
      eapply Rep_ext; [exact R1| |exact Ho]. intros t Ht. unfold mmove, upd.
      repeat split_if; try lia; try reflexivity; try (rewrite <- Ex; f_equal; lia). }
    rewrite wr_add by lia.
    destruct (IH (a + 1) o o' n m1 _ (log_write 1 g) R1) as (m' & g' & E & R & W); try lia.
    + intros t Ht. unfold upd. repeat split_if; try congruence; try lia. apply Hlive. lia.
    + intros t Ht Ht'. unfold upd. repeat split_if; try lia; try reflexivity. apply Hfree; lia.
    + exists m', g'. split; [exact E|]. split.
      * eapply Rep_ext; [exact R| |exact Ho]. intros t Ht. unfold mmove, upd.
        repeat split_if; try lia; try reflexivity; try (rewrite <- Ex; f_equal; lia); try (f_equal; lia).
      * apply (steady_trans _ _ _ 1 (S d) (log_write_steady 1 g) W).
Qed.

Lemma skip_range_ok k : forall a o r g, o < N -> a + k <= N ->
  skip_range e N k (wr N (o + a)) r g = Ret r g (wr N (o + (a + k))).
Proof.
  induction k as [|k IH]; intros a o r g Ho Hk; cbn [skip_range].
  - rewrite Nat.add_0_r. reflexivity.
  - pose proof (wr_lt N (o + a) ltac:(lia)).
    erewrite bind_Ret by (apply raw_inc_ok; assumption). rewrite wr_add by lia.
    rewrite IH by lia. do 3 f_equal. lia.
Qed.

(** Destructors run one after the other, until one panics. *)
Fixpoint until_bomb (ds : list A) : list A :=
  match ds with [] => [] | a :: ds' => if bomb e a then [a] else a :: until_bomb ds' end.
Definition no_bomb (ds : list A) : bool := forallb (fun a => negb (bomb e a)) ds.
Lemma log_drop_app (d1 d2 : list A) g : log_drop d2 (log_drop d1 g) = log_drop (d1 ++ d2) g.
Proof. unfold log_drop. cbn. rewrite app_assoc. reflexivity. Qed.
Lemma drop_loop_ok ds : forall a o o' n m f g, Rep o m f -> o < N -> a + length ds <= N ->
  (forall i, i < length ds -> f (a + i) = ds !! i) ->
  exists m', Rep o m' (mclear f a (length (until_bomb ds))) /\
   for_range e N (length ds) (wr N (o + a)) (rb_force_drop e N) (Ring o' n m) g =
     (if no_bomb ds then Ret (Ring o' n m') (log_drop (until_bomb ds) g) tt
      else Panic (Ring o' n m') (log_drop (until_bomb ds) g)).
Proof.
  clear Hcalm. induction ds as [|x ds IH]; intros a o o' n m f g H Ho Hk Hl; cbn [length until_bomb no_bomb forallb for_range] in *.
  - exists m. split; [|rewrite log_drop_nil; reflexivity].
    eapply Rep_ext; [exact H| |exact Ho]. intros t Ht. unfold mclear. repeat split_if; lia || reflexivity.
  - pose proof (wr_lt N (o + a) ltac:(lia)).
    erewrite bind_Ret by (apply raw_inc_ok; assumption). rewrite wr_add by lia.
    assert (Hx : f a = Some x).
    { specialize (Hl 0). rewrite Nat.add_0_r in Hl. apply Hl. lia. }
    unfold rb_force_drop at 1. rewrite bind_bind. erewrite bind_Ret by (apply ptr_ok; lia).
    rewrite bind_bind.
    erewrite bind_Ret by (apply slot_read_ok; [lia|]; cbn; rewrite (Rep_at N o _ f) by (assumption || lia); exact Hx).
    expand. pose proof (Rep_upd N o m f a None H Ho ltac:(lia)) as R1.
    destruct (bomb e x) eqn:Eb.
    + cbn [length]. exists (upd m (wr N (o + a)) None). split.
      * eapply Rep_ext; [exact R1| |exact Ho]. intros t Ht. unfold mclear, upd. repeat split_if; lia || reflexivity.
      * erewrite bind_Panic; [reflexivity|]. unfold drop_values. cbn. rewrite Eb. reflexivity.
    + edestruct (IH (a + 1) o o' n _ _ (log_drop [x] g) R1 Ho ltac:(lia)) as (m' & R' & E').
      { intros i Hi. unfold upd. rewrite if_false by lia. specialize (Hl (S i)).
        rewrite <- Nat.add_succ_comm in Hl. replace (a + 1 + i) with (S a + i) by lia. apply Hl. lia. }
      exists m'. split.
      * eapply Rep_ext; [exact R'| |exact Ho]. intros t Ht. unfold mclear, upd. cbn [length].
        repeat split_if; lia || reflexivity.
      * erewrite bind_Ret.
        2: { unfold drop_values. cbn. rewrite Eb. reflexivity. }
        rewrite E'. rewrite log_drop_app. reflexivity.
Qed.
Lemma until_bomb_calm ds : calm e -> until_bomb ds = ds /\ no_bomb ds = true.
Proof.
  intros Hc. unfold no_bomb. induction ds as [|x ds [IH1 IH2]]; cbn; [auto|]. rewrite Hc, IH1, IH2. auto.
Qed.

Lemma peek_all_ok ds : forall a o r g, (forall i, i < length ds -> rdata r (wr N (o + (a + i))) = ds !! i) ->
  o < N -> a + length ds <= N ->
  rb_peek_all_ e N (length ds) (wr N (o + a)) r g = Ret r g ds.
Proof.
  clear Hcalm. induction ds as [|x ds IH]; intros a o r g Hl Ho Hk; cbn [length rb_peek_all_] in *; [reflexivity|].
  pose proof (wr_lt N (o + a) ltac:(lia)).
  erewrite bind_Ret by (apply raw_inc_ok; assumption). rewrite wr_add by lia.
  erewrite bind_Ret by (apply ptr_ok; lia).
  erewrite (bind_Ret (slot_peek _ _)).
  2: { apply slot_peek_ok; [lia|]. specialize (Hl 0). rewrite Nat.add_0_r in Hl. apply Hl. lia. }
  erewrite bind_Ret; [reflexivity|]. apply IH; [|lia|lia].
  intros i Hi. specialize (Hl (S i)). replace (a + 1 + i) with (a + S i) by lia. apply Hl. lia.
Qed.
Lemma rb_contents_eq r l g : RHolds N r l -> rb_contents e N r g = Ret r g l.
Proof.
  clear Hcalm. intros H. pose proof (rep_of_holds N r l H) as R. start. unfold rb_contents. exec.
  subst n. pose proof (peek_all_ok l 0 o (Ring o (length l) m) g) as E. replace (wr N (o + 0)) with o in E by ring_lia.
  apply E; [|lia|lia]. intros i Hi. cbn [rdata plus] in *. rewrite (Rep_at N o _ _ i R) by lia. reflexivity.
Qed.

(** Writing the first [k] items of an iterator at consecutive positions. *)
Lemma fill_loop_ok k : forall it a ins o o' n m f g, Rep o m f -> o < N -> a + k <= N -> ins + k <= N ->
  (forall t, a <= t < a + k -> f t = None) ->
  exists m' g', Rep o m' (fun t => if (a <=? t) && (t <? a + length (yields k it)) then yields k it !! (t - a) else f t) /\
    steady g g' (length (yields k it)) /\
   (fill_loop e N k it (wr N (o + a)) ins (Ring o' n m) g =
      Ret (Ring o' n m') g' (ins + length (yields k it)) \/
    (length (yields k it) < k /\
     fill_loop e N k it (wr N (o + a)) ins (Ring o' n m) g =
       bind (slots_forget N 0 0) (fun _ => panic) (Ring o' n m') g')).
Proof.
  clear Hcalm. induction k as [|k IH]; intros it a ins o o' n m f g H Ho Hk Hi Hfree.
  - exists m, g. cbn [yields fill_loop length]. split; [|split; [apply steady_refl|]].
    + eapply Rep_ext; [exact H| |exact Ho]. intros t Ht. repeat split_if; lia || reflexivity.
    + left. rewrite Nat.add_0_r. reflexivity.
  - destruct it as [|[v|] it]; cbn [yields fill_loop length].
    + exists m, g. split; [|split; [apply steady_refl|]].
      * eapply Rep_ext; [exact H| |exact Ho]. intros t Ht. repeat split_if; lia || reflexivity.
      * left. rewrite Nat.add_0_r. reflexivity.
    + pose proof (wr_lt N (o + a) ltac:(lia)).
      unfold rb_force_write. rewrite bind_bind. erewrite bind_Ret by (apply ptr_ok; lia).
      erewrite bind_Ret.
      2: { apply slot_write_ok; [lia|]. cbn. rewrite (Rep_at N o _ f) by (assumption || lia). apply Hfree. lia. }
      expand. erewrite bind_Ret by (apply raw_add_assign_ok; lia). rewrite wr_add by lia.
      erewrite bind_Ret by (apply uadd_ok; lia).
      pose proof (Rep_upd N o m f a (Some v) H Ho ltac:(lia)) as R1.
      destruct (IH it (a + 1) (ins + 1) o o' n _ _ (log_write 1 g) R1 Ho ltac:(lia) ltac:(lia))
        as (m' & g' & R' & W & E).
      { intros t Ht. unfold upd. rewrite if_false by lia. apply Hfree. lia. }
      exists m', g'. split; [|split].
      * eapply Rep_ext; [exact R'| |exact Ho]. intros t Ht. unfold upd. rewrite lookup_cons_if.
        repeat split_if; try lia; try reflexivity. f_equal. lia.
      * apply (steady_trans _ _ _ 1 _ (log_write_steady 1 g) W).
      * destruct E as [E|[E1 E]]; [left|right]; [|split; [lia|]]; rewrite E; [|reflexivity].
        f_equal. lia.
    + exists m, g. split; [|split; [apply steady_refl|]].
      * eapply Rep_ext; [exact H| |exact Ho]. intros t Ht. repeat split_if; lia || reflexivity.
      * right. split; [lia|]. reflexivity.
Qed.
End proofs.
