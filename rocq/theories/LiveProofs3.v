(** * Proofs about LiveModel.v: ring buffers, and the crate's own iterators as sources. *)
From Verif Require Import Machine Spec Prims IterSpec LiveModel LiveSpec LiveProofs LiveProofs2 RingModel RingProofs
  RingProofs2 RingProofs3 RingProofs4 RingLaws SparseModel SparseSpec SparseProofs SparseProofs3 InlineModel InlineSpec InlineProofs InlineProofs2.
From Verif Require ChunkModel ChunkProofs ChunkProofs4.

Section ring.
Context {A S : Type} (e : env A) (N : nat) (F : S -> list A -> Prop) (next : M A S (option A)) (hint : M A S (nat * option nat)).
Hypothesis HW : N + N < word e.
Hypothesis HN : 0 < N.
Hypothesis Hcalm : calm e.
Hypothesis Hfeeds : feeds F next hint.
Implicit Types (g gs : log A) (s : S) (r : ring A).

Lemma follows_wrap_down {O} l fuel : forall x, follows (O := O) F l l (wrap_down e N fuel x) (wrap_down e N fuel x).
Proof.
  induction fuel as [|fuel IH]; intros x; cbn [wrap_down]; apply follows_if; intros _; try apply follows_ret.
  - intros o s gs g o' g' r Hs E. discriminate.
  - eapply follows_bind; [apply follows_usub|]. exact IH.
Qed.
Lemma follows_raw_add_assign {O} l x y : follows (O := O) F l l (raw_add_assign e N x y) (raw_add_assign e N x y).
Proof. unfold raw_add_assign. eapply follows_bind; [apply follows_uadd|]. intros. apply follows_wrap_down. Qed.
Lemma follows_fill_loop k : forall l i n, follows F l (drop k l) (fill_loop_live e N next k i n) (fill_loop e N k (map Yield l) i n).
Proof.
  induction k as [|k IH]; intros l i n; [apply follows_ret|].
  intros c s gs g c' g' x Hs E. cbn [fill_loop_live].
  destruct (live_next F next hint Hfeeds c s l gs g Hs) as (s1 & gs1 & E1 & H1 & S1).
  erewrite bind_Ret by (rewrite E1; reflexivity). destruct l as [|a l]; cbn [head tail map fill_loop] in *.
  - injection E as <- <- <-. exists s1, gs1. rewrite drop_nil. auto.
  - cbn [drop].
    assert (P : follows F l (drop k l)
      (on_fst (rb_force_write e N i a) ;;; let! index' := raw_add_assign e N i 1 in let! inserted' := uadd e n 1 in
         fill_loop_live e N next k index' inserted')
      (rb_force_write e N i a ;;; let! index' := raw_add_assign e N i 1 in let! inserted' := uadd e n 1 in
         fill_loop e N k (map Yield l) index' inserted')).
    { eapply follows_bind; [apply follows_fst|]. intros _. eapply follows_bind; [apply follows_raw_add_assign|]. intros i'.
      eapply follows_bind; [apply follows_uadd|]. intros n'. apply IH. }
    destruct (P c s1 gs1 g c' g' x H1 E) as (s' & gs' & E' & H' & S'). exists s', gs'. split; [exact E'|].
    split; [exact H'|eapply same_trans; eassumption].
Qed.
Lemma follows_extend fuel : forall l, length l < fuel ->
  follows F l [] (extend_live next (rb_push_back e N) fuel) (rb_extend e N (map Yield l)).
Proof.
  induction fuel as [|fuel IH]; intros l Hf; [lia|].
  intros c s gs g c' g' x Hs E. cbn [extend_live].
  destruct (live_next F next hint Hfeeds c s l gs g Hs) as (s1 & gs1 & E1 & H1 & S1).
  erewrite bind_Ret by exact E1. destruct l as [|a l]; cbn [head tail map rb_extend length] in *.
  - injection E as <- <- <-. exists s1, gs1. auto.
  - assert (P : follows F l [] (on_fst (rb_push_back e N a) ;;; extend_live next (rb_push_back e N) fuel)
      (rb_push_back e N a ;;; rb_extend e N (map Yield l))).
    { eapply follows_bind; [apply follows_fst|]. intros _. apply IH. lia. }
    destruct (P c s1 gs1 g c' g' x H1 E) as (s' & gs' & E' & H' & S'). exists s', gs'. split; [exact E'|].
    split; [exact H'|eapply same_trans; eassumption].
Qed.
Lemma follows_rb_insert_from fuel l i : length l < fuel ->
  follows F l [] (rb_insert_from_live e N next hint fuel i) (rb_insert_from e N i (length l) (map Yield l)).
Proof.
  intros Hf. unfold rb_insert_from_live, rb_insert_from. apply (follows_len F next hint Hfeeds).
  eapply follows_bind; [apply follows_fst|]. intros r. eapply follows_bind; [apply follows_uadd|]. intros total.
  apply follows_if; intros _; [apply follows_panic|]. apply follows_if; intros _; [apply follows_panic|].
  apply follows_if; intros _; [apply follows_extend; exact Hf|].
  eapply follows_bind; [apply follows_usub|]. intros rc. eapply follows_bind; [apply follows_fst|]. intros _.
  eapply follows_bind; [apply follows_fst|]. intros i'. eapply follows_bind; [apply follows_fst|]. intros n.
  eapply follows_bind; [apply follows_fst|]. intros _. eapply follows_bind; [apply follows_fill_loop|]. intros k.
  rewrite drop_all. eapply follows_bind; [|intros _; apply follows_fst].
  apply follows_if; intros _; [apply follows_ret|].
  intros c s gs g c' g' x Hs E. unfold bind, slots_forget, panic in E. discriminate.
Qed.
Lemma rb_insert_from_live_ok fuel r d s l gs g i : RHolds N r d -> F s l -> length d + length l < word e -> length l < fuel ->
  let fits := (length d + length l <=? N) && (i <=? length d) in
  ends (RHolds N) F gs g (negb fits) (rb_insert_from_live e N next hint fuel i (r, (s, gs)) g)
    (if fits then take i d ++ l ++ drop i d else d) (if fits then [] else l) [].
Proof.
  intros Hr Hs Hw Hf fits. pose proof (rb_insert_from_truthful e N HW HN r d g i l Hcalm Hr (or_introl Hw)) as P.
  fold fits in P. destruct fits eqn:Ef; cbn [negb].
  - destruct P as (c' & g' & [] & E & H' & _ & D & L).
    destruct (follows_rb_insert_from fuel l i Hf r s gs g c' g' tt Hs E) as (s' & gs' & E' & Hs' & [D' L']).
    exists c', s', gs', g'. auto 10.
  - unfold rb_insert_from_live. destruct (live_len F next hint Hfeeds r s l gs g Hs) as (s1 & gs1 & E1 & Hs1 & [D1 L1]).
    exists r, s1, gs1, g. rewrite app_nil_r. split; [|auto 10].
    erewrite bind_Ret by exact E1. erewrite bind_Ret by (apply on_fst_Ret; reflexivity).
    pose proof Hr as (_ & Hl & _). rewrite Hl.
    erewrite bind_Ret by (apply uadd_ok; lia).
    destruct (N <? length d + length l) eqn:E2; [reflexivity|]. rewrite if_true by (unfold fits in Ef; lia). reflexivity.
Qed.
End ring.

(** ** Sources *)
Lemma feeds_front {A O} (H : O -> list A -> Prop) nx hint :
  (forall c l g, H c l -> agrees H eq g (nx c g) (bl_try_pop_front l)) ->
  (forall c l g, H c l -> agrees H eq g (hint c g) (SRet l (length l, Some (length l)) [])) -> feeds H nx hint.
Proof.
  intros Hn Hh c l g Hc. split.
  - pose proof (Hn c l g Hc) as P. destruct l as [|a l]; destruct P as (c' & g' & x & E & H' & -> & D & L);
      rewrite app_nil_r in D; exists c', g'; auto.
  - destruct (Hh c l g Hc) as (c' & g' & x & E & H' & -> & D & L). rewrite app_nil_r in D. exists c', g'. auto.
Qed.
Lemma feeds_back {A O} (H : O -> list A -> Prop) nx hint :
  (forall c l g, H c l -> agrees H eq g (nx c g) (bl_try_pop_back l)) ->
  (forall c l g, H c l -> agrees H eq g (hint c g) (SRet l (length l, Some (length l)) [])) -> feeds (fun c l => H c (rev l)) nx hint.
Proof.
  intros Hn Hh c l g Hc. split.
  - pose proof (Hn c (rev l) g Hc) as P. unfold bl_try_pop_back in P. rewrite rev_length in P.
    destruct l as [|a l]; cbn [rev length tail head] in *.
    + destruct P as (c' & g' & x & E & H' & -> & D & L). rewrite app_nil_r in D. exists c', g'. auto.
    + rewrite lookup_app_r in P by (rewrite rev_length; lia). rewrite rev_length in P.
      replace (Datatypes.S (length l) - 1 - length l) with 0 in P by lia. cbn [lookup list_lookup] in P.
      rewrite take_app_alt in P by (rewrite rev_length; lia).
      destruct P as (c' & g' & x & E & H' & -> & D & L). rewrite app_nil_r in D. exists c', g'. auto.
  - destruct (Hh c (rev l) g Hc) as (c' & g' & x & E & H' & -> & D & L). rewrite app_nil_r in D. rewrite rev_length in E. exists c', g'. auto.
Qed.
Lemma chunk_feeds {A} (e : env A) N : N + N < word e ->
  feeds (ChunkProofs.Holds N) (ChunkModel.iter_next e N) (ChunkModel.size_hint e) /\
  feeds (fun c l => ChunkProofs.Holds N c (rev l)) (ChunkModel.iter_next_back e N) (ChunkModel.size_hint e).
Proof.
  intros HW.
  assert (Hh : forall c (l : list A) g, ChunkProofs.Holds N c l -> agrees (ChunkProofs.Holds N) eq g (ChunkModel.size_hint e c g)
    (SRet l (length l, Some (length l)) [])).
  { intros c l g H. rewrite (ChunkProofs4.size_hint_ok e N HW c l g H). exists c, g, (length l, Some (length l)). rewrite app_nil_r. auto. }
  split; [apply feeds_front|apply feeds_back]; try exact Hh; intros c l g H.
  - destruct (ChunkProofs4.iter_next_ok e N HW c l g H) as (c' & g' & E & H' & D & L).
    destruct l; cbn in *; eexists _, _, _; rewrite app_nil_r; eauto 10.
  - destruct (ChunkProofs4.iter_next_back_ok e N HW c l g H) as (c' & g' & E & H' & D & L). unfold bl_try_pop_back.
    cbn [take_side] in *. destruct (l !! (length l - 1)); cbn [fst snd] in *; eexists _, _, _; rewrite app_nil_r; eauto 10.
Qed.
Lemma ring_feeds {A} (e : env A) N : N + N < word e -> 0 < N ->
  feeds (RHolds N) (rb_pop_front e N) rb_size_hint /\
  feeds (fun c l => RHolds N c (rev l)) (rb_pop_back e N) rb_size_hint.
Proof.
  intros HW HN.
  assert (Hh : forall c (l : list A) g, RHolds N c l -> agrees (RHolds N) eq g (rb_size_hint c g) (SRet l (length l, Some (length l)) [])).
  { intros c l g H. pose proof H as (_ & Hl & _). unfold rb_size_hint, rb_len. rewrite bind_bind. erewrite (bind_Ret get) by reflexivity.
    eexists c, g, _. split; [reflexivity|]. rewrite Hl, app_nil_r. auto. }
  split; [apply feeds_front|apply feeds_back]; try exact Hh; intros c l g H.
  - exact (rb_pop_front_ok e N HW HN c l g H).
  - exact (rb_pop_back_ok e N HW HN c l g H).
Qed.
Lemma inline_feeds {A} (e : env A) (L : layout) b : wf_layout e L -> host_ok e L -> placed L b ->
  feeds (IHolds e L) (ia_next e L b) (ia_size_hint e L b) /\
  feeds (fun c l => IHolds e L c (rev l)) (ia_pop e L b) (ia_size_hint e L b).
Proof.
  intros WF HOST Hb.
  split; [apply feeds_front|apply feeds_back]; try (intros c l g H; exact (size_hint_ok e L WF HOST b c l g Hb H)); intros c l g H.
  - pose proof (remove_ok e L WF HOST b c l g 0 Hb H) as P. unfold bl_try_remove in P. destruct l; exact P.
  - exact (pop_ok e L WF HOST b c l g Hb H).
Qed.
Lemma sparse_feeds {A} (e : env A) N : N < word e ->
  feeds (fun c l => exists s, SHolds N c s /\ values s = l) (dr_next (A:=A) N) (dr_size_hint N).
Proof.
  intros HW o l g0 (s0 & H0 & <-). split.
  - pose proof (sp_pop_ok N o s0 g0 H0) as P. unfold ar_pop, dr_next in *.
    destruct (entries s0) as [|[i a] es] eqn:Es; destruct P as (o' & g' & r & E & Ho & -> & D & L);
      rewrite app_nil_r in D; exists o', g'.
    + unfold values. rewrite Es. repeat split; auto. exists s0. unfold values. rewrite Es. auto.
    + assert (Ev : values s0 = a :: map snd es) by (unfold values; rewrite Es; reflexivity).
      rewrite E, Ev. cbn [head tail]. repeat split; auto. eexists. split; [exact Ho|]. eapply (values_pop e N HW). exact Es.
  - exists o, g0. split; [|eauto]. unfold dr_size_hint, sp_len. rewrite bind_bind. erewrite (bind_Ret get) by reflexivity.
    rewrite bind_ret, (sholds_len N o s0 H0). reflexivity.
Qed.
