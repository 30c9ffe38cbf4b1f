(** * [RingBuffer], continued: clone, [to_owned], I/O. *)
From Verif Require Import Machine Spec Prims IterSpec RingModel RingProofs RingProofs2 RingProofs3 RingProofs4.

Section proofs.
Context {A : Type} (e : env A) (N : nat).
Hypothesis HW : N + N < word e.
Hypothesis HN : 0 < N.
Hypothesis Hcalm : calm e.
Implicit Types (r : ring A) (l : list A) (g : log A) (v : A) (i k index count : nat).
Notation agr := (agrees (RHolds N) eq).
Notation RHolds2 := (both (RHolds N) (RHolds N)).
Notation Rep := (Rep N).
Lemma rb_clone_loop_ok cl n : forall k dst src done l g, RHolds N src l -> RHolds N dst done ->
  origin dst = origin src -> length done + n = length l ->
  exists dst' g',
    RHolds N dst' (done ++ clones cl k (drop (length done) l)) /\
    dropped g' = dropped g /\ leaked g' = leaked g /\
    rb_clone_loop e N cl n (wr N (origin src + length done)) k (dst, src) g =
      if length (clones cl k (drop (length done) l)) =? n then Ret (dst', src) g' tt
      else Panic (dst', src) g'.
Proof.
  induction n as [|n IH]; intros k dst src done l g Hs Hd Hl Hn.
  - exists dst, g. rewrite drop_ge by lia. cbn. rewrite app_nil_r. auto.
  - destruct (l !! length done) as [a|] eqn:Ha; [|apply lookup_ge_None in Ha; lia].
    assert (Hdr : drop (length done) l = a :: drop (S (length done)) l).
    { apply drop_S. exact Ha. }
    rewrite Hdr. cbn [rb_clone_loop clones].
    pose proof (rholds_length N _ _ Hs) as Hcap.
    pose proof (rep_of_holds N _ _ Hs) as Rs. pose proof (rep_of_holds N _ _ Hd) as Rd.
    assert (Ho : origin src < N) by apply Hs.
    pose proof (wr_lt N (origin src + length done) ltac:(lia)) as Hw.
    erewrite bind_Ret by (apply raw_inc_ok; assumption). rewrite wr_add by lia.
    erewrite bind_Ret by (apply ptr_ok; lia).
    erewrite bind_Ret.
    2: { apply on_snd_Ret. apply (slot_peek_ok _ _ a); [exact Hw|].
         cbn [getm ring_mem snd]. rewrite (Rep_at N _ _ _ _ Rs) by lia. exact Ha. }
    destruct (cl k a) as [a'|].
    + destruct dst as [od nd md]. cbn [origin] in Hl. subst od. cbn [origin rdata] in Rd.
      assert (nd = length done) as -> by apply Hd.
      erewrite bind_Ret.
      2: { apply on_fst_Ret. cbn [fst]. eapply (write_one e N); try eassumption; try lia.
           cbn. apply lookup_none. lia. }
      erewrite (bind_Ret get) by reflexivity. cbn [fst snd rlen].
      erewrite bind_Ret by (apply uadd_ok; lia).
      erewrite (bind_Ret (on_fst _)) by reflexivity. cbn [fst snd origin rlen rdata].
      assert (H' : RHolds N (Ring (origin src) (length done + 1)
          (upd md (wr N (origin src + length done)) (Some a'))) (done ++ [a'])).
      { eapply holds_of_rep; [exact Ho| | |apply (Rep_upd N _ _ _ _ _ Rd Ho)|]; lookups; try lia.
        intros t Ht. unfold upd. pw. }
      destruct (IH (S k) _ src (done ++ [a']) l (log_write 1 g) Hs H' eq_refl ltac:(lookups; lia))
        as (dst' & g' & H1 & H2 & H3 & H4).
      exists dst', g'. rewrite app_length in H1, H4. cbn [length] in H1, H4.
      replace (length done + 1) with (S (length done)) in * by lia.
      rewrite <- app_assoc in H1. cbn [app] in H1. split; [exact H1|].
      split; [exact H2|]. split; [exact H3|].
      rewrite H4. cbn [length]. change (S ?x =? S ?y) with (x =? y). reflexivity.
    + exists dst, g. cbn. rewrite app_nil_r. auto.
Qed.
Lemma rb_clone_ok cl r l g : RHolds N r l ->
  agrees (RHolds N) (RMade N) g (rb_clone e N cl r g) (bl_clone cl l).
Proof.
  intros H. unfold rb_clone. erewrite bind_Ret by (apply rb_new_eq; assumption).
  assert (Ho : origin r < N) by apply H.
  assert (En : rlen r = length l) by apply H.
  pose proof (rholds_length N _ _ H).
  assert (W : agrees (both (RHolds N) (RHolds N)) eq g ((
    let! s := get in
    on_fst (set_origin (origin (snd s))) ;;;
    on_fst (set_length (rlen (snd s))) ;;;
    let! rg := on_snd (rb_range e N) in
    on_fst (set_length 0) ;;;
    rb_clone_loop e N cl (snd rg) (fst rg) 0) (ring0, r) g)
    (if length (clones cl 0 l) =? length l then SRet (clones cl 0 l, l) tt []
     else SPanic (clones cl 0 l, l) [] [])).
  { erewrite (bind_Ret get) by reflexivity. erewrite (bind_Ret (on_fst _)) by reflexivity.
    erewrite (bind_Ret (on_fst _)) by reflexivity.
    cbn [fst snd origin rlen rdata ring0].
    erewrite (bind_Ret (on_snd _)).
    2: { apply on_snd_Ret. unfold rb_range. erewrite (bind_Ret get) by reflexivity.
         cbn [snd]. erewrite bind_Ret by (apply raw_add_ok; lia). reflexivity. }
    erewrite (bind_Ret (on_fst _)) by reflexivity. cbn [fst snd origin rlen rdata].
    destruct (rb_clone_loop_ok cl (rlen r) 0 (Ring (origin r) 0 mem0) r [] l g)
      as (dst' & g' & H1 & H2 & H3 & H4).
    - exact H.
    - repeat split; cbn; try lia. intros p. unfold mem0. rewrite lookup_nil. split_if; reflexivity.
    - reflexivity.
    - cbn. lia.
    - cbn [length] in H4. rewrite Nat.add_0_r in H4. 
      assert (Ew : wr N (origin r) = origin r) by (unfold wr; split_if; lia).
      rewrite Ew in H4. rewrite H4. cbn [drop].
      rewrite En. rewrite drop_0. destruct (length (clones cl 0 l) =? length l); [eexists _, _, _ | eexists _, _, []]; (split; [reflexivity|]); rewrite H2, H3, ?app_nil_r.
      + split; [split; assumption|]. auto.
      + split; [split; assumption|]. auto. }
  apply (rbuilding e N HW HN Hcalm) in W. unfold bl_clone.
  destruct (_ =? _); exact W.
Qed.
Lemma extend_cloned cl : forall l k acc, length acc + length l <= N ->
  bl_extend N (cloned cl k l) acc =
  if length (clones cl k l) =? length l then SRet (acc ++ clones cl k l) tt []
  else SPanic (acc ++ clones cl k l) [] [].
Proof.
  induction l as [|a l IH]; intros k acc Hl; cbn [cloned clones bl_extend length].
  - rewrite app_nil_r. reflexivity.
  - cbn [length] in Hl. destruct (cl k a) as [a'|]; cbn [bl_extend].
    + rewrite if_true by lia. rewrite IH by (rewrite app_length; cbn; lia). cbn [length].
      change (S ?x =? S ?y) with (x =? y). rewrite <- app_assoc. reflexivity.
    + cbn. rewrite app_nil_r. reflexivity.
Qed.
Lemma sl_to_owned_ok cl s r l g : RHolds N r l -> in_range s l ->
  agrees (RHolds N) (RMade N) g (sl_to_owned e N cl s r g)
    (match bl_clone cl (sub_list s l) with SRet _ l' d => SRet l l' d | SPanic _ d ks => SPanic l d ks end).
Proof.
  intros H Hr. unfold sl_to_owned. erewrite bind_Ret by (apply sl_contents_ok; eassumption).
  pose proof (rb_from_iter_ok e N HW HN Hcalm (RHolds N) r l (cloned cl 0 (sub_list s l)) g H) as W.
  pose proof (rholds_length N _ _ H).
  rewrite extend_cloned in W.
  - unfold bl_clone. destruct (_ =? _); exact W.
  - cbn. destruct Hr. unfold sub_list. lookups. lia.
Qed.
End proofs.

Section bytes.
Context (e : env nat) (N : nat).
Hypothesis HW : N + N < word e.
Hypothesis HN : 0 < N.
Hypothesis Hcalm : calm e.
Implicit Types (r : ring nat) (l buf : list nat) (g : log nat).
Lemma write_bytes_ok to src r g : to + length src <= N -> (forall p, to <= p < to + length src -> rdata r p = None) ->
  write_bytes N to src r g =
  Ret (Ring (origin r) (rlen r) (mrecv (rdata r) (fun i => src !! i) 0 to (length src))) (log_write (length src) g) tt.
Proof.
  intros H1 H2. unfold write_bytes. rewrite if_true by lia.
  rewrite omap_seq_nil, log_leak_nil by (intros p Hp; apply H2; lia). reflexivity.
Qed.
(** [room]: the slots the write needs do not wrap around the end of the storage. *)
Definition room r buf : bool := wr N (origin r + rlen r) + length buf `min` (N - rlen r) <=? N.
Lemma rb_io_write_ok r l g buf : RHolds N r l -> debug e = false \/ room r buf = true ->
  agrees (RHolds N) eq g (rb_io_write e N buf r g)
    (SRet (l ++ take (N - length l) buf) (length buf `min` (N - length l)) []).
Proof.
  intros H Hroom. unfold room in Hroom. unfold rb_io_write. erewrite (bind_Ret get) by reflexivity.
  destruct H as (Ho & Hn & Hc & Hm). destruct r as [o n m]. cbn [origin rlen rdata] in *. subst n.
  erewrite bind_Ret by (apply usub_ok; lia).
  set (buf' := if N - length l <? length buf then take (N - length l) buf else buf).
  assert (Eb : buf' = take (N - length l) buf).
  { unfold buf'. split_if; [reflexivity|]. rewrite take_ge; [reflexivity|lia]. }
  rewrite <- Eb.
  assert (Hb : length buf' = length buf `min` (N - length l)) by (rewrite Eb, take_length; lia).
  rewrite <- Hb in *. clearbody buf'. clear Eb.
  assert (Hb2 : length l + length buf' <= N) by lia. clear Hb.
  erewrite bind_Ret by (apply raw_add_ok; lia).
  pose proof (wr_lt N (o + length l) ltac:(lia)) as Hw.
  unfold copy_from_slice. rewrite !bind_bind.
  erewrite bind_Ret by (apply uadd_ok; lia). rewrite !bind_bind.
  erewrite bind_Ret.
  2: { unfold debug_assert. destruct Hroom as [->|Hr]; [reflexivity|].
       rewrite Hr. rewrite andb_false_r. reflexivity. }
  destruct (N <? wr N (o + length l) + length buf') eqn:E.
  - rewrite !bind_bind. erewrite bind_Ret by (apply usub_ok; lia).
    rewrite !bind_bind. erewrite bind_Ret by (apply ptr_ok; lia).
    rewrite !bind_bind. erewrite bind_Ret.
    2: { apply write_bytes_ok; rewrite take_length.
         - lia.
         - intros p Hp. cbn [rdata]. rewrite Hm. split_if; try reflexivity. apply lookup_none.
           revert Hp E. unfold wr, lg. repeat split_if; lia. }
    cbn [origin rlen rdata].
    rewrite !bind_bind. erewrite bind_Ret by (apply raw_from_ok; lia).
    rewrite !bind_bind. erewrite bind_Ret by (apply ptr_ok; lia).
    erewrite bind_Ret.
    2: { apply write_bytes_ok; rewrite ?drop_length.
         - lia.
         - intros p Hp. cbn [rdata]. unfold mrecv. rewrite Hm, take_length. 
           revert Hp E. unfold wr, lg. intros. repeat split_if; try lia; try reflexivity; apply lookup_none; lia. }
    erewrite bind_Ret by (apply uadd_ok; lia).
    eexists _, _, _. split; [reflexivity|]. split; [|split; [reflexivity|split; log_eq]].
    repeat split; cbn [origin rlen rdata]; try (rewrite ?app_length; lia).
    intros p. unfold mrecv. rewrite Hm, take_length, drop_length.
    unfold lg. revert Hw E. unfold wr. intros. rewrite lookup_app_if, lookup_take_if, lookup_drop.
    repeat split_if; try lia; try reflexivity; try (f_equal; lia); try (rewrite lookup_none by lia; symmetry; apply lookup_none; lia); try (symmetry; apply lookup_none; lia).
  - rewrite !bind_bind. erewrite bind_Ret by (apply ptr_ok; lia).
    erewrite bind_Ret.
    2: { apply write_bytes_ok.
         - lia.
         - intros p Hp. cbn [rdata]. rewrite Hm. split_if; try reflexivity. apply lookup_none.
           revert Hp E. unfold wr, lg. repeat split_if; lia. }
    erewrite bind_Ret by (apply uadd_ok; lia).
    eexists _, _, _. split; [reflexivity|]. split; [|split; [reflexivity|split; log_eq]].
    repeat split; cbn [origin rlen rdata]; try (rewrite ?app_length; lia).
    intros p. unfold mrecv. rewrite Hm.
    unfold lg. revert Hw E. unfold wr. intros. rewrite lookup_app_if.
    repeat split_if; try lia; try reflexivity; try (f_equal; lia); try (rewrite lookup_none by lia; symmetry; apply lookup_none; lia); try (symmetry; apply lookup_none; lia).
Qed.
(** In the debug profile a write that needs to wrap around panics instead (nothing is changed). *)
Lemma rb_io_write_wrap r l g buf : RHolds N r l -> debug e = true -> room r buf = false ->
  rb_io_write e N buf r g = Panic r g.
Proof.
  intros H Hd Hroom. unfold room in Hroom. unfold rb_io_write. erewrite (bind_Ret get) by reflexivity.
  destruct H as (Ho & Hn & Hc & Hm). destruct r as [o n m]. cbn [origin rlen rdata] in *. subst n.
  erewrite bind_Ret by (apply usub_ok; lia).
  erewrite bind_Ret by (apply raw_add_ok; lia).
  pose proof (wr_lt N (o + length l) ltac:(lia)) as Hw.
  unfold copy_from_slice. rewrite !bind_bind.
  erewrite bind_Ret by (apply uadd_ok; split_if; rewrite ?take_length; lia). rewrite !bind_bind.
  apply bind_Panic. unfold debug_assert. rewrite Hd. cbn [andb].
  rewrite if_true; [reflexivity|].
  split_if; rewrite ?take_length; lia.
Qed.
Lemma rb_io_read_loop_ok k : forall buf r l g, RHolds N r l -> k <= length l -> k <= length buf ->
  agrees (RHolds N) eq g (rb_io_read_loop e N k buf r g)
    (SRet (drop k l) (take k l ++ drop k buf) []).
Proof.
  induction k as [|k IH]; intros buf c l g H Hl Hb; cbn [rb_io_read_loop].
  - eexists _, _, _. split; [destruct buf; reflexivity|]. rewrite !drop_0, app_nil_r. auto.
  - destruct buf as [|b buf]; [cbn in Hb; lia|]. destruct l as [|a l]; [cbn in Hl; lia|].
    cbn in Hl, Hb.
    destruct (rb_pop_front_ok e N HW HN c (a :: l) g H) as (c' & g' & r & E1 & H1 & -> & E2 & E3).
    rewrite (bind_Ret _ _ _ _ _ _ _ E1). rewrite app_nil_r in E2.
    destruct (IH buf c' l g' H1 ltac:(lia) ltac:(lia)) as (c2 & g2 & r2 & E4 & H4 & -> & E5 & E6).
    rewrite (bind_Ret _ _ _ _ _ _ _ E4).
    eexists _, _, _. split; [reflexivity|]. cbn [drop take app]. rewrite E5, E6, E2, E3. auto.
Qed.
Lemma rb_io_read_ok r l g buf : RHolds N r l ->
  agrees (RHolds N) eq g (rb_io_read e N buf r g)
    (let n := length buf `min` length l in
     SRet (drop n l) (take n l ++ drop n buf, n) []).
Proof.
  intros H. unfold rb_io_read. erewrite (bind_Ret get) by reflexivity.
  replace (rlen r) with (length l) by (symmetry; apply H).
  cbn zeta. destruct (length buf `min` length l =? 0) eqn:E.
  - replace (length buf `min` length l) with 0 by lia. eexists _, _, _. split; [reflexivity|].
    rewrite !drop_0, app_nil_r. auto.
  - destruct (rb_io_read_loop_ok (length buf `min` length l) buf r l g H ltac:(lia) ltac:(lia))
      as (c2 & g2 & r2 & E4 & H4 & -> & E5 & E6).
    rewrite (bind_Ret _ _ _ _ _ _ _ E4). eexists _, _, _. split; [reflexivity|]. auto.
Qed.
End bytes.
