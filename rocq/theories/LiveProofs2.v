(** * Proofs about LiveModel.v: the loops and the calls. *)
From Verif Require Import Machine Spec Prims LiveModel LiveSpec LiveProofs ChunkModel ChunkProofs ChunkProofs2 ChunkLaws RingModel RingProofs
  RingProofs2 RingProofs3 RingProofs4 RingLaws.

(** ** Appending *)
Section push.
Context {A S O : Type} (F : S -> list A -> Prop) (next : M A S (option A)) (hint : M A S (nat * option nat)).
Hypothesis Hfeeds : feeds F next hint.
Context (H : O -> list A -> Prop) (N : nat) (push : A -> M A O unit).
Hypothesis Hpush : forall o d g v, H o d -> agrees H eq g (push v o g) (bl_push_back N v d).
Implicit Types (g gs : log A) (s : S).

Lemma ends_step gs g gs1 g1 b (x : outcome A (O * (S * log A)) unit) d l ds :
  same gs gs1 -> dropped g1 = dropped g -> leaked g1 = leaked g ->
  ends H F gs1 g1 b x d l ds -> ends H F gs g b x d l ds.
Proof.
  intros [D1 L1] D2 L2 (o' & s' & gs' & g' & E & H' & F' & A1 & A2 & A3 & A4).
  exists o', s', gs', g'. rewrite A1, A2, A3, A4, D1, L1, D2, L2. auto 10.
Qed.
Lemma push_fits o d g v : H o d -> length d < N -> exists o' g', push v o g = Ret o' g' tt /\ H o' (d ++ [v]) /\
  dropped g' = dropped g /\ leaked g' = leaked g.
Proof.
  intros Ho Hd. pose proof (Hpush o d g v Ho) as P. unfold bl_push_back in P. rewrite if_true in P by lia.
  destruct P as (o' & g' & [] & E & H' & _ & D & L). rewrite app_nil_r in D. eauto 10.
Qed.
Lemma push_full o d g v : H o d -> N <= length d -> exists o' g', push v o g = Panic o' g' /\ H o' d /\
  dropped g' = dropped g ++ [v] /\ leaked g' = leaked g.
Proof.
  intros Ho Hd. pose proof (Hpush o d g v Ho) as P. unfold bl_push_back in P. rewrite if_false in P by lia.
  destruct P as (o' & g' & k' & E & H' & D & L & Pk). apply Permutation_nil in Pk. subst k'. rewrite app_nil_r in L. eauto 10.
Qed.
Lemma extend_live_ok fuel : forall o s d l gs g, H o d -> F s l -> length l < fuel -> length d <= N ->
  ends H F gs g (N - length d <? length l) (extend_live next push fuel (o, (s, gs)) g)
    (d ++ take (N - length d) l) (drop (1 + (N - length d)) l) (take 1 (drop (N - length d) l)).
Proof.
  induction fuel as [|fuel IH]; intros o s d l gs g Ho Hs Hf Hd; [lia|]. cbn [extend_live].
  destruct (live_next F next hint Hfeeds o s l gs g Hs) as (s1 & gs1 & E1 & H1 & S1). erewrite bind_Ret by exact E1.
  destruct l as [|a l]; cbn [head tail length] in *.
  - rewrite take_nil, !drop_nil, take_nil, app_nil_r. replace (N - length d <? 0) with false by lia.
    exists o, s1, gs1, g. destruct S1. rewrite app_nil_r. auto 10.
  - destruct (Nat.eq_dec (length d) N) as [Hn|Hn].
    + destruct (push_full o d g a Ho ltac:(lia)) as (o' & g' & E2 & H2 & D2 & L2).
      replace (N - length d) with 0 by lia. replace (0 <? Datatypes.S (length l)) with true by lia.
      cbn [take drop Nat.add]. rewrite app_nil_r.
      exists o', s1, gs1, g'. unfold bind, on_fst. cbn [fst snd]. rewrite E2. destruct S1. auto 10.
    + destruct (push_fits o d g a Ho ltac:(lia)) as (o' & g' & E2 & H2 & D2 & L2).
      erewrite bind_Ret by (apply on_fst_Ret; exact E2).
      pose proof (IH o' s1 (d ++ [a]) l gs1 g' H2 H1 ltac:(lia)) as P. rewrite app_length in P. cbn [length] in P.
      specialize (P ltac:(lia)). eapply ends_step; try eassumption.
      replace (N - length d) with (Datatypes.S (N - (length d + 1))) by lia. cbn [take drop Nat.add].
      rewrite <- app_assoc in P. cbn [app] in P.
      replace (Datatypes.S (N - (length d + 1)) <? Datatypes.S (length l)) with (N - (length d + 1) <? length l) by lia.
      exact P.
Qed.
(** Taking at most [count] items; [strict] if running out of them panics. *)
Fixpoint take_live (strict : bool) (count : nat) : M A (O * (S * log A)) unit :=
  match count with
  | 0 => ret tt
  | Datatypes.S count' =>
      let! x := on_iter next in
      match x with
      | None => if strict then panic else ret tt
      | Some a => on_fst (push a) ;;; take_live strict count'
      end
  end.
Lemma take_live_ok strict count : forall o s d l gs g, H o d -> F s l -> length d <= N ->
  ends H F gs g ((N - length d <? count `min` length l) || strict && (length l <? count))
    (take_live strict count (o, (s, gs)) g)
    (d ++ take (N - length d) (take count l)) (drop (count `min` (1 + (N - length d))) l) (take 1 (drop (N - length d) (take count l))).
Proof.
  induction count as [|count IH]; intros o s d l gs g Ho Hs Hd; cbn [take_live].
  - rewrite take_0, take_nil, drop_nil, take_nil, app_nil_r. cbn [Nat.min drop].
    replace ((N - length d <? 0) || strict && (length l <? 0)) with false by (destruct strict; cbn [orb andb]; lia).
    exists o, s, gs, g. rewrite app_nil_r. auto 10.
  - destruct (live_next F next hint Hfeeds o s l gs g Hs) as (s1 & gs1 & E1 & H1 & S1). erewrite bind_Ret by exact E1.
    destruct l as [|a l]; cbn [head tail length] in *.
    + rewrite !take_nil, !drop_nil, take_nil, app_nil_r. rewrite Nat.min_0_r.
      exists o, s1, gs1, g. destruct S1. rewrite app_nil_r. split; [|auto 10].
      replace (N - length d <? 0) with false by lia. destruct strict; reflexivity.
    + destruct (Nat.eq_dec (length d) N) as [Hn|Hn].
      * destruct (push_full o d g a Ho ltac:(lia)) as (o' & g' & E2 & H2 & D2 & L2).
        replace (N - length d) with 0 by lia.
        replace (0 <? Datatypes.S count `min` Datatypes.S (length l)) with true by lia. cbn [take drop Nat.add orb]. rewrite app_nil_r.
        replace (Datatypes.S count `min` 1) with 1 by lia. cbn [drop].
        exists o', s1, gs1, g'. unfold bind, on_fst. cbn [fst snd]. rewrite E2. destruct S1. auto 10.
      * destruct (push_fits o d g a Ho ltac:(lia)) as (o' & g' & E2 & H2 & D2 & L2).
        erewrite bind_Ret by (apply on_fst_Ret; exact E2).
        pose proof (IH o' s1 (d ++ [a]) l gs1 g' H2 H1) as P. rewrite app_length in P. cbn [length] in P.
        specialize (P ltac:(lia)). eapply ends_step; try eassumption.
        replace (N - length d) with (Datatypes.S (N - (length d + 1))) by lia. cbn [take drop Nat.add].
        rewrite <- app_assoc in P. cbn [app] in P.
        replace (Datatypes.S (N - (length d + 1)) <? Datatypes.S count `min` Datatypes.S (length l))
          with (N - (length d + 1) <? count `min` length l) by lia.
        replace (Datatypes.S (length l) <? Datatypes.S count) with (length l <? count) by lia.
        replace (Datatypes.S count `min` Datatypes.S (Datatypes.S (N - (length d + 1))))
          with (Datatypes.S (count `min` (1 + (N - (length d + 1))))) by lia. cbn [drop].
        exact P.
Qed.

(** Building a container: what had been collected is dropped if it panics. *)
Context (destroy : M A O unit).
Hypothesis Hdestroy : forall o d g, H o d -> exists o', destroy o g = Ret o' (log_drop d g) tt.
Lemma building_live (init : O) (m : M A (O * (S * log A)) unit) s gs g b d l ds :
  ends H F gs g b (m (init, (s, gs)) g) d l ds ->
  makes H F gs g (with_local init destroy m (s, gs) g) (if b then None else Some d) l (ds ++ if b then d else []).
Proof.
  intros (o & s' & gs' & g' & E & H' & F' & D & L & D' & L'). destruct b.
  - destruct (Hdestroy o d g' H') as (o2 & E2). exists s', gs', (log_drop d g').
    split; [exact F'|]. split; [cbn [log_drop dropped]; rewrite D, app_assoc; reflexivity|]. split; [exact L|].
    split; [exact D'|]. split; [exact L'|]. eapply with_local_Panic; eassumption.
  - rewrite app_nil_r. exists s', gs', g'. split; [exact F'|]. split; [exact D|]. split; [exact L|].
    split; [exact D'|]. split; [exact L'|]. exists o. split; [|exact H']. eapply with_local_Ret. exact E.
Qed.
End push.

(** ** Chunks *)
Section chunk.
Context {A S : Type} (e : env A) (N : nat) (F : S -> list A -> Prop) (next : M A S (option A)) (hint : M A S (nat * option nat)).
Hypothesis HW : N + N < word e.
Hypothesis Hfeeds : feeds F next hint.
Implicit Types (g gs : log A) (s : S) (c : chunk A).

Lemma follows_write_loop k : forall l wi, follows F l (drop k l) (write_loop_live e N next k wi) (write_loop e N k (map Yield l) wi).
Proof.
  induction k as [|k IH]; intros l wi; [apply follows_ret|].
  intros c s gs g c' g' r Hs E. cbn [write_loop_live].
  destruct (live_next F next hint Hfeeds c s l gs g Hs) as (s1 & gs1 & E1 & H1 & S1).
  erewrite bind_Ret by (rewrite E1; reflexivity). destruct l as [|a l]; cbn [head tail map write_loop] in *.
  - injection E as <- <- <-. exists s1, gs1. rewrite drop_nil. auto.
  - cbn [drop].
    pose proof (follows_bind F l l (drop k l) _ _ (fun _ => let! wi := uadd e wi 1 in write_loop_live e N next k wi) _
      (follows_fst F l (force_write N wi a))
      (fun _ => follows_bind F l l (drop k l) _ _ (fun wi => write_loop_live e N next k wi) _ (follows_uadd F l e wi 1) (fun wi => IH l wi))) as P.
    destruct (P c s1 gs1 g c' g' r H1 E) as (s' & gs' & E' & H' & S'). exists s', gs'. split; [exact E'|].
    split; [exact H'|eapply same_trans; eassumption].
Qed.
Lemma follows_write l wi : follows F l [] (write_from_iter_live e N next hint wi) (write_from_iter e N wi (length l) (map Yield l)).
Proof.
  unfold write_from_iter_live, write_from_iter. eapply follows_bind; [apply follows_fst|]. intros c0.
  apply follows_bind with (l1 := l) (m := (set_left 0 ;;; set_right 0)) (k := fun _ =>
    let! expected_end := uadd e wi (length l) in
    let! wi' := write_loop e N (length l) (map Yield l) wi in
    (if expected_end =? wi' then ret tt else slots_forget N 0 0 ;;; panic) ;;;
    set_left (left c0) ;;; set_right (right c0)); [apply follows_fst|]. intros _.
  apply (follows_len_forget F next hint Hfeeds). eapply follows_bind; [apply follows_uadd|]. intros ee.
  eapply follows_bind; [apply follows_write_loop|]. intros wi'. rewrite drop_all.
  eapply follows_bind; [|intros _; apply follows_fst].
  apply follows_if; intros _; [apply follows_ret|].
  intros c s gs g c' g' r Hs E. unfold bind, slots_forget, panic in E. discriminate.
Qed.
Lemma follows_insert_from l i : follows F l [] (insert_from_live e N next hint i)
  (insert_from e N i (length l) (length l) (map Yield l)).
Proof.
  unfold insert_from_live, insert_from. apply (follows_len F next hint Hfeeds). cbv zeta.
  eapply follows_bind; [apply follows_fst|]. intros n. eapply follows_bind; [apply follows_uadd|]. intros total.
  apply follows_if; intros _; [apply follows_panic|]. apply follows_if; intros _; [apply follows_panic|].
  eapply follows_bind; [apply follows_fst|]. intros c. eapply follows_bind; [apply follows_uadd|]. intros ri.
  eapply follows_bind; [apply follows_usub|]. intros rs. apply follows_if; intros _.
  - eapply follows_bind; [apply follows_usub|]. intros l1. eapply follows_bind; [apply follows_fst|]. intros _.
    eapply follows_bind; [apply follows_usub|]. intros wi. eapply follows_bind; [apply follows_write|]. intros _.
    apply follows_fst.
  - eapply follows_bind; [apply follows_uadd|]. intros rr. apply follows_if; intros _.
    + eapply follows_bind; [apply follows_uadd|]. intros to. eapply follows_bind; [apply follows_fst|]. intros _.
      eapply follows_bind; [apply follows_write|]. intros _. eapply follows_bind; [apply follows_uadd|]. intros r1.
      apply follows_fst.
    + eapply follows_bind; [apply follows_fst|]. intros _. eapply follows_bind; [apply follows_uadd|]. intros to.
      eapply follows_bind; [apply follows_fst|]. intros _.
      eapply follows_bind; [apply follows_write|]. intros _. eapply follows_bind; [apply follows_usub|]. intros r1.
      eapply follows_bind; [apply follows_uadd|]. intros r2. apply follows_fst.
Qed.
Lemma insert_from_live_ok c d s l gs g i : Holds N c d -> F s l -> length d + length l < word e ->
  let fits := (length d + length l <=? N) && (i <=? length d) in
  ends (Holds N) F gs g (negb fits) (insert_from_live e N next hint i (c, (s, gs)) g)
    (if fits then take i d ++ l ++ drop i d else d) (if fits then [] else l) [].
Proof.
  intros Hc Hs Hw fits. pose proof (insert_from_truthful e N HW c d g i l Hc ltac:(lia) (or_introl Hw)) as P.
  fold fits in P. destruct fits eqn:Ef; cbn [negb].
  - destruct P as (c' & g' & [] & E & H' & _ & D & L).
    destruct (follows_insert_from l i c s gs g c' g' tt Hs E) as (s' & gs' & E' & Hs' & [D' L']).
    exists c', s', gs', g'. auto 10.
  - unfold insert_from_live. destruct (live_len F next hint Hfeeds c s l gs g Hs) as (s1 & gs1 & E1 & Hs1 & [D1 L1]).
    exists c, s1, gs1, g. rewrite app_nil_r. split; [|auto 10].
    erewrite bind_Ret by exact E1.
    erewrite bind_Ret by (apply on_fst_Ret; apply (len_eq e N HW c d g Hc)).
    erewrite bind_Ret by (apply uadd_ok; lia).
    destruct (N <? length d + length l) eqn:E2; [reflexivity|]. rewrite if_true by (unfold fits in Ef; lia). reflexivity.
Qed.
End chunk.
