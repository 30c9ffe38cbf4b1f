(** * Proofs about the aliasing traces of BorrowModel.v: references that live on *)
From Verif Require Import Machine IterSpec BorrowModel BorrowSpec BorrowProofs BorrowProofs2.

(** ** A client that is accepted as long as an invariant holds. *)
Section client.
Context {S : Type} (step : act -> S -> option S) (next : nat -> T nat) (o N : nat) (I : list (nat * nat) -> S -> nat -> Prop).
Hypothesis Hnext : forall refs s b i, I refs s b -> ~ In i (map snd refs) -> i < N -> exists s' b' x,
  at_place step (next i) b s = Some (s', b', x) /\ I (refs ++ [(x, i)]) s' b'.
Hypothesis Htouch : forall refs s b w j x i, I refs s b -> NoDup (map snd refs) -> refs !! j = Some (x, i) -> exists s',
  step (Acc w x (slots o i 1)) s = Some s' /\ I refs s' b.
Lemma client_ok script : forall ys refs s b, I refs s b -> NoDup (map snd refs ++ somes ys) -> Forall (fun i => i < N) (somes ys) ->
  at_place step (b_client next o script ys refs) b s <> None.
Proof.
  induction script as [|[|w j] script IH]; intros ys refs s b HI Hnd Hlt; [cbn; discriminate| |]; cbn [b_client].
  - destruct ys as [|[i|] ys]; [apply IH; assumption| |apply IH; assumption]. cbn [somes] in Hnd, Hlt.
    inversion_clear Hlt as [|? ? Hi Hlt']. rewrite at_bind.
    destruct (Hnext refs s b i HI) as (s' & b' & x & -> & HI'); [|exact Hi|].
    + apply NoDup_app in Hnd as (_ & Hnd & _). intros Hin. apply (Hnd i); [apply elem_of_list_In, Hin|left].
    + apply IH; [exact HI'| |exact Hlt']. rewrite map_app. cbn [map snd]. rewrite <- app_assoc. exact Hnd.
  - destruct (refs !! j) as [[x i]|] eqn:E; [|apply IH; assumption].
    destruct (Htouch refs s b w j x i HI) as (s' & Es & HI'); [apply NoDup_app in Hnd as (Hnd & _); exact Hnd|exact E|].
    rewrite at_bind, at_acc, Es. apply IH; assumption.
Qed.
End client.

Lemma refs_unique (refs : list (nat * nat)) j j' x x' i : NoDup (map snd refs) ->
  refs !! j = Some (x, i) -> refs !! j' = Some (x', i) -> j = j' /\ x = x'.
Proof.
  intros Hnd E E'. assert (j = j') as <-; [|rewrite E in E'; injection E' as <-; auto].
  apply (NoDup_lookup (map snd refs) j j' i Hnd).
  - change (map snd refs) with (snd <$> refs). rewrite list_lookup_fmap, E. reflexivity.
  - change (map snd refs) with (snd <$> refs). rewrite list_lookup_fmap, E'. reflexivity.
Qed.
Lemma refs_app (refs : list (nat * nat)) y j x i : (refs ++ [y]) !! j = Some (x, i) ->
  refs !! j = Some (x, i) \/ (j = length refs /\ y = (x, i)).
Proof.
  intros E. destruct (decide (j < length refs)) as [H|H].
  - left. rewrite lookup_app_l in E by exact H. exact E.
  - right. rewrite lookup_app_r in E by lia. destruct (j - length refs) as [|n] eqn:Ej; [|destruct n; discriminate].
    cbn in E. split; [lia|congruence].
Qed.
Lemma refs_not_in (refs : list (nat * nat)) j x i : refs !! j = Some (x, i) -> In i (map snd refs).
Proof. intros E. apply in_map_iff. exists (x, i). split; [reflexivity|]. apply elem_of_list_In. eapply elem_of_list_lookup_2, E. Qed.

(** ** The mutable iterator of [RingBuffer] *)
Section ring.
Context (N o : nat).
Definition sb_base (k : nat) : stack := [(PRaw, 3 + k); (PUniq, 2 + k); (PUniq, 1 + k); (PUniq, k); (PUniq, o)].
Definition sb_ring_inv (k m : nat) (refs : list (nat * nat)) (st : stack) (b : nat) : Prop :=
  3 + k < b /\ Forall (fun x => fst x < b) refs /\
  (forall j x, refs !! j = Some (x, m) -> 3 + k < x /\ st = (PUniq, x) :: sb_base k) /\
  (~ In m (map snd refs) -> st = sb_base k).
Lemma sb_ring_ok k script ys : o < k -> NoDup (somes ys) -> Forall (fun i => i < N) (somes ys) ->
  sb_accepts (trace k (b_ring_client N o script ys)).
Proof.
  intros Hk Hnd Hlt [ob x]. apply at_trace. unfold b_ring_client. rewrite at_bind.
  destruct (decide (ob = o /\ 0 < x <= N)) as [[-> Hx]|Hout].
  - replace (at_place (sb_step (o, x)) (b_ring_iter_mut N o o) k (stack0 (o, x))) with (Some (sb_base k, 4 + k, 3 + k)).
    2:{ unfold stack0. symmetry. unfold b_ring_iter_mut. code. cbn [app fst].
        do 4 sb1.
        reflexivity. }
    destruct x as [|m]; [lia|].
    apply (client_ok (sb_step (o, S m)) (b_ring_next o (3 + k)) o N (sb_ring_inv k m)).
    + intros refs st b i (Hb & Hf & H1 & H2) Hni Hi. unfold b_ring_next. rewrite at_reb.
      destruct (decide (i = m)) as [->|Hne].
      * rewrite (H2 Hni). unfold sb_step. replace (slots o m 1 (o, S m)) with true by (unfold slots; cbn [fst snd]; lia).
        unfold sb_write, sb_base. cbn [grant andb writable]. rewrite Nat.eqb_refl. cbn [andb block raw_block app].
        eexists _, _, _. split; [reflexivity|]. split; [lia|]. split.
        { apply Forall_app. split; [eapply Forall_impl; [|exact Hf]; cbn; lia|]. constructor; [cbn; lia|constructor]. }
        split.
        { intros j x E. apply refs_app in E as [E|[_ [= <-]]]; [apply refs_not_in in E; contradiction|]. split; [lia|reflexivity]. }
        intros Hni'. exfalso. apply Hni'. rewrite map_app. apply in_or_app. right. left. reflexivity.
      * replace (sb_step (o, S m) (Reb RefMut (3 + k) b (slots o i 1)) st) with (Some st).
        2:{ cbn. replace (slots o i 1 (o, S m)) with false by (unfold slots; cbn [fst snd]; lia). reflexivity. }
        eexists _, _, _. split; [reflexivity|]. split; [lia|]. split.
        { apply Forall_app. split; [eapply Forall_impl; [|exact Hf]; cbn; lia|]. constructor; [cbn; lia|constructor]. }
        split.
        { intros j x E. apply refs_app in E as [E|[_ [= _ ->]]]; [apply (H1 j x E)|contradiction]. }
        intros Hni'. apply H2. intros Hin. apply Hni'. rewrite map_app. apply in_or_app. left. exact Hin.
    + intros refs st b w j x i HI Hnd' E. destruct (decide (i = m)) as [->|Hne].
      * destruct HI as (Hb & Hf & H1 & H2). destruct (H1 j x E) as [Hx' Hst].
        exists st. split; [|repeat (split; [assumption|]); assumption]. rewrite Hst. cbn [sb_step].
        replace (slots o m 1 (o, S m)) with true by (unfold slots; cbn [fst snd]; lia).
        unfold sb_read, sb_write. cbn [grant readable writable andb]. rewrite Nat.eqb_refl. destruct w; reflexivity.
      * exists st. split; [|exact HI]. cbn. replace (slots o i 1 (o, S m)) with false by (unfold slots; cbn [fst snd]; lia). reflexivity.
    + split; [lia|]. split; [constructor|]. split; [intros j x E; discriminate|]. reflexivity.
    + exact Hnd.
    + exact Hlt.
  - replace (at_place (sb_step (ob, x)) (b_ring_iter_mut N o o) k (stack0 (ob, x))) with
      (Some ((if (ob =? o) && (x <=? N) then [(PUniq, 1 + k); (PUniq, k); (PUniq, o)] else [(PUniq, ob)]), 4 + k, 3 + k)).
    2:{ symmetry. unfold stack0. destruct ((ob =? o) && (x <=? N)) eqn:Ein.
        - assert (ob = o) as -> by lia. assert (x = 0) as -> by lia. unfold b_ring_iter_mut. code. cbn [app fst].
          do 2 sb1.
          do 2 (rewrite sb_skip by inreg). reflexivity.
        - unfold b_ring_iter_mut. code. cbn [app fst]. do 4 (rewrite sb_skip by inreg). reflexivity. }
    apply (client_ok _ _ o N (fun refs _ _ => Forall (fun x => snd x < N) refs)); [| |constructor|exact Hnd|exact Hlt].
    + intros refs s b i HF _ Hi. unfold b_ring_next. rewrite at_reb. cbn [sb_step].
      replace (slots o i 1 (ob, x)) with false by (unfold slots; cbn [fst snd]; lia).
      eexists _, _, _. split; [reflexivity|]. apply Forall_app. split; [exact HF|constructor; [exact Hi|constructor]].
    + intros refs s b w j x' i HF _ E. cbn [sb_step].
      assert (i < N) by (apply (Forall_lookup_1 _ _ _ _ HF E)).
      replace (slots o i 1 (ob, x)) with false by (unfold slots; cbn [fst snd]; lia). eauto.
Qed.
(** Tree Borrows: pointers that allow everything. *)
Definition live (s : tree) (t : nat) : Prop := tprm s t = TReserved \/ tprm s t = TActive.
Lemma mem_In u l : mem u l = true <-> In u l.
Proof.
  unfold mem. rewrite existsb_exists. split.
  - intros (v & Hv & E). apply Nat.eqb_eq in E as ->. exact Hv.
  - intros H. exists u. split; [exact H|apply Nat.eqb_refl].
Qed.
Lemma access_live w t s : Forall (live s) (tpath s t) -> exists s', tb_access w t s = Some s' /\ tpath s' = tpath s /\
  Forall (live s') (tpath s t).
Proof.
  intros H. unfold tb_access. replace (forallb _ _) with true.
  - eexists. split; [reflexivity|]. split; [reflexivity|]. apply Forall_forall. intros u Hu.
    rewrite Forall_forall in H. unfold live. cbn. replace (mem u (tpath s t)) with true by (symmetry; apply mem_In, Hu).
    destruct (H u Hu) as [-> | ->], w; cbn; auto.
  - symmetry. apply forallb_forall. intros u Hu. rewrite Forall_forall in H. destruct (H u Hu) as [-> | ->], w; reflexivity.
Qed.
Lemma tb_skip_reb l kd p q rg s : rg l = false -> exists s', tb_step l (Reb kd p q rg) s = Some s' /\
  (forall u, u <> q -> tpath s' u = tpath s u /\ tprm s' u = tprm s u) /\
  (kd = RawPtr -> tpath s' q = tpath s p).
Proof.
  intros H. destruct kd; cbn [tb_step]; rewrite ?H; (eexists; split; [reflexivity|]; split;
    [intros u Hu; cbn; rewrite !set_other by exact Hu; auto|intros E; try discriminate; cbn; unfold set; rewrite Nat.eqb_refl; reflexivity]).
Qed.
(** Making a reference at this place from a pointer that allows everything. *)
Lemma tb_reb_mut l p q rg s : rg l = true -> Forall (live s) (tpath s p) -> ~ In q (tpath s p) -> exists s', tb_step l (Reb RefMut p q rg) s = Some s' /\
  tpath s' q = q :: tpath s p /\ (forall u, u <> q -> tpath s' u = tpath s u) /\ live s' q /\ Forall (live s') (tpath s p).
Proof.
  intros H HL Hq. cbn [tb_step]. rewrite H. set (s1 := Tree _ _).
  assert (Hp : tpath s1 q = q :: tpath s p) by (cbn; unfold BorrowModel.set; rewrite Nat.eqb_refl; reflexivity).
  destruct (access_live false q s1) as (s' & E & Ep & HL').
  - rewrite Hp. constructor; [left; cbn; unfold BorrowModel.set; rewrite Nat.eqb_refl; reflexivity|].
    apply Forall_forall. intros u Hu. rewrite Forall_forall in HL. unfold live. cbn.
    rewrite set_other; [apply HL, Hu|intros ->; contradiction].
  - rewrite Hp in HL'. exists s'. split; [exact E|]. rewrite Ep. split; [exact Hp|]. split; [|inversion_clear HL'; auto].
    intros u Hu. cbn. apply set_other, Hu.
Qed.
Definition tb_ring_inv (k m : nat) (refs : list (nat * nat)) (s : tree) (b : nat) : Prop :=
  3 + k < b /\ Forall (fun x => 3 + k < fst x < b) refs /\
  tpath s (3 + k) = [2 + k; 1 + k; k; o] /\ Forall (live s) [2 + k; 1 + k; k; o] /\
  (forall j x, refs !! j = Some (x, m) -> tpath s x = [x; 2 + k; 1 + k; k; o] /\ live s x).
Lemma tb_ring_ok k script ys : o < k -> NoDup (somes ys) -> Forall (fun i => i < N) (somes ys) ->
  tb_accepts (trace k (b_ring_client N o script ys)).
Proof.
  intros Hk Hnd Hlt [ob x]. apply at_trace. unfold b_ring_client. rewrite at_bind.
  destruct (decide (ob = o /\ 0 < x <= N)) as [[-> Hx]|Hout].
  - destruct x as [|m]; [lia|].
    assert (exists s, at_place (tb_step (o, S m)) (b_ring_iter_mut N o o) k tree0 = Some (s, 4 + k, 3 + k) /\
      tpath s (3 + k) = [2 + k; 1 + k; k; o] /\ Forall (live s) [2 + k; 1 + k; k; o]) as (s & -> & Hp & HL).
    { unfold b_ring_iter_mut. rewrite at_bind, at_reb.
      destruct (tb_reb_mut (o, S m) o k (whole o N) tree0) as (s1 & -> & P1 & Q1 & L1 & M1); [inreg|repeat constructor; right; reflexivity|cbn; lia|].
      cbn in P1, M1. rewrite at_bind, at_reb.
      destruct (tb_reb_mut (o, S m) k (1 + k) (whole o N) s1) as (s2 & -> & P2 & Q2 & L2 & M2); [inreg|rewrite P1; constructor; assumption|rewrite P1; cbn; lia|].
      rewrite P1 in P2, M2. rewrite at_bind, at_reb.
      destruct (tb_reb_mut (o, S m) (1 + k) (1 + (1 + k)) (slots o 0 N) s2) as (s3 & -> & P3 & Q3 & L3 & M3); [inreg|rewrite P2; constructor; assumption|rewrite P2; cbn; lia|].
      rewrite P2 in P3, M3. rewrite at_reb. cbn [tb_step]. eexists. split; [reflexivity|].
      cbn [tpath]. unfold BorrowModel.set. rewrite Nat.eqb_refl. split; [exact P3|]. constructor; assumption. }
    apply (client_ok (tb_step (o, S m)) (b_ring_next o (3 + k)) o N (tb_ring_inv k m)).
    + intros refs s' b i (Hb & Hf & Hp' & HL' & H1) Hni Hi. unfold b_ring_next. rewrite at_reb.
      destruct (decide (i = m)) as [->|Hne].
      * destruct (tb_reb_mut (o, S m) (3 + k) b (slots o m 1) s') as (s2 & -> & P2 & Q2 & L2 & M2);
          [inreg|rewrite Hp'; exact HL'|rewrite Hp'; cbn; lia|]. rewrite Hp' in P2, M2.
        eexists _, _, _. split; [reflexivity|]. split; [lia|]. split.
        { apply Forall_app. split; [eapply Forall_impl; [|exact Hf]; cbn; lia|]. constructor; [cbn; lia|constructor]. }
        split; [rewrite Q2 by lia; exact Hp'|]. split; [exact M2|].
        intros j x E. apply refs_app in E as [E|[_ [= <-]]]; [apply refs_not_in in E; contradiction|]. split; assumption.
      * destruct (tb_skip_reb (o, S m) RefMut (3 + k) b (slots o i 1) s') as (s2 & -> & Q2 & _); [inreg|].
        eexists _, _, _. split; [reflexivity|]. split; [lia|]. split.
        { apply Forall_app. split; [eapply Forall_impl; [|exact Hf]; cbn; lia|]. constructor; [cbn; lia|constructor]. }
        split; [rewrite (proj1 (Q2 (3 + k) ltac:(lia))); exact Hp'|]. split.
        { apply Forall_forall. intros u Hu. unfold live. rewrite (proj2 (Q2 u ltac:(cbn in Hu; lia))).
          rewrite Forall_forall in HL'. apply HL', Hu. }
        intros j x E. apply refs_app in E as [E|[_ [= _ ->]]]; [|contradiction]. destruct (H1 j x E) as [P1 L1].
        pose proof (Forall_lookup_1 _ _ _ _ Hf E) as Hx'. cbn in Hx'. destruct (Q2 x ltac:(lia)) as [E1 E2].
        unfold live. rewrite E1, E2. auto.
    + intros refs s' b w j x i HI Hnd' E. destruct (decide (i = m)) as [->|Hne].
      * destruct HI as (Hb & Hf & Hp' & HL' & H1). destruct (H1 j x E) as [P1 L1].
        cbn [tb_step]. replace (slots o m 1 (o, S m)) with true by (unfold slots; cbn [fst snd]; lia).
        destruct (access_live w x s') as (s2 & -> & Ep & M2); [rewrite P1; constructor; assumption|].
        rewrite P1 in M2. inversion_clear M2 as [|? ? Mx Mr].
        exists s2. split; [reflexivity|]. split; [exact Hb|]. split; [exact Hf|]. rewrite Ep. split; [exact Hp'|]. split; [exact Mr|].
        intros j' x' E'. destruct (refs_unique refs j j' x x' m Hnd' E E') as [<- <-]. split; assumption.
      * exists s'. split; [|exact HI]. cbn [tb_step]. replace (slots o i 1 (o, S m)) with false by (unfold slots; cbn [fst snd]; lia). reflexivity.
    + split; [lia|]. split; [constructor|]. split; [exact Hp|]. split; [exact HL|]. intros j x E. discriminate.
    + exact Hnd.
    + exact Hlt.
  - assert (exists s, at_place (tb_step (ob, x)) (b_ring_iter_mut N o o) k tree0 = Some (s, 4 + k, 3 + k)) as (s & ->).
    { destruct (decide (ob = o /\ x = 0)) as [[-> ->]|Hout'].
      - unfold b_ring_iter_mut. rewrite at_bind, at_reb.
        destruct (tb_reb_mut (o, 0) o k (whole o N) tree0) as (s1 & -> & P1 & Q1 & L1 & M1); [inreg|repeat constructor; right; reflexivity|cbn; lia|].
        cbn in P1, M1. rewrite at_bind, at_reb.
        destruct (tb_reb_mut (o, 0) k (1 + k) (whole o N) s1) as (s2 & -> & P2 & Q2 & L2 & M2); [inreg|rewrite P1; constructor; assumption|rewrite P1; cbn; lia|].
        rewrite at_bind, at_reb. destruct (tb_skip_reb (o, 0) RefMut (1 + k) (1 + (1 + k)) (slots o 0 N) s2) as (s3 & -> & _); [inreg|].
        rewrite at_reb. cbn [tb_step]. eexists. reflexivity.
      - assert (W : whole o N (ob, x) = false) by inreg. assert (V : slots o 0 N (ob, x) = false) by inreg.
        unfold b_ring_iter_mut. repeat (rewrite ?at_bind, at_reb; cbn [tb_step]; rewrite ?W, ?V). eexists. reflexivity. }
    apply (client_ok _ _ o N (fun refs _ _ => Forall (fun x => snd x < N) refs)); [| |constructor|exact Hnd|exact Hlt].
    + intros refs s' b i HF _ Hi. unfold b_ring_next. rewrite at_reb.
      destruct (tb_skip_reb (ob, x) RefMut (3 + k) b (slots o i 1) s') as (s2 & -> & _); [inreg|].
      eexists _, _, _. split; [reflexivity|]. apply Forall_app. split; [exact HF|constructor; [exact Hi|constructor]].
    + intros refs s' b w j x' i HF _ E. cbn [tb_step].
      assert (i < N) by (apply (Forall_lookup_1 _ _ _ _ HF E)).
      replace (slots o i 1 (ob, x)) with false by (unfold slots; cbn [fst snd]; lia). eauto.
Qed.
End ring.
