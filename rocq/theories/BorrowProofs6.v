(** * Proofs about the aliasing traces of BorrowModel.v: the mutable iterators of [SparseChunk] under Tree Borrows *)
From Verif Require Import Machine IterSpec BorrowModel BorrowSpec BorrowProofs BorrowProofs2 BorrowProofs4 BorrowProofs5.

Section tb.
Context (N o k : nat).
Hypothesis Hk : o < k.
(** The small numbers: 0 the owner, 1 the iterator's pointer, 2-6 the pointers behind the reference with tag [6 + c], 7.. new. *)
Definition rb (c b t : nat) : nat :=
  match t with 0 => o | 1 => k | 2 => c | 3 => 1 + c | 4 => 3 + c | 5 => 4 + c | 6 => 6 + c | S (S (S (S (S (S (S i)))))) => i + b end.
Lemma rb_inj c b : k < c -> 6 + c < b -> inj (rb c b).
Proof.
  intros H H' t u. destruct t as [|[|[|[|[|[|[|t]]]]]]], u as [|[|[|[|[|[|[|u]]]]]]]; cbn [rb]; try reflexivity; lia.
Qed.
(** The same, with no reference at this slot. *)
Definition ra (b t : nat) : nat := match t with 0 => o | 1 => k | S (S i) => i + b end.
Lemma ra_inj b : k < b -> inj (ra b).
Proof. intros H [|[|t]] [|[|u]]; cbn; lia. Qed.
Definition K0 (pk : tperm) : known := [(0, ([0], Some TActive)); (1, ([1; 0], Some pk))].
Definition K1 (p : tperm) : known :=
  [(2, ([2; 1; 0], Some p)); (3, ([3; 2; 1; 0], Some p)); (4, ([4; 3; 2; 1; 0], Some p)); (5, ([5; 4; 3; 2; 1; 0], Some p));
   (6, ([6; 5; 4; 3; 2; 1; 0], Some p))].
(** At a slot: the iterator's pointer is fine; the pointers behind the reference are all in the state [p]. *)
Definition ready (s : tree) : Prop := exists pk, (pk = TReserved \/ pk = TActive) /\ knows (ra 0) s (K0 pk).
Definition ref_at (s : tree) (c : nat) (p : tperm) : Prop := knows (rb c 0) s (K1 p).
Lemma knows_ext r r' s K : (forall t, In t (map fst K ++ concat (map (fun x => fst (snd x)) K)) -> r t = r' t) -> knows r s K -> knows r' s K.
Proof.
  intros H HK. unfold knows in *. rewrite Forall_forall in *. intros [t [pa p]] Hx. destruct (HK _ Hx) as [E1 E2]. cbn in *.
  assert (Et : r t = r' t) by (apply H, in_or_app; left; apply in_map_iff; exists (t, (pa, p)); auto).
  split; cbn; rewrite <- Et; [|exact E2]. rewrite E1. apply map_ext_in. intros u Hu. apply H, in_or_app. right. apply in_concat.
  exists pa. split; [|exact Hu]. apply in_map_iff. exists (t, (pa, p)). auto.
Qed.
Lemma knows_0 r r' s pk : r 0 = r' 0 -> r 1 = r' 1 -> knows r s (K0 pk) -> knows r' s (K0 pk).
Proof. intros E0 E1. apply knows_ext. intros t Ht. cbn in Ht. repeat (destruct Ht as [<-|Ht]; [assumption|]). destruct Ht. Qed.
Lemma knows_1 r r' s p : (forall t, t <= 6 -> r t = r' t) -> knows r s (K1 p) -> knows r' s (K1 p).
Proof. intros E. apply knows_ext. intros t Ht. apply E. cbn in Ht. repeat (destruct Ht as [<-|Ht]; [lia|]). destruct Ht. Qed.
Lemma knows_sub r s K K' : knows r s K' -> Forall (fun x => In x K') K -> knows r s K.
Proof. unfold knows. rewrite !Forall_forall. auto. Qed.
Ltac lives := repeat match goal with H : _ = TReserved \/ _ |- _ => destruct H as [-> | H] | H : _ = TActive \/ _ |- _ => destruct H as [-> | H] end; subst.
(** [next]. *)
Lemma next_canon0 m i pk : m < N -> i < N -> pk = TReserved \/ pk = TActive ->
  kfollow (o, S m) (snd (fst (b_sp_next N o 1 i 2))) (K0 pk) (fun K' => Forall (fun x => In x K') (K0 pk) /\
    (i = m -> Forall (fun x => In x K') [(2, ([2; 1; 0], Some TReserved)); (3, ([3; 2; 1; 0], Some TReserved)); (5, ([5; 3; 2; 1; 0], Some TReserved));
      (6, ([6; 5; 3; 2; 1; 0], Some TReserved)); (8, ([8; 6; 5; 3; 2; 1; 0], Some TReserved))])).
Proof.
  intros Hm Hi Hpk. unfold b_sp_next. code. cbn [fst snd]. destruct (decide (i = m)) as [->|Hne]; lives; repeat kf1; apply kf_nil;
    (split; [repeat (constructor; [cbn; tauto|]); constructor|]); intros Him; try lia; repeat (constructor; [cbn; tauto|]); constructor.
Qed.
Lemma next_canon1 m i pk p : m < N -> i < N -> i <> m -> pk = TReserved \/ pk = TActive -> p = TReserved \/ p = TActive \/ p = TFrozen ->
  kfollow (o, S m) (snd (fst (b_sp_next N o 1 i 7))) (K0 pk ++ K1 p) (fun K' =>
    Forall (fun x => In x K') (K0 pk ++ K1 (foreign false p))).
Proof.
  intros Hm Hi Hne Hpk Hp. unfold b_sp_next. code. cbn [fst snd]. lives; repeat kf1; apply kf_nil;
    repeat (constructor; [cbn; tauto|]); constructor.
Qed.
Lemma touch_canon m pk p w : pk = TReserved \/ pk = TActive -> p = TReserved \/ p = TActive \/ (p = TFrozen /\ w = false) ->
  kfollow (o, S m) [Acc w 6 (slots o m 1)] (K0 pk ++ K1 p) (fun K' =>
    Forall (fun x => In x K') (K0 (if w then TActive else pk) ++ K1 (if w then TActive else p))).
Proof.
  intros Hpk Hp. lives; try (destruct Hp as [-> ->]); try destruct w; repeat kf1; apply kf_nil; repeat (constructor; [cbn; tauto|]); constructor.
Qed.
Lemma next_old m i b s c p : m < N -> i < N -> i <> m -> k < c -> 6 + c < b -> p = TReserved \/ p = TActive \/ p = TFrozen ->
  ready s -> ref_at s c p -> exists s', at_place (tb_step (o, S m)) (b_sp_next N o k i) b s = Some (s', 7 + b, 6 + b) /\
  ready s' /\ ref_at s' c (foreign false p).
Proof.
  intros Hm Hi Hne Hc Hb Hp (pk & Hpk & H0) H1.
  destruct (next_canon1 m i pk p Hm Hi Hne Hpk Hp (rb c b) s (rb_inj c b Hc Hb)) as (s' & K' & E & HK & HF).
  { apply Forall_app. split; [apply (knows_0 (ra 0)); auto|apply (knows_1 (rb c 0)); [|exact H1]].
    intros t Ht. do 7 (destruct t as [|t]; [reflexivity|]). lia. }
  exists s'. split.
  - unfold at_place. change (map (ren (rb c b)) (snd (fst (b_sp_next N o 1 i 7)))) with (snd (fst (b_sp_next N o k i b))) in E.
    destruct (b_sp_next N o k i b) as [[b' tr] v] eqn:Eb. cbn [fst snd] in E. rewrite E. unfold b_sp_next in Eb. revert Eb. code. intros [= <- <- <-]. reflexivity.
  - apply (knows_sub _ _ _ _ HK) in HF. apply Forall_app in HF as [F0 F1]. split.
    + exists pk. split; [exact Hpk|]. apply (knows_0 (rb c b)); auto.
    + apply (knows_1 (rb c b)); [|exact F1]. intros t Ht. do 7 (destruct t as [|t]; [reflexivity|]). lia.
Qed.
Lemma next_new m i b s : m < N -> i < N -> k < b -> ready s -> exists s',
  at_place (tb_step (o, S m)) (b_sp_next N o k i) b s = Some (s', 7 + b, 6 + b) /\ ready s' /\ (i = m -> ref_at s' b TReserved).
Proof.
  intros Hm Hi Hb (pk & Hpk & H0).
  destruct (next_canon0 m i pk Hm Hi Hpk (ra b) s (ra_inj b Hb)) as (s' & K' & E & HK & HF & HG).
  { apply (knows_0 (ra 0)); auto. }
  exists s'. split.
  - unfold at_place. change (map (ren (ra b)) (snd (fst (b_sp_next N o 1 i 2)))) with (snd (fst (b_sp_next N o k i b))) in E.
    destruct (b_sp_next N o k i b) as [[b' tr] v] eqn:Eb. cbn [fst snd] in E. rewrite E. unfold b_sp_next in Eb. revert Eb. code. intros [= <- <- <-]. reflexivity.
  - split.
    + apply (knows_sub _ _ _ _ HK) in HF. exists pk. split; [exact Hpk|]. apply (knows_0 (ra b)); auto.
    + intros Him. specialize (HG Him). apply (knows_sub _ _ _ _ HK) in HG.
      unfold knows in HG. repeat match goal with H : Forall (knows1 _ _) (_ :: _) |- _ => inversion_clear H end.
      unfold ref_at, K1, knows. repeat (constructor; [assumption|]). constructor.
Qed.
Lemma touch_old m s c p w : k < c -> p = TReserved \/ p = TActive \/ (p = TFrozen /\ w = false) ->
  ready s -> ref_at s c p -> exists s', tb_step (o, S m) (Acc w (6 + c) (slots o m 1)) s = Some s' /\ ready s' /\ ref_at s' c (if w then TActive else p).
Proof.
  intros Hc Hp (pk & Hpk & H0) H1.
  destruct (touch_canon m pk p w Hpk Hp (rb c (7 + c)) s (rb_inj c (7 + c) Hc ltac:(lia))) as (s' & K' & E & HK & HF).
  { apply Forall_app. split; [apply (knows_0 (ra 0)); auto|apply (knows_1 (rb c 0)); [|exact H1]].
    intros t Ht. do 7 (destruct t as [|t]; [reflexivity|]). lia. }
  exists s'. split.
  - cbn [map ren follow rb] in E. destruct (tb_step _ _ s) as [s2|]; [congruence|discriminate].
  - apply (knows_sub _ _ _ _ HK) in HF. apply Forall_app in HF as [F0 F1]. split.
    + eexists. split; [|apply (knows_0 (rb c (7 + c))); [reflexivity|reflexivity|exact F0]]. destruct w; auto.
    + apply (knows_1 (rb c (7 + c))); [|exact F1]. intros t Ht. do 7 (destruct t as [|t]; [reflexivity|]). lia.
Qed.
Lemma touch_frozen m s c : ref_at s c TFrozen -> tb_step (o, S m) (Acc true (6 + c) (slots o m 1)) s = None.
Proof.
  intros H. cbn [tb_step]. replace (slots o m 1 (o, S m)) with true by (unfold slots; cbn [fst snd]; lia).
  assert (tpath s (6 + c) = map (rb c 0) [6; 5; 4; 3; 2; 1; 0] /\ tprm s (6 + c) = TFrozen) as [E1 E2].
  { unfold ref_at, K1, knows in H. repeat match goal with H : Forall (knows1 _ _) (_ :: _) |- _ => inversion_clear H end.
    match goal with H : knows1 _ _ (6, _) |- _ => destruct H as [E1 E2]; cbn in E1, E2 end. auto. }
  unfold tb_access. rewrite E1. cbn [map forallb rb]. rewrite E2. reflexivity.
Qed.

(** ** The client.  The state of each reference: unwritten, written, or written before the latest [next]. *)
Fixpoint no_rewrite (sts : list tperm) (script : list iact) (ys : list (option nat)) : Prop :=
  match script with
  | [] => True
  | Next :: script' =>
      match ys with
      | Some _ :: ys' => no_rewrite (map (foreign false) sts ++ [TReserved]) script' ys'
      | None :: ys' => no_rewrite sts script' ys'
      | [] => no_rewrite sts script' []
      end
  | Touch true j :: script' =>
      match sts !! j with
      | Some p => p <> TFrozen /\ no_rewrite (<[j:=TActive]> sts) script' ys
      | None => no_rewrite sts script' ys
      end
  | Touch false _ :: script' => no_rewrite sts script' ys
  end.
Definition tb_sp_inv (m : nat) (refs : list (nat * nat)) (sts : list tperm) (s : tree) (b : nat) : Prop :=
  ready s /\ k < b /\ length sts = length refs /\
  forall j x i, refs !! j = Some (x, i) -> i < N /\ exists c, x = 6 + c /\ k < c /\ 6 + c < b /\
    (i = m -> exists p, sts !! j = Some p /\ (p = TReserved \/ p = TActive \/ p = TFrozen) /\ ref_at s c p).
Lemma sts_fmap (sts : list tperm) x j p : sts !! j = Some p -> (map (foreign false) sts ++ [x]) !! j = Some (foreign false p).
Proof.
  intros E. rewrite lookup_app_l by (rewrite map_length; eapply lookup_lt_Some, E).
  change (map (foreign false) sts) with (foreign false <$> sts). rewrite list_lookup_fmap, E. reflexivity.
Qed.
Lemma sp_next_tb m i refs sts s b : m < N -> i < N -> ~ In i (map snd refs) -> tb_sp_inv m refs sts s b -> NoDup (map snd refs) -> exists s',
  at_place (tb_step (o, S m)) (b_sp_next N o k i) b s = Some (s', 7 + b, 6 + b) /\
  tb_sp_inv m (refs ++ [(6 + b, i)]) (map (foreign false) sts ++ [TReserved]) s' (7 + b).
Proof.
  intros Hm Hi Hni (HR & Hb & Hlen & HF) Hnd. destruct (in_dec Nat.eq_dec m (map snd refs)) as [Hin|Hnin].
  - assert (exists j x, refs !! j = Some (x, m)) as (j0 & x0 & E0).
    { apply in_map_iff in Hin as ([x m'] & Em & Hin). cbn in Em. subst m'. apply elem_of_list_In, elem_of_list_lookup in Hin as [j Hj]. eauto. }
    destruct (HF j0 x0 m E0) as (_ & c & -> & Hc & Hcb & Hp). destruct (Hp eq_refl) as (p & Ep & Hp' & Hr).
    assert (i <> m) as Hne by (intros ->; apply refs_not_in in E0; contradiction).
    destruct (next_old m i b s c p Hm Hi Hne Hc Hcb Hp' HR Hr) as (s' & E & HR' & Hr'). exists s'. split; [exact E|].
    split; [exact HR'|]. split; [lia|]. split; [rewrite !app_length, map_length; cbn; lia|].
    intros j x i' Ej. apply refs_app in Ej as [Ej|[-> [= <- <-]]].
    + destruct (HF j x i' Ej) as (Hi' & c' & -> & Hc' & Hcb' & _). split; [exact Hi'|]. exists c'. repeat (split; [lia|]). intros ->.
      destruct (refs_unique refs j0 j _ _ m Hnd E0 Ej) as [<- Ec]. assert (c' = c) as -> by lia.
      exists (foreign false p). split; [apply sts_fmap, Ep|]. split; [|exact Hr']. destruct Hp' as [->|[->| ->]]; cbn; auto.
    + split; [exact Hi|]. exists b. repeat (split; [lia|]). intros ->. contradiction.
  - destruct (next_new m i b s Hm Hi Hb HR) as (s' & E & HR' & Hr'). exists s'. split; [exact E|].
    split; [exact HR'|]. split; [lia|]. split; [rewrite !app_length, map_length; cbn; lia|].
    intros j x i' Ej. apply refs_app in Ej as [Ej|[-> [= <- <-]]].
    + destruct (HF j x i' Ej) as (Hi' & c' & -> & Hc' & Hcb' & _). split; [exact Hi'|]. exists c'. repeat (split; [lia|]). intros ->.
      apply refs_not_in in Ej. contradiction.
    + split; [exact Hi|]. exists b. repeat (split; [lia|]). intros ->. exists TReserved. split; [|split; [auto|apply Hr'; reflexivity]].
      rewrite lookup_app_r by (rewrite map_length; lia). rewrite map_length, Hlen, Nat.sub_diag. reflexivity.
Qed.
Lemma sp_touch_tb m w j x i refs sts s b : tb_sp_inv m refs sts s b -> NoDup (map snd refs) -> refs !! j = Some (x, i) ->
  (w = true -> sts !! j <> Some TFrozen) -> exists s', tb_step (o, S m) (Acc w x (slots o i 1)) s = Some s' /\
  tb_sp_inv m refs (if w then <[j:=TActive]> sts else sts) s' b.
Proof.
  intros (HR & Hb & Hlen & HF) Hnd E Hw. destruct (decide (i = m)) as [->|Hne].
  - destruct (HF j x m E) as (Hi & c & -> & Hc & Hcb & Hp). destruct (Hp eq_refl) as (p & Ep & Hp' & Hr).
    destruct (touch_old m s c p w Hc) as (s' & Es & HR' & Hr'); [|exact HR|exact Hr|].
    { destruct Hp' as [->|[->| ->]]; [auto..|]. right. right. split; [reflexivity|]. destruct w; [|reflexivity]. destruct (Hw eq_refl Ep). }
    exists s'. split; [exact Es|]. split; [exact HR'|]. split; [exact Hb|]. split; [destruct w; rewrite ?insert_length; exact Hlen|].
    intros j' x' i' E'. destruct (HF j' x' i' E') as (Hi' & c' & -> & Hc' & Hcb' & _). split; [exact Hi'|]. exists c'. repeat (split; [lia|]). intros ->.
    destruct (refs_unique refs j j' _ _ m Hnd E E') as [<- Ec]. assert (c' = c) as -> by lia.
    exists (if w then TActive else p). split; [|split; [|exact Hr']].
    + destruct w; [|exact Ep]. apply list_lookup_insert. eapply lookup_lt_Some, Ep.
    + destruct w; auto.
  - exists s. split.
    + cbn [tb_step]. replace (slots o i 1 (o, S m)) with false by (unfold slots; cbn [fst snd]; lia). reflexivity.
    + split; [exact HR|]. split; [exact Hb|]. split; [destruct w; rewrite ?insert_length; exact Hlen|].
      intros j' x' i' E'. destruct (HF j' x' i' E') as (Hi' & c' & -> & Hc' & Hcb' & Hp). split; [exact Hi'|]. exists c'. repeat (split; [lia|]). intros ->.
      destruct (Hp eq_refl) as (p & Ep & H). exists p. split; [|exact H]. destruct w; [|exact Ep].
      rewrite list_lookup_insert_ne; [exact Ep|]. intros ->. rewrite E in E'. injection E'. lia.
Qed.
Lemma nodup_head (refs : list (nat * nat)) i l : NoDup (map snd refs ++ i :: l) -> ~ In i (map snd refs).
Proof. intros Hnd Hin. apply NoDup_app in Hnd as (_ & Hnd & _). apply (Hnd i); [apply elem_of_list_In, Hin|left]. Qed.
Lemma nodup_shift (refs : list (nat * nat)) x i l : NoDup (map snd refs ++ i :: l) -> NoDup (map snd (refs ++ [(x, i)]) ++ l).
Proof. rewrite map_app. cbn [map snd]. rewrite <- app_assoc. auto. Qed.
Lemma nodup_refs (refs : list (nat * nat)) l : NoDup (map snd refs ++ l) -> NoDup (map snd refs).
Proof. intros H. apply NoDup_app in H. tauto. Qed.
Lemma sp_client_tb m script : m < N -> forall ys refs sts s b, Forall (fun i => i < N) (somes ys) -> NoDup (map snd refs ++ somes ys) ->
  tb_sp_inv m refs sts s b -> no_rewrite sts script ys ->
  at_place (tb_step (o, S m)) (b_client (b_sp_next N o k) o script ys refs) b s <> None.
Proof.
  intros Hm. induction script as [|[|w j] script IH]; intros ys refs sts s b HN Hnd HI HL; [cbn; discriminate| |]; cbn [b_client no_rewrite] in *.
  - destruct ys as [|[i|] ys]; [eapply IH; eassumption| |eapply IH; eassumption]. inversion_clear HN as [|? ? Hi HN'].
    destruct (sp_next_tb m i refs sts s b Hm Hi (nodup_head _ _ _ Hnd) HI (nodup_refs _ _ Hnd)) as (s' & E & HI'). rewrite at_bind, E.
    eapply IH; [exact HN'|apply nodup_shift, Hnd|exact HI'|exact HL].
  - destruct (refs !! j) as [[x i]|] eqn:E.
    + assert (exists p, sts !! j = Some p) as (p & Ep).
      { apply lookup_lt_is_Some_2. destruct HI as (_ & _ & -> & _). eapply lookup_lt_Some, E. }
      destruct (sp_touch_tb m w j x i refs sts s b HI (nodup_refs _ _ Hnd) E) as (s' & Es & HI').
      { intros ->. rewrite Ep in HL |- *. destruct HL as [HL _]. congruence. }
      rewrite at_bind, at_acc, Es. eapply IH; [exact HN|exact Hnd|exact HI'|]. destruct w; [|exact HL]. rewrite Ep in HL. apply HL.
    + assert (sts !! j = None) as Ep by (apply lookup_ge_None; apply lookup_ge_None in E; destruct HI as (_ & _ & -> & _); exact E).
      eapply IH; [exact HN|exact Hnd|exact HI|]. destruct w; [rewrite Ep in HL|]; exact HL.
Qed.
Global Instance no_rewrite_dec script : forall sts ys, Decision (no_rewrite sts script ys).
Proof.
  induction script as [|[|[] j] script IH]; intros sts ys; cbn [no_rewrite]; [left; exact I| | |apply IH].
  - destruct ys as [|[i|] ys]; apply IH.
  - destruct (sts !! j) as [p|]; [|apply IH]. apply and_dec; [|apply IH]. destruct p; (left; congruence) || (right; auto).
Defined.
Lemma sp_client_tb_bad script : forall ys refs sts b, Forall (fun i => i < N) (somes ys) -> NoDup (map snd refs ++ somes ys) ->
  ~ no_rewrite sts script ys -> (forall j x i, refs !! j = Some (x, i) -> i < N) -> length sts = length refs ->
  exists m, m < N /\ forall s, tb_sp_inv m refs sts s b -> at_place (tb_step (o, S m)) (b_client (b_sp_next N o k) o script ys refs) b s = None.
Proof.
  induction script as [|[|w j] script IH]; intros ys refs sts b HN Hnd HL HR Hlen; cbn [b_client no_rewrite] in *; [tauto| |].
  - destruct ys as [|[i|] ys]; [eapply IH; eassumption| |eapply IH; eassumption]. inversion_clear HN as [|? ? Hi HN'].
    destruct (IH ys (refs ++ [(6 + b, i)]) _ (7 + b) HN' (nodup_shift _ _ _ _ Hnd) HL) as (m & Hm & H).
    + intros j x i' E. apply refs_app in E as [E|[-> [= <- <-]]]; [apply (HR _ _ _ E)|exact Hi].
    + rewrite !app_length, map_length. cbn. lia.
    + exists m. split; [exact Hm|]. intros s HI.
      destruct (sp_next_tb m i refs sts s b Hm Hi (nodup_head _ _ _ Hnd) HI (nodup_refs _ _ Hnd)) as (s' & E & HI').
      rewrite at_bind, E. apply H, HI'.
  - destruct (refs !! j) as [[x i]|] eqn:E.
    + assert (exists p, sts !! j = Some p) as (p & Ep).
      { apply lookup_lt_is_Some_2. rewrite Hlen. eapply lookup_lt_Some, E. }
      assert ((w = true /\ p = TFrozen) \/ ~ (w = true /\ p = TFrozen)) as [[-> ->]|Hok] by (destruct w, p; intuition congruence).
      * exists i. split; [apply (HR _ _ _ E)|]. intros s (_ & _ & _ & HF). destruct (HF j x i E) as (_ & c & -> & _ & _ & Hp).
        destruct (Hp eq_refl) as (p & Ep' & _ & Hr). rewrite Ep in Ep'. injection Ep' as <-.
        rewrite at_bind, at_acc, (touch_frozen i s c Hr). reflexivity.
      * destruct (IH ys refs (if w then <[j:=TActive]> sts else sts) b HN Hnd) as (m & Hm & H).
        { destruct w; [|exact HL]. rewrite Ep in HL. intros HL'. apply HL. split; [|exact HL']. intros ->. auto. }
        { exact HR. }
        { destruct w; rewrite ?insert_length; exact Hlen. }
        exists m. split; [exact Hm|]. intros s HI.
        destruct (sp_touch_tb m w j x i refs sts s b HI (nodup_refs _ _ Hnd) E) as (s' & Es & HI').
        { intros -> Ef. rewrite Ep in Ef. injection Ef as ->. auto. }
        rewrite at_bind, at_acc, Es. apply H, HI'.
    + assert (sts !! j = None) as Ep by (apply lookup_ge_None; apply lookup_ge_None in E; rewrite Hlen; exact E).
      eapply IH; [exact HN|exact Hnd| |exact HR|exact Hlen]. destruct w; [rewrite Ep in HL|]; exact HL.
Qed.
Lemma sp_iter_tb m : m <= N -> exists s, at_place (tb_step (o, m)) (b_sp_iter_mut N o o) k tree0 = Some (s, 1 + k, k) /\ ready s.
Proof.
  intros Hm. unfold b_sp_iter_mut. rewrite at_reb.
  destruct (tb_reb_mut (o, m) o k (whole o N) tree0) as (s1 & E & P1 & Q1 & L1 & M1); [inreg|repeat constructor; right; reflexivity|cbn; lia|].
  cbn [tpath tree0] in P1, M1. rewrite E. exists s1. split; [reflexivity|]. exists (tprm s1 k). split; [exact L1|].
  constructor; [|constructor; [|constructor]]; split; cbn; [rewrite Q1 by lia; reflexivity| |exact P1|reflexivity].
  revert E. cbn [tb_step]. replace (whole o N (o, m)) with true by (symmetry; inreg).
  unfold tb_access, BorrowModel.set. cbn [tpath tprm tree0]. rewrite Nat.eqb_refl. destruct (forallb _ _); [|discriminate].
  intros [= <-]. cbn [tprm]. unfold mem. cbn [existsb]. rewrite Nat.eqb_refl, orb_true_r. replace (o =? k) with false by lia. reflexivity.
Qed.
Lemma next_place0 i b s : i < N -> k < b -> ready s -> exists s', at_place (tb_step (o, 0)) (b_sp_next N o k i) b s = Some (s', 7 + b, 6 + b) /\ ready s'.
Proof.
  intros Hi Hb (pk & Hpk & H0).
  assert (kfollow (o, 0) (snd (fst (b_sp_next N o 1 i 2))) (K0 pk) (fun K' => Forall (fun x => In x K') (K0 pk))) as HC.
  { unfold b_sp_next. code. cbn [fst snd]. lives; repeat kf1; apply kf_nil; repeat (constructor; [cbn; tauto|]); constructor. }
  destruct (HC (ra b) s (ra_inj b Hb)) as (s' & K' & E & HK & HF); [apply (knows_0 (ra 0)); auto|].
  exists s'. split.
  - unfold at_place. change (map (ren (ra b)) (snd (fst (b_sp_next N o 1 i 2)))) with (snd (fst (b_sp_next N o k i b))) in E.
    destruct (b_sp_next N o k i b) as [[b' tr] v] eqn:Eb. cbn [fst snd] in E. rewrite E. unfold b_sp_next in Eb. revert Eb. code. intros [= <- <- <-]. reflexivity.
  - apply (knows_sub _ _ _ _ HK) in HF. exists pk. split; [exact Hpk|]. apply (knows_0 (ra b)); auto.
Qed.
Lemma next_elsewhere l i b s : whole o N l = false -> i < N -> exists s', at_place (tb_step l) (b_sp_next N o k i) b s = Some (s', 7 + b, 6 + b).
Proof.
  intros Hl Hi. unfold b_sp_next. code. destruct l as [ob y].
  assert (slots o 0 N (ob, y) = false) as H1 by (unfold whole, slots in *; cbn [fst snd] in *; lia).
  assert (slots o i 1 (ob, y) = false) as H2 by (unfold whole, slots in *; cbn [fst snd] in *; lia).
  cbn [follow tb_step]. rewrite Hl, H1, H2. eexists. reflexivity.
Qed.
Lemma sp_tb_exact script ys : Forall (fun i => i < N) (somes ys) -> NoDup (somes ys) ->
  tb_accepts (trace k (b_sp_client N o script ys)) <-> no_rewrite [] script ys.
Proof.
  intros HN Hnd.
  assert (H0 : forall m s, ready s -> tb_sp_inv m [] [] s (1 + k)).
  { intros m s H. split; [exact H|]. split; [lia|]. split; [reflexivity|]. discriminate. }
  split.
  - intros HA. destruct (decide (no_rewrite [] script ys)) as [|HB]; [assumption|]. exfalso.
    destruct (sp_client_tb_bad script ys [] [] (1 + k) HN Hnd HB) as (m & Hm & H); [discriminate|reflexivity|].
    specialize (HA (o, S m)). apply at_trace in HA. apply HA. unfold b_sp_client. rewrite at_bind.
    destruct (sp_iter_tb (S m) Hm) as (s & -> & Hs). apply H, H0, Hs.
  - intros HL [ob y]. apply at_trace. unfold b_sp_client. rewrite at_bind. destruct (decide (ob = o /\ y <= N)) as [[-> Hy]|Hout].
    + destruct (sp_iter_tb y Hy) as (s & -> & Hs). destruct y as [|m].
      * apply (client_ok (tb_step (o, 0)) _ o N (fun refs s b => Forall (fun x => snd x < N) refs /\ k < b /\ ready s));
          [| |split; [constructor|split; [lia|exact Hs]]|exact Hnd|exact HN].
        -- intros refs s' b i (HF & Hb & HR) _ Hi. destruct (next_place0 i b s' Hi Hb HR) as (s2 & E & HR').
           exists s2, (7 + b), (6 + b). split; [exact E|]. split; [|split; [lia|exact HR']]. apply Forall_app. split; [exact HF|constructor; [exact Hi|constructor]].
        -- intros refs s' b w j x i HI _ E. exists s'. split; [|exact HI]. cbn [tb_step].
           replace (slots o i 1 (o, 0)) with false by (unfold slots; cbn [fst snd]; lia). reflexivity.
      * apply (sp_client_tb m script ltac:(lia) ys [] []); [exact HN|exact Hnd|apply H0, Hs|exact HL].
    + assert (W : whole o N (ob, y) = false) by inreg. unfold b_sp_iter_mut at 1. rewrite at_reb. cbn [tb_step]. rewrite W.
      apply (client_ok (tb_step (ob, y)) _ o N (fun refs s b => Forall (fun x => snd x < N) refs)); [| |constructor|exact Hnd|exact HN].
      * intros refs s' b i HF _ Hi. destruct (next_elsewhere (ob, y) i b s' W Hi) as (s2 & E).
        exists s2, (7 + b), (6 + b). split; [exact E|]. apply Forall_app. split; [exact HF|constructor; [exact Hi|constructor]].
      * intros refs s' b w j x i HF _ E. exists s'. split; [|exact HF]. pose proof (Forall_lookup_1 _ _ _ _ HF E) as Hi. cbn [snd] in Hi. cbn [tb_step].
        replace (slots o i 1 (ob, y)) with false; [reflexivity|]. symmetry. unfold whole, slots in *; cbn [fst snd] in *. lia.
Qed.
End tb.

Lemma got_nil ys : got [] ys = 0.
Proof. reflexivity. Qed.
Lemma later_cons j a script : later_write j (a :: script) <-> a = Touch true j \/ later_write j script.
Proof.
  split.
  - intros ([|x s3] & s4 & E); cbn in E; injection E as -> ->; [left; reflexivity|right]. exists s3, s4. reflexivity.
  - intros [->|(s3 & s4 & ->)]; [exists [], script; reflexivity|]. exists (a :: s3), s4. reflexivity.
Qed.
Lemma wan_later j script ys : write_after_next j script ys -> later_write j script.
Proof. intros (s2 & s3 & s4 & -> & _). exists (s2 ++ Next :: s3), s4. rewrite <- app_assoc. reflexivity. Qed.
Lemma wan_touch j w j0 script ys : write_after_next j (Touch w j0 :: script) ys <-> write_after_next j script ys.
Proof.
  split.
  - intros ([|x s2] & s3 & s4 & E & H); cbn in E; [discriminate|]. injection E as <- E. exists s2, s3, s4. auto.
  - intros (s2 & s3 & s4 & -> & H). exists (Touch w j0 :: s2), s3, s4. auto.
Qed.
Lemma wan_none j script ys : write_after_next j (Next :: script) (None :: ys) <-> write_after_next j script ys.
Proof.
  split.
  - intros ([|x s2] & s3 & s4 & E & H); cbn in E.
    + unfold got in H. cbn in H. destruct ys; cbn in H; lia.
    + injection E as <- E. exists s2, s3, s4. split; [exact E|exact H].
  - intros (s2 & s3 & s4 & -> & H). exists (Next :: s2), s3, s4. split; [reflexivity|exact H].
Qed.
Lemma wan_end j script : ~ write_after_next j script [].
Proof. intros (s2 & s3 & s4 & _ & H). rewrite !got_empty in H. lia. Qed.
Lemma wan_some j i script ys : write_after_next j (Next :: script) (Some i :: ys) <-> later_write j script.
Proof.
  split.
  - intros H. apply wan_later, later_cons in H. destruct H as [|H]; [discriminate|exact H].
  - intros (s3 & s4 & ->). exists [], s3, s4. split; [reflexivity|]. unfold got. cbn. lia.
Qed.
Lemma rew_touch n w j0 script ys : rewritten n (Touch w j0 :: script) ys <->
  (w = true /\ j0 < n /\ write_after_next j0 script ys) \/ rewritten n script ys.
Proof.
  split.
  - intros ([|x s1] & j & rest & E & Hj & H); cbn in E.
    + injection E as -> -> ->. left. rewrite got_nil in Hj. cbn [nexts] in H. split; [reflexivity|]. split; [lia|]. rewrite drop_0 in H. exact H.
    + injection E as <- E. right. exists s1, j, rest. auto.
  - intros [(-> & Hj & H)|(s1 & j & rest & -> & Hj & H)].
    + exists [], j0, script. split; [reflexivity|]. rewrite got_nil. split; [lia|]. cbn [nexts]. rewrite drop_0. exact H.
    + exists (Touch w j0 :: s1), j, rest. auto.
Qed.
Lemma rew_some n i script ys : rewritten n (Next :: script) (Some i :: ys) <-> rewritten (S n) script ys.
Proof.
  split.
  - intros ([|x s1] & j & rest & E & Hj & H); cbn in E; [discriminate|]. injection E as <- E. rewrite got_next_some in Hj. exists s1, j, rest.
    split; [exact E|]. split; [lia|exact H].
  - intros (s1 & j & rest & -> & Hj & H). exists (Next :: s1), j, rest. rewrite got_next_some. split; [reflexivity|]. split; [lia|exact H].
Qed.
Lemma rew_none n script ys : rewritten n (Next :: script) (None :: ys) <-> rewritten n script ys.
Proof.
  split.
  - intros ([|x s1] & j & rest & E & Hj & H); cbn in E; [discriminate|]. injection E as <- E. rewrite got_next_none in Hj. exists s1, j, rest. auto.
  - intros (s1 & j & rest & -> & Hj & H). exists (Next :: s1), j, rest. rewrite got_next_none. auto.
Qed.
Lemma rew_end n script : ~ rewritten n script [].
Proof. intros (s1 & j & rest & _ & _ & H). rewrite drop_nil in H. apply wan_end in H. exact H. Qed.
Lemma sts_next (sts : list tperm) j p : (map (foreign false) sts ++ [TReserved]) !! j = Some p ->
  p = TReserved \/ exists q, sts !! j = Some q /\ p = foreign false q.
Proof.
  intros E. destruct (decide (j < length sts)) as [H|H].
  - rewrite lookup_app_l in E by (rewrite map_length; exact H). change (map (foreign false) sts) with (foreign false <$> sts) in E.
    rewrite list_lookup_fmap in E. destruct (sts !! j) as [q|]; [|discriminate]. injection E as <-. eauto.
  - rewrite lookup_app_r in E by (rewrite map_length; lia). rewrite map_length in E. destruct (j - length sts) as [|n]; [|destruct n; discriminate].
    injection E as <-. auto.
Qed.
Lemma no_rewrite_gen script : forall sts ys, no_rewrite sts script ys <->
  (forall j, sts !! j = Some TFrozen -> ~ later_write j script) /\
  (forall j, sts !! j = Some TActive -> ~ write_after_next j script ys) /\
  ~ rewritten (length sts) script ys.
Proof.
  induction script as [|[|w j0] script IH]; intros sts ys; cbn [no_rewrite].
  - split; [|auto]. intros _. split; [intros j _ ([|] & ? & E); discriminate|]. split; [intros j _ ([|] & ? & ? & E & _); discriminate|].
    intros ([|] & ? & ? & E & _); discriminate.
  - destruct ys as [|[i|] ys].
    + rewrite IH. split; intros (H1 & H2 & H3); (split; [|split; [intros j _; apply wan_end|apply rew_end]]);
        intros j Ej; specialize (H1 j Ej); rewrite later_cons in *; [intros [|H]; [discriminate|contradiction]|tauto].
    + rewrite IH, app_length, map_length. cbn [length]. rewrite Nat.add_1_r. split.
      * intros (H1 & H2 & H3). split; [|split].
        -- intros j Ej. rewrite later_cons. intros [|H]; [discriminate|]. apply (H1 j); [|exact H]. apply sts_fmap with (p := TFrozen), Ej.
        -- intros j Ej. rewrite wan_some. apply H1. apply sts_fmap with (p := TActive), Ej.
        -- rewrite rew_some. exact H3.
      * intros (H1 & H2 & H3). rewrite rew_some in H3. split; [|split; [|exact H3]].
        -- intros j Ej Hl. apply sts_next in Ej as [|(q & Eq & Ef)]; [discriminate|]. destruct q; try discriminate.
           ++ apply (H2 j Eq). rewrite wan_some. exact Hl.
           ++ apply (H1 j Eq). rewrite later_cons. auto.
        -- intros j Ej Hl. apply sts_next in Ej as [|(q & Eq & Ef)]; [discriminate|]. destruct q; discriminate.
    + rewrite IH. split; intros (H1 & H2 & H3); (split; [|split]).
      * intros j Ej. rewrite later_cons. intros [|H]; [discriminate|]. apply (H1 j Ej H).
      * intros j Ej. rewrite wan_none. auto.
      * rewrite rew_none. exact H3.
      * intros j Ej Hl. apply (H1 j Ej). rewrite later_cons. auto.
      * intros j Ej. rewrite <- (wan_none j script ys). auto.
      * rewrite rew_none in H3. exact H3.
  - destruct w.
    + destruct (sts !! j0) as [p|] eqn:E0.
      * pose proof (lookup_lt_Some _ _ _ E0) as Hlt. rewrite IH, insert_length. split.
        -- intros (Hp & H1 & H2 & H3).
           assert (HA : ~ write_after_next j0 script ys) by (apply H2, list_lookup_insert, Hlt). split; [|split].
           ++ intros j Ej. assert (j0 <> j) as Hne by (intros ->; congruence). rewrite later_cons. intros [Ht|Hl]; [congruence|].
              apply (H1 j); [rewrite list_lookup_insert_ne by assumption; exact Ej|exact Hl].
           ++ intros j Ej. rewrite wan_touch. destruct (decide (j0 = j)) as [<-|Hne]; [exact HA|]. apply H2. rewrite list_lookup_insert_ne by assumption. exact Ej.
           ++ rewrite rew_touch. intros [(_ & _ & H)|H]; [exact (HA H)|exact (H3 H)].
        -- intros (H1 & H2 & H3). rewrite rew_touch in H3. split; [|split; [|split]].
           ++ intros ->. apply (H1 j0 E0). rewrite later_cons. auto.
           ++ intros j Ej Hl. destruct (decide (j0 = j)) as [<-|Hne]; [rewrite list_lookup_insert in Ej by exact Hlt; discriminate|].
              rewrite list_lookup_insert_ne in Ej by exact Hne. apply (H1 j Ej). rewrite later_cons. auto.
           ++ intros j Ej Hl. destruct (decide (j0 = j)) as [<-|Hne]; [apply H3; auto|].
              rewrite list_lookup_insert_ne in Ej by exact Hne. apply (H2 j Ej). rewrite wan_touch. exact Hl.
           ++ tauto.
      * apply lookup_ge_None in E0 as Hge. rewrite IH, rew_touch. split; intros (H1 & H2 & H3); (split; [|split]).
        -- intros j Ej. rewrite later_cons. intros [[= ->]|H]; [congruence|]. apply (H1 j Ej H).
        -- intros j Ej. rewrite wan_touch. auto.
        -- intros [(_ & H & _)|H]; [lia|exact (H3 H)].
        -- intros j Ej Hl. apply (H1 j Ej). rewrite later_cons. auto.
        -- intros j Ej. rewrite <- (wan_touch j true j0). auto.
        -- tauto.
    + rewrite IH, rew_touch. split; intros (H1 & H2 & H3); (split; [|split]).
      * intros j Ej. rewrite later_cons. intros [|H]; [discriminate|]. apply (H1 j Ej H).
      * intros j Ej. rewrite wan_touch. auto.
      * intros [(? & _)|H]; [discriminate|exact (H3 H)].
      * intros j Ej Hl. apply (H1 j Ej). rewrite later_cons. auto.
      * intros j Ej. rewrite <- (wan_touch j false j0). auto.
      * tauto.
Qed.
Lemma no_rewrite_spec script ys : no_rewrite [] script ys <-> ~ rewritten 0 script ys.
Proof. rewrite no_rewrite_gen. cbn [length]. split; [tauto|]. intros H. split; [discriminate|]. split; [discriminate|exact H]. Qed.
