(** * [SparseChunk]: iterators and pool constructors. *)
From Verif Require Import Machine Spec Prims IterSpec2 SparseModel SparseSpec SparseProofs SparseProofs2 RingProofs RingProofs6.

Section proofs.
Context {A : Type} (e : env A) (N : nat).
Hypothesis HW : N < word e.
Implicit Types (c : sparse A) (s t : list (option A)) (g : log A) (v : A) (i k : nat).
Notation SHolds := (SHolds (A:=A) N).
(** The first entry of a suffix. *)
Lemma first_entry t : forall a,
  match entries_from a t with
  | [] => forall j x, t !! j = Some x -> x = None
  | (i, x) :: es => a <= i /\ i < a + length t /\ t !! (i - a) = Some (Some x) /\
      (forall p, a <= p -> p < i -> t !! (p - a) = Some None) /\
      es = entries_from (S i) (drop (S i - a) t)
  end.
Proof.
  induction t as [|[x|] t IH]; intros a; cbn [entries_from].
  - intros j x. rewrite lookup_nil. discriminate.
  - split; [lia|]. cbn [length]. split; [lia|]. rewrite Nat.sub_diag. split; [reflexivity|]. split; [lia|].
    replace (S a - a) with 1 by lia. cbn [drop]. rewrite drop_0. reflexivity.
  - specialize (IH (S a)). destruct (entries_from (S a) t) as [|[i y] es].
    + intros [|j] x Hj; [injection Hj as <-; reflexivity|]. exact (IH j x Hj).
    + destruct IH as (H1 & H2 & H3 & H4 & H5). cbn [length]. split; [lia|]. split; [lia|].
      replace (i - a) with (S (i - S a)) by lia. split; [exact H3|]. split.
      * intros p Hp1 Hp2. destruct (decide (p = a)) as [->|Hne].
        -- rewrite Nat.sub_diag. reflexivity.
        -- replace (p - a) with (S (p - S a)) by lia. apply H4; lia.
      * replace (S i - a) with (S (S i - S a)) by lia. cbn [drop]. exact H5.
Qed.

(** ** [iter] *)
(** The borrowed chunk holds [s] and the entries [l] are still to come. *)
Definition it_rep s (o : sparse A * nat) (l : list (nat * A)) : Prop :=
  SHolds (fst o) s /\ snd o <= N /\ l = entries_from (snd o) (drop (snd o) s).
Lemma it_next_index_ok s o l g : it_rep s o l ->
  exists o', it_next_index N o g = Ret o' g (fst <$> head l) /\ it_rep s o' (tail l) /\ fst o' = fst o.
Proof.
  intros (H & Hk & El). destruct o as [c k]. cbn [fst snd] in *. unfold it_next_index.
  erewrite (bind_Ret get) by reflexivity. cbn [fst snd]. rewrite (sholds_next N c s k H Hk).
  pose proof (first_entry (drop k s) k) as F. rewrite El. 
  destruct (entries_from k (drop k s)) as [|[i a] es] eqn:Es; cbn [map fst head tail fmap option_fmap option_map].
  - exists (c, N). split; [reflexivity|]. split; [|reflexivity]. split; [exact H|]. cbn. split; [lia|].
    rewrite drop_ge by (destruct H as [-> _]; lia). reflexivity.
  - exists (c, S i). split; [reflexivity|]. split; [|reflexivity]. split; [exact H|]. cbn.
    destruct F as (F1 & F2 & F3 & F4 & F5). rewrite drop_length in F2. assert (length s = N) by apply H.
    split; [lia|]. rewrite F5, drop_drop. f_equal. f_equal. lia.
Qed.
Lemma it_rep_head s o l : it_rep s o l -> forall i a, head l = Some (i, a) -> s !! i = Some (Some a) /\ i < N.
Proof.
  intros (H & Hk & El) i a Hh. assert (In (i, a) l) as Hin by (destruct l; [discriminate|injection Hh as ->; left; reflexivity]).
  rewrite El in Hin. apply entries_from_in in Hin as [H1 H2]. rewrite lookup_drop in H2.
  replace (snd o + (i - snd o)) with i in H2 by lia. split; [exact H2|]. apply lookup_lt_Some in H2. destruct H as [<- _]. exact H2.
Qed.
Lemma sp_value_ref_ok c s i a g : SHolds c s -> s !! i = Some (Some a) -> sp_value_ref N i c g = Ret c g (i, a).
Proof.
  intros H Hi. pose proof H as (H1 & H2 & H3). pose proof (lookup_lt_Some _ _ _ Hi). unfold sp_value_ref.
  rewrite if_true by lia. erewrite bind_Ret by (apply slot_peek_ok; [lia|cbn; rewrite H3, Hi; reflexivity]). reflexivity.
Qed.
Lemma it_next_ok s o l g : it_rep s o l ->
  exists o', it_next N o g = Ret o' g (head l) /\ it_rep s o' (tail l).
Proof.
  intros R. destruct (it_next_index_ok s o l g R) as (o' & E & R' & Ef). unfold it_next.
  erewrite bind_Ret by exact E. exists o'. split; [|exact R'].
  destruct (head l) as [[i a]|] eqn:Eh; cbn [fmap option_fmap option_map fst]; [|reflexivity].
  destruct (it_rep_head s o l R i a Eh) as [Hi _]. destruct o' as [c' k']. cbn [fst] in *. subst c'.
  erewrite bind_Ret by (apply on_fst_Ret; apply (sp_value_ref_ok _ s); [apply R|exact Hi]). reflexivity.
Qed.
Theorem it_serves s c g n : SHolds c s ->
  exists k g', pull_n (it_next N) (it_size_hint N) n (c, 0) g =
    Ret (c, k) g' (serves (fun _ => (0, Some N)) n (entries s)) /\ dropped g' = dropped g /\ leaked g' = leaked g.
Proof.
  intros H. destruct (pull_n_ok (fun o l => it_rep s o l /\ fst o = c) (it_next N) (it_size_hint N) (fun _ => (0, Some N))) with (n := n) (o := (c, 0)) (l := entries s) (g := g)
    as ([c' k] & g' & E & [R Ec] & D & L).
  - intros o l g0 [R Ec]. destruct (it_next_ok s o l g0 R) as (o' & E & R'). exists o', g0.
    repeat split; auto; try apply R'. 
    unfold it_next in E. destruct (it_next_index_ok s o l g0 R) as (o2 & E2 & R2 & Ef).
    erewrite bind_Ret in E by exact E2. destruct (head l) as [[i a]|] eqn:Eh; cbn in E.
    + destruct (it_rep_head s o l R i a Eh) as [Hi _]. destruct o2 as [c2 k2]. cbn [fst] in *.
      erewrite bind_Ret in E by (apply on_fst_Ret; apply (sp_value_ref_ok _ s); [apply R2|exact Hi]).
      injection E as <-. cbn. congruence.
    + injection E as <-. congruence.
  - reflexivity.
  - split; [|reflexivity]. split; [exact H|]. cbn. split; [lia|]. rewrite drop_0. reflexivity.
  - cbn in Ec. subst c'. exists k, g'. auto.
Qed.

(** ** [entries] *)
Definition en_rep s (o : sparse A * (nat * nat)) (l : list (nat * A)) : Prop :=
  it_rep s (fst o, fst (snd o)) l /\ it_rep s (fst o, snd (snd o)) l.
Lemma it_next_same s o l g : it_rep s o l ->
  exists k, it_next N o g = Ret (fst o, k) g (head l) /\ it_rep s (fst o, k) (tail l).
Proof.
  intros R. destruct (it_next_ok s o l g R) as (o' & E & R').
  unfold it_next in E. destruct (it_next_index_ok s o l g R) as (o2 & E2 & R2 & Ef).
  assert (fst o' = fst o) as Eo.
  { erewrite bind_Ret in E by exact E2. destruct (head l) as [[i a]|] eqn:Eh; cbn in E.
    + destruct (it_rep_head s o l R i a Eh) as [Hi _]. destruct o2 as [c2 k2]. cbn [fst] in *.
      erewrite bind_Ret in E by (apply on_fst_Ret; apply (sp_value_ref_ok _ s); [apply R2|exact Hi]).
      injection E as <-. cbn. congruence.
    + injection E as <-. congruence. }
  exists (snd o'). rewrite <- Eo. destruct o'. auto.
Qed.
Lemma en_next_ok s o l g : en_rep s o l ->
  exists ks, en_next N o g = Ret (fst o, ks) g (head l) /\ en_rep s (fst o, ks) (tail l).
Proof.
  intros [R1 R2]. destruct o as [c [k1 k2]]. cbn [fst snd] in *.
  destruct (it_next_index_ok s _ l g R1) as ([c' k1'] & E1 & R1' & Ef). cbn [fst] in Ef. subst c'.
  destruct (it_next_same s _ l g R2) as (k2' & E2 & R2'). cbn [fst] in *.
  unfold en_next. cbn [fst snd]. rewrite E1. destruct l as [|[i a] l]; cbn [head tail fmap option_fmap option_map fst snd] in *.
  - exists (k1', k2). split; [reflexivity|]. split; [exact R1'|exact R2].
  - rewrite E2. exists (k1', k2'). split; [reflexivity|]. split; [exact R1'|exact R2'].
Qed.
Theorem en_serves s c g n : SHolds c s ->
  exists ks g', pull_n (en_next N) (it_size_hint N) n (c, (0, 0)) g =
    Ret (c, ks) g' (serves (fun _ => (0, Some N)) n (entries s)) /\ dropped g' = dropped g /\ leaked g' = leaked g.
Proof.
  intros H.
  assert (R0 : it_rep s (c, 0) (entries s)). { split; [exact H|]. cbn. split; [lia|]. rewrite drop_0. reflexivity. }
  destruct (pull_n_ok (fun o l => en_rep s o l /\ fst o = c) (en_next N) (it_size_hint N) (fun _ => (0, Some N))) with (n := n) (o := (c, (0, 0))) (l := entries s) (g := g)
    as ([c' ks] & g' & E & [R Ec] & D & L).
  - intros o l g0 [R Ec]. destruct (en_next_ok s o l g0 R) as (ks & E & R'). eexists _, g0.
    split; [exact E|]. cbn. auto.
  - reflexivity.
  - split; [split; exact R0|reflexivity].
  - cbn in Ec. subst c'. exists ks, g'. auto.
Qed.

(** ** [iter_mut] *)
Definition im_rep s (o : sparse A * bitmap) (l : list (nat * A)) : Prop :=
  SHolds (fst o) s /\ exists a, a <= N /\ l = entries_from a (drop a s) /\
    forall p, p < N -> snd o p = (a <=? p) && smap (fst o) p.
Lemma filter_nothing (b : nat -> bool) k n : (forall p, k <= p < k + n -> b p = false) -> List.filter b (seq k n) = [].
Proof.
  revert k. induction n as [|n IH]; intros k H; [reflexivity|]. cbn [seq List.filter].
  rewrite H by lia. apply IH. intros p Hp. apply H. lia.
Qed.
Lemma im_first s o l : im_rep s o l -> bm_first N (snd o) = fst <$> head l.
Proof.
  intros (H & a & Ha & El & Hb). pose proof H as (H1 & H2 & H3). unfold bm_first. rewrite find_filter.
  replace N with (a + (N - a)) by lia. rewrite seq_app, List.filter_app.
  rewrite filter_nothing. 2: { intros p Hp. rewrite Hb by lia. replace (a <=? p) with false by lia. reflexivity. }
  cbn [app plus]. assert (E : N - a = length (drop a s)) by (rewrite drop_length; lia). rewrite E.
  rewrite (indices_entries (snd o) (drop a s) a).
  - rewrite El. destruct (entries_from a (drop a s)); reflexivity.
  - intros i Hi. rewrite drop_length in Hi. rewrite Hb by lia. replace (a <=? a + i) with true by lia.
    cbn [andb]. rewrite H2 by lia. rewrite lookup_drop. reflexivity.
Qed.
Lemma im_next_ok s o l g : im_rep s o l ->
  exists b, im_next N o g = Ret (fst o, b) g (head l) /\ im_rep s (fst o, b) (tail l).
Proof.
  intros R. pose proof (im_first s o l R) as E1. destruct R as (H & a & Ha & El & Hb).
  pose proof H as (H1 & H2 & H3). destruct o as [c b]. cbn [fst snd] in *.
  unfold im_next. erewrite (bind_Ret get) by reflexivity. cbn [fst snd]. rewrite E1.
  pose proof (first_entry (drop a s) a) as F. rewrite <- El in F.
  destruct l as [|[i x] l]; cbn [head tail fmap option_fmap option_map fst].
  - exists b. split; [reflexivity|]. split; [exact H|]. exists a. auto.
  - destruct F as (F1 & F2 & F3 & F4 & F5). rewrite drop_length in F2.
    assert (Hi : s !! i = Some (Some x)). { rewrite lookup_drop in F3. replace (a + (i - a)) with i in F3 by lia. exact F3. }
    erewrite (bind_Ret (on_snd _)) by reflexivity. cbn [fst snd].
    erewrite bind_Ret by (apply on_fst_Ret; apply (sp_value_ref_ok _ s); [exact H|exact Hi]).
    eexists. split; [reflexivity|]. split; [exact H|]. cbn [fst snd]. exists (S i). split; [lia|]. split.
    + rewrite F5, drop_drop. f_equal. f_equal. lia.
    + intros p Hp. unfold bm_put. destruct (p =? i) eqn:Ep.
      * replace (S i <=? p) with false by lia. reflexivity.
      * rewrite Hb by exact Hp. destruct (decide (p < i)) as [Hlt|Hge].
        -- replace (S i <=? p) with false by lia. cbn [andb]. destruct (a <=? p) eqn:Eap; [|reflexivity].
           specialize (F4 p ltac:(lia) Hlt). rewrite lookup_drop in F4. replace (a + (p - a)) with p in F4 by lia.
           rewrite H2, F4 by exact Hp. reflexivity.
        -- replace (S i <=? p) with true by lia. replace (a <=? p) with true by lia. reflexivity.
Qed.
Theorem im_serves s c g n : SHolds c s ->
  exists b g', pull_n (im_next N) (it_size_hint N) n (c, smap c) g =
    Ret (c, b) g' (serves (fun _ => (0, Some N)) n (entries s)) /\ dropped g' = dropped g /\ leaked g' = leaked g.
Proof.
  intros H.
  destruct (pull_n_ok (fun o l => im_rep s o l /\ fst o = c) (im_next N) (it_size_hint N) (fun _ => (0, Some N))) with (n := n) (o := (c, smap c)) (l := entries s) (g := g)
    as ([c' b] & g' & E & [R Ec] & D & L).
  - intros o l g0 [R Ec]. destruct (im_next_ok s o l g0 R) as (b & E & R'). eexists _, g0.
    split; [exact E|]. cbn. auto.
  - reflexivity.
  - split; [|reflexivity]. split; [exact H|]. exists 0. split; [lia|]. rewrite drop_0. split; [reflexivity|]. intros p Hp. reflexivity.
  - cbn in Ec. subst c'. exists b, g'. auto.
Qed.

(** ** [drain], [into_iter] *)
Lemma values_pop_from s : forall k i a es, entries_from k s = (i, a) :: es ->
  map snd (entries_from k (<[i - k := None]> s)) = map snd es.
Proof.
  induction s as [|[x|] s IH]; intros k i a es E; [discriminate| |]; cbn [entries_from] in E.
  - injection E as <- <- <-. rewrite Nat.sub_diag. reflexivity.
  - pose proof (first_entry s (S k)) as F. rewrite E in F. destruct F as (F1 & _).
    replace (i - k) with (S (i - S k)) by lia. cbn [insert list_insert entries_from]. eapply IH. exact E.
Qed.
Lemma values_pop s i a es : entries s = (i, a) :: es -> values (<[i := None]> s) = map snd es.
Proof. intros E. pose proof (values_pop_from s 0 i a es E) as P. rewrite Nat.sub_0_r in P. exact P. Qed.
Definition dr_rep c (l : list A) : Prop := exists s, SHolds c s /\ l = values s.
Theorem dr_serves s c g n : SHolds c s ->
  exists c' g', pull_n (dr_next N) (dr_size_hint N) n c g =
    Ret c' g' (serves (fun n => (n, Some n)) n (values s)) /\ dropped g' = dropped g /\ leaked g' = leaked g /\
    exists s', SHolds c' s' /\ values s' = drop n (values s).
Proof.
  intros H.
  destruct (pull_n_ok dr_rep (dr_next N) (dr_size_hint N) (fun n => (n, Some n))) with (n := n) (o := c) (l := values s) (g := g)
    as (c' & g' & E & (s' & R & Es) & D & L).
  - intros o l g0 (s0 & H0 & ->). pose proof (sp_pop_ok N o s0 g0 H0) as P. unfold ar_pop, dr_next in *.
    destruct (entries s0) as [|[i a] es] eqn:Es; destruct P as (o' & g' & r & E & Ho & -> & D & L);
      rewrite app_nil_r in D; exists o', g'.
    + unfold values. rewrite Es. repeat split; auto. exists s0. unfold values. rewrite Es. auto.
    + rewrite E. unfold values at 1 2. rewrite Es. repeat split; auto. eexists. split; [exact Ho|].
      cbn [map tail]. symmetry. eapply values_pop. exact Es.
  - intros o l g0 (s0 & H0 & ->). unfold dr_size_hint, sp_len. rewrite bind_bind. erewrite (bind_Ret get) by reflexivity.
    rewrite bind_ret, (sholds_len N o s0 H0). reflexivity.
  - exists s. auto.
  - exists c', g'. repeat split; auto. exists s'. auto.
Qed.

(** ** [option_iter], [option_iter_mut], [option_drain] *)
Definition oi_rep s (o : sparse A * nat) (l : list (option A)) : Prop :=
  SHolds (fst o) s /\ snd o <= N /\ l = drop (snd o) s.
Lemma oi_hint_ok c k g (l : list (option A)) : k <= N -> length l = N - k ->
  oi_size_hint e N (c, k) g = Ret (c, k) g (length l, Some (length l)).
Proof.
  intros Hk ->. unfold oi_size_hint. erewrite (bind_Ret get) by reflexivity. cbn [snd].
  erewrite bind_Ret by (apply usub_ok; lia). erewrite bind_Ret by (apply usub_ok; lia). reflexivity.
Qed.
Lemma oi_next_ok s c k g : SHolds c s -> k <= N ->
  exists k', oi_next e N (c, k) g = Ret (c, k') g (head (drop k s)) /\ k' <= N /\ drop k' s = tail (drop k s).
Proof.
  intros H Hk. assert (EN : length s = N) by apply H.
  unfold oi_next. erewrite (bind_Ret get) by reflexivity. cbn [fst snd].
  destruct (k <? N) eqn:E.
  - destruct (lookup_cell N s k EN ltac:(lia)) as [x Hx].
    erewrite bind_Ret by (apply on_fst_Ret, sp_get_eq; exact H).
    erewrite bind_Ret by (apply uadd_ok; lia). erewrite (bind_Ret (on_snd _)) by reflexivity.
    exists (k + 1). rewrite Hx. rewrite (drop_S _ _ _ Hx). replace (k + 1) with (S k) by lia. cbn. repeat split; lia.
  - exists k. rewrite drop_ge by lia. auto.
Qed.
Theorem oi_serves s c g n : SHolds c s ->
  exists k g', pull_n (oi_next e N) (oi_size_hint e N) n (c, 0) g =
    Ret (c, k) g' (serves (fun n => (n, Some n)) n s) /\ dropped g' = dropped g /\ leaked g' = leaked g.
Proof.
  intros H. assert (EN : length s = N) by apply H.
  destruct (pull_n_ok (fun o l => snd o <= N /\ l = drop (snd o) s /\ fst o = c) (oi_next e N) (oi_size_hint e N) (fun n => (n, Some n))) with (n := n) (o := (c, 0)) (l := s) (g := g)
    as ([c' k] & g' & E & (R1 & R2 & Ec) & D & L).
  - intros [c0 k] l g0 (Hk & -> & Ec). cbn in *. subst c0.
    destruct (oi_next_ok s c k g0 H Hk) as (k' & E & Hk' & Ed). eexists _, g0. split; [exact E|]. cbn. auto.
  - intros [c0 k] l g0 (Hk & -> & Ec). apply oi_hint_ok; [exact Hk|]. rewrite drop_length. cbn in *. lia.
  - cbn. rewrite drop_0. auto with lia.
  - cbn in Ec. subst c'. exists k, g'. auto.
Qed.
(** References are shown with their indices. *)
Definition om_items k s : list (option (nat * A)) := imap (fun j x => (fun a => (k + j, a)) <$> x) s.
Lemma om_items_cons k x s : om_items k (x :: s) = ((fun a => (k, a)) <$> x) :: om_items (S k) s.
Proof.
  unfold om_items. cbn [imap]. f_equal; [rewrite Nat.add_0_r; reflexivity|]. apply imap_ext. intros j y _. cbn. destruct y; cbn; [|reflexivity]. do 2 f_equal. lia.
Qed.
Lemma om_next_ok s c k g : SHolds c s -> k <= N ->
  exists k', om_next e N (c, k) g = Ret (c, k') g (head (om_items k (drop k s))) /\ k' <= N /\
    om_items k' (drop k' s) = tail (om_items k (drop k s)).
Proof.
  intros H Hk. pose proof H as (EN & H2 & H3).
  unfold om_next. erewrite (bind_Ret get) by reflexivity. cbn [fst snd].
  destruct (k <? N) eqn:E.
  - destruct (lookup_cell N s k EN ltac:(lia)) as [x Hx]. rewrite (drop_S _ _ _ Hx), om_items_cons.
    assert (Em : map_get N k c g = Ret c g (is_some x)).
    { unfold map_get. erewrite (bind_Ret get) by reflexivity. rewrite if_true by lia. rewrite H2, Hx by lia. reflexivity. }
    erewrite bind_Ret by (apply on_fst_Ret; exact Em).
    exists (k + 1). replace (k + 1) with (S k) by lia. split; [|split; [lia|reflexivity]].
    destruct x as [a|]; cbn [is_some].
    + rewrite bind_bind. erewrite bind_Ret by (apply on_fst_Ret; apply (sp_value_ref_ok _ s); [exact H|exact Hx]).
      rewrite bind_ret. erewrite bind_Ret by (apply uadd_ok; lia). erewrite (bind_Ret (on_snd _)) by reflexivity.
      cbn. replace (k + 1) with (S k) by lia. reflexivity.
    + rewrite bind_ret. erewrite bind_Ret by (apply uadd_ok; lia). erewrite (bind_Ret (on_snd _)) by reflexivity.
      cbn. replace (k + 1) with (S k) by lia. reflexivity.
  - exists k. rewrite drop_ge by lia. auto.
Qed.
Theorem om_serves s c g n : SHolds c s ->
  exists k g', pull_n (om_next e N) (oi_size_hint e N) n (c, 0) g =
    Ret (c, k) g' (serves (fun n => (n, Some n)) n (om_items 0 s)) /\ dropped g' = dropped g /\ leaked g' = leaked g.
Proof.
  intros H. assert (EN : length s = N) by apply H.
  destruct (pull_n_ok (fun o l => snd o <= N /\ l = om_items (snd o) (drop (snd o) s) /\ fst o = c) (om_next e N) (oi_size_hint e N) (fun n => (n, Some n))) with (n := n) (o := (c, 0)) (l := om_items 0 s) (g := g)
    as ([c' k] & g' & E & (R1 & R2 & Ec) & D & L).
  - intros [c0 k] l g0 (Hk & -> & Ec). cbn in *. subst c0.
    destruct (om_next_ok s c k g0 H Hk) as (k' & E & Hk' & Ed). eexists _, g0. split; [exact E|]. cbn. auto.
  - intros [c0 k] l g0 (Hk & -> & Ec). cbn [fst snd] in *.
    assert (El : length (om_items k (drop k s)) = length (drop k s)) by apply imap_length. rewrite El.
    apply oi_hint_ok; [exact Hk|]. rewrite drop_length. lia.
  - cbn. rewrite drop_0. auto with lia.
  - cbn in Ec. subst c'. exists k, g'. auto.
Qed.
Lemma od_next_ok s c k g : SHolds c (no_cells k ++ drop k s) -> length s = N -> k <= N ->
  exists c' k' g', od_next e N (c, k) g = Ret (c', k') g' (head (drop k s)) /\ k' <= N /\
    drop k' s = tail (drop k s) /\ SHolds c' (no_cells k' ++ drop k' s) /\
    dropped g' = dropped g /\ leaked g' = leaked g.
Proof.
  intros H EN Hk.
  unfold od_next. erewrite (bind_Ret get) by reflexivity. cbn [fst snd].
  assert (Ek : length (no_cells (A:=A) k) = k) by apply replicate_length.
  destruct (k <? N) eqn:E.
  - destruct (lookup_cell N s k EN ltac:(lia)) as [x Hx].
    pose proof (sp_remove_ok N c _ g k H) as P. unfold ar_remove in P.
    rewrite (drop_S _ _ _ Hx) in P. rewrite lookup_app_r in P by lia.
    rewrite Ek, Nat.sub_diag in P. cbn in P. rewrite (insert_middle) in P by exact Ek.
    destruct P as (c' & g' & r & Q & Hc & -> & D & L). rewrite app_nil_r in D.
    erewrite bind_Ret by (apply on_fst_Ret; exact Q).
    erewrite bind_Ret by (apply uadd_ok; lia). erewrite (bind_Ret (on_snd _)) by reflexivity.
    assert (Eq : no_cells (S k) ++ drop (S k) s = no_cells k ++ None :: drop (S k) s).
    { unfold no_cells. rewrite (cons_middle None), app_assoc, <- replicate_cons_app. reflexivity. }
    exists c', (k + 1), g'. rewrite (drop_S _ _ _ Hx). replace (k + 1) with (S k) by lia. rewrite Eq.
    split; [reflexivity|]. split; [lia|]. split; [reflexivity|]. auto.
  - exists c, k, g. rewrite drop_ge in H |- * by lia. repeat split; auto; apply H.
Qed.
Theorem od_serves s c g n : SHolds c s ->
  exists c' k g', pull_n (od_next e N) (oi_size_hint e N) n (c, 0) g =
    Ret (c', k) g' (serves (fun n => (n, Some n)) n s) /\ dropped g' = dropped g /\ leaked g' = leaked g /\
    exists s', SHolds c' s' /\ values s' = values (drop n s).
Proof.
  intros H. assert (EN : length s = N) by apply H.
  destruct (pull_n_ok (fun o l => snd o <= N /\ l = drop (snd o) s /\ SHolds (fst o) (no_cells (snd o) ++ drop (snd o) s)) (od_next e N) (oi_size_hint e N) (fun n => (n, Some n))) with (n := n) (o := (c, 0)) (l := s) (g := g)
    as ([c' k] & g' & E & (R1 & R2 & Ec) & D & L).
  - intros [c0 k] l g0 (Hk & -> & Ec). cbn [fst snd] in *.
    destruct (od_next_ok s c0 k g0 Ec EN Hk) as (c' & k' & g' & E & Hk' & Ed & Hc & D & L). eexists _, g'. split; [exact E|]. cbn [fst snd]. rewrite Ed in *. auto.
  - intros [c0 k] l g0 (Hk & -> & Ec). apply oi_hint_ok; [exact Hk|]. rewrite drop_length. cbn in *. lia.
  - cbn. rewrite drop_0. auto with lia.
  - cbn [fst snd] in *. exists c', k, g'. repeat split; auto. eexists. split; [exact Ec|].
    rewrite R2. rewrite values_omap, omap_app', <- values_omap, values_no_cells. symmetry. apply values_omap.
Qed.
Lemma od_calls_ok s n : length s = N -> forall c k g, SHolds c (no_cells k ++ drop k s) -> k <= N ->
  exists c' k' g', od_calls e N n (c, k) g =
      Ret (c', k') g' (map Some (take n (drop k s)) ++ replicate (n - length (drop k s)) None) /\
    SHolds c' (no_cells (k + length (take n (drop k s))) ++ drop n (drop k s)) /\
    dropped g' = dropped g /\ leaked g' = leaked g.
Proof.
  intros EN. induction n as [|n IH]; intros c k g H Hk; cbn [od_calls].
  - exists c, k, g. rewrite take_0, drop_0. cbn. rewrite Nat.add_0_r. repeat split; auto; apply H.
  - destruct (od_next_ok s c k g H EN Hk) as (c1 & k1 & g1 & E1 & Hk1 & Ed & H1 & D1 & L1).
    destruct (IH c1 k1 g1 H1 Hk1) as (c' & k' & g' & E & H' & D & L).
    exists c', k', g'. erewrite bind_Ret by exact E1. erewrite bind_Ret by exact E.
    rewrite Ed in E, H' |- *. rewrite D, L.
    assert (El : length (drop k1 s) = length (tail (drop k s))) by (rewrite Ed; reflexivity).
    rewrite drop_length in El. pose proof (drop_length s k) as El2.
    destruct (drop k s) as [|x t] eqn:Ex; cbn [tail head] in *.
    + split; [|auto]. rewrite !take_nil. cbn. rewrite Nat.sub_0_r. reflexivity.
      split; [|auto]. rewrite take_nil, drop_nil in *. cbn in *. replace (k + 0) with (k1 + 0) by lia. exact H'.
    + cbn [take drop map length app Nat.sub]. split; [reflexivity|]. split; [|auto].
      cbn in El, El2. replace (k + S (length (take n t))) with (k1 + length (take n t)) by lia. exact H'.
Qed.
Lemma sp_option_drain_ok n c s g : SHolds c s -> agrees SHolds eq g (sp_option_drain e N n c g) (ar_option_drain n s).
Proof.
  intros H. assert (EN : length s = N) by apply H.
  destruct (od_calls_ok s n EN c 0 g ltac:(exact H) ltac:(lia)) as (c' & k' & g' & E & H' & D & L).
  rewrite drop_0 in E, H'. cbn in H'. exists c', g'. eexists. unfold sp_option_drain. rewrite E.
  split; [reflexivity|]. split; [exact H'|]. split; [reflexivity|]. rewrite app_nil_r. auto.
Qed.

(** ** [iter_mut] used to assign to every element *)
Lemma im_assign_loop_ok new t : forall fuel a k pre c (b : bitmap) g, calm e ->
  length pre = a -> SHolds c (pre ++ t) -> (forall p, p < N -> b p = (a <=? p) && smap c p) ->
  length (map snd (entries_from a t)) < fuel ->
  exists c' b' g', im_assign_loop e N new fuel k (c, b) g = Ret (c', b') g' tt /\
    SHolds c' (pre ++ refill t (map new (seq k (length (map snd (entries_from a t)))))) /\
    dropped g' = dropped g ++ map snd (entries_from a t) /\ leaked g' = leaked g.
Proof.
  intros fuel a k pre c b g Hc. revert fuel a k pre c b g.
  induction t as [|[x|] t IH]; intros fuel a k pre c b g Ha H Hb Hf.
  - destruct fuel as [|fuel]; [cbn in Hf; lia|]. cbn [im_assign_loop entries_from map length seq refill].
    destruct (im_next_ok (pre ++ []) (c, b) [] g) as (b' & E & R').
    { split; [exact H|]. exists a. assert (EN : length (pre ++ []) = N) by apply H. rewrite app_length in EN. cbn in EN.
      split; [lia|]. split; [|exact Hb]. rewrite drop_ge; [reflexivity|]. rewrite app_length. cbn. lia. }
    erewrite bind_Ret by exact E. cbn [head fst]. eexists _, _, _. split; [reflexivity|]. rewrite !app_nil_r in *. auto.
  - destruct fuel as [|fuel]; [cbn in Hf; lia|]. cbn [im_assign_loop entries_from map length seq refill snd] in *.
    assert (EN : length (pre ++ Some x :: t) = N) by apply H. rewrite app_length in EN. cbn in EN.
    assert (Hx : (pre ++ Some x :: t) !! a = Some (Some x)).
    { rewrite lookup_app_r by lia. rewrite Ha, Nat.sub_diag. reflexivity. }
    assert (Ed : drop a (pre ++ Some x :: t) = Some x :: t) by (rewrite <- Ha; apply drop_app).
    destruct (im_next_ok (pre ++ Some x :: t) (c, b) ((a, x) :: entries_from (S a) t) g) as (b' & E & R').
    { split; [exact H|]. exists a. split; [lia|]. split; [|exact Hb]. rewrite Ed. reflexivity. }
    erewrite bind_Ret by exact E. cbn [head fst].
    destruct (overwrite N c _ a x (new k) H Hx g) as (c' & Hc' & Hl & E1 & E2).
    erewrite bind_Ret by (apply on_fst_Ret; exact E1). erewrite bind_Ret by (apply on_fst_Ret; exact E2).
    erewrite bind_Ret by (apply on_fst_Ret; apply drop_values_calm; exact Hc).
    rewrite (insert_middle) in Hc' by exact Ha. rewrite (cons_middle (Some (new k))), app_assoc in Hc'.
    destruct (IH fuel (S a) (S k) (pre ++ [Some (new k)]) c' b' (log_drop [x] (log_write 1 g))) as (c2 & b2 & g2 & E3 & H3 & D & L).
    { rewrite app_length. cbn. lia. } { exact Hc'. }
    { (* the copy of the bitmap *)
      destruct R' as (_ & a' & Ha' & El & Hb').
      assert (Hm : forall p, p < N -> smap c' p = smap c p).
      { intros p Hp. destruct Hc' as (_ & M' & _). destruct H as (_ & M & _). rewrite M', M by exact Hp.
        rewrite <- app_assoc. cbn [app]. rewrite <- (insert_middle pre (Some x) (Some (new k)) t a Ha).
        rewrite insert_if. destruct ((p =? a) && _) eqn:Ep; [|reflexivity].
        assert (p = a) as -> by lia. rewrite Hx. reflexivity. }
      intros p Hp. rewrite Hm by exact Hp.
      (* [im_next] sets exactly bit [a] to false *)
      unfold im_next in E. erewrite (bind_Ret get) in E by reflexivity. cbn [snd fst] in E.
      assert (EF : bm_first N b = Some a).
      { refine (im_first (pre ++ Some x :: t) (c, b) ((a, x) :: entries_from (S a) t) _).
        split; [exact H|]. exists a. split; [lia|]. split; [|exact Hb]. rewrite Ed. reflexivity. }
      rewrite EF in E.
      cbn [head fmap option_fmap option_map fst] in E. erewrite (bind_Ret (on_snd _)) in E by reflexivity. cbn [fst snd] in E.
      erewrite bind_Ret in E by (apply on_fst_Ret; apply (sp_value_ref_ok _ (pre ++ Some x :: t)); [exact H|exact Hx]).
      injection E as <-. unfold bm_put. destruct (p =? a) eqn:Ep.
      - replace (S a <=? p) with false by lia. reflexivity.
      - rewrite Hb by exact Hp. f_equal. lia. }
    { lia. }
    exists c2, b2, g2. split; [exact E3|]. rewrite <- app_assoc in H3. split; [exact H3|]. split; [|exact L].
    rewrite D. cbn. rewrite <- app_assoc. reflexivity.
  - cbn [entries_from] in *.
    assert (EN : length (pre ++ None :: t) = N) by apply H. rewrite app_length in EN. cbn in EN.
    rewrite (cons_middle None), app_assoc in H.
    destruct (IH fuel (S a) k (pre ++ [None]) c b g) as (c2 & b2 & g2 & E3 & H3 & D & L).
    { rewrite app_length. cbn. lia. } { exact H. }
    { intros p Hp. rewrite Hb by exact Hp. destruct (decide (p = a)) as [->|Hne].
      - destruct H as (_ & M & _). rewrite M by exact Hp. rewrite <- app_assoc. rewrite lookup_app_r by lia.
        rewrite Ha, Nat.sub_diag. cbn. rewrite !andb_false_r. reflexivity.
      - f_equal. lia. }
    { exact Hf. }
    exists c2, b2, g2. split; [exact E3|]. split; [|auto]. rewrite <- app_assoc in H3.
    destruct (map new _) in H3 |- *; exact H3.
Qed.
Lemma sp_iter_mut_assign_ok new c s g : calm e -> SHolds c s ->
  agrees SHolds eq g (sp_iter_mut_assign e N new c g) (ar_assign_all new s).
Proof.
  intros Hc H. unfold sp_iter_mut_assign.
  destruct (im_assign_loop_ok new s (S N) 0 0 [] c (smap c) g Hc eq_refl H) as (c' & b' & g' & E & H' & D & L).
  { intros p Hp. reflexivity. }
  { change (map snd (entries_from 0 s)) with (values s). pose proof (values_length s). destruct H as [<- _]. lia. }
  rewrite E. exists c', g', tt. auto.
Qed.

(** ** Pool constructors *)
Lemma sp_default_uninit_ok b g : exists c, sp_default_uninit (Sparse b mem0) g = Ret c g tt /\ SHolds c (no_cells N).
Proof. exists sparse0. split; [reflexivity|]. apply sparse0_holds. Qed.
Lemma sp_clone_uninit_loop_ok cl t : forall a k pre pre' out self g,
  length pre = a -> length pre' = a -> SHolds self (pre' ++ t) ->
  (forall i, sdata out i = mjoin ((pre ++ no_cells (length t)) !! i)) ->
  exists m g',
    sp_clone_uninit_loop N cl (map fst (entries_from a t)) k (out, self) g =
      (if length (clones cl k (map snd (entries_from a t))) =? length (map snd (entries_from a t))
       then Ret (Sparse (smap out) m, self) g' tt else Panic (Sparse (smap out) m, self) g') /\
    (forall i, m i = mjoin ((pre ++ refill t (clones cl k (map snd (entries_from a t)))) !! i)) /\
    dropped g' = dropped g /\ leaked g' = leaked g.
Proof.
  induction t as [|x t IH]; intros a k pre pre' out self g Ha Ha' Hs Ho.
  - exists (sdata out), g. destruct out. auto.
  - assert (EN : length (pre' ++ x :: t) = N) by apply Hs. rewrite app_length in EN. cbn in EN.
    destruct x as [x|]; cbn [entries_from map fst snd sp_clone_uninit_loop clones].
    + assert (Hx : (pre' ++ Some x :: t) !! a = Some (Some x)).
      { rewrite lookup_app_r by lia. rewrite Ha', Nat.sub_diag. reflexivity. }
      assert (Ei : sp_index N a self g = Ret self g x).
      { unfold sp_index. erewrite bind_Ret by (apply sp_get_eq; exact Hs). rewrite Hx. reflexivity. }
      erewrite bind_Ret by (apply on_snd_Ret; exact Ei).
      destruct (cl k x) as [x'|].
      * assert (Hn : sdata out a = None).
        { rewrite Ho. cbn [length]. unfold no_cells. cbn [replicate]. rewrite lookup_app_r by lia. rewrite Ha, Nat.sub_diag. reflexivity. }
        erewrite bind_Ret by (apply on_fst_Ret; apply slot_write_ok; [lia|exact Hn]).
        cbn [getm setm sparse_mem].
        rewrite (cons_middle (Some x)) in Hs. rewrite app_assoc in Hs.
        destruct (IH (S a) (S k) (pre ++ [Some x']) (pre' ++ [Some x]) (Sparse (smap out) (upd (sdata out) a (Some x'))) self (log_write 1 g)) as (m & g2 & Q2 & H2 & D2 & L2);
          [rewrite app_length; cbn; lia|rewrite app_length; cbn; lia|exact Hs| |].
        { intros i. cbn [sdata]. unfold upd. rewrite <- app_assoc. cbn [app].
          rewrite <- (insert_middle pre None (Some x') (no_cells (length t)) a Ha). rewrite insert_if, app_length, Ha. cbn [length].
          rewrite Ho. destruct (i =? a) eqn:Ei2; cbn [andb]; [rewrite if_true by lia|]; reflexivity. }
        exists m, g2. rewrite Q2. cbn [length]. split; [reflexivity|].
        rewrite D2, L2. split; [|auto]. intros i. rewrite H2, <- app_assoc. reflexivity.
      * exists (sdata out), g. cbn [length]. split; [destruct out; reflexivity|]. cbn [refill]. rewrite (refill_nil t). auto.
    + rewrite (cons_middle None) in Hs. rewrite app_assoc in Hs.
      destruct (IH (S a) k (pre ++ [None]) (pre' ++ [None]) out self g) as (m & g2 & Q2 & H2 & D2 & L2);
          [rewrite app_length; cbn; lia|rewrite app_length; cbn; lia|exact Hs| |].
      { intros i. rewrite Ho, <- app_assoc. reflexivity. }
      exists m, g2. split; [exact Q2|]. split; [|auto]. intros i. rewrite H2, <- app_assoc.
      destruct (clones cl k (map snd (entries_from (S a) t))); reflexivity.
Qed.
Lemma refill_is_some : forall (s : list (option A)) k vs i, length vs = length (map snd (entries_from k s)) ->
  is_some (mjoin (s !! i)) = is_some (mjoin (refill s vs !! i)).
Proof.
  induction s as [|[x|] s IH]; intros k vs i El; cbn [entries_from map length] in El.
  - reflexivity.
  - destruct vs as [|v vs]; [cbn in El; lia|]. destruct i as [|i]; [reflexivity|]. apply (IH (S k) vs i). cbn in El. lia.
  - destruct vs as [|v vs]; (destruct i as [|i]; [reflexivity|]).
    + apply (IH (S k) [] i El).
    + apply (IH (S k) (v :: vs) i El).
Qed.
(** [clone_uninit] on a slot with any bitmap in it: like [clone] if no clone panics. *)
Lemma sp_clone_uninit_ok cl b c s g : SHolds c s ->
  exists c' g', sp_clone_uninit N cl (Sparse b mem0, c) g =
      (if length (clones cl 0 (values s)) =? length (values s) then Ret (c', c) g' tt else Panic (c', c) g') /\
    dropped g' = dropped g /\ leaked g' = leaked g /\
    (length (clones cl 0 (values s)) = length (values s) -> SHolds c' (refill s (clones cl 0 (values s)))).
Proof.
  intros H. pose proof H as (EN & H2 & H3). unfold sp_clone_uninit. erewrite (bind_Ret get) by reflexivity. cbn [fst snd].
  erewrite (bind_Ret (on_fst _)) by reflexivity. cbn [fst snd sdata].
  erewrite bind_Ret by (apply on_snd_Ret; unfold sp_indices; erewrite (bind_Ret get) by reflexivity; reflexivity).
  rewrite (sholds_indices N c s H).
  destruct (sp_clone_uninit_loop_ok cl s 0 0 [] [] (Sparse (smap c) mem0) c g eq_refl eq_refl H) as (m & g' & Q & Hm & D & L).
  { cbn [app]. intros i. cbn. destruct (sparse0_holds (A:=A) N) as (_ & _ & S3). rewrite EN. apply (S3 i). }
  change (map fst (entries_from 0 s)) with (occupied s) in Q.
  change (map snd (entries_from 0 s)) with (values s) in Q, Hm. exists (Sparse (smap c) m), g'. rewrite Q. cbn [smap].
  split; [reflexivity|]. split; [exact D|]. split; [exact L|]. intros El.
  split; [rewrite refill_length; exact EN|]. split; [|exact Hm]. cbn.
  intros i Hi. rewrite H2 by exact Hi. apply (refill_is_some s 0). exact El.
Qed.
End proofs.
