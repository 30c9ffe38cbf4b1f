(** * [y.into_iter().collect()]: proofs. *)
From Verif Require Import Machine Spec Prims Program ChunkModel RingModel SparseModel SparseSpec SparseProofs SparseProofs2 SparseProofs3
  InlineModel InlineSpec InlineProofs InlineProofs2 InlineProofs3 LiveModel LiveSpec LiveLaws LiveSparseModel LiveSparse
  IterSpec SpecProps ChunkProgram RingProgram SparseProgram InlineProgram MixModel MixSpec MixProofs MixProgram MixBalance
  Bombs BombProgram ChunkBombs RingBombs SparseBombs InlineBombs MixBombSpec MixBombs OwnModel OwnSpec.
From Verif Require ChunkProofs RingProofs RingProofs2 RingProofs3.

(** ** One call *)
Section core.
Context {A : Type} (e : env A).
Notation bombs := (List.existsb (bomb e)).
Lemma own_core {C S} (init : C) (destroy destroy0 : M A C unit) (kl kl0 : M A S unit) (m m0 : M A (C * (S * log A)) unit)
    y g (p : bool) c y' gs g' ds rest d :
  brisk e destroy destroy0 -> brisk e kl kl0 -> tamed e g (m (init, (y, log0)) g) (m0 (init, (y, log0)) g) ->
  m0 (init, (y, log0)) g = (if p then Panic (c, (y', gs)) g' else Ret (c, (y', gs)) g' tt) ->
  dropped g' = dropped g ++ ds -> leaked g' = leaked g -> dropped gs = [] -> leaked gs = [] ->
  (forall g, exists y2, kl0 y' g = Ret y2 (log_drop rest g) tt) ->
  (forall g, exists c2, destroy0 c g = Ret c2 (log_drop d g) tt) ->
  (p = false -> ds = [] /\ rest = []) ->
  let X := with_local init destroy (owning kl m) (y, log0) g in
  if p then
    if bombs (ds ++ rest ++ d) then X = Abort
    else exists y2 g2, X = Panic (y2, log0) g2 /\ dropped g2 = dropped g ++ ds ++ rest ++ d /\ leaked g2 = leaked g
  else exists y2 g2, X = Ret (y2, log0) g2 (c, tt) /\ dropped g2 = dropped g /\ leaked g2 = leaked g.
Proof.
  intros Bd Bk Ht E0 D L Dg Lg Hk Hd Hp X. subst X. unfold with_local, owning. rewrite E0 in Ht.
  destruct (Hk (log_join g' gs)) as (y2 & Ek). pose proof (Bk y' (log_join g' gs)) as Kb. rewrite Ek in Kb.
  destruct Kb as (d2 & D2 & Kb). cbn [dropped log_drop] in D2. apply app_inv_head in D2. subst d2. rewrite <- Ek in Kb.
  destruct p; cbn [tamed] in Ht; destruct Ht as (d1 & D1 & E1); rewrite D in D1; apply app_inv_head in D1; subst d1; rewrite E1.
  - rewrite !existsb_app. destruct (bombs ds); [reflexivity|]. cbn [orb].
    destruct (bombs rest).
    { destruct Kb as [-> | (o3 & g3 & ->)]; reflexivity. }
    rewrite Kb, Ek. cbn [orb fst snd].
    destruct (Hd (log_drop rest (log_join g' gs))) as (c2 & Ed).
    pose proof (Bd c (log_drop rest (log_join g' gs))) as Kd. rewrite Ed in Kd.
    destruct Kd as (d3 & D3 & Kd). cbn [dropped log_drop] in D3. apply app_inv_head in D3. subst d3. rewrite <- Ed in Kd.
    destruct (bombs d).
    { destruct Kd as [-> | (o3 & g3 & ->)]; reflexivity. }
    rewrite Kd, Ed. eexists _, _. split; [reflexivity|]. cbn [dropped leaked log_drop log_join].
    rewrite D, L, Dg, Lg, !app_nil_r, <- !app_assoc. auto.
  - destruct (Hp eq_refl) as [-> ->]. cbn in Kb |- *. rewrite Kb, Ek. cbn [fst snd]. eexists _, _. split; [reflexivity|].
    cbn [dropped leaked log_drop log_join]. rewrite D, L, Dg, Lg, !app_nil_r. auto.
Qed.
End core.

(** ** Dropping a container of any kind *)
Section mix.
Context {A : Type} (e : env A).
Notation e0 := (calmed e).
Notation obj := (mobj e).
Notation st := (mst e).
Notation MHolds := (MHolds e).
Notation Holds := ChunkProofs.Holds.
Notation RHolds := RingProofs.RHolds.
Definition m_kill_in (e' : env A) : M A obj unit := fun x g =>
  match x with
  | OfChunk k c => as_kind e (OfChunk k) (destroy e' (`k)) c g
  | OfRing k c => as_kind e (OfRing k) (rb_destroy e' (`k)) c g
  | OfSparse k c => as_kind e (OfSparse k) (sp_destroy e' (`k)) c g
  | OfInline k c => as_kind e (OfInline k) (in_place (`k) (ia_destroy e' (`k))) c g
  end.
Lemma m_kill_eq : m_kill e = m_kill_in e.
Proof. reflexivity. Qed.
Lemma brisk_kind {O R} (f : O -> obj) (m m0 : M A O R) c g : brisk e m m0 ->
  match as_kind e f m0 c g with
  | Ret _ g' _ | Panic _ g' => exists d, dropped g' = dropped g ++ d /\
      (if List.existsb (bomb e) d then as_kind e f m c g = Abort \/ (exists o2 g2, as_kind e f m c g = Panic o2 g2)
       else as_kind e f m c g = as_kind e f m0 c g)
  | _ => as_kind e f m c g = as_kind e f m0 c g \/ as_kind e f m c g = Abort \/ (exists o2 g2, as_kind e f m c g = Panic o2 g2)
  end.
Proof.
  intros Hb. specialize (Hb c g). unfold as_kind. destruct (m0 c g) as [c' g' r|c' g'|u| |].
  1-2: destruct Hb as (d & D & Hb); exists d; split; [exact D|]; destruct (existsb (bomb e) d);
    [destruct Hb as [-> | (o2 & g2 & ->)]; eauto|rewrite Hb; reflexivity].
  all: destruct Hb as [-> | [-> | (o2 & g2 & ->)]]; eauto.
Qed.
Lemma brisk_in_place L (m m0 : nat -> M A (inline A) unit) : (forall b, brisk e (m b) (m0 b)) ->
  brisk e (in_place L m) (in_place L m0).
Proof.
  intros Hb [q c] g. specialize (Hb (address L q) c g). unfold in_place, on_snd. cbn [fst snd]. destruct (m0 (address L q) c g) as [c' g' r|c' g'|u| |].
  1-2: destruct Hb as (d & D & Hb); exists d; split; [exact D|]; destruct (existsb (bomb e) d);
    [destruct Hb as [-> | (o2 & g2 & ->)]; eauto|rewrite Hb; reflexivity].
  all: destruct Hb as [-> | [-> | (o2 & g2 & ->)]]; eauto.
Qed.
Lemma brisk_m_kill : brisk e (m_kill_in e) (m_kill_in e0).
Proof.
  intros [k c|k c|k c|k c] g; cbn [m_kill_in].
  - apply brisk_kind, brisk_destroy.
  - apply brisk_kind, brisk_rb_destroy.
  - apply brisk_kind, brisk_sp_destroy.
  - apply brisk_kind, brisk_in_place. intros b. apply brisk_ia_destroy.
Qed.
Lemma m_kill_calm y (s : st) g : MHolds y s -> exists y2, m_kill_in e0 y g = Ret y2 (log_drop (m_items e s) g) tt.
Proof.
  pose proof (calmed_calm e) as Hc.
  destruct y as [k c|k c|k c|k c], s as [k2 l|k2 l|k2 l|k2 l]; cbn [MixProofs.MHolds]; try contradiction; intros [<- H]; cbn [m_kill_in m_items];
    unfold as_kind.
  - destruct (ChunkProofs.destroy_ret e0 (`k) (proj2_sig k) Hc c l g H) as (c' & E). rewrite E. eauto.
  - destruct (RingProofs2.rb_destroy_ret e0 (`k) (proj1 (proj2_sig k)) (proj2 (proj2_sig k)) Hc c l g H) as (c' & E). rewrite E. eauto.
  - destruct (sp_destroy_eq e0 (`k) c l g Hc H) as (c' & E). rewrite E. eauto.
  - destruct (destroy_ok e0 (`k) (wf_calmed e k) (proj2 (proj2_sig k)) Hc (address (`k) (fst c)) (snd c) l g (address_placed (`k) (fst c)) H)
      as (c' & E).
    unfold in_place, on_snd. rewrite E. eauto.
Qed.

(** ** Collecting *)
Lemma queue_nil sd (s : st) : queue e sd s = [] -> m_items e s = [].
Proof. destruct sd; cbn; [auto|]. intros E. rewrite <- (rev_involutive (m_items e s)), E. reflexivity. Qed.
Section into.
Context (empty : st -> st).
Lemma into_list {C} (H : C -> list A -> Prop) init destroy destroy0 f m (m0 : nat -> M A (C * (obj * log A)) unit) sd t y s g :
  MHolds y s -> iterates e sd s -> brisk e destroy destroy0 -> tame e m (m0 (m_fuel e y)) ->
  (forall o d g, H o d -> exists o', destroy0 o g = Ret o' (log_drop d g) tt) -> H init [] ->
  extends H (target_cap e t) (feeding e sd s) m0 -> (forall c d, H c d -> MHolds (f c) (fresh e t d)) ->
  agreesb (fun _ _ => True) MHolds g (made_from e f (with_local init destroy (owning (m_kill e) m)) y g)
    (with_bombs e (mix_into e empty sd t s)).
Proof.
  intros Hy Hi Hb Hm Hd H0 HE Hf. set (l := queue e sd s). set (K := target_cap e t) in *.
  destruct (HE (m_fuel e y) init [] y l log0 g H0 (feeding_0 e sd s y Hy) (m_fuel_enough e sd y s Hy))
    as (c & y' & gs & g' & E0 & Hc & Hy' & D & L & Dg & Lg).
  cbn [length app] in E0, Hc, Hy', D. rewrite Nat.sub_0_r in E0, Hc, Hy', D.
  assert (HR : exists s', MHolds y' s' /\ (if K <? length l then s' = after e sd (S K) s else m_items e s' = [])).
  { destruct (K <? length l) eqn:El.
    - exists (after e sd (S K) s). split; [|reflexivity]. apply feeding_at; [exact Hy'|]. fold l. lia.
    - exists (after e sd (length l) s). split.
      + apply feeding_at; [|fold l; lia]. fold l. rewrite (drop_ge l (length l)) by lia. rewrite drop_ge in Hy' by lia. exact Hy'.
      + apply (queue_nil sd). rewrite queue_after by exact Hi. apply drop_ge. fold l. lia. }
  destruct HR as (s' & Hs' & Hr). rewrite m_kill_eq.
  pose proof (own_core e init destroy destroy0 (m_kill_in e) (m_kill_in e0) m (m0 (m_fuel e y)) y g (K <? length l) c y' gs g'
    (take 1 (drop K l)) (m_items e s') (take K l) Hb brisk_m_kill (Hm _ _) E0 D L Dg Lg
    (fun g => m_kill_calm y' s' g Hs') (fun g => Hd c _ g Hc)) as P.
  cbv zeta in P. unfold mix_into, made_from. fold l K.
  destruct (length l <=? K) eqn:El.
  - replace (K <? length l) with false in * by lia.
    destruct P as (y2 & g2 & -> & D2 & L2); [intros _; split; [rewrite drop_ge by lia; reflexivity|exact Hr]|].
    cbn. eexists _, _, _. split; [reflexivity|]. split; [exact I|]. cbn [dropped leaked log_join log0]. rewrite D2, L2, !app_nil_r.
    split; [|auto]. apply Hf. rewrite take_ge in Hc by lia. exact Hc.
  - replace (K <? length l) with true in * by lia. subst s'. specialize (P ltac:(discriminate)).
    cbn [with_bombs]. destruct (existsb (bomb e) (take 1 (drop K l) ++ m_items e (after e sd (S K) s) ++ take K l)).
    + rewrite P. reflexivity.
    + destruct P as (y2 & g2 & -> & D2 & L2). eexists _, _, []. split; [reflexivity|]. split; [exact I|].
      cbn [dropped leaked log_join log0]. rewrite D2, L2, !app_nil_r. auto.
Qed.
Lemma m_into_bombs sd t y s g : MHolds y s -> iterates e sd s ->
  agreesb (fun _ _ => True) MHolds g (m_into e sd t y g) (with_bombs e (mix_into e empty sd t s)).
Proof.
  intros Hy Hi. pose proof (m_feeds e sd s Hi) as Hf. pose proof (calmed_calm e) as Hc. destruct t as [k|k|k q]; unfold m_into.
  - apply (into_list (Holds (`k)) ChunkModel.new _ (destroy e0 (`k)) (OfChunk k) _
      (extend_live (m_next e sd) (push_back e0 (`k))) sd (ToChunk k)); try assumption.
    + apply brisk_destroy.
    + apply tame_extend_live. intros a. apply tame_push_back.
    + intros. eapply ChunkProofs.destroy_ret; eauto. exact (proj2_sig k).
    + exact (ChunkProofs.new_holds e0 (`k) (proj2_sig k)).
    + eapply (chunk_extends e0); eauto. exact (proj2_sig k).
    + intros. apply holds_chunk. assumption.
  - unfold made_from. erewrite bind_Ret by (apply RingProofs3.rb_new_eq; first [exact (proj1 (proj2_sig k))|exact (proj2 (proj2_sig k))]).
    apply (into_list (RHolds (`k)) ring0 _ (rb_destroy e0 (`k)) (OfRing k) _
      (extend_live (m_next e sd) (rb_push_back e0 (`k))) sd (ToRing k)); try assumption.
    + apply brisk_rb_destroy.
    + apply tame_extend_live. intros a. apply tame_rb_push_back.
    + intros. eapply RingProofs2.rb_destroy_ret; eauto; [exact (proj1 (proj2_sig k))|exact (proj2 (proj2_sig k))].
    + apply RingProofs.ring0_holds. exact (proj2 (proj2_sig k)).
    + eapply (ring_extends e0); eauto; [exact (proj1 (proj2_sig k))|exact (proj2 (proj2_sig k))].
    + intros. apply holds_ring. assumption.
  - pose proof (proj1 (proj2_sig k)) as WF. pose proof (proj2 (proj2_sig k)) as HO. cbn in WF, HO.
    destruct (new_ok e (`k) WF HO (address (`k) q) tt g (address_placed (`k) q)) as (c & E & H).
    unfold made_from. cbv zeta. erewrite bind_Ret by (rewrite E; reflexivity).
    apply (into_list (IHolds e (`k)) c _ (ia_destroy e0 (`k) (address (`k) q)) (fun c => OfInline k (q, c)) _
      (extend_live (m_next e sd) (ia_push e0 (`k) (address (`k) q))) sd (ToInline k q)); try assumption.
    + apply brisk_ia_destroy.
    + apply tame_extend_live. intros a. apply tame_ia_push.
    + intros o d g0 Ho. exact (destroy_ok e0 (`k) (wf_calmed e k) HO Hc (address (`k) q) o d g0 (address_placed (`k) q) Ho).
    + apply (inline_extends e0 (feeding e sd s) (m_next e sd) (m_hint e)); eauto; [apply wf_calmed|apply address_placed].
    + intros. apply holds_inline. assumption.
Qed.

Lemma m_into_sparse_bombs sd k y s g : MHolds y s -> iterates e sd s ->
  agreesb (fun _ _ => True) MHolds g (m_into_sparse e sd k y g) (with_bombs e (mix_into_sparse e empty sd k s)).
Proof.
  intros Hy Hi. pose proof (calmed_calm e) as Hc. pose proof (m_feeds e sd s Hi) as Hf.
  set (l := queue e sd s). pose proof (fuel_fits e y) as Hw.
  pose proof (m_fuel_enough e sd y s Hy) as Hl. fold l in Hl.
  destruct (sp_fill_live_ok e0 (`k) _ _ _ Hc (map_some_feeds e _ _ _ Hf) (map Some l) (m_fuel e y) 0 [] sparse0 y log0 g)
    as [IA IB]; [reflexivity|rewrite Nat.sub_0_r; apply sparse0_holds|exists l; split; [reflexivity|apply feeding_0; exact Hy]
    |rewrite map_length; lia|rewrite map_length; change (word e0) with (word e); lia|].
  rewrite Nat.sub_0_r in IA, IB. cbn [app] in IA, IB.
  assert (Ht : tamed e g (sp_fill_live e (`k) (map_some e (m_next e sd)) (m_fuel e y) 0 (sparse0, (y, log0)) g)
                         (sp_fill_live e0 (`k) (map_some e (m_next e sd)) (m_fuel e y) 0 (sparse0, (y, log0)) g)).
  { eapply sp_fill_live_tamed; [apply sparse0_holds| |lia]. intros j _ Hj. apply lookup_replicate. auto. }
  unfold m_into_sparse, made_from, sp_new. rewrite bind_ret. rewrite m_kill_eq. unfold mix_into_sparse. fold l.
  rewrite skipn_map, firstn_map in *.
  destruct (length l <=? `k) eqn:El.
  - rewrite (drop_ge l) in IA by lia. rewrite (take_ge l) in IA by lia. clear IB. rewrite map_length in IA.
    destruct (IA eq_refl) as (c & y' & gs & g' & E0 & Hcc & (l' & El' & Hy') & (D & L) & (Dg & Lg)).
    assert (l' = []) as -> by (destruct l'; [reflexivity|discriminate]).
    assert (Hs' : MHolds y' (after e sd (length l) s)) by (apply feeding_at; [fold l; rewrite drop_ge by lia; exact Hy'|fold l; lia]).
    assert (Hr : m_items e (after e sd (length l) s) = []) by (apply (queue_nil sd); rewrite queue_after by exact Hi; apply drop_ge; fold l; lia).
    pose proof (own_core e sparse0 _ _ (m_kill_in e) (m_kill_in e0) _ _ y g false c y' gs g' [] [] _
      (brisk_sp_destroy e (`k)) brisk_m_kill Ht E0 ltac:(rewrite D; symmetry; apply app_nil_r) L Dg Lg
      ltac:(intros g1; destruct (m_kill_calm y' _ g1 Hs') as (y2 & E2); rewrite Hr in E2; eauto)
      (fun g => sp_destroy_eq e0 (`k) c _ g Hc Hcc) (fun _ => conj eq_refl eq_refl)) as P.
    cbv zeta in P. destruct P as (y2 & g2 & -> & D2 & L2).
    cbn. eexists _, _, _. split; [reflexivity|]. split; [exact I|]. cbn [dropped leaked log_join log0]. rewrite D2, L2, !app_nil_r.
    split; [|auto]. apply holds_sparse. exact Hcc.
  - clear IA. destruct (drop (`k) l) as [|v l2] eqn:Ed; [apply (f_equal length) in Ed; rewrite drop_length in Ed; cbn in Ed; lia|].
    destruct (IB [] v (map Some l2) eq_refl eq_refl) as (c & y' & gs & g' & E0 & Hcc & (l' & El' & Hy') & D & L & (Dg & Lg)).
    assert (l' = l2) as -> by (apply (f_equal values) in El'; rewrite !values_map_some in El'; auto).
    assert (Hs' : MHolds y' (after e sd (S (`k)) s)).
    { apply feeding_at; [|fold l; lia]. fold l. replace (S (`k)) with (`k + 1) by lia. rewrite <- drop_drop, Ed. exact Hy'. }
    pose proof (own_core e sparse0 _ _ (m_kill_in e) (m_kill_in e0) _ _ y g true c y' gs g' [v] (m_items e (after e sd (S (`k)) s)) (take (`k) l)
      (brisk_sp_destroy e (`k)) brisk_m_kill Ht E0 D L Dg Lg (fun g => m_kill_calm y' _ g Hs')
      ltac:(intros g1; destruct (sp_destroy_eq e0 (`k) c _ g1 Hc Hcc) as (c2 & E2); rewrite values_map_some in E2; eauto)
      ltac:(discriminate)) as P.
    cbv zeta in P. cbn [with_bombs]. change (take 1 (v :: l2)) with [v].
    destruct (existsb (bomb e) ([v] ++ m_items e (after e sd (S (`k)) s) ++ take (`k) l)).
    + rewrite P. reflexivity.
    + destruct P as (y2 & g2 & -> & D2 & L2). eexists _, _, []. split; [reflexivity|]. split; [exact I|].
      cbn [dropped leaked log_join log0]. rewrite D2, L2, !app_nil_r. auto.
Qed.
Lemma brisk_on_fst {O P} (m m0 : M A O unit) : brisk e m m0 -> brisk e (@on_fst A O P unit m) (on_fst m0).
Proof.
  intros Hb [q c] g. specialize (Hb q g). unfold on_fst. cbn [fst snd]. destruct (m0 q g) as [c' g' r|c' g'|u| |].
  1-2: destruct Hb as (d & D & Hb); exists d; split; [exact D|]; destruct (existsb (bomb e) d);
    [destruct Hb as [-> | (o2 & g2 & ->)]; eauto|rewrite Hb; reflexivity].
  all: destruct Hb as [-> | [-> | (o2 & g2 & ->)]]; eauto.
Qed.
Lemma m_into_cells_bombs k y s g : MHolds y s -> match s with OfSparse _ _ => True | _ => False end ->
  agreesb (fun _ _ => True) MHolds g (m_into_cells e k y g) (with_bombs e (mix_into_cells e empty k s)).
Proof.
  intros Hy Hk. destruct y as [k2 c|k2 c|k2 c|k2 c], s as [k3 s|k3 s|k3 s|k3 s]; cbn in Hy, Hk; try contradiction. destruct Hy as [<- Hy].
  pose proof (calmed_calm e) as Hc. pose proof (proj2_sig k2) as HW. cbn in HW. assert (EN : length s = `k2) by apply Hy.
  destruct (sp_fill_live_ok e0 (`k) _ _ _ Hc (option_drain_feeds e0 (`k2) HW) s (S (`k2)) 0 [] sparse0 (c, 0) log0 g)
    as [IA IB]; [reflexivity|rewrite Nat.sub_0_r; apply sparse0_holds|
    exists s; cbn [fst snd]; rewrite drop_0; repeat split; auto; [lia|apply Hy|apply Hy]|lia|change (word e0) with (word e); lia|].
  rewrite Nat.sub_0_r in IA, IB. cbn [app] in IA, IB.
  assert (Ht : tamed e g (sp_fill_live e (`k) (od_next e (`k2)) (S (`k2)) 0 (sparse0, ((c, 0), log0)) g)
                         (sp_fill_live e0 (`k) (od_next e (`k2)) (S (`k2)) 0 (sparse0, ((c, 0), log0)) g)).
  { eapply sp_fill_live_tamed; [apply sparse0_holds| |lia]. intros j _ Hj. apply lookup_replicate. auto. }
  assert (Hb : brisk e (on_fst (sp_destroy (A := A) e (`k2))) (@on_fst A (sparse A) nat unit (sp_destroy e0 (`k2)))) by apply brisk_on_fst, brisk_sp_destroy.
  assert (Hd : forall (o : sparse A * nat) s', SHolds (`k2) (fst o) s' -> forall g,
    exists o2, on_fst (sp_destroy e0 (`k2)) o g = Ret o2 (log_drop (values s') g) tt).
  { intros [c1 n1] s' Hs' g1. destruct (sp_destroy_eq e0 (`k2) c1 s' g1 Hc Hs') as (c2 & E). unfold on_fst. cbn [fst snd]. rewrite E. eauto. }
  unfold m_into_cells, sp_new. rewrite bind_ret. unfold mix_into_cells.
  pose proof (entries_first (drop (`k) s) 0) as P. fold (entries (drop (`k) s)) in P.
  destruct (entries (drop (`k) s)) as [|[j v] es].
  - rewrite P. destruct (IA P) as (new & [c' n] & gs & g' & E0 & Hcc & (s' & EN' & Hn & Ed & Hc') & (D & L) & (Dg & Lg)).
    cbn [fst snd] in *. rewrite <- Ed, app_nil_r in Hc'.
    pose proof (own_core e sparse0 _ _ _ _ _ _ (c, 0) g false new (c', n) gs g' [] [] _
      (brisk_sp_destroy e (`k)) Hb Ht E0 ltac:(rewrite D; symmetry; apply app_nil_r) L Dg Lg
      ltac:(intros g1; destruct (Hd (c', n) _ Hc' g1) as (y2 & E2); rewrite values_no_cells in E2; eauto)
      (fun g => sp_destroy_eq e0 (`k) new _ g Hc Hcc) (fun _ => conj eq_refl eq_refl)) as Q.
    cbv zeta in Q. destruct Q as ([c2 n2] & g2 & -> & D2 & L2).
    cbn. eexists _, _, _. split; [reflexivity|]. split; [exact I|]. cbn [dropped leaked log_join log0]. rewrite D2, L2, !app_nil_r.
    split; [|auto]. apply holds_sparse. rewrite take_padded. exact Hcc.
  - destruct P as [_ Ed0]. rewrite Nat.sub_0_r in Ed0.
    destruct (IB (no_cells j) v (drop (S j) (drop (`k) s)) Ed0 (values_no_cells j))
      as (new & [c' n] & gs & g' & E0 & Hcc & (s' & EN' & Hn & Ed & Hc') & D & L & (Dg & Lg)).
    cbn [fst snd] in *. rewrite <- Ed in Hc'.
    assert (Ev : values (drop (`k) s) = v :: values (drop (S j) (drop (`k) s))).
    { rewrite Ed0 at 1. rewrite values_app, values_no_cells, values_cons. reflexivity. }
    rewrite Ev.
    pose proof (own_core e sparse0 _ _ _ _ _ _ (c, 0) g true new (c', n) gs g' [v] (values (drop (S j) (drop (`k) s))) (values (take (`k) s))
      (brisk_sp_destroy e (`k)) Hb Ht E0 D L Dg Lg
      ltac:(intros g1; destruct (Hd (c', n) _ Hc' g1) as (y2 & E2); rewrite values_app, values_no_cells in E2; eauto)
      (fun g => sp_destroy_eq e0 (`k) new _ g Hc Hcc) ltac:(discriminate)) as Q.
    cbv zeta in Q. cbn [with_bombs].
    change ((v :: values (drop (S j) (drop (`k) s))) ++ values (take (`k) s)) with ([v] ++ values (drop (S j) (drop (`k) s)) ++ values (take (`k) s)).
    destruct (existsb (bomb e) ([v] ++ values (drop (S j) (drop (`k) s)) ++ values (take (`k) s))).
    + rewrite Q. reflexivity.
    + destruct Q as ([c2 n2] & g2 & -> & D2 & L2). eexists _, _, []. split; [reflexivity|]. split; [exact I|].
      cbn [dropped leaked log_join log0]. rewrite D2, L2, !app_nil_r. auto.
Qed.
End into.
End mix.
