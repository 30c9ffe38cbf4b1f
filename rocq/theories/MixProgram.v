(** * Programs that use several kinds of container at once: the code does what MixSpec.v says, and conserves values. *)
From Verif Require Import Machine Spec Prims Program ChunkModel ChunkProofs RingModel RingProofs RingProofs4 SparseModel SparseSpec
  SparseProofs InlineModel InlineSpec InlineProofs InlineProofs2 InlineProofs3 LiveModel LiveSpec LiveLaws LiveSparseModel LiveSparse
  IterSpec SpecProps ChunkProgram RingProgram SparseProgram InlineProgram MixModel MixSpec MixProofs.

Section mix.
Context {A : Type} (e : env A).
Hypothesis Hcalm : calm e.
Notation obj := (mobj e).
Notation st := (mst e).
Notation MHolds := (MHolds e).

Lemma as_kind_agrees {O S R R2} (f : O -> obj) (f2 : S -> st) (H : O -> S -> Prop) (RR : R -> R2 -> Prop) (m : M A O R) c g s :
  (forall c l, H c l -> MHolds (f c) (f2 l)) ->
  agrees H RR g (m c g) s -> agrees MHolds RR g (as_kind e f m c g) (sas_kind e f2 s).
Proof.
  intros Hf. unfold as_kind. destruct s as [s r d|s d k]; cbn.
  - intros (o & g' & r' & E & Ho & Hr & D & L). rewrite E. eexists _, _, _. split; [reflexivity|]. auto.
  - intros (o & g' & k' & E & Ho & D & L & P). rewrite E. eexists _, _, k'. split; [reflexivity|]. auto.
Qed.
Lemma as_kind2_agrees {O S R R2} (f f' : O -> obj) (f2 f2' : S -> st) (H : O -> S -> Prop) (RR : R -> R2 -> Prop)
    (m : M A (O * O) R) x y g s :
  (forall c l, H c l -> MHolds (f c) (f2 l)) -> (forall c l, H c l -> MHolds (f' c) (f2' l)) ->
  agrees (both H H) RR g (m (x, y) g) s -> agrees (both MHolds MHolds) RR g (as_kind2 e f f' m x y g) (sas_kind2 e f2 f2' s).
Proof.
  intros Hf Hf2. unfold as_kind2. destruct s as [[s1 s2] r d|[s1 s2] d k]; cbn.
  - intros ([o1 o2] & g' & r' & E & [H1 H2] & Hr & D & L). rewrite E. eexists _, _, _. split; [reflexivity|]. repeat split; cbn in *; auto.
  - intros ([o1 o2] & g' & k' & E & [H1 H2] & D & L & P). rewrite E. eexists _, _, k'. split; [reflexivity|]. repeat split; cbn in *; auto.
Qed.

Lemma consuming_agrees {O} (H : O -> list A -> Prop) sd y0 f m x y g p d l ds X Y :
  ends H (feeding e sd y0) log0 g p (m (x, (y, log0)) g) d l ds ->
  (forall o, H o d -> MHolds (f o) X) -> (forall z, feeding e sd y0 z l -> MHolds z Y) ->
  agrees (both MHolds MHolds) eq g (consuming e f m x y g) (if p then SPanic (X, Y) ds [] else SRet (X, Y) tt ds).
Proof.
  intros (o & s & gs & g' & E & Ho & Hs & D & L & Ds & Ls) HX HY. unfold consuming. rewrite E.
  destruct p; cbn.
  - eexists _, _, []. split; [reflexivity|]. repeat split; cbn; auto.
    + rewrite Ds, app_nil_r. exact D.
    + rewrite Ls, L. reflexivity.
  - eexists _, _, tt. split; [reflexivity|]. repeat split; cbn; auto.
    + rewrite Ds, app_nil_r. exact D.
    + rewrite Ls, app_nil_r. exact L.
Qed.
Lemma made_from_agrees {C} (H : C -> list A -> Prop) sd y0 f m y g made l ds X Y :
  makes H (feeding e sd y0) log0 g (m (y, log0) g) made l ds ->
  (forall z, feeding e sd y0 z l -> MHolds z Y) -> (forall c d, made = Some d -> H c d -> MHolds (f c) (X d)) ->
  agrees MHolds MHolds g (made_from e f m y g) (match made with Some d => SRet Y (X d) ds | None => SPanic Y ds [] end).
Proof.
  intros (s & gs & g' & Hs & D & L & Ds & Ls & E) HY HX. unfold made_from. destruct made as [d|].
  - destruct E as (c & E & Hc). rewrite E. eexists _, _, _. split; [reflexivity|]. repeat split; cbn; auto.
    + rewrite Ds, app_nil_r. exact D.
    + rewrite Ls, app_nil_r. exact L.
  - rewrite E. eexists _, _, []. split; [reflexivity|]. repeat split; cbn; auto.
    + rewrite Ds, app_nil_r. exact D.
    + rewrite Ls, L. reflexivity.
Qed.

Lemma extend_agrees {O} (H : O -> list A -> Prop) N sd f extend x y d (s1 s2 : st) g :
  iterates e sd s2 -> MHolds y s2 -> H x d -> m_items e s1 = d -> m_cap e s1 = N ->
  extends H N (feeding e sd s2) extend -> (forall o d, H o d -> MHolds (f o) (with_items e s1 d)) ->
  agrees (both MHolds MHolds) eq g (consuming e f (extend (m_fuel e y)) x y g) (mix_extend e sd s1 s2).
Proof.
  intros Hi Hy Hx Ed En He Hf. unfold mix_extend. rewrite Ed, En.
  pose proof (He (m_fuel e y) x d y _ log0 g Hx (feeding_0 e sd s2 y Hy) (m_fuel_enough e sd y s2 Hy)) as P. cbv zeta in P.
  set (l := queue e sd s2) in *. set (room := N - length d) in *.
  destruct (length l <=? room) eqn:El.
  - replace (room <? length l) with false in P by lia.
    rewrite (take_ge l), (drop_ge l room), (drop_ge l (1 + room)) in P by lia.
    eapply (consuming_agrees H sd s2 f _ x y g false _ _ [] (with_items e s1 (d ++ l)) (after e sd (length l) s2)); [exact P| |].
    + intros o Ho. apply Hf. exact Ho.
    + intros z Hz. apply feeding_at; [|reflexivity]. fold l. rewrite drop_ge by lia. exact Hz.
  - replace (room <? length l) with true in P by lia.
    eapply (consuming_agrees H sd s2 f _ x y g true); [exact P| |].
    + intros o Ho. apply Hf. exact Ho.
    + intros z Hz. apply feeding_at; [exact Hz|]. fold l. lia.
Qed.
Lemma insert_from_agrees {O} (H : O -> list A -> Prop) N sd i f insert x y d (s1 s2 : st) g :
  iterates e sd s2 -> MHolds y s2 -> H x d -> m_items e s1 = d -> m_cap e s1 = N ->
  length d + length (m_items e s2) < word e -> s1 = with_items e s1 d ->
  inserts_from H N (word e) (feeding e sd s2) insert -> (forall o d, H o d -> MHolds (f o) (with_items e s1 d)) ->
  agrees (both MHolds MHolds) eq g (consuming e f (insert (m_fuel e y) i) x y g) (mix_insert_from e sd i s1 s2).
Proof.
  intros Hi Hy Hx Ed En Hw Es He Hf. unfold mix_insert_from. rewrite Ed, En.
  assert (Hw2 : length d + length (queue e sd s2) < word e) by (rewrite queue_length; exact Hw).
  pose proof (He (m_fuel e y) x d y _ log0 g i Hx (feeding_0 e sd s2 y Hy) Hw2 (m_fuel_enough e sd y s2 Hy)) as P. cbv zeta in P.
  set (l := queue e sd s2) in *.
  destruct ((length d + length l <=? N) && (i <=? length d)) eqn:El; cbn [negb] in P.
  - eapply (consuming_agrees H sd s2 f _ x y g false); [exact P| |].
    + intros o Ho. apply Hf. exact Ho.
    + intros z Hz. apply feeding_at; [|reflexivity]. fold l. rewrite drop_ge by lia. exact Hz.
  - eapply (consuming_agrees H sd s2 f _ x y g true); [exact P| |].
    + intros o Ho. rewrite Es. apply Hf. exact Ho.
    + intros z Hz. rewrite <- (after_0 e sd s2). apply feeding_at; [|lia]. rewrite drop_0. exact Hz.
Qed.
Lemma collect_agrees {C} (H : C -> list A -> Prop) sd t f collect y (s2 : st) g :
  iterates e sd s2 -> MHolds y s2 -> collects H (target_cap e t) (feeding e sd s2) collect ->
  (forall c d, H c d -> MHolds (f c) (fresh e t d)) ->
  agrees MHolds MHolds g (made_from e f (collect (m_fuel e y)) y g) (mix_collect e sd t s2).
Proof.
  intros Hi Hy Hc Hf. unfold mix_collect.
  pose proof (Hc (m_fuel e y) y _ log0 g (feeding_0 e sd s2 y Hy) (m_fuel_enough e sd y s2 Hy)) as P.
  set (l := queue e sd s2) in *. set (N := target_cap e t) in *.
  destruct (length l <=? N) eqn:El.
  - eapply (made_from_agrees H sd s2 f _ y g (Some l) _ _ (fresh e t)); [exact P| |].
    + intros z Hz. apply feeding_at; [|reflexivity]. fold l. rewrite drop_ge in Hz |- * by lia. exact Hz.
    + intros c d _ Hd. apply Hf. exact Hd.
  - eapply (made_from_agrees H sd s2 f _ y g None _ _ (fresh e t)); [exact P| |discriminate].
    intros z Hz. apply feeding_at; [exact Hz|]. fold l. lia.
Qed.
Lemma collect_from_agrees {C} (H : C -> list A -> Prop) sd t f collect n y (s2 : st) g :
  iterates e sd s2 -> MHolds y s2 -> collects_from H (target_cap e t) (feeding e sd s2) collect ->
  (forall c d, H c d -> MHolds (f c) (fresh e t d)) ->
  agrees MHolds MHolds g (made_from e f (collect n) y g) (mix_collect_from e sd t n s2).
Proof.
  intros Hi Hy Hc Hf. unfold mix_collect_from.
  pose proof (Hc n y _ log0 g (feeding_0 e sd s2 y Hy)) as P. cbv zeta in P.
  set (l := queue e sd s2) in *. set (N := target_cap e t) in *.
  assert (Hd : drop (n `min` (1 + N)) l = drop (n `min` S N `min` length l) l).
  { destruct (decide (n `min` S N <= length l)); [f_equal; lia|]. rewrite !drop_ge by lia. reflexivity. }
  rewrite Hd in P.
  destruct ((n <=? length l) && (n <=? N)) eqn:El.
  - eapply (made_from_agrees H sd s2 f _ y g (Some (take n l)) _ _ (fresh e t)); [exact P| |].
    + intros z Hz. apply feeding_at; [|fold l; lia]. fold l. replace n with (n `min` S N `min` length l) at 1 by lia. exact Hz.
    + intros c d _ Hd2. apply Hf. exact Hd2.
  - eapply (made_from_agrees H sd s2 f _ y g None _ _ (fresh e t)); [exact P| |discriminate].
    intros z Hz. apply feeding_at; [exact Hz|]. fold l. lia.
Qed.

Lemma in_place_extends L F (next : M A obj (option A)) :
  wf_layout e L -> host_ok e L ->
  (forall b, placed L b -> extends (IHolds e L) (capacity e L) F (extend_live next (ia_push e L b))) ->
  extends (LHolds e L) (capacity e L) F (fun fuel => in_place_with L (fun b => extend_live next (ia_push e L b) fuel)).
Proof.
  intros WF HO HE fuel [q c] d s l gs g Hc Hs Hl room.
  destruct (HE (address L q) (address_placed L q) fuel c d s l gs g Hc Hs Hl) as (o & s' & gs' & g' & E & Ho & R).
  exists (q, o), s', gs', g'. split; [|split; [exact Ho|exact R]].
  unfold in_place_with. cbn [fst snd]. rewrite E. fold room. destruct (room <? length l); reflexivity.
Qed.

Lemma holds_chunk (k : ccap e) c l : Holds (`k) c l -> MHolds (OfChunk k c) (OfChunk k l). Proof. split; auto. Qed.
Lemma holds_ring (k : rcap e) c l : RHolds (`k) c l -> MHolds (OfRing k c) (OfRing k l). Proof. split; auto. Qed.
Lemma holds_sparse (k : scap e) c l : SHolds (`k) c l -> MHolds (OfSparse k c) (OfSparse k l). Proof. split; auto. Qed.
Lemma holds_inline (k : ilay e) c l : LHolds e (`k) c l -> MHolds (OfInline k c) (OfInline k l). Proof. split; auto. Qed.

Lemma chunk_ref (k : ccap e) : refines (chunk_kit e (`k)) (chunk_spec e (`k)) (Holds (`k)).
Proof. apply chunk_refines; [exact (proj2_sig k)|exact Hcalm]. Qed.
Lemma ring_ref (k : rcap e) : refines (ring_kit e (`k)) (ring_spec e (`k)) (RHolds (`k)).
Proof. apply ring_refines; [exact (proj1 (proj2_sig k))|exact (proj2 (proj2_sig k))|exact Hcalm]. Qed.
Lemma sparse_ref (k : scap e) : refines (sparse_kit e (`k)) (array_spec (`k)) (SHolds (`k)).
Proof. apply sparse_refines; [exact Hcalm|exact (proj2_sig k)]. Qed.
Lemma inline_ref (k : ilay e) : refines (ia_kit e (`k)) (ia_spec (capacity e (`k))) (LHolds e (`k)).
Proof. apply ia_refines; [exact (proj1 (proj2_sig k))|exact (proj2 (proj2_sig k))|exact Hcalm]. Qed.

Lemma m_extend_agrees sd x y s1 s2 g : MHolds x s1 -> MHolds y s2 -> is_list e s1 -> iterates e sd s2 ->
  agrees (both MHolds MHolds) eq g (m_extend e sd (x, y) g) (mix_extend e sd s1 s2).
Proof.
  intros Hx Hy Hl Hi. pose proof (m_feeds e sd s2 Hi) as Hf.
  destruct x as [k c|k c|k c|k c], s1 as [k2 d|k2 d|k2 d|k2 d]; cbn in Hx, Hl; try contradiction; destruct Hx as [<- Hx];
    unfold m_extend; cbn [fst snd].
  - refine (extend_agrees (Holds (`k)) (`k) sd (OfChunk k) (extend_live (m_next e sd) (push_back e (`k))) c y d (OfChunk k d) s2 g Hi Hy Hx eq_refl eq_refl _ _).
    + eapply chunk_extends; eauto. exact (proj2_sig k).
    + intros. apply holds_chunk. assumption.
  - refine (extend_agrees (RHolds (`k)) (`k) sd (OfRing k) (extend_live (m_next e sd) (rb_push_back e (`k))) c y d (OfRing k d) s2 g Hi Hy Hx eq_refl eq_refl _ _).
    + eapply ring_extends; eauto; [exact (proj1 (proj2_sig k))|exact (proj2 (proj2_sig k))].
    + intros. apply holds_ring. assumption.
  - refine (extend_agrees (LHolds e (`k)) (capacity e (`k)) sd (OfInline k) (fun fuel => in_place_with (`k) (fun b => extend_live (m_next e sd) (ia_push e (`k) b) fuel))
      c y d (OfInline k d) s2 g Hi Hy Hx eq_refl eq_refl _ _).
    + apply (in_place_extends (`k)); [exact (proj1 (proj2_sig k))|exact (proj2 (proj2_sig k))|]. intros b Hb.
      eapply inline_extends; eauto; [exact (proj1 (proj2_sig k))|exact (proj2 (proj2_sig k))].
    + intros. apply holds_inline. assumption.
Qed.
Lemma m_insert_from_agrees sd i x y s1 s2 g : MHolds x s1 -> MHolds y s2 ->
  match s1 with OfChunk _ _ | OfRing _ _ => True | _ => False end -> is_list e s2 ->
  length (m_items e s1) + length (m_items e s2) < word e ->
  agrees (both MHolds MHolds) eq g (m_insert_from e sd i (x, y) g) (mix_insert_from e sd i s1 s2).
Proof.
  intros Hx Hy H1 H2 Hw. assert (Hi : iterates e sd s2) by (destruct s2, sd; cbn in *; auto).
  pose proof (m_feeds e sd s2 Hi) as Hf.
  assert (Ey : m_insert_from e sd i (x, y) g = match x with
    | OfChunk k c => consuming e (OfChunk k) (insert_from_live e (`k) (m_next e sd) (m_hint e) i) c y g
    | OfRing k r => consuming e (OfRing k) (rb_insert_from_live e (`k) (m_next e sd) (m_hint e) (m_fuel e y) i) r y g
    | _ => ill_typed (x, y) g end).
  { destruct y, s2; cbn in Hy, H2; try contradiction; reflexivity. }
  rewrite Ey. clear Ey.
  destruct x as [k c|k c|k c|k c], s1 as [k2 d|k2 d|k2 d|k2 d]; cbn in Hx, H1; try contradiction; destruct Hx as [<- Hx].
  - refine (insert_from_agrees (Holds (`k)) (`k) sd i (OfChunk k) (fun _ => insert_from_live e (`k) (m_next e sd) (m_hint e))
      c y d (OfChunk k d) s2 g Hi Hy Hx eq_refl eq_refl Hw eq_refl _ _).
    + eapply chunk_inserts_from; eauto. exact (proj2_sig k).
    + intros. apply holds_chunk. assumption.
  - refine (insert_from_agrees (RHolds (`k)) (`k) sd i (OfRing k) (rb_insert_from_live e (`k) (m_next e sd) (m_hint e))
      c y d (OfRing k d) s2 g Hi Hy Hx eq_refl eq_refl Hw eq_refl _ _).
    + eapply ring_inserts_from; eauto; [exact (proj1 (proj2_sig k))|exact (proj2 (proj2_sig k))].
    + intros. apply holds_ring. assumption.
Qed.
Lemma m_collect_agrees sd t y s2 g : MHolds y s2 -> iterates e sd s2 ->
  agrees MHolds MHolds g (m_collect e sd t y g) (mix_collect e sd t s2).
Proof.
  intros Hy Hi. pose proof (m_feeds e sd s2 Hi) as Hf. destruct t as [k|k|k q]; unfold m_collect.
  - refine (collect_agrees (Holds (`k)) sd (ToChunk k) (OfChunk k) (from_iter_live e (`k) (m_next e sd)) y s2 g Hi Hy _ _).
    + eapply chunk_collects; eauto. exact (proj2_sig k).
    + intros. apply holds_chunk. assumption.
  - refine (collect_agrees (RHolds (`k)) sd (ToRing k) (OfRing k) (rb_from_iter_live e (`k) (m_next e sd)) y s2 g Hi Hy _ _).
    + eapply ring_collects; eauto; [exact (proj1 (proj2_sig k))|exact (proj2 (proj2_sig k))].
    + intros. apply holds_ring. assumption.
  - refine (collect_agrees (IHolds e (`k)) sd (ToInline k q) (fun c => OfInline k (q, c)) (ia_from_iter_live e (`k) (address (`k) q) (m_next e sd)) y s2 g Hi Hy _ _).
    + eapply inline_collects; eauto; [exact (proj1 (proj2_sig k))|exact (proj2 (proj2_sig k))|apply address_placed].
    + intros. apply holds_inline. assumption.
Qed.
Lemma m_collect_from_agrees sd t n y s2 g : MHolds y s2 -> iterates e sd s2 -> match t with ToInline _ _ => False | _ => True end ->
  agrees MHolds MHolds g (m_collect_from e sd t n y g) (mix_collect_from e sd t n s2).
Proof.
  intros Hy Hi Ht. pose proof (m_feeds e sd s2 Hi) as Hf. destruct t as [k|k|k q]; unfold m_collect_from; [| |contradiction].
  - refine (collect_from_agrees (Holds (`k)) sd (ToChunk k) (OfChunk k) (collect_from_live e (`k) (m_next e sd)) n y s2 g Hi Hy _ _).
    + eapply chunk_collects_from; eauto. exact (proj2_sig k).
    + intros. apply holds_chunk. assumption.
  - refine (collect_from_agrees (RHolds (`k)) sd (ToRing k) (OfRing k) (rb_collect_from_live e (`k) (m_next e sd)) n y s2 g Hi Hy _ _).
    + eapply ring_collects_from; eauto; [exact (proj1 (proj2_sig k))|exact (proj2 (proj2_sig k))].
    + intros. apply holds_ring. assumption.
Qed.
(** Into a [SparseChunk]. *)
Lemma map_some_feeds (F : obj -> list A -> Prop) (nx : M A obj (option A)) hint : feeds F nx hint ->
  feeds (fun y l => exists l', l = map Some l' /\ F y l') (map_some e nx) hint.
Proof.
  intros Hf y l g (l' & -> & Hy). destruct (Hf y l' g Hy) as [(y1 & g1 & E1 & H1 & D1 & L1) (y2 & g2 & E2 & H2 & D2 & L2)]. split.
  - exists y1, g1. split; [unfold map_some; erewrite bind_Ret by exact E1; destruct l'; reflexivity|].
    split; [exists (tail l'); split; [destruct l'; reflexivity|exact H1]|auto].
  - exists y2, g2. rewrite map_length. split; [exact E2|]. split; [eauto|auto].
Qed.
Lemma items_count y (s : st) : MHolds y s -> length (m_items e s) < word e.
Proof.
  destruct y as [k c|k c|k c|k c], s as [k2 l|k2 l|k2 l|k2 l]; cbn; try contradiction; intros [<- H].
  - pose proof (holds_length e (`k) (proj2_sig k) c l H). pose proof (proj2_sig k). cbn in *. lia.
  - pose proof (proj2_sig k). cbn in *. destruct H as (_ & _ & H & _). lia.
  - pose proof (values_length l). pose proof (proj2_sig k). cbn in *. destruct H as [H _]. lia.
  - destruct H as [H _]. destruct (proj2_sig k) as [WF HO]. cbn in *. unfold capacity in H.
    pose proof (wf_word e (`k) WF).
    destruct (size_a (`k) =? 0) eqn:E0; [lia|]. destruct (_ && _); [|lia].
    pose proof (Nat.div_le_upper_bound (size_t (`k) - size_us (`k)) (size_a (`k)) (size_t (`k) - size_us (`k)) ltac:(lia) ltac:(nia)). lia.
Qed.
Lemma values_map_some (l : list A) : values (map Some l) = l.
Proof. rewrite values_omap. induction l as [|a l IH]; cbn; [reflexivity|f_equal; exact IH]. Qed.
Definition somes (F : obj -> list A -> Prop) (y : obj) (l : list (option A)) : Prop := exists l', l = map Some l' /\ F y l'.
Lemma collect_sparse_agrees sd k collect y s2 g : MHolds y s2 -> iterates e sd s2 ->
  sp_collects (`k) (word e) (somes (feeding e sd s2)) collect ->
  agrees MHolds MHolds g (made_from e (OfSparse k) (collect (m_fuel e y)) y g) (mix_collect_sparse e sd k s2).
Proof.
  intros Hy Hi HC.
  assert (Hw : length (queue e sd s2) < word e) by (rewrite queue_length; exact (items_count y s2 Hy)).
  destruct (HC (m_fuel e y) y (map Some (queue e sd s2)) log0 g) as [IA IB].
  { exists (queue e sd s2). split; [reflexivity|]. apply feeding_0. exact Hy. }
  { rewrite map_length. apply m_fuel_enough. exact Hy. }
  { rewrite map_length. exact Hw. }
  unfold mix_collect_sparse, made_from. set (l := queue e sd s2) in *.
  rewrite skipn_map in IA, IB.
  destruct (length l <=? `k) eqn:El.
  - rewrite (drop_ge l) in IA by lia.
    destruct (IA eq_refl) as (y' & gs & g' & c & E & Hc & (l' & El' & Hy') & D & L & Ds & Ls). rewrite E.
    eexists _, _, _. split; [reflexivity|]. cbn [dropped leaked log_join]. rewrite D, L, Ds, Ls, !app_nil_r.
    split; [apply feeding_at; [|reflexivity]; fold l; rewrite drop_ge by lia; destruct l'; [exact Hy'|discriminate]|].
    split; [|auto]. apply holds_sparse. rewrite take_padded, map_length in Hc. rewrite (take_ge (map Some l)) in Hc by (rewrite map_length; lia). exact Hc.
  - destruct (drop (`k) l) as [|v l2] eqn:Ed; [apply (f_equal length) in Ed; rewrite drop_length in Ed; cbn in Ed; lia|].
    destruct (IB [] v (map Some l2) eq_refl eq_refl) as (y' & gs & g' & E & (l' & El' & Hy') & D & L & Ds & Ls). rewrite E.
    assert (l' = l2) as -> by (apply (f_equal values) in El'; rewrite !values_map_some in El'; auto).
    eexists _, _, []. split; [reflexivity|]. cbn [dropped leaked log_join]. rewrite Ds, Ls, !app_nil_r.
    split; [apply feeding_at; [|fold l; lia]; fold l|].
    { replace (S (`k)) with (`k + 1) by lia. rewrite <- drop_drop, Ed. exact Hy'. }
    split; [|auto]. rewrite D. f_equal. rewrite firstn_map, values_map_some. reflexivity.
Qed.
Lemma m_collect_sparse_agrees sd k y s2 g : MHolds y s2 -> iterates e sd s2 ->
  agrees MHolds MHolds g (m_collect_sparse e sd k y g) (mix_collect_sparse e sd k s2).
Proof.
  intros Hy Hi. apply (collect_sparse_agrees sd k (sp_from_iter_live e (`k) (map_some e (m_next e sd)))); [exact Hy|exact Hi|].
  eapply sparse_collects; [exact Hcalm|]. exact (map_some_feeds _ _ _ (m_feeds e sd s2 Hi)).
Qed.
Lemma entries_first (s : list (option A)) : forall i, match entries_from i s with
  | [] => values s = []
  | (j, v) :: _ => i <= j /\ s = no_cells (j - i) ++ Some v :: drop (S (j - i)) s
  end.
Proof.
  induction s as [|[a|] s IH]; intros i; cbn [entries_from].
  - reflexivity.
  - rewrite Nat.sub_diag. split; [lia|reflexivity].
  - specialize (IH (S i)). destruct (entries_from (S i) s) as [|[j v] es]; [rewrite values_cons; exact IH|].
    destruct IH as [Hj E]. split; [lia|]. replace (j - i) with (S (j - S i)) by lia. cbn [no_cells replicate app drop]. f_equal. exact E.
Qed.
Definition cells_left N (o : sparse A * nat) (l : list (option A)) : Prop :=
  exists s, length s = N /\ snd o <= N /\ l = drop (snd o) s /\ SHolds N (fst o) (no_cells (snd o) ++ drop (snd o) s).
Definition made_from_cells (k k2 : scap e) (collect : M A ((sparse A * nat) * log A) (sparse A * unit)) (c : sparse A) (g : log A)
  : outcome A obj obj :=
  match collect ((c, 0), log0) g with
  | Ret ((c', _), gs) g' (new, _) => Ret (OfSparse k2 c') (log_join g' gs) (OfSparse k new)
  | Panic ((c', _), gs) g' => Panic (OfSparse k2 c') (log_join g' gs)
  | UB u => UB u | Hang => Hang | Abort => Abort
  end.
Lemma collect_cells_agrees k k2 collect c s g : SHolds (`k2) c s -> sp_collects (`k) (word e) (cells_left (`k2)) collect ->
  agrees MHolds MHolds g (made_from_cells k k2 (collect (S (`k2))) c g) (mix_collect_cells e k (OfSparse k2 s)).
Proof.
  intros Hy HC.
  pose proof (proj2_sig k2) as HW. cbn in HW. assert (EN : length s = `k2) by apply Hy.
  destruct (HC (S (`k2)) (c, 0) s log0 g) as [IA IB].
  { exists s. cbn [fst snd]. rewrite drop_0. repeat split; auto; [lia|apply Hy|apply Hy]. }
  { lia. }
  { lia. }
  unfold made_from_cells, mix_collect_cells. pose proof (entries_first (drop (`k) s) 0) as P. fold (entries (drop (`k) s)) in P.
  destruct (entries (drop (`k) s)) as [|[j v] es].
  - destruct (IA P) as ([c' n] & gs & g' & new & E & Hc & (s' & EN' & Hn & Ed & Hc') & D & L & Ds & Ls). rewrite E.
    eexists _, _, _. split; [reflexivity|]. cbn [dropped leaked log_join]. rewrite D, L, Ds, Ls, !app_nil_r.
    cbn [fst snd] in *. rewrite <- Ed, app_nil_r in Hc'.
    assert (n = length s) as -> by (destruct Hc' as [Hc' _]; unfold no_cells in Hc'; rewrite replicate_length in Hc'; lia).
    split; [apply holds_sparse; exact Hc'|]. split; [apply holds_sparse; exact Hc|auto].
  - destruct P as [_ Ed0]. rewrite Nat.sub_0_r in Ed0.
    destruct (IB (no_cells j) v (drop (S j) (drop (`k) s)) Ed0 (values_no_cells j)) as ([c' n] & gs & g' & E & (s' & EN' & Hn & Ed & Hc') & D & L & Ds & Ls).
    rewrite E. eexists _, _, []. split; [reflexivity|]. cbn [dropped leaked log_join]. rewrite Ds, Ls, !app_nil_r.
    cbn [fst snd] in *.
    assert (Hj : `k + j < `k2).
    { apply (f_equal length) in Ed0. rewrite app_length, drop_length in Ed0. cbn in Ed0. unfold no_cells in Ed0. rewrite replicate_length in Ed0. lia. }
    assert (n = `k + j + 1) as -> by (apply (f_equal length) in Ed; rewrite !drop_length in Ed; lia).
    rewrite <- Ed, drop_drop in Hc'. replace (`k + S j) with (`k + j + 1) in Hc' by lia.
    split; [apply holds_sparse; exact Hc'|auto].
Qed.
Lemma m_collect_cells_agrees k y s2 g : MHolds y s2 -> match s2 with OfSparse _ _ => True | _ => False end ->
  agrees MHolds MHolds g (m_collect_cells e k y g) (mix_collect_cells e k s2).
Proof.
  intros Hy Hk. destruct y as [k2 c|k2 c|k2 c|k2 c], s2 as [k3 s|k3 s|k3 s|k3 s]; cbn in Hy, Hk; try contradiction. destruct Hy as [<- Hy].
  apply (collect_cells_agrees k k2 (sp_from_iter_live e (`k) (od_next e (`k2)))); [exact Hy|].
  eapply sparse_collects; [exact Hcalm|]. exact (option_drain_feeds e (`k2) (proj2_sig k2)).
Qed.
Lemma m_borrow_ok y s g : MHolds y s -> is_slice e s -> m_borrow e y g = Ret y g (m_items e s).
Proof.
  destruct y as [k c|k c|k c|k c], s as [k2 d|k2 d|k2 d|k2 d]; cbn; try contradiction; intros [<- H] _; unfold as_kind.
  - rewrite (as_slice_eq e (`k) (proj2_sig k) c d g H). reflexivity.
  - unfold in_place, on_snd. rewrite (deref_ok e (`k) (proj1 (proj2_sig k)) (proj2 (proj2_sig k)) (address (`k) (fst c)) (snd c) d g (address_placed _ _) H). destruct c; reflexivity.
Qed.
Lemma m_eq_slice_ok eqA x y s1 s2 g : MHolds x s1 -> MHolds y s2 -> is_list e s1 -> is_slice e s2 ->
  m_eq_slice e eqA (x, y) g = Ret (x, y) g (slice_eq eqA (m_items e s1) (m_items e s2)).
Proof.
  intros Hx Hy H1 H2. unfold m_eq_slice, bind at 1. unfold on_snd at 1. cbn [fst snd]. rewrite (m_borrow_ok y s2 g Hy H2).
  unfold on_fst. cbn [fst snd].
  destruct x as [k c|k c|k c|k c], s1 as [k2 d|k2 d|k2 d|k2 d]; cbn in Hx, H1; try contradiction; destruct Hx as [<- Hx];
    unfold as_kind; cbn [m_items].
  - erewrite bind_Ret by exact (as_slice_eq e (`k) (proj2_sig k) c d g Hx). reflexivity.
  - rewrite (rb_eq_list_ok e (`k) (proj1 (proj2_sig k)) (proj2 (proj2_sig k)) eqA c d _ g Hx). reflexivity.
  - unfold in_place, on_snd, ia_eq. erewrite bind_Ret by exact (deref_ok e (`k) (proj1 (proj2_sig k)) (proj2 (proj2_sig k)) (address (`k) (fst c)) (snd c) d g (address_placed _ _) Hx).
    cbn. destruct c; reflexivity.
Qed.

Theorem mix_refines : refines (mix_kit e) (mix_spec e) MHolds.
Proof.
  constructor.
  - intros [k o|k o|k o|k o] g; cbn [run0 spec0 mix_kit mix_spec].
    + eapply mapR_agrees; [|exact (ref0 _ _ _ (chunk_ref k) o g)]. intros; apply holds_chunk; assumption.
    + eapply mapR_agrees; [|exact (ref0 _ _ _ (ring_ref k) o g)]. intros; apply holds_ring; assumption.
    + eapply mapR_agrees; [|exact (ref0 _ _ _ (sparse_ref k) o g)]. intros; apply holds_sparse; assumption.
    + eapply mapR_agrees; [|exact (ref0 _ _ _ (inline_ref k) o g)]. intros; apply holds_inline; assumption.
  - intros o x s g Hx Hl. destruct o as [o|o|o|o], x as [k c|k c|k c|k c], s as [k2 l|k2 l|k2 l|k2 l];
      cbn [MHolds] in Hx; try contradiction; destruct Hx as [<- Hx]; cbn [legal1 mix_spec] in Hl; try contradiction;
      cbn [run1 spec1 mix_kit mix_spec].
    + eapply as_kind_agrees; [intros; apply holds_chunk; eassumption|]. apply mapR_agrees_eq. apply (ref1 _ _ _ (chunk_ref k)); assumption.
    + eapply as_kind_agrees; [intros; apply holds_ring; eassumption|]. apply mapR_agrees_eq. apply (ref1 _ _ _ (ring_ref k)); assumption.
    + eapply as_kind_agrees; [intros; apply holds_sparse; eassumption|]. apply mapR_agrees_eq. apply (ref1 _ _ _ (sparse_ref k)); [assumption|exact I].
    + eapply as_kind_agrees; [intros; apply holds_inline; eassumption|]. apply mapR_agrees_eq. apply (ref1 _ _ _ (inline_ref k)); assumption.
  - intros o x s g Hx Hl. destruct o as [o|o|o|o|kc|sd t|sd t n|sd k|k].
    6: { apply m_collect_agrees; assumption. }
    6: { destruct Hl. apply m_collect_from_agrees; assumption. }
    6: { apply m_collect_sparse_agrees; assumption. }
    6: { apply m_collect_cells_agrees; assumption. }
    all: destruct x as [k c|k c|k c|k c], s as [k2 l|k2 l|k2 l|k2 l];
      cbn [MHolds] in Hx; try contradiction; destruct Hx as [<- Hx]; cbn [legaln mix_spec] in Hl; try contradiction;
      cbn [runn specn mix_kit mix_spec].
    + eapply as_kind_agrees; [intros; apply holds_chunk; eassumption|].
      eapply mapR_agrees; [|apply (refn _ _ _ (chunk_ref k)); eassumption]. intros; apply holds_chunk; assumption.
    + eapply as_kind_agrees; [intros; apply holds_ring; eassumption|].
      eapply mapR_agrees; [|apply (refn _ _ _ (ring_ref k)); eassumption]. intros; apply holds_ring; assumption.
    + eapply as_kind_agrees; [intros; apply holds_sparse; eassumption|].
      eapply mapR_agrees; [|apply (refn _ _ _ (sparse_ref k)); [eassumption|exact I]]. intros; apply holds_sparse; assumption.
    + eapply as_kind_agrees; [intros; apply holds_inline; eassumption|].
      eapply mapR_agrees; [|apply (refn _ _ _ (inline_ref k)); [eassumption|exact I]]. intros; apply holds_inline; assumption.
    + eapply as_kind_agrees; [intros; apply holds_inline; eassumption|].
      eapply mapR_agrees; [|apply in_place_agrees, chunk_from_mut_ok]; [intros; apply holds_chunk; eassumption|..|exact Hx].
      * exact (proj1 (proj2_sig k)).
      * exact (proj2 (proj2_sig k)).
      * exact (proj2_sig kc).
      * apply address_placed.
  - intros o [x y] [s1 s2] g [Hx Hy] Hl. cbn [fst snd] in Hx, Hy. destruct o as [o|o|o|o|sd|sd i|eqA].
    5: { destruct Hl as [H1 H2]. cbn [run2 spec2 mix_kit mix_spec fst snd]. apply mapR_agrees_eq. apply m_extend_agrees; assumption. }
    5: { destruct Hl as (H1 & H2 & H3). cbn [run2 spec2 mix_kit mix_spec fst snd]. apply mapR_agrees_eq. apply m_insert_from_agrees; assumption. }
    5: { destruct Hl as (H1 & H2). cbn [run2 spec2 mix_kit mix_spec fst snd]. unfold mapR.
         erewrite bind_Ret by (eapply m_eq_slice_ok; eassumption). cbn. eexists _, _, _. split; [reflexivity|].
         repeat split; auto. symmetry; apply app_nil_r. }
    all: destruct x as [k c|k c|k c|k c], s1 as [k2 l|k2 l|k2 l|k2 l]; cbn [MHolds] in Hx; try contradiction; destruct Hx as [<- Hx].
    all: destruct y as [k' c'|k' c'|k' c'|k' c'], s2 as [k2' l'|k2' l'|k2' l'|k2' l']; cbn [MHolds] in Hy; try contradiction; destruct Hy as [<- Hy].
    all: cbn [legal2 mix_spec fst snd same_kind] in Hl; try (exfalso; tauto); destruct Hl as [Ek Hl]; try contradiction.
    all: cbn [run2 spec2 mix_kit mix_spec fst snd].
    all: rewrite (decide_True_pi Ek).
    + eapply as_kind2_agrees with (H := Holds (`k)); [intros; apply holds_chunk; assumption|rewrite Ek; intros; apply holds_chunk; assumption|].
      apply mapR_agrees_eq. apply (ref2 _ _ _ (chunk_ref k)); [|exact Hl]. split; [exact Hx|]. cbn [snd]. rewrite Ek. exact Hy.
    + eapply as_kind2_agrees with (H := RHolds (`k)); [intros; apply holds_ring; assumption|rewrite Ek; intros; apply holds_ring; assumption|].
      apply mapR_agrees_eq. apply (ref2 _ _ _ (ring_ref k)); [|exact Hl]. split; [exact Hx|]. cbn [snd]. rewrite Ek. exact Hy.
    + eapply as_kind2_agrees with (H := SHolds (`k)); [intros; apply holds_sparse; assumption|rewrite Ek; intros; apply holds_sparse; assumption|].
      apply mapR_agrees_eq. apply (ref2 _ _ _ (sparse_ref k)); [|exact I]. split; [exact Hx|]. cbn [snd]. rewrite Ek. exact Hy.
    + eapply as_kind2_agrees with (H := LHolds e (`k)); [intros; apply holds_inline; assumption|rewrite Ek; intros; apply holds_inline; assumption|].
      apply mapR_agrees_eq. apply (ref2 _ _ _ (inline_ref k)); [|exact I]. split; [exact Hx|]. cbn [snd]. rewrite Ek. exact Hy.
  - intros x s g Hx. destruct x as [k c|k c|k c|k c], s as [k2 l|k2 l|k2 l|k2 l];
      cbn [MHolds] in Hx; try contradiction; destruct Hx as [<- Hx]; cbn [kill mix_kit items mix_spec m_items].
    + destruct (refk _ _ _ (chunk_ref k) c l g Hx) as (o & g' & r & E & R). cbn [kill chunk_kit] in *. unfold as_kind. rewrite E. eexists _, _, _. split; [reflexivity|]. exact R.
    + destruct (refk _ _ _ (ring_ref k) c l g Hx) as (o & g' & r & E & R). unfold as_kind. rewrite E. eexists _, _, _. split; [reflexivity|]. exact R.
    + destruct (refk _ _ _ (sparse_ref k) c l g Hx) as (o & g' & r & E & R). unfold as_kind. rewrite E. eexists _, _, _. split; [reflexivity|]. exact R.
    + destruct (refk _ _ _ (inline_ref k) c l g Hx) as (o & g' & r & E & R). unfold as_kind. rewrite E. eexists _, _, _. split; [reflexivity|]. exact R.
Qed.
End mix.
