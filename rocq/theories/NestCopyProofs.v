(** * Containers of containers: comparing and cloning them. *)
From Verif Require Import Machine Spec Prims Program InlineModel InlineSpec SparseModel SparseSpec SparseProofs SparseProofs2 IterSpec MixModel MixSpec MixProofs MixProgram
  ChunkProgram RingProgram SparseProgram InlineProgram TempModel TempMix OwnModel OwnMix WalkModel WalkMix NestModel NestSpec NestNature NestProofs NestCopyModel NestCopySpec.

Lemma slice_eq_alike {B1 B2} (R : B1 -> B2 -> Prop) f1 f2 l l' : Forall2 R l l' -> forall m m', Forall2 R m m' ->
  (forall v v' w w', R v v' -> R w w' -> In v' l' -> In w' m' -> f1 v w = f2 v' w') -> slice_eq f1 l m = slice_eq f2 l' m'.
Proof.
  induction 1 as [|v v' l l' Hv H IH]; intros m m' Hm Hf; destruct Hm as [|w w' m m' Hw Hm]; cbn; try reflexivity.
  rewrite (Hf v v' w w'); cbn; auto. f_equal. apply IH; [exact Hm|]. intros; apply Hf; cbn; auto.
Qed.
Lemma partial_cmp_alike {B1 B2} (R : B1 -> B2 -> Prop) f1 f2 l l' : Forall2 R l l' -> forall m m', Forall2 R m m' ->
  (forall v v' w w', R v v' -> R w w' -> In v' l' -> In w' m' -> f1 v w = f2 v' w') -> iter_partial_cmp f1 l m = iter_partial_cmp f2 l' m'.
Proof.
  induction 1 as [|v v' l l' Hv H IH]; intros m m' Hm Hf; destruct Hm as [|w w' m m' Hw Hm]; cbn; try reflexivity.
  rewrite (Hf v v' w w'); cbn; auto. destruct (f2 v' w') as [[]|]; try reflexivity. apply IH; [exact Hm|]. intros; apply Hf; cbn; auto.
Qed.
Lemma in_values {B} (s : list (option B)) v : In (Some v) s -> In v (values s).
Proof.
  unfold values, entries. generalize 0. induction s as [|[a|] s IH]; intros i; cbn; [auto| |].
  - intros [E|H]; [left; congruence|right; apply IH, H].
  - intros [E|H]; [discriminate|apply IH, H].
Qed.

Section nest.
Context {A : Type} (e : env A).
Notation obj := (mobj e).
Notation st := (mst e).
Notation R := (MHolds e).
Notation bb := (fun x => existsb (bomb e) (contents e x)).
Notation E := (outer_env e).
Notation Es := (outer_senv e).
Notation lft := (lift e R bb (sbomb e)).
Notation OHolds := (OHolds e).
Context (Hc : calm e).
Notation refE := (mix_refines E (calm_outer e Hc)).
Notation ref := (mix_refines e Hc).

(** ** Comparing *)
Lemma eq_same {B} {f : env B} eqB x (l : mst f) : MHolds f x l -> o_eq (f := f) eqB x = o_eq eqB l.
Proof. destruct x, l; cbn; try contradiction; reflexivity. Qed.
Lemma pcmp_same {B} {f : env B} pc x (l : mst f) : MHolds f x l -> o_pcmp (f := f) pc x = o_pcmp pc l.
Proof. destruct x, l; cbn; try contradiction; reflexivity. Qed.
Lemma clone_same {B} {f : env B} q cl x (l : mst f) : MHolds f x l -> o_clone (b := f) q cl x = o_clone q cl l.
Proof. destruct x, l; cbn; try contradiction; reflexivity. Qed.

Lemma elem_eq_ok eqA v w v' w' : R v v' -> R w w' -> same_kind e v' w' -> elem_eq e eqA v w = inner_eq e eqA v' w'.
Proof.
  intros Hv Hw HS. unfold elem_eq. rewrite (eq_same eqA v v' Hv).
  assert (HL : legal2 (mix_spec e) (o_eq eqA v') (v', w')) by (destruct v', w'; cbn in HS |- *; auto).
  pose proof (ref2 _ _ _ ref (o_eq eqA v') (v, w) (v', w') log0 (conj Hv Hw) HL) as P.
  destruct v', w'; cbn in HS; try contradiction; cbn [o_eq spec2 mix_spec chunk_spec ring_spec array_spec ia_spec fst snd] in P |- *;
    destruct P as (o & g' & r & -> & _ & -> & _); reflexivity.
Qed.
Lemma elem_pcmp_ok pc v w v' w' : R v v' -> R w w' -> same_kind e v' w' -> is_list e v' ->
  elem_pcmp e pc v w = iter_partial_cmp pc (m_items e v') (m_items e w').
Proof.
  intros Hv Hw HS HI. unfold elem_pcmp. rewrite (pcmp_same pc v v' Hv).
  assert (HL : legal2 (mix_spec e) (o_pcmp pc v') (v', w')) by (destruct v', w'; cbn in HS, HI |- *; try contradiction; auto).
  pose proof (ref2 _ _ _ ref (o_pcmp pc v') (v, w) (v', w') log0 (conj Hv Hw) HL) as P.
  destruct v', w'; cbn in HS, HI; try contradiction; cbn [o_pcmp spec2 mix_spec chunk_spec ring_spec array_spec ia_spec fst snd] in P |- *;
    destruct P as (o & g' & r & -> & _ & -> & _); reflexivity.
Qed.
Lemma same_kind_lift l l2 s t : lft l s -> lft l2 t -> same_kind Es s t -> same_kind E l l2.
Proof.
  destruct l, s; try contradiction; destruct l2, t; cbn; try contradiction; intros [H1 _] [H2 _] H3; exact (eq_trans H1 (eq_trans H3 (eq_sym H2))).
Qed.
Lemma nest_eq_ok eqA x y s t g : OHolds x s -> OHolds y t -> same_kind Es s t -> alike_kinds e s t ->
  exists x' y' g', nest_eq e eqA (x, y) g = Ret (x', y') g' (Some (outer_eq e eqA s t)) /\ OHolds x' s /\ OHolds y' t /\
    dropped g' = dropped g /\ leaked g' = leaked g.
Proof.
  intros (l & Hx & Hl) (l2 & Hy & Hl2) HS HK. unfold nest_eq. cbn [fst]. rewrite (eq_same (f := E) (elem_eq e eqA) x l Hx).
  pose proof (same_kind_lift l l2 s t Hl Hl2 HS) as HS2.
  assert (HL : legal2 (mix_spec E) (o_eq (elem_eq e eqA) l) (l, l2)) by (destruct l, l2; cbn in HS2 |- *; auto).
  pose proof (ref2 _ _ _ refE _ (x, y) (l, l2) log0 (conj Hx Hy) HL) as P.
  assert (Q : alike R (lift2 e R bb (sbomb e)) (fun r (b : bool) => flag r = Some b)
    (spec2 (mix_spec E) (o_eq (elem_eq e eqA) l) (l, l2)) (SRet (s, t) (outer_eq e eqA s t) [])).
  { assert (HE : forall v v' w w', R v v' -> R w w' -> In v' (m_items Es s) -> In w' (m_items Es t) -> elem_eq e eqA v w = inner_eq e eqA v' w')
      by (intros; apply elem_eq_ok; auto).
    assert (HO : forall v v' w w', option_Forall2 R v v' -> option_Forall2 R w w' -> (forall a, v' = Some a -> In a (m_items Es s)) ->
       (forall a, w' = Some a -> In a (m_items Es t)) -> opt_eqb (elem_eq e eqA) v w = opt_eqb (inner_eq e eqA) v' w').
    { intros v v' w w' [a a' Ha|] [b b' Hb|] H1 H2; cbn; try reflexivity. auto. }
    destruct l as [k l|k l|k l|k l], s as [k' s|k' s|k' s|k' s]; try contradiction; destruct l2 as [k2 l2|k2 l2|k2 l2|k2 l2], t as [k2' t|k2' t|k2' t|k2' t];
      try contradiction; try (cbn in HS; contradiction); cbn [o_eq spec2 mix_spec chunk_spec ring_spec array_spec ia_spec fst snd];
      (split; [split; assumption|]); (split; [|constructor]); destruct Hl as [_ Hl], Hl2 as [_ Hl2]; cbn [m_items] in HE, HO; cbn; f_equal.
    1,2,4: eapply slice_eq_alike; [exact Hl|exact Hl2|exact HE].
    unfold cells_eq. eapply slice_eq_alike; [exact Hl|exact Hl2|]. intros v v' w w' Hv Hw I1 I2. apply HO; auto; intros a ->; apply in_values; assumption. }
  pose proof (lower_ok e Hc _ _ _ _ _ (x, y) g _ _ P Q) as W.
  destruct W as ([x' y'] & g' & r & Em & ([l3 l4] & [H1 H2] & [H3 H4]) & (r2 & -> & Er) & D & L).
  unfold mapR. rewrite (bind_Ret _ _ _ _ _ _ _ Em). cbn in D. rewrite app_nil_r in D.
  exists x', y', g'. rewrite Er. repeat split; auto; [exists l3|exists l4]; auto.
Qed.
Lemma nest_pcmp_ok pc x y s t g : OHolds x s -> OHolds y t -> same_kind Es s t -> is_list Es s -> alike_kinds e s t ->
  (forall v, In v (m_items Es s) -> is_list e v) ->
  exists x' y' g', nest_pcmp e pc (x, y) g = Ret (x', y') g'
      (Some (iter_partial_cmp (fun v w => iter_partial_cmp pc (m_items e v) (m_items e w)) (m_items Es s) (m_items Es t))) /\
    OHolds x' s /\ OHolds y' t /\ dropped g' = dropped g /\ leaked g' = leaked g.
Proof.
  intros (l & Hx & Hl) (l2 & Hy & Hl2) HS HI HK HKL. unfold nest_pcmp. cbn [fst]. rewrite (pcmp_same (f := E) (elem_pcmp e pc) x l Hx).
  pose proof (same_kind_lift l l2 s t Hl Hl2 HS) as HS2.
  assert (HI2 : is_list E l) by (destruct l, s; cbn in HI |- *; try contradiction; exact I).
  assert (HL : legal2 (mix_spec E) (o_pcmp (elem_pcmp e pc) l) (l, l2)) by (destruct l, l2; cbn in HS2, HI2 |- *; try contradiction; auto).
  pose proof (ref2 _ _ _ refE _ (x, y) (l, l2) log0 (conj Hx Hy) HL) as P.
  pose (ans := iter_partial_cmp (fun v w => iter_partial_cmp pc (m_items e v) (m_items e w)) (m_items Es s) (m_items Es t)). fold ans.
  assert (Q : alike R (lift2 e R bb (sbomb e)) (fun r b => order_of r = Some b)
    (spec2 (mix_spec E) (o_pcmp (elem_pcmp e pc) l) (l, l2)) (SRet (s, t) ans [])).
  { assert (HE : forall v v' w w', R v v' -> R w w' -> In v' (m_items Es s) -> In w' (m_items Es t) ->
      elem_pcmp e pc v w = iter_partial_cmp pc (m_items e v') (m_items e w'))
      by (intros; apply elem_pcmp_ok; auto).
    subst ans.
    destruct l as [k l|k l|k l|k l], s as [k' s|k' s|k' s|k' s]; try contradiction; destruct l2 as [k2 l2|k2 l2|k2 l2|k2 l2], t as [k2' t|k2' t|k2' t|k2' t];
      try contradiction; try (cbn in HS, HI; contradiction); cbn [o_pcmp spec2 mix_spec chunk_spec ring_spec array_spec ia_spec fst snd];
      (split; [split; assumption|]); (split; [|constructor]); destruct Hl as [_ Hl], Hl2 as [_ Hl2]; cbn [m_items] in HE |- *; cbn [smapR sas_kind2 order_of]; f_equal;
      eapply partial_cmp_alike; [exact Hl|exact Hl2|exact HE|exact Hl|exact Hl2|exact HE|exact Hl|exact Hl2|exact HE]. }
  pose proof (lower_ok e Hc _ _ _ _ _ (x, y) g _ _ P Q) as W.
  destruct W as ([x' y'] & g' & r & Em & ([l3 l4] & [H1 H2] & [H3 H4]) & (r2 & -> & Er) & D & L).
  unfold mapR. rewrite (bind_Ret _ _ _ _ _ _ _ Em). cbn in D. rewrite app_nil_r in D.
  exists x', y', g'. rewrite Er. repeat split; auto; [exists l3|exists l4]; auto.
Qed.

(** ** Cloning *)
Lemma clones_app cl (l1 l2 : list A) : forall n,
  clones cl n (l1 ++ l2) = if length (clones cl n l1) =? length l1 then clones cl n l1 ++ clones cl (n + length l1) l2 else clones cl n l1.
Proof.
  induction l1 as [|a l1 IH]; intros n; cbn; [now rewrite Nat.add_0_r|].
  destruct (cl n a) as [b|]; [|reflexivity]. rewrite IH. cbn. rewrite <- Nat.add_succ_comm. destruct (_ =? _); reflexivity.
Qed.
Lemma clones_shift cl n (l : list A) : forall k, clones (fun i => cl (n + i)) k l = clones cl (n + k) l.
Proof. induction l as [|a l IH]; intros k; cbn; [reflexivity|]. destruct (cl (n + k) a); [|reflexivity]. f_equal. rewrite IH. f_equal. lia. Qed.
Lemma clones_given {B} (ws : list B) (l : list B) : length ws <= length l -> clones (fun i _ => ws !! i) 0 l = ws.
Proof.
  assert (H : forall k, length ws - k <= length l -> clones (fun i _ => ws !! i) k l = drop k ws).
  { induction l as [|a l IH]; intros k Hk; cbn in *.
    - rewrite drop_ge by lia. reflexivity.
    - destruct (ws !! k) as [w|] eqn:Ek.
      + rewrite IH by lia. now rewrite (drop_S _ _ _ Ek).
      + apply lookup_ge_None in Ek. rewrite drop_ge by lia. reflexivity. }
  intros Hl. rewrite (H 0) by lia. reflexivity.
Qed.
Definition refilled {B} {f : env B} (x : mst f) (vs : list B) : mst f :=
  match x with OfSparse k s => OfSparse k (refill s vs) | _ => with_items f x vs end.
Lemma refill_shape {B} (P : B -> B -> Prop) (s : list (option B)) : forall vs, Forall2 P vs (values s) -> Forall2 (option_Forall2 P) (refill s vs) s.
Proof.
  unfold values, entries. generalize 0. induction s as [|[a|] s IH]; intros n vs; cbn; [constructor| |].
  - intros H. inversion H as [|v b vs' l Hv H']; subst. constructor; [constructor; exact Hv|]. eapply IH. exact H'.
  - intros H. constructor; [constructor|]. eapply IH. exact H.
Qed.
Lemma refilled_shape {B} {f : env B} (P : B -> B -> Prop) (x : mst f) vs : Forall2 P vs (m_items f x) -> same_shape f P (refilled x vs) x.
Proof. destruct x; cbn; auto using refill_shape. Qed.
Lemma refilled_items {B} {f : env B} (x : mst f) vs : length vs = length (m_items f x) -> m_items f (refilled x vs) = vs.
Proof. destruct x; cbn; auto. intros H. apply refill_values. lia. Qed.
Lemma refill_alike {B1 B2} (P : B1 -> B2 -> Prop) s s2 : Forall2 (option_Forall2 P) s s2 -> forall vs vs2, Forall2 P vs vs2 ->
  Forall2 (option_Forall2 P) (refill s vs) (refill s2 vs2).
Proof.
  induction 1 as [|a b s s2 Ha H IH]; intros vs vs2 Hv; cbn; [constructor|].
  destruct Ha as [a b Ha|]; [|constructor; [constructor|auto]].
  destruct Hv as [|v w vs vs2 Hv Hvs]; constructor; auto; constructor. exact Hv.
Qed.
(** What [clone] does by itself, for any type of elements. *)
Lemma spec_clone {B} (f : env B) q cl (x : mst f) :
  let c := clones cl 0 (m_items f x) in
  specn (mix_spec f) (o_clone q cl x) x =
    if length c =? length (m_items f x) then SRet x (refilled x c) []
    else if is_inline x then SPanic x [] c else SPanic x c [].
Proof.
  destruct x as [k l|k l|k l|k l]; cbn [o_clone specn mix_spec chunk_spec ring_spec array_spec ia_spec m_items is_inline];
    unfold bl_clone, bl_clone_leaking, ar_clone; destruct (_ =? _); reflexivity.
Qed.
Lemma legal_clone {B} (f : env B) q cl (x : mst f) : legaln (mix_spec f) (o_clone q cl x) x.
Proof. destruct x; exact I. Qed.

Notation its := (flat_map (m_items e)).
Notation shaped := (same_shape e (fun _ _ => True)).
Lemma any_shape vs t : length vs = length (m_items e t) -> shaped (refilled t vs) t.
Proof.
  intros H. apply refilled_shape. generalize (m_items e t) H. clear. induction vs as [|v vs IH]; intros [|b l]; cbn; try discriminate; constructor; auto.
Qed.
(** The clones made of the elements [l'], [n] calls after the first. *)
Lemma clone_elems_ok q cl l l' : Forall2 R l l' -> forall n g, exists ws ws' g' d k,
  clone_elems e q cl n l tt g = Ret tt g' ws /\ Forall2 R ws ws' /\ dropped g' = dropped g ++ d /\ leaked g' = leaked g ++ k /\
  Permutation (clones cl n (its l')) (its ws' ++ d ++ k) /\ Forall2 shaped ws' (take (length ws') l') /\
  (length ws' = length l' -> d = [] /\ k = [] /\ its ws' = clones cl n (its l')) /\
  (length ws' = length l' <-> length (clones cl n (its l')) = length (its l')) /\
  (forallb (fun v => negb (is_inline v)) l' = true -> k = []).
Proof.
  induction 1 as [|v v' l l' Hv H IH]; intros n g; cbn [clone_elems flat_map].
  - exists [], [], g, [], []. rewrite !app_nil_r. repeat split; auto; constructor.
  - rewrite (clone_same (f := e) q (fun i => cl (n + i)) v v' Hv), (contents_ok e v v' Hv).
    pose proof (refn _ _ _ ref _ v v' g Hv (legal_clone e q (fun i => cl (n + i)) v')) as P.
    rewrite spec_clone in P. rewrite clones_shift, Nat.add_0_r in P. rewrite clones_app, app_length.
    destruct (length (clones cl n (m_items e v')) =? length (m_items e v')) eqn:Ec.
    + destruct P as (o & g1 & w & -> & _ & Hw & D & L). cbn in D. rewrite app_nil_r in D. apply Nat.eqb_eq in Ec.
      destruct (IH (n + length (m_items e v')) g1) as (ws & ws' & g' & d & k & -> & HF & D2 & L2 & PK & SH & DK & LEN & NI).
      exists (w :: ws), (refilled v' (clones cl n (m_items e v')) :: ws'), g', d, k. cbn [length flat_map take].
      rewrite D2, L2, D, L, refilled_items by exact Ec. rewrite <- app_assoc, app_length.
      split; [reflexivity|]. split; [constructor; auto|]. split; [reflexivity|]. split; [reflexivity|].
      split; [apply Permutation_app_head; exact PK|]. split; [constructor; auto using any_shape|].
      split; [|split].
      * intros El. destruct DK as (-> & -> & ->); auto.
      * split; intros El.
        -- assert (length ws' = length l') as E2 by lia. apply LEN in E2. lia.
        -- assert (length ws' = length l') as E2 by (apply LEN; lia). lia.
      * cbn. intros HI. apply andb_true_iff in HI as [_ HI]. auto.
    + apply Nat.eqb_neq in Ec.
      assert (exists o g1 d k, runn (mix_kit e) (o_clone q (fun i => cl (n + i)) v') v g = Panic o g1 /\ dropped g1 = dropped g ++ d /\
        leaked g1 = leaked g ++ k /\ Permutation (clones cl n (m_items e v')) (d ++ k) /\ (is_inline v' = false -> k = [])) as (o & g1 & d & k & -> & D & L & PK & NI).
      { destruct (is_inline v'); destruct P as (o & g1 & k & -> & _ & D & L & PK).
        - exists o, g1, [], k. repeat split; auto; discriminate.
        - apply Permutation_nil in PK. subst k. exists o, g1, (clones cl n (m_items e v')), []. rewrite !app_nil_r in *. auto. }
      exists [], [], g1, d, k. pose proof (clones_length cl (m_items e v') n). cbn [length flat_map take app].
      split; [reflexivity|]. split; [constructor|]. split; [exact D|]. split; [exact L|]. split; [exact PK|]. split; [constructor|].
      split; [discriminate|]. split; [split; intros El; [discriminate|lia]|].
      cbn. intros HI. apply andb_true_iff in HI as [HI _]. apply NI. now apply negb_true_iff in HI.
Qed.
Lemma refilled_lift l s ws ws' : lft l s -> Forall2 R ws ws' -> lft (refilled l ws) (refilled s ws').
Proof.
  destruct l as [k l|k l|k l|k l], s as [k2 s|k2 s|k2 s|k2 s]; cbn; try contradiction; intros [Hk H] HF; auto using refill_alike.
Qed.
Lemma nest_clone_ok q cl x s g : OHolds x s ->
  let l := its (m_items Es s) in let c := clones cl 0 l in
  if length c =? length l
  then exists x' y s' g', nest_clone e q cl x g = Ret x' g' y /\ OHolds x' s /\ OHolds y s' /\
    same_shape Es shaped s' s /\ its (m_items Es s') = c /\ dropped g' = dropped g /\ leaked g' = leaked g
  else exists x' g' d k, nest_clone e q cl x g = Panic x' g' /\ OHolds x' s /\ dropped g' = dropped g ++ d /\ leaked g' = leaked g ++ k /\
    Permutation c (d ++ k) /\ (no_inlines e s -> k = []).
Proof.
  intros (l & Hx & Hl) items c. unfold nest_clone. rewrite (contents_ok E x l Hx).
  pose proof (items_alike e R bb (sbomb e) l s Hl : Forall2 R (m_items E l) (m_items Es s)) as HI.
  destruct (clone_elems_ok q cl _ _ HI 0 g) as (ws & ws' & g1 & d & k & -> & HF & D & L & PK & SH & DK & LEN & NI).
  fold items in PK, LEN, DK. fold c in PK, LEN, DK.
  rewrite (clone_same (f := E) q (fun i _ => ws !! i) x l Hx).
  pose proof (refn _ _ _ refE _ x l log0 Hx (legal_clone E q (fun i _ => ws !! i) l)) as P.
  pose proof (Forall2_length _ _ _ HF) as Lw. pose proof (Forall2_length _ _ _ HI) as Li.
  assert (Lt : length ws' <= length (m_items Es s)).
  { pose proof (Forall2_length _ _ _ SH) as LS. rewrite take_length in LS. lia. }
  rewrite spec_clone in P. cbv zeta in P. rewrite clones_given in P by lia.
  destruct (length ws =? length (m_items E l)) eqn:Ew.
  - apply Nat.eqb_eq in Ew. assert (E2 : length ws' = length (m_items Es s)) by lia.
    assert (length c =? length items = true) as -> by (apply Nat.eqb_eq, LEN, E2).
    destruct (DK E2) as (-> & -> & Ec). rewrite !app_nil_r in *.
    pose proof (lower_ok e Hc _ _ lft lft _ x g1 _ (SRet s (refilled s ws') []) P) as W.
    destruct W as (x' & g' & y & Em & (l' & Hx' & Hl') & (ly & Hy & Hly) & D2 & L2).
    { cbn. repeat split; auto using refilled_lift. }
    cbn in D2. rewrite app_nil_r in D2. exists x', y, (refilled s ws'), g'. rewrite Em.
    split; [reflexivity|]. split; [exists l'; auto|]. split; [exists ly; auto|].
    split; [apply refilled_shape; rewrite E2, firstn_all in SH; exact SH|].
    rewrite refilled_items by exact E2. rewrite D2, L2. auto.
  - apply Nat.eqb_neq in Ew. assert (E2 : length ws' <> length (m_items Es s)) by lia.
    assert (length c =? length items = false) as -> by (apply Nat.eqb_neq; intros E3; apply E2, LEN, E3).
    destruct (is_inline l) eqn:EI.
    + pose proof (lower_ok e Hc _ _ lft (fun _ (_ : unit) => True) _ x g1 _ (SPanic s [] ws') P) as W.
      destruct W as (x' & g' & k2 & Em & (l' & Hx' & Hl') & D2 & L2 & PK2).
      { cbn. repeat split; auto. }
      cbn in D2, PK2. exists x', g', d, (k ++ k2). rewrite Em, D2, L2, D, L, app_nil_r, <- app_assoc.
      repeat split; auto; [exists l'; auto| |].
      * rewrite PK, <- PK2. rewrite (Permutation_app_comm (its ws')). rewrite <- app_assoc. reflexivity.
      * intros [HN _]. exfalso. destruct l, s; cbn in EI, HN, Hl; try discriminate; contradiction.
    + pose proof (lower_ok e Hc _ _ lft (fun _ (_ : unit) => True) _ x g1 _ (SPanic s ws' []) P) as W.
      destruct W as (x' & g' & k2 & Em & (l' & Hx' & Hl') & D2 & L2 & PK2).
      { cbn. repeat split; auto. }
      cbn in D2, PK2. apply Permutation_nil in PK2. subst k2. rewrite app_nil_r in L2.
      exists x', g', (d ++ its ws'), k. rewrite Em, D2, L2, D, L, <- app_assoc.
      repeat split; auto; [exists l'; auto| |].
      * rewrite PK. rewrite (Permutation_app_comm (its ws')). rewrite <- !app_assoc. apply Permutation_app_head. apply Permutation_app_comm.
      * intros [_ HN]. auto.
Qed.

(** ** A clone is equal *)
Lemma items_shape {B} (f : env B) P (x y : mst f) : same_shape f P x y -> Forall2 P (m_items f x) (m_items f y).
Proof. destruct x, y; cbn; try contradiction; intros [_ H]; auto using values_alike. Qed.
Lemma slice_eq_all {B C} (f : B -> C -> bool) l m : Forall2 (fun a b => f a b = true) l m -> slice_eq f l m = true.
Proof. induction 1 as [|a b l m H _ IH]; cbn; [reflexivity|]. rewrite H. exact IH. Qed.
Lemma cells_all {B} (f : B -> B -> bool) (s t : list (option B)) : Forall2 (option_Forall2 (fun _ _ => True)) s t ->
  Forall2 (fun a b => f a b = true) (values s) (values t) -> slice_eq (opt_eqb f) s t = true.
Proof.
  unfold values, entries. generalize 0. intros n HS. revert n. induction HS as [|x y s t Hx HS IH]; intros n; cbn; [reflexivity|].
  destruct Hx as [a b _|]; cbn; [|apply IH]. intros H. inversion H as [|? ? ? ? H1 H2]; subst. rewrite H1. eapply IH. exact H2.
Qed.
Lemma option_weaken {B} (P : B -> B -> Prop) x y : option_Forall2 P x y -> option_Forall2 (fun _ _ => True) x y.
Proof. intros []; constructor; exact I. Qed.
Lemma inner_eq_all eqA t u : shaped t u -> Forall2 (fun a b => eqA a b = true) (m_items e t) (m_items e u) -> inner_eq e eqA t u = true.
Proof.
  destruct t, u; cbn; try contradiction; intros [_ HS] H; auto using slice_eq_all. apply cells_all; assumption.
Qed.
Lemma outer_eq_all eqA (s t : mst Es) : same_shape Es shaped s t ->
  Forall2 (fun a b => eqA a b = true) (its (m_items Es s)) (its (m_items Es t)) -> outer_eq e eqA s t = true.
Proof.
  intros HS H.
  assert (W : Forall2 (fun v w => inner_eq e eqA v w = true) (m_items Es s) (m_items Es t)).
  { pose proof (items_shape Es _ s t HS) as HI. revert H. induction HI as [|v w l m Hv _ IH]; cbn; intros H; [constructor|].
    pose proof (Forall2_length _ _ _ (items_shape e _ v w Hv)) as Lv. apply Forall2_app_inv in H as [H1 H2]; [|exact Lv].
    constructor; auto using inner_eq_all. }
  destruct s as [k l|k l|k l|k l], t as [k2 m|k2 m|k2 m|k2 m]; try contradiction; cbn [outer_eq m_items] in *; auto using slice_eq_all.
  destruct HS as [_ HS]. apply cells_all; [|exact W].
  eapply Forall2_impl; [exact HS|]. intros x y. apply option_weaken.
Qed.
Lemma clones_like (f : A -> A -> Prop) cl : (forall n a b, cl n a = Some b -> f b a) -> forall l n, length (clones cl n l) = length l -> Forall2 f (clones cl n l) l.
Proof.
  intros Hf. induction l as [|a l IH]; intros n; cbn; [constructor|]. destruct (cl n a) as [b|] eqn:Eb; cbn; [|discriminate].
  intros El. constructor; eauto.
Qed.
End nest.
