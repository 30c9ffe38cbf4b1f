(** * Containers of containers: hashing and printing them. *)
From Verif Require Import Machine Spec Prims Program ChunkModel ChunkProofs ChunkProofs4 RingModel RingProofs RingProofs4 InlineModel InlineSpec InlineProofs2
  InlineLaws SparseModel SparseSpec SparseProofs SparseProofs2 IterSpec RefModel RefProofs RefProofs2
  MixModel MixSpec MixProofs MixProgram ChunkProgram RingProgram SparseProgram InlineProgram TempModel TempMix OwnModel OwnMix WalkModel WalkMix
  NestModel NestSpec NestNature NestProofs NestCopySpec NestCopyProofs NestShowModel NestShowSpec KeySpec.
From Verif Require PropertiesRef.

(** ** One container *)
Section one.
Context {B : Type} (f : env B).
Lemma m_hash_ok (x : mobj f) (s : mst f) g : MHolds f x s -> is_list f s -> m_hash f x g = Ret x g (Some (map HItem (m_items f s))).
Proof.
  destruct x as [k c|k c|k c|k [q c]], s as [k2 l|k2 l|k2 l|k2 l]; cbn [MHolds is_list m_hash m_items]; try contradiction; intros [-> H] _.
  - rewrite (ChunkProofs4.hash_ok f (`k2) (proj2_sig k2) c l g H). reflexivity.
  - destruct (proj2_sig k2) as [HW HN]. rewrite (rb_hash_ok f (`k2) HW HN c l g H). reflexivity.
  - destruct (proj2_sig k2) as [WF HOST]. unfold in_place, on_snd. cbn [fst snd].
    rewrite (ia_hash_eq f (`k2) WF HOST (address (`k2) q) c l g (address_placed _ _) H). reflexivity.
Qed.
Lemma m_fmt_ok (x : mobj f) (s : mst f) g : MHolds f x s -> m_fmt f x g = Ret x g (shows s).
Proof.
  destruct x as [k c|k c|k c|k [q c]], s as [k2 l|k2 l|k2 l|k2 l]; cbn [MHolds m_fmt shows]; try contradiction; intros [-> H].
  - destruct (PropertiesRef.C54_debug_output B f (`k2) g (proj2_sig k2)) as (P & _). rewrite (P c l H). reflexivity.
  - destruct (proj2_sig k2) as [HW HN]. destruct (PropertiesRef.C54_debug_output B f (`k2) g HW) as (_ & P & _). rewrite (P c l HN H). reflexivity.
  - rewrite (sp_fmt_ok f (`k2) (proj2_sig k2) c l g H). reflexivity.
  - destruct (proj2_sig k2) as [WF HOST]. unfold in_place, on_snd. cbn [fst snd].
    rewrite (PropertiesRef.C54_inline_debug_output B f (`k2) (address (`k2) q) c l g WF HOST (address_placed _ _) H). reflexivity.
Qed.
End one.

Lemma prefix_lists {A H} (h : A -> list H) hl : prefix_free h -> forall l m k, length l = length m ->
  fed h hl (map HItem l) ++ k = fed h hl (map HItem m) -> l = m.
Proof.
  intros P. induction l as [|a l IH]; intros [|b m] k; cbn; try discriminate; [reflexivity|]. intros [= HL] HE.
  rewrite <- app_assoc in HE. destruct (app_eq_inv _ _ _ _ HE) as [(z & E1 & E2)|(z & E1 & E2)].
  - assert (b = a) by (eapply P; symmetry; exact E1). subst b. f_equal.
    assert (z = []) by (apply (f_equal length) in E1; rewrite app_length in E1; destruct z; [reflexivity|cbn in E1; lia]). subst z.
    eapply IH; [exact HL|]. symmetry. exact E2.
  - assert (a = b) by (eapply P; symmetry; exact E1). subst b. f_equal.
    assert (z = []) by (apply (f_equal length) in E1; rewrite app_length in E1; destruct z; [reflexivity|cbn in E1; lia]). subst z.
    eapply IH; [exact HL|]. exact E2.
Qed.
Lemma concat_inj {A} (l m : list (list A)) : map length l = map length m -> concat l = concat m -> l = m.
Proof.
  revert m. induction l as [|x l IH]; intros [|y m]; cbn; try discriminate; [reflexivity|]. intros [= H1 H2] H3.
  apply app_inj_1 in H3; [|exact H1]. destruct H3 as [-> H3]. f_equal. apply IH; assumption.
Qed.
(** Lists of entries. *)
Lemma entries_shown {B C} (f : B -> C) (q : B -> B -> bool) : forall (a b : list (option B)) i, length a = length b ->
  (forall v w, In (Some v) a -> In (Some w) b -> (f v = f w <-> q v w = true)) ->
  (map (fun p => (fst p, f (snd p))) (entries_from i a) = map (fun p => (fst p, f (snd p))) (entries_from i b) <-> slice_eq (opt_eqb q) a b = true).
Proof.
  assert (LOW : forall (s : list (option B)) i p, In p (map (fun p => (fst p, f (snd p))) (entries_from i s)) -> i <= fst p).
  { intros s i p Hp. apply in_map_iff in Hp as ([j v] & <- & Hp). apply entries_from_in in Hp. cbn. tauto. }
  induction a as [|v a IH]; intros [|w b] i HL HQ; cbn in HL; try discriminate; [cbn; tauto|]. injection HL as HL.
  specialize (IH b (Datatypes.S i) HL ltac:(intros; apply HQ; right; assumption)).
  destruct v as [v|], w as [w|]; cbn [entries_from slice_eq opt_eqb map fst snd andb].
  - rewrite andb_true_iff, <- IH, <- (HQ v w) by (left; reflexivity). split; [intros [= -> H]; auto|intros [-> ->]; reflexivity].
  - split; [|discriminate]. intros H. exfalso. specialize (LOW b (Datatypes.S i) (i, f v)). rewrite <- H in LOW. specialize (LOW (or_introl eq_refl)). cbn in LOW. lia.
  - split; [|discriminate]. intros H. exfalso. specialize (LOW a (Datatypes.S i) (i, f w)). rewrite H in LOW. specialize (LOW (or_introl eq_refl)). cbn in LOW. lia.
  - exact IH.
Qed.
Lemma list_shown {B C} (f : B -> C) (q : B -> B -> bool) : forall l m,
  (forall v w, In v l -> In w m -> (f v = f w <-> q v w = true)) -> (map f l = map f m <-> slice_eq q l m = true).
Proof.
  induction l as [|v l IH]; intros [|w m] HQ; cbn; try (split; discriminate); [tauto|].
  rewrite andb_true_iff, <- (HQ v w) by (left; reflexivity). rewrite <- (IH m) by (intros; apply HQ; right; assumption). split; [intros [= -> H]; auto|intros [-> ->]; reflexivity].
Qed.

Section nest.
Context {A : Type} (e : env A).
Notation R := (MHolds e).
Notation bb := (fun x => existsb (bomb e) (contents e x)).
Notation E := (outer_env e).
Notation Es := (outer_senv e).
Notation lft := (lift e R bb (sbomb e)).

Lemma hash_elems_ok vs ts g : Forall2 R vs ts -> (forall t, In t ts -> is_list e t) ->
  hash_elems e (map HItem vs) tt g = Ret tt g (Some (map HItem (flat_map (m_items e) ts))).
Proof.
  induction 1 as [|v t vs ts Hv H IH]; intros HL; [reflexivity|]. cbn [map hash_elems flat_map].
  rewrite (m_hash_ok e v t g Hv) by (apply HL; left; reflexivity). rewrite IH by (intros; apply HL; right; assumption).
  cbn. rewrite map_app. reflexivity.
Qed.
Lemma fmt_elems_ok vs ts g : Forall2 R vs ts -> fmt_elems e vs tt g = Ret tt g (map shows ts).
Proof. induction 1 as [|v t vs ts Hv H IH]; [reflexivity|]. cbn [map fmt_elems]. rewrite (m_fmt_ok e v t g Hv), IH. reflexivity. Qed.

Lemma nest_hash_ok x (s : mst Es) g : OHolds e x s -> is_list Es s -> (forall v, In v (m_items Es s) -> is_list e v) ->
  nest_hash e x g = Ret x g (Some (map HItem (flat_map (m_items e) (m_items Es s)))).
Proof.
  intros (l & Hx & Hl) HI HK. unfold nest_hash. rewrite (m_hash_ok E x l log0 Hx) by (destruct l, s; cbn in *; try contradiction; exact I).
  rewrite (hash_elems_ok _ (m_items Es s) g) by (try exact HK; apply (items_alike e R bb (sbomb e)); exact Hl). reflexivity.
Qed.
Lemma nest_fmt_ok x (s : mst Es) g : OHolds e x s -> nest_fmt e x g = Ret x g (inside shows (shows s)).
Proof.
  intros (l & Hx & Hl). unfold nest_fmt. rewrite (m_fmt_ok E x l log0 Hx).
  destruct l as [k l|k l|k l|k l], s as [k2 s|k2 s|k2 s|k2 s]; cbn in Hl; try contradiction; destruct Hl as [_ Hl]; cbn [shows inside].
  1,2,4: rewrite (fmt_elems_ok l s g Hl); reflexivity.
  pose proof (entries_from_alike R l s Hl 0) as P. change (entries_from 0 l) with (entries l) in P. change (entries_from 0 s) with (entries s) in P.
  assert (Q : Forall2 R (map snd (entries l)) (map snd (entries s))) by (clear -P; induction P as [|? ? ? ? [? ?]]; cbn; constructor; auto).
  rewrite (fmt_elems_ok _ _ g Q). cbn [rewrap]. f_equal. f_equal.
  clear -P. induction P as [|[i v] [j t] l1 l2 [H1 H2] P IH]; cbn in *; [reflexivity|]. subst j. f_equal. exact IH.
Qed.

(** ** Telling containers apart *)
Lemma items_held x (s : mst Es) v : OHolds e x s -> In v (m_items Es s) -> exists o, R o v.
Proof.
  intros (l & Hx & Hl) Hv. pose proof (items_alike e R bb (sbomb e) l s Hl) as P.
  apply elem_of_list_In in Hv. destruct (proj1 (elem_of_list_lookup _ _) Hv) as [i Hi].
  destruct (Forall2_lookup_r _ _ _ _ _ P Hi) as (o & _ & H). exists o. exact H.
Qed.
Lemma outer_cells x k (s : list (option (mst e))) : OHolds e x (OfSparse (e := Es) k s) -> length s = `k.
Proof.
  intros (l & Hx & Hl). destruct x, l; cbn in Hx, Hl; try contradiction. destruct Hx as [-> Hx], Hl as [Hk Hl].
  rewrite <- (Forall2_length _ _ _ Hl). destruct Hx as [H _]. exact (eq_trans H Hk).
Qed.
Lemma inner_cells o k (s : list (option A)) : R o (OfSparse (e := e) k s) -> length s = `k.
Proof. destruct o; cbn; try contradiction. intros [-> [H _]]. exact H. Qed.
Lemma shows_eq (eqA : A -> A -> bool) o p (v w : mst e) : (forall a b, eqA a b = true <-> a = b) -> R o v -> R p w -> same_kind e v w ->
  (shows v = shows w <-> inner_eq e eqA v w = true).
Proof.
  intros HE Hv Hw HS.
  assert (L : forall n (l m : list A), ShowList n l = ShowList n m <-> slice_eq eqA l m = true).
  { intros n l m. rewrite <- (list_shown id eqA l m) by (intros; symmetry; apply HE). rewrite !map_id. split; [intros [= ->]; reflexivity|intros ->; reflexivity]. }
  destruct v as [k v|k v|k v|k v], w as [k2 w|k2 w|k2 w|k2 w]; cbn in HS; try contradiction; cbn [shows inner_eq m_items]; try apply L.
  assert (HL : length v = length w) by (rewrite (inner_cells o k v Hv), (inner_cells p k2 w Hw); exact HS).
  rewrite <- (entries_shown id eqA v w 0 HL) by (intros; symmetry; apply HE).
  assert (ID : forall l : list (nat * A), map (fun p => (fst p, id (snd p))) l = l) by (intros l; rewrite <- (map_id l) at 2; apply map_ext; intros []; reflexivity).
  rewrite !ID. fold (entries v). fold (entries w). split; [intros [= H]; exact H|intros H; f_equal; exact H].
Qed.
Lemma nested_shows_eq (eqA : A -> A -> bool) x y (s t : mst Es) : (forall a b, eqA a b = true <-> a = b) ->
  OHolds e x s -> OHolds e y t -> same_kind Es s t -> alike_kinds e s t ->
  (inside shows (shows s) = inside shows (shows t) <-> outer_eq e eqA s t = true).
Proof.
  intros HE Hx Hy HS HK.
  assert (Q : forall v w, In v (m_items Es s) -> In w (m_items Es t) -> (shows v = shows w <-> inner_eq e eqA v w = true)).
  { intros v w Hv Hw. destruct (items_held x s v Hx Hv) as [o Ho]. destruct (items_held y t w Hy Hw) as [p Hp].
    apply (shows_eq eqA o p); auto. }
  assert (L : forall n l m, m_items Es s = l -> m_items Es t = m -> (ShowList n (map shows l) = ShowList n (map shows m) <-> slice_eq (inner_eq e eqA) l m = true)).
  { intros n l m <- <-. rewrite <- (list_shown shows (inner_eq e eqA)) by exact Q. split; [intros [= ->]; reflexivity|intros ->; reflexivity]. }
  destruct s as [k s|k s|k s|k s], t as [k2 t|k2 t|k2 t|k2 t]; cbn in HS; try contradiction; cbn [shows inside outer_eq]; try (apply L; reflexivity).
  assert (HL : length s = length t) by (rewrite (outer_cells x k s Hx), (outer_cells y k2 t Hy); exact HS).
  rewrite <- (entries_shown shows (inner_eq e eqA) s t 0 HL).
  - fold (entries s). fold (entries t). split; [intros [= H]; exact H|intros H; f_equal; exact H].
  - intros v w Hv Hw. apply Q; cbn [m_items]; apply in_values; assumption.
Qed.
End nest.
