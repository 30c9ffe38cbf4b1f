(** * Specifications treat elements alike: with related elements they give related results. *)
From Verif Require Import Machine Spec Prims Program InlineModel InlineSpec SparseSpec SparseProofs IterSpec MixModel MixSpec MixProofs ChunkProgram RingProgram
  SparseProgram InlineProgram NestModel NestSpec.

Section nature.
Context {A : Type} (e : env A) {B1 B2 : Type} (R : B1 -> B2 -> Prop) (b1 : B1 -> bool) (b2 : B2 -> bool).
Notation E1 := (over e b1).
Notation E2 := (over e b2).
Notation OR := (option_Forall2 R).

Definition lift (x : mst E1) (y : mst E2) : Prop :=
  match x, y with
  | OfChunk k l, OfChunk k2 l2 => `k = `k2 /\ Forall2 R l l2
  | OfRing k l, OfRing k2 l2 => `k = `k2 /\ Forall2 R l l2
  | OfSparse k s, OfSparse k2 s2 => `k = `k2 /\ Forall2 OR s s2
  | OfInline k l, OfInline k2 l2 => `k = `k2 /\ Forall2 R l l2
  | _, _ => False
  end.
Definition alike {S1 S2 T1 T2} (RS : S1 -> S2 -> Prop) (RT : T1 -> T2 -> Prop) (s1 : sres B1 S1 T1) (s2 : sres B2 S2 T2) : Prop :=
  match s1, s2 with
  | SRet x r d, SRet x2 r2 d2 => RS x x2 /\ RT r r2 /\ Forall2 R d d2
  | SPanic x d k, SPanic x2 d2 k2 => RS x x2 /\ Forall2 R d d2 /\ Forall2 R k k2
  | _, _ => False
  end.
Definition res_alike (r1 : mres B1) (r2 : mres B2) : Prop := info r1 = info r2 /\ Forall2 R (m_outs r1) (m_outs r2).

Lemma entries_from_alike s s2 : Forall2 OR s s2 -> forall i,
  Forall2 (fun x y => fst x = fst y /\ R (snd x) (snd y)) (entries_from i s) (entries_from i s2).
Proof.
  induction 1 as [|x y s s2 Hx HF IH]; intros i; cbn; [constructor|].
  inversion Hx; subst; [constructor; auto|apply IH].
Qed.
Lemma values_alike s s2 : Forall2 OR s s2 -> Forall2 R (values s) (values s2).
Proof.
  intros H. unfold values, entries. generalize 0. induction H as [|x y s s2 Hx HF IH]; intros i; cbn; [constructor|].
  inversion Hx; subst; cbn; [constructor; auto|apply IH].
Qed.
Lemma items_alike x y : lift x y -> Forall2 R (m_items E1 x) (m_items E2 y).
Proof. destruct x, y; cbn; try contradiction; intros [_ H]; auto using values_alike. Qed.
Lemma lookup_alike {X Y} (P : X -> Y -> Prop) l l2 i : Forall2 P l l2 ->
  match l !! i, l2 !! i with Some a, Some b => P a b | None, None => True | _, _ => False end.
Proof. intros H. revert i. induction H as [|a b l l2 Hab H IH]; intros [|i]; cbn; auto. apply IH. Qed.
Lemma elem_alike i x y : lift x y -> OR (elem e i x) (elem e i y).
Proof.
  destruct x as [k l|k l|k l|k l], y as [k2 l2|k2 l2|k2 l2|k2 l2]; cbn; try contradiction; intros [_ H];
    pose proof (lookup_alike _ l l2 i H) as P.
  3: destruct (l !! i) as [o|], (l2 !! i) as [o2|]; try contradiction; [|constructor]; cbn; destruct P; constructor; assumption.
  all: destruct (l !! i), (l2 !! i); try contradiction; constructor; assumption.
Qed.
Lemma with_elem_alike i v w x y : R v w -> lift x y -> lift (with_elem e i v x) (with_elem e i w y).
Proof.
  intros Hv. destruct x as [k l|k l|k l|k l], y as [k2 l2|k2 l2|k2 l2|k2 l2]; cbn; try contradiction; intros [Hk H]; (split; [exact Hk|]);
    apply Forall2_insert; auto. constructor. exact Hv.
Qed.

(** Reading and writing an element. *)
Lemma spec_index i (x : mst E1) :
  match spec1 (mix_spec E1) (o_index i x) x with
  | SRet x' r d => x' = x /\ d = [] /\ exists v, elem e i x = Some v /\ ref_of r = Some v
  | SPanic x' d k => x' = x /\ d = [] /\ k = [] /\ elem e i x = None
  end.
Proof.
  destruct x as [k l|k l|k l|k l]; cbn [o_index spec1 mix_spec chunk_spec ring_spec array_spec ia_spec elem].
  all: unfold bl_index, ar_index; destruct (l !! i) as [o|] eqn:E; cbn; rewrite ?E; eauto 6.
  destruct o; cbn; rewrite ?E; eauto 6.
Qed.
Lemma legal_index i (x : mst E1) : legal1 (mix_spec E1) (o_index i x) x.
Proof. destruct x; exact I. Qed.
Lemma spec_assign i v w (x : mst E1) : elem e i x = Some w -> exists r,
  spec1 (mix_spec E1) (o_assign i v x) x = SRet (with_elem e i v x) r [w].
Proof.
  destruct x as [k l|k l|k l|k l]; cbn [o_assign spec1 mix_spec chunk_spec ring_spec array_spec ia_spec elem with_elem]; intros E.
  3: { unfold ar_assign. destruct (l !! i) as [[a|]|]; try discriminate. injection E as ->. cbn. eauto. }
  all: unfold bl_assign; rewrite E; cbn; rewrite <- insert_take_drop by eauto using lookup_lt_Some; eauto.
Qed.
Lemma legal_assign i v (x : mst E1) : legal1 (mix_spec E1) (o_assign i v x) x.
Proof. destruct x; exact I. Qed.

Ltac lens := repeat match goal with H : Forall2 _ ?l ?l2 |- _ => lazymatch goal with
   | _ : length l = length l2 |- _ => fail | _ => pose proof (Forall2_length _ _ _ H) end end.
Local Hint Constructors Forall2 : core.
Ltac done_alike := cbn; unfold res_alike, unit_res, sp_unit_res, mres_unit; cbn; repeat split; auto 10 using Forall2_app, Forall2_take, Forall2_drop.

Lemma put_alike o v w x y : R v w -> lift x y ->
  alike lift res_alike (spec1 (mix_spec E1) (o_put o x v) x) (spec1 (mix_spec E2) (o_put o y w) y).
Proof.
  intros Hv. destruct x as [k l|k l|k l|k l], y as [k2 l2|k2 l2|k2 l2|k2 l2]; try contradiction; intros [Hk H];
    pose proof (Forall2_length _ _ _ H) as Hl; destruct o as [| |i];
    cbn [o_put spec1 mix_spec chunk_spec ring_spec array_spec ia_spec]; try (done_alike; fail).
  all: try change (capacity E2 (`k2)) with (capacity E1 (`k2)); rewrite <- ?Hk.
  all: unfold bl_push_front, bl_push_back, bl_insert, ar_insert; rewrite <- ?Hl.
  all: try (match goal with |- context [if ?b then _ else _] => destruct b end; done_alike; fail).
  pose proof (lookup_alike _ l l2 i H) as P. destruct (l !! i) as [o|], (l2 !! i) as [o2|]; try contradiction; done_alike.
  - apply Forall2_insert; [exact H|]. constructor. exact Hv.
  - destruct P; constructor; auto.
Qed.
Lemma take_alike o x y : lift x y ->
  alike lift res_alike (spec1 (mix_spec E1) (o_take o x) x) (spec1 (mix_spec E2) (o_take o y) y).
Proof.
  destruct x as [k l|k l|k l|k l], y as [k2 l2|k2 l2|k2 l2|k2 l2]; try contradiction; intros [Hk H];
    pose proof (Forall2_length _ _ _ H) as Hl; destruct o as [| |i];
    cbn [o_take spec1 mix_spec chunk_spec ring_spec array_spec ia_spec]; try (done_alike; fail).
  all: unfold bl_pop_front, bl_pop_back, bl_try_pop_front, bl_try_pop_back, bl_remove, bl_try_remove, ar_pop, ar_remove.
  all: try match goal with |- context [match ?l with [] => SPanic _ _ _ | _ => _ end] => destruct H; done_alike end.
  all: try match goal with |- context [match ?l with [] => SRet _ None _ | _ => _ end] => is_var l; destruct H; done_alike end.
  all: try match goal with H : Forall2 _ ?l ?l2, Hl : length ?l = _ |- context [?l !! ?i] =>
      pose proof (lookup_alike _ l l2 i H) as P; rewrite <- ?Hl; destruct (l !! i), (l2 !! i); try contradiction; done_alike; try (destruct P; constructor; auto) end.
  - pose proof (entries_from_alike _ _ H 0) as P. unfold entries. inversion P as [|[i a] [i2 a2] m m2 [E Ha] _ E1' E2']; done_alike.
    cbn in E. subst i2. apply Forall2_insert; [exact H|constructor].
  - apply Forall2_insert; [exact H|constructor].
Qed.
Lemma method_alike o x y : lift x y ->
  alike lift res_alike (spec1 (mix_spec E1) (o_method o x) x) (spec1 (mix_spec E2) (o_method o y) y).
Proof.
  destruct x as [k l|k l|k l|k l], y as [k2 l2|k2 l2|k2 l2|k2 l2]; try contradiction; intros [Hk H];
    pose proof (Forall2_length _ _ _ H) as Hl; destruct o as [|n|n| |q];
    cbn [o_method spec1 mix_spec chunk_spec ring_spec array_spec ia_spec]; try (done_alike; fail).
  all: unfold bl_clear, bl_drop_left, bl_drop_right; rewrite <- ?Hl; try (match goal with |- context [if ?b then _ else _] => destruct b end); try (done_alike; fail).
  cbn. repeat split; auto. cbn. pose proof (Forall2_length _ _ _ (values_alike _ _ H)) as ->. reflexivity.
  constructor.
Qed.
Lemma no_cells_alike n : Forall2 OR (no_cells n) (no_cells n).
Proof. induction n; constructor; [constructor|assumption]. Qed.
Lemma without_first_alike n s s2 : Forall2 OR s s2 -> Forall2 OR (without_first n s) (without_first n s2).
Proof.
  intros H. revert n. induction H as [|x y s s2 Hx H IH]; intros [|n]; cbn; [constructor|constructor|constructor; auto|].
  destruct Hx; constructor; auto; constructor.
Qed.
Lemma after_alike sd n x y : lift x y -> lift (after E1 sd n x) (after E2 sd n y).
Proof.
  destruct x as [k l|k l|k l|k l], y as [k2 l2|k2 l2|k2 l2|k2 l2]; cbn; try contradiction; intros [Hk H]; split; auto using without_first_alike;
    destruct sd; cbn; rewrite <- ?(Forall2_length _ _ _ H); auto using Forall2_take, Forall2_drop.
Qed.
Lemma rev_alike l l2 : Forall2 R l l2 -> Forall2 R (rev l) (rev l2).
Proof. induction 1; cbn; [constructor|]. apply Forall2_app; auto. Qed.
Lemma queue_alike sd x y : lift x y -> Forall2 R (queue E1 sd x) (queue E2 sd y).
Proof. intros H. apply items_alike in H. destruct sd; cbn; auto using rev_alike. Qed.
Lemma fresh_alike t l l2 : Forall2 R l l2 -> lift (fresh E1 (o_target e b1 t) l) (fresh E2 (o_target e b2 t) l2).
Proof. destruct t; cbn; auto. Qed.
Lemma cap_alike t : target_cap E1 (o_target e b1 t) = target_cap E2 (o_target e b2 t).
Proof. destruct t; reflexivity. Qed.
Lemma some_alike l l2 : Forall2 R l l2 -> Forall2 OR (map Some l) (map Some l2).
Proof. induction 1; cbn; constructor; auto. constructor. assumption. Qed.
Lemma spawn_alike o x y : lift x y ->
  alike lift lift (specn (mix_spec E1) (o_spawn e o x) x) (specn (mix_spec E2) (o_spawn e o y) y).
Proof.
  intros L. destruct o as [q i| |sd t|sd k0]; cbn [o_spawn].
  3: { cbn [specn mix_spec]. unfold mix_collect. pose proof (queue_alike sd _ _ L) as Q. pose proof (Forall2_length _ _ _ Q) as Hl.
       rewrite <- Hl, <- (cap_alike t). destruct (_ <=? _); cbn; repeat split; auto using after_alike, fresh_alike.
       apply Forall2_app; [|auto using Forall2_take]. destruct (Forall2_drop _ _ _ (target_cap E1 (o_target e b1 t)) Q); repeat constructor; auto. }
  3: { cbn [specn mix_spec]. unfold mix_collect_sparse. pose proof (queue_alike sd _ _ L) as Q. pose proof (Forall2_length _ _ _ Q) as Hl.
       rewrite <- Hl. destruct (_ <=? _); cbn; repeat split; auto using after_alike.
       - apply Forall2_app; [auto using some_alike|apply no_cells_alike].
       - apply Forall2_app; [|auto using Forall2_take]. destruct (Forall2_drop _ _ _ (`k0) Q); repeat constructor; auto. }
  all: destruct x as [k l|k l|k l|k l], y as [k2 l2|k2 l2|k2 l2|k2 l2]; try contradiction; destruct L as [Hk H];
    pose proof (Forall2_length _ _ _ H) as Hl;
    cbn [specn mix_spec chunk_spec ring_spec array_spec ia_spec]; try (done_alike; fail).
  all: unfold bl_split_off; rewrite <- ?Hl; try (match goal with |- context [if ?b then _ else _] => destruct b end); try (done_alike; fail).
Qed.
Definition lift2 (x : mst E1 * mst E1) (y : mst E2 * mst E2) : Prop := lift (fst x) (fst y) /\ lift (snd x) (snd y).
Lemma m_cap_alike x y : lift x y -> m_cap E1 x = m_cap E2 y.
Proof. destruct x as [k l|k l|k l|k l], y as [k2 l2|k2 l2|k2 l2|k2 l2]; cbn; try contradiction; intros [Hk _]; rewrite <- ?Hk; auto. Qed.
Lemma with_items_alike x y l l2 : is_list E1 x -> lift x y -> Forall2 R l l2 -> lift (with_items E1 x l) (with_items E2 y l2).
Proof. destruct x as [k m|k m|k m|k m], y as [k2 m2|k2 m2|k2 m2|k2 m2]; cbn; try contradiction; intros _ [Hk _]; auto. Qed.
Lemma merge_alike o x y x2 y2 : lift x x2 -> lift y y2 -> legal2 (mix_spec E1) (o_merge o x) (x, y) ->
  alike lift2 (fun _ _ => True) (spec2 (mix_spec E1) (o_merge o x) (x, y)) (spec2 (mix_spec E2) (o_merge o x2) (x2, y2)).
Proof.
  intros L L2 HL. destruct o as [|sd].
  2: { cbn [o_merge spec2 mix_spec fst snd] in *. unfold mix_extend. destruct HL as [HL _].
       pose proof (queue_alike sd _ _ L2) as Q. pose proof (Forall2_length _ _ _ Q) as Hl.
       pose proof (items_alike _ _ L) as P. pose proof (Forall2_length _ _ _ P) as Hl2.
       rewrite <- Hl, <- Hl2, <- (m_cap_alike _ _ L). destruct (_ <=? _); cbn; repeat split; cbn [fst snd]; auto using after_alike.
       - apply with_items_alike; auto. apply Forall2_app; auto.
       - apply with_items_alike; auto. apply Forall2_app; auto using Forall2_take.
       - match goal with |- Forall2 _ (firstn _ (skipn ?n _)) _ => destruct (Forall2_drop _ _ _ n Q); repeat constructor; auto end. }
  destruct x as [k l|k l|k l|k l], x2 as [k2 l2|k2 l2|k2 l2|k2 l2]; try contradiction.
  all: destruct y as [j m|j m|j m|j m], y2 as [j2 m2|j2 m2|j2 m2|j2 m2]; try contradiction; cbn in HL; try tauto.
  all: destruct L as [Hk H], L2 as [Hk2 H2];
    pose proof (Forall2_length _ _ _ H) as Hl; pose proof (Forall2_length _ _ _ H2) as Hl2.
  all: cbn [o_merge spec2 mix_spec chunk_spec ring_spec fst snd]; unfold bl_append; cbn [fst snd]; rewrite <- Hl, <- Hl2, <- Hk;
    destruct (_ <=? _); cbn; repeat split; auto using Forall2_app.
Qed.
Lemma new_alike o : alike eq lift (spec0 (mix_spec E1) (o_new e b1 o)) (spec0 (mix_spec E2) (o_new e b2 o)).
Proof. destruct o; cbn; repeat split; auto. apply no_cells_alike. Qed.

(** The same calls are legal. *)
Lemma legal_put o v w x y : lift x y -> legal1 (mix_spec E2) (o_put o y w) y -> legal1 (mix_spec E1) (o_put o x v) x.
Proof. destruct x, y, o; cbn; tauto. Qed.
Lemma legal_take o x y : lift x y -> legal1 (mix_spec E2) (o_take o y) y -> legal1 (mix_spec E1) (o_take o x) x.
Proof. destruct x, y, o; cbn; tauto. Qed.
Lemma legal_method o x y : lift x y -> legal1 (mix_spec E2) (o_method o y) y -> legal1 (mix_spec E1) (o_method o x) x.
Proof. destruct x, y, o; cbn; tauto. Qed.
Lemma legal_spawn o x y : lift x y -> legaln (mix_spec E2) (o_spawn e o y) y -> legaln (mix_spec E1) (o_spawn e o x) x.
Proof. destruct o, x, y; cbn; tauto. Qed.
Lemma legal_merge o x y x2 y2 : lift x x2 -> lift y y2 -> legal2 (mix_spec E2) (o_merge o x2) (x2, y2) -> legal2 (mix_spec E1) (o_merge o x) (x, y).
Proof.
  destruct o, x, x2; cbn; try contradiction; destruct y, y2; cbn; try contradiction; try tauto; intros [H1 _] [H2 _] [H3 _]; split; auto; congruence.
Qed.
End nature.
