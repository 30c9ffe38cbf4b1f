(** * SparseChunk: the capacity is only a limit.  A larger array has empty cells at its end. *)
From Verif Require Import Machine Spec Prims Program SparseModel SparseSpec SparseProofs SparseProofs2 SparseProofs3 SparseProgram Portable Capacity.

(** [f] embeds the states of the smaller container; [I] holds of the states it can have. *)
Definition grows {A S R} (I : S -> Prop) (f : S -> S) (x y : sres A S R) : Prop :=
  match x with SRet s r d => I s /\ y = SRet (f s) r d | SPanic _ _ _ => True end.
Section generic.
Context {A op0 op1 opn op2 res st : Type} (S1 S2 : skit A op0 op1 opn op2 res st) (ok : op1 -> Prop) (I : st -> Prop) (f : st -> st).
Hypothesis K0 : forall o, match spec0 S1 o with SRet _ s d => I s /\ spec0 S2 o = SRet tt (f s) d | _ => True end.
Hypothesis K1 : forall o x, ok o -> I x -> grows I f (spec1 S1 o x) (spec1 S2 o (f x)).
Hypothesis Kn : forall o x, I x -> match specn S1 o x with SRet x' y d => I x' /\ I y /\ specn S2 o (f x) = SRet (f x') (f y) d | _ => True end.
Hypothesis K2 : forall o x y, I x -> I y -> match spec2 S1 o (x, y) with
  SRet (x', y') r d => I x' /\ I y' /\ spec2 S2 o (f x, f y) = SRet (f x', f y') r d | _ => True end.
Hypothesis Ki : forall x, items S2 (f x) = items S1 x.
Let F (s : list (option st)) := map (option_map f) s.
Let OI (x : option st) := match x with Some x => I x | None => True end.
Lemma F_lookup s i : F s !! i = option_map (option_map f) (s !! i).
Proof. unfold F. revert i. induction s as [|x s IH]; intros [|i]; cbn; auto. Qed.
Lemma F_insert s i x : F (<[i := x]> s) = <[i := option_map f x]> (F s).
Proof. unfold F. revert i. induction s as [|y s IH]; intros [|i]; cbn; auto. f_equal. apply IH. Qed.
Lemma OI_insert s i x : Forall OI s -> OI x -> Forall OI (<[i := x]> s).
Proof. intros. apply Forall_insert; assumption. Qed.
Lemma OI_snoc s x : Forall OI s -> OI x -> Forall OI (s ++ [x]).
Proof. intros. apply Forall_app. split; [assumption|]. repeat constructor; assumption. Qed.
Lemma OI_lookup s i x : Forall OI s -> s !! i = Some (Some x) -> I x.
Proof. intros H E. exact (Forall_lookup_1 _ _ _ _ H E). Qed.
Lemma grows_step c s : asks ok c -> Forall OI s -> let '(s', d, k, ev) := sstep S1 c s in
  ev <> Panicked -> Forall OI s' /\ sstep S2 c (F s) = (F s', d, k, ev).
Proof.
  destruct c as [o|i o|i o|i j o|i]; cbn [asks sstep]; intros Ho HI.
  - specialize (K0 o). destruct (spec0 S1 o) as [u x d|]; [|congruence]. destruct K0 as [Hx ->]. intros _.
    split; [apply OI_snoc; assumption|]. unfold F. rewrite map_app. reflexivity.
  - rewrite F_lookup. destruct (s !! i) as [[x|]|] eqn:E; cbn [option_map]; auto.
    specialize (K1 o x Ho (OI_lookup _ _ _ HI E)). destruct (spec1 S1 o x) as [x' r d|]; [|congruence]. destruct K1 as [Hx ->]. intros _.
    split; [apply OI_insert; assumption|]. rewrite F_insert. reflexivity.
  - rewrite F_lookup. destruct (s !! i) as [[x|]|] eqn:E; cbn [option_map].
    + specialize (Kn o x (OI_lookup _ _ _ HI E)). destruct (specn S1 o x) as [x' y d|]; [|congruence]. destruct Kn as (Hx & Hy & ->). intros _.
      split; [apply OI_snoc; [apply OI_insert; assumption|exact Hy]|]. change (F (?a ++ ?b)) with (map (option_map f) (a ++ b)). rewrite map_app.
      change (map (option_map f) (<[i:=Some x']> s)) with (F (<[i:=Some x']> s)). rewrite F_insert. reflexivity.
    + intros _. split; [apply OI_snoc; [assumption|exact Logic.I]|]. unfold F. rewrite map_app. reflexivity.
    + intros _. split; [apply OI_snoc; [assumption|exact Logic.I]|]. unfold F. rewrite map_app. reflexivity.
  - destruct (i =? j); auto. rewrite !F_lookup. destruct (s !! i) as [[x|]|] eqn:Ei; cbn [option_map]; auto.
    destruct (s !! j) as [[y|]|] eqn:Ej; cbn [option_map]; auto.
    specialize (K2 o x y (OI_lookup _ _ _ HI Ei) (OI_lookup _ _ _ HI Ej)).
    destruct (spec2 S1 o (x, y)) as [[x' y'] r d|[x' y'] d k]; [|congruence]. destruct K2 as (Hx & Hy & ->). intros _.
    split; [apply OI_insert; [apply OI_insert; assumption|exact Hy]|]. rewrite !F_insert. reflexivity.
  - rewrite F_lookup. destruct (s !! i) as [[x|]|] eqn:E; cbn [option_map]; auto. intros _.
    split; [apply OI_insert; [assumption|exact Logic.I]|]. rewrite Ki, F_insert. reflexivity.
Qed.
Lemma grows_run p : Forall (asks ok) p -> forall s, Forall OI s -> ~ In Panicked (s_events (srun S1 p s)) ->
  s_store (srun S2 p (F s)) = F (s_store (srun S1 p s)) /\ s_dropped (srun S2 p (F s)) = s_dropped (srun S1 p s) /\
  s_leaked (srun S2 p (F s)) = s_leaked (srun S1 p s) /\ s_events (srun S2 p (F s)) = s_events (srun S1 p s).
Proof.
  induction 1 as [|c p Hc _ IH]; intros s HI; cbn [srun]; [auto|]. pose proof (grows_step c s Hc HI) as E.
  destruct (sstep S1 c s) as [[[s' d] k] ev] eqn:E1. cbn [s_events]. intros Hn.
  destruct E as [HI' E]; [intros ->; apply Hn; left; reflexivity|]. rewrite E.
  destruct (IH s' HI') as (H1 & H2 & H3 & H4); [intros H; apply Hn; right; exact H|]. cbn [s_store s_dropped s_leaked s_events].
  rewrite H1, H2, H3, H4. auto.
Qed.
End generic.

Section cells.
Context {A : Type} (N1 N2 : nat).
Hypothesis HN : N1 <= N2.
Definition pad (s : list (option A)) : list (option A) := s ++ replicate (N2 - N1) None.
Lemma entries_from_pad k : forall i (s : list (option A)), entries_from i (s ++ replicate k None) = entries_from i s.
Proof.
  intros i s. revert i. induction s as [|[a|] s IH]; intros i; cbn [entries_from app]; [|rewrite IH; reflexivity|apply IH].
  revert i. induction k as [|k IHk]; intros i; cbn; auto.
Qed.
Lemma entries_pad s : entries (pad s) = entries s. Proof. apply entries_from_pad. Qed.
Lemma values_pad s : values (pad s) = values s. Proof. unfold values. rewrite entries_pad. reflexivity. Qed.
Lemma occupied_pad s : occupied (pad s) = occupied s. Proof. unfold occupied. rewrite entries_pad. reflexivity. Qed.
Lemma pad_some s i x : s !! i = Some x -> pad s !! i = Some x.
Proof. intros E. unfold pad. apply lookup_app_l_Some. exact E. Qed.
Lemma pad_join s i : mjoin (pad s !! i) = mjoin (s !! i).
Proof.
  unfold pad. destruct (s !! i) as [x|] eqn:E; [rewrite (lookup_app_l_Some _ _ _ _ E); reflexivity|].
  rewrite lookup_app, E. destruct (replicate _ _ !! _) as [x|] eqn:E2; [|reflexivity].
  apply lookup_replicate in E2 as [-> _]. reflexivity.
Qed.
Lemma pad_insert s i x y : s !! i = Some y -> <[i := x]> (pad s) = pad (<[i := x]> s).
Proof. intros E. unfold pad. apply insert_app_l. exact (lookup_lt_Some _ _ _ E). Qed.
Lemma pad_no_cells : pad (no_cells N1) = no_cells N2.
Proof. unfold pad, no_cells. rewrite <- replicate_add. f_equal. lia. Qed.
Lemma pad_no_cells_insert i (x : option A) : i < N1 -> <[i := x]> (no_cells N2) = pad (<[i := x]> (no_cells N1)).
Proof. intros Hi. rewrite <- pad_no_cells. eapply pad_insert. apply no_cells_lookup. exact Hi. Qed.
Lemma refill_pad k : forall (s : list (option A)) vs, length vs = length (values s) ->
  refill (s ++ replicate k None) vs = refill s vs ++ replicate k None.
Proof.
  assert (H0 : forall vs, refill (replicate k (@None A)) vs = replicate k None) by (induction k as [|k IH]; intros vs; cbn; [destruct vs; reflexivity|rewrite IH; reflexivity]).
  intros s. intros vs _. revert vs.
  induction s as [|[a|] s IH]; intros vs.
  - cbn [app]. rewrite H0. destruct vs; reflexivity.
  - destruct vs as [|v vs]; cbn [app refill]; rewrite IH; reflexivity.
  - cbn [app refill]. destruct vs; cbn [refill app]; rewrite IH; reflexivity.
Qed.
Lemma refill_length_any : forall (s : list (option A)) vs, length (refill s vs) = length s.
Proof. induction s as [|[a|] s IH]; intros [|v vs]; cbn; auto. Qed.
Lemma slice_eq_pad (eqA : A -> A -> bool) k : forall s t : list (option A), length s = length t ->
  slice_eq (opt_eqb eqA) (s ++ replicate k None) (t ++ replicate k None) = slice_eq (opt_eqb eqA) s t.
Proof.
  assert (H0 : slice_eq (opt_eqb eqA) (replicate k None) (replicate k None) = true) by (induction k; cbn; auto).
  induction s as [|x s IH]; intros [|y t] Hl; cbn in Hl; try lia; cbn [app slice_eq]; [exact H0|]. rewrite IH by lia. reflexivity.
Qed.
Lemma ar_fill_pad it : forall i s, length s = N1 ->
  grows (fun s => length s = N1) pad (ar_fill it i s) (ar_fill it i (pad s)).
Proof.
  induction it as [|[[v|]|] it IH]; intros i s Hl; cbn [ar_fill]; try exact I.
  - split; auto.
  - destruct (i <? length s) eqn:E; [|exact I]. rewrite if_true by (unfold pad; rewrite app_length; lia).
    destruct (lookup_lt_is_Some_2 s i ltac:(lia)) as [y Hy]. rewrite (pad_insert s i _ y Hy). apply IH. rewrite insert_length. exact Hl.
  - apply IH. exact Hl.
Qed.

(** The program does not ask whether a container is full, nor for the cells behind the last one. *)
Definition sp_ok (o : sp_op1 A) : Prop := match o with PIsFull => False | POptionDrain n => n <= N1 | _ => True end.
Lemma sparse_grows p : Forall (asks sp_ok) p -> forall s, Forall (fun x => match x with Some x => length x = N1 | None => True end) s ->
  ~ In Panicked (s_events (srun (array_spec N1) p s)) ->
  let F := map (option_map pad) in
  s_store (srun (array_spec N2) p (F s)) = F (s_store (srun (array_spec N1) p s)) /\
  s_dropped (srun (array_spec N2) p (F s)) = s_dropped (srun (array_spec N1) p s) /\
  s_leaked (srun (array_spec N2) p (F s)) = s_leaked (srun (array_spec N1) p s) /\
  s_events (srun (array_spec N2) p (F s)) = s_events (srun (array_spec N1) p s).
Proof.
  intros Hp s Hs Hn. cbn zeta. apply (grows_run (array_spec N1) (array_spec N2) sp_ok (fun x => length x = N1) pad); auto.
  - intros [|i v|i1 v1 i2 v2|it]; cbn [spec0 array_spec].
    + split; [apply replicate_length|]. rewrite pad_no_cells. reflexivity.
    + unfold ar_unit. destruct (i <? N1) eqn:E; [|exact I]. rewrite if_true by lia.
      split; [rewrite insert_length; apply replicate_length|]. rewrite pad_no_cells_insert by lia. reflexivity.
    + unfold ar_pair. destruct (i1 <? N1) eqn:E1; [|exact I]. destruct (i2 <? N1) eqn:E2; [|exact I].
      rewrite !if_true by lia. split; [rewrite !insert_length; apply replicate_length|]. rewrite pad_no_cells_insert by lia.
      destruct (lookup_lt_is_Some_2 (<[i1:=Some v1]> (no_cells N1)) i2) as [y Hy]; [rewrite insert_length; unfold no_cells; rewrite replicate_length; lia|].
      rewrite (pad_insert _ i2 _ y Hy). reflexivity.
    + unfold ar_from_iter. pose proof (ar_fill_pad it 0 (no_cells N1) (replicate_length _ _)) as G. rewrite pad_no_cells in G.
      destruct (ar_fill it 0 (no_cells N1)); [|exact I]. destruct G as [G ->]. auto.
  - intros o x Ho Hx. destruct o; cbn [spec1 array_spec sp_ok] in *; try contradiction.
    + unfold ar_insert. destruct (x !! i) as [y|] eqn:E; [|exact I]. rewrite (pad_some _ _ _ E). cbn [smapR grows].
      rewrite insert_length, (pad_insert _ _ _ _ E). auto.
    + unfold ar_remove. destruct (x !! i) as [y|] eqn:E; [|exact I]. rewrite (pad_some _ _ _ E). cbn [smapR grows].
      rewrite insert_length, (pad_insert _ _ _ _ E). auto.
    + cbn [smapR ar_option_drain grows]. rewrite app_length, drop_length. unfold no_cells at 1. rewrite replicate_length, take_length. split; [lia|].
      unfold pad at 1 2 3 4. rewrite take_app_le, drop_app_le by lia. rewrite app_length.
      replace (n - (length x + length (replicate (N2 - N1) (@None A)))) with (n - length x) by lia.
      unfold pad. rewrite app_assoc, take_length. reflexivity.
    + unfold ar_pop. rewrite entries_pad. destruct (entries x) as [|[i a] es] eqn:E; cbn [smapR grows]; [auto|].
      assert (Ei : x !! i = Some (Some a)). { apply entries_in. rewrite E. left. reflexivity. }
      rewrite insert_length, (pad_insert _ _ _ _ Ei). auto.
    + cbn. rewrite pad_join. auto.
    + unfold ar_replace. pose proof (pad_join x i) as J. destruct (x !! i) as [[a|]|] eqn:E.
      * rewrite (pad_some _ _ _ E). cbn [smapR grows]. rewrite insert_length, (pad_insert _ _ _ _ E). auto.
      * rewrite (pad_some _ _ _ E). cbn [smapR grows]. auto.
      * destruct (pad x !! i) as [[a|]|]; [discriminate J| |]; cbn [smapR grows]; auto.
    + unfold ar_index. destruct (x !! i) as [[a|]|] eqn:E; try exact I. rewrite (pad_some _ _ _ E). cbn. auto.
    + unfold ar_assign. destruct (x !! i) as [[a|]|] eqn:E; try exact I. rewrite (pad_some _ _ _ E). cbn [smapR grows].
      rewrite insert_length, (pad_insert _ _ _ _ E). auto.
    + cbn [smapR ar_assign_all grows]. rewrite refill_length_any, values_pad. split; [exact Hx|]. unfold pad at 1. rewrite refill_pad; [reflexivity|].
      rewrite map_length, seq_length. reflexivity.
    + cbn [grows]. rewrite values_pad. auto.
    + cbn [grows]. rewrite values_pad. auto.
    + cbn [grows]. rewrite occupied_pad. auto.
    + cbn [grows]. rewrite occupied_pad. auto.
    + cbn [grows]. unfold cells_eq_map. rewrite values_pad, entries_pad. auto.
  - intros [cl] x Hx. cbn [specn array_spec]. unfold ar_clone. rewrite values_pad. destruct (_ =? _) eqn:E; [|exact I].
    split; [exact Hx|]. split; [rewrite refill_length_any; exact Hx|]. unfold pad at 2. rewrite refill_pad by lia. reflexivity.
  - intros [eqA] x y Hx Hy. cbn [spec2 array_spec fst snd]. split; [exact Hx|]. split; [exact Hy|]. unfold cells_eq, pad. rewrite slice_eq_pad by congruence. reflexivity.
  - intros x. cbn [items array_spec]. apply values_pad.
Qed.
End cells.

Theorem sparse_capacity {A} (e1 e2 : env A) N1 N2 p X1 X2 L g1 g2 : calm e1 -> calm e2 -> N1 <= N2 -> N1 < word e1 -> N2 < word e2 ->
  Forall2 (orel (SHolds N1)) X1 L -> Forall2 (orel (fun c s => SHolds N2 c (pad N1 N2 s))) X2 L ->
  Forall (asks (sp_ok N1)) p -> ~ In Panicked (s_events (srun (array_spec N1) p L)) ->
  alike (SHolds N1) (fun c s => SHolds N2 c (pad N1 N2 s)) g1 g2 (run (sparse_kit e1 N1) p X1 g1) (run (sparse_kit e2 N2) p X2 g2).
Proof.
  intros Hc1 Hc2 HN W1 W2 HX1 HX2 Ha Hp.
  assert (HL : Forall (fun x => match x with Some x => length x = N1 | None => True end) L).
  { clear - HX1. induction HX1 as [|[x|] [y|] X Y Hxy _ IH]; constructor; auto; cbn in Hxy; auto; try contradiction. apply Hxy. }
  assert (HF : forall X Y, Forall2 (orel (fun c s => SHolds N2 c (pad N1 N2 s))) X Y <-> Forall2 (orel (SHolds (A:=A) N2)) X (map (option_map (pad N1 N2)) Y)).
  { clear. intros X Y. split.
    - induction 1 as [|[x|] [y|] X Y Hxy _ IH]; cbn [map]; constructor; auto.
    - revert Y. induction X as [|x X IH]; intros [|y Y] H; cbn [map] in H; inversion H; subst; constructor; auto.
      destruct x, y; cbn in *; auto. }
  destruct (sparse_grows N1 N2 HN p Ha L HL Hp) as (E1 & E2 & E3 & E4).
  destruct (run_sim _ _ _ (sparse_refines e1 N1 Hc1 W1) p X1 L g1 HX1 (array_legal_any N1 p L)) as (X1' & g1' & k1 & R1 & HR1 & D1 & Lk1 & P1).
  destruct (run_sim _ _ _ (sparse_refines e2 N2 Hc2 W2) p X2 _ g2 (proj1 (HF _ _) HX2) (array_legal_any N2 p _)) as (X2' & g2' & k2 & R2 & HR2 & D2 & Lk2 & P2).
  rewrite E4 in R2. rewrite E1 in HR2. rewrite E2 in D2. rewrite E3 in P2. apply HF in HR2.
  exists X1', X2', g1', g2', (s_events (srun (array_spec N1) p L)), (s_store (srun (array_spec N1) p L)), (s_dropped (srun (array_spec N1) p L)), k1, k2.
  repeat (split; [assumption|]). rewrite <- P1. exact P2.
Qed.
