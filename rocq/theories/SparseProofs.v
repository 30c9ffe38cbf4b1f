(** * [SparseChunk]: every method does what the array of options does. *)
From Verif Require Import Machine Spec Prims IterSpec SparseModel SparseSpec RingProofs RingProofs6.

Definition is_some {A} (x : option A) : bool := match x with Some _ => true | None => false end.
(** The chunk [c] of capacity [N] holds the array [s]. *)
Definition SHolds {A} (N : nat) (c : sparse A) (s : list (option A)) : Prop :=
  length s = N /\ (forall i, i < N -> smap c i = is_some (mjoin (s !! i))) /\
  (forall i, sdata c i = mjoin (s !! i)).
Definition SMade {A} (N : nat) (c : sparse A * unit) (s : list (option A)) : Prop := SHolds N (fst c) s.

Lemma insert_if {A} (l : list A) i x j :
  <[i := x]> l !! j = if (j =? i) && (i <? length l) then Some x else l !! j.
Proof.
  destruct (j =? i) eqn:E; cbn [andb].
  - assert (j = i) as -> by lia. destruct (i <? length l) eqn:E2.
    + apply list_lookup_insert. lia.
    + rewrite list_insert_ge by lia. reflexivity.
  - apply list_lookup_insert_ne. lia.
Qed.

Section entries.
Context {A : Type}.
Implicit Types (s : list (option A)) (b : nat -> bool).
Lemma indices_entries b s : forall a, (forall i, i < length s -> b (a + i) = is_some (mjoin (s !! i))) ->
  List.filter b (seq a (length s)) = map fst (entries_from a s).
Proof.
  induction s as [|x s IH]; intros a H; [reflexivity|]. cbn [length seq List.filter].
  pose proof (H 0 ltac:(cbn; lia)) as H0. rewrite Nat.add_0_r in H0. cbn in H0. rewrite H0.
  assert (E : List.filter b (seq (S a) (length s)) = map fst (entries_from (S a) s)).
  { apply IH. intros i Hi. specialize (H (S i) ltac:(cbn; lia)).
    rewrite <- Nat.add_succ_comm in H. exact H. }
  rewrite E. destruct x; reflexivity.
Qed.
Lemma find_filter b (l : list nat) : List.find b l = head (List.filter b l).
Proof. induction l as [|x l IH]; cbn; [reflexivity|]. destruct (b x); [reflexivity|exact IH]. Qed.
Lemma values_insert_none s i a : s !! i = Some (Some a) ->
  exists l1 l2, values s = l1 ++ [a] ++ l2 /\ values (<[i := None]> s) = l1 ++ l2 /\
    forall v, values (<[i := Some v]> s) = l1 ++ [v] ++ l2.
Proof.
  unfold values, entries. generalize 0. revert i. induction s as [|x s IH]; intros i k H; [discriminate|].
  destruct i as [|i].
  - injection H as ->. exists [], (map snd (entries_from (S k) s)). repeat split.
  - destruct (IH i (S k) H) as (l1 & l2 & H1 & H2 & H3).
    destruct x as [x|]; cbn [insert list_insert entries_from map snd].
    + exists (x :: l1), l2. rewrite H1. cbn. split; [reflexivity|]. split; [f_equal; exact H2|].
      intros v. f_equal. apply H3.
    + exists l1, l2. auto.
Qed.
Lemma values_insert_some s i v : s !! i = Some None ->
  exists l1 l2, values s = l1 ++ l2 /\ values (<[i := Some v]> s) = l1 ++ [v] ++ l2.
Proof.
  unfold values, entries. generalize 0. revert i. induction s as [|x s IH]; intros i k H; [discriminate|].
  destruct i as [|i].
  - injection H as ->. exists [], (map snd (entries_from (S k) s)). repeat split.
  - destruct (IH i (S k) H) as (l1 & l2 & H1 & H2).
    destruct x as [x|]; cbn [insert list_insert entries_from map snd].
    + exists (x :: l1), l2. rewrite H1. cbn. split; [reflexivity|]. f_equal. exact H2.
    + exists l1, l2. auto.
Qed.
Lemma values_no_cells N : values (no_cells N) = @nil A.
Proof. unfold values, entries, no_cells. generalize 0. induction N as [|N IH]; intros k; [reflexivity|]. apply (IH (S k)). Qed.
Lemma values_shift s : forall j k, map snd (entries_from j s) = map snd (entries_from k s).
Proof.
  induction s as [|[x|] s IH]; intros j k; cbn; [reflexivity| |].
  - f_equal. apply IH.
  - apply IH.
Qed.
Lemma values_omap s : values s = omap (fun x => x) s.
Proof.
  unfold values, entries. generalize 0. induction s as [|[x|] s IH]; intros k; cbn; [reflexivity| |].
  - f_equal. apply IH.
  - apply IH.
Qed.
Lemma values_length s : length (values s) <= length s.
Proof. rewrite values_omap. induction s as [|[x|] s IH]; cbn; lia. Qed.
Lemma occupied_length s : length (occupied s) = length (values s).
Proof. unfold occupied, values. rewrite !map_length. reflexivity. Qed.
Lemma refill_length s : forall vs, length (refill s vs) = length s.
Proof. induction s as [|[x|] s IH]; intros [|v vs]; cbn; auto. Qed.
Lemma refill_values s : forall vs, length vs <= length (values s) -> values (refill s vs) = vs.
Proof.
  unfold values, entries. generalize 0. induction s as [|[x|] s IH]; intros k [|v vs] H; cbn in *; try reflexivity; try lia.
  - apply IH. cbn. lia.
  - f_equal. apply IH. lia.
  - apply IH. cbn. lia.
  - apply IH. exact H.
Qed.
End entries.

Section proofs.
Context {A : Type} (e : env A) (N : nat).
Implicit Types (c : sparse A) (s : list (option A)) (g : log A) (v : A) (i k : nat).
Notation SHolds := (SHolds (A:=A) N).

Lemma sholds_indices c s : SHolds c s -> bm_indices N (smap c) = occupied s.
Proof.
  intros (H1 & H2 & H3). unfold bm_indices, occupied, entries. rewrite <- H1. apply indices_entries.
  rewrite H1. exact H2.
Qed.
Lemma sholds_len c s : SHolds c s -> bm_len N (smap c) = length (values s).
Proof. intros H. unfold bm_len. rewrite (sholds_indices c s H). apply occupied_length. Qed.
Lemma sholds_first c s : SHolds c s -> bm_first N (smap c) = head (occupied s).
Proof. intros H. unfold bm_first. rewrite find_filter. rewrite <- (sholds_indices c s H). reflexivity. Qed.
Lemma sholds_next c s k : SHolds c s -> k <= N ->
  bm_next N (smap c) k = head (map fst (entries_from k (drop k s))).
Proof.
  intros (H1 & H2 & H3) Hk. unfold bm_next. rewrite find_filter. f_equal.
  assert (length (drop k s) = N - k) as <- by (rewrite drop_length; lia).
  apply indices_entries. intros i Hi. rewrite drop_length in Hi. rewrite H2 by lia. rewrite lookup_drop. reflexivity.
Qed.
Lemma sparse0_holds : SHolds sparse0 (no_cells N).
Proof.
  split; [apply replicate_length|]. unfold no_cells. split; intros i; cbn; unfold bm0, mem0.
  - intros Hi. rewrite lookup_replicate_2 by lia. reflexivity.
  - destruct (decide (i < N)).
    + rewrite lookup_replicate_2 by lia. reflexivity.
    + rewrite lookup_none; [reflexivity|]. rewrite replicate_length. lia.
Qed.

(** Setting one cell. *)
Lemma sholds_upd c s i x b m : SHolds c s -> i < N ->
  (forall p, b p = if p =? i then is_some x else smap c p) ->
  (forall p, m p = if p =? i then x else sdata c p) ->
  SHolds (Sparse b m) (<[i := x]> s).
Proof.
  intros (H1 & H2 & H3) Hi Hb Hm. split; [rewrite insert_length; exact H1|]. split; cbn.
  - intros p Hp. rewrite Hb, insert_if, H1. rewrite H2 by exact Hp.
    destruct (p =? i) eqn:E; cbn [andb]; [|reflexivity]. rewrite if_true by lia. reflexivity.
  - intros p. rewrite Hm, insert_if, H1, H3. destruct (p =? i) eqn:E; cbn [andb]; [|reflexivity].
    rewrite if_true by lia. reflexivity.
Qed.
Lemma agrees_1 {R} (H : sparse A -> list (option A) -> Prop) g c' g' (r : R) s' d :
  H c' s' -> dropped g' = dropped g ++ d -> leaked g' = leaked g ->
  agrees H eq g (Ret c' g' r) (SRet s' r d).
Proof. intros. exists c', g', r. auto. Qed.

Lemma map_set_ok c s i b g : SHolds c s -> i < N ->
  map_set N i b c g = Ret (Sparse (bm_put (smap c) i b) (sdata c)) g (is_some (mjoin (s !! i))).
Proof.
  intros (H1 & H2 & H3) Hi. unfold map_set. erewrite (bind_Ret get) by reflexivity.
  rewrite if_true by lia. unfold bind, put, ret. rewrite H2 by exact Hi. reflexivity.
Qed.
Lemma lookup_cell s i : length s = N -> i < N -> exists x, s !! i = Some x.
Proof. intros H Hi. destruct (s !! i) eqn:E; [eauto|]. apply lookup_ge_None in E. lia. Qed.

Lemma sp_insert_ok c s g i v : calm e -> SHolds c s ->
  agrees SHolds eq g (sp_insert e N i v c g) (ar_insert i v s).
Proof.
  intros Hc H. pose proof H as (H1 & H2 & H3). unfold sp_insert, ar_insert.
  destruct (N <=? i) eqn:E.
  - rewrite lookup_none by lia. rewrite panic_dropping_ok by assumption.
    eexists _, _, []. split; [reflexivity|]. cbn. rewrite app_nil_r. auto.
  - destruct (lookup_cell s i H1 ltac:(lia)) as [x Hx]. rewrite Hx.
    erewrite bind_Ret by (eapply map_set_ok; [exact H|lia]). rewrite Hx. cbn [mjoin option_join is_some].
    destruct x as [a|]; cbn [is_some].
    + rewrite if_true by lia.
      erewrite bind_Ret by (apply slot_read_ok; [lia|cbn; rewrite H3, Hx; reflexivity]).
      cbn [getm setm sparse_mem smap sdata].
      erewrite bind_Ret by (apply slot_write_ok; [lia|cbn; unfold upd; rewrite if_true by lia; reflexivity]).
      apply agrees_1; [|cbn; rewrite app_nil_r; reflexivity|reflexivity].
      eapply sholds_upd; [exact H|lia|reflexivity|]. intros p. cbn. unfold upd. destruct (p =? i); reflexivity.
    + unfold sp_force_write. rewrite if_true by lia.
      erewrite bind_Ret by (apply slot_write_ok; [lia|cbn; rewrite H3, Hx; reflexivity]).
      apply agrees_1; [|cbn; rewrite app_nil_r; reflexivity|reflexivity].
      eapply sholds_upd; [exact H|lia|reflexivity|]. intros p. reflexivity.
Qed.
Lemma sp_remove_ok c s g i : SHolds c s -> agrees SHolds eq g (sp_remove N i c g) (ar_remove i s).
Proof.
  intros H. pose proof H as (H1 & H2 & H3). unfold sp_remove, ar_remove.
  destruct (N <=? i) eqn:E.
  - rewrite lookup_none by lia.
    eexists _, _, []. split; [reflexivity|]. rewrite !app_nil_r. auto.
  - destruct (lookup_cell s i H1 ltac:(lia)) as [x Hx]. rewrite Hx.
    erewrite bind_Ret by (eapply map_set_ok; [exact H|lia]). rewrite Hx. cbn [mjoin option_join is_some].
    destruct x as [a|]; cbn [is_some].
    + unfold sp_force_read. rewrite if_true by lia.
      erewrite bind_Ret by (apply slot_read_ok; [lia|cbn; rewrite H3, Hx; reflexivity]).
      apply agrees_1; [|rewrite app_nil_r; reflexivity|reflexivity].
      eapply sholds_upd; [exact H|lia|reflexivity|]. intros p. reflexivity.
    + apply agrees_1; [|rewrite app_nil_r; reflexivity|reflexivity].
      eapply sholds_upd; [exact H|lia|reflexivity|]. intros p.
      destruct (p =? i) eqn:Ep; [|reflexivity]. assert (p = i) as -> by lia. rewrite H3, Hx. reflexivity.
Qed.
Lemma sp_pop_ok c s g : SHolds c s -> agrees SHolds eq g (sp_pop N c g) (ar_pop s).
Proof.
  intros H. unfold sp_pop, sp_first_index. rewrite bind_bind. erewrite (bind_Ret get) by reflexivity.
  rewrite bind_ret. rewrite (sholds_first c s H). unfold ar_pop, occupied.
  destruct (entries s) as [|[i a] es] eqn:Es; cbn [map fst head].
  - apply agrees_1; [exact H|rewrite app_nil_r; reflexivity|reflexivity].
  - pose proof (sp_remove_ok c s g i H) as P. unfold ar_remove in P.
    assert (s !! i = Some (Some a)) as Hi by (apply entries_in; rewrite Es; left; reflexivity).
    rewrite Hi in P. exact P.
Qed.
Lemma sp_get_eq c s g i : SHolds c s -> sp_get N i c g = Ret c g (mjoin (s !! i)).
Proof.
  intros (H1 & H2 & H3). unfold sp_get. destruct (N <=? i) eqn:E.
  - rewrite lookup_none by lia. reflexivity.
  - unfold map_get. rewrite bind_bind. erewrite (bind_Ret get) by reflexivity.
    rewrite if_true by lia. rewrite bind_ret. rewrite H2 by lia.
    pose proof (H3 i) as H3i. destruct (mjoin (s !! i)) as [a|]; cbn [is_some]; [|reflexivity].
    unfold sp_get_unchecked. erewrite bind_Ret by (apply slot_peek_ok; [lia|exact H3i]). reflexivity.
Qed.
Lemma sp_get_ok c s g i : SHolds c s -> agrees SHolds eq g (sp_get N i c g) (ar_get i s).
Proof. intros H. rewrite (sp_get_eq c s g i H). apply agrees_1; [exact H|rewrite app_nil_r; reflexivity|reflexivity]. Qed.
Lemma sp_index_ok c s g i : SHolds c s -> agrees SHolds eq g (sp_index N i c g) (ar_index i s).
Proof.
  intros H. unfold sp_index. erewrite bind_Ret by (apply sp_get_eq; exact H). unfold ar_index.
  destruct (s !! i) as [[a|]|]; cbn.
  - apply agrees_1; [exact H|rewrite app_nil_r; reflexivity|reflexivity].
  - exists c, g, []. rewrite !app_nil_r. auto.
  - exists c, g, []. rewrite !app_nil_r. auto.
Qed.
(** Overwriting an occupied cell through a reference. *)
Lemma overwrite c s i a v : SHolds c s -> s !! i = Some (Some a) -> forall g,
  exists c', SHolds c' (<[i := Some v]> s) /\ i < N /\ slot_read N i c g = Ret (Sparse (smap c) (upd (sdata c) i None)) g a /\
    slot_write N i v (Sparse (smap c) (upd (sdata c) i None)) g = Ret c' (log_write 1 g) tt.
Proof.
  intros H Hi g. pose proof H as (H1 & H2 & H3). pose proof (lookup_lt_Some _ _ _ Hi).
  exists (Sparse (smap c) (upd (upd (sdata c) i None) i (Some v))).
  split; [|split; [lia|split]].
  - eapply sholds_upd; [exact H|lia| |].
    + intros p. destruct (p =? i) eqn:Ep; [|reflexivity].
      assert (p = i) as -> by lia. rewrite H2, Hi by lia. reflexivity.
    + intros p. unfold upd. destruct (p =? i); reflexivity.
  - rewrite (slot_read_ok N i a c g); [reflexivity|lia|]. cbn. rewrite H3, Hi. reflexivity.
  - rewrite (slot_write_ok N i v (Sparse (smap c) (upd (sdata c) i None)) g); [reflexivity|lia|].
    cbn. unfold upd. rewrite if_true by lia. reflexivity.
Qed.
Lemma sp_get_mut_replace_ok c s g i v : calm e -> SHolds c s ->
  agrees SHolds eq g (sp_get_mut_replace e N i v c g) (ar_replace i v s).
Proof.
  intros Hc H. unfold sp_get_mut_replace. erewrite bind_Ret by (apply sp_get_eq; exact H). unfold ar_replace.
  destruct (s !! i) as [[a|]|] eqn:Hi; cbn [mjoin option_join].
  - destruct (overwrite c s i a v H Hi g) as (c' & Hc' & Hl & E1 & E2).
    erewrite bind_Ret by exact E1. erewrite bind_Ret by exact E2.
    apply agrees_1; [exact Hc'|cbn; rewrite app_nil_r; reflexivity|reflexivity].
  - erewrite bind_Ret by (apply drop_values_calm; exact Hc).
    apply agrees_1; [exact H|reflexivity|reflexivity].
  - erewrite bind_Ret by (apply drop_values_calm; exact Hc).
    apply agrees_1; [exact H|reflexivity|reflexivity].
Qed.
Lemma sp_assign_ok c s g i v : calm e -> SHolds c s ->
  agrees SHolds eq g (sp_assign e N i v c g) (ar_assign i v s).
Proof.
  intros Hc H. unfold sp_assign. erewrite bind_Ret by (apply sp_get_eq; exact H). unfold ar_assign.
  destruct (s !! i) as [[a|]|] eqn:Hi; cbn [mjoin option_join].
  - destruct (overwrite c s i a v H Hi g) as (c' & Hc' & Hl & E1 & E2).
    erewrite bind_Ret by exact E1. erewrite bind_Ret by exact E2.
    rewrite drop_values_calm by exact Hc.
    apply agrees_1; [exact Hc'|reflexivity|reflexivity].
  - rewrite panic_dropping_ok by exact Hc. eexists _, _, []. split; [reflexivity|]. cbn. rewrite app_nil_r. auto.
  - rewrite panic_dropping_ok by exact Hc. eexists _, _, []. split; [reflexivity|]. cbn. rewrite app_nil_r. auto.
Qed.

(** ** Destruction. *)
Lemma omap_cells (m : nat -> option A) s : forall a, (forall i, i < length s -> m (a + i) = mjoin (s !! i)) ->
  omap m (seq a (length s)) = map snd (entries_from a s).
Proof.
  induction s as [|x s IH]; intros a H; [reflexivity|]. cbn [length seq].
  pose proof (H 0 ltac:(cbn; lia)) as H0. rewrite Nat.add_0_r in H0. cbn in H0.
  assert (E : omap m (seq (S a) (length s)) = map snd (entries_from (S a) s)).
  { apply IH. intros i Hi. specialize (H (S i) ltac:(cbn; lia)). rewrite <- Nat.add_succ_comm in H. exact H. }
  cbn [omap list_omap]. rewrite H0. destruct x; cbn; [f_equal|]; exact E.
Qed.
Lemma sp_drop_loop_ok s : forall a b m g,
  (forall i, i < length s -> m (a + i) = mjoin (s !! i)) -> a + length s = N ->
  exists m', (forall p, p < a -> m' p = m p) /\
    omap m' (seq a (length s)) =
      drop (length (until_bomb e (map snd (entries_from a s)))) (map snd (entries_from a s)) /\
    sp_drop_loop e N (map fst (entries_from a s)) (Sparse b m) g =
      if no_bomb e (map snd (entries_from a s))
      then Ret (Sparse b m') (log_drop (until_bomb e (map snd (entries_from a s))) g) tt
      else Panic (Sparse b m') (log_drop (until_bomb e (map snd (entries_from a s))) g).
Proof.
  induction s as [|x s IH]; intros a b m g Hm Hl; cbn [length] in *.
  - exists m. cbn. rewrite log_drop_nil. repeat split; auto.
  - pose proof (Hm 0 ltac:(lia)) as Hx. rewrite Nat.add_0_r in Hx. cbn in Hx.
    assert (Hs : forall i, i < length s -> m (S a + i) = mjoin (s !! i)).
    { intros i Hi. specialize (Hm (S i) ltac:(lia)). rewrite <- Nat.add_succ_comm in Hm. exact Hm. }
    destruct x as [x|].
    + assert (E : slots_drop e N a 1 (Sparse b m) g = drop_values e [x] (Sparse b (mclear m a 1)) g).
      { rewrite (slots_drop_peek e N a 1 [x] (Sparse b m) g); [reflexivity|reflexivity|lia|].
        intros [|i] Hi; [|lia]. rewrite Nat.add_0_r. exact Hx. }
      assert (Hs' : forall i, i < length s -> mclear m a 1 (S a + i) = mjoin (s !! i)).
      { intros i Hi. unfold mclear. rewrite if_false by lia. apply Hs; exact Hi. }
      unfold drop_values in E. cbn [List.filter] in E.
      cbn [entries_from map fst snd sp_drop_loop]. rewrite if_true by lia.
      unfold no_bomb. cbn [until_bomb forallb].
      destruct (bomb e x) eqn:Bx; cbn [andb negb].
      * erewrite bind_Panic by exact E. exists (mclear m a 1). split; [|split; [|reflexivity]].
        -- intros p Hp. unfold mclear. rewrite if_false by lia. reflexivity.
        -- cbn [seq length]. cbn [omap list_omap]. unfold mclear at 1. rewrite if_true by lia.
           cbn [drop]. rewrite drop_0. apply omap_cells. exact Hs'.
      * erewrite bind_Ret by exact E.
        destruct (IH (S a) b (mclear m a 1) (log_drop [x] g) Hs' ltac:(lia)) as (m' & I1 & I2 & I3).
        exists m'. split; [|split].
        -- intros p Hp. rewrite I1 by lia. unfold mclear. rewrite if_false by lia. reflexivity.
        -- cbn [seq length]. cbn [omap list_omap]. rewrite I1 by lia. unfold mclear at 1. rewrite if_true by lia.
           cbn [drop]. exact I2.
        -- rewrite I3. unfold no_bomb, log_drop. cbn. rewrite <- app_assoc. reflexivity.
    + cbn [entries_from].
      destruct (IH (S a) b m g Hs ltac:(lia)) as (m' & I1 & I2 & I3).
      exists m'. split; [|split; [|exact I3]].
      * intros p Hp. apply I1. lia.
      * cbn [seq length]. cbn [omap list_omap]. rewrite I1, Hx by lia. exact I2.
Qed.

(** The destructor stops at the first element whose own destructor panics; the rest is leaked. *)
Lemma sp_destroy_bombs c s g : SHolds c s ->
  exists c' g', sp_destroy e N c g = (if no_bomb e (values s) then Ret c' g' tt else Panic c' g') /\
    dropped g' = dropped g ++ until_bomb e (values s) /\
    leaked g' = leaked g ++ drop (length (until_bomb e (values s))) (values s).
Proof.
  intros H. pose proof H as (H1 & H2 & H3). destruct c as [b m].
  destruct (sp_drop_loop_ok s 0 b m g) as (m' & I1 & I2 & I3).
  { intros i Hi. apply H3. } { exact H1. }
  assert (E : sp_drop e N (Sparse b m) g =
    if no_bomb e (values s) then Ret (Sparse b m') (log_drop (until_bomb e (values s)) g) tt
    else Panic (Sparse b m') (log_drop (until_bomb e (values s)) g)).
  { unfold sp_drop. erewrite (bind_Ret get) by reflexivity. cbn [smap].
    change (bm_indices N b) with (bm_indices N (smap (Sparse b m))). rewrite (sholds_indices (Sparse b m) s H). exact I3. }
  unfold sp_destroy, destroying. rewrite E. rewrite H1 in I2.
  destruct (no_bomb e (values s)); unfold slots_release; cbn [getm sparse_mem sdata setm];
    rewrite I2; eexists _, _; (split; [reflexivity|]); split; reflexivity.
Qed.
Lemma no_bomb_calm (l : list A) : calm e -> no_bomb e l = true.
Proof. intros Hc. unfold no_bomb. induction l as [|a l IH]; cbn; [reflexivity|]. rewrite Hc. exact IH. Qed.
Lemma sp_destroy_eq c s g : calm e -> SHolds c s ->
  exists c', sp_destroy e N c g = Ret c' (log_drop (values s) g) tt.
Proof.
  intros Hc H. destruct c as [b m]. pose proof H as (H1 & H2 & H3).
  destruct (sp_drop_loop_ok s 0 b m g) as (m' & I1 & I2 & I3).
  { intros i Hi. apply H3. } { exact H1. }
  change (map snd (entries_from 0 s)) with (values s) in I2, I3.
  rewrite no_bomb_calm in I3 by assumption.
  rewrite no_bomb_until in I2, I3 by (apply no_bomb_calm; exact Hc).
  rewrite drop_all in I2. rewrite H1 in I2.
  unfold sp_destroy, destroying, sp_drop. erewrite (bind_Ret get) by reflexivity. cbn [smap].
  change (bm_indices N b) with (bm_indices N (smap (Sparse b m))). rewrite (sholds_indices (Sparse b m) s H). unfold occupied, entries. rewrite I3.
  unfold slots_release. cbn [getm sparse_mem sdata setm]. rewrite I2, log_leak_nil. eexists. reflexivity.
Qed.
Lemma sp_destroy_ok c s g : calm e -> SHolds c s ->
  agrees (fun _ _ => True) eq g (sp_destroy e N c g) (SRet tt tt (values s)).
Proof.
  intros Hc H. destruct (sp_destroy_eq c s g Hc H) as (c' & E). exists c', (log_drop (values s) g), tt.
  rewrite E. auto.
Qed.
End proofs.
