(** * The statements of PropertiesSparse.v, assembled. *)
From Verif Require Import Machine Spec Prims IterSpec2 SparseModel SparseSpec SparseProofs SparseProofs2 SparseProofs3 SparseLaws.

Section proofs.
Context (A : Type).
Implicit Types (N : nat) (c : sparse A) (s : list (option A)) (g : log A).
Lemma sp_insert_remove (e : env A) N c s g (i : nat) (v : A) :
  calm e -> SHolds N c s ->
  (i < N -> exists c1 g1 c2 g2,
     sp_insert e N i v c g = Ret c1 g1 (mjoin (s !! i)) /\ SHolds N c1 (<[i := Some v]> s) /\
     sp_remove N i c g = Ret c2 g2 (mjoin (s !! i)) /\ SHolds N c2 (<[i := None]> s) /\
     dropped g1 = dropped g /\ dropped g2 = dropped g) /\
  (N <= i -> exists c1 g1 c2 g2,
     sp_insert e N i v c g = Panic c1 g1 /\ SHolds N c1 s /\ dropped g1 = dropped g ++ [v] /\
     sp_remove N i c g = Panic c2 g2 /\ SHolds N c2 s /\ dropped g2 = dropped g) /\
  sp_len N c g = Ret c g (length (values s)).
Proof.
  intros Hc H. pose proof (sp_insert_ok e N c s g i v Hc H) as P. pose proof (sp_remove_ok N c s g i H) as P2.
  unfold ar_insert in P. unfold ar_remove in P2. split; [|split].
  - intros Hi. destruct (lookup_cell N s i (proj1 H) Hi) as [x Hx]. rewrite Hx in *.
    destruct P as (c1 & g1 & r & E & H1 & -> & D & L). destruct P2 as (c2 & g2 & r & E2 & H2 & -> & D2 & L2).
    exists c1, g1, c2, g2. cbn. rewrite app_nil_r in D, D2. auto 10.
  - intros Hi. rewrite lookup_ge_None_2 in P, P2 by (destruct H as [-> _]; exact Hi).
    destruct P as (c1 & g1 & k & E & H1 & D & L & _). destruct P2 as (c2 & g2 & k2 & E2 & H2 & D2 & L2 & _).
    exists c1, g1, c2, g2. rewrite app_nil_r in D2. auto 10.
  - rewrite <- (sholds_len N c s H). reflexivity.
Qed.
Lemma sparse_iterators (e : env A) N n c s g : N < word e -> SHolds N c s ->
  (exists k g', pull_n (it_next N) (it_size_hint N) n (c, 0) g =
     Ret (c, k) g' (serves (fun _ => (0, Some N)) n (entries s)) /\ dropped g' = dropped g /\ leaked g' = leaked g) /\
  (exists ks g', pull_n (en_next N) (it_size_hint N) n (c, (0, 0)) g =
     Ret (c, ks) g' (serves (fun _ => (0, Some N)) n (entries s)) /\ dropped g' = dropped g /\ leaked g' = leaked g) /\
  (exists b g', pull_n (im_next N) (it_size_hint N) n (c, smap c) g =
     Ret (c, b) g' (serves (fun _ => (0, Some N)) n (entries s)) /\ dropped g' = dropped g /\ leaked g' = leaked g) /\
  sp_indices N c g = Ret c g (map fst (entries s)) /\
  sp_first_index N c g = Ret c g (head (map fst (entries s))) /\
  valid_hint (0, Some N) (length (entries s)).
Proof.
  intros HW H. split; [exact (it_serves e N HW s c g n H)|]. split; [exact (en_serves e N HW s c g n H)|].
  split; [exact (im_serves e N HW s c g n H)|]. split; [|split].
  - change (map fst (entries s)) with (occupied s). rewrite <- (sholds_indices N c s H). reflexivity.
  - change (map fst (entries s)) with (occupied s). rewrite <- (sholds_first N c s H). reflexivity.
  - split; [cbn; lia|]. cbn. pose proof (values_length s) as P. unfold values in P. rewrite map_length in P.
    destruct H as [<- _]. exact P.
Qed.
Lemma sparse_draining (e : env A) N n c s g : N < word e -> SHolds N c s ->
  (exists c' g', pull_n (dr_next N) (dr_size_hint N) n c g =
     Ret c' g' (serves (fun n => (n, Some n)) n (values s)) /\ dropped g' = dropped g /\ leaked g' = leaked g /\
     exists s', SHolds N c' s' /\ values s' = drop n (values s)) /\
  (exists c' k g', pull_n (od_next e N) (oi_size_hint e N) n (c, 0) g =
     Ret (c', k) g' (serves (fun n => (n, Some n)) n s) /\ dropped g' = dropped g /\ leaked g' = leaked g /\
     exists s', SHolds N c' s' /\ values s' = values (drop n s)) /\
  (exists k g', pull_n (oi_next e N) (oi_size_hint e N) n (c, 0) g =
     Ret (c, k) g' (serves (fun n => (n, Some n)) n s) /\ dropped g' = dropped g /\ leaked g' = leaked g) /\
  (exists k g', pull_n (om_next e N) (oi_size_hint e N) n (c, 0) g =
     Ret (c, k) g' (serves (fun n => (n, Some n)) n (imap (fun j x => (fun a => (j, a)) <$> x) s)) /\
     dropped g' = dropped g /\ leaked g' = leaked g).
Proof.
  intros HW H. split; [exact (dr_serves e N HW s c g n H)|]. split; [exact (od_serves e N HW s c g n H)|].
  split; [exact (oi_serves e N HW s c g n H)|]. exact (om_serves e N HW s c g n H).
Qed.
Lemma sparse_equality_any N (eqA : A -> A -> bool) (c1 c2 : sparse A) (s1 s2 : list (option A)) g :
  SHolds N c1 s1 -> SHolds N c2 s2 ->
  exists b, sp_eq N eqA (c1, c2) g = Ret (c1, c2) g b /\
    (b = true <-> forall i, match mjoin (s1 !! i), mjoin (s2 !! i) with
                            | Some a1, Some a2 => eqA a1 a2 = true | None, None => True | _, _ => False end).
Proof.
  intros H1 H2. exists (cells_eq eqA s1 s2). split; [exact (sp_eq_ok N eqA c1 c2 s1 s2 g H1 H2)|].
  assert (El : length s1 = length s2) by (destruct H1 as [-> _], H2 as [-> _]; reflexivity).
  unfold cells_eq. rewrite slice_eq_lookup by exact El. split.
  - intros H i. destruct (decide (i < length s1)).
    + destruct (lookup_lt_is_Some_2 s1 i ltac:(lia)) as [x Hx]. destruct (lookup_lt_is_Some_2 s2 i ltac:(lia)) as [y Hy].
      specialize (H i x y Hx Hy). rewrite Hx, Hy. cbn. destruct x, y; cbn in H; try discriminate; auto.
    + rewrite !lookup_ge_None_2 by lia. exact I.
  - intros H i x y Hx Hy. specialize (H i). rewrite Hx, Hy in H. cbn in H. destruct x, y; cbn; auto; contradiction.
Qed.
Lemma sparse_equality N (eqA : A -> A -> bool) (c1 c2 : sparse A) (s1 s2 : list (option A)) g :
  (forall a b, eqA a b = true <-> a = b) -> SHolds N c1 s1 -> SHolds N c2 s2 ->
  exists b, sp_eq N eqA (c1, c2) g = Ret (c1, c2) g b /\ (b = true <-> s1 = s2).
Proof.
  intros Heq H1 H2. destruct (sparse_equality_any N eqA c1 c2 s1 s2 g H1 H2) as (b & E & Hb).
  exists b. split; [exact E|]. rewrite Hb. clear E Hb b. split.
  - intros H. apply list_eq. intros i. specialize (H i). destruct H1 as [L1 _], H2 as [L2 _]. destruct (decide (i < N)).
    + destruct (lookup_lt_is_Some_2 s1 i ltac:(lia)) as [x Hx]. destruct (lookup_lt_is_Some_2 s2 i ltac:(lia)) as [y Hy].
      rewrite Hx, Hy in *. cbn in H. destruct x, y; auto; try contradiction. apply Heq in H. subst. reflexivity.
    + rewrite !lookup_ge_None_2 by lia. reflexivity.
  - intros -> i. destruct (mjoin (s2 !! i)); [apply Heq; reflexivity|exact I].
Qed.
Lemma sparse_equality_map N (eqA : A -> A -> bool) (keys : list nat) (other : nat -> option A) c s g :
  (forall a b, eqA a b = true <-> a = b) -> SHolds N c s ->
  NoDup keys -> (forall i, In i keys <-> other i <> None) ->
  exists b, sp_eq_map N eqA (length keys) other c g = Ret c g b /\
    (b = true <-> forall i, other i = mjoin (s !! i)).
Proof.
  intros Heq H Hnd Hk. exists (cells_eq_map eqA (length keys) other s).
  split; [exact (sp_eq_map_ok N eqA (length keys) other c s g H)|].
  apply cells_eq_map_iff; auto. intros i. rewrite Hk. destruct (other i); cbn; split; intros; congruence || discriminate.
Qed.
Lemma sparse_from_iter (e : env A) N (xs : list (option A)) g :
  calm e -> (forall i v, xs !! i = Some (Some v) -> i < N) ->
  exists c g' s, sp_from_iter e N (map Yield xs) tt g = Ret tt g' (c, tt) /\ SHolds N c s /\
    (forall i, i < N -> s !! i = Some (mjoin (xs !! i))) /\ dropped g' = dropped g /\ leaked g' = leaked g.
Proof.
  intros Hc Hf. pose proof (sp_from_iter_ok e N Hc (map Yield xs) g) as P. rewrite ar_from_iter_fits in P by exact Hf.
  destruct P as ([] & g' & [c []] & E & _ & H & D & L). exists c, g', (padded N xs). rewrite app_nil_r in D.
  split; [exact E|]. split; [exact H|]. split; [|auto]. intros i Hi. apply padded_lookup. exact Hi.
Qed.
Lemma sparse_from_iter_panics (e : env A) N (pre : list (option A)) (x : ev (option A)) (rest : list (ev (option A))) g :
  calm e -> (forall i v, pre !! i = Some (Some v) -> i < N) ->
  (x = Boom \/ N <= length pre /\ exists v, x = Yield (Some v)) ->
  exists g' ds, sp_from_iter e N (map Yield pre ++ x :: rest) tt g = Panic tt g' /\
    dropped g' = dropped g ++ ds /\ leaked g' = leaked g /\
    Permutation ds (omap (fun x => x) (pre ++ match x with Yield y => [y] | Boom => [] end)).
Proof.
  intros Hc Hf Hx. pose proof (sp_from_iter_ok e N Hc (map Yield pre ++ x :: rest) g) as P.
  destruct Hx as [->|[Hl [v ->]]].
  - rewrite ar_from_iter_boom in P by exact Hf. destruct P as ([] & g' & k & E & _ & D & L & Pk).
    apply Permutation_nil in Pk. subst k. exists g', (omap (fun x => x) pre). rewrite !app_nil_r in *. auto.
  - rewrite ar_from_iter_beyond in P by assumption. destruct P as ([] & g' & k & E & _ & D & L & Pk).
    apply Permutation_nil in Pk. subst k. eexists g', _. rewrite app_nil_r in L. split; [exact E|]. split; [exact D|].
    split; [exact L|]. rewrite omap_app. cbn. perm.
Qed.
Lemma sparse_pool (e : env A) N (cl : nat -> A -> option A) (b : bitmap) c s g :
  N < word e -> calm e -> SHolds N c s ->
  (exists c', sp_default_uninit (Sparse b mem0) g = Ret c' g tt /\ SHolds N c' (no_cells N)) /\
  match sp_clone e N cl c g with
  | Ret _ _ (c1, _) => exists s' c2 g2, SHolds N c1 s' /\
      sp_clone_uninit N cl (Sparse b mem0, c) g = Ret (c2, c) g2 tt /\ SHolds N c2 s' /\
      dropped g2 = dropped g /\ leaked g2 = leaked g
  | Panic _ _ => exists c2 g2, sp_clone_uninit N cl (Sparse b mem0, c) g = Panic (c2, c) g2 /\
      dropped g2 = dropped g /\ leaked g2 = leaked g
  | _ => False
  end.
Proof.
  intros HW Hc H. split; [exact (sp_default_uninit_ok N b g)|].
  pose proof (sp_clone_ok e N Hc cl c s g H) as P. unfold ar_clone in P.
  destruct (sp_clone_uninit_ok e N HW cl b c s g H) as (c2 & g2 & E2 & D2 & L2 & H2).
  destruct (_ =? _) eqn:E.
  - destruct P as (c' & g' & [c1 u] & E1 & _ & H1 & _). rewrite E1. exists (refill s (clones cl 0 (values s))), c2, g2.
    split; [exact H1|]. split; [exact E2|]. split; [apply H2; lia|auto].
  - destruct P as (c' & g' & k & E1 & _). rewrite E1. exists c2, g2. auto.
Qed.
End proofs.
