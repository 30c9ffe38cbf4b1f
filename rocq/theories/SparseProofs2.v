(** * [SparseChunk]: constructors, clone, comparison, iterators. *)
From Verif Require Import Machine Spec Prims IterSpec2 SparseModel SparseSpec SparseProofs RingProofs RingProofs6.

(** A local container being built: on return it is the result, on panic its elements are dropped. *)
Definition closing_with {A S1 S R} (its : S1 -> list A) (s : sres A (S1 * S) R) : sres A S S1 :=
  match s with
  | SRet (l, s') _ d => SRet s' l d
  | SPanic (l, s') d k => SPanic s' (d ++ its l) k
  end.
Lemma with_local_agrees' {A O1 O2 S1 S2 R R'} (its : S1 -> list A) (H1 : O1 -> S1 -> Prop) (H2 : O2 -> S2 -> Prop)
    (RR : R -> R' -> Prop) (MM : O1 * R -> S1 -> Prop)
    (init : O1) (destroy : M A O1 unit) (m : M A (O1 * O2) R) o2 g s :
  (forall o1 l r, H1 o1 l -> MM (o1, r) l) ->
  (forall o1 l g, H1 o1 l -> exists o1', destroy o1 g = Ret o1' (log_drop (its l) g) tt) ->
  agrees (both H1 H2) RR g (m (init, o2) g) s ->
  agrees H2 MM g (with_local init destroy m o2 g) (closing_with its s).
Proof.
  intros HM HD. destruct s as [[l s2] r d|[l s2] d k]; cbn.
  - intros (o' & g' & r0 & E & [Ha Hb] & _ & E1 & E2). exists (snd o'), g', (fst o', r0).
    unfold with_local. rewrite E. cbn in *. split; [reflexivity|]. split; [assumption|].
    split; [apply HM; assumption|]. auto.
  - intros (o' & g' & k' & E & [Ha Hb] & E1 & E2 & E3).
    destruct (HD (fst o') l g' Ha) as (o1' & E4).
    exists (snd o'), (log_drop (its l) g'), k'. unfold with_local. rewrite E, E4. cbn in *.
    rewrite E1, app_assoc. auto.
Qed.

Section proofs.
Context {A : Type} (e : env A) (N : nat).
Implicit Types (c : sparse A) (s t : list (option A)) (g : log A) (v : A) (i k : nat).
Notation SHolds := (SHolds (A:=A) N).
Notation SMade := (SMade (A:=A) N).
Hypothesis Hcalm : calm e.

Lemma sbuilding {O2 S2 R} (H2 : O2 -> S2 -> Prop) c (m : M A (sparse A * O2) R) o2 g (x : sres A (list (option A) * S2) unit) (MM : sparse A * R -> list (option A) -> Prop) :
  (forall o1 l r, SHolds o1 l -> MM (o1, r) l) ->
  agrees (both SHolds H2) (fun _ (_ : unit) => True) g (m (c, o2) g) x ->
  agrees H2 MM g (with_local c (sp_destroy e N) m o2 g) (closing_with values x).
Proof.
  intros HM P. eapply (with_local_agrees' values); [exact HM| |exact P].
  intros o1 l g0 Ho. apply sp_destroy_eq; assumption.
Qed.

(** [insert] whose result is dropped at once. *)
Definition ar_put i v s : sres A (list (option A)) unit :=
  match s !! i with
  | Some old => SRet (<[i := Some v]> s) tt (option_list old)
  | None => SPanic s [v] []
  end.
Lemma sp_put_ok {O2} (o2 : O2) c s g i v : SHolds c s ->
  agrees (both SHolds (fun o _ => o = o2)) (fun _ _ => True) g
    ((let! old := on_fst (sp_insert e N i v) in on_fst (drop_values e (option_list old))) (c, o2) g)
    (match ar_put i v s with SRet s r d => SRet (s, tt) r d | SPanic s d k => SPanic (s, tt) d k end).
Proof.
  intros H. pose proof (sp_insert_ok e N c s g i v Hcalm H) as P. unfold ar_insert in P. unfold ar_put.
  destruct (s !! i) as [old|].
  - destruct P as (c' & g' & r & E & Hc & -> & D & L).
    erewrite bind_Ret by (apply on_fst_Ret; exact E).
    exists (c', o2), (log_drop (option_list old) g'), tt. unfold on_fst. cbn [fst snd].
    rewrite drop_values_calm by exact Hcalm. split; [reflexivity|]. split; [split; [exact Hc|reflexivity]|].
    split; [exact I|]. cbn. rewrite D, app_nil_r. auto.
  - destruct P as (c' & g' & k' & E & Hc & D & L & Pk).
    erewrite bind_Panic by (unfold on_fst; cbn [fst snd]; rewrite E; reflexivity).
    exists (c', o2), g', k'. repeat split; auto; apply Hc.
Qed.

Lemma no_cells_lookup i : i < N -> no_cells (A:=A) N !! i = Some None.
Proof. intros Hi. apply lookup_replicate_2. exact Hi. Qed.
Lemma no_cells_beyond i : N <= i -> no_cells (A:=A) N !! i = None.
Proof. intros Hi. apply lookup_none. unfold no_cells. rewrite replicate_length. exact Hi. Qed.

Lemma sp_unit_ok i v g : agrees (fun _ _ => True) SMade g (sp_unit e N i v tt g) (ar_unit N i v).
Proof.
  unfold sp_unit, sp_new. rewrite bind_ret.
  pose proof (sbuilding (fun o _ => o = tt) sparse0 _ tt g _ SMade (fun _ _ _ H => H)
    (sp_put_ok tt sparse0 _ g i v (sparse0_holds N))) as P.
  unfold ar_put, ar_unit in *. destruct (i <? N) eqn:E.
  - rewrite no_cells_lookup in P by lia. destruct P as (o & g' & r & Q & _ & Hr & D & L).
    exists o, g', r. auto.
  - rewrite no_cells_beyond in P by lia. destruct P as (o & g' & k & Q & _ & D & L & Pk).
    exists o, g', k. cbn in D. rewrite values_no_cells in D. auto.
Qed.
Lemma sp_pair_ok i1 v1 i2 v2 g :
  agrees (fun _ _ => True) SMade g (sp_pair e N i1 v1 i2 v2 tt g) (ar_pair N i1 v1 i2 v2).
Proof.
  unfold sp_pair.
  pose proof (sbuilding (fun o _ => o = tt) sparse0 _ tt g _ SMade (fun _ _ _ H => H)
    (sp_put_ok tt sparse0 _ g i1 v1 (sparse0_holds N))) as P.
  unfold ar_put in P. unfold ar_pair. destruct (i1 <? N) eqn:E1.
  - rewrite no_cells_lookup in P by lia. destruct P as (o & g' & [c u] & Q & Ho & Hr & D & L).
    rewrite Q. unfold SparseProofs.SMade in Hr. cbn [fst] in Hr. subst o.
    pose proof (sbuilding (fun o _ => o = tt) c _ tt g' _ SMade (fun _ _ _ H => H)
      (sp_put_ok tt c _ g' i2 v2 Hr)) as P2.
    unfold ar_put in P2. rewrite insert_if in P2. unfold no_cells in P2. rewrite replicate_length in P2. fold (no_cells (A:=A) N) in P2.
    apply (agrees_same _ _ g g'); [rewrite D; cbn; apply app_nil_r|exact L|].
    destruct (i2 <? N) eqn:E2.
    + destruct (i1 =? i2) eqn:E3.
      * rewrite if_true in P2 by lia. destruct P2 as (o & g2 & r & Q2 & _ & Hr2 & D2 & L2).
        exists o, g2, r. auto.
      * rewrite if_false in P2 by lia. rewrite no_cells_lookup in P2 by lia.
        destruct P2 as (o & g2 & r & Q2 & _ & Hr2 & D2 & L2). exists o, g2, r. auto.
    + rewrite if_false in P2 by lia. rewrite no_cells_beyond in P2 by lia.
      destruct P2 as (o & g2 & k & Q2 & _ & D2 & L2 & Pk). exists o, g2, k. rewrite D2. cbn.
      destruct (values_insert_some (no_cells N) i1 v1 (no_cells_lookup i1 ltac:(lia))) as (l1 & l2 & V1 & V2).
      rewrite values_no_cells in V1. symmetry in V1. apply app_eq_nil in V1 as [-> ->]. rewrite V2. cbn. auto.
  - rewrite no_cells_beyond in P by lia. destruct P as (o & g' & k & Q & Ho & D & L & Pk).
    rewrite Q. rewrite panic_dropping_ok by exact Hcalm. subst o.
    exists tt, (log_drop [v2] g'), k. cbn in *. rewrite values_no_cells in D. cbn in D. rewrite D, <- app_assoc. auto.
Qed.
Definition put_m {O2} i v : M A (sparse A * O2) unit :=
  let! old := on_fst (sp_insert e N i v) in on_fst (drop_values e (option_list old)).
Lemma put_then {O2 T} i v (k : M A (sparse A * O2) T) o g :
  bind (on_fst (sp_insert e N i v)) (fun old => bind (on_fst (drop_values e (option_list old))) (fun _ => k)) o g =
  bind (put_m i v) (fun _ => k) o g.
Proof. symmetry. unfold put_m. apply bind_bind. Qed.

(** Putting a value into an empty cell, or beyond the capacity. *)
Lemma put_empty {O2} (o2 : O2) c s g i v : SHolds c s -> s !! i = Some None ->
  exists c' g', put_m i v (c, o2) g = Ret (c', o2) g' tt /\ SHolds c' (<[i := Some v]> s) /\
    dropped g' = dropped g /\ leaked g' = leaked g.
Proof.
  intros H Hi. pose proof (sp_put_ok o2 c s g i v H) as P. unfold ar_put in P. rewrite Hi in P.
  destruct P as ([c' u] & g' & [] & Q & [Hc Hu] & _ & D & L). cbn in *. subst u. rewrite app_nil_r in D.
  exists c', g'. auto.
Qed.
Lemma put_beyond {O2} (o2 : O2) c s g i v : SHolds c s -> s !! i = None ->
  exists c' g', put_m i v (c, o2) g = Panic (c', o2) g' /\ SHolds c' s /\
    dropped g' = dropped g ++ [v] /\ leaked g' = leaked g.
Proof.
  intros H Hi. pose proof (sp_put_ok o2 c s g i v H) as P. unfold ar_put in P. rewrite Hi in P.
  destruct P as ([c' u] & g' & k & Q & [Hc Hu] & D & L & Pk). cbn in *. subst u.
  apply Permutation_nil in Pk. subst k. rewrite app_nil_r in L. exists c', g'. auto.
Qed.

(** ** FromIterator *)
Lemma sp_from_iter_loop_ok it : forall i c s g, SHolds c s -> (forall j, i <= j -> j < N -> s !! j = Some None) ->
  agrees (both SHolds (fun o _ => o = tt)) (fun _ _ => True) g (sp_from_iter_loop e N it i (c, tt) g)
    (match ar_fill it i s with SRet s r d => SRet (s, tt) r d | SPanic s d k => SPanic (s, tt) d k end).
Proof.
  induction it as [|[[v|]|] it IH]; intros i c s g H Hj; cbn [sp_from_iter_loop ar_fill].
  - exists (c, tt), g, tt. rewrite app_nil_r. repeat split; auto; apply H.
  - assert (EN : length s = N) by apply H. rewrite put_then. destruct (i <? length s) eqn:E.
    + destruct (put_empty tt c s g i v H (Hj i ltac:(lia) ltac:(lia))) as (c' & g' & Q & Hc & D & L).
      erewrite bind_Ret by exact Q. apply (agrees_same _ _ g g'); auto. apply IH; [exact Hc|].
      intros j H1 H2. rewrite list_lookup_insert_ne by lia. apply Hj; lia.
    + destruct (put_beyond tt c s g i v H (lookup_none s i ltac:(lia))) as (c' & g' & Q & Hc & D & L).
      erewrite bind_Panic by exact Q. exists (c', tt), g', []. rewrite app_nil_r.
      repeat split; auto; apply Hc.
  - apply IH; [exact H|]. intros j H1 H2. apply Hj; lia.
  - exists (c, tt), g, []. rewrite !app_nil_r. repeat split; auto; apply H.
Qed.
Lemma sp_from_iter_ok it g : agrees (fun _ _ => True) SMade g (sp_from_iter e N it tt g) (ar_from_iter N it).
Proof.
  unfold sp_from_iter, sp_new. rewrite bind_ret.
  pose proof (sbuilding (fun o _ => o = tt) sparse0 _ tt g _ SMade (fun _ _ _ H => H)
    (sp_from_iter_loop_ok it 0 sparse0 _ g (sparse0_holds N) (fun j _ Hj => no_cells_lookup j Hj))) as P.
  unfold ar_from_iter. destruct (ar_fill it 0 (no_cells N)) as [s r d|s d k].
  - destruct P as (o & g' & r' & Q & _ & Hr & D & L). exists o, g', r'. auto.
  - destruct P as (o & g' & k' & Q & _ & D & L & Pk). exists o, g', k'. auto.
Qed.

(** ** Clone *)
Lemma insert_middle {B} (pre : list B) x y rest i : length pre = i ->
  <[i := y]> (pre ++ x :: rest) = pre ++ y :: rest.
Proof. intros <-. rewrite insert_app_r_alt by lia. rewrite Nat.sub_diag. reflexivity. Qed.
Lemma refill_nil t : refill t [] = no_cells (length t).
Proof. induction t as [|[x|] t IH]; cbn; [reflexivity| |]; f_equal; exact IH. Qed.

Lemma sp_clone_loop_ok cl t : forall a k pre pre' out self g,
  length pre = a -> length pre' = a ->
  SHolds self (pre' ++ t) -> SHolds out (pre ++ no_cells (length t)) ->
  exists out' g',
    sp_clone_loop e N cl (map fst (entries_from a t)) k (out, self) g =
      (if length (clones cl k (map snd (entries_from a t))) =? length (map snd (entries_from a t))
       then Ret (out', self) g' tt else Panic (out', self) g') /\
    SHolds out' (pre ++ refill t (clones cl k (map snd (entries_from a t)))) /\
    dropped g' = dropped g /\ leaked g' = leaked g.
Proof.
  induction t as [|x t IH]; intros a k pre pre' out self g Ha Ha' Hs Ho.
  - exists out, g. auto.
  - destruct x as [x|]; cbn [entries_from map fst snd sp_clone_loop clones].
    + assert (Hx : (pre' ++ Some x :: t) !! a = Some (Some x)).
      { rewrite lookup_app_r by lia. rewrite Ha', Nat.sub_diag. reflexivity. }
      assert (Ei : sp_index N a self g = Ret self g x).
      { unfold sp_index. erewrite bind_Ret by (apply sp_get_eq; exact Hs). rewrite Hx. reflexivity. }
      erewrite bind_Ret by (apply on_snd_Ret; exact Ei).
      destruct (cl k x) as [x'|].
      * rewrite put_then.
        destruct (put_empty self out _ g a x' Ho) as (c' & g' & Q & Hc & D & L).
        { cbn [length]. unfold no_cells. cbn [replicate]. rewrite lookup_app_r by lia. rewrite Ha, Nat.sub_diag. reflexivity. }
        erewrite bind_Ret by exact Q.
        cbn [length] in Hc. unfold no_cells in Hc. cbn [replicate] in Hc. rewrite insert_middle in Hc by exact Ha.
        rewrite (cons_middle (Some x')) in Hc. rewrite app_assoc in Hc.
        rewrite (cons_middle (Some x)) in Hs. rewrite app_assoc in Hs.
        destruct (IH (S a) (S k) (pre ++ [Some x']) (pre' ++ [Some x]) c' self g') as (out' & g2 & Q2 & H2 & D2 & L2);
          [rewrite app_length; cbn; lia|rewrite app_length; cbn; lia|exact Hs|exact Hc|].
        exists out', g2. rewrite Q2. cbn [length]. split; [reflexivity|].
        rewrite <- app_assoc in H2. rewrite D2, L2. auto.
      * exists out, g. cbn [length]. split; [reflexivity|]. cbn [refill]. rewrite refill_nil. auto.
    + rewrite (cons_middle None) in Hs. rewrite app_assoc in Hs.
      cbn [length] in Ho. unfold no_cells in Ho. cbn [replicate] in Ho. rewrite (cons_middle None) in Ho. rewrite app_assoc in Ho.
      destruct (IH (S a) k (pre ++ [None]) (pre' ++ [None]) out self g) as (out' & g2 & Q2 & H2 & D2 & L2);
          [rewrite app_length; cbn; lia|rewrite app_length; cbn; lia|exact Hs|exact Ho|].
      exists out', g2. split; [exact Q2|]. rewrite <- app_assoc in H2. 
      destruct (clones cl k (map snd (entries_from (S a) t))); cbn [refill]; auto.
Qed.
Lemma sp_clone_ok cl c s g : SHolds c s -> agrees SHolds SMade g (sp_clone e N cl c g) (ar_clone cl s).
Proof.
  intros H. assert (EN : length s = N) by apply H.
  unfold sp_clone, sp_new. rewrite bind_ret.
  assert (W : agrees (both SHolds SHolds) (fun _ (_ : unit) => True) g
    ((let! bits := on_snd (sp_indices N) in sp_clone_loop e N cl bits 0) (sparse0, c) g)
    (if length (clones cl 0 (values s)) =? length (values s)
     then SRet (refill s (clones cl 0 (values s)), s) tt []
     else SPanic (refill s (clones cl 0 (values s)), s) [] [])).
  { erewrite bind_Ret by (apply on_snd_Ret; unfold sp_indices; erewrite (bind_Ret get) by reflexivity; reflexivity).
    rewrite (sholds_indices N c s H).
    destruct (sp_clone_loop_ok cl s 0 0 [] [] sparse0 c g eq_refl eq_refl H) as (out' & g' & Q & Ho & D & L).
    { cbn [app]. rewrite EN. apply sparse0_holds. }
    change (map fst (entries_from 0 s)) with (occupied s) in Q.
    change (map snd (entries_from 0 s)) with (values s) in Q, Ho. rewrite Q. cbn [app] in Ho.
    destruct (_ =? _).
    - exists (out', c), g', tt. rewrite app_nil_r. repeat split; auto; apply Ho || apply H.
    - exists (out', c), g', []. rewrite !app_nil_r. repeat split; auto; apply Ho || apply H. }
  apply (sbuilding SHolds sparse0 _ c g _ SMade (fun _ _ _ H => H)) in W. unfold ar_clone.
  destruct (_ =? _); [exact W|]. cbn [closing_with] in W.
  rewrite refill_values in W by (apply clones_length). exact W.
Qed.

(** ** Comparison *)
Definition cells_eq (eqA : A -> A -> bool) s t : bool := slice_eq (opt_eqb eqA) s t.
Lemma slice_eq_lookup {B} (f : B -> B -> bool) : forall l1 l2, length l1 = length l2 ->
  (slice_eq f l1 l2 = true <-> forall i x y, l1 !! i = Some x -> l2 !! i = Some y -> f x y = true).
Proof.
  induction l1 as [|a l1 IH]; intros [|b l2] Hl; cbn [length] in Hl; try lia; cbn [slice_eq].
  - split; [intros _ i x y H; discriminate|reflexivity].
  - rewrite andb_true_iff, IH by lia. split.
    + intros [H1 H2] [|i] x y Hx Hy; [injection Hx as ->; injection Hy as ->; exact H1|]. exact (H2 i x y Hx Hy).
    + intros H. split; [exact (H 0 a b eq_refl eq_refl)|]. intros i x y Hx Hy. exact (H (S i) x y Hx Hy).
Qed.
Lemma sp_eq_loop_ok eqA bits : forall c1 c2 s1 s2 g, SHolds c1 s1 -> SHolds c2 s2 ->
  sp_eq_loop N eqA bits (c1, c2) g =
    Ret (c1, c2) g (forallb (fun i => opt_eqb eqA (mjoin (s1 !! i)) (mjoin (s2 !! i))) bits).
Proof.
  induction bits as [|i bits IH]; intros c1 c2 s1 s2 g H1 H2; cbn [sp_eq_loop forallb]; [reflexivity|].
  erewrite bind_Ret by (apply on_fst_Ret; apply sp_get_eq; exact H1).
  erewrite bind_Ret by (apply on_snd_Ret; apply sp_get_eq; exact H2).
  destruct (opt_eqb _ _ _); cbn [negb andb]; [|reflexivity]. apply IH; assumption.
Qed.
Lemma sp_eq_ok eqA c1 c2 s1 s2 g : SHolds c1 s1 -> SHolds c2 s2 ->
  sp_eq N eqA (c1, c2) g = Ret (c1, c2) g (cells_eq eqA s1 s2).
Proof.
  intros H1 H2. unfold sp_eq. erewrite (bind_Ret get) by reflexivity. cbn [fst snd].
  pose proof H1 as (L1 & M1 & D1). pose proof H2 as (L2 & M2 & D2).
  assert (EN : cells_eq eqA s1 s2 = bm_eq N (smap c1) (smap c2) &&
     forallb (fun i => opt_eqb eqA (mjoin (s1 !! i)) (mjoin (s2 !! i))) (occupied s1)).
  { apply eq_true_iff_eq. unfold cells_eq. rewrite slice_eq_lookup by lia.
    rewrite andb_true_iff. unfold bm_eq. rewrite !forallb_forall. split.
    - intros H. split.
      + intros i Hi. apply in_seq in Hi.
        destruct (lookup_cell N s1 i L1 ltac:(lia)) as [x Hx]. destruct (lookup_cell N s2 i L2 ltac:(lia)) as [y Hy].
        pose proof (H i x y Hx Hy) as E. rewrite M1, M2, Hx, Hy by lia. destruct x, y; cbn in *; congruence.
      + intros i Hi. unfold occupied in Hi. apply in_map_iff in Hi as ([j a] & Ej & Hj). cbn in Ej. subst j.
        apply entries_in in Hj. pose proof (lookup_lt_Some _ _ _ Hj).
        destruct (lookup_cell N s2 i L2 ltac:(lia)) as [y Hy]. rewrite Hj, Hy. exact (H i _ y Hj Hy).
    - intros [Hm Hv] i x y Hx Hy. pose proof (lookup_lt_Some _ _ _ Hx).
      specialize (Hm i). rewrite in_seq in Hm. specialize (Hm ltac:(lia)).
      rewrite M1, M2, Hx, Hy in Hm by lia. destruct x as [a|], y as [b|]; cbn in *; try discriminate; [|reflexivity].
      assert (Hin : In i (occupied s1)) by (apply in_map_iff; exists (i, a); split; [reflexivity|apply entries_in; exact Hx]).
      specialize (Hv i Hin). rewrite Hx, Hy in Hv. exact Hv. }
  destruct (bm_eq N (smap c1) (smap c2)); cbn [negb].
  - unfold sp_indices. erewrite bind_Ret by (apply on_fst_Ret; erewrite (bind_Ret get) by reflexivity; reflexivity).
    rewrite (sholds_indices N c1 s1 H1). rewrite (sp_eq_loop_ok eqA _ c1 c2 s1 s2 g H1 H2). rewrite EN. reflexivity.
  - rewrite EN. reflexivity.
Qed.

(** Comparison with a map whose [get] is [other] and whose [len] is [len]. *)
Definition cells_eq_map (eqA : A -> A -> bool) (len : nat) (other : nat -> option A) s : bool :=
  (length (values s) =? len) && forallb (fun ia => opt_eqb eqA (Some (snd ia)) (other (fst ia))) (entries s).
Lemma sp_eq_map_loop_ok eqA other bits : forall c s g, SHolds c s ->
  sp_eq_map_loop N eqA other bits c g = Ret c g (forallb (fun i => opt_eqb eqA (mjoin (s !! i)) (other i)) bits).
Proof.
  induction bits as [|i bits IH]; intros c s g H; cbn [sp_eq_map_loop forallb]; [reflexivity|].
  erewrite bind_Ret by (apply sp_get_eq; exact H).
  destruct (opt_eqb _ _ _); cbn [negb andb]; [|reflexivity]. apply IH; assumption.
Qed.
Lemma forallb_entries (f : option A -> nat -> bool) s :
  forallb (fun i => f (mjoin (s !! i)) i) (occupied s) = forallb (fun ia => f (Some (snd ia)) (fst ia)) (entries s).
Proof.
  unfold occupied. assert (H : forall es, (forall ia, In ia es -> s !! fst ia = Some (Some (snd ia))) ->
    forallb (fun i => f (mjoin (s !! i)) i) (map fst es) = forallb (fun ia => f (Some (snd ia)) (fst ia)) es).
  { induction es as [|ia es IH]; intros H; cbn [map forallb]; [reflexivity|].
    rewrite (H ia) by (left; reflexivity). cbn [mjoin option_join]. f_equal. apply IH. intros. apply H. right. assumption. }
  apply H. intros [i a] Hi. apply entries_in. exact Hi.
Qed.
Lemma sp_eq_map_ok eqA len other c s g : SHolds c s ->
  sp_eq_map N eqA len other c g = Ret c g (cells_eq_map eqA len other s).
Proof.
  intros H. unfold sp_eq_map, sp_len. rewrite bind_bind. erewrite (bind_Ret get) by reflexivity. rewrite bind_ret.
  rewrite (sholds_len N c s H). unfold cells_eq_map. destruct (length (values s) =? len); cbn [negb andb]; [|reflexivity].
  unfold sp_indices. rewrite bind_bind. erewrite (bind_Ret get) by reflexivity. rewrite bind_ret.
  rewrite (sholds_indices N c s H), (sp_eq_map_loop_ok eqA other _ c s g H).
  rewrite (forallb_entries (fun x i => opt_eqb eqA x (other i))). reflexivity.
Qed.
(** It is true exactly when the map has the same entries, whatever keys it may have beyond the capacity. *)
Lemma cells_eq_map_iff eqA (keys : list nat) (other : nat -> option A) s :
  (forall a b, eqA a b = true <-> a = b) ->
  NoDup keys -> (forall i, In i keys <-> is_some (other i) = true) ->
  (cells_eq_map eqA (length keys) other s = true <-> forall i, other i = mjoin (s !! i)).
Proof.
  intros Heq Hnd Hk. unfold cells_eq_map. rewrite andb_true_iff, forallb_forall.
  assert (Hocc : NoDup (occupied s)).
  { destruct (entries_sorted s) as [Hs _]. clear - Hs. apply NoDup_ListNoDup. induction Hs as [|i l Hl IH Hf]; constructor; auto.
    intros Hin. rewrite List.Forall_forall in Hf. specialize (Hf i Hin). lia. }
  assert (Hin : forall i, In i (occupied s) <-> is_some (mjoin (s !! i)) = true).
  { intros i. unfold occupied. rewrite in_map_iff. split.
    - intros ([j a] & <- & Hj). apply entries_in in Hj. cbn. rewrite Hj. reflexivity.
    - destruct (s !! i) as [[a|]|] eqn:E; cbn; try discriminate. intros _. exists (i, a). split; [reflexivity|].
      apply entries_in. exact E. }
  split.
  - intros [Hl Hall].
    assert (Hsub : incl (occupied s) keys).
    { intros i Hi. apply Hk. unfold occupied in Hi. apply in_map_iff in Hi as ([j a] & Ej & Hj). cbn in Ej. subst j.
      specialize (Hall _ Hj). cbn in Hall. destruct (other i); [reflexivity|discriminate]. }
    assert (Hsup : incl keys (occupied s)).
    { apply NoDup_length_incl; [apply NoDup_ListNoDup; exact Hocc| |exact Hsub]. rewrite occupied_length. lia. }
    intros i. destruct (s !! i) as [[a|]|] eqn:E; cbn.
    + apply entries_in in E. specialize (Hall _ E). cbn in Hall. destruct (other i) as [b|]; [|discriminate].
      apply Heq in Hall. congruence.
    + destruct (other i) as [b|] eqn:Eo; [|reflexivity]. exfalso.
      assert (In i (occupied s)) as Hi by (apply Hsup, Hk; rewrite Eo; reflexivity).
      apply Hin in Hi. rewrite E in Hi. discriminate.
    + destruct (other i) as [b|] eqn:Eo; [|reflexivity]. exfalso.
      assert (In i (occupied s)) as Hi by (apply Hsup, Hk; rewrite Eo; reflexivity).
      apply Hin in Hi. rewrite E in Hi. discriminate.
  - intros H. split.
    + rewrite <- occupied_length. apply Nat.eqb_eq. apply Permutation_length.
      apply NoDup_Permutation; [exact Hocc|exact Hnd|]. intros i. rewrite !elem_of_list_In, Hin, Hk, H. reflexivity.
    + intros [i a] Hi. apply entries_in in Hi. cbn. rewrite H, Hi. cbn. apply Heq. reflexivity.
Qed.
End proofs.
