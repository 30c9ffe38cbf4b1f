(** * [SparseChunk]s of values whose destructors may panic: every program. *)
From Verif Require Import Machine Spec Prims IterSpec2 SparseModel SparseSpec SparseProofs SparseProofs2 SparseProofs3
  SparseLaws RingProofs RingProofs6 Program SparseProgram Bombs BombProgram ChunkBombs RingBombs.

Section sparse.
Context {A : Type} (e : env A) (N : nat).
Notation e0 := (calmed e).
Notation bombs := (List.existsb (bomb e)).
Notation SHolds := (SHolds (A:=A) N).
Notation SMade := (SMade (A:=A) N).
Implicit Types (c : sparse A) (s t : list (option A)) (g : log A) (v : A) (i k : nat).
Lemma tame_sp_insert i v : tame e (sp_insert e N i v) (sp_insert e0 N i v).
Proof. unfold sp_insert, map_set, sp_force_write. tame. Qed.
Lemma tame_sp_index i : tame e (sp_index (A := A) N i) (sp_index N i).
Proof. unfold sp_index, sp_get, map_get, sp_get_unchecked. tame. Qed.

(** ** Putting a value into a cell. *)
Definition putb i v s : bres (A := A) (list (option A)) unit :=
  match s !! i with
  | Some None => BRet (<[i := Some v]> s) tt []
  | Some (Some a) => if bomb e a then BPanic (<[i := Some v]> s) [a] [] else BRet (<[i := Some v]> s) tt [a]
  | None => if bomb e v then BAbort else BPanic s [v] []
  end.
Definition with_tt {S R} (b : bres (A := A) S R) : bres (A := A) (S * unit) R :=
  match b with BRet s r d => BRet (s, tt) r d | BPanic s d k => BPanic (s, tt) d k | BAbort => BAbort | BOpen => BOpen end.
Lemma put_bombs {O2} (o2 : O2) c s g i v : SHolds c s ->
  agreesb (both SHolds (fun o _ => o = o2)) (fun _ _ => True) g (put_m e N i v (c, o2) g) (with_tt (putb i v s)).
Proof.
  intros H. pose proof (sp_insert_ok e0 N c s g i v (calmed_calm e) H) as P.
  pose proof (tame_agrees e _ _ _ _ _ _ _ (tame_sp_insert i v) P) as P'. clear P. rename P' into P. unfold ar_insert in P. unfold putb, put_m.
  destruct (s !! i) as [old|]; cbn [with_bombs existsb] in P.
  - destruct P as (c' & g' & r & E & Hc & -> & D & L). rewrite app_nil_r in D.
    assert (Q : forall b, agreesb (both SHolds (fun o (_ : unit) => o = o2)) (fun _ (_ : unit) => True) g
              (on_fst (drop_values e (option_list old)) (c', o2) g') b ->
            agreesb (both SHolds (fun o (_ : unit) => o = o2)) (fun _ (_ : unit) => True) g
              ((let! old := on_fst (sp_insert e N i v) in on_fst (drop_values e (option_list old))) (c, o2) g) b).
    { intros b Hb. erewrite bind_Ret by (apply on_fst_Ret; exact E). exact Hb. }
    apply Q. unfold on_fst, drop_values. destruct old as [a|]; cbn [option_list List.filter fst snd].
    + cbn. destruct (bomb e a); cbn.
      * exists (c', o2), (log_drop [a] g'), []. cbn. rewrite D, L, !app_nil_r. repeat split; auto; apply Hc.
      * exists (c', o2), (log_drop [a] g'), tt. cbn. rewrite D, L. repeat split; auto; apply Hc.
    + exists (c', o2), (log_drop [] g'), tt. cbn. rewrite D, L. repeat split; auto; apply Hc.
  - destruct (bomb e v); cbn [orb] in P; cbn [with_tt].
    + cbn in P. unfold bind, on_fst. cbn [fst snd]. rewrite P. reflexivity.
    + destruct P as (c' & g' & k' & E & Hc & D & L & Pk). exists (c', o2), g', k'.
      unfold bind, on_fst. cbn [fst snd]. rewrite E. repeat split; auto; apply Hc.
Qed.

(** ** Building a chunk. *)
Definition closingb {St R} (b : bres (A := A) (list (option A) * St) R) : bres (A := A) St (list (option A)) :=
  match b with
  | BRet (l, s') _ d => BRet s' l d
  | BPanic (l, s') d k => if bombs (values l) then BAbort else BPanic s' (d ++ values l) k
  | BAbort => BAbort
  | BOpen => BOpen
  end.
Lemma no_bomb_bombs (l : list A) : no_bomb e l = negb (bombs l).
Proof. unfold no_bomb. induction l as [|a l IH]; cbn; [reflexivity|]. rewrite IH. destruct (bomb e a); reflexivity. Qed.
Lemma buildingb {O2 S2} (H2 : O2 -> S2 -> Prop) c (m : M A (sparse A * O2) unit) o2 g
    (b : bres (A := A) (list (option A) * S2) unit) :
  agreesb (both SHolds H2) (fun _ (_ : unit) => True) g (m (c, o2) g) b ->
  agreesb H2 SMade g (with_local c (sp_destroy e N) m o2 g) (closingb b).
Proof.
  destruct b as [[l s2] r d|[l s2] d k| |]; cbn [agreesb closingb].
  - intros (o' & g' & r0 & E & [Ha Hb] & _ & E1 & E2). exists (snd o'), g', (fst o', r0).
    unfold with_local. rewrite E. cbn in *. split; [reflexivity|]. split; [assumption|].
    split; [exact Ha|]. auto.
  - intros (o' & g' & k' & E & [Ha Hb] & E1 & E2 & E3). cbn [fst snd] in *.
    destruct (sp_destroy_bombs e N (fst o') l g' Ha) as (c' & g2 & E4 & D2 & L2).
    rewrite no_bomb_bombs in E4. pose proof (no_bomb_until e (values l)) as U. rewrite no_bomb_bombs in U.
    unfold with_local. rewrite E. destruct (bombs (values l)); cbn [negb] in *.
    + rewrite E4. reflexivity.
    + rewrite U in D2, L2 by reflexivity. rewrite drop_all, app_nil_r in L2.
      exists (snd o'), g2, k'. rewrite E4. rewrite D2, E1, app_assoc, L2, E2. auto.
  - intros E. unfold with_local. rewrite E. reflexivity.
  - auto.
Qed.
(** [unit] *)
Lemma sp_unit_bombs i v g :
  agreesb (fun _ _ => True) SMade g (sp_unit e N i v tt g) (with_bombs e (ar_unit N i v)).
Proof.
  unfold sp_unit, sp_new. rewrite bind_ret.
  pose proof (buildingb (fun o _ => o = tt) sparse0 _ tt g _ (put_bombs tt sparse0 _ g i v (sparse0_holds N))) as P.
  unfold putb, ar_unit in *. destruct (i <? N) eqn:E.
  - rewrite no_cells_lookup in P by lia. destruct P as (o & g' & r & Q & _ & Hr & D & L).
    exists o, g', r. auto.
  - rewrite no_cells_beyond in P by lia. cbn [with_bombs existsb]. destruct (bomb e v); [exact P|].
    cbn [with_tt closingb] in P. rewrite values_no_cells in P. cbn in P.
    destruct P as (o & g' & k & Q & _ & D & L & Pk). exists o, g', k. auto.
Qed.
(** [pair]: at equal indices the first value is dropped when the second one comes in; if its destructor panics
    the chunk, which owns the second one, is destroyed. *)
Definition pairb i1 v1 i2 v2 : bres (A := A) unit (list (option A)) :=
  if i1 <? N then
    if i2 <? N then
      if (i1 =? i2) && bomb e v1 then (if bomb e v2 then BAbort else BPanic tt [v1; v2] [])
      else BRet tt (<[i2 := Some v2]> (<[i1 := Some v1]> (no_cells N))) (if i1 =? i2 then [v1] else [])
    else if bomb e v1 || bomb e v2 then BAbort else BPanic tt [v2; v1] []
  else if bomb e v1 || bomb e v2 then BAbort else BPanic tt [v1; v2] [].
Lemma sp_pair_bombs i1 v1 i2 v2 g :
  agreesb (fun _ _ => True) SMade g (sp_pair e N i1 v1 i2 v2 tt g) (pairb i1 v1 i2 v2).
Proof.
  unfold sp_pair.
  pose proof (buildingb (fun o _ => o = tt) sparse0 _ tt g _ (put_bombs tt sparse0 _ g i1 v1 (sparse0_holds N))) as P.
  unfold putb in P. unfold pairb. destruct (i1 <? N) eqn:E1.
  - rewrite no_cells_lookup in P by lia. destruct P as (o & g' & [c u] & Q & Ho & Hr & D & L).
    unfold put_m in Q. rewrite Q. unfold SparseProofs.SMade in Hr. cbn [fst] in Hr. subst o.
    pose proof (buildingb (fun o _ => o = tt) c _ tt g' _ (put_bombs tt c _ g' i2 v2 Hr)) as P2.
    unfold putb in P2. rewrite insert_if in P2. unfold no_cells in P2. rewrite replicate_length in P2. fold (no_cells (A:=A) N) in P2.
    rewrite app_nil_r in D.
    destruct (i2 <? N) eqn:E2.
    + destruct (i1 =? i2) eqn:E3; cbn [andb].
      * assert (i1 = i2) as <- by lia. rewrite if_true in P2 by lia. destruct (bomb e v1); cbn [with_tt closingb] in P2.
        -- rewrite list_insert_insert in P2.
           destruct (values_insert_some (no_cells N) i1 v2 (no_cells_lookup N i1 ltac:(lia))) as (l1 & l2 & V1 & V2).
           rewrite values_no_cells in V1. symmetry in V1. apply app_eq_nil in V1 as [-> ->]. rewrite V2 in P2. cbn in P2.
           rewrite orb_false_r in P2. destruct (bomb e v2); [exact P2|].
           destruct P2 as (o & g2 & k' & Q2 & _ & D2 & L2 & Pk). exists o, g2, k'. rewrite <- D, <- L. auto.
        -- destruct P2 as (o & g2 & r & Q2 & _ & Hr2 & D2 & L2). exists o, g2, r. rewrite <- D, <- L. auto.
      * rewrite if_false in P2 by lia. rewrite no_cells_lookup in P2 by lia.
        destruct P2 as (o & g2 & r & Q2 & _ & Hr2 & D2 & L2). exists o, g2, r. rewrite <- D, <- L. auto.
    + rewrite if_false in P2 by lia. rewrite no_cells_beyond in P2 by lia.
      destruct (values_insert_some (no_cells N) i1 v1 (no_cells_lookup N i1 ltac:(lia))) as (l1 & l2 & V1 & V2).
      rewrite values_no_cells in V1. symmetry in V1. apply app_eq_nil in V1 as [-> ->].
      destruct (bomb e v2); [rewrite orb_true_r; exact P2|]. rewrite orb_false_r.
      cbn [with_tt closingb] in P2. rewrite V2 in P2. cbn [existsb app] in P2. rewrite orb_false_r in P2.
      destruct (bomb e v1); [exact P2|].
      destruct P2 as (o & g2 & k & Q2 & _ & D2 & L2 & Pk). exists o, g2, k. rewrite <- D, <- L. auto.
  - rewrite no_cells_beyond in P by lia. destruct (bomb e v1); cbn [orb].
    + cbn in P. unfold put_m in P. rewrite P. reflexivity.
    + cbn [with_tt closingb] in P. rewrite values_no_cells in P. cbn [existsb] in P.
      destruct P as (o & g' & k & Q & Ho & D & L & Pk). unfold put_m in Q. rewrite Q. unfold panic_dropping.
      destruct (bomb e v2); [reflexivity|]. exists o, (log_drop [v2] g'), k. cbn in *. rewrite D, <- app_assoc. auto.
Qed.
(** [from_iter] *)
Definition with_tt_s {S R} (b : sres A S R) : sres A (S * unit) R :=
  match b with SRet s r d => SRet (s, tt) r d | SPanic s d k => SPanic (s, tt) d k end.
Lemma sp_from_iter_loop_bombs it : forall i c s g, SHolds c s -> (forall j, i <= j -> j < N -> s !! j = Some None) ->
  agreesb (both SHolds (fun o _ => o = tt)) (fun _ _ => True) g (sp_from_iter_loop e N it i (c, tt) g)
    (with_bombs e (with_tt_s (ar_fill it i s))).
Proof.
  induction it as [|[[v|]|] it IH]; intros i c s g H Hj; cbn [sp_from_iter_loop ar_fill].
  - exists (c, tt), g, tt. rewrite app_nil_r. repeat split; auto; apply H.
  - assert (EN : length s = N) by apply H. pose proof (put_bombs tt c s g i v H) as P. unfold putb in P.
    assert (Q : forall k : M A (sparse A * unit) unit,
      bind (on_fst (sp_insert e N i v)) (fun old => bind (on_fst (drop_values e (option_list old))) (fun _ => k)) (c, tt) g =
      bind (put_m e N i v) (fun _ => k) (c, tt) g) by (intros; apply put_then).
    rewrite Q. destruct (i <? length s) eqn:E.
    + rewrite Hj in P by lia. destruct P as ([c' []] & g' & u & E' & [Hc _] & _ & D & L). cbn in Hc. rewrite app_nil_r in D.
      erewrite bind_Ret by exact E'. specialize (IH (S i) c' (<[i := Some v]> s) g' Hc).
      assert (Hj' : forall j, S i <= j -> j < N -> <[i := Some v]> s !! j = Some None).
      { intros j H1 H2. rewrite list_lookup_insert_ne by lia. apply Hj; lia. }
      specialize (IH Hj'). destruct (with_bombs e _) as [x r d|x d k| |]; cbn in *; rewrite ?D, ?L in IH; exact IH.
    + rewrite (lookup_none s i) in P by lia. cbn. rewrite orb_false_r. destruct (bomb e v); cbn in *.
      * unfold bind. rewrite P. reflexivity.
      * destruct P as ([c' []] & g' & k & E' & [Hc _] & D & L & Pk). cbn in Hc.
        erewrite bind_Panic by exact E'. exists (c', tt), g', k. repeat split; auto; apply Hc.
  - apply IH; [exact H|]. intros j H1 H2. apply Hj; lia.
  - exists (c, tt), g, []. rewrite !app_nil_r. repeat split; auto; apply H.
Qed.
Lemma ar_fill_quiet it : forall i s, match ar_fill it i s with SRet _ _ d => d = [] | SPanic _ _ k => k = [] end.
Proof.
  induction it as [|[[v|]|] it IH]; intros i s; cbn [ar_fill]; auto; [|apply IH]. destruct (_ <? _); [apply IH|reflexivity].
Qed.
Lemma sp_from_iter_bombs it g :
  agreesb (fun _ _ => True) SMade g (sp_from_iter e N it tt g) (with_bombs e (ar_from_iter N it)).
Proof.
  unfold sp_from_iter, sp_new. rewrite bind_ret.
  pose proof (buildingb (fun o _ => o = tt) sparse0 _ tt g _
    (sp_from_iter_loop_bombs it 0 sparse0 _ g (sparse0_holds N) (fun j _ Hj => no_cells_lookup N j Hj))) as P.
  unfold ar_from_iter. pose proof (ar_fill_quiet it 0 (no_cells N)) as Q.
  destruct (ar_fill it 0 (no_cells N)) as [s r d|s d k]; subst.
  - destruct P as (o & g' & r' & E & _ & Hr & D & L). exists o, g', r'. auto.
  - cbn [with_tt_s with_bombs] in *. rewrite existsb_app. destruct (bombs d); [exact P|]. cbn [closingb orb] in *.
    destruct (bombs (values s)); [exact P|].
    destruct P as (o & g' & k' & E & _ & D & L & Pk). exists o, g', k'. auto.
Qed.
(** [clone] *)
Lemma mild_clone_loop cl bits : forall k, mild e (sp_clone_loop e N cl bits k) (sp_clone_loop e0 N cl bits k).
Proof.
  induction bits as [|i bits IH]; intros k; cbn [sp_clone_loop]; [apply tame_mild, tame_ret|].
  apply mild_bind; [apply tame_mild, tame_on_snd, tame_sp_index|]. intros a.
  destruct (cl k a); [|apply tame_mild, tame_panic].
  apply mild_bind; [apply tame_mild, tame_on_fst, tame_sp_insert|]. intros old.
  apply mild_bind; [|intros _; apply IH]. clear.
  intros o g. pose proof (brisk_mild e _ _ (brisk_drop_values e (option_list old)) (fst o) g) as P.
  unfold on_fst. destruct (drop_values e0 (option_list old) (fst o) g); auto.
  all: destruct P as (d & D & E); exists d; split; [exact D|]; intros B; rewrite E by exact B; reflexivity.
Qed.
Lemma sp_clone_bombs cl c s g : SHolds c s ->
  agreesb SHolds SMade g (sp_clone e N cl c g) (with_bombs e (ar_clone cl s)).
Proof.
  intros H. assert (EN : length s = N) by apply H.
  unfold sp_clone, sp_new. rewrite bind_ret.
  assert (W : agreesb (both SHolds SHolds) (fun _ (_ : unit) => True) g
    ((let! bits := on_snd (sp_indices N) in sp_clone_loop e N cl bits 0) (sparse0, c) g)
    (if length (clones cl 0 (values s)) =? length (values s)
     then BRet (refill s (clones cl 0 (values s)), s) tt []
     else BPanic (refill s (clones cl 0 (values s)), s) [] [])).
  { erewrite (bind_Ret (on_snd _)) by (apply on_snd_Ret; unfold sp_indices; erewrite (bind_Ret get) by reflexivity; reflexivity).
    rewrite (sholds_indices N c s H).
    destruct (sp_clone_loop_ok e0 N (calmed_calm e) cl s 0 0 [] [] sparse0 c g eq_refl eq_refl H) as (out' & g' & Q & Ho & D & L).
    { cbn [app]. rewrite EN. apply sparse0_holds. }
    change (map fst (entries_from 0 s)) with (occupied s) in Q.
    change (map snd (entries_from 0 s)) with (values s) in Q, Ho. cbn [app] in Ho.
    pose proof (mild_clone_loop cl (occupied s) 0 (sparse0, c) g) as P. rewrite Q in P.
    assert (E : sp_clone_loop e N cl (occupied s) 0 (sparse0, c) g = sp_clone_loop e0 N cl (occupied s) 0 (sparse0, c) g).
    { destruct (_ =? _); destruct P as (d & D' & P); rewrite D in D'; rewrite <- (app_nil_r (dropped g)) in D' at 1;
        apply app_inv_head in D'; subst d; rewrite P, Q by reflexivity; reflexivity. }
    rewrite E, Q. destruct (_ =? _).
    - exists (out', c), g', tt. rewrite app_nil_r. repeat split; auto; apply Ho || apply H.
    - exists (out', c), g', []. rewrite !app_nil_r. repeat split; auto; apply Ho || apply H. }
  apply (buildingb SHolds sparse0 _ c g) in W. unfold ar_clone.
  destruct (_ =? _); [exact W|]. cbn [closingb with_bombs] in *.
  rewrite refill_values in W by (apply clones_length). exact W.
Qed.
(** [iter_mut], assigning to every element: the loop stops at the first old value whose destructor panics. *)
Definition assign_allb (new : nat -> A) s : bres (A := A) (list (option A)) unit :=
  let u := until_bomb e (values s) in
  let s' := refill s (map new (seq 0 (length u)) ++ drop (length u) (values s)) in
  if bombs (values s) then BPanic s' u [] else BRet s' tt u.
Lemma refill_id t : forall a, refill t (map snd (entries_from a t)) = t.
Proof. induction t as [|[x|] t IH]; intros a; cbn; [reflexivity| |]; f_equal; apply IH. Qed.
Hypothesis HW : N < word e.
Lemma im_assign_loop_bombs new t : forall fuel a k pre c (b : bitmap) g,
  length pre = a -> SHolds c (pre ++ t) -> (forall p, p < N -> b p = (a <=? p) && smap c p) ->
  let vs := map snd (entries_from a t) in let u := until_bomb e vs in
  length vs < fuel ->
  exists c' b' g', im_assign_loop e N new fuel k (c, b) g = (if bombs vs then Panic (c', b') g' else Ret (c', b') g' tt) /\
    SHolds c' (pre ++ refill t (map new (seq k (length u)) ++ drop (length u) vs)) /\
    dropped g' = dropped g ++ u /\ leaked g' = leaked g.
Proof.
  cbn zeta. induction t as [|[x|] t IH]; intros fuel a k pre c b g Ha H Hb Hf.
  - destruct fuel as [|fuel]; [cbn in Hf; lia|]. cbn [im_assign_loop entries_from map length seq refill].
    destruct (im_next_ok e N HW (pre ++ []) (c, b) [] g) as (b' & E & R').
    { split; [exact H|]. exists a. assert (EN : length (pre ++ []) = N) by apply H. rewrite app_length in EN. cbn in EN.
      split; [lia|]. split; [|exact Hb]. rewrite drop_ge; [reflexivity|]. rewrite app_length. cbn. lia. }
    erewrite bind_Ret by exact E. cbn [head fst existsb]. eexists _, _, _. split; [reflexivity|]. cbn. rewrite !app_nil_r in *. auto.
  - destruct fuel as [|fuel]; [cbn in Hf; lia|]. cbn [im_assign_loop entries_from map length seq refill snd] in *.
    assert (EN : length (pre ++ Some x :: t) = N) by apply H. rewrite app_length in EN. cbn in EN.
    assert (Hx : (pre ++ Some x :: t) !! a = Some (Some x)).
    { rewrite lookup_app_r by lia. rewrite Ha, Nat.sub_diag. reflexivity. }
    assert (Ed : drop a (pre ++ Some x :: t) = Some x :: t) by (rewrite <- Ha; apply drop_app).
    destruct (im_next_ok e N HW (pre ++ Some x :: t) (c, b) ((a, x) :: entries_from (S a) t) g) as (b' & E & R').
    { split; [exact H|]. exists a. split; [lia|]. split; [|exact Hb]. rewrite Ed. reflexivity. }
    erewrite bind_Ret by exact E. cbn [head fst].
    destruct (overwrite N c _ a x (new k) H Hx g) as (c' & Hc' & Hl & E1 & E2).
    erewrite bind_Ret by (apply on_fst_Ret; exact E1). erewrite bind_Ret by (apply on_fst_Ret; exact E2).
    rewrite (insert_middle) in Hc' by exact Ha.
    cbn [until_bomb existsb]. destruct (bomb e x) eqn:Bx.
    { erewrite bind_Panic by (unfold on_fst, drop_values; cbn; rewrite Bx; reflexivity).
      eexists c', b', _. split; [reflexivity|]. cbn. rewrite drop_0, refill_id. auto. }
    cbn [orb].
    erewrite bind_Ret by (apply on_fst_Ret; unfold drop_values; cbn; rewrite Bx; reflexivity).
    rewrite (cons_middle (Some (new k))), app_assoc in Hc'.
    destruct (IH fuel (S a) (S k) (pre ++ [Some (new k)]) c' b' (log_drop [x] (log_write 1 g))) as (c2 & b2 & g2 & E3 & H3 & D & L).
    { rewrite app_length. cbn. lia. } { exact Hc'. }
    { (* the copy of the bitmap *)
      destruct R' as (_ & a' & Ha' & El & Hb').
      assert (Hm : forall p, p < N -> smap c' p = smap c p).
      { intros p Hp. destruct Hc' as (_ & M' & _). destruct H as (_ & M & _). rewrite M', M by exact Hp.
        rewrite <- app_assoc. cbn [app]. rewrite <- (insert_middle pre (Some x) (Some (new k)) t a Ha).
        rewrite insert_if. destruct ((p =? a) && _) eqn:Ep; [|reflexivity].
        assert (p = a) as -> by lia. rewrite Hx. reflexivity. }
      intros p Hp. rewrite Hm by exact Hp.
      unfold im_next in E. erewrite (bind_Ret get) in E by reflexivity. cbn [snd fst] in E.
      assert (EF : bm_first N b = Some a).
      { refine (im_first e N HW (pre ++ Some x :: t) (c, b) ((a, x) :: entries_from (S a) t) _).
        split; [exact H|]. exists a. split; [lia|]. split; [|exact Hb]. rewrite Ed. reflexivity. }
      rewrite EF in E.
      cbn [head fmap option_fmap option_map fst] in E. erewrite (bind_Ret (on_snd _)) in E by reflexivity. cbn [fst snd] in E.
      erewrite bind_Ret in E by (apply on_fst_Ret; apply (sp_value_ref_ok e N HW _ (pre ++ Some x :: t)); [exact H|exact Hx]).
      injection E as <-. unfold bm_put. destruct (p =? a) eqn:Ep.
      - replace (S a <=? p) with false by lia. reflexivity.
      - rewrite Hb by exact Hp. f_equal. lia. }
    { lia. }
    exists c2, b2, g2. split; [exact E3|]. rewrite <- app_assoc in H3. split; [exact H3|]. split; [|exact L].
    rewrite D. cbn. rewrite <- app_assoc. reflexivity.
  - cbn [entries_from] in *.
    assert (EN : length (pre ++ None :: t) = N) by apply H. rewrite app_length in EN. cbn in EN.
    rewrite (cons_middle None), app_assoc in H.
    destruct (IH fuel (S a) k (pre ++ [None]) c b g) as (c2 & b2 & g2 & E3 & H3 & D & L).
    { rewrite app_length. cbn. lia. } { exact H. }
    { intros p Hp. rewrite Hb by exact Hp. destruct (decide (p = a)) as [->|Hne].
      - destruct H as (_ & M & _). rewrite M by exact Hp. rewrite <- app_assoc. rewrite lookup_app_r by lia.
        rewrite Ha, Nat.sub_diag. cbn. rewrite !andb_false_r. reflexivity.
      - f_equal. lia. }
    { exact Hf. }
    exists c2, b2, g2. split; [exact E3|]. split; [|auto]. rewrite <- app_assoc in H3.
    cbn [refill]. exact H3.
Qed.
Lemma sp_iter_mut_assign_bombs new c s g : SHolds c s ->
  agreesb SHolds eq g (sp_iter_mut_assign e N new c g) (assign_allb new s).
Proof.
  intros H. unfold sp_iter_mut_assign, assign_allb.
  destruct (im_assign_loop_bombs new s (S N) 0 0 [] c (smap c) g eq_refl H) as (c' & b' & g' & E & H' & D & L).
  { intros p Hp. reflexivity. }
  { change (map snd (entries_from 0 s)) with (values s). pose proof (values_length s). destruct H as [<- _]. lia. }
  change (map snd (entries_from 0 s)) with (values s) in *.
  rewrite E. destruct (bombs (values s)).
  - exists c', g', []. rewrite app_nil_r. auto.
  - exists c', g', tt. auto.
Qed.

(** Destroying: in order of the indices, up to the first panicking destructor; the rest is leaked. *)
Definition sparse_killb s : bres (A := A) unit unit :=
  if no_bomb e (values s) then BRet tt tt (values s)
  else BPanic tt (until_bomb e (values s)) (drop (length (until_bomb e (values s))) (values s)).
(** The complete specification: no case is left open. *)
Definition bmap {St R T} (f : R -> T) (b : bres (A := A) St R) : bres (A := A) St T :=
  match b with BRet s r d => BRet s (f r) d | BPanic s d k => BPanic s d k | BAbort => BAbort | BOpen => BOpen end.
Definition sparse_bspec : bkit A (sp_op0 A) (sp_op1 A) (sp_opn A) (sp_op2 A) (sp_res A) (list (option A)) :=
  let B := bombed_spec e (array_spec N) sparse_killb in {|
  bs0 := fun o => match o with PPair i1 v1 i2 v2 => pairb i1 v1 i2 v2 | _ => bs0 B o end;
  bs1 := fun o s => match o with
    | PAssign i v => match s !! i with
        | Some (Some a) => if bomb e a then BPanic (<[i := Some v]> s) [a] [] else BRet (<[i := Some v]> s) PUnit [a]
        | _ => if bomb e v then BAbort else BPanic s [v] []
        end
    | PGetMutReplace i v => match s !! i with
        | Some (Some a) => BRet (<[i := Some v]> s) (POpt (Some a)) []
        | _ => if bomb e v then BPanic s [v] [] else BRet s (POpt None) [v]
        end
    | PIterMutAssign new => bmap sp_unit_res (assign_allb new s)
    | _ => bs1 B o s end;
  bsn := bsn B; bs2 := bs2 B; bsk := bsk B; bg0 := bg0 B;
  bg1 := fun o s => match o with
    | PIterMutAssign new => map new (seq 0 (length (until_bomb e (values s))))
    | _ => bg1 B o s end;
  bgn := bgn B |}.

Lemma sparse_killb_ok c s g : SHolds c s -> agreesb (fun _ _ => True) eq g (sp_destroy e N c g) (sparse_killb s).
Proof.
  intros H. destruct (sp_destroy_bombs e N c s g H) as (c' & g' & E & D & L). unfold sparse_killb.
  pose proof (no_bomb_until e (values s)) as U.
  destruct (no_bomb e (values s)) eqn:B.
  - rewrite U in D, L by reflexivity. rewrite drop_all, app_nil_r in L. exists c', g', tt. auto.
  - exists c', g', (drop (length (until_bomb e (values s))) (values s)). auto.
Qed.
Lemma agreesb_fst {O S2} (H : O -> S2 -> Prop) (m : Machine.M A O (sparse A * unit)) o g b :
  agreesb H SMade g (m o g) b -> agreesb H SHolds g (mapR fst m o g) b.
Proof.
  destruct b as [s r d|s d k| |]; cbn; auto.
  - intros (o' & g' & x & E & Ho & Hx & D & L). exists o', g', (fst x). unfold mapR, bind. rewrite E. auto.
  - intros (o' & g' & k' & E & Ho & D & L & P). exists o', g', k'. unfold mapR, bind. rewrite E. auto.
  - intros E. unfold mapR, bind. rewrite E. reflexivity.
Qed.
Lemma sp_assign_bombs c s g i v : SHolds c s ->
  agreesb SHolds eq g (sp_assign e N i v c g)
    (match s !! i with
     | Some (Some a) => if bomb e a then BPanic (<[i := Some v]> s) [a] [] else BRet (<[i := Some v]> s) tt [a]
     | _ => if bomb e v then BAbort else BPanic s [v] []
     end).
Proof.
  intros H. unfold sp_assign. erewrite bind_Ret by (apply sp_get_eq; exact H).
  destruct (s !! i) as [[a|]|] eqn:Hi; cbn [mjoin option_join].
  - destruct (overwrite N c s i a v H Hi g) as (c' & Hc' & Hl & E1 & E2).
    erewrite bind_Ret by exact E1. erewrite bind_Ret by exact E2. unfold drop_values. cbn [List.filter].
    destruct (bomb e a); cbn.
    + eexists c', _, []. split; [reflexivity|]. cbn. rewrite app_nil_r. auto.
    + eexists c', _, tt. split; [reflexivity|]. cbn. auto.
  - unfold panic_dropping. destruct (bomb e v); [reflexivity|]. eexists c, _, []. split; [reflexivity|]. cbn. rewrite app_nil_r. auto.
  - unfold panic_dropping. destruct (bomb e v); [reflexivity|]. eexists c, _, []. split; [reflexivity|]. cbn. rewrite app_nil_r. auto.
Qed.
Lemma sp_get_mut_replace_bombs c s g i v : SHolds c s ->
  agreesb SHolds eq g (sp_get_mut_replace e N i v c g)
    (match s !! i with
     | Some (Some a) => BRet (<[i := Some v]> s) (Some a) []
     | _ => if bomb e v then BPanic s [v] [] else BRet s None [v]
     end).
Proof.
  intros H. unfold sp_get_mut_replace. erewrite bind_Ret by (apply sp_get_eq; exact H).
  destruct (s !! i) as [[a|]|] eqn:Hi; cbn [mjoin option_join].
  - destruct (overwrite N c s i a v H Hi g) as (c' & Hc' & Hl & E1 & E2).
    erewrite bind_Ret by exact E1. erewrite bind_Ret by exact E2.
    eexists c', _, (Some a). split; [reflexivity|]. cbn. rewrite app_nil_r. auto.
  - unfold bind, drop_values. cbn [List.filter]. destruct (bomb e v); cbn.
    + eexists c, _, []. split; [reflexivity|]. cbn. rewrite app_nil_r. auto.
    + eexists c, _, None. split; [reflexivity|]. cbn. auto.
  - unfold bind, drop_values. cbn [List.filter]. destruct (bomb e v); cbn.
    + eexists c, _, []. split; [reflexivity|]. cbn. rewrite app_nil_r. auto.
    + eexists c, _, None. split; [reflexivity|]. cbn. auto.
Qed.
Lemma tame_sp_remove i : tame e (sp_remove (A := A) N i) (sp_remove N i).
Proof. unfold sp_remove, map_set, sp_force_read. tame. Qed.
Lemma tame_od_calls n : tame e (od_calls (A := A) e N n) (od_calls e0 N n).
Proof.
  induction n as [|n IH]; cbn [od_calls]; [apply tame_ret|].
  apply tame_bind; [|intros x; apply tame_bind; [exact IH|intros xs; apply tame_ret]].
  unfold od_next. repeat first [apply tame_sp_remove | tame_step].
Qed.
Lemma tame_sp_option_drain n : tame e (sp_option_drain (A := A) e N n) (sp_option_drain e0 N n).
Proof.
  intros c g. specialize (tame_od_calls n (c, 0) g). unfold tamed, sp_option_drain.
  destruct (od_calls e0 N n (c, 0) g) as [s' g' r|s' g'|u| |]; intros H.
  1-2: destruct H as (d & D & E); exists d; split; [exact D|]; rewrite E; destruct (bombs d); reflexivity.
  all: destruct H as [-> | ->]; auto.
Qed.
Lemma tame_sp_get i : tame e (sp_get (A := A) N i) (sp_get N i).
Proof. unfold sp_get, map_get, sp_get_unchecked. tame. Qed.
Lemma tame_sp_eq_loop eqA bits : tame e (sp_eq_loop (A := A) N eqA bits) (sp_eq_loop N eqA bits).
Proof.
  induction bits as [|i bits IH]; cbn [sp_eq_loop]; [apply tame_ret|].
  apply tame_bind; [apply tame_on_fst, tame_sp_get|]. intros x.
  apply tame_bind; [apply tame_on_snd, tame_sp_get|]. intros y. destruct (negb _); [apply tame_ret|exact IH].
Qed.
Lemma tame_sp_eq_map_loop eqA other bits : tame e (sp_eq_map_loop (A := A) N eqA other bits) (sp_eq_map_loop N eqA other bits).
Proof.
  induction bits as [|i bits IH]; cbn [sp_eq_map_loop]; [apply tame_ret|].
  apply tame_bind; [apply tame_sp_get|]. intros x. destruct (negb _); [apply tame_ret|exact IH].
Qed.
Theorem sparse_refinesb : refinesb (sparse_kit e N) (array_spec N) sparse_bspec SHolds.
Proof.
  pose proof (sparse_refines e0 N (calmed_calm e) HW) as R.
  split.
  - intros [|i v|i1 v1 i2 v2|it] g; cbn [run0 bs0 sparse_kit sparse_bspec bombed_spec spec0 array_spec].
    + eexists _, _, _. split; [reflexivity|]. rewrite app_nil_r. split; [exact I|].
      split; [exact (sparse0_holds N)|]. auto.
    + apply agreesb_fst, sp_unit_bombs.
    + apply agreesb_fst, sp_pair_bombs.
    + apply agreesb_fst, sp_from_iter_bombs.
  - intros o x s g Hx HL. destruct o.
    all: try (refine (tame_agrees e _ _ _ _ _ _ _ _ (ref1 _ _ _ R _ x s g Hx HL)); cbn [run1 sparse_kit];
      apply tame_mapR; unfold sp_pop, sp_first_index, sp_len, sp_is_empty, sp_is_full, sp_indices, sp_eq_map, sp_len, sp_first_index, sp_indices;
      repeat first [apply tame_sp_insert | apply tame_sp_option_drain | apply tame_sp_remove | apply tame_sp_get | apply tame_sp_index | apply tame_sp_eq_map_loop | tame_step]; fail).
    + cbn [run1 bs1 sparse_kit sparse_bspec].
      pose proof (agreesb_mapR _ (@POpt A) _ _ _ _ (sp_get_mut_replace_bombs x s g i v Hx)) as P.
      destruct (s !! i) as [[a|]|]; [exact P|destruct (bomb e v); exact P..].
    + cbn [run1 bs1 sparse_kit sparse_bspec].
      pose proof (agreesb_mapR _ (@sp_unit_res A) _ _ _ _ (sp_assign_bombs x s g i v Hx)) as P.
      destruct (s !! i) as [[a|]|]; [destruct (bomb e a); exact P|destruct (bomb e v); exact P..].
    + cbn [run1 bs1 sparse_kit sparse_bspec]. apply agreesb_mapR, sp_iter_mut_assign_bombs, Hx.
  - intros [cl] x s g Hx HL. cbn [runn bsn sparse_kit sparse_bspec bombed_spec specn array_spec].
    apply agreesb_fst, sp_clone_bombs, Hx.
  - intros [eqA] x s g Hx HL. refine (tame_agrees e _ _ _ _ _ _ _ _ (ref2 _ _ _ R _ x s g Hx HL)). cbn [run2 sparse_kit].
    apply tame_mapR. unfold sp_eq, sp_indices. repeat first [apply tame_sp_eq_loop | tame_step].
  - intros x s g. apply sparse_killb_ok.
Qed.
Lemma sparse_bbalanced : balancedb (array_spec N) sparse_bspec.
Proof.
  pose proof (bombed_balanced e (array_spec (A:=A) N) sparse_killb (array_balanced e N HW)) as P.
  assert (HK : forall s, match sparse_killb s with
    | BRet _ _ d => Permutation (items (array_spec N) s) d
    | BPanic _ d k => Permutation (items (array_spec N) s) (d ++ k)
    | _ => True end).
  { intros s. unfold sparse_killb. destruct (no_bomb e (values s)); cbn; [reflexivity|]. rewrite until_bomb_prefix. reflexivity. }
  specialize (P HK). split; [| |exact (bbaln _ _ P)|exact (bbal2 _ _ P)|exact (bbalk _ _ P)].
  - intros o. pose proof (bbal0 _ _ P o) as P1. destruct o; try exact P1. clear P1.
    pose proof (bal0 _ (array_balanced e N HW) (PPair i1 v1 i2 v2)) as P2. cbn [spec0 array_spec] in P2.
    unfold ar_pair in P2.
    cbn [bs0 bg0 sparse_bspec bombed_spec given0 array_spec]. unfold pairb.
    destruct (i1 <? N).
    + destruct (i2 <? N).
      * destruct (i1 =? i2); cbn [andb]; [destruct (bomb e v1); [destruct (bomb e v2); [exact I|perm]|exact P2]|exact P2].
      * destruct (bomb e v1 || bomb e v2); [exact I|perm].
    + destruct (bomb e v1 || bomb e v2); [exact I|perm].
  - intros o x HL. pose proof (bbal1 _ _ P o x HL) as P1. destruct o; try exact P1; clear P1.
    + pose proof (bal1 _ (array_balanced e N HW) (PGetMutReplace i v) x HL) as P2.
      cbn [spec1 array_spec] in P2. unfold ar_replace in P2. cbn [bs1 bg1 sparse_bspec bombed_spec given1 array_spec] in *.
      destruct (x !! i) as [[a|]|]; cbn [smapR] in P2; [exact P2|destruct (bomb e v); [perm|exact P2]..].
    + pose proof (bal1 _ (array_balanced e N HW) (PAssign i v) x HL) as P2.
      cbn [spec1 array_spec] in P2. unfold ar_assign in P2. cbn [bs1 bg1 sparse_bspec bombed_spec given1 array_spec] in *.
      destruct (x !! i) as [[a|]|]; cbn [smapR] in P2;
        [destruct (bomb e a); [rewrite app_nil_r; exact P2|exact P2]|destruct (bomb e v); [exact I|perm]..].
    + cbn [bs1 bg1 sparse_bspec bombed_spec items outs array_spec]. unfold assign_allb.
      pose proof (until_bomb_prefix e (values x)) as U.
      assert (V : values (refill x (map new (seq 0 (length (until_bomb e (values x)))) ++
        drop (length (until_bomb e (values x))) (values x))) =
        map new (seq 0 (length (until_bomb e (values x)))) ++ drop (length (until_bomb e (values x))) (values x)).
      { apply refill_values. rewrite app_length, map_length, seq_length, <- app_length, U. lia. }
      set (u := until_bomb e (values x)) in *.
      destruct (bombs (values x)); cbn [bmap]; rewrite V; rewrite <- U at 1; cbn; perm.
Qed.
(** No method is left without a specification. *)
Lemma sparse_known p : forall s : list (option (list (option A))), brun sparse_bspec p s <> BUnknown.
Proof.
  assert (W : forall S R (x : sres A S R), (match x with SRet _ _ d => d = [] | _ => True end) -> with_bombs e x <> BOpen).
  { intros S R [s r d|s d k]; cbn [with_bombs]; [intros ->; discriminate|]. destruct (bombs d); discriminate. }
  assert (H0 : forall o, bs0 sparse_bspec o <> BOpen).
  { intros [|i v|i1 v1 i2 v2|it]; cbn [bs0 sparse_bspec bombed_spec spec0 array_spec].
    - discriminate.
    - apply W. unfold ar_unit. destruct (i <? N); auto.
    - unfold pairb. repeat (match goal with |- context [if ?b then _ else _] => destruct b end); discriminate.
    - apply W. unfold ar_from_iter. pose proof (ar_fill_quiet it 0 (no_cells N)) as Q. destruct (ar_fill _ _ _); auto. }
  assert (H1 : forall o s, bs1 sparse_bspec o s <> BOpen).
  { intros o s. destruct o; cbn [bs1 sparse_bspec bombed_spec spec1 array_spec]; try (apply W; exact eq_refl).
    - apply W. unfold ar_insert. destruct (s !! i); cbn; auto.
    - apply W. unfold ar_remove. destruct (s !! i); cbn; auto.
    - apply W. unfold ar_pop. destruct (entries s) as [|[? ?] ?]; cbn; auto.
    - destruct (s !! i) as [[a|]|]; [discriminate|destruct (bomb e v); discriminate..].
    - apply W. unfold ar_index. destruct (s !! i) as [[a|]|]; cbn; auto.
    - destruct (s !! i) as [[a|]|]; [destruct (bomb e a); discriminate|destruct (bomb e v); discriminate..].
    - unfold assign_allb. destruct (bombs (values s)); discriminate. }
  assert (Hn : forall o s, bsn sparse_bspec o s <> BOpen).
  { intros [cl] s. cbn [bsn sparse_bspec bombed_spec specn array_spec]. apply W. unfold ar_clone. destruct (_ =? _); auto. }
  assert (H2 : forall o (s : list (option A) * list (option A)), bs2 sparse_bspec o s <> BOpen).
  { intros [eqA] ss. cbn. discriminate. }
  assert (HK : forall s, bsk sparse_bspec s <> BOpen).
  { intros s. cbn. unfold sparse_killb. destruct (no_bomb _ _); discriminate. }
  assert (HS : forall (x : cmd _ _ _ _) (z : list (option (list (option A)))), bstep sparse_bspec x z <> BUnknown).
  { intros [o|i o|i o|i j o|i] z; cbn [bstep].
    - specialize (H0 o). destruct (bs0 sparse_bspec o); congruence.
    - destruct (z !! i) as [[x|]|]; try discriminate. specialize (H1 o x). destruct (bs1 sparse_bspec o x); congruence.
    - destruct (z !! i) as [[x|]|]; try discriminate. specialize (Hn o x). destruct (bsn sparse_bspec o x); congruence.
    - destruct (i =? j); [discriminate|]. destruct (z !! i) as [[x|]|]; try discriminate.
      destruct (z !! j) as [[y|]|]; try discriminate. specialize (H2 o (x, y)).
      destruct (bs2 sparse_bspec o (x, y)) as [[? ?] ? ?|[? ?] ? ?| |]; congruence.
    - destruct (z !! i) as [[x|]|]; try discriminate. specialize (HK x). destruct (bsk sparse_bspec x); congruence. }
  induction p as [|c p IH]; intros z; cbn [brun]; [discriminate|].
  specialize (HS c z). destruct (bstep sparse_bspec c z) as [s' d k ev gv| |]; try congruence.
  specialize (IH s'). destruct (brun sparse_bspec p s'); congruence.
Qed.
Lemma sparse_blegal p : forall s : list (option (list (option A))), ball_legal (array_spec N) sparse_bspec p s.
Proof.
  induction p as [|c p IH]; intros z; cbn [ball_legal]; [exact I|]. split.
  - destruct c as [o|i o|i o|i j o|i]; cbn [legal]; auto; destruct (z !! i) as [[x|]|]; cbn; auto.
    destruct (z !! j) as [[y|]|]; exact I.
  - destruct (bstep sparse_bspec c z); auto.
Qed.
Notation prog := (list (cmd (sp_op0 A) (sp_op1 A) (sp_opn A) (sp_op2 A))).
Theorem sparse_bomb_program (p : prog) :
  match brun sparse_bspec p [] with
  | BFinished Y d k evs gv => exists X g, runx (sparse_kit e N) p [] log0 = Finished X g evs /\
      Forall2 (orel SHolds) X Y /\ dropped g = d /\ Permutation (leaked g) k /\
      Permutation gv (live (array_spec N) Y ++ returned (array_spec N) evs ++ dropped g ++ leaked g)
  | BAborted => runx (sparse_kit e N) p [] log0 = Aborted
  | BUnknown => False
  end.
Proof.
  pose proof (bomb_program _ _ _ _ sparse_refinesb sparse_bbalanced p (sparse_blegal p [])) as P.
  pose proof (sparse_known p []) as Q. destruct (brun sparse_bspec p []); auto.
Qed.
End sparse.
