(** * Programs over [SparseChunk]s. *)
From Verif Require Import Machine Spec Prims SparseModel SparseSpec SparseProofs SparseProofs2 SparseProofs3 Program.

(** Results.  [POpt], [PCells]: values moved out.  [PRef]/[PORef]/[PEntries]: borrowed. *)
Inductive sp_res (A : Type) :=
  | PUnit | PNat (n : nat) | PONat (n : option nat) | PNats (l : list nat) | PBool (b : bool)
  | POpt (a : option A) | PRef (a : A) | PORef (a : option A) | PCells (l : list (option (option A))).
Arguments PUnit {A}. Arguments PNat {A}. Arguments PONat {A}. Arguments PNats {A}. Arguments PBool {A}.
Arguments POpt {A}. Arguments PRef {A}. Arguments PORef {A}. Arguments PCells {A}.
Definition sp_moved_out {A} (r : sp_res A) : list A := match r with POpt (Some a) => [a] | PCells l => omap mjoin l | _ => [] end.
Definition sp_unit_res {A} (_ : unit) : sp_res A := PUnit.

Section ops.
Context {A : Type}.
Inductive sp_op0 :=
  | PNew | PUnitAt (i : nat) (v : A) | PPair (i1 : nat) (v1 : A) (i2 : nat) (v2 : A)
  | PFromIter (it : list (ev (option A))).
Inductive sp_op1 :=
  | PInsert (i : nat) (v : A)
  | PRemove (i : nat)                               (* also [OptionDrain::next] *)
  | POptionDrain (n : nat)                          (* [n] calls of [OptionDrain::next] *)
  | PPop                                            (* also Drain::next *)
  | PGet (i : nat) | PGetMutReplace (i : nat) (v : A) | PIndex (i : nat) | PAssign (i : nat) (v : A)
  | PIterMutAssign (new : nat -> A)
  | PLen | PIsEmpty | PIsFull | PFirstIndex | PIndices
  | PEqMap (eqA : A -> A -> bool) (len : nat) (other : nat -> option A).
Inductive sp_opn := PClone (cl : nat -> A -> option A).
Inductive sp_op2 := PEq (eqA : A -> A -> bool).
End ops.
Arguments sp_op0 : clear implicits. Arguments sp_op1 : clear implicits.
Arguments sp_opn : clear implicits. Arguments sp_op2 : clear implicits.

(** The code. *)
Definition sparse_kit {A} (e : env A) (N : nat)
  : kit A (sp_op0 A) (sp_op1 A) (sp_opn A) (sp_op2 A) (sp_res A) (sparse A) := {|
  run0 := fun o => match o with
    | PNew => sp_new
    | PUnitAt i v => mapR fst (sp_unit e N i v)
    | PPair i1 v1 i2 v2 => mapR fst (sp_pair e N i1 v1 i2 v2)
    | PFromIter it => mapR fst (sp_from_iter e N it)
    end;
  run1 := fun o => match o with
    | PInsert i v => mapR POpt (sp_insert e N i v)
    | PRemove i => mapR POpt (sp_remove N i)
    | POptionDrain n => mapR PCells (sp_option_drain e N n)
    | PPop => mapR POpt (sp_pop N)
    | PGet i => mapR PORef (sp_get N i)
    | PGetMutReplace i v => mapR POpt (sp_get_mut_replace e N i v)
    | PIndex i => mapR PRef (sp_index N i)
    | PAssign i v => mapR sp_unit_res (sp_assign e N i v)
    | PIterMutAssign new => mapR sp_unit_res (sp_iter_mut_assign e N new)
    | PLen => mapR PNat (sp_len N)
    | PIsEmpty => mapR PBool (sp_is_empty N)
    | PIsFull => mapR PBool (sp_is_full N)
    | PFirstIndex => mapR PONat (sp_first_index N)
    | PIndices => mapR PNats (sp_indices N)
    | PEqMap eqA len other => mapR PBool (sp_eq_map N eqA len other)
    end;
  runn := fun o => match o with PClone cl => mapR fst (sp_clone e N cl) end;
  run2 := fun o => match o with PEq eqA => mapR PBool (sp_eq N eqA) end;
  kill := sp_destroy e N |}.

(** Values a constructor takes from an iterator of options whose first item has position [i]: all of them,
    up to and including the first one at a position that does not exist. *)
Fixpoint taken (N i : nat) {A} (it : list (ev (option A))) : list A :=
  match it with
  | [] => []
  | Boom :: _ => []
  | Yield None :: it' => taken N (S i) it'
  | Yield (Some v) :: it' => if i <? N then v :: taken N (S i) it' else [v]
  end.

(** The specification: arrays of [N] options. *)
Definition array_spec {A} (N : nat)
  : skit A (sp_op0 A) (sp_op1 A) (sp_opn A) (sp_op2 A) (sp_res A) (list (option A)) := {|
  spec0 := fun o => match o with
    | PNew => SRet tt (no_cells N) []
    | PUnitAt i v => ar_unit N i v
    | PPair i1 v1 i2 v2 => ar_pair N i1 v1 i2 v2
    | PFromIter it => ar_from_iter N it
    end;
  spec1 := fun o s => match o with
    | PInsert i v => smapR POpt (ar_insert i v s)
    | PRemove i => smapR POpt (ar_remove i s)
    | POptionDrain n => smapR PCells (ar_option_drain n s)
    | PPop => smapR POpt (ar_pop s)
    | PGet i => smapR PORef (ar_get i s)
    | PGetMutReplace i v => smapR POpt (ar_replace i v s)
    | PIndex i => smapR PRef (ar_index i s)
    | PAssign i v => smapR sp_unit_res (ar_assign i v s)
    | PIterMutAssign new => smapR sp_unit_res (ar_assign_all new s)
    | PLen => SRet s (PNat (length (values s))) []
    | PIsEmpty => SRet s (PBool (length (values s) =? 0)) []
    | PIsFull => SRet s (PBool (length (values s) =? N)) []
    | PFirstIndex => SRet s (PONat (head (occupied s))) []
    | PIndices => SRet s (PNats (occupied s)) []
    | PEqMap eqA len other => SRet s (PBool (cells_eq_map eqA len other s)) []
    end;
  specn := fun o s => match o with PClone cl => ar_clone cl s end;
  spec2 := fun o ss => match o with PEq eqA => SRet ss (PBool (cells_eq eqA ss.1 ss.2)) [] end;
  legal1 := fun _ _ => True;
  legaln := fun _ _ => True;
  legal2 := fun _ _ => True;
  given0 := fun o => match o with
    | PNew => []
    | PUnitAt i v => [v]
    | PPair i1 v1 i2 v2 => [v1; v2]
    | PFromIter it => taken N 0 it
    end;
  given1 := fun o s => match o with
    | PInsert _ v | PGetMutReplace _ v | PAssign _ v => [v]
    | PIterMutAssign new => map new (seq 0 (length (values s)))
    | _ => []
    end;
  givenn := fun o s => match o with PClone cl => clones cl 0 (values s) end;
  items := values;
  outs := sp_moved_out |}.

Section proofs.
Context {A : Type} (e : env A) (N : nat).
Hypothesis Hcalm : calm e.
(** [Bitmap<N>] exists only for [N <= 1024]. *)
Hypothesis HW : N < word e.
Notation SHolds := (SHolds (A:=A) N).
Notation SMade := (SMade (A:=A) N).

Lemma agrees_reads {R} (m : M A (sparse A) R) c s g x : SHolds c s -> m c g = Ret c g x ->
  agrees SHolds eq g (m c g) (SRet s x []).
Proof. intros H E. exists c, g, x. rewrite app_nil_r. auto. Qed.
Theorem sparse_refines : refines (sparse_kit e N) (array_spec N) SHolds.
Proof.
  assert (HM : forall (r : sparse A * unit) l, SMade r l -> SHolds (fst r) l) by auto.
  split.
  - intros [|i v|i1 v1 i2 v2|it] g; cbn [run0 spec0 sparse_kit array_spec].
    + eexists _, _, _. split; [reflexivity|]. rewrite app_nil_r. split; [exact I|].
      split; [exact (sparse0_holds N)|]. auto.
    + pose proof (sp_unit_ok e N Hcalm i v g) as P.
      apply (mapR_agrees _ _ _ fst (fun x => x) _ _ _ _ _ HM) in P. destruct (ar_unit N i v); exact P.
    + pose proof (sp_pair_ok e N Hcalm i1 v1 i2 v2 g) as P.
      apply (mapR_agrees _ _ _ fst (fun x => x) _ _ _ _ _ HM) in P. destruct (ar_pair N i1 v1 i2 v2); exact P.
    + pose proof (sp_from_iter_ok e N Hcalm it g) as P.
      apply (mapR_agrees _ _ _ fst (fun x => x) _ _ _ _ _ HM) in P. destruct (ar_from_iter N it); exact P.
  - intros o x s g Hx HL. destruct o; cbn [run1 spec1 legal1 sparse_kit array_spec] in *.
    + apply mapR_agrees_eq, sp_insert_ok; assumption.
    + apply mapR_agrees_eq, sp_remove_ok; assumption.
    + apply mapR_agrees_eq, sp_option_drain_ok; assumption.
    + apply mapR_agrees_eq, sp_pop_ok; assumption.
    + apply mapR_agrees_eq, sp_get_ok; assumption.
    + apply mapR_agrees_eq, sp_get_mut_replace_ok; assumption.
    + apply mapR_agrees_eq, sp_index_ok; assumption.
    + apply mapR_agrees_eq, sp_assign_ok; assumption.
    + apply mapR_agrees_eq, sp_iter_mut_assign_ok; assumption.
    + apply (agrees_reads (mapR PNat (sp_len N))); [assumption|]. rewrite <- (sholds_len N x s Hx). reflexivity.
    + apply (agrees_reads (mapR PBool (sp_is_empty N))); [assumption|]. rewrite <- (sholds_len N x s Hx). reflexivity.
    + apply (agrees_reads (mapR PBool (sp_is_full N))); [assumption|]. rewrite <- (sholds_len N x s Hx). reflexivity.
    + apply (agrees_reads (mapR PONat (sp_first_index N))); [assumption|]. rewrite <- (sholds_first N x s Hx). reflexivity.
    + apply (agrees_reads (mapR PNats (sp_indices N))); [assumption|]. rewrite <- (sholds_indices N x s Hx). reflexivity.
    + apply (agrees_reads (mapR PBool (sp_eq_map N eqA len other))); [assumption|]. unfold mapR.
      erewrite bind_Ret by (apply sp_eq_map_ok; eassumption). reflexivity.
  - intros [cl] x s g Hx HL. cbn [runn specn legaln sparse_kit array_spec] in *.
    pose proof (sp_clone_ok e N Hcalm cl x s g Hx) as P.
    apply (mapR_agrees _ _ _ fst (fun x => x) _ _ _ _ _ HM) in P. destruct (ar_clone cl s); exact P.
  - intros [eqA] [x y] [s t] g [H1 H2] HL. cbn [run2 spec2 sparse_kit array_spec fst snd] in *.
    eexists _, _, _. split.
    + unfold mapR. erewrite bind_Ret by (apply (sp_eq_ok N eqA); eassumption). reflexivity.
    + rewrite app_nil_r. repeat split; auto; apply H1 || apply H2.
  - intros x s g Hx. apply sp_destroy_ok; assumption.
Qed.

(** ** Conservation. *)
Lemma values_put (s : list (option A)) i v : i < length s -> forall old, s !! i = Some old ->
  Permutation (values s ++ [v]) (values (<[i := Some v]> s) ++ option_list old).
Proof.
  intros Hi [a|] Ho; cbn.
  - destruct (values_insert_none s i a Ho) as (l1 & l2 & E1 & _ & E2). rewrite E1, E2. perm.
  - destruct (values_insert_some s i v Ho) as (l1 & l2 & E1 & E2). rewrite E1, E2. perm.
Qed.
Lemma values_take (s : list (option A)) i : forall old, s !! i = Some old ->
  Permutation (values s) (values (<[i := None]> s) ++ option_list old).
Proof.
  intros [a|] Ho; cbn.
  - destruct (values_insert_none s i a Ho) as (l1 & l2 & E1 & E2 & _). rewrite E1, E2. perm.
  - rewrite (list_insert_id s i None Ho). perm.
Qed.
Lemma ar_fill_balanced it : forall i (s : list (option A)), length s = N ->
  (forall j, i <= j -> j < N -> s !! j = Some None) ->
  match ar_fill it i s with
  | SRet s' _ d => Permutation (values s ++ taken N i it) (values s' ++ d)
  | SPanic s' d k => Permutation (values s ++ taken N i it) (values s' ++ d) /\ k = []
  end.
Proof.
  induction it as [|[[v|]|] it IH]; intros i s Hl Hs; cbn [ar_fill taken].
  - perm.
  - rewrite Hl. destruct (i <? N) eqn:E.
    + specialize (IH (S i) (<[i := Some v]> s)). rewrite insert_length in IH. specialize (IH Hl).
      pose proof (values_put s i v ltac:(lia) None (Hs i ltac:(lia) ltac:(lia))) as P. cbn in P. rewrite app_nil_r in P.
      assert (H : forall j, S i <= j -> j < N -> <[i := Some v]> s !! j = Some None).
      { intros j H1 H2. rewrite list_lookup_insert_ne by lia. apply Hs; lia. }
      specialize (IH H). destruct (ar_fill it (S i) _) as [s' u d|s' d k].
      * rewrite <- IH. rewrite <- P. perm.
      * destruct IH as [IH ->]. split; [|reflexivity]. rewrite <- IH. rewrite <- P. perm.
    + split; [|reflexivity]. perm.
  - apply IH; [exact Hl|]. intros j H1 H2. apply Hs; lia.
  - split; [|reflexivity]. perm.
Qed.

Lemma ar_clone_balanced cl (s : list (option A)) : match ar_clone cl s with
    | SRet x' y d => Permutation (values s ++ clones cl 0 (values s)) (values x' ++ values y ++ d)
    | SPanic x' d k => Permutation (values s ++ clones cl 0 (values s)) (values x' ++ d ++ k) end.
Proof.
  unfold ar_clone. destruct (_ =? _) eqn:E.
  - rewrite refill_values by lia. perm.
  - perm.
Qed.
Lemma moved_cells (l : list (option A)) : omap mjoin (map Some l) = values l.
Proof. rewrite values_omap. induction l as [|[a|] l IH]; cbn; congruence. Qed.
Lemma moved_nones n : omap mjoin (replicate n (None : option (option A))) = [].
Proof. induction n; cbn; auto. Qed.
Theorem array_balanced : balanced (array_spec (A:=A) N).
Proof.
  split.
  - intros [|i v|i1 v1 i2 v2|it]; cbn [spec0 given0 items array_spec].
    + rewrite values_no_cells. reflexivity.
    + unfold ar_unit. destruct (i <? N) eqn:E; [|perm].
      pose proof (values_put (no_cells N) i v ltac:(unfold no_cells; rewrite replicate_length; lia) None (no_cells_lookup N i ltac:(lia))) as P.
      rewrite values_no_cells in P. exact P.
    + unfold ar_pair. destruct (i1 <? N) eqn:E1; [|perm]. destruct (i2 <? N) eqn:E2; [|perm].
      pose proof (values_put (no_cells N) i1 v1 ltac:(unfold no_cells; rewrite replicate_length; lia) None (no_cells_lookup N i1 ltac:(lia))) as P.
      rewrite values_no_cells in P. cbn in P. rewrite app_nil_r in P.
      pose proof (values_put (<[i1 := Some v1]> (no_cells N)) i2 v2 ltac:(rewrite insert_length; unfold no_cells; rewrite replicate_length; lia)) as P2.
      destruct (i1 =? i2) eqn:E.
      * apply Nat.eqb_eq in E. subst i2.
        specialize (P2 (Some v1)). rewrite list_lookup_insert in P2 by (unfold no_cells; rewrite replicate_length; lia).
        specialize (P2 eq_refl). cbn in P2. rewrite <- P2, <- P. perm.
      * specialize (P2 None). rewrite list_lookup_insert_ne in P2 by lia. specialize (P2 (no_cells_lookup N i2 ltac:(lia))).
        cbn in P2. rewrite <- P2, <- P. perm.
    + unfold ar_from_iter. pose proof (ar_fill_balanced it 0 (no_cells N) (replicate_length _ _) (fun j _ Hj => no_cells_lookup N j Hj)) as P.
      rewrite values_no_cells in P. cbn [app] in P. destruct (ar_fill it 0 (no_cells N)) as [s u d|s d k].
      * exact P.
      * destruct P as [P ->]. rewrite P. perm.
  - intros o x _. destruct o; cbn [spec1 given1 items outs array_spec]; rewrite ?app_nil_r.
    + unfold ar_insert. destruct (x !! i) as [old|] eqn:E; cbn [smapR].
      * pose proof (values_put x i v (lookup_lt_Some _ _ _ E) old E) as P. rewrite P. destruct old; cbn; perm.
      * perm.
    + unfold ar_remove. destruct (x !! i) as [old|] eqn:E; cbn [smapR].
      * pose proof (values_take x i old E) as P. rewrite P. destruct old; cbn; perm.
      * perm.
    + cbn [smapR ar_option_drain sp_moved_out]. rewrite app_nil_r, omap_app', moved_cells, moved_nones, app_nil_r.
      rewrite <- (take_drop n x) at 1. rewrite !values_omap, !omap_app', <- !values_omap, values_no_cells. perm.
    + unfold ar_pop. destruct (entries x) as [|[i a] es] eqn:E; cbn [smapR].
      * cbn. perm.
      * assert (Ei : x !! i = Some (Some a)). { apply entries_in. rewrite E. left. reflexivity. }
        pose proof (values_take x i _ Ei) as P. rewrite P. cbn. perm.
    + cbn. perm.
    + unfold ar_replace. destruct (x !! i) as [[a|]|] eqn:E; cbn [smapR].
      * pose proof (values_put x i v (lookup_lt_Some _ _ _ E) _ E) as P. rewrite P. cbn. perm.
      * cbn. perm.
      * cbn. perm.
    + unfold ar_index. destruct (x !! i) as [[a|]|] eqn:E; cbn; perm.
    + unfold ar_assign. destruct (x !! i) as [[a|]|] eqn:E; cbn [smapR].
      * pose proof (values_put x i v (lookup_lt_Some _ _ _ E) _ E) as P. rewrite P. cbn. perm.
      * perm.
      * perm.
    + cbn. rewrite refill_values by (rewrite map_length, seq_length; lia). perm.
    + cbn. perm.
    + cbn. perm.
    + cbn. perm.
    + cbn. perm.
    + cbn. perm.
    + cbn. perm.
  - intros [cl] x _. exact (ar_clone_balanced cl x).
  - intros [eqA] x _. cbn. perm.
Qed.
Lemma array_tight c : tight (array_spec (A:=A) N) c.
Proof.
  intros s _. destruct c as [o|i o|i o|i j o|i]; cbn [sstep].
  - destruct o as [|i v|i1 v1 i2 v2|it]; cbn [spec0 array_spec]; auto.
    + unfold ar_unit. split_if; cbn; auto.
    + unfold ar_pair. destruct (i1 <? N); [destruct (i2 <? N)|]; cbn; auto.
    + unfold ar_from_iter. pose proof (ar_fill_balanced it 0 (no_cells N) (replicate_length _ _) (fun j _ Hj => no_cells_lookup N j Hj)) as P.
      destruct (ar_fill it 0 (no_cells N)); cbn; auto. apply P.
  - destruct (s !! i) as [[x|]|]; auto.
    destruct o; cbn [spec1 array_spec]; unfold ar_insert, ar_remove, ar_pop, ar_replace, ar_index, ar_assign;
      repeat first [ reflexivity
      | match goal with
        | |- context [match ?l !! ?i with _ => _ end] => destruct (l !! i) as [[?|]|]
        | |- context [match entries ?l with _ => _ end] => destruct (entries l) as [|[? ?] ?]
        end ].
  - destruct (s !! i) as [[x|]|]; auto.
    destruct o as [cl]; cbn [specn array_spec]; unfold ar_clone; destruct (_ =? _); cbn; auto.
  - destruct (i =? j); auto. destruct (s !! i) as [[x|]|]; auto. destruct (s !! j) as [[y|]|]; auto.
    destruct o; cbn; auto.
  - destruct (s !! i) as [[x|]|]; auto.
Qed.

(** ** All programs. *)
Lemma array_no_leak p s : all_legal (array_spec (A:=A) N) p s -> s_leaked (srun (array_spec N) p s) = [].
Proof.
  intros H. apply srun_tight; [|exact H]. apply List.Forall_forall. intros c _. apply array_tight.
Qed.
Notation prog := (list (cmd (sp_op0 A) (sp_op1 A) (sp_opn A) (sp_op2 A))).
Lemma array_legal (p : prog) : forall s, all_legal (array_spec N) p s.
Proof.
  induction p as [|c p IH]; intros s; cbn [all_legal]; [exact I|]. split.
  - destruct c; cbn; auto; repeat case_match; exact I.
  - destruct (sstep (array_spec N) c s) as [[[s' d] k] ev]. apply IH.
Qed.
Theorem sparse_program (p : prog) :
  exists X g, run (sparse_kit e N) p [] log0 = Some (X, g, s_events (srun (array_spec N) p [])) /\
    Forall2 (orel SHolds) X (s_store (srun (array_spec N) p [])) /\
    dropped g = s_dropped (srun (array_spec N) p []) /\ leaked g = [].
Proof.
  destruct (run_sim _ _ _ sparse_refines p [] [] log0 (Forall2_nil _) (array_legal p []))
    as (X & g & k & E & HR & D & L & P).
  exists X, g. split; [exact E|]. split; [exact HR|]. split; [exact D|].
  rewrite L. cbn. rewrite (array_no_leak p []) in P by apply array_legal. apply Permutation_nil in P. exact P.
Qed.
Theorem sparse_conservation (p : prog) :
  exists X g evs, run (sparse_kit e N) p [] log0 = Some (X, g, evs) /\
    Permutation (s_given (srun (array_spec N) p []))
      (live (array_spec N) (s_store (srun (array_spec N) p [])) ++ returned (array_spec N) evs ++ dropped g) /\
    leaked g = [].
Proof.
  destruct (sparse_program p) as (X & g & E & HR & D & L).
  exists X, g, (s_events (srun (array_spec N) p [])). split; [exact E|]. split; [|exact L].
  pose proof (srun_balanced _ array_balanced p [] (array_legal p [])) as P. cbn zeta in P.
  cbn [live flat_map app] in P. rewrite D. rewrite P.
  rewrite (array_no_leak p []) by apply array_legal. rewrite app_nil_r. reflexivity.
Qed.
End proofs.
