(** * Programs over [InlineArray]s. *)
From Verif Require Import Machine Spec Prims InlineModel InlineSpec InlineProofs InlineProofs2 InlineProofs3
  Program SpecProps ChunkProgram.

(** An array in memory, at the address [q * align_self L].  Rust may move it to another address between
    calls: [IMove]. *)
Definition located (A : Type) : Type := nat * inline A.
Definition address (L : layout) (q : nat) : nat := q * align_self L.
Definition in_place {A R} (L : layout) (m : nat -> M A (inline A) R) : M A (located A) R :=
  fun o => on_snd (m (address L (fst o))) o.
Definition in_places {A R} (L : layout) (m : nat -> nat -> M A (inline A * inline A) R)
  : M A (located A * located A) R := fun o g =>
  match m (address L (fst (fst o))) (address L (fst (snd o))) (snd (fst o), snd (snd o)) g with
  | Ret o' g' r => Ret ((fst (fst o), fst o'), (fst (snd o), snd o')) g' r
  | Panic o' g' => Panic ((fst (fst o), fst o'), (fst (snd o), snd o')) g'
  | UB u => UB u
  | Hang => Hang
  | Abort => Abort
  end.

Section ops.
Context {A : Type}.
(** [q]: where the new array is built. *)
Inductive ia_op0 := INew (q : nat) | IFromIter (q : nat) (it : list (ev A)).
Inductive ia_op1 :=
  | IMove (q : nat)
  | IPush (v : A) | IPop | IInsert (i : nat) (v : A) | IRemove (i : nat) | IClear
  | IExtend (it : list (ev A)) | IAssign (i : nat) (v : A) | IIndex (i : nat) | IAsSlice
  | IUpdateSlice (f : list A -> list A)
  | IDrainNext | IDrainNextBack | ILen | IIsEmpty | IIsFull | IEqSlice (eqA : A -> A -> bool) (other : list A).
Inductive ia_opn := ISplitOff (q i : nat) | IClone (q : nat) (cl : nat -> A -> option A).
Inductive ia_op2 := IEq (eqA : A -> A -> bool) | IPartialCmp (pc : A -> A -> option comparison)
  | ICmp (cmp : A -> A -> comparison).
End ops.
Arguments ia_op0 : clear implicits. Arguments ia_op1 : clear implicits.
Arguments ia_opn : clear implicits. Arguments ia_op2 : clear implicits.

(** The code. *)
Definition ia_kit {A} (e : env A) (L : layout)
  : kit A (ia_op0 A) (ia_op1 A) (ia_opn A) (ia_op2 A) (res A) (located A) := {|
  run0 := fun o => match o with
    | INew q => mapR (pair q) (ia_new e L (address L q))
    | IFromIter q it => mapR (fun r => (q, fst r)) (ia_from_iter e L (address L q) it)
    end;
  run1 := fun o => match o with
    | IMove q => fun x g => Ret (q, snd x) g RUnit
    | IPush v => mapR unit_res (in_place L (fun b => ia_push e L b v))
    | IPop => mapR ROpt (in_place L (ia_pop e L))
    | IInsert i v => mapR unit_res (in_place L (fun b => ia_insert e L b i v))
    | IRemove i => mapR ROpt (in_place L (fun b => ia_remove e L b i))
    | IClear => mapR unit_res (in_place L (ia_clear e L))
    | IExtend it => mapR unit_res (in_place L (fun b => ia_extend e L b it))
    | IAssign i v => mapR unit_res (in_place L (fun b => ia_assign e L b i v))
    | IIndex i => mapR RRef (in_place L (fun b => ia_index e L b i))
    | IAsSlice => mapR RRefs (in_place L (ia_deref e L))
    | IUpdateSlice f => mapR unit_res (in_place L (fun b => ia_update_slice e L b f))
    | IDrainNext => mapR ROpt (in_place L (ia_next e L))
    | IDrainNextBack => mapR ROpt (in_place L (ia_pop e L))
    | ILen => mapR RNat (in_place L (ia_len e L))
    | IIsEmpty => mapR RBool (in_place L (ia_is_empty e L))
    | IIsFull => mapR RBool (in_place L (ia_is_full e L))
    | IEqSlice eqA other => mapR RBool (in_place L (fun b => ia_eq e L b eqA other))
    end;
  runn := fun o => match o with
    | ISplitOff q i => mapR (fun r => (q, fst r)) (in_place L (fun b => ia_split_off e L b (address L q) i))
    | IClone q cl => mapR (fun r => (q, fst r)) (in_place L (fun b => ia_clone e L b (address L q) cl))
    end;
  run2 := fun o => match o with
    | IEq eqA => mapR RBool (in_places L (fun b b2 => ia_eq2 e L b b2 eqA))
    | IPartialCmp pc => mapR ROCmp (in_places L (fun b b2 => ia_partial_cmp e L b b2 pc))
    | ICmp cmp => mapR (fun c => ROCmp (Some c)) (in_places L (fun b b2 => ia_cmp e L b b2 cmp))
    end;
  kill := in_place L (ia_destroy e L) |}.

(** The specification: lists of length at most [N]. *)
Definition ia_spec {A} (N : nat)
  : skit A (ia_op0 A) (ia_op1 A) (ia_opn A) (ia_op2 A) (res A) (list A) := {|
  spec0 := fun o => match o with
    | INew _ => SRet tt [] []
    | IFromIter _ it => bl_from_iter N it
    end;
  spec1 := fun o l => match o with
    | IMove _ => SRet l RUnit []
    | IPush v => smapR unit_res (bl_push_back N v l)
    | IPop => smapR ROpt (bl_try_pop_back l)
    | IInsert i v => smapR unit_res (bl_insert N i v l)
    | IRemove i => smapR ROpt (bl_try_remove i l)
    | IClear => smapR unit_res (bl_clear l)
    | IExtend it => smapR unit_res (bl_extend N it l)
    | IAssign i v => smapR unit_res (bl_assign i v l)
    | IIndex i => smapR RRef (bl_index i l)
    | IAsSlice => SRet l (RRefs l) []
    | IUpdateSlice f => SRet (f l) RUnit []
    | IDrainNext => smapR ROpt (bl_try_pop_front l)
    | IDrainNextBack => smapR ROpt (bl_try_pop_back l)
    | ILen => SRet l (RNat (length l)) []
    | IIsEmpty => SRet l (RBool (length l =? 0)) []
    | IIsFull => SRet l (RBool (length l =? N)) []
    | IEqSlice eqA other => SRet l (RBool (slice_eq eqA l other)) []
    end;
  specn := fun o l => match o with
    | ISplitOff _ i => bl_split_off i l
    | IClone _ cl => bl_clone_leaking cl l
    end;
  spec2 := fun o ll => match o with
    | IEq eqA => SRet ll (RBool (slice_eq eqA ll.1 ll.2)) []
    | IPartialCmp pc => SRet ll (ROCmp (iter_partial_cmp pc ll.1 ll.2)) []
    | ICmp cmp => SRet ll (ROCmp (Some (iter_cmp cmp ll.1 ll.2))) []
    end;
  (* In-place updates permute the slice. *)
  legal1 := fun o l => match o with IUpdateSlice f => Permutation (f l) l | _ => True end;
  legaln := fun o l => True;
  legal2 := fun o ll => True;
  given0 := fun o => match o with INew _ => [] | IFromIter _ it => yields (S N) it end;
  given1 := fun o l => match o with
    | IPush v | IInsert _ v | IAssign _ v => [v]
    | IExtend it => yields (S (N - length l)) it
    | _ => []
    end;
  givenn := fun o l => match o with IClone _ cl => clones cl 0 l | _ => [] end;
  items := fun l => l;
  outs := moved_out |}.

Definition LHolds {A} (e : env A) (L : layout) (o : located A) (l : list A) : Prop := IHolds e L (snd o) l.

Section proofs.
Context {A : Type} (e : env A) (L : layout).
Hypothesis WF : wf_layout e L.
Hypothesis HOST : host_ok e L.
Hypothesis Hcalm : calm e.
Notation cap := (capacity e L).
Notation LHolds := (LHolds e L).

Lemma address_placed q : placed L (address L q).
Proof. exists q. reflexivity. Qed.
Lemma in_place_agrees {R R'} (RR : R -> R' -> Prop) (m : nat -> M A (inline A) R) o g s :
  agrees (IHolds e L) RR g (m (address L (fst o)) (snd o) g) s ->
  agrees LHolds RR g (in_place L m o g) s.
Proof.
  unfold in_place, on_snd. destruct s as [s r d|s d k]; cbn.
  - intros (o' & g' & r0 & E & H). exists (fst o, o'), g', r0. rewrite E. auto.
  - intros (o' & g' & k' & E & H). exists (fst o, o'), g', k'. rewrite E. auto.
Qed.
Lemma in_places_agrees {R R'} (RR : R -> R' -> Prop) (m : nat -> nat -> M A (inline A * inline A) R) o g s :
  agrees (both (IHolds e L) (IHolds e L)) RR g
    (m (address L (fst (fst o))) (address L (fst (snd o))) (snd (fst o), snd (snd o)) g) s ->
  agrees (both LHolds LHolds) RR g (in_places L m o g) s.
Proof.
  destruct o as [[q1 c1] [q2 c2]]. unfold in_places. cbn [fst snd]. destruct s as [s r d|s d k]; cbn [agrees].
  - intros (o' & g' & r0 & E & H). rewrite E. eexists _, g', r0. split; [reflexivity|]. exact H.
  - intros (o' & g' & k' & E & H). rewrite E. eexists _, g', k'. split; [reflexivity|]. exact H.
Qed.
Theorem ia_refines : refines (ia_kit e L) (ia_spec cap) LHolds.
Proof.
  assert (HM : forall q (r : inline A * unit) l, IMade e L r l -> LHolds (q, fst r) l) by auto.
  assert (HP := address_placed).
  split.
  - intros [q|q it] g; cbn [run0 spec0 ia_kit ia_spec].
    + destruct (new_ok e L WF HOST (address L q) tt g (HP q)) as (c & E & H).
      exists tt, g, (q, c). unfold mapR. erewrite bind_Ret by exact E. rewrite app_nil_r. auto.
    + pose proof (from_iter_ok e L WF HOST Hcalm (address L q) it tt g (HP q)) as P.
      apply (mapR_agrees _ _ LHolds (fun r => (q, fst r)) (fun x => x) _ _ _ _ _ (HM q)) in P.
      destruct (bl_from_iter cap it); exact P.
  - intros o x s g Hx HL. destruct o; cbn [run1 spec1 legal1 ia_kit ia_spec] in *.
    + exists (q, snd x), g, RUnit. rewrite app_nil_r. auto.
    + apply mapR_agrees_eq, in_place_agrees, push_ok; auto.
    + apply mapR_agrees_eq, in_place_agrees, pop_ok; auto.
    + apply mapR_agrees_eq, in_place_agrees, insert_ok; auto.
    + apply mapR_agrees_eq, in_place_agrees, remove_ok; auto.
    + apply mapR_agrees_eq, in_place_agrees, clear_ok; auto.
    + apply mapR_agrees_eq, in_place_agrees, extend_ok; auto.
    + apply mapR_agrees_eq, in_place_agrees, assign_ok; auto.
    + apply mapR_agrees_eq, in_place_agrees, index_ok; auto.
    + apply (mapR_agrees_eq _ RRefs _ _ _ _ (SRet s s [])), in_place_agrees, slice_ok; auto.
    + apply (mapR_agrees_eq _ unit_res _ _ _ _ (SRet (f s) tt [])), in_place_agrees, update_slice_ok; auto.
      apply Permutation_length. assumption.
    + apply mapR_agrees_eq, in_place_agrees, next_ok; auto.
    + apply mapR_agrees_eq, in_place_agrees, pop_ok; auto.
    + apply (mapR_agrees_eq _ RNat _ _ _ _ (SRet s (length s) [])), in_place_agrees, ia_len_ok; auto.
    + apply (mapR_agrees_eq _ RBool _ _ _ _ (SRet s (length s =? 0) [])), in_place_agrees, is_empty_ok; auto.
    + apply (mapR_agrees_eq _ RBool _ _ _ _ (SRet s (length s =? cap) [])), in_place_agrees, is_full_ok; auto.
    + apply (mapR_agrees_eq _ RBool _ _ _ _ (SRet s (slice_eq eqA s other) [])), in_place_agrees, eq_ok; auto.
  - intros o x s g Hx HL. destruct o; cbn [runn specn legaln ia_kit ia_spec] in *.
    + pose proof (split_off_ok e L WF HOST (address L (fst x)) (address L q) (snd x) s g i (HP _) (HP _) Hx) as P.
      apply (in_place_agrees _ (fun b => ia_split_off e L b (address L q) i) x) in P.
      apply (mapR_agrees _ _ LHolds (fun r => (q, fst r)) (fun x => x) _ _ _ _ _ (HM q)) in P.
      destruct (bl_split_off i s); exact P.
    + pose proof (clone_ok e L WF HOST (address L (fst x)) (address L q) cl (snd x) s g (HP _) (HP _) Hx) as P.
      apply (in_place_agrees _ (fun b => ia_clone e L b (address L q) cl) x) in P.
      apply (mapR_agrees _ _ LHolds (fun r => (q, fst r)) (fun x => x) _ _ _ _ _ (HM q)) in P.
      destruct (bl_clone_leaking cl s); exact P.
  - intros o [x y] [s t] g [H1 H2] HL. cbn [fst snd] in H1, H2. destruct o; cbn [run2 spec2 ia_kit ia_spec fst snd].
    + apply (mapR_agrees_eq _ RBool _ _ _ _ (SRet (s, t) (slice_eq eqA s t) [])), in_places_agrees.
      apply (both_deref e L WF HOST); auto.
    + apply (mapR_agrees_eq _ ROCmp _ _ _ _ (SRet (s, t) (iter_partial_cmp pc s t) [])), in_places_agrees.
      apply (both_deref e L WF HOST); auto.
    + apply (mapR_agrees_eq _ (fun c => ROCmp (Some c)) _ _ _ _ (SRet (s, t) (iter_cmp cmp s t) [])), in_places_agrees.
      apply (both_deref e L WF HOST); auto.
  - intros x s g Hx. destruct (destroy_ok e L WF HOST Hcalm (address L (fst x)) (snd x) s g (HP _) Hx) as (c' & E).
    exists (fst x, c'), (log_drop s g), tt. cbn [kill ia_kit items ia_spec]. unfold in_place, on_snd. rewrite E. auto.
Qed.

(** ** Conservation. *)
Lemma cons_clone_leaking cl (l : list A) : conserves (fun x => x) (l ++ clones cl 0 l) (bl_clone_leaking cl l).
Proof. unfold bl_clone_leaking. destruct (_ =? _); cbn; perm. Qed.
Theorem ia_balanced N : balanced (ia_spec (A:=A) N).
Proof.
  split.
  - intros [q|q it]; cbn [spec0 given0 items ia_spec]; [reflexivity|apply cons_from_iter].
  - intros o x HL. destruct o; cbn [spec1 given1 items outs ia_spec].
    + cbn. perm.
    + eapply bal_of; [|apply cons_push_back]; reflexivity.
    + eapply bal_of; [|rewrite app_nil_r; apply cons_try_pop_back]; intros []; reflexivity.
    + eapply bal_of; [|apply cons_insert]; reflexivity.
    + eapply bal_of; [|rewrite app_nil_r; apply cons_try_remove]; intros []; reflexivity.
    + eapply bal_of; [|rewrite app_nil_r; apply cons_clear]; reflexivity.
    + eapply bal_of; [|apply cons_extend]; reflexivity.
    + eapply bal_of; [|apply cons_assign]; reflexivity.
    + eapply bal_of; [|rewrite app_nil_r; apply cons_index]; reflexivity.
    + cbn. perm.
    + cbn in *. rewrite !app_nil_r. symmetry. exact HL.
    + eapply bal_of; [|rewrite app_nil_r; apply cons_try_pop_front]; intros []; reflexivity.
    + eapply bal_of; [|rewrite app_nil_r; apply cons_try_pop_back]; intros []; reflexivity.
    + cbn. perm.
    + cbn. perm.
    + cbn. perm.
    + cbn. perm.
  - intros o x HL. destruct o; cbn [specn givenn items ia_spec]; rewrite ?app_nil_r.
    + apply (cons_split_off i x).
    + apply (cons_clone_leaking cl x).
  - intros o x HL. destruct o; cbn; perm.
Qed.

(** Commands other than a [clone] that panics leak nothing. *)
Definition clones_all (c : cmd (ia_op0 A) (ia_op1 A) (ia_opn A) (ia_op2 A)) : Prop :=
  match c with Spawn _ (IClone _ cl) => forall k a, cl k a <> None | _ => True end.
Lemma clones_total cl (l : list A) : (forall k a, cl k a <> None) -> forall k, length (clones cl k l) = length l.
Proof.
  intros H. induction l as [|a l IH]; intros k; cbn; [reflexivity|].
  specialize (H k a). destruct (cl k a); [|congruence]. cbn. rewrite IH. reflexivity.
Qed.
Lemma clones_all_tight N c : clones_all c -> tight (ia_spec (A:=A) N) c.
Proof.
  intros HT s _. destruct c as [o|i o|i o|i j o|i]; cbn [sstep].
  - destruct o as [q|q it]; cbn [spec0 ia_spec]; auto.
    unfold bl_from_iter. pose proof (bl_extend_tight N it []) as P. destruct (bl_extend N it []); cbn in *; auto.
  - destruct (s !! i) as [[x|]|]; auto.
    destruct o; cbn [spec1 ia_spec] in *;
      unfold bl_push_back, bl_insert, bl_try_remove, bl_assign, bl_index, bl_clear, bl_try_pop_front, bl_try_pop_back;
      repeat first [ reflexivity
      | match goal with
        | |- context [if ?b then _ else _] => destruct b eqn:?
        | |- context [match ?l !! ?i with _ => _ end] => destruct (l !! i)
        | |- context [match ?x with [] => _ | _ :: _ => _ end] => destruct x
        end ]; try lia.
    pose proof (bl_extend_tight N it x) as P. destruct (bl_extend N it x); cbn in *; auto.
  - destruct (s !! i) as [[x|]|]; auto.
    destruct o as [q k|q cl]; cbn [specn ia_spec].
    + unfold bl_split_off. split_if; cbn; auto.
    + cbn in HT. unfold bl_clone_leaking. rewrite (clones_total cl x HT 0), Nat.eqb_refl. reflexivity.
  - destruct (i =? j); auto. destruct (s !! i) as [[x|]|]; auto. destruct (s !! j) as [[y|]|]; auto.
    destruct o; cbn; auto.
  - destruct (s !! i) as [[x|]|]; auto.
Qed.

(** ** All programs. *)
Notation prog := (list (cmd (ia_op0 A) (ia_op1 A) (ia_opn A) (ia_op2 A))).
Theorem ia_program (p : prog) : all_legal (ia_spec cap) p [] ->
  exists X g, run (ia_kit e L) p [] log0 = Some (X, g, s_events (srun (ia_spec cap) p [])) /\
    Forall2 (orel LHolds) X (s_store (srun (ia_spec cap) p [])) /\
    dropped g = s_dropped (srun (ia_spec cap) p []) /\
    Permutation (leaked g) (s_leaked (srun (ia_spec cap) p [])).
Proof.
  intros HL.
  destruct (run_sim _ _ _ ia_refines p [] [] log0 (Forall2_nil _) HL) as (X & g & k & E & HR & D & Lk & P).
  exists X, g. rewrite Lk. cbn. repeat split; auto. symmetry. exact P.
Qed.
Theorem ia_conservation (p : prog) : all_legal (ia_spec cap) p [] ->
  exists X g evs, run (ia_kit e L) p [] log0 = Some (X, g, evs) /\
    Permutation (s_given (srun (ia_spec cap) p []))
      (live (ia_spec cap) (s_store (srun (ia_spec cap) p [])) ++
       returned (ia_spec cap) evs ++ dropped g ++ leaked g) /\
    (Forall clones_all p -> leaked g = []).
Proof.
  intros HL. destruct (ia_program p HL) as (X & g & E & HR & D & Lk).
  exists X, g, (s_events (srun (ia_spec cap) p [])). split; [exact E|]. split.
  - pose proof (srun_balanced _ (ia_balanced cap) p [] HL) as P. cbn zeta in P.
    cbn [live flat_map app] in P.
    rewrite D. rewrite P. rewrite Lk. reflexivity.
  - intros HT. apply Permutation_nil. symmetry. rewrite Lk. apply Permutation_refl'. apply srun_tight; [|exact HL].
    eapply List.Forall_impl; [|exact HT]. intros c Hc. apply clones_all_tight. exact Hc.
Qed.
End proofs.
