(** * Programs over [Chunk]s. *)
From Verif Require Import Machine Spec Prims IterSpec ChunkModel ChunkProofs ChunkProofs2 ChunkProofs3
  ChunkProofs4 Program SpecProps.

Section ops.
Context {A : Type}.

Inductive chunk_op0 :=
  | CNew | CUnit (v : A) | CPair (v1 v2 : A) | CFromIter (it : list (ev A))
  | CCollectFrom (k : nat) (it : list (ev A)).
Inductive chunk_op1 :=
  | CPushFront (v : A) | CPushBack (v : A) | CPopFront | CPopBack
  | CInsert (i : nat) (v : A) | CInsertFrom (i n : nat) (it : list (ev A))
  | CInsertOrdered (bs : list A -> A -> option nat) (v : A)
  | CRemove (i : nat) | CSet (i : nat) (v : A) | CAssign (i : nat) (v : A) | CIndex (i : nat)
  | CDropLeft (i : nat) | CDropRight (i : nat) | CClear | CExtend (it : list (ev A))
  | CDrainNext | CDrainNextBack
  | CAsSlice | CUpdateSlice (f : list A -> list A) | CLen | CIsEmpty | CIsFull.
Inductive chunk_opn :=
  | CSplitOff (i : nat) | CFromFront (k : nat) | CFromBack (k : nat) | CDrainFrom
  | CClone (cl : nat -> A -> option A).
Inductive chunk_op2 :=
  | CAppend | CDrainFromFront (k : nat) | CDrainFromBack (k : nat)
  | CEq (eqA : A -> A -> bool) | CPartialCmp (pc : A -> A -> option comparison).
End ops.
Arguments chunk_op0 : clear implicits. Arguments chunk_op1 : clear implicits.
Arguments chunk_opn : clear implicits.
Arguments chunk_op2 : clear implicits.

(** The code. *)
Definition chunk_kit {A} (e : env A) (N : nat)
  : kit A (chunk_op0 A) (chunk_op1 A) (chunk_opn A) (chunk_op2 A) (res A) (chunk A) := {|
  run0 := fun o => match o with
    | CNew => ret new
    | CUnit v => mapR fst (unit_ e N v)
    | CPair v1 v2 => mapR fst (pair_ e N v1 v2)
    | CFromIter it => mapR fst (from_iter e N it)
    | CCollectFrom k it => mapR fst (sealed it (collect_from e N k))
    end;
  run1 := fun o => match o with
    | CPushFront v => mapR unit_res (push_front e N v)
    | CPushBack v => mapR unit_res (push_back e N v)
    | CPopFront => mapR RVal (pop_front e N)
    | CPopBack => mapR RVal (pop_back e N)
    | CInsert i v => mapR unit_res (insert e N i v)
    | CInsertFrom i n it => mapR unit_res (insert_from e N i n n it)
    | CInsertOrdered bs v => mapR unit_res (insert_ordered e N bs v)
    | CRemove i => mapR RVal (remove e N i)
    | CSet i v => mapR RVal (set e N i v)
    | CAssign i v => mapR unit_res (assign e N i v)
    | CIndex i => mapR RRef (index e N i)
    | CDropLeft i => mapR unit_res (drop_left e N i)
    | CDropRight i => mapR unit_res (drop_right e N i)
    | CClear => mapR unit_res (clear e N)
    | CExtend it => mapR unit_res (extend e N it)
    | CDrainNext => mapR ROpt (iter_next e N)
    | CDrainNextBack => mapR ROpt (iter_next_back e N)
    | CAsSlice => mapR RRefs (as_slice e N)
    | CUpdateSlice f => mapR unit_res (update_slice e N f)
    | CLen => mapR RNat (len e)
    | CIsEmpty => mapR RBool (let! c := get in ret (is_empty c))
    | CIsFull => mapR RBool (let! c := get in ret (is_full N c))
    end;
  runn := fun o => match o with
    | CSplitOff i => mapR fst (split_off e N i)
    | CFromFront k => mapR fst (from_front e N k)
    | CFromBack k => mapR fst (from_back e N k)
    | CDrainFrom => mapR fst (drain_from e N)
    | CClone cl => mapR fst (clone e N cl)
    end;
  run2 := fun o => match o with
    | CAppend => mapR unit_res (append e N)
    | CDrainFromFront k => mapR unit_res (drain_from_front e N k)
    | CDrainFromBack k => mapR unit_res (drain_from_back e N k)
    | CEq eqA => mapR RBool (eq_ e N eqA)
    | CPartialCmp pc => mapR ROCmp (partial_cmp e N pc)
    end;
  kill := destroy e N |}.

(** The specification: lists of length at most [N]. *)
Definition chunk_spec {A} (e : env A) (N : nat)
  : skit A (chunk_op0 A) (chunk_op1 A) (chunk_opn A) (chunk_op2 A) (res A) (list A) := {|
  spec0 := fun o => match o with
    | CNew => SRet tt [] []
    | CUnit v => bl_unit N v
    | CPair v1 v2 => bl_pair N v1 v2
    | CFromIter it => bl_from_iter N it
    | CCollectFrom k it => ssealed (bl_collect N k it [])
    end;
  spec1 := fun o l => match o with
    | CPushFront v => smapR unit_res (bl_push_front N v l)
    | CPushBack v => smapR unit_res (bl_push_back N v l)
    | CPopFront => smapR RVal (bl_pop_front l)
    | CPopBack => smapR RVal (bl_pop_back l)
    | CInsert i v => smapR unit_res (bl_insert N i v l)
    | CInsertFrom i n it => smapR unit_res (bl_insert_from_any N i n it l)
    | CInsertOrdered bs v =>
        if length l <? N then
          match bs l v with
          | Some i => smapR unit_res (bl_insert N i v l)
          | None => SPanic l [v] []
          end
        else SPanic l [v] []
    | CRemove i => smapR RVal (bl_remove i l)
    | CSet i v => smapR RVal (bl_set i v l)
    | CAssign i v => smapR unit_res (bl_assign i v l)
    | CIndex i => smapR RRef (bl_index i l)
    | CDropLeft i => smapR unit_res (bl_drop_left i l)
    | CDropRight i => smapR unit_res (bl_drop_right i l)
    | CClear => smapR unit_res (bl_clear l)
    | CExtend it => smapR unit_res (bl_extend N it l)
    | CDrainNext => smapR ROpt (bl_try_pop_front l)
    | CDrainNextBack => smapR ROpt (bl_try_pop_back l)
    | CAsSlice => SRet l (RRefs l) []
    | CUpdateSlice f => SRet (f l) RUnit []
    | CLen => SRet l (RNat (length l)) []
    | CIsEmpty => SRet l (RBool (length l =? 0)) []
    | CIsFull => SRet l (RBool (length l =? N)) []
    end;
  specn := fun o l => match o with
    | CSplitOff i => bl_split_off i l
    | CFromFront k => bl_from_front k l
    | CFromBack k => bl_from_back k l
    | CDrainFrom => bl_drain_all l
    | CClone cl => bl_clone cl l
    end;
  spec2 := fun o ll => match o with
    | CAppend => smapR unit_res (bl_append N ll)
    | CDrainFromFront k => smapR unit_res (bl_drain_from_front N k ll)
    | CDrainFromBack k => smapR unit_res (bl_drain_from_back N k ll)
    | CEq eqA => SRet ll (RBool (slice_eq eqA ll.1 ll.2)) []
    | CPartialCmp pc => SRet ll (ROCmp (iter_partial_cmp pc ll.1 ll.2)) []
    end;
  (* A [usize] argument is below [word].  [insert_from]: the iterator announces the same length twice,
     and in a release build the sum of the lengths must not overflow.  [from_front]/[from_back]: in a
     release build the count must not exceed the length.  In-place updates permute the slice. *)
  legal1 := fun o l => match o with
    | CInsertFrom i n it => n < word e /\ (length l + n < word e \/ debug e = true)
    | CUpdateSlice f => Permutation (f l) l
    | _ => True
    end;
  legaln := fun o l => match o with
    | CFromFront k | CFromBack k => k <= length l \/ debug e = true
    | _ => True
    end;
  legal2 := fun o ll => match o with
    | CDrainFromFront k | CDrainFromBack k => k < word e
    | _ => True
    end;
  given0 := fun o => match o with
    | CNew => []
    | CUnit v => [v]
    | CPair v1 v2 => [v1; v2]
    | CFromIter it => yields (S N) it
    | CCollectFrom k it => yields (k `min` S N) it
    end;
  given1 := fun o l => match o with
    | CPushFront v | CPushBack v | CInsert _ v | CInsertOrdered _ v | CSet _ v | CAssign _ v => [v]
    | CInsertFrom i n it => if (length l + n <=? N) && (i <=? length l) then yields n it else []
    | CExtend it => yields (S (N - length l)) it
    | _ => []
    end;
  givenn := fun o l => match o with CClone cl => clones cl 0 l | _ => [] end;
  items := fun l => l;
  outs := moved_out |}.

Section proofs.
Context {A : Type} (e : env A) (N : nat).
Hypothesis HW : N + N < word e.
Hypothesis Hcalm : calm e.

Lemma take_side_pop_front (l : list A) :
  SRet (snd (take_side Front l)) (fst (take_side Front l)) [] = bl_try_pop_front l.
Proof. destruct l; reflexivity. Qed.
Lemma take_side_pop_back (l : list A) :
  SRet (snd (take_side Back l)) (fst (take_side Back l)) [] = bl_try_pop_back l.
Proof. unfold take_side, bl_try_pop_back. destruct (l !! _); reflexivity. Qed.
Lemma agrees_intro {O S R} (H : O -> S -> Prop) (m : M A O R) o g s r :
  (exists o' g', m o g = Ret o' g' r /\ H o' s /\ dropped g' = dropped g /\ leaked g' = leaked g) ->
  agrees H eq g (m o g) (SRet s r []).
Proof.
  intros (o' & g' & E & Ho & D & L). exists o', g', r. rewrite app_nil_r. auto.
Qed.

Theorem chunk_refines : refines (chunk_kit e N) (chunk_spec e N) (Holds N).
Proof.
  assert (HM : forall (r : chunk A * unit) l, Made N r l -> Holds N (fst r) l) by auto.
  split.
  - intros [|v|v1 v2|it|k it] g; cbn [run0 spec0 chunk_kit chunk_spec].
    + eexists _, _, _. split; [reflexivity|]. rewrite app_nil_r. split; [exact I|]. split; [exact (new_holds e N HW)|].
      auto.
    + pose proof (unit_ok e N HW Hcalm v g) as P.
      apply (mapR_agrees _ _ _ fst (fun x => x) _ _ _ _ _ HM) in P. destruct (bl_unit N v); exact P.
    + pose proof (pair_ok e N HW Hcalm v1 v2 g) as P.
      apply (mapR_agrees _ _ _ fst (fun x => x) _ _ _ _ _ HM) in P. destruct (bl_pair N v1 v2); exact P.
    + pose proof (from_iter_ok e N HW Hcalm it g) as P.
      apply (mapR_agrees _ _ _ fst (fun x => x) _ _ _ _ _ HM) in P. destruct (bl_from_iter N it); exact P.
    + pose proof (sealed_agrees _ _ _ _ _ _ _ (collect_from_ok e N HW Hcalm k it g)) as P.
      apply (mapR_agrees _ _ _ fst (fun x => x) _ _ _ _ _ HM) in P.
      destruct (bl_collect N k it []); exact P.
  - intros o x s g Hx HL. destruct o; cbn [run1 spec1 legal1 chunk_kit chunk_spec] in *.
    + apply mapR_agrees_eq, push_front_ok; assumption.
    + apply mapR_agrees_eq, push_back_ok; assumption.
    + apply mapR_agrees_eq, pop_front_ok; assumption.
    + apply mapR_agrees_eq, pop_back_ok; assumption.
    + apply mapR_agrees_eq, insert_ok; assumption.
    + apply mapR_agrees_eq, insert_from_ok; tauto.
    + pose proof (insert_ordered_ok e N HW Hcalm x s g v bs Hx) as P. apply (mapR_agrees_eq _ (@unit_res A)) in P.
      destruct (length s <? N); [|exact P]. destruct (bs s v); exact P.
    + apply mapR_agrees_eq, remove_ok; assumption.
    + apply mapR_agrees_eq, set_ok; assumption.
    + apply mapR_agrees_eq, assign_ok; assumption.
    + apply mapR_agrees_eq, index_ok; assumption.
    + apply mapR_agrees_eq, drop_left_ok; assumption.
    + apply mapR_agrees_eq, drop_right_ok; assumption.
    + apply mapR_agrees_eq, clear_ok; assumption.
    + apply mapR_agrees_eq, extend_ok; assumption.
    + apply mapR_agrees_eq. rewrite <- take_side_pop_front. apply agrees_intro, iter_next_ok; assumption.
    + apply mapR_agrees_eq. rewrite <- take_side_pop_back. apply agrees_intro, iter_next_back_ok; assumption.
    + apply (mapR_agrees_eq _ RRefs _ _ _ _ (SRet s s [])), as_slice_ok; assumption.
    + apply (mapR_agrees_eq _ unit_res _ _ _ _ (SRet (f s) tt [])), update_slice_ok; try assumption.
      apply Permutation_length. assumption.
    + apply (mapR_agrees_eq _ RNat _ _ _ _ (SRet s (length s) [])), len_ok; assumption.
    + eexists _, _, _. split; [reflexivity|]. rewrite app_nil_r. cbn. rewrite (is_empty_ok e N HW x s Hx). auto.
    + eexists _, _, _. split; [reflexivity|]. rewrite app_nil_r. cbn. rewrite (is_full_ok e N HW x s Hx). auto.
  - intros o x s g Hx HL. destruct o; cbn [runn specn legaln chunk_kit chunk_spec] in *.
    + pose proof (split_off_ok e N HW x s g i Hx) as P.
      apply (mapR_agrees _ _ _ fst (fun x => x) _ _ _ _ _ HM) in P. destruct (bl_split_off i s); exact P.
    + assert (P : agrees (Holds N) (Made N) g (from_front e N k x g) (bl_from_front k s)).
      { destruct HL; [apply from_front_ok | apply from_front_debug]; assumption. }
      apply (mapR_agrees _ _ _ fst (fun x => x) _ _ _ _ _ HM) in P. destruct (bl_from_front k s); exact P.
    + assert (P : agrees (Holds N) (Made N) g (from_back e N k x g) (bl_from_back k s)).
      { destruct HL; [apply from_back_ok | apply from_back_debug]; assumption. }
      apply (mapR_agrees _ _ _ fst (fun x => x) _ _ _ _ _ HM) in P. destruct (bl_from_back k s); exact P.
    + pose proof (drain_from_ok e N HW x s g Hx) as P.
      apply (mapR_agrees _ _ _ fst (fun x => x) _ _ _ _ _ HM) in P. exact P.
    + pose proof (clone_ok e N HW Hcalm cl x s g Hx) as P.
      apply (mapR_agrees _ _ _ fst (fun x => x) _ _ _ _ _ HM) in P. destruct (bl_clone cl s); exact P.
  - intros o [x y] [s t] g Hx HL. destruct o; cbn [run2 spec2 legal2 chunk_kit chunk_spec] in *.
    + apply mapR_agrees_eq, append_ok; assumption.
    + apply mapR_agrees_eq, drain_from_front_ok; assumption.
    + apply mapR_agrees_eq, drain_from_back_ok; assumption.
    + destruct Hx as [H1 H2]. eexists _, _, _. split.
      * unfold mapR. erewrite bind_Ret by (apply (two_slices e N HW (slice_eq eqA)); eassumption). reflexivity.
      * rewrite app_nil_r. repeat split; auto; apply H1 || apply H2.
    + destruct Hx as [H1 H2]. eexists _, _, _. split.
      * unfold mapR. erewrite bind_Ret by (apply (two_slices e N HW (iter_partial_cmp pc)); eassumption). reflexivity.
      * rewrite app_nil_r. repeat split; auto; apply H1 || apply H2.
  - intros x s g Hx. apply destroy_ok; assumption.
Qed.

End proofs.

Section balance.
Context {A : Type} (e : env A) (N : nat).
(** ** Values are conserved. *)
Lemma bal_of {T} (f : T -> res A) (out : T -> list A) x b (s : sres A (list A) T) : 
  (forall r, moved_out (f r) = out r) -> conserves out (x ++ b) s ->
  match smapR f s with
  | SRet x' r d => Permutation (x ++ b) (x' ++ moved_out r ++ d)
  | SPanic x' d k => Permutation (x ++ b) (x' ++ d ++ k) end.
Proof. intros H. destruct s; cbn; [rewrite H|]; auto. Qed.
Lemma bal2_of x (s : sres A (list A * list A) unit) :
  conserves2 (fun _ => []) (x.1 ++ x.2) s ->
  match smapR (@unit_res A) s with
  | SRet x' r d => Permutation (x.1 ++ x.2) (x'.1 ++ x'.2 ++ moved_out r ++ d)
  | SPanic x' d k => Permutation (x.1 ++ x.2) (x'.1 ++ x'.2 ++ d ++ k) end.
Proof. destruct s; auto. Qed.

Theorem chunk_balanced : balanced (chunk_spec e N).
Proof.
  split.
  - intros [|v|v1 v2|it|k it]; cbn [spec0 given0 items chunk_spec].
    + reflexivity.
    + apply cons_unit.
    + apply cons_pair.
    + apply cons_from_iter.
    + pose proof (cons_collect N k it []) as P. cbn [length] in P. rewrite Nat.sub_0_r in P.
      destruct (bl_collect N k it []); exact P.
  - intros o x HL. destruct o; cbn [spec1 given1 items outs chunk_spec].
    + eapply bal_of; [|apply cons_push_front]; reflexivity.
    + eapply bal_of; [|apply cons_push_back]; reflexivity.
    + eapply bal_of; [|rewrite app_nil_r; apply cons_pop_front]; reflexivity.
    + eapply bal_of; [|rewrite app_nil_r; apply cons_pop_back]; reflexivity.
    + eapply bal_of; [|apply cons_insert]; reflexivity.
    + eapply bal_of; [|apply cons_insert_from_any]; reflexivity.
    + destruct (length x <? N); [destruct (bs x v)|]; [|perm|perm].
      eapply bal_of; [|apply cons_insert]; reflexivity.
    + eapply bal_of; [|rewrite app_nil_r; apply cons_remove]; reflexivity.
    + eapply bal_of; [|apply cons_set]; reflexivity.
    + eapply bal_of; [|apply cons_assign]; reflexivity.
    + eapply bal_of; [|rewrite app_nil_r; apply cons_index]; reflexivity.
    + eapply bal_of; [|rewrite app_nil_r; apply cons_drop_left]; reflexivity.
    + eapply bal_of; [|rewrite app_nil_r; apply cons_drop_right]; reflexivity.
    + eapply bal_of; [|rewrite app_nil_r; apply cons_clear]; reflexivity.
    + eapply bal_of; [|apply cons_extend]; reflexivity.
    + eapply bal_of; [|rewrite app_nil_r; apply cons_try_pop_front]; intros []; reflexivity.
    + eapply bal_of; [|rewrite app_nil_r; apply cons_try_pop_back]; intros []; reflexivity.
    + cbn. perm.
    + cbn in *. rewrite !app_nil_r. symmetry. exact HL.
    + cbn. perm.
    + cbn. perm.
    + cbn. perm.
  - intros o x HL. destruct o; cbn [specn givenn items chunk_spec]; rewrite ?app_nil_r.
    + apply (cons_split_off i x).
    + apply (cons_from_front k x).
    + apply (cons_from_back k x).
    + cbn. perm.
    + apply (cons_clone cl x).
  - intros o x HL. destruct o; cbn [spec2 items outs chunk_spec].
    + apply bal2_of, cons_append.
    + apply bal2_of, cons_drain_from_front.
    + apply bal2_of, cons_drain_from_back.
    + cbn. perm.
    + cbn. perm.
Qed.

(** Iterators given to [insert_from] deliver as many items as they announce. *)
Definition truthful (c : cmd (chunk_op0 A) (chunk_op1 A) (chunk_opn A) (chunk_op2 A)) : Prop :=
  match c with Call _ (CInsertFrom _ n it) => length (yields n it) = n | _ => True end.
Lemma bl_extend_tight (it : list (ev A)) : forall l, match bl_extend N it l with SRet _ _ _ => True | SPanic _ _ k => k = [] end.
Proof. induction it as [|[a|] it IH]; intros l; cbn; auto. split_if; [apply IH|auto]. Qed.
Lemma bl_collect_tight k : forall (it : list (ev A)) l, match bl_collect N k it l with SRet _ _ _ => True | SPanic _ _ k => k = [] end.
Proof. induction k as [|k IH]; intros [|[a|] it] l; cbn; auto. split_if; [apply IH|auto]. Qed.
Lemma truthful_tight c : truthful c -> tight (chunk_spec e N) c.
Proof.
  intros HT s _. destruct c as [o|i o|i o|i j o|i]; cbn [sstep].
  - destruct o as [|v|v1 v2|it|k it]; cbn [spec0 chunk_spec]; auto.
    + unfold bl_unit. split_if; cbn; auto.
    + unfold bl_pair. split_if; cbn; auto.
    + unfold bl_from_iter. pose proof (bl_extend_tight it []) as P. destruct (bl_extend N it []); cbn in *; auto.
    + pose proof (bl_collect_tight k it []) as P. destruct (bl_collect N k it []); cbn in *; auto.
  - destruct (s !! i) as [[x|]|]; auto.
    destruct o; cbn [spec1 chunk_spec truthful] in *;
      unfold bl_push_front, bl_push_back, bl_pop_front, bl_pop_back, bl_insert, bl_insert_from_any, bl_remove,
       bl_set, bl_assign, bl_index, bl_drop_left, bl_drop_right, bl_clear, bl_try_pop_front, bl_try_pop_back;
      repeat first [ reflexivity
      | match goal with
        | |- context [if ?b then _ else _] => destruct b eqn:?
        | |- context [match ?l !! ?i with _ => _ end] => destruct (l !! i)
        | |- context [match ?bs ?x ?v with Some _ => _ | None => _ end] => destruct (bs x v)
        | |- context [match ?x with [] => _ | _ :: _ => _ end] => destruct x
        end ]; try lia.
    pose proof (bl_extend_tight it x) as P. destruct (bl_extend N it x); cbn in *; auto.
  - destruct (s !! i) as [[x|]|]; auto.
    destruct o; cbn [specn chunk_spec]; unfold bl_split_off, bl_from_front, bl_from_back, bl_drain_all, bl_clone;
      try split_if; cbn; auto.
  - destruct (i =? j); auto. destruct (s !! i) as [[x|]|]; auto. destruct (s !! j) as [[y|]|]; auto.
    destruct o; cbn [spec2 chunk_spec]; unfold bl_append, bl_drain_from_front, bl_drain_from_back;
      cbn [smapR]; try split_if; cbn; auto.
  - destruct (s !! i) as [[x|]|]; auto.
Qed.
End balance.

(** ** All programs. *)
Section programs.
Context {A : Type} (e : env A) (N : nat).
Hypothesis HW : N + N < word e.
Hypothesis Hcalm : calm e.
Notation prog := (list (cmd (chunk_op0 A) (chunk_op1 A) (chunk_opn A) (chunk_op2 A))).

Theorem chunk_program (p : prog) : all_legal (chunk_spec e N) p [] ->
  exists X g, run (chunk_kit e N) p [] log0 = Some (X, g, s_events (srun (chunk_spec e N) p [])) /\
    Forall2 (orel (Holds N)) X (s_store (srun (chunk_spec e N) p [])) /\
    dropped g = s_dropped (srun (chunk_spec e N) p []) /\
    Permutation (leaked g) (s_leaked (srun (chunk_spec e N) p [])).
Proof.
  intros HL.
  destruct (run_sim _ _ _ (chunk_refines e N HW Hcalm) p [] [] log0 (Forall2_nil _) HL)
    as (X & g & k & E & HR & D & L & P).
  exists X, g. rewrite L. cbn. repeat split; auto. symmetry. exact P.
Qed.

Theorem chunk_conservation (p : prog) : all_legal (chunk_spec e N) p [] ->
  exists X g evs, run (chunk_kit e N) p [] log0 = Some (X, g, evs) /\
    Permutation (s_given (srun (chunk_spec e N) p []))
      (live (chunk_spec e N) (s_store (srun (chunk_spec e N) p [])) ++
       returned (chunk_spec e N) evs ++ dropped g ++ leaked g) /\
    (Forall truthful p -> leaked g = []).
Proof.
  intros HL. destruct (chunk_program p HL) as (X & g & E & HR & D & L).
  exists X, g, (s_events (srun (chunk_spec e N) p [])). split; [exact E|]. split.
  - pose proof (srun_balanced _ (chunk_balanced e N) p [] HL) as P. cbn zeta in P.
    cbn [live flat_map app] in P.
    rewrite D. rewrite P. rewrite L. reflexivity.
  - intros HT. apply Permutation_nil. symmetry. rewrite L. apply Permutation_refl'. apply srun_tight; [|exact HL].
    eapply List.Forall_impl; [|exact HT]. intros c Hc. apply truthful_tight. exact Hc.
Qed.
End programs.
