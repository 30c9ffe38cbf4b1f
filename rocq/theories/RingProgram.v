(** * Programs over [RingBuffer]s. *)
From Verif Require Import Machine Spec Prims IterSpec RingModel RingProofs RingProofs2 RingProofs3
  RingProofs4 RingProofs5 Program SpecProps.

Section ops.
Context {A : Type}.
Inductive ring_op0 :=
  | BNew | BUnit (v : A) | BPair (v1 v2 : A) | BFromIter (it : list (ev A))
  | BCollectFrom (k : nat) (it : list (ev A)).
Inductive ring_op1 :=
  | BPushFront (v : A) | BPushBack (v : A) | BPopFront | BPopBack     (* also next, next_back of Drain *)
  | BInsert (i : nat) (v : A) | BInsertFrom (i n : nat) (it : list (ev A))
  | BInsertOrdered (bs : list A -> A -> option nat) (v : A)
  | BRemove (i : nat) | BAssign (i : nat) (v : A) | BIndex (i : nat) | BGet (i : nat)
  | BDropLeft (i : nat) | BDropRight (i : nat) | BClear | BExtend (it : list (ev A))
  | BContents | BSliceContents (s : nat * nat) | BEqSlice (eqA : A -> A -> bool) (other : list A)
  | BLen | BIsEmpty | BIsFull.
Inductive ring_opn :=
  | BSplitOff (i : nat) | BFromFront (k : nat) | BFromBack (k : nat) | BDrainFrom
  | BClone (cl : nat -> A -> option A) | BToOwned (s : nat * nat) (cl : nat -> A -> option A).
Inductive ring_op2 :=
  | BAppend | BDrainFromFront (k : nat) | BDrainFromBack (k : nat)
  | BEq (eqA : A -> A -> bool) | BPartialCmp (pc : A -> A -> option comparison).
End ops.
Arguments ring_op0 : clear implicits. Arguments ring_op1 : clear implicits.
Arguments ring_opn : clear implicits. Arguments ring_op2 : clear implicits.

(** The code. *)
Definition ring_kit {A} (e : env A) (N : nat)
  : kit A (ring_op0 A) (ring_op1 A) (ring_opn A) (ring_op2 A) (res A) (ring A) := {|
  run0 := fun o => match o with
    | BNew => rb_new e N
    | BUnit v => mapR fst (rb_unit e N v)
    | BPair v1 v2 => mapR fst (rb_pair e N v1 v2)
    | BFromIter it => mapR fst (rb_from_iter e N it)
    | BCollectFrom k it => mapR fst (sealed it (rb_collect_from e N k))
    end;
  run1 := fun o => match o with
    | BPushFront v => mapR unit_res (rb_push_front e N v)
    | BPushBack v => mapR unit_res (rb_push_back e N v)
    | BPopFront => mapR ROpt (rb_pop_front e N)
    | BPopBack => mapR ROpt (rb_pop_back e N)
    | BInsert i v => mapR unit_res (rb_insert e N i v)
    | BInsertFrom i n it => mapR unit_res (rb_insert_from e N i n it)
    | BInsertOrdered bs v => mapR unit_res (rb_insert_ordered e N bs v)
    | BRemove i => mapR RVal (rb_remove e N i)
    | BAssign i v => mapR unit_res (rb_assign e N i v)
    | BIndex i => mapR RRef (rb_index e N i)
    | BGet i => mapR RORef (rb_get e N i)
    | BDropLeft i => mapR unit_res (rb_drop_left e N i)
    | BDropRight i => mapR unit_res (rb_drop_right e N i)
    | BClear => mapR unit_res (rb_clear e N)
    | BExtend it => mapR unit_res (rb_extend e N it)
    | BContents => mapR RRefs (rb_contents e N)
    | BSliceContents s => mapR RRefs (sl_contents e N s)
    | BEqSlice eqA other => mapR RBool (rb_eq_list e N eqA other)
    | BLen => mapR RNat rb_len
    | BIsEmpty => mapR RBool (let! c := get in ret (rb_is_empty c))
    | BIsFull => mapR RBool (let! c := get in ret (rb_is_full N c))
    end;
  runn := fun o => match o with
    | BSplitOff i => mapR fst (rb_split_off e N i)
    | BFromFront k => mapR fst (rb_from_front e N k)
    | BFromBack k => mapR fst (rb_from_back e N k)
    | BDrainFrom => mapR fst (rb_drain_from e N)
    | BClone cl => mapR fst (rb_clone e N cl)
    | BToOwned s cl => mapR fst (sl_to_owned e N cl s)
    end;
  run2 := fun o => match o with
    | BAppend => mapR unit_res (rb_append e N)
    | BDrainFromFront k => mapR unit_res (rb_drain_from_front e N k)
    | BDrainFromBack k => mapR unit_res (rb_drain_from_back e N k)
    | BEq eqA => mapR RBool (rb_eq e N eqA)
    | BPartialCmp pc => mapR ROCmp (rb_partial_cmp e N pc)
    end;
  kill := rb_destroy e N |}.

(** The sublist [s] of [l]. *)
Definition within {A} (s : nat * nat) (l : list A) : list A := take (snd s - fst s) (drop (fst s) l).
Definition bl_to_owned {A} (cl : nat -> A -> option A) (s : nat * nat) (l : list A) : sres A (list A) (list A) :=
  match bl_clone cl (within s l) with SRet _ l' d => SRet l l' d | SPanic _ d ks => SPanic l d ks end.

(** The specification: lists of length at most [N]. *)
Definition ring_spec {A} (e : env A) (N : nat)
  : skit A (ring_op0 A) (ring_op1 A) (ring_opn A) (ring_op2 A) (res A) (list A) := {|
  spec0 := fun o => match o with
    | BNew => SRet tt [] []
    | BUnit v => bl_unit N v
    | BPair v1 v2 => bl_pair N v1 v2
    | BFromIter it => bl_from_iter N it
    | BCollectFrom k it => ssealed (bl_collect N k it [])
    end;
  spec1 := fun o l => match o with
    | BPushFront v => smapR unit_res (bl_push_front N v l)
    | BPushBack v => smapR unit_res (bl_push_back N v l)
    | BPopFront => smapR ROpt (bl_try_pop_front l)
    | BPopBack => smapR ROpt (bl_try_pop_back l)
    | BInsert i v => smapR unit_res (bl_insert N i v l)
    | BInsertFrom i n it => smapR unit_res (bl_insert_from_tail N i n it l)
    | BInsertOrdered bs v =>
        if length l <? N then
          match bs l v with
          | Some i => smapR unit_res (bl_insert N i v l)
          | None => SPanic l [v] []
          end
        else SPanic l [v] []
    | BRemove i => smapR RVal (bl_remove i l)
    | BAssign i v => smapR unit_res (bl_assign i v l)
    | BIndex i => smapR RRef (bl_index i l)
    | BGet i => SRet l (RORef (l !! i)) []
    | BDropLeft i => smapR unit_res (bl_drop_left i l)
    | BDropRight i => smapR unit_res (bl_drop_right i l)
    | BClear => smapR unit_res (bl_clear l)
    | BExtend it => smapR unit_res (bl_extend N it l)
    | BContents => SRet l (RRefs l) []
    | BSliceContents s => SRet l (RRefs (within s l)) []
    | BEqSlice eqA other => SRet l (RBool (slice_eq eqA l other)) []
    | BLen => SRet l (RNat (length l)) []
    | BIsEmpty => SRet l (RBool (length l =? 0)) []
    | BIsFull => SRet l (RBool (length l =? N)) []
    end;
  specn := fun o l => match o with
    | BSplitOff i => bl_split_off i l
    | BFromFront k => bl_from_front k l
    | BFromBack k => bl_from_back k l
    | BDrainFrom => bl_drain_all l
    | BClone cl => bl_clone cl l
    | BToOwned s cl => bl_to_owned cl s l
    end;
  spec2 := fun o ll => match o with
    | BAppend => smapR unit_res (bl_append N ll)
    | BDrainFromFront k => smapR unit_res (bl_drain_from_front N k ll)
    | BDrainFromBack k => smapR unit_res (bl_drain_from_back N k ll)
    | BEq eqA => SRet ll (RBool (slice_eq eqA ll.1 ll.2)) []
    | BPartialCmp pc => SRet ll (ROCmp (iter_partial_cmp pc ll.1 ll.2)) []
    end;
  (* A [usize] argument is below [word].  [insert_from]: in a release build the sum of the lengths must not
     overflow.  Slices exist only for ranges inside the contents ([rb_slice], see C32). *)
  legal1 := fun o l => match o with
    | BInsertFrom i n it => length l + n < word e \/ debug e = true
    | BSliceContents s => fst s <= snd s /\ snd s <= length l
    | _ => True
    end;
  legaln := fun o l => match o with
    | BFromFront k | BFromBack k => k < word e
    | BToOwned s cl => fst s <= snd s /\ snd s <= length l
    | _ => True
    end;
  legal2 := fun o ll => match o with
    | BDrainFromFront k | BDrainFromBack k => k < word e
    | _ => True
    end;
  given0 := fun o => match o with
    | BNew => []
    | BUnit v => [v]
    | BPair v1 v2 => [v1; v2]
    | BFromIter it => yields (S N) it
    | BCollectFrom k it => yields (k `min` S N) it
    end;
  given1 := fun o l => match o with
    | BPushFront v | BPushBack v | BInsert _ v | BInsertOrdered _ v | BAssign _ v => [v]
    | BInsertFrom i n it => taken_from_tail N i n it l
    | BExtend it => yields (S (N - length l)) it
    | _ => []
    end;
  givenn := fun o l => match o with
    | BClone cl => clones cl 0 l
    | BToOwned s cl => clones cl 0 (within s l)
    | _ => [] end;
  items := fun l => l;
  outs := moved_out |}.

Section proofs.
Context {A : Type} (e : env A) (N : nat).
Hypothesis HW : N + N < word e.
Hypothesis HN : 0 < N.
Hypothesis Hcalm : calm e.

Lemma agrees_reads {R} (m : M A (ring A) R) r l g x : RHolds N r l -> m r g = Ret r g x ->
  agrees (RHolds N) eq g (m r g) (SRet l x []).
Proof. intros H E. exists r, g, x. rewrite app_nil_r. auto. Qed.

Theorem ring_refines : refines (ring_kit e N) (ring_spec e N) (RHolds N).
Proof.
  assert (HM : forall (r : ring A * unit) l, RMade N r l -> RHolds N (fst r) l) by auto.
  split.
  - intros [|v|v1 v2|it|k it] g; cbn [run0 spec0 ring_kit ring_spec].
    + rewrite rb_new_eq by assumption. eexists _, _, _. split; [reflexivity|]. rewrite app_nil_r. split; [exact I|].
      split; [exact (ring0_holds N HN)|]. auto.
    + pose proof (rb_unit_ok e N HW HN v g) as P.
      apply (mapR_agrees _ _ _ fst (fun x => x) _ _ _ _ _ HM) in P. destruct (bl_unit N v); exact P.
    + pose proof (rb_pair_ok e N HW HN Hcalm v1 v2 g) as P.
      apply (mapR_agrees _ _ _ fst (fun x => x) _ _ _ _ _ HM) in P. destruct (bl_pair N v1 v2); exact P.
    + pose proof (rb_from_iter_unit e N HW HN Hcalm it g) as P.
      apply (mapR_agrees _ _ _ fst (fun x => x) _ _ _ _ _ HM) in P. destruct (bl_from_iter N it); exact P.
    + pose proof (sealed_agrees _ _ _ _ _ _ _ (rb_collect_from_ok e N HW HN Hcalm k it g)) as P.
      apply (mapR_agrees _ _ _ fst (fun x => x) _ _ _ _ _ HM) in P.
      destruct (bl_collect N k it []); exact P.
  - intros o x s g Hx HL. destruct o; cbn [run1 spec1 legal1 ring_kit ring_spec] in *.
    + apply mapR_agrees_eq, rb_push_front_ok; assumption.
    + apply mapR_agrees_eq, rb_push_back_ok; assumption.
    + apply mapR_agrees_eq, rb_pop_front_ok; assumption.
    + apply mapR_agrees_eq, rb_pop_back_ok; assumption.
    + apply mapR_agrees_eq, rb_insert_ok; assumption.
    + apply mapR_agrees_eq, rb_insert_from_ok; assumption.
    + pose proof (rb_insert_ordered_ok e N HW HN Hcalm x s g v bs Hx) as P. apply (mapR_agrees_eq _ (@unit_res A)) in P.
      destruct (length s <? N); [|exact P]. destruct (bs s v); exact P.
    + apply mapR_agrees_eq, rb_remove_ok; assumption.
    + apply mapR_agrees_eq, rb_assign_ok; assumption.
    + apply mapR_agrees_eq, rb_index_ok; assumption.
    + apply (mapR_agrees_eq _ RORef _ _ _ _ (SRet s (s !! i) [])), rb_get_ok; assumption.
    + apply mapR_agrees_eq, rb_drop_left_ok; assumption.
    + apply mapR_agrees_eq, rb_drop_right_ok; assumption.
    + apply mapR_agrees_eq, rb_clear_ok; assumption.
    + apply mapR_agrees_eq, rb_extend_ok; assumption.
    + apply (mapR_agrees_eq _ RRefs _ _ _ _ (SRet s s [])), agrees_reads, rb_contents_eq; assumption.
    + apply (mapR_agrees_eq _ RRefs _ _ _ _ (SRet s (within s0 s) [])), agrees_reads, sl_contents_ok; assumption.
    + apply (mapR_agrees_eq _ RBool _ _ _ _ (SRet s (slice_eq eqA s other) [])), agrees_reads, rb_eq_list_ok; assumption.
    + apply (mapR_agrees_eq _ RNat _ _ _ _ (SRet s (length s) [])). eapply rb_len_ok; eassumption.
    + eexists _, _, _. split; [reflexivity|]. rewrite app_nil_r. cbn. rewrite (rb_is_empty_ok N x s Hx). auto.
    + eexists _, _, _. split; [reflexivity|]. rewrite app_nil_r. cbn. rewrite (rb_is_full_ok N x s Hx). auto.
  - intros o x s g Hx HL. destruct o; cbn [runn specn legaln ring_kit ring_spec] in *.
    + pose proof (rb_split_off_ok e N HW HN Hcalm x s g i Hx) as P.
      apply (mapR_agrees _ _ _ fst (fun x => x) _ _ _ _ _ HM) in P. destruct (bl_split_off i s); exact P.
    + pose proof (rb_from_front_ok e N HW HN Hcalm x s g k Hx HL) as P.
      apply (mapR_agrees _ _ _ fst (fun x => x) _ _ _ _ _ HM) in P. destruct (bl_from_front k s); exact P.
    + pose proof (rb_from_back_ok e N HW HN Hcalm x s g k Hx HL) as P.
      apply (mapR_agrees _ _ _ fst (fun x => x) _ _ _ _ _ HM) in P. destruct (bl_from_back k s); exact P.
    + pose proof (rb_drain_from_ok e N HW HN Hcalm x s g Hx) as P.
      apply (mapR_agrees _ _ _ fst (fun x => x) _ _ _ _ _ HM) in P. exact P.
    + pose proof (rb_clone_ok e N HW HN Hcalm cl x s g Hx) as P.
      apply (mapR_agrees _ _ _ fst (fun x => x) _ _ _ _ _ HM) in P. destruct (bl_clone cl s); exact P.
    + pose proof (sl_to_owned_ok e N HW HN Hcalm cl s0 x s g Hx HL) as P.
      apply (mapR_agrees _ _ _ fst (fun x => x) _ _ _ _ _ HM) in P. unfold bl_to_owned.
      change (within s0 s) with (sub_list s0 s). destruct (bl_clone cl (sub_list s0 s)); exact P.
  - intros o [x y] [s t] g Hx HL. destruct o; cbn [run2 spec2 legal2 ring_kit ring_spec] in *.
    + apply mapR_agrees_eq, rb_append_ok; assumption.
    + apply mapR_agrees_eq, rb_drain_from_front_ok; assumption.
    + apply mapR_agrees_eq, rb_drain_from_back_ok; assumption.
    + destruct Hx as [H1 H2]. eexists _, _, _. split.
      * unfold mapR. erewrite bind_Ret by (apply (rb_eq_ok e N HW HN eqA); eassumption). reflexivity.
      * rewrite app_nil_r. repeat split; auto; apply H1 || apply H2.
    + destruct Hx as [H1 H2]. eexists _, _, _. split.
      * unfold mapR. erewrite bind_Ret by (apply (rb_partial_cmp_ok e N HW HN pc); eassumption). reflexivity.
      * rewrite app_nil_r. repeat split; auto; apply H1 || apply H2.
  - intros x s g Hx. apply rb_destroy_ok; assumption.
Qed.
End proofs.

From Verif Require Import ChunkProgram.
Section balance.
Context {A : Type} (e : env A) (N : nat).
Theorem ring_balanced : balanced (ring_spec e N).
Proof.
  split.
  - intros [|v|v1 v2|it|k it]; cbn [spec0 given0 items ring_spec].
    + reflexivity.
    + apply cons_unit.
    + apply cons_pair.
    + apply cons_from_iter.
    + pose proof (cons_collect N k it []) as P. cbn [length] in P. rewrite Nat.sub_0_r in P.
      destruct (bl_collect N k it []); exact P.
  - intros o x HL. destruct o; cbn [spec1 given1 items outs ring_spec].
    + eapply bal_of; [|apply cons_push_front]; reflexivity.
    + eapply bal_of; [|apply cons_push_back]; reflexivity.
    + eapply bal_of; [|rewrite app_nil_r; apply cons_try_pop_front]; intros []; reflexivity.
    + eapply bal_of; [|rewrite app_nil_r; apply cons_try_pop_back]; intros []; reflexivity.
    + eapply bal_of; [|apply cons_insert]; reflexivity.
    + eapply bal_of; [|apply cons_insert_from_tail]; reflexivity.
    + destruct (length x <? N); [destruct (bs x v)|]; [|perm|perm].
      eapply bal_of; [|apply cons_insert]; reflexivity.
    + eapply bal_of; [|rewrite app_nil_r; apply cons_remove]; reflexivity.
    + eapply bal_of; [|apply cons_assign]; reflexivity.
    + eapply bal_of; [|rewrite app_nil_r; apply cons_index]; reflexivity.
    + cbn. perm.
    + eapply bal_of; [|rewrite app_nil_r; apply cons_drop_left]; reflexivity.
    + eapply bal_of; [|rewrite app_nil_r; apply cons_drop_right]; reflexivity.
    + eapply bal_of; [|rewrite app_nil_r; apply cons_clear]; reflexivity.
    + eapply bal_of; [|apply cons_extend]; reflexivity.
    + cbn. perm.
    + cbn. perm.
    + cbn. perm.
    + cbn. perm.
    + cbn. perm.
    + cbn. perm.
  - intros o x HL. destruct o; cbn [specn givenn items ring_spec]; rewrite ?app_nil_r.
    + apply (cons_split_off i x).
    + apply (cons_from_front k x).
    + apply (cons_from_back k x).
    + cbn. perm.
    + apply (cons_clone cl x).
    + unfold bl_to_owned, bl_clone. destruct (_ =? _); cbn; perm.
  - intros o x HL. destruct o; cbn [spec2 items outs ring_spec].
    + apply bal2_of, cons_append.
    + apply bal2_of, cons_drain_from_front.
    + apply bal2_of, cons_drain_from_back.
    + cbn. perm.
    + cbn. perm.
Qed.

(** Iterators given to [insert_from] deliver as many items as they announce. *)
Definition rtruthful (c : cmd (ring_op0 A) (ring_op1 A) (ring_opn A) (ring_op2 A)) : Prop :=
  match c with Call _ (BInsertFrom _ n it) => length (yields n it) = n | _ => True end.
Lemma rtruthful_tight c : rtruthful c -> tight (ring_spec e N) c.
Proof.
  intros HT s _. destruct c as [o|i o|i o|i j o|i]; cbn [sstep].
  - destruct o as [|v|v1 v2|it|k it]; cbn [spec0 ring_spec]; auto.
    + unfold bl_unit. split_if; cbn; auto.
    + unfold bl_pair. split_if; cbn; auto.
    + unfold bl_from_iter. pose proof (bl_extend_tight N it []) as P. destruct (bl_extend N it []); cbn in *; auto.
    + pose proof (bl_collect_tight N k it []) as P. destruct (bl_collect N k it []); cbn in *; auto.
  - destruct (s !! i) as [[x|]|]; auto.
    destruct o; cbn [spec1 ring_spec rtruthful] in *;
      unfold bl_push_front, bl_push_back, bl_insert, bl_insert_from_tail, bl_insert_from_any, bl_remove,
       bl_assign, bl_index, bl_drop_left, bl_drop_right, bl_clear, bl_try_pop_front, bl_try_pop_back;
      repeat first [ reflexivity
      | match goal with
        | |- context [bl_extend ?N ?it ?x] =>
            let P := fresh "P" in pose proof (bl_extend_tight N it x) as P; destruct (bl_extend N it x); cbn in *; auto; fail
        | |- context [if ?b then _ else _] => destruct b eqn:?
        | |- context [match ?l !! ?i with _ => _ end] => destruct (l !! i)
        | |- context [match ?bs ?x ?v with Some _ => _ | None => _ end] => destruct (bs x v)
        | |- context [match ?x with [] => _ | _ :: _ => _ end] => destruct x
        end ]; try lia.
    all: match goal with |- context [bl_extend ?N ?it ?x] =>
      pose proof (bl_extend_tight N it x) as P; destruct (bl_extend N it x); cbn in *; auto end.
  - destruct (s !! i) as [[x|]|]; auto.
    destruct o; cbn [specn ring_spec]; unfold bl_split_off, bl_from_front, bl_from_back, bl_drain_all, bl_to_owned, bl_clone;
      try split_if; cbn; auto.
  - destruct (i =? j); auto. destruct (s !! i) as [[x|]|]; auto. destruct (s !! j) as [[y|]|]; auto.
    destruct o; cbn [spec2 ring_spec]; unfold bl_append, bl_drain_from_front, bl_drain_from_back;
      cbn [smapR]; try split_if; cbn; auto.
  - destruct (s !! i) as [[x|]|]; auto.
Qed.
End balance.

(** ** All programs. *)
Section programs.
Context {A : Type} (e : env A) (N : nat).
Hypothesis HW : N + N < word e.
Hypothesis HN : 0 < N.
Hypothesis Hcalm : calm e.
Notation prog := (list (cmd (ring_op0 A) (ring_op1 A) (ring_opn A) (ring_op2 A))).

Theorem ring_program (p : prog) : all_legal (ring_spec e N) p [] ->
  exists X g, run (ring_kit e N) p [] log0 = Some (X, g, s_events (srun (ring_spec e N) p [])) /\
    Forall2 (orel (RHolds N)) X (s_store (srun (ring_spec e N) p [])) /\
    dropped g = s_dropped (srun (ring_spec e N) p []) /\
    Permutation (leaked g) (s_leaked (srun (ring_spec e N) p [])).
Proof.
  intros HL.
  destruct (run_sim _ _ _ (ring_refines e N HW HN Hcalm) p [] [] log0 (Forall2_nil _) HL)
    as (X & g & k & E & HR & D & L & P).
  exists X, g. rewrite L. cbn. repeat split; auto. symmetry. exact P.
Qed.

Theorem ring_conservation (p : prog) : all_legal (ring_spec e N) p [] ->
  exists X g evs, run (ring_kit e N) p [] log0 = Some (X, g, evs) /\
    Permutation (s_given (srun (ring_spec e N) p []))
      (live (ring_spec e N) (s_store (srun (ring_spec e N) p [])) ++
       returned (ring_spec e N) evs ++ dropped g ++ leaked g) /\
    (Forall rtruthful p -> leaked g = []).
Proof.
  intros HL. destruct (ring_program p HL) as (X & g & E & HR & D & L).
  exists X, g, (s_events (srun (ring_spec e N) p [])). split; [exact E|]. split.
  - pose proof (srun_balanced _ (ring_balanced e N) p [] HL) as P. cbn zeta in P.
    cbn [live flat_map app] in P.
    rewrite D. rewrite P. rewrite L. reflexivity.
  - intros HT. apply Permutation_nil. symmetry. rewrite L. apply Permutation_refl'. apply srun_tight; [|exact HL].
    eapply List.Forall_impl; [|exact HT]. intros c Hc. apply rtruthful_tight. exact Hc.
Qed.
End programs.
