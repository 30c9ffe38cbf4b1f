(** * [Chunk], continued: ordered insertion, counting writes, panicking destructors, and where the
    code is wrong. *)
From Verif Require Import Machine Spec Prims IterSpec ChunkModel ChunkProofs ChunkProofs2.
From Coq Require Import Sorting.Sorted.

Section proofs.
Context {A : Type} (e : env A) (N : nat).
Hypothesis HW : N + N < word e.
Implicit Types (c : chunk A) (l : list A) (g : log A) (v : A) (i k index count : nat).
Notation agr := (agrees (Holds N) eq).
(** ** Sorted insertion *)
Lemma StronglySorted_insert (R : A -> A -> Prop) l v i :
  StronglySorted R l -> (forall j a, j < i -> l !! j = Some a -> R a v) ->
  (forall j a, i <= j -> l !! j = Some a -> R v a) ->
  StronglySorted R (take i l ++ v :: drop i l).
Proof.
  revert i. induction l as [|x l IH]; intros i Hs H1 H2.
  - rewrite take_nil, drop_nil. cbn. repeat constructor.
  - inversion Hs as [|? ? Hs' Hx]; subst. destruct i as [|i]; cbn.
    + constructor; [exact Hs|]. apply Forall_forall. intros a Ha.
      apply elem_of_list_In, elem_of_list_lookup in Ha. destruct Ha as [j Hj]. apply (H2 j a); [lia|exact Hj].
    + constructor.
      * apply IH; [exact Hs'| |]; intros j a Hj Ha; [apply (H1 (S j) a) | apply (H2 (S j) a)]; auto; lia.
      * apply Forall_app; split; [apply Forall_take; exact Hx|].
        constructor; [apply (H1 0 x); [lia|reflexivity]|]. apply Forall_drop; exact Hx.
Qed.

(** ** Counting writes *)
Ltac cost := exec; try lia; cbn [post]; (split; [holds|]);
   cbn [writes log_write left right]; repeat split; intros; try lia;
   repeat match goal with H : ?l = [] |- _ => apply (f_equal length) in H; cbn [length] in H end; lia.

Lemma push_back_cost c l g v : Holds N c l -> length l < N ->
  post (fun c' g' _ => Holds N c' (l ++ [v]) /\
    writes g' <= writes g + (length l + 1) /\
    (left c = 0 -> left c' = 0 /\ writes g' = writes g + 1) /\
    (l = [] -> left c' = 0 /\ writes g' = writes g + 1)) (push_back e N v c g).
Proof. intros H Hl. start. unfold push_back. cost. Qed.
Lemma push_front_cost c l g v : Holds N c l -> length l < N ->
  post (fun c' g' _ => Holds N c' (v :: l) /\
    writes g' <= writes g + (length l + 1) /\
    (right c = N -> right c' = N /\ writes g' = writes g + 1) /\
    (l = [] -> right c' = N /\ writes g' = writes g + 1)) (push_front e N v c g).
Proof. intros H Hl. start. unfold push_front. cost. Qed.

Lemma push_backs_cost xs : forall c l g, Holds N c l -> length l + length xs <= N -> left c = 0 ->
  post (fun c' g' _ => Holds N c' (l ++ xs) /\ writes g' = writes g + length xs)
    (each (push_back e N) xs c g).
Proof.
  induction xs as [|x xs IH]; intros c l g H Hl H0; cbn [each].
  - cbn. rewrite app_nil_r. auto.
  - cbn [length] in Hl.
    destruct (post_exists _ _ (push_back_cost c l g x H ltac:(lia))) as (c' & g' & r & E & H1 & _ & H2 & _).
    rewrite (bind_Ret _ _ _ _ _ _ _ E). destruct (H2 H0) as [H3 H4].
    destruct (post_exists _ _ (IH c' (l ++ [x]) g' H1 ltac:(lookups; lia) H3))
      as (c2 & g2 & r2 & E2 & H5 & H6).
    rewrite E2. cbn. rewrite <- app_assoc in H5. split; [exact H5|]. lia.
Qed.
Lemma push_fronts_cost xs : forall c l g, Holds N c l -> length l + length xs <= N ->
  right c = N \/ l = [] ->
  post (fun c' g' _ => Holds N c' (rev xs ++ l) /\ writes g' = writes g + length xs)
    (each (push_front e N) xs c g).
Proof.
  induction xs as [|x xs IH]; intros c l g H Hl H0; cbn [each].
  - cbn. auto.
  - cbn [length] in Hl.
    destruct (post_exists _ _ (push_front_cost c l g x H ltac:(lia))) as (c' & g' & r & E & H1 & _ & H2 & H2').
    rewrite (bind_Ret _ _ _ _ _ _ _ E).
    assert (right c' = N /\ writes g' = writes g + 1) as [H3 H4] by (destruct H0; auto).
    destruct (post_exists _ _ (IH c' (x :: l) g' H1 ltac:(cbn; lia) (or_introl H3)))
      as (c2 & g2 & r2 & E2 & H5 & H6).
    rewrite E2. cbn. rewrite <- app_assoc. split; [exact H5|]. lia.
Qed.
Lemma remove_cost c l g i : Holds N c l -> i < length l ->
  post (fun c' g' _ => Holds N c' (take i l ++ drop (S i) l) /\
         writes g' = writes g + i `min` (length l - 1 - i)) (remove e N i c g).
Proof.
  intros H Hi. destruct (l !! i) as [a|] eqn:Ha; [|apply lookup_ge_None in Ha; lia].
  start. unfold remove. cost.
Qed.
Lemma insert_cost c l g i v : Holds N c l -> i <= length l -> length l < N ->
  post (fun c' g' _ => Holds N c' (take i l ++ v :: drop i l) /\
         writes g' <= writes g + i `max` (length l - i) + 1) (insert e N i v c g).
Proof. intros H Hi Hl. start. unfold insert. cost. Qed.

(** ** Panicking destructors *)
Lemma slots_peek_dead {O} `{HasMem A O} (o : O) g a n p : a + n <= N -> a <= p < a + n ->
  getm o p = None -> slots_peek N a n o g = UB DeadSlot.
Proof.
  intros HN Hp Hd. unfold slots_peek. replace (a + n <=? N) with true by lia.
  assert (mapM (getm o) (seq a n) = None) as ->; [|reflexivity].
  apply mapM_None_2. apply Exists_exists. exists p. split; [|exact Hd].
  apply in_seq. lia.
Qed.

(** Destroying a chunk: if one element's destructor panics the others are still dropped and the panic
    propagates; two panics abort the process. *)
Lemma destroy_bombs c l g : Holds N c l ->
  match length (List.filter (bomb e) l) with
  | 0 => exists c', destroy e N c g = Ret c' (log_drop l g) tt
  | 1 => exists c', destroy e N c g = Panic c' (log_drop l g)
  | _ => destroy e N c g = Abort
  end.
Proof.
  intros H. start. unfold destroy, destroying, drop_. exec.
  rewrite (slots_drop_peek e N lf (rt - lf) l) by (first [lia | intros; mem_side]).
  assert (Hcl : forall g', slots_release N (Chunk lf rt (mclear m lf (rt - lf))) g' = Ret (Chunk lf rt mem0) g' tt).
  { intros g'. unfold slots_release. cbn. rewrite omap_seq_nil, log_leak_nil; [reflexivity|].
    intros p Hp. mem_unfold. pw. }
  unfold drop_values. cbn [getm setm chunk_mem left right cdata].
  destruct (List.filter (bomb e) l) as [|x [|y r]]; cbn [length]; rewrite ?Hcl; eauto.
Qed.

(** After [clear], [drop_left] or [drop_right] was interrupted by a panicking destructor, the chunk
    still claims to own the elements already dropped. *)
Lemma clear_bomb c l g : Holds N c l -> length (List.filter (bomb e) l) = 1 ->
  exists c' g', clear e N c g = Panic c' g' /\ dropped g' = dropped g ++ l /\
    destroy e N c' g' = UB DeadSlot /\ as_slice e N c' g' = UB DeadSlot.
Proof.
  intros H Hb. assert (0 < length l) by (destruct l; cbn in *; lia).
  start. unfold clear. exec.
  erewrite bind_Panic.
  2: { rewrite (slots_drop_peek e N lf (rt - lf) l) by (first [lia | intros; mem_side]).
       unfold drop_values. destruct (List.filter (bomb e) l) as [|x [|y r]]; try discriminate. reflexivity. }
  eexists _, _. split; [reflexivity|]. split; [reflexivity|].
  cbn [getm setm chunk_mem left right cdata]. split.
  - unfold destroy, destroying, drop_. exec. unfold slots_drop, bind.
    rewrite (slots_peek_dead _ _ lf (rt - lf) lf); [reflexivity | lia | lia |]. mem_side.
  - unfold as_slice. exec.
    rewrite (slots_peek_dead _ _ lf (rt - lf) lf); [reflexivity | lia | lia |]. mem_side.
Qed.
Lemma drop_left_bomb c l g i : Holds N c l -> i <= length l ->
  length (List.filter (bomb e) (take i l)) = 1 ->
  exists c' g', drop_left e N i c g = Panic c' g' /\ dropped g' = dropped g ++ take i l /\
    destroy e N c' g' = UB DeadSlot.
Proof.
  intros H Hi Hb. assert (0 < i) by (destruct i; [discriminate|lia]).
  start. unfold drop_left. split_if. exec. split_if.
  erewrite bind_Panic.
  2: { rewrite (slots_drop_peek e N lf i (take i l)) by (first [lookups; lia | intros; mem_side]).
       unfold drop_values. destruct (List.filter (bomb e) (take i l)) as [|x [|y r]]; try discriminate. reflexivity. }
  eexists _, _. split; [reflexivity|]. split; [reflexivity|].
  cbn [getm setm chunk_mem left right cdata].
  unfold destroy, destroying, drop_. exec. unfold slots_drop, bind.
  rewrite (slots_peek_dead _ _ lf (rt - lf) lf); [reflexivity | lia | lia |]. mem_side.
Qed.
Lemma drop_right_bomb c l g i : Holds N c l -> i <= length l ->
  length (List.filter (bomb e) (drop i l)) = 1 ->
  exists c' g', drop_right e N i c g = Panic c' g' /\ dropped g' = dropped g ++ drop i l /\
    destroy e N c' g' = UB DeadSlot.
Proof.
  intros H Hi Hb. assert (i < length l).
  { destruct (decide (i < length l)); [assumption|]. rewrite drop_ge in Hb by lia. discriminate. }
  start. unfold drop_right. exec. split_if. split_if.
  erewrite bind_Panic.
  2: { rewrite (slots_drop_peek e N (lf + i) (rt - lf - i) (drop i l)) by (first [lookups; lia | intros; mem_side]).
       unfold drop_values. destruct (List.filter (bomb e) (drop i l)) as [|x [|y r]]; try discriminate. reflexivity. }
  eexists _, _. split; [reflexivity|]. split; [reflexivity|].
  cbn [getm setm chunk_mem left right cdata].
  unfold destroy, destroying, drop_. exec. unfold slots_drop, bind.
  rewrite (slots_peek_dead _ _ lf (rt - lf) (lf + i)); [reflexivity | lia | lia |]. mem_side.
Qed.

(** ** [from_front]/[from_back] in the release profile with a count that is too large *)
Lemma from_front_release c l g k : debug e = false -> Holds N c l -> length l < k -> k < word e ->
  (N < left c + k -> from_front e N k c g = UB OutOfBounds) /\
  (left c + k <= N -> exists c' o g', from_front e N k c g = Ret c' g' (o, tt) /\
     as_slice e N o g' = UB DeadSlot).
Proof.
  intros Hd H Hk Hw. start. unfold from_front, debug_assert. rewrite Hd. cbn [andb]. exec.
  split; intros HN.
  - unfold with_local. exec. unfold bind. unfold slots_transfer.
    replace (_ && _) with false by lia. reflexivity.
  - eexists _, _, _. split; [eapply with_local_Ret; exec|].
    unfold as_slice. exec. unfold new. cbn [left right cdata]. exec.
    rewrite (slots_peek_dead _ _ 0 (k - 0) (length l)); [reflexivity | lia | lia |]. mem_side.
Qed.
End proofs.

(** ** [insert_from] with iterators whose [len()] is wrong, or huge *)
Section wrong.
Context {A : Type} (e : env A).

(** Release profile: [self.len() + iter.len()] wraps around.  (A truthful iterator suffices, e.g.
    [0..usize::MAX] for [A = usize].) *)
Lemma insert_from_overflow (a : A) g : debug e = false -> 8 < word e ->
  let c := Chunk 0 1 (upd mem0 0 (Some a)) in
  Holds 4 c [a] /\ forall it, insert_from e 4 0 (word e - 1) (word e - 1) it c g = UB OutOfBounds.
Proof.
  intros Hd HW c. split.
  - unfold c. holds1.
  - intros it. unfold c, insert_from. exec.
    erewrite bind_Ret.
    2: { unfold uadd. replace (_ <? _) with false by lia. rewrite Hd. reflexivity. }
    exec. erewrite bind_Ret.
    2: { unfold uadd. replace (_ <? _) with false by lia. rewrite Hd. reflexivity. }
    exec.
    unfold bind, slots_move. replace (_ && _) with false by lia. reflexivity.
Qed.

(** Both profiles: [len()] answers 0 at the first call and 4 at the second. *)
Lemma insert_from_two_lens (a b : A) g : 8 < word e ->
  let c := Chunk 0 1 (upd mem0 0 (Some a)) in
  Holds 4 c [a] /\
  insert_from e 4 1 0 4 [Yield b; Yield b; Yield b; Yield b] c g = UB OutOfBounds.
Proof.
  intros HW c. split.
  - unfold c. holds1.
  - unfold c, insert_from. exec. unfold write_from_iter. exec. cbn [write_loop].
    exec. unfold bind, slot_write. replace (_ <? 4) with false by lia. reflexivity.
Qed.

(** Both profiles: [len()] answers 2 at the first call and 1 at the second: the call returns normally
    but the chunk claims an element that was never written. *)
Lemma insert_from_hole (a b : A) g : 8 < word e ->
  let c := Chunk 0 1 (upd mem0 0 (Some a)) in
  Holds 4 c [a] /\
  exists c' g', insert_from e 4 1 2 1 [Yield b] c g = Ret c' g' tt /\
    as_slice e 4 c' g' = UB DeadSlot /\ destroy e 4 c' g' = UB DeadSlot.
Proof.
  intros HW c. split.
  - unfold c. holds1.
  - eexists _, _. split.
    { unfold c, insert_from. exec. unfold write_from_iter. exec. cbn [write_loop]. exec. }
    split; [unfold as_slice | unfold destroy, destroying, drop_]; exec.
    + rewrite (slots_peek_dead e 4 ltac:(lia) _ _ 0 3 2); [reflexivity | lia | lia |]. reflexivity.
    + unfold slots_drop, bind. rewrite (slots_peek_dead e 4 ltac:(lia) _ _ 0 3 2); [reflexivity | lia | lia |]. reflexivity.
Qed.
End wrong.
