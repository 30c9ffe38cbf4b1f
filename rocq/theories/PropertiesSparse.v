(** * Properties of [SparseChunk].  Only statements; every proof is a reference to a lemma. *)
From Verif Require Import Machine Spec Prims IterSpec2 Program SpecProps ChunkExamples RingProofs
  SparseModel SparseSpec SparseProofs SparseProofs2 SparseProofs3 SparseProgram SparseLaws SparseLaws2.
From Coq Require Import Sorting.Sorted.

(** Throughout: [N < word e] ([Bitmap<N>] exists for [N <= 1024] only); [calm e]: no destructor panics.
    [SHolds N c s]: the chunk [c] of capacity [N] holds exactly the [N] cells [s]. *)

(** C38.  Every program of calls is observed to return or panic exactly as on arrays of [N] optional values
    (SparseSpec.v), and the chunks end up holding exactly these arrays. *)
Theorem C38_sparse_programs_are_array_programs :
  forall (A : Type) (e : env A) (N : nat) (p : list (cmd (sp_op0 A) (sp_op1 A) (sp_opn A) (sp_op2 A))),
  N < word e -> calm e ->
  exists X g, run (sparse_kit e N) p [] log0 = Some (X, g, s_events (srun (array_spec N) p [])) /\
    Forall2 (orel (SHolds N)) X (s_store (srun (array_spec N) p [])) /\
    dropped g = s_dropped (srun (array_spec N) p []) /\ leaked g = [].
Proof. intros A e N p HW Hc. exact (sparse_program e N Hc HW p). Qed.
Print Assumptions C38_sparse_programs_are_array_programs.

(** C38, spelled out for the single calls: [insert] and [remove] at an index below the capacity swap the cell,
    others panic and change nothing (the rejected value is dropped); [len] counts the occupied cells. *)
Theorem C38_sparse_insert_remove :
  forall (A : Type) (e : env A) (N : nat) (c : sparse A) (s : list (option A)) (g : log A) (i : nat) (v : A),
  calm e -> SHolds N c s ->
  (i < N -> exists c1 g1 c2 g2,
     sp_insert e N i v c g = Ret c1 g1 (mjoin (s !! i)) /\ SHolds N c1 (<[i := Some v]> s) /\
     sp_remove N i c g = Ret c2 g2 (mjoin (s !! i)) /\ SHolds N c2 (<[i := None]> s) /\
     dropped g1 = dropped g /\ dropped g2 = dropped g) /\
  (N <= i -> exists c1 g1 c2 g2,
     sp_insert e N i v c g = Panic c1 g1 /\ SHolds N c1 s /\ dropped g1 = dropped g ++ [v] /\
     sp_remove N i c g = Panic c2 g2 /\ SHolds N c2 s /\ dropped g2 = dropped g) /\
  sp_len N c g = Ret c g (length (values s)).
Proof. exact @sp_insert_remove. Qed.
Print Assumptions C38_sparse_insert_remove.

Definition ex_sparse_program : list (cmd (sp_op0 nat) (sp_op1 nat) (sp_opn nat) (sp_op2 nat)) :=
  [ Make PNew; Call 0 (PInsert 2 7); Call 0 (PInsert 0 8); Call 0 (PInsert 2 9); Call 0 (PInsert 4 1);
    Call 0 PIndices; Make (PFromIter [Yield (Some 5); Yield None; Yield (Some 6)]);
    Make (PFromIter [Yield (Some 5); Yield None; Yield None; Yield None; Yield (Some 6)]);
    Spawn 1 (PClone (fun k a => if k =? 0 then Some (a + 10) else None));
    Spawn 1 (PClone (fun _ a => Some (a + 10))); Call 4 (PIterMutAssign (fun k => k)); Call 4 PPop;
    Call 1 (PAssign 1 3); Call2 0 1 (PEq Nat.eqb); Call 0 (PRemove 0); Call 0 PFirstIndex;
    Call 1 (POptionDrain 2); Call 1 (POptionDrain 5); Kill 0; Kill 1; Kill 4 ].
Example C38_example : 4 < word rel /\ calm rel /\
  s_events (srun (array_spec 4) ex_sparse_program []) =
    [ Done; Returned (POpt None); Returned (POpt None); Returned (POpt (Some 7)); Panicked;
      Returned (PNats [0; 2]); Done; Panicked; Panicked; Done; Returned PUnit; Returned (POpt (Some 0));
      Panicked; Returned (PBool false); Returned (POpt (Some 8)); Returned (PONat (Some 2));
      Returned (PCells [Some (Some 5); Some None]);
      Returned (PCells [Some None; Some None; Some (Some 6); Some None; None]); Done; Done; Done ] /\
  s_dropped (srun (array_spec 4) ex_sparse_program []) = [1; 6; 5; 15; 15; 16; 3; 9; 1].
Proof. split; [cbn; lia|]. split; [exact rel_calm|]. split; vm_compute; reflexivity. Qed.

(** C39.  No program reaches undefined behaviour, hangs or aborts: no read of an unoccupied slot, no slot
    read, dropped or overwritten twice. *)
Theorem C39_sparse_programs_are_memory_safe :
  forall (A : Type) (e : env A) (N : nat) (p : list (cmd (sp_op0 A) (sp_op1 A) (sp_opn A) (sp_op2 A))),
  N < word e -> calm e -> run (sparse_kit e N) p [] log0 <> None.
Proof.
  intros A e N p HW Hc. destruct (sparse_program e N Hc HW p) as (X & g & E & _). rewrite E. discriminate.
Qed.
Print Assumptions C39_sparse_programs_are_memory_safe.
(** Every value handed over is in a live chunk, was handed back or was dropped - exactly once; nothing leaks. *)
Theorem C39_sparse_values_dropped_once :
  forall (A : Type) (e : env A) (N : nat) (p : list (cmd (sp_op0 A) (sp_op1 A) (sp_opn A) (sp_op2 A))),
  N < word e -> calm e ->
  exists X g evs, run (sparse_kit e N) p [] log0 = Some (X, g, evs) /\
    Permutation (s_given (srun (array_spec N) p []))
      (live (array_spec N) (s_store (srun (array_spec N) p [])) ++ returned (array_spec N) evs ++ dropped g) /\
    leaked g = [].
Proof. intros A e N p HW Hc. exact (sparse_conservation e N Hc HW p). Qed.
Print Assumptions C39_sparse_values_dropped_once.
(** A destructor that panics while the chunk is destroyed: the values are dropped in order of their indices up
    to and including the first one that panics, each once; the others are leaked (not dropped twice). *)
Theorem C39_sparse_destructor_panics :
  forall (A : Type) (e : env A) (N : nat) (c : sparse A) (s : list (option A)) (g : log A),
  SHolds N c s ->
  exists c' g', sp_destroy e N c g =
      (if forallb (fun a => negb (bomb e a)) (values s) then Ret c' g' tt else Panic c' g') /\
    dropped g' = dropped g ++ until_bomb e (values s) /\
    leaked g' = leaked g ++ drop (length (until_bomb e (values s))) (values s).
Proof. intros A e N c s g. exact (sp_destroy_bombs e N c s g). Qed.
Print Assumptions C39_sparse_destructor_panics.
(** ... and while a value is overwritten through an index: the new value is in place. *)
Theorem C39_sparse_assign_panics :
  forall (A : Type) (e : env A) (N : nat) (c : sparse A) (s : list (option A)) (g : log A) (i : nat) (v a : A),
  SHolds N c s -> s !! i = Some (Some a) -> bomb e a = true ->
  exists c' g', sp_assign e N i v c g = Panic c' g' /\ SHolds N c' (<[i := Some v]> s) /\
    dropped g' = dropped g ++ [a] /\ leaked g' = leaked g.
Proof. intros A e N c s g i v a. exact (sp_assign_bomb e N c s g i v a). Qed.
Print Assumptions C39_sparse_assign_panics.
Example C39_example :
  match (sp_insert bombed 4 0 5 ;;; sp_insert bombed 4 1 13 ;;; sp_insert bombed 4 3 6) sparse0 log0 with
  | Ret c g _ =>
      match sp_destroy bombed 4 c g with Panic _ g' => dropped g' = [5; 13] /\ leaked g' = [6] | _ => False end
  | _ => False
  end.
Proof. vm_compute. auto. Qed.

(** C40.  [entries s]: the occupied cells with their indices, increasing. *)
Theorem C40_entries_meaning :
  forall (A : Type) (s : list (option A)),
  (forall i a, In (i, a) (entries s) <-> s !! i = Some (Some a)) /\
  StronglySorted lt (map fst (entries s)) /\ Forall (fun i => i < length s) (map fst (entries s)).
Proof. intros A s. split; [exact (entries_in s)|exact (entries_sorted s)]. Qed.
Print Assumptions C40_entries_meaning.
(** A client calls [next] any number of times, also past the end, asking for [size_hint] before each call.
    Items of [iter], [iter_mut], [entries] (and of [indices]: their first components) are the entries; the
    chunk is unchanged. *)
Theorem C40_sparse_iterators :
  forall (A : Type) (e : env A) (N n : nat) (c : sparse A) (s : list (option A)) (g : log A),
  N < word e -> SHolds N c s ->
  (exists k g', pull_n (it_next N) (it_size_hint N) n (c, 0) g =
     Ret (c, k) g' (serves (fun _ => (0, Some N)) n (entries s)) /\ dropped g' = dropped g /\ leaked g' = leaked g) /\
  (exists ks g', pull_n (en_next N) (it_size_hint N) n (c, (0, 0)) g =
     Ret (c, ks) g' (serves (fun _ => (0, Some N)) n (entries s)) /\ dropped g' = dropped g /\ leaked g' = leaked g) /\
  (exists b g', pull_n (im_next N) (it_size_hint N) n (c, smap c) g =
     Ret (c, b) g' (serves (fun _ => (0, Some N)) n (entries s)) /\ dropped g' = dropped g /\ leaked g' = leaked g) /\
  sp_indices N c g = Ret c g (map fst (entries s)) /\
  sp_first_index N c g = Ret c g (head (map fst (entries s))) /\
  valid_hint (0, Some N) (length (entries s)).
Proof. exact @sparse_iterators. Qed.
Print Assumptions C40_sparse_iterators.
(** [drain]/[into_iter] move out the values in order, [option_iter], [option_iter_mut], [option_drain] give
    the [N] cells; [size_hint] is exact all the way; the draining iterators remove what they deliver, and what
    is left is still in the chunk (and dropped with it). *)
Theorem C40_sparse_draining_iterators :
  forall (A : Type) (e : env A) (N n : nat) (c : sparse A) (s : list (option A)) (g : log A),
  N < word e -> SHolds N c s ->
  (exists c' g', pull_n (dr_next N) (dr_size_hint N) n c g =
     Ret c' g' (serves (fun n => (n, Some n)) n (values s)) /\ dropped g' = dropped g /\ leaked g' = leaked g /\
     exists s', SHolds N c' s' /\ values s' = drop n (values s)) /\
  (exists c' k g', pull_n (od_next e N) (oi_size_hint e N) n (c, 0) g =
     Ret (c', k) g' (serves (fun n => (n, Some n)) n s) /\ dropped g' = dropped g /\ leaked g' = leaked g /\
     exists s', SHolds N c' s' /\ values s' = values (drop n s)) /\
  (exists k g', pull_n (oi_next e N) (oi_size_hint e N) n (c, 0) g =
     Ret (c, k) g' (serves (fun n => (n, Some n)) n s) /\ dropped g' = dropped g /\ leaked g' = leaked g) /\
  (exists k g', pull_n (om_next e N) (oi_size_hint e N) n (c, 0) g =
     Ret (c, k) g' (serves (fun n => (n, Some n)) n (imap (fun j x => (fun a => (j, a)) <$> x) s)) /\
     dropped g' = dropped g /\ leaked g' = leaked g).
Proof. exact @sparse_draining. Qed.
Print Assumptions C40_sparse_draining_iterators.
(** What a served client gets: the first [n] items in order, then [None] for ever. *)
Theorem C40_served_items :
  forall (I : Type) (hint : nat -> nat * option nat) (n : nat) (l : list I),
  map snd (serves hint n l) = map Some (take n l) ++ replicate (n - length l) None.
Proof. intros I hint n l. exact (serves_items hint n l). Qed.
Print Assumptions C40_served_items.
Example C40_example :
  match (sp_insert dbg 4 3 5 ;;; sp_insert dbg 4 1 6) sparse0 log0 with
  | Ret c g _ =>
      match pull_n (it_next 4) (it_size_hint 4) 3 (c, 0) g, pull_n (od_next dbg 4) (oi_size_hint dbg 4) 5 (c, 0) g with
      | Ret _ _ r, Ret _ _ r' =>
          map snd r = [Some (1, 6); Some (3, 5); None] /\
          r' = [((4, Some 4), Some None); ((3, Some 3), Some (Some 6)); ((2, Some 2), Some None);
                ((1, Some 1), Some (Some 5)); ((0, Some 0), None)]
      | _, _ => False
      end
  | _ => False
  end.
Proof. vm_compute. auto. Qed.

(** C41.  For an [eqA] that decides equality, two chunks are equal iff
    all cells are. *)
Theorem C41_sparse_equality :
  forall (A : Type) (N : nat) (eqA : A -> A -> bool) (c1 c2 : sparse A) (s1 s2 : list (option A)) (g : log A),
  (forall a b, eqA a b = true <-> a = b) -> SHolds N c1 s1 -> SHolds N c2 s2 ->
  exists b, sp_eq N eqA (c1, c2) g = Ret (c1, c2) g b /\ (b = true <-> s1 = s2).
Proof. exact @sparse_equality. Qed.
Print Assumptions C41_sparse_equality.
(** For any [eqA] whatsoever: same occupied indices, and the values are pairwise equal. *)
Theorem C41_sparse_equality_any :
  forall (A : Type) (N : nat) (eqA : A -> A -> bool) (c1 c2 : sparse A) (s1 s2 : list (option A)) (g : log A),
  SHolds N c1 s1 -> SHolds N c2 s2 ->
  exists b, sp_eq N eqA (c1, c2) g = Ret (c1, c2) g b /\
    (b = true <-> forall i, match mjoin (s1 !! i), mjoin (s2 !! i) with
                            | Some a1, Some a2 => eqA a1 a2 = true | None, None => True | _, _ => False end).
Proof. exact @sparse_equality_any. Qed.
Print Assumptions C41_sparse_equality_any.
(** Comparison with a [BTreeMap]/[HashMap] whose keys are [keys] (any numbers, also beyond [N]) and whose
    lookup is [other]: true iff both hold the same entries. *)
Theorem C41_sparse_equality_with_map :
  forall (A : Type) (N : nat) (eqA : A -> A -> bool) (keys : list nat) (other : nat -> option A)
    (c : sparse A) (s : list (option A)) (g : log A),
  (forall a b, eqA a b = true <-> a = b) -> SHolds N c s ->
  NoDup keys -> (forall i, In i keys <-> other i <> None) ->
  exists b, sp_eq_map N eqA (length keys) other c g = Ret c g b /\
    (b = true <-> forall i, other i = mjoin (s !! i)).
Proof. exact @sparse_equality_map. Qed.
Print Assumptions C41_sparse_equality_with_map.
Example C41_example :
  match (sp_insert dbg 4 3 5 ;;; sp_insert dbg 4 1 6) sparse0 log0 with
  | Ret c g _ =>
      sp_eq_map 4 Nat.eqb 2 (fun i => if i =? 1 then Some 6 else if i =? 3 then Some 5 else None) c g = Ret c g true /\
      sp_eq_map 4 Nat.eqb 2 (fun i => if i =? 1 then Some 6 else if i =? 7 then Some 5 else None) c g = Ret c g false /\
      sp_eq 4 Nat.eqb (c, c) g = Ret (c, c) g true /\ sp_eq 4 Nat.eqb (c, sparse0) g = Ret (c, sparse0) g false
  | _ => False
  end.
Proof. vm_compute. auto. Qed.

(** C42.  [xs] are the items of the iterator.  If no value has a position beyond the capacity, value number [i]
    is at index [i] afterwards. *)
Theorem C42_sparse_from_iter :
  forall (A : Type) (e : env A) (N : nat) (xs : list (option A)) (g : log A),
  calm e -> (forall i v, xs !! i = Some (Some v) -> i < N) ->
  exists c g' s, sp_from_iter e N (map Yield xs) tt g = Ret tt g' (c, tt) /\ SHolds N c s /\
    (forall i, i < N -> s !! i = Some (mjoin (xs !! i))) /\ dropped g' = dropped g /\ leaked g' = leaked g.
Proof. exact @sparse_from_iter. Qed.
Print Assumptions C42_sparse_from_iter.
(** Otherwise, or if the iterator itself panics, it panics, and everything taken so far is dropped once. *)
Theorem C42_sparse_from_iter_panics :
  forall (A : Type) (e : env A) (N : nat) (pre : list (option A)) (x : ev (option A)) (rest : list (ev (option A))) (g : log A),
  calm e -> (forall i v, pre !! i = Some (Some v) -> i < N) ->
  (x = Boom \/ N <= length pre /\ exists v, x = Yield (Some v)) ->
  exists g' ds, sp_from_iter e N (map Yield pre ++ x :: rest) tt g = Panic tt g' /\
    dropped g' = dropped g ++ ds /\ leaked g' = leaked g /\
    Permutation ds (omap (fun x => x) (pre ++ match x with Yield y => [y] | Boom => [] end)).
Proof. exact @sparse_from_iter_panics. Qed.
Print Assumptions C42_sparse_from_iter_panics.
Example C42_example :
  match sp_from_iter dbg 2 [Yield (Some 5); Yield None; Yield None] tt log0,
        sp_from_iter dbg 2 [Yield (Some 5); Yield None; Yield (Some 6); Yield (Some 7)] tt log0 with
  | Ret _ _ (c, _), Panic _ g => sp_len 2 c log0 = Ret c log0 1 /\ dropped g = [6; 5]
  | _, _ => False
  end.
Proof. vm_compute. auto. Qed.

(** C50, SparseChunk part.  The slot contains any bit pattern before ([b]; the element slots are
    uninitialised and hold no value). *)
Theorem C50_sparse_pool_constructors :
  forall (A : Type) (e : env A) (N : nat) (cl : nat -> A -> option A) (b : bitmap) (c : sparse A)
    (s : list (option A)) (g : log A),
  N < word e -> calm e -> SHolds N c s ->
  (exists c', sp_default_uninit (Sparse b mem0) g = Ret c' g tt /\ SHolds N c' (no_cells N)) /\
  match sp_clone e N cl c g with
  | Ret _ _ (c1, _) => exists s' c2 g2, SHolds N c1 s' /\
      sp_clone_uninit N cl (Sparse b mem0, c) g = Ret (c2, c) g2 tt /\ SHolds N c2 s' /\
      dropped g2 = dropped g /\ leaked g2 = leaked g
  | Panic _ _ => exists c2 g2, sp_clone_uninit N cl (Sparse b mem0, c) g = Panic (c2, c) g2 /\
      dropped g2 = dropped g /\ leaked g2 = leaked g
  | _ => False
  end.
Proof. exact @sparse_pool. Qed.
Print Assumptions C50_sparse_pool_constructors.
Example C50_sparse_example :
  match (sp_insert dbg 4 3 5 ;;; sp_insert dbg 4 1 6) sparse0 log0 with
  | Ret c g _ =>
      match sp_clone_uninit 4 (fun _ a => Some a) (Sparse (fun i => i =? 2) mem0, c) g with
      | Ret (c2, _) _ _ => sp_indices 4 c2 log0 = Ret c2 log0 [1; 3] /\ sp_get 4 3 c2 log0 = Ret c2 log0 (Some 5)
      | _ => False
      end
  | _ => False
  end.
Proof. vm_compute. auto. Qed.
