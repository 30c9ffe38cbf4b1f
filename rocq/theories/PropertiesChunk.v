(** * Properties of [Chunk].  Only statements; every proof is a reference to a lemma. *)
From Verif Require Import Machine Spec Prims IterSpec Program SpecProps
  ChunkModel ChunkProofs ChunkProofs2 ChunkProofs3 ChunkProofs4 ChunkProofs5 ChunkProgram
  ChunkExamples ChunkLaws ChunkIter.
From Verif Require ChunkOverflow.
From Coq Require Import Sorting.Sorted.

(** Throughout: [N + N < word e] holds for every chunk of a type of non-zero size (an array never
    exceeds [isize::MAX] bytes).  [calm e]: no destructor panics.  [Holds N c l]: the chunk [c] of
    capacity [N] has the contents [l].  [agrees (Holds N) eq g (m c g) s]: executed from log [g] the
    call [m] does what [s] says ([SRet contents result dropped] or [SPanic contents dropped leaked]). *)

(** C01.  For every program in which the arguments are legal, every command is observed to return or
    panic exactly as on lists, and the chunks end up holding exactly the lists. *)
Theorem C01_chunk_programs_are_list_programs :
  forall (A : Type) (e : env A) (N : nat) (p : list (cmd (chunk_op0 A) (chunk_op1 A) (chunk_opn A) (chunk_op2 A))),
  N + N < word e -> calm e -> all_legal (chunk_spec e N) p [] ->
  exists X g, run (chunk_kit e N) p [] log0 = Some (X, g, s_events (srun (chunk_spec e N) p [])) /\
    Forall2 (orel (Holds N)) X (s_store (srun (chunk_spec e N) p [])) /\
    dropped g = s_dropped (srun (chunk_spec e N) p []) /\
    Permutation (leaked g) (s_leaked (srun (chunk_spec e N) p [])).
Proof. intros A e N p HW Hc. exact (chunk_program e N HW Hc p). Qed.
Print Assumptions C01_chunk_programs_are_list_programs.

(** C02.  No such program reaches undefined behaviour, hangs or aborts. *)
Theorem C02_chunk_programs_are_memory_safe :
  forall (A : Type) (e : env A) (N : nat) (p : list (cmd (chunk_op0 A) (chunk_op1 A) (chunk_opn A) (chunk_op2 A))),
  N + N < word e -> calm e -> all_legal (chunk_spec e N) p [] ->
  run (chunk_kit e N) p [] log0 <> None.
Proof.
  intros A e N p HW Hc HL. destruct (chunk_program e N HW Hc p HL) as (X & g & E & _).
  rewrite E. discriminate.
Qed.
Print Assumptions C02_chunk_programs_are_memory_safe.

(** C03.  Every value handed over is in a live chunk, was handed back, dropped or leaked, exactly once;
    nothing is leaked unless an iterator given to insert_from delivers fewer items than it announced. *)
Theorem C03_chunk_values_dropped_once :
  forall (A : Type) (e : env A) (N : nat) (p : list (cmd (chunk_op0 A) (chunk_op1 A) (chunk_opn A) (chunk_op2 A))),
  N + N < word e -> calm e -> all_legal (chunk_spec e N) p [] ->
  exists X g evs, run (chunk_kit e N) p [] log0 = Some (X, g, evs) /\
    Permutation (s_given (srun (chunk_spec e N) p []))
      (live (chunk_spec e N) (s_store (srun (chunk_spec e N) p [])) ++
       returned (chunk_spec e N) evs ++ dropped g ++ leaked g) /\
    (Forall truthful p -> leaked g = []).
Proof. intros A e N p HW Hc. exact (chunk_conservation e N HW Hc p). Qed.
Print Assumptions C03_chunk_values_dropped_once.

(** A program that wraps, splits, appends, panics and carries on; with its events. *)
Definition ex_program : list (cmd (chunk_op0 nat) (chunk_op1 nat) (chunk_opn nat) (chunk_op2 nat)) :=
  [ Make CNew; Call 0 (CPushBack 1); Call 0 (CPushFront 2); Call 0 (CInsertFrom 1 2 [Yield 7; Yield 8]);
    Call 0 (CPushBack 9); Spawn 0 (CSplitOff 3); Call 1 (CPushFront 5); Call2 1 0 CAppend;
    Spawn 0 (CFromFront 1); Call2 1 2 (CDrainFromBack 1); Call 1 CAsSlice; Kill 0; Kill 1; Kill 2 ].
Example C01_example : all_legal (chunk_spec rel 4) ex_program [] /\ Forall truthful ex_program /\
  4 + 4 < word rel /\ calm rel /\
  s_events (srun (chunk_spec rel 4) ex_program []) =
    [ Done; Returned RUnit; Returned RUnit; Returned RUnit; Panicked; Done; Returned RUnit; Panicked;
      Done; Returned RUnit; Returned (RRefs [2; 5; 1]); Done; Done; Done ].
Proof.
  split; [vm_compute; repeat split; lia|]. split; [repeat constructor|].
  split; [vm_compute; lia|]. split; [apply rel_calm|]. vm_compute. reflexivity.
Qed.

(** C04. *)
Theorem C04_chunk_push_pop :
  forall (A : Type) (e : env A) (N : nat) (c : chunk A) (l : list A) (g : log A) (v : A),
  N + N < word e -> calm e -> Holds N c l ->
  agrees (Holds N) eq g (push_front e N v c g) (if length l <? N then SRet (v :: l) tt [] else SPanic l [v] []) /\
  agrees (Holds N) eq g (push_back e N v c g) (if length l <? N then SRet (l ++ [v]) tt [] else SPanic l [v] []) /\
  agrees (Holds N) eq g (pop_front e N c g) (match l with a :: l' => SRet l' a [] | [] => SPanic [] [] [] end) /\
  (forall l' a, l = l' ++ [a] -> agrees (Holds N) eq g (pop_back e N c g) (SRet l' a [])) /\
  (l = [] -> agrees (Holds N) eq g (pop_back e N c g) (SPanic [] [] [])).
Proof.
  intros A e N c l g v HW Hc H.
  split; [exact (push_front_ok e N HW Hc c l g v H)|].
  split; [exact (push_back_ok e N HW Hc c l g v H)|].
  split; [pose proof (pop_front_ok e N HW c l g H) as P; destruct l; exact P|].
  split; intros; subst l; pose proof (pop_back_ok e N HW c _ g H) as P; [|exact P].
  rewrite (bl_pop_back_snoc e N HW) in P. exact P.
Qed.
Print Assumptions C04_chunk_push_pop.
Example C04_example : Holds 4 ex_chunk [3; 1; 2] /\ left ex_chunk = 1 /\ right ex_chunk = 4.
Proof. split; [exact ex_chunk_holds|split; reflexivity]. Qed.

(** C05. *)
Theorem C05_chunk_insert_remove_set :
  forall (A : Type) (e : env A) (N : nat) (c : chunk A) (l : list A) (g : log A) (v : A) (i : nat),
  N + N < word e -> calm e -> Holds N c l ->
  agrees (Holds N) eq g (insert e N i v c g)
    (if (length l <? N) && (i <=? length l) then SRet (take i l ++ v :: drop i l) tt [] else SPanic l [v] []) /\
  agrees (Holds N) eq g (remove e N i c g)
    (match l !! i with Some a => SRet (take i l ++ drop (S i) l) a [] | None => SPanic l [] [] end) /\
  agrees (Holds N) eq g (set e N i v c g)
    (match l !! i with Some a => SRet (take i l ++ v :: drop (S i) l) a [] | None => SPanic l [v] [] end) /\
  agrees (Holds N) eq g (assign e N i v c g)
    (match l !! i with Some a => SRet (take i l ++ v :: drop (S i) l) tt [a] | None => SPanic l [v] [] end) /\
  agrees (Holds N) eq g (index e N i c g)
    (match l !! i with Some a => SRet l a [] | None => SPanic l [] [] end).
Proof.
  intros A e N c l g v i HW Hc H.
  exact (conj (insert_ok e N HW Hc c l g i v H) (conj (remove_ok e N HW c l g i H)
        (conj (set_ok e N HW Hc c l g i v H) (conj (assign_ok e N HW Hc c l g i v H) (index_ok e N HW c l g i H))))).
Qed.
Print Assumptions C05_chunk_insert_remove_set.
Example C05_example : exists c g, insert dbg 4 1 9 ex_chunk log0 = Ret c g tt /\
  as_slice dbg 4 c g = Ret c g [3; 9; 1; 2].
Proof. eexists _, _. split; vm_compute; reflexivity. Qed.

(** C06. *)
Theorem C06_chunk_insert_from_truthful :
  forall (A : Type) (e : env A) (N : nat) (c : chunk A) (l xs : list A) (g : log A) (i : nat),
  N + N < word e -> Holds N c l -> length xs < word e -> length l + length xs < word e \/ debug e = true ->
  agrees (Holds N) eq g (insert_from e N i (length xs) (length xs) (map Yield xs) c g)
    (if (length l + length xs <=? N) && (i <=? length l)
     then SRet (take i l ++ xs ++ drop i l) tt [] else SPanic l [] []).
Proof. intros A e N c l xs g i HW. exact (insert_from_truthful e N HW c l g i xs). Qed.
Print Assumptions C06_chunk_insert_from_truthful.
Example C06_example : exists c g, insert_from rel 5 2 2 2 [Yield 8; Yield 9]
    (Chunk 1 4 (fun p => match p with 1 => Some 3 | 2 => Some 1 | 3 => Some 2 | _ => None end)) log0 = Ret c g tt /\
  as_slice rel 5 c g = Ret c g [3; 1; 8; 9; 2].
Proof. eexists _, _. split; vm_compute; reflexivity. Qed.

(** C07.  The iterator announces [n] items (twice) and then does anything: [yields n it] are the items it
    delivers before it ends, panics, or has delivered [n].  If these are fewer than [n] the call panics and
    the chunk is empty; what is lost is leaked: the old contents and the items delivered. *)
Theorem C07_chunk_insert_from_misbehaving :
  forall (A : Type) (e : env A) (N : nat) (c : chunk A) (l : list A) (g : log A) (i n : nat) (it : list (ev A)),
  N + N < word e -> Holds N c l -> n < word e -> length l + n < word e \/ debug e = true ->
  agrees (Holds N) eq g (insert_from e N i n n it c g)
    (if (length l + n <=? N) && (i <=? length l) then
       if length (yields n it) =? n
       then SRet (take i l ++ yields n it ++ drop i l) tt []
       else SPanic [] [] (l ++ yields n it)
     else SPanic l [] []).
Proof. intros A e N c l g i n it HW. exact (insert_from_ok e N HW c l g i n it). Qed.
Print Assumptions C07_chunk_insert_from_misbehaving.
Example C07_example : exists c g, insert_from rel 6 1 3 3 [Yield 8; Boom; Yield 9]
    (Chunk 1 4 (fun p => match p with 1 => Some 3 | 2 => Some 1 | 3 => Some 2 | _ => None end)) log0 = Panic c g /\
  as_slice rel 6 c g = Ret c g [] /\ Permutation (leaked g) [3; 1; 2; 8] /\ dropped g = [].
Proof.
  eexists _, _. split; [vm_compute; reflexivity|]. split; [vm_compute; reflexivity|].
  split; [|reflexivity]. change (Permutation [3; 8; 1; 2] [3; 1; 2; 8]).
  apply perm_skip. apply (Permutation_cons_append [1;2] 8).
Qed.

(** C08, full statement: for all [c l g i n1 n2 it], if [Holds N c l] then [insert_from e N i n1 n2 it c g]
    is not [UB] and leaves a chunk that can be read and destroyed without [UB].  It is false of the code:
    (1) in a release build a length near [usize::MAX] makes the capacity check wrap;
    (2) an iterator whose [len()] grows between the two calls writes beyond the capacity;
    (3) one whose [len()] shrinks leaves a hole of uninitialised slots inside the chunk. *)
Theorem C08_chunk_insert_from_any_iterator_refuted :
  forall (A : Type) (e : env A) (a b : A) (g : log A), 8 < word e ->
  let c := Chunk 0 1 (upd mem0 0 (Some a)) in
  Holds 4 c [a] /\
  (debug e = false -> forall it, insert_from e 4 0 (word e - 1) (word e - 1) it c g = UB OutOfBounds) /\
  insert_from e 4 1 0 4 [Yield b; Yield b; Yield b; Yield b] c g = UB OutOfBounds /\
  exists c' g', insert_from e 4 1 2 1 [Yield b] c g = Ret c' g' tt /\
    as_slice e 4 c' g' = UB DeadSlot /\ destroy e 4 c' g' = UB DeadSlot.
Proof.
  intros A e a b g HW c. destruct (insert_from_two_lens e a b g HW) as [H1 H2].
  split; [exact H1|]. split; [intros Hd; exact (proj2 (insert_from_overflow e a g Hd HW))|].
  split; [exact H2|]. exact (proj2 (insert_from_hole e a b g HW)).
Qed.
Print Assumptions C08_chunk_insert_from_any_iterator_refuted.
(** What does hold: with the same length at both calls (and no overflow of the sum) the outcome is the
    one of C07, in particular no undefined behaviour, and every value is accounted for. *)
Theorem C08_chunk_insert_from_any_iterator_partial :
  forall (A : Type) (e : env A) (N : nat) (c : chunk A) (l : list A) (g : log A) (i n : nat) (it : list (ev A)),
  N + N < word e -> calm e -> Holds N c l -> n < word e -> length l + n < word e \/ debug e = true ->
  exists c' l' g', Holds N c' l' /\ destroy e N c' g' = Ret (Chunk (left c') (right c') mem0) (log_drop l' g') tt /\
    (insert_from e N i n n it c g = Ret c' g' tt \/ insert_from e N i n n it c g = Panic c' g').
Proof. intros A e N c l g i n it HW Hc. exact (insert_from_safe e N HW c l g i n it Hc). Qed.
Print Assumptions C08_chunk_insert_from_any_iterator_partial.

(** Exactly what happens when [len()] says [n1] before the gap is made and [n2] when the items are written: [y] are the
    items taken.  Fewer than [n2]: a panic that empties the chunk and leaks everything.  As many as [n2], and
    [n2 < n1]: the chunk has a hole, reading or destroying it is undefined behaviour.  [n1 <= n2]: the elements behind
    the gap are overwritten and leaked.  More items than slots behind the position: out of bounds.  (Between the two
    last cases it depends on where the elements are in the buffer: the next theorem.) *)
Theorem C08_chunk_insert_from_two_lengths_partial :
  forall (A : Type) (e : env A) (N : nat) (c : chunk A) (l : list A) (g : log A) (i n1 n2 : nat) (it : list (ev A)),
  N + N < word e -> Holds N c l -> length l + n1 <= N -> i <= length l -> N + n2 < word e ->
  let y := yields n2 it in
  (length y <= n1 + (length l - i) ->
    (length y < n2 -> exists c' g' k, insert_from e N i n1 n2 it c g = Panic c' g' /\ Holds N c' [] /\
       dropped g' = dropped g /\ leaked g' = leaked g ++ k /\ Permutation k (l ++ y)) /\
    (length y = n2 -> n2 < n1 -> exists c' g', insert_from e N i n1 n2 it c g = Ret c' g' tt /\
       forall g, as_slice e N c' g = UB DeadSlot /\ destroy e N c' g = UB DeadSlot) /\
    (length y = n2 -> n1 <= n2 -> exists c' g', insert_from e N i n1 n2 it c g = Ret c' g' tt /\
       Holds N c' (take i l ++ y ++ drop (i + (n2 - n1)) l) /\
       dropped g' = dropped g /\ leaked g' = leaked g ++ take (n2 - n1) (drop i l))) /\
  (N - i < length y -> insert_from e N i n1 n2 it c g = UB OutOfBounds).
Proof.
  intros A e N c l g i n1 n2 it HW H HN Hi Hw y. split.
  - exact (insert_from_two_lengths e N HW c l g i n1 n2 it H HN Hi Hw).
  - exact (insert_from_too_many e N HW c l g i n1 n2 it H HN Hi Hw).
Qed.
Print Assumptions C08_chunk_insert_from_two_lengths_partial.
(** Nothing left open: for a given chunk, position and first answer [n1] there is a [room] -- the slots from the gap to
    the end of the buffer, at least the gap and the elements behind it -- such that for every second answer [n2] and every
    iterator the outcome is undefined exactly when more than [room] items come; otherwise it is one of the three outcomes
    above, where items beyond the elements behind the gap land outside the chunk and are leaked when it is destroyed. *)
Theorem C08_chunk_insert_from_two_lengths_exact_partial :
  forall (A : Type) (e : env A) (N : nat) (c : chunk A) (l : list A) (i n1 : nat),
  N + N < word e -> calm e -> Holds N c l -> length l + n1 <= N -> i <= length l ->
  exists room, n1 + (length l - i) <= room <= N - i /\
  forall (n2 : nat) (it : list (ev A)) (g : log A), N + n2 < word e ->
  let y := yields n2 it in
  let r := insert_from e N i n1 n2 it c g in
  (r = UB OutOfBounds <-> room < length y) /\
  (length y <= room ->
    (length y < n2 -> exists c' g' k, r = Panic c' g' /\ Holds N c' [] /\
       dropped g' = dropped g /\ leaked g' = leaked g ++ k /\ Permutation k (l ++ y)) /\
    (length y = n2 -> n2 < n1 -> exists c' g', r = Ret c' g' tt /\
       forall g, as_slice e N c' g = UB DeadSlot /\ destroy e N c' g = UB DeadSlot) /\
    (length y = n2 -> n1 <= n2 ->
       let l' := take i l ++ take (n1 + (length l - i)) y ++ drop (i + (n2 - n1)) l in
       exists c' g' c'' g'', r = Ret c' g' tt /\ as_slice e N c' g' = Ret c' g' l' /\
         destroy e N c' g' = Ret c'' g'' tt /\ dropped g'' = dropped g ++ l' /\
         leaked g'' = leaked g ++ take (n2 - n1) (drop i l) ++ drop (n1 + (length l - i)) y)).
Proof.
  intros A e N c l i n1 HW Hc H HN Hi.
  destruct (insert_from_exact e N HW c l i n1 Hc H HN Hi) as (room & Hr & P).
  exists room. split; [exact Hr|]. intros n2 it g Hw y r.
  destruct (P n2 it g Hw) as (P1 & P2 & P3 & P4). fold y in P1, P2, P3, P4. fold r in P1, P2, P3, P4.
  pose proof (yields_length n2 it) as Hy. fold y in Hy.
  split.
  - split; [|exact P1]. intros E. destruct (Nat.lt_ge_cases room (length y)) as [|Hle]; [assumption|exfalso].
    destruct (Nat.lt_ge_cases (length y) n2) as [Hlt|Hge].
    + destruct (P2 Hle Hlt) as (c' & g' & k & E' & _). congruence.
    + assert (length y = n2) as Heq by lia. destruct (Nat.lt_ge_cases n2 n1) as [Hlt|Hge1].
      * destruct (P3 Hle Heq Hlt) as (c' & g' & E' & _). congruence.
      * destruct (P4 Hle Heq Hge1) as (c' & g' & E' & _). congruence.
  - intros Hle. split; [exact (P2 Hle)|]. split; [exact (P3 Hle)|].
    intros Heq Hn. destruct (P4 Hle Heq Hn) as (c' & g' & E' & E2 & c'' & g'' & k & E3 & D & L & ->).
    exists c', g', c'', g''. auto.
Qed.
Print Assumptions C08_chunk_insert_from_two_lengths_exact_partial.
(** Announcing 0 and then 1 in the middle of [3; 1; 2]. *)
Example C08_example :
  match insert_from dbg 4 1 0 1 [Yield 9; Yield 8] ex_chunk log0 with
  | Ret c g _ => as_slice dbg 4 c g = Ret c g [3; 9; 2] /\ leaked g = [1]
  | _ => False
  end /\ insert_from dbg 4 2 1 3 [Yield 9; Yield 8; Yield 7] ex_chunk log0 = UB OutOfBounds.
Proof. vm_compute. auto. Qed.
(** Announcing 0 and then 3 before the last of two elements at the start of the buffer: [room] is 3, one item replaces the
    element, two land outside; four items do not fit. *)
Example C08_exact_example :
  let c := Chunk 0 2 (upd (upd mem0 0 (Some 5)) 1 (Some 6)) in
  match insert_from dbg 4 1 0 3 [Yield 9; Yield 8; Yield 7] c log0 with
  | Ret c g _ => as_slice dbg 4 c g = Ret c g [5; 9] /\
      match destroy dbg 4 c g with Ret _ g _ => dropped g = [5; 9] /\ leaked g = [6; 8; 7] | _ => False end
  | _ => False
  end /\ insert_from dbg 4 1 0 4 [Yield 9; Yield 8; Yield 7; Yield 1] c log0 = UB OutOfBounds.
Proof. vm_compute. auto. Qed.

(** In a release build, when the chunk's length and the length announced (at both calls) overflow [usize]: the capacity check
    passes, and the call never returns: out of bounds, or a panic that leaves the chunk empty and drops nothing. *)
Theorem C08_chunk_insert_from_overflow_partial :
  forall (A : Type) (e : env A) (N : nat) (c : chunk A) (l : list A) (g : log A) (i n : nat) (it : list (ev A)),
  N + N < word e -> debug e = false -> Holds N c l -> n < word e -> word e <= length l + n ->
  (length l < i -> insert_from e N i n n it c g = Panic c g) /\
  (i <= length l -> insert_from e N i n n it c g = UB OutOfBounds \/
     exists c' g', insert_from e N i n n it c g = Panic c' g' /\ Holds N c' [] /\ dropped g' = dropped g).
Proof. intros A e N c l g i n it HW HD. exact (ChunkOverflow.insert_from_overflow e N HW HD c l g i n it). Qed.
Print Assumptions C08_chunk_insert_from_overflow_partial.
Example C08_overflow_example :
  let c := Chunk 2 5 (upd (upd (upd mem0 2 (Some 5)) 3 (Some 6)) 4 (Some 7)) in
  match insert_from rel 8 1 255 255 [Yield 9] c log0 with
  | Panic c g => left c = right c /\ dropped g = []
  | _ => False
  end /\ word rel = 256.
Proof. vm_compute. auto. Qed.

(** C09.  [search_ok R bs]: [bs] is a binary search for the order [R], as documented by the standard library. *)
Theorem C09_chunk_insert_ordered :
  forall (A : Type) (e : env A) (N : nat) (R : A -> A -> Prop) (bs : list A -> A -> option nat)
         (c : chunk A) (l : list A) (g : log A) (v : A),
  N + N < word e -> calm e -> Holds N c l ->
  (* on a sorted chunk with room *)
  (search_ok R bs -> StronglySorted R l -> length l < N ->
   exists l1 l2, l = l1 ++ l2 /\ StronglySorted R (l1 ++ v :: l2) /\
     agrees (Holds N) eq g (insert_ordered e N bs v c g) (SRet (l1 ++ v :: l2) tt [])) /\
  (* on any chunk; [bs l v = None]: a comparison panics *)
  ((forall i, bs l v = Some i -> i <= length l) ->
   agrees (Holds N) eq g (insert_ordered e N bs v c g)
    (if length l <? N then
       match bs l v with
       | Some i => SRet (take i l ++ v :: drop i l) tt []
       | None => SPanic l [v] []
       end
     else SPanic l [v] [])).
Proof.
  intros A e N R bs c l g v HW Hc H. split.
  - intros Hs HS HN. exact (insert_ordered_sorted e N HW R bs c l g v Hc Hs H HS HN).
  - exact (insert_ordered_unsorted e N HW bs c l g v Hc H).
Qed.
Print Assumptions C09_chunk_insert_ordered.
(** A search meeting the contract: linear search on numbers. *)
Example C09_example : search_ok le (fun l v => Some (length (take_while_le v l))) /\
  exists c g, insert_ordered dbg 4 (fun l v => Some (length (take_while_le v l))) 5
    (Chunk 1 3 (upd (upd mem0 1 (Some 4)) 2 (Some 7))) log0 = Ret c g tt /\ as_slice dbg 4 c g = Ret c g [4; 5; 7].
Proof. split; [exact linear_search_ok|]. eexists _, _. split; vm_compute; reflexivity. Qed.

(** C10. *)
Theorem C10_chunk_split_off_append :
  forall (A : Type) (e : env A) (N : nat) (c c2 : chunk A) (l l2 : list A) (g : log A) (i : nat),
  N + N < word e -> Holds N c l -> Holds N c2 l2 ->
  agrees (Holds N) (Made N) g (split_off e N i c g)
    (if i <=? length l then SRet (take i l) (drop i l) [] else SPanic l [] []) /\
  agrees (both (Holds N) (Holds N)) eq g (append e N (c, c2) g)
    (if length l + length l2 <=? N then SRet (l ++ l2, []) tt [] else SPanic (l, l2) [] []) /\
  (i <= length l -> exists c1 c2 g1 c1' c2' g2,
    split_off e N i c g = Ret c1 g1 (c2, tt) /\
    append e N (c1, c2) g1 = Ret (c1', c2') g2 tt /\
    Holds N c1' l /\ Holds N c2' [] /\ dropped g2 = dropped g /\ leaked g2 = leaked g).
Proof.
  intros A e N c c2 l l2 g i HW H H2. split; [exact (split_off_ok e N HW c l g i H)|].
  split; [exact (append_ok e N HW (c, c2) (l, l2) g (conj H H2)) | exact (split_append e N HW c l g i H)].
Qed.
Print Assumptions C10_chunk_split_off_append.
Example C10_example : exists c1 c2 g, split_off dbg 4 1 ex_chunk log0 = Ret c1 g (c2, tt) /\
  as_slice dbg 4 c1 g = Ret c1 g [3] /\ as_slice dbg 4 c2 g = Ret c2 g [1; 2].
Proof. eexists _, _, _. repeat split; vm_compute; reflexivity. Qed.

(** C11.  For every [usize] count. *)
Theorem C11_chunk_drain_from :
  forall (A : Type) (e : env A) (N : nat) (c1 c2 : chunk A) (l1 l2 : list A) (g : log A) (k : nat),
  N + N < word e -> Holds N c1 l1 -> Holds N c2 l2 -> k < word e ->
  agrees (both (Holds N) (Holds N)) eq g (drain_from_front e N k (c1, c2) g)
    (if (length l1 + k <=? N) && (k <=? length l2)
     then SRet (l1 ++ take k l2, drop k l2) tt [] else SPanic (l1, l2) [] []) /\
  agrees (both (Holds N) (Holds N)) eq g (drain_from_back e N k (c1, c2) g)
    (if (length l1 + k <=? N) && (k <=? length l2)
     then SRet (drop (length l2 - k) l2 ++ l1, take (length l2 - k) l2) tt [] else SPanic (l1, l2) [] []).
Proof.
  intros A e N c1 c2 l1 l2 g k HW H1 H2 Hk.
  exact (conj (drain_from_front_ok e N HW (c1, c2) (l1, l2) g k (conj H1 H2) Hk)
              (drain_from_back_ok e N HW (c1, c2) (l1, l2) g k (conj H1 H2) Hk)).
Qed.
Print Assumptions C11_chunk_drain_from.
Example C11_example : exists c1 c2 g, drain_from_back dbg 4 2 (new, ex_chunk) log0 = Ret (c1, c2) g tt /\
  as_slice dbg 4 c1 g = Ret c1 g [1; 2] /\ as_slice dbg 4 c2 g = Ret c2 g [3].
Proof. eexists _, _, _. repeat split; vm_compute; reflexivity. Qed.

(** C12, full statement: for every [k], in both profiles,
    [from_front e N k c g] agrees with [if k <=? length l then SRet (drop k l) (take k l) [] else SPanic l [] []]
    (and [from_back] likewise).  Proved for [k <= length l], and for every [k] in a debug build.
    Missing: release builds with [k > length l], where it is false (see the refutation below). *)
Theorem C12_chunk_from_front_back_partial :
  forall (A : Type) (e : env A) (N : nat) (c : chunk A) (l : list A) (g : log A) (k : nat),
  N + N < word e -> Holds N c l -> k <= length l \/ debug e = true ->
  agrees (Holds N) (Made N) g (from_front e N k c g)
    (if k <=? length l then SRet (drop k l) (take k l) [] else SPanic l [] []) /\
  agrees (Holds N) (Made N) g (from_back e N k c g)
    (if k <=? length l then SRet (take (length l - k) l) (drop (length l - k) l) [] else SPanic l [] []) /\
  agrees (Holds N) (Made N) g (drain_from e N c g) (SRet [] l []).
Proof.
  intros A e N c l g k HW H Hk. split; [|split].
  - destruct Hk as [Hk|Hk]; [exact (from_front_ok e N HW c l g k H Hk) | exact (from_front_debug e N HW c l g k H Hk)].
  - destruct Hk as [Hk|Hk]; [exact (from_back_ok e N HW c l g k H Hk) | exact (from_back_debug e N HW c l g k H Hk)].
  - exact (drain_from_ok e N HW c l g H).
Qed.
Print Assumptions C12_chunk_from_front_back_partial.
(** In a release build a count beyond the length always ends in undefined behaviour: the copy itself
    leaves the storage, or the new chunk claims slots that hold no element. *)
Theorem C12_chunk_from_front_back_refuted :
  forall (A : Type) (e : env A) (N : nat) (c : chunk A) (l : list A) (g : log A) (k : nat),
  N + N < word e -> debug e = false -> Holds N c l -> length l < k -> k < word e ->
  ((N < left c + k -> from_front e N k c g = UB OutOfBounds) /\
   (left c + k <= N -> exists c' o g', from_front e N k c g = Ret c' g' (o, tt) /\
      as_slice e N o g' = UB DeadSlot)) /\
  ((right c < k -> from_back e N k c g = UB OutOfBounds) /\
   (k <= right c -> exists c' o g', from_back e N k c g = Ret c' g' (o, tt) /\
      as_slice e N o g' = UB DeadSlot)).
Proof.
  intros A e N c l g k HW Hd H Hl Hk.
  exact (conj (from_front_release e N HW c l g k Hd H Hl Hk) (from_back_release e N HW c l g k Hd H Hl Hk)).
Qed.
Print Assumptions C12_chunk_from_front_back_refuted.
Example C12_example : Holds 4 ex_chunk [3; 1; 2] /\ from_front rel 4 4 ex_chunk log0 = UB OutOfBounds.
Proof. split; [exact ex_chunk_holds | vm_compute; reflexivity]. Qed.

(** C13. *)
Theorem C13_chunk_drop_left_right_clear :
  forall (A : Type) (e : env A) (N : nat) (c : chunk A) (l : list A) (g : log A) (i : nat),
  N + N < word e -> calm e -> Holds N c l ->
  agrees (Holds N) eq g (drop_left e N i c g)
    (if i <=? length l then SRet (drop i l) tt (take i l) else SPanic l [] []) /\
  agrees (Holds N) eq g (drop_right e N i c g)
    (if i <=? length l then SRet (take i l) tt (drop i l) else SPanic l [] []) /\
  agrees (Holds N) eq g (clear e N c g) (SRet [] tt l).
Proof.
  intros A e N c l g i HW Hc H.
  exact (conj (drop_left_ok e N HW Hc c l g i H) (conj (drop_right_ok e N HW Hc c l g i H) (clear_ok e N HW Hc c l g H))).
Qed.
Print Assumptions C13_chunk_drop_left_right_clear.
Example C13_example : exists c g, drop_left dbg 4 2 ex_chunk log0 = Ret c g tt /\ dropped g = [3; 1] /\
  as_slice dbg 4 c g = Ret c g [2].
Proof. eexists _, _. repeat split; vm_compute; reflexivity. Qed.

(** C14.  Destroying a chunk with panicking elements: each element is dropped exactly once (two panics abort,
    as everywhere in Rust).  The full property also asks that a chunk whose [drop_left], [drop_right] or
    [clear] panicked can be destroyed without dropping anything twice; that is refuted below. *)
Theorem C14_chunk_destroy_with_panicking_drop_partial :
  forall (A : Type) (e : env A) (N : nat) (c : chunk A) (l : list A) (g : log A),
  N + N < word e -> Holds N c l ->
  match length (List.filter (bomb e) l) with
  | 0 => exists c', destroy e N c g = Ret c' (log_drop l g) tt
  | 1 => exists c', destroy e N c g = Panic c' (log_drop l g)
  | _ => destroy e N c g = Abort
  end.
Proof. intros A e N c l g HW. exact (destroy_bombs e N HW c l g). Qed.
Print Assumptions C14_chunk_destroy_with_panicking_drop_partial.
Theorem C14_chunk_panicking_drop_refuted :
  forall (A : Type) (e : env A) (N : nat) (c : chunk A) (l : list A) (g : log A) (i : nat),
  N + N < word e -> Holds N c l -> i <= length l ->
  (length (List.filter (bomb e) l) = 1 -> exists c' g',
     clear e N c g = Panic c' g' /\ dropped g' = dropped g ++ l /\
     destroy e N c' g' = UB DeadSlot /\ as_slice e N c' g' = UB DeadSlot) /\
  (length (List.filter (bomb e) (take i l)) = 1 -> exists c' g',
     drop_left e N i c g = Panic c' g' /\ dropped g' = dropped g ++ take i l /\
     destroy e N c' g' = UB DeadSlot) /\
  (length (List.filter (bomb e) (drop i l)) = 1 -> exists c' g',
     drop_right e N i c g = Panic c' g' /\ dropped g' = dropped g ++ drop i l /\
     destroy e N c' g' = UB DeadSlot).
Proof.
  intros A e N c l g i HW H Hi. split; [exact (clear_bomb e N HW c l g H)|].
  split; [exact (drop_left_bomb e N HW c l g i H Hi) | exact (drop_right_bomb e N HW c l g i H Hi)].
Qed.
Print Assumptions C14_chunk_panicking_drop_refuted.
Example C14_example : exists c g, clear bombed 4 (Chunk 0 2 (upd (upd mem0 0 (Some 13)) 1 (Some 5))) log0 = Panic c g /\
  dropped g = [13; 5] /\ destroy bombed 4 c g = UB DeadSlot.
Proof. eexists _, _. repeat split; vm_compute; reflexivity. Qed.

(** C15.  [clones cl 0 l] are the results of cloning the elements in order up to the first panic. *)
Theorem C15_chunk_clone :
  forall (A : Type) (e : env A) (N : nat) (cl : nat -> A -> option A) (c : chunk A) (l : list A) (g : log A),
  N + N < word e -> calm e -> Holds N c l ->
  agrees (Holds N) (Made N) g (clone e N cl c g)
    (if length (clones cl 0 l) =? length l then SRet l (clones cl 0 l) [] else SPanic l (clones cl 0 l) []).
Proof. intros A e N cl c l g HW Hc. exact (clone_ok e N HW Hc cl c l g). Qed.
Print Assumptions C15_chunk_clone.
Example C15_example : exists c g, clone dbg 4 (fun k a => if k <? 2 then Some (a + 10) else None) ex_chunk log0 = Panic c g /\
  dropped g = [13; 11] /\ as_slice dbg 4 c g = Ret c g [3; 1; 2].
Proof. eexists _, _. repeat split; vm_compute; reflexivity. Qed.

(** C16.  A client pulls items according to any script of [Front]/[Back] calls, asking for [size_hint] each
    time.  The iterator (a consumed chunk, or a drained one) delivers what the list specification [pulls]
    says; [pulls] partitions the list, and an exhausted iterator stays exhausted; what is not delivered stays
    in the chunk (Drain) or is dropped once, in order, when the iterator is destroyed (Iter). *)
Theorem C16_chunk_iterators :
  forall (A : Type) (e : env A) (N : nat) (script : list side) (c : chunk A) (l : list A) (g : log A),
  N + N < word e -> calm e -> Holds N c l ->
  (exists c' g', pull_all (iter_next e N) (iter_next_back e N) (size_hint e) script c g =
      Ret c' g' (fst (pulls script l)) /\
    Holds N c' (snd (pulls script l)) /\ dropped g' = dropped g /\ leaked g' = leaked g) /\
  (exists c' g' c'' g'', pull_all (iter_next e N) (iter_next_back e N) (size_hint e) script c g =
      Ret c' g' (fst (pulls script l)) /\
    destroy e N c' g' = Ret c'' g'' tt /\
    dropped g'' = dropped g ++ snd (pulls script l) /\ leaked g'' = leaked g) /\
  delivered Front script (fst (pulls script l)) ++ snd (pulls script l) ++
    rev (delivered Back script (fst (pulls script l))) = l /\
  pulls script (@nil A) = (map (fun _ => ((0, Some 0), None)) script, []).
Proof.
  intros A e N script c l g HW Hc H.
  exact (conj (iter_ok e N HW script c l g H) (conj (iter_drop e N HW script c l g Hc H)
        (conj (pulls_partition script l) (pulls_nil script)))).
Qed.
Print Assumptions C16_chunk_iterators.
Example C16_example : pulls [Front; Back; Front; Back] [3; 1; 2] =
  ([ ((3, Some 3), Some 3); ((2, Some 2), Some 2); ((1, Some 1), Some 1); ((0, Some 0), None) ], []).
Proof. reflexivity. Qed.

(** C17.  Bytes are numbers. *)
Theorem C17_chunk_io :
  forall (e : env nat) (N : nat) (c : chunk nat) (l buf : list nat) (g : log nat),
  N + N < word e -> calm e -> Holds N c l ->
  agrees (Holds N) eq g (io_write e N buf c g)
    (SRet (l ++ take (N - length l) buf) (length buf `min` (N - length l)) []) /\
  agrees (Holds N) eq g (io_read e N buf c g)
    (let n := length buf `min` length l in SRet (drop n l) (take n l ++ drop n buf, n) []).
Proof.
  intros e N c l buf g HW Hc H.
  exact (conj (io_write_ok e N HW Hc c l g buf H) (io_read_ok e N HW c l g buf H)).
Qed.
Print Assumptions C17_chunk_io.
Example C17_example : exists c g, io_write dbg 4 [8; 9] ex_chunk log0 = Ret c g 1 /\
  as_slice dbg 4 c g = Ret c g [3; 1; 2; 8].
Proof. eexists _, _. repeat split; vm_compute; reflexivity. Qed.

(** C18.  The observers are functions of the two element sequences. *)
Theorem C18_chunk_eq_cmp_hash :
  forall (A : Type) (e : env A) (N : nat) (c1 c2 : chunk A) (l1 l2 : list A) (g : log A)
         (eqA : A -> A -> bool) (pc : A -> A -> option comparison) (cmp : A -> A -> comparison),
  N + N < word e -> Holds N c1 l1 -> Holds N c2 l2 ->
  eq_ e N eqA (c1, c2) g = Ret (c1, c2) g (slice_eq eqA l1 l2) /\
  ((forall a b, eqA a b = true <-> a = b) -> (slice_eq eqA l1 l2 = true <-> l1 = l2)) /\
  partial_cmp e N pc (c1, c2) g = Ret (c1, c2) g (iter_partial_cmp pc l1 l2) /\
  cmp_ e N cmp (c1, c2) g = Ret (c1, c2) g (iter_cmp cmp l1 l2) /\
  hash e N c1 g = Ret c1 g (map HItem l1).
Proof.
  intros A e N c1 c2 l1 l2 g eqA pc cmp HW H1 H2.
  exact (conj (eq_ok e N HW eqA c1 c2 l1 l2 g H1 H2) (conj (fun Heq => slice_eq_iff eqA Heq l1 l2)
        (conj (partial_cmp_ok e N HW pc c1 c2 l1 l2 g H1 H2)
        (conj (cmp_ok e N HW cmp c1 c2 l1 l2 g H1 H2) (hash_ok e N HW c1 l1 g H1))))).
Qed.
Print Assumptions C18_chunk_eq_cmp_hash.
Example C18_example : cmp_ dbg 4 Nat.compare (ex_chunk, Chunk 0 2 (upd (upd mem0 0 (Some 3)) 1 (Some 0))) log0 =
  Ret (ex_chunk, Chunk 0 2 (upd (upd mem0 0 (Some 3)) 1 (Some 0))) log0 Gt.
Proof. vm_compute. reflexivity. Qed.

(** C19, full statement: [hash e N c g = Ret c g (slice_hash l)].  False for every chunk, also the empty
    one: the slice feeds its length first. *)
Theorem C19_chunk_borrow_hash_refuted :
  forall (A : Type) (e : env A) (N : nat) (c : chunk A) (l : list A) (g : log A),
  N + N < word e -> Holds N c l -> hash e N c g <> Ret c g (slice_hash l).
Proof.
  intros A e N c l g HW H. rewrite (hash_ok e N HW c l g H). intros E. injection E. apply hash_borrow_differs.
Qed.
Print Assumptions C19_chunk_borrow_hash_refuted.

(** C21. *)
Theorem C21_chunk_collect_extend :
  forall (A : Type) (e : env A) (N : nat) (k : nat) (it : list (ev A)) (c : chunk A) (l : list A) (g : log A),
  N + N < word e -> calm e -> Holds N c l ->
  agrees (Holds N) eq g (extend e N it c g) (bl_extend N it l) /\
  agrees (fun _ _ => True) (Made N) g (from_iter e N it tt g) (bl_from_iter N it) /\
  agrees eq (Made N) g (collect_from e N k it g) (bl_collect N k it []) /\
  (* a collect that finds its [k] items leaves the iterator right behind them *)
  (forall (xs : list A) rest, length xs = k -> k <= N -> bl_collect N k (map Yield xs ++ rest) [] = SRet rest xs []).
Proof.
  intros A e N k it c l g HW Hc H.
  exact (conj (extend_ok e N HW Hc it c l g H) (conj (from_iter_ok e N HW Hc it g)
        (conj (collect_from_ok e N HW Hc k it g) (fun xs rest Hx Hk => collect_exact e N HW k xs rest [] Hx Hk)))).
Qed.
Print Assumptions C21_chunk_collect_extend.
Example C21_example : exists c g, extend dbg 4 [Yield 7; Yield 8; Yield 9] ex_chunk log0 = Panic c g /\
  as_slice dbg 4 c g = Ret c g [3; 1; 2; 7] /\ dropped g = [8].
Proof. eexists _, _. repeat split; vm_compute; reflexivity. Qed.

(** C22, chunk part. *)
Theorem C22_chunk_push_costs :
  forall (A : Type) (e : env A) (N : nat) (xs : list A) (c : chunk A) (l : list A) (g : log A) (v : A) (i : nat),
  N + N < word e -> Holds N c l ->
  (length xs <= N ->
   post (fun c' g' _ => Holds N c' xs /\ writes g' = writes g + length xs) (each (push_back e N) xs new g) /\
   post (fun c' g' _ => Holds N c' (rev xs) /\ writes g' = writes g + length xs) (each (push_front e N) xs new g)) /\
  (length l < N ->
   post (fun _ g' _ => writes g' <= writes g + (length l + 1)) (push_back e N v c g) /\
   post (fun _ g' _ => writes g' <= writes g + (length l + 1)) (push_front e N v c g)) /\
  (i < length l ->
   post (fun _ g' _ => writes g' = writes g + i `min` (length l - 1 - i)) (remove e N i c g)) /\
  (i <= length l -> length l < N ->
   post (fun _ g' _ => writes g' <= writes g + i `max` (length l - i) + 1) (insert e N i v c g)).
Proof. intros A e N xs c l g v i HW. exact (chunk_costs e N HW xs c l g v i). Qed.
Print Assumptions C22_chunk_push_costs.
Example C22_example : exists c g, each (push_back dbg 4) [5; 6; 7; 8] new log0 = Ret c g tt /\ writes g = 4.
Proof. eexists _, _. repeat split; vm_compute; reflexivity. Qed.
