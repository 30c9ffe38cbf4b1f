(** * Properties of [RingBuffer].  Only statements; every proof is a reference to a lemma. *)
From Verif Require Import Machine Spec Prims IterSpec Program SpecProps ChunkExamples ChunkLaws
  RingModel RingProofs RingProofs2 RingProofs3 RingProofs4 RingProofs5 RingProofs6 RingProgram RingLaws.
From Coq Require Import Sorting.Sorted.

(** Throughout: [N + N < word e] as in PropertiesChunk.v; [0 < N] (capacity zero is C35); [calm e]: no
    destructor panics.  [RHolds N r l]: the buffer [r] of capacity [N] has the contents [l], starting at any
    origin.  [agrees (RHolds N) eq g (m r g) s]: executed from log [g] the call [m] does what [s] says
    ([SRet contents result dropped] or [SPanic contents dropped leaked]). *)

(** C22, RingBuffer part: the number of slots written. *)
Theorem C22_ring_costs :
  forall (A : Type) (e : env A) (N : nat) (r : ring A) (l : list A) (g : log A) (v : A) (i : nat),
  N + N < word e -> 0 < N -> RHolds N r l ->
  (length l < N ->
   post (fun _ g' _ => writes g' = writes g + 1) (rb_push_back e N v r g) /\
   post (fun _ g' _ => writes g' = writes g + 1) (rb_push_front e N v r g)) /\
  post (fun _ g' _ => writes g' = writes g) (rb_pop_back e N r g) /\
  post (fun _ g' _ => writes g' = writes g) (rb_pop_front e N r g) /\
  (i <= length l -> length l < N ->
   post (fun _ g' _ => writes g' = writes g + (i `min` (length l - i) + 1)) (rb_insert e N i v r g)) /\
  (i < length l ->
   post (fun _ g' _ => writes g' <= writes g + i `min` (length l - i)) (rb_remove e N i r g)).
Proof.
  intros A e N r l g v i HW HN H. split; [|split; [|split; [|split]]].
  - intros Hl. exact (conj (rb_push_back_cost e N HW HN r l g v H Hl) (rb_push_front_cost e N HW HN r l g v H Hl)).
  - exact (rb_pop_back_cost e N HW HN r l g H).
  - exact (rb_pop_front_cost e N HW HN r l g H).
  - exact (rb_insert_cost e N HW HN r l g i v H).
  - intros Hi. pose proof (rb_remove_cost e N HW HN r l g i H Hi) as P.
    destruct (rb_remove e N i r g); unfold post in *; try exact P. destruct (length l - i <? i) eqn:E in P; lia.
Qed.
Print Assumptions C22_ring_costs.
Example C22_ring_example : exists r g, rb_insert dbg 4 1 9 ex_ring log0 = Ret r g tt /\ writes g = 2.
Proof. eexists _, _. repeat split; vm_compute; reflexivity. Qed.

(** C23.  For every program in which the arguments are legal, every command is observed to return or
    panic exactly as on lists, and the buffers end up holding exactly the lists. *)
Theorem C23_ring_programs_are_list_programs :
  forall (A : Type) (e : env A) (N : nat) (p : list (cmd (ring_op0 A) (ring_op1 A) (ring_opn A) (ring_op2 A))),
  N + N < word e -> 0 < N -> calm e -> all_legal (ring_spec e N) p [] ->
  exists X g, run (ring_kit e N) p [] log0 = Some (X, g, s_events (srun (ring_spec e N) p [])) /\
    Forall2 (orel (RHolds N)) X (s_store (srun (ring_spec e N) p [])) /\
    dropped g = s_dropped (srun (ring_spec e N) p []) /\
    Permutation (leaked g) (s_leaked (srun (ring_spec e N) p [])).
Proof. intros A e N p HW HN Hc. exact (ring_program e N HW HN Hc p). Qed.
Print Assumptions C23_ring_programs_are_list_programs.

(** C24.  No such program reaches undefined behaviour, hangs or aborts. *)
Theorem C24_ring_programs_are_memory_safe :
  forall (A : Type) (e : env A) (N : nat) (p : list (cmd (ring_op0 A) (ring_op1 A) (ring_opn A) (ring_op2 A))),
  N + N < word e -> 0 < N -> calm e -> all_legal (ring_spec e N) p [] ->
  run (ring_kit e N) p [] log0 <> None.
Proof.
  intros A e N p HW HN Hc HL. destruct (ring_program e N HW HN Hc p HL) as (X & g & E & _).
  rewrite E. discriminate.
Qed.
Print Assumptions C24_ring_programs_are_memory_safe.

(** C25.  Every value handed over is in a live buffer, was handed back, dropped or leaked, exactly once;
    nothing is leaked unless an iterator given to insert_from delivers fewer items than it announced. *)
Theorem C25_ring_values_dropped_once :
  forall (A : Type) (e : env A) (N : nat) (p : list (cmd (ring_op0 A) (ring_op1 A) (ring_opn A) (ring_op2 A))),
  N + N < word e -> 0 < N -> calm e -> all_legal (ring_spec e N) p [] ->
  exists X g evs, run (ring_kit e N) p [] log0 = Some (X, g, evs) /\
    Permutation (s_given (srun (ring_spec e N) p []))
      (live (ring_spec e N) (s_store (srun (ring_spec e N) p [])) ++
       returned (ring_spec e N) evs ++ dropped g ++ leaked g) /\
    (Forall rtruthful p -> leaked g = []).
Proof. intros A e N p HW HN Hc. exact (ring_conservation e N HW HN Hc p). Qed.
Print Assumptions C25_ring_values_dropped_once.

Definition ex_ring_program : list (cmd (ring_op0 nat) (ring_op1 nat) (ring_opn nat) (ring_op2 nat)) :=
  [ Make BNew; Call 0 (BPushBack 1); Call 0 (BPushFront 2); Call 0 (BInsertFrom 1 2 [Yield 7; Yield 8]);
    Call 0 (BPushBack 9); Spawn 0 (BSplitOff 3); Call 1 (BPushFront 5); Call2 1 0 BAppend;
    Spawn 0 (BFromFront 1); Call2 1 2 (BDrainFromBack 1); Call 1 BContents; Call 1 (BSliceContents (1, 3));
    Kill 0; Kill 1; Kill 2 ].
Example C23_example : all_legal (ring_spec rel 4) ex_ring_program [] /\ Forall rtruthful ex_ring_program /\
  4 + 4 < word rel /\ calm rel /\
  s_events (srun (ring_spec rel 4) ex_ring_program []) =
    [ Done; Returned RUnit; Returned RUnit; Returned RUnit; Panicked; Done; Returned RUnit; Panicked;
      Done; Returned RUnit; Returned (RRefs [2; 5; 1]); Returned (RRefs [5; 1]); Done; Done; Done ].
Proof.
  split; [vm_compute; repeat split; lia|]. split; [repeat constructor|].
  split; [vm_compute; lia|]. split; [apply rel_calm|]. vm_compute. reflexivity.
Qed.

(** C26. *)
Theorem C26_ring_insert_remove :
  forall (A : Type) (e : env A) (N : nat) (r : ring A) (l xs : list A) (g : log A) (v : A) (i : nat),
  N + N < word e -> 0 < N -> calm e -> RHolds N r l ->
  agrees (RHolds N) eq g (rb_insert e N i v r g)
    (if (length l <? N) && (i <=? length l) then SRet (take i l ++ v :: drop i l) tt [] else SPanic l [v] []) /\
  agrees (RHolds N) eq g (rb_remove e N i r g)
    (match l !! i with Some a => SRet (take i l ++ drop (S i) l) a [] | None => SPanic l [] [] end) /\
  agrees (RHolds N) eq g (rb_assign e N i v r g)
    (match l !! i with Some a => SRet (take i l ++ v :: drop (S i) l) tt [a] | None => SPanic l [v] [] end) /\
  agrees (RHolds N) eq g (rb_index e N i r g)
    (match l !! i with Some a => SRet l a [] | None => SPanic l [] [] end) /\
  (length l + length xs < word e \/ debug e = true ->
   agrees (RHolds N) eq g (rb_insert_from e N i (length xs) (map Yield xs) r g)
    (if (length l + length xs <=? N) && (i <=? length l)
     then SRet (take i l ++ xs ++ drop i l) tt [] else SPanic l [] [])).
Proof.
  intros A e N r l xs g v i HW HN Hc H.
  exact (conj (rb_insert_ok e N HW HN Hc r l g i v H) (conj (rb_remove_ok e N HW HN r l g i H)
        (conj (rb_assign_ok e N HW HN Hc r l g i v H) (conj (rb_index_ok e N HW HN r l g i H)
        (rb_insert_from_truthful e N HW HN r l g i xs Hc H))))).
Qed.
Print Assumptions C26_ring_insert_remove.
Example C26_example : exists r g, rb_insert dbg 4 1 9 ex_ring log0 = Ret r g tt /\
  rb_contents dbg 4 r g = Ret r g [3; 9; 1; 2] /\ origin r = 2.
Proof. eexists _, _. repeat split; vm_compute; reflexivity. Qed.

(** [insert_ordered], as C09. *)
Theorem C26_ring_insert_ordered :
  forall (A : Type) (e : env A) (N : nat) (R : A -> A -> Prop) (bs : list A -> A -> option nat)
         (r : ring A) (l : list A) (g : log A) (v : A),
  N + N < word e -> 0 < N -> calm e -> RHolds N r l ->
  (search_ok R bs -> StronglySorted R l -> length l < N ->
   exists l1 l2, l = l1 ++ l2 /\ StronglySorted R (l1 ++ v :: l2) /\
     agrees (RHolds N) eq g (rb_insert_ordered e N bs v r g) (SRet (l1 ++ v :: l2) tt [])) /\
  agrees (RHolds N) eq g (rb_insert_ordered e N bs v r g)
    (if length l <? N then
       match bs l v with
       | Some i => if (length l <? N) && (i <=? length l) then SRet (take i l ++ v :: drop i l) tt [] else SPanic l [v] []
       | None => SPanic l [v] []
       end
     else SPanic l [v] []).
Proof.
  intros A e N R bs r l g v HW HN Hc H. split.
  - intros Hs HS Hl. exact (rb_insert_ordered_sorted e N HW HN R bs r l g v Hc Hs H HS Hl).
  - exact (rb_insert_ordered_ok e N HW HN Hc r l g v bs H).
Qed.
Print Assumptions C26_ring_insert_ordered.
Example C26_ordered_example : exists r g, rb_insert_ordered dbg 4 (fun l v => Some (length (take_while_le v l))) 5
    (Ring 3 2 (upd (upd mem0 3 (Some 4)) 0 (Some 7))) log0 = Ret r g tt /\ rb_contents dbg 4 r g = Ret r g [4; 5; 7].
Proof. eexists _, _. split; vm_compute; reflexivity. Qed.

(** C27.  The iterator announces [n] items and then does anything.  Before the end of the buffer a short or
    panicking iterator makes the call panic, the buffer is then empty and old contents and delivered items are
    leaked; at the end of the buffer the items delivered are appended one by one, and stay. *)
Theorem C27_ring_insert_from_misbehaving :
  forall (A : Type) (e : env A) (N : nat) (r : ring A) (l : list A) (g : log A) (i n : nat) (it : list (ev A)),
  N + N < word e -> 0 < N -> calm e -> RHolds N r l -> length l + n < word e \/ debug e = true ->
  agrees (RHolds N) eq g (rb_insert_from e N i n it r g)
    (if (length l + n <=? N) && (i =? length l) then bl_extend N it l
     else if (length l + n <=? N) && (i <=? length l) then
       if length (yields n it) =? n
       then SRet (take i l ++ yields n it ++ drop i l) tt []
       else SPanic [] [] (l ++ yields n it)
     else SPanic l [] []).
Proof. intros A e N r l g i n it HW HN Hc. exact (rb_insert_from_ok e N HW HN Hc r l g i n it). Qed.
Print Assumptions C27_ring_insert_from_misbehaving.
(** C51 is false of the code; this is the case excluded in C27: when the sum of the lengths overflows in a release build the call can run for ever. *)
Theorem C51_ring_insert_from_overflow_refuted :
  forall (A : Type) (e : env A) (q : nat) (a b : A) (it : list (ev A)) (g : log A),
  debug e = false -> word e = 4 * q -> 4 < q ->
  let r := Ring 0 2 (upd (upd mem0 0 (Some a)) 1 (Some b)) in
  RHolds 4 r [a; b] /\ rb_insert_from e 4 0 (word e - 1) it r g = Hang /\
  (forall fuel, wrap_up e 4 fuel 0 (word e - 1) r g = Hang).
Proof.
  intros A e q a b it g Hd Hw Hq r. destruct (rb_insert_from_hangs e q Hd Hw Hq a b it g) as [H1 H2].
  split; [exact H1|]. split; [exact H2|]. intros fuel. apply (wrap_up_forever e q Hd Hw Hq fuel 0). lia.
Qed.
Print Assumptions C51_ring_insert_from_overflow_refuted.
Example C27_example : exists r g, rb_insert_from rel 6 1 3 [Yield 8; Boom; Yield 9]
    (Ring 4 3 (upd (upd (upd mem0 4 (Some 3)) 5 (Some 1)) 0 (Some 2))) log0 = Panic r g /\
  rb_contents rel 6 r g = Ret r g [] /\ Permutation (leaked g) [3; 1; 2; 8] /\ dropped g = [].
Proof.
  eexists _, _. split; [vm_compute; reflexivity|]. split; [vm_compute; reflexivity|].
  split; [|reflexivity]. match goal with |- Permutation ?x _ => let y := eval vm_compute in x in change (Permutation y [3; 1; 2; 8]) end. perm.
Qed.

(** C28. *)
Theorem C28_ring_bulk_moves :
  forall (A : Type) (e : env A) (N : nat) (r1 r2 : ring A) (l1 l2 : list A) (g : log A) (k : nat),
  N + N < word e -> 0 < N -> calm e -> RHolds N r1 l1 -> RHolds N r2 l2 -> k < word e ->
  agrees (both (RHolds N) (RHolds N)) eq g (rb_append e N (r1, r2) g)
    (if length l1 + length l2 <=? N then SRet (l1 ++ l2, []) tt [] else SPanic (l1, l2) [] []) /\
  agrees (both (RHolds N) (RHolds N)) eq g (rb_drain_from_front e N k (r1, r2) g)
    (if (length l1 + k <=? N) && (k <=? length l2)
     then SRet (l1 ++ take k l2, drop k l2) tt [] else SPanic (l1, l2) [] []) /\
  agrees (both (RHolds N) (RHolds N)) eq g (rb_drain_from_back e N k (r1, r2) g)
    (if (length l1 + k <=? N) && (k <=? length l2)
     then SRet (drop (length l2 - k) l2 ++ l1, take (length l2 - k) l2) tt [] else SPanic (l1, l2) [] []) /\
  agrees (RHolds N) (RMade N) g (rb_split_off e N k r1 g)
    (if k <=? length l1 then SRet (take k l1) (drop k l1) [] else SPanic l1 [] []) /\
  agrees (RHolds N) (RMade N) g (rb_from_front e N k r1 g)
    (if k <=? length l1 then SRet (drop k l1) (take k l1) [] else SPanic l1 [] []) /\
  agrees (RHolds N) (RMade N) g (rb_from_back e N k r1 g)
    (if k <=? length l1 then SRet (take (length l1 - k) l1) (drop (length l1 - k) l1) [] else SPanic l1 [] []) /\
  agrees (RHolds N) (RMade N) g (rb_drain_from e N r1 g) (SRet [] l1 []) /\
  (k <= length l1 -> exists ra rb g1 ra' rb' g2,
    rb_split_off e N k r1 g = Ret ra g1 (rb, tt) /\ rb_append e N (ra, rb) g1 = Ret (ra', rb') g2 tt /\
    RHolds N ra' l1 /\ RHolds N rb' [] /\ dropped g2 = dropped g /\ leaked g2 = leaked g).
Proof.
  intros A e N r1 r2 l1 l2 g k HW HN Hc H1 H2 Hk.
  exact (conj (rb_append_ok e N HW HN (r1, r2) (l1, l2) g (conj H1 H2))
        (conj (rb_drain_from_front_ok e N HW HN (r1, r2) (l1, l2) g k (conj H1 H2) Hk)
        (conj (rb_drain_from_back_ok e N HW HN (r1, r2) (l1, l2) g k (conj H1 H2) Hk)
        (conj (rb_split_off_ok e N HW HN Hc r1 l1 g k H1)
        (conj (rb_from_front_ok e N HW HN Hc r1 l1 g k H1 Hk)
        (conj (rb_from_back_ok e N HW HN Hc r1 l1 g k H1 Hk)
        (conj (rb_drain_from_ok e N HW HN Hc r1 l1 g H1) (rb_split_append e N HW HN r1 l1 g k Hc H1)))))))).
Qed.
Print Assumptions C28_ring_bulk_moves.
Example C28_example : exists r1 r2 g, rb_drain_from_back dbg 4 2 (Ring 1 1 (upd mem0 1 (Some 9)), ex_ring) log0 = Ret (r1, r2) g tt /\
  rb_contents dbg 4 r1 g = Ret r1 g [1; 2; 9] /\ rb_contents dbg 4 r2 g = Ret r2 g [3] /\ origin r1 = 3.
Proof. eexists _, _, _. repeat split; vm_compute; reflexivity. Qed.

(** C29. *)
Theorem C29_ring_push_pop :
  forall (A : Type) (e : env A) (N : nat) (r : ring A) (l : list A) (g : log A) (v : A),
  N + N < word e -> 0 < N -> calm e -> RHolds N r l ->
  agrees (RHolds N) eq g (rb_push_front e N v r g) (if length l <? N then SRet (v :: l) tt [] else SPanic l [v] []) /\
  agrees (RHolds N) eq g (rb_push_back e N v r g) (if length l <? N then SRet (l ++ [v]) tt [] else SPanic l [v] []) /\
  agrees (RHolds N) eq g (rb_pop_front e N r g) (match l with a :: l' => SRet l' (Some a) [] | [] => SRet [] None [] end) /\
  (forall l' a, l = l' ++ [a] -> agrees (RHolds N) eq g (rb_pop_back e N r g) (SRet l' (Some a) [])) /\
  (l = [] -> agrees (RHolds N) eq g (rb_pop_back e N r g) (SRet [] None [])).
Proof.
  intros A e N r l g v HW HN Hc H.
  split; [exact (rb_push_front_ok e N HW HN Hc r l g v H)|].
  split; [exact (rb_push_back_ok e N HW HN Hc r l g v H)|].
  split; [pose proof (rb_pop_front_ok e N HW HN r l g H) as P; destruct l; exact P|].
  split; intros; subst l; pose proof (rb_pop_back_ok e N HW HN r _ g H) as P; [|exact P].
  unfold bl_try_pop_back in P. rewrite app_length in P. cbn [length] in P.
  replace (length l' + 1 - 1) with (length l') in P by lia. rewrite list_lookup_middle, take_app in P by reflexivity. exact P.
Qed.
Print Assumptions C29_ring_push_pop.
Example C29_example : exists r g, rb_pop_front dbg 4 ex_ring log0 = Ret r g (Some 3) /\
  rb_contents dbg 4 r g = Ret r g [1; 2] /\ origin r = 0.
Proof. eexists _, _. repeat split; vm_compute; reflexivity. Qed.

(** C30.  First sentence, and destruction with panicking destructors: elements are dropped in order up to the
    first panic, the rest is leaked; nothing is dropped twice. *)
Theorem C30_ring_drop_left_right_clear_partial :
  forall (A : Type) (e : env A) (N : nat) (r : ring A) (l : list A) (g : log A) (i : nat),
  N + N < word e -> 0 < N -> RHolds N r l ->
  (calm e ->
   agrees (RHolds N) eq g (rb_drop_left e N i r g)
    (if i <=? length l then SRet (drop i l) tt (take i l) else SPanic l [] []) /\
   agrees (RHolds N) eq g (rb_drop_right e N i r g)
    (if i <=? length l then SRet (take i l) tt (drop i l) else SPanic l [] []) /\
   agrees (RHolds N) eq g (rb_clear e N r g) (SRet [] tt l)) /\
  exists r' g', rb_destroy e N r g = (if no_bomb e l then Ret r' g' tt else Panic r' g') /\
    dropped g' = dropped g ++ until_bomb e l /\
    exists ks, leaked g' = leaked g ++ ks /\ Permutation ks (drop (length (until_bomb e l)) l).
Proof.
  intros A e N r l g i HW HN H. split; [|exact (rb_destroy_bombs e N HW HN r l g H)]. intros Hc.
  exact (conj (rb_drop_left_ok e N HW HN Hc r l g i H) (conj (rb_drop_right_ok e N HW HN Hc r l g i H)
        (rb_clear_ok e N HW HN Hc r l g H))).
Qed.
Print Assumptions C30_ring_drop_left_right_clear_partial.
(** The second sentence of C30 is false of the code: after a panic the buffer still claims the dropped elements. *)
Theorem C30_ring_panicking_drop_refuted :
  forall (A : Type) (e : env A) (N : nat) (r : ring A) (l : list A) (g : log A) (i : nat),
  N + N < word e -> 0 < N -> RHolds N r l -> i <= length l ->
  (no_bomb e l = false -> exists r' g', rb_clear e N r g = Panic r' g' /\
     dropped g' = dropped g ++ until_bomb e l /\ rb_destroy e N r' g' = UB DeadSlot) /\
  (no_bomb e (take i l) = false -> exists r' g', rb_drop_left e N i r g = Panic r' g' /\
     dropped g' = dropped g ++ until_bomb e (take i l) /\ rb_destroy e N r' g' = UB DeadSlot) /\
  (no_bomb e (drop i l) = false -> no_bomb e (take i l) = true -> exists r' g', rb_drop_right e N i r g = Panic r' g' /\
     dropped g' = dropped g ++ until_bomb e (drop i l) /\ rb_destroy e N r' g' = UB DeadSlot).
Proof.
  intros A e N r l g i HW HN H Hi. exact (conj (rb_clear_bomb e N HW HN r l g H)
    (conj (rb_drop_left_bomb e N HW HN r l g i H Hi) (rb_drop_right_bomb e N HW HN r l g i H Hi))).
Qed.
Print Assumptions C30_ring_panicking_drop_refuted.
Example C30_example : exists r g, rb_clear bombed 4 (Ring 3 2 (upd (upd mem0 3 (Some 13)) 0 (Some 5))) log0 = Panic r g /\
  dropped g = [13] /\ rb_destroy bombed 4 r g = UB DeadSlot.
Proof. eexists _, _. repeat split; vm_compute; reflexivity. Qed.

(** C31.  Drain and OwnedIter as C16.  For Iter and IterMut the items are references; a reference is the slot it
    points to, with the value there. *)
Theorem C31_ring_iterators :
  forall (A : Type) (e : env A) (N : nat) (script : list side) (r : ring A) (l : list A) (g : log A),
  N + N < word e -> 0 < N -> calm e -> RHolds N r l ->
  (exists r' g', pull_all (rb_pop_front e N) (rb_pop_back e N) rb_size_hint script r g =
      Ret r' g' (fst (pulls script l)) /\
    RHolds N r' (snd (pulls script l)) /\ dropped g' = dropped g /\ leaked g' = leaked g) /\
  (exists r' g' r'' g'', pull_all (rb_pop_front e N) (rb_pop_back e N) rb_size_hint script r g =
      Ret r' g' (fst (pulls script l)) /\
    rb_destroy e N r' g' = Ret r'' g'' tt /\
    dropped g'' = dropped g ++ snd (pulls script l) /\ leaked g'' = leaked g) /\
  (exists ix slots, rb_iter e N r g = Ret r g ix /\ map snd slots = l /\ NoDup (map fst slots) /\
    (forall p v, In (p, v) slots -> p < N /\ rdata r p = Some v) /\
    exists x g', pull_all (it_next e N) (it_next_back e N) it_size_hint script (ix, r) g =
      Ret x g' (fst (pulls script slots)) /\ snd x = r /\ dropped g' = dropped g /\ leaked g' = leaked g).
Proof.
  intros A e N script r l g HW HN Hc H.
  exact (conj (rb_drain_iter e N HW HN script r l g H) (conj (rb_drain_iter_drop e N HW HN script r l g Hc H)
    (rb_ref_iter e N HW HN script r l g H))).
Qed.
Print Assumptions C31_ring_iterators.
(** What [pulls] means. *)
Theorem C31_pulls_partition : forall (I : Type) (script : list side) (l : list I),
  delivered Front script (fst (pulls script l)) ++ snd (pulls script l) ++
    rev (delivered Back script (fst (pulls script l))) = l /\
  pulls script (@nil I) = (map (fun _ => ((0, Some 0), None)) script, []).
Proof. intros I script l. exact (conj (pulls_partition script l) (pulls_nil script)). Qed.
Print Assumptions C31_pulls_partition.
Example C31_example : exists ix x g, rb_iter dbg 4 ex_ring log0 = Ret ex_ring log0 ix /\
  pull_all (it_next dbg 4) (it_next_back dbg 4) it_size_hint [Back; Front; Front; Front] (ix, ex_ring) log0 =
    Ret x g [ ((3, Some 3), Some (1, 2)); ((2, Some 2), Some (3, 3)); ((1, Some 1), Some (0, 1)); ((0, Some 0), None) ].
Proof. eexists _, _, _. split; vm_compute; reflexivity. Qed.

(** C32.  [start_of lo .. end_of hi n] is the requested range in a sequence of length [n]; a slice is the pair
    of its ends in the buffer, and shows [take (end - start) (drop start l)].
    Excluded by [supported]: an exclusive start ([unimplemented!()] in the code), and in release builds the
    inclusive end [usize::MAX] (see the refutation). *)
Theorem C32_ring_slices_partial :
  forall (A : Type) (e : env A) (N : nat) (r : ring A) (l : list A) (g : log A) (lo hi lo' hi' : bound) (k : nat),
  N + N < word e -> 0 < N -> RHolds N r l ->
  bound_ok e lo -> bound_ok e hi -> supported e lo hi -> bound_ok e lo' -> bound_ok e hi' -> supported e lo' hi' ->
  let a := start_of lo in let b := end_of hi (length l) in
  rb_slice e lo hi r g = (if (a <=? b) && (b <=? length l) then Ret r g (a, b) else Panic r g) /\
  (a <= b <= length l ->
   let view := take (b - a) (drop a l) in
   sl_len e (a, b) r g = Ret r g (length view) /\
   sl_contents e N (a, b) r g = Ret r g view /\
   (forall i, sl_get e N (a, b) i r g = Ret r g (view !! i)) /\
   (let a' := start_of lo' in let b' := end_of hi' (length view) in
    sl_slice e (a, b) lo' hi' r g =
      (if (a' <=? b') && (b' <=? length view) then Ret r g (a + a', a + b') else Panic r g) /\
    (a' <= b' <= length view -> take (a + b' - (a + a')) (drop (a + a') l) = take (b' - a') (drop a' view))) /\
   sl_split_at e (a, b) k r g =
     (if k <=? length view then Ret r g ((a, a + k), (a + k, b)) else Panic r g) /\
   (k <= length view -> take (a + k - a) (drop a l) = take k view /\ take (b - (a + k)) (drop (a + k) l) = drop k view)).
Proof.
  intros A e N r l g lo hi lo' hi' k HW HN H B1 B2 S B1' B2' S' a b. 
  split; [exact (rb_slice_ok e N HW HN lo hi r l g H B1 B2 S)|]. intros Hab view.
  assert (I : in_range (a, b) l) by exact Hab. assert (Hv : length view = b - a).
  { unfold view. rewrite take_length, drop_length. lia. }
  split; [exact (sl_len_ok e N HW HN (a, b) l r g H I)|].
  split; [exact (sl_contents_ok e N HW HN (a, b) l r g H I)|].
  split; [intros i; exact (sl_get_ok e N HW HN (a, b) l r g i H I)|].
  split; [|split].
  - pose proof (sl_slice_ok e N HW HN (a, b) lo' hi' r l g H I B1' B2' S') as P. cbn [fst snd] in P.
    rewrite <- Hv in P. split; [exact P|]. generalize (start_of lo') (end_of hi' (length view)). intros a' b' Hb.
    rewrite Hv in Hb. unfold view. rewrite skipn_firstn_comm, take_take, drop_drop. f_equal. lia.
  - pose proof (sl_split_at_ok e N HW HN (a, b) k r l g H I) as P. exact P.
  - intros Hk. unfold view. split.
    + rewrite take_take. f_equal. lia.
    + rewrite skipn_firstn_comm, drop_drop. f_equal. lia.
Qed.
Print Assumptions C32_ring_slices_partial.
(** Iterating over a slice, with any client. *)
Theorem C32_ring_slice_iterators :
  forall (A : Type) (e : env A) (N : nat) (script : list side) (s : nat * nat) (r : ring A) (l : list A) (g : log A),
  N + N < word e -> 0 < N -> RHolds N r l -> fst s <= snd s <= length l ->
  exists ix slots, sl_iter e N s r g = Ret r g ix /\ map snd slots = take (snd s - fst s) (drop (fst s) l) /\
    NoDup (map fst slots) /\ (forall p v, In (p, v) slots -> p < N /\ rdata r p = Some v) /\
    exists x g', pull_all (it_next e N) (it_next_back e N) it_size_hint script (ix, r) g =
      Ret x g' (fst (pulls script slots)) /\ snd x = r /\ dropped g' = dropped g /\ leaked g' = leaked g.
Proof. intros A e N script s r l g HW HN H Hs. exact (sl_ref_iter e N HW HN script s r l g H Hs). Qed.
Print Assumptions C32_ring_slice_iterators.
(** [..=usize::MAX] in a release build: an empty slice instead of a panic.  And exclusive starts always panic. *)
Theorem C32_ring_slice_overflow_refuted :
  forall (A : Type) (e : env A) (N : nat) (r : ring A) (l : list A) (g : log A) (i : nat) (hi : bound),
  N + N < word e -> 0 < N -> RHolds N r l ->
  (debug e = false -> rb_slice e Unbounded (Included (word e - 1)) r g = Ret r g (0, 0)) /\
  rb_slice e (Excluded i) hi r g = Panic r g.
Proof.
  intros A e N r l g i hi HW HN H. split; [|reflexivity].
  intros Hd. exact (rb_slice_overflow e N HW HN r l g Hd H).
Qed.
Print Assumptions C32_ring_slice_overflow_refuted.
Example C32_example : rb_slice dbg (Included 1) Unbounded ex_ring log0 = Ret ex_ring log0 (1, 3) /\
  sl_contents dbg 4 (1, 3) ex_ring log0 = Ret ex_ring log0 [1; 2] /\ bound_ok dbg (Included 1) /\
  supported dbg (Included 1) Unbounded.
Proof. repeat split; try (vm_compute; reflexivity); [cbn; lia|left; reflexivity]. Qed.

(** C33, full statement: [sl_index e N s i r g] and [sl_assign e N s i v r g] panic whenever [snd s - fst s <= i].
    Proved when the index is even beyond the end of the buffer; inside the slice they access the right element. *)
Theorem C33_ring_slice_index_partial :
  forall (A : Type) (e : env A) (N : nat) (s : nat * nat) (r : ring A) (l : list A) (g : log A) (i : nat) (v : A),
  N + N < word e -> 0 < N -> calm e -> RHolds N r l -> fst s <= snd s <= length l -> fst s + i < word e ->
  agrees (RHolds N) eq g (sl_index e N s i r g)
    (match l !! (fst s + i) with Some a => SRet l a [] | None => SPanic l [] [] end) /\
  agrees (RHolds N) eq g (sl_assign e N s i v r g)
    (match l !! (fst s + i) with
     | Some a => SRet (take (fst s + i) l ++ v :: drop (S (fst s + i)) l) tt [a] | None => SPanic l [v] [] end) /\
  sl_get e N s i r g = Ret r g (if i <? snd s - fst s then l !! (fst s + i) else None).
Proof.
  intros A e N s r l g i v HW HN Hc H Hs Hi.
  split; [exact (sl_index_ok e N HW HN s l r g i H Hs Hi)|].
  split; [exact (sl_assign_ok e N HW HN Hc s l r g i v H Hs Hi)|].
  rewrite (sl_get_ok e N HW HN s l r g i H Hs). f_equal. destruct (i <? _) eqn:E.
  - apply (sub_list_lookup e N HW HN s l i Hs). lia.
  - apply lookup_none. rewrite (sub_list_length e N HW HN s l Hs). lia.
Qed.
Print Assumptions C33_ring_slice_index_partial.
(** Refuted: indices beyond the slice but inside the buffer give access to elements outside the slice; so the
    left half of a [split_at] reaches the elements of the right half. *)
Theorem C33_ring_slice_index_refuted :
  forall (A : Type) (e : env A) (N : nat) (s : nat * nat) (r : ring A) (l : list A) (g : log A) (i k : nat) (a : A),
  N + N < word e -> 0 < N -> RHolds N r l -> fst s <= snd s <= length l ->
  (snd s - fst s <= i -> l !! (fst s + i) = Some a ->
   exists r' g', sl_index e N s i r g = Ret r' g' a /\ RHolds N r' l) /\
  (k < snd s - fst s -> l !! (fst s + k) = Some a ->
   exists left right r' g', sl_split_at e s k r g = Ret r g (left, right) /\
     sl_get e N right 0 r g = Ret r g (Some a) /\ sl_index e N left k r g = Ret r' g' a).
Proof.
  intros A e N s r l g i k a HW HN H Hs. split.
  - exact (sl_index_beyond e N HW HN s r l g i a H Hs).
  - intros Hk Ha. pose proof (sl_split_at_ok e N HW HN s k r l g H Hs) as P.
    rewrite (sub_list_length e N HW HN s l Hs), if_true in P by lia.
    assert (I1 : in_range (fst s, fst s + k) l) by (unfold in_range; cbn; lia).
    assert (I2 : in_range (fst s + k, snd s) l) by (unfold in_range; cbn; lia).
    destruct (sl_index_beyond e N HW HN (fst s, fst s + k) r l g k a H I1) as (r' & g' & E & _); [cbn; lia|exact Ha|].
    exists (fst s, fst s + k), (fst s + k, snd s), r', g'. split; [exact P|]. split; [|exact E].
    rewrite (sl_get_ok e N HW HN _ l r g 0 H I2). f_equal.
    rewrite (sub_list_lookup e N HW HN _ l 0 I2) by (cbn; lia). cbn [fst]. rewrite Nat.add_0_r. exact Ha.
Qed.
Print Assumptions C33_ring_slice_index_refuted.
Example C33_example : sl_index dbg 4 (0, 1) 2 ex_ring log0 = Ret ex_ring log0 2 /\ sl_len dbg (0, 1) ex_ring log0 = Ret ex_ring log0 1.
Proof. split; vm_compute; reflexivity. Qed.

(** C34.  Proved for release builds, and for debug builds when the bytes fit before the end of the storage.
    [room N r buf]: the write does not wrap around. *)
Theorem C34_ring_io_partial :
  forall (e : env nat) (N : nat) (r : ring nat) (l buf : list nat) (g : log nat),
  N + N < word e -> 0 < N -> RHolds N r l ->
  (debug e = false \/ (origin r + length l) mod N + length buf `min` (N - length l) <= N ->
   agrees (RHolds N) eq g (rb_io_write e N buf r g)
    (SRet (l ++ take (N - length l) buf) (length buf `min` (N - length l)) [])) /\
  agrees (RHolds N) eq g (rb_io_read e N buf r g)
    (let n := length buf `min` length l in SRet (drop n l) (take n l ++ drop n buf, n) []).
Proof.
  intros e N r l buf g HW HN H. split; [|exact (rb_io_read_ok e N HW HN r l g buf H)].
  intros Hd. apply (rb_io_write_ok e N HW HN r l g buf H). destruct Hd as [Hd|Hd]; [left; exact Hd|right].
  unfold room. destruct H as (Ho & -> & Hl & _). rewrite <- wr_mod in Hd by lia. lia.
Qed.
Print Assumptions C34_ring_io_partial.
(** Refuted: in a debug build a write that wraps around the end of the storage panics (nothing is written). *)
Theorem C34_ring_io_write_refuted :
  forall (e : env nat) (N : nat) (r : ring nat) (l buf : list nat) (g : log nat),
  N + N < word e -> 0 < N -> RHolds N r l -> debug e = true ->
  N < (origin r + length l) mod N + length buf `min` (N - length l) -> rb_io_write e N buf r g = Panic r g.
Proof.
  intros e N r l buf g HW HN H Hd Hw. apply (rb_io_write_wrap e N HW HN r l g buf H Hd).
  unfold room. destruct H as (Ho & -> & Hl & _). rewrite <- wr_mod in Hw by lia. lia.
Qed.
Print Assumptions C34_ring_io_write_refuted.
Example C34_example : rb_io_write dbg 4 [7; 8] (Ring 3 0 mem0) log0 = Panic (Ring 3 0 mem0) log0 /\
  (exists r g, rb_io_write rel 4 [7; 8] (Ring 3 0 mem0) log0 = Ret r g 2 /\ rb_contents rel 4 r g = Ret r g [7; 8]).
Proof. split; [vm_compute; reflexivity|]. eexists _, _. split; vm_compute; reflexivity. Qed.

(** C35 is false of the code.  Capacity 0: construction panics in debug builds; in release builds the destructor
    and the iterators of the empty buffer never terminate.  (For capacities > 0 see C23.) *)
Theorem C35_ring_capacity_zero_refuted :
  forall (A : Type) (e : env A) (g : log A), 0 < word e ->
  (debug e = true -> rb_new e 0 tt g = Panic tt g) /\
  (debug e = false -> rb_new e 0 tt g = Ret tt g ring0) /\
  rb_destroy e 0 ring0 g = Hang /\ rb_iter e 0 ring0 g = Hang /\
  (* whatever the fuel of the loop *)
  (forall fuel x, wrap_down e 0 fuel x (@ring0 A) g = Hang).
Proof.
  intros A e g HW.
  exact (conj (rb_new_zero_debug e tt g) (conj (rb_new_zero_release e tt g) (conj (rb_destroy_zero e g HW)
        (conj (rb_iter_zero e g HW) (fun fuel x => wrap_down_zero e fuel x ring0 g))))).
Qed.
Print Assumptions C35_ring_capacity_zero_refuted.
(** What does hold: every capacity above zero. *)
Theorem C35_ring_positive_capacity_partial :
  forall (A : Type) (e : env A) (N : nat) (g : log A), N + N < word e -> 0 < N -> calm e ->
  exists r, rb_new e N tt g = Ret tt g r /\ RHolds N r [] /\ rb_contents e N r g = Ret r g [] /\
    exists r' g', rb_destroy e N r g = Ret r' g' tt /\ dropped g' = dropped g /\ leaked g' = leaked g.
Proof.
  intros A e N g HW HN Hc. exists ring0. split; [apply rb_new_eq; assumption|]. split; [exact (ring0_holds N HN)|].
  split; [exact (rb_contents_eq e N HW HN ring0 [] g (ring0_holds N HN))|].
  destruct (rb_destroy_ok e N HW HN Hc ring0 [] g (ring0_holds N HN)) as (r' & g' & [] & E & _ & _ & D & L).
  exists r', g'. rewrite app_nil_r in D. auto.
Qed.
Print Assumptions C35_ring_positive_capacity_partial.

(** C36. *)
Theorem C36_ring_clone_eq_cmp_hash :
  forall (A : Type) (e : env A) (N : nat) (r1 r2 : ring A) (l1 l2 : list A) (g : log A)
         (cl : nat -> A -> option A) (eqA : A -> A -> bool) (pc : A -> A -> option comparison) (cmp : A -> A -> comparison),
  N + N < word e -> 0 < N -> calm e -> RHolds N r1 l1 -> RHolds N r2 l2 ->
  agrees (RHolds N) (RMade N) g (rb_clone e N cl r1 g)
    (if length (clones cl 0 l1) =? length l1 then SRet l1 (clones cl 0 l1) [] else SPanic l1 (clones cl 0 l1) []) /\
  rb_eq e N eqA (r1, r2) g = Ret (r1, r2) g (slice_eq eqA l1 l2) /\
  ((forall a b, eqA a b = true <-> a = b) -> (slice_eq eqA l1 l2 = true <-> l1 = l2)) /\
  rb_eq_list e N eqA l2 r1 g = Ret r1 g (slice_eq eqA l1 l2) /\
  rb_partial_cmp e N pc (r1, r2) g = Ret (r1, r2) g (iter_partial_cmp pc l1 l2) /\
  rb_cmp e N cmp (r1, r2) g = Ret (r1, r2) g (iter_cmp cmp l1 l2) /\
  rb_hash e N r1 g = Ret r1 g (map HItem l1).
Proof.
  intros A e N r1 r2 l1 l2 g cl eqA pc cmp HW HN Hc H1 H2.
  exact (conj (rb_clone_ok e N HW HN Hc cl r1 l1 g H1) (conj (rb_eq_ok e N HW HN eqA r1 r2 l1 l2 g H1 H2)
        (conj (fun Heq => slice_eq_iff eqA Heq l1 l2) (conj (rb_eq_list_ok e N HW HN eqA r1 l1 l2 g H1)
        (conj (rb_partial_cmp_ok e N HW HN pc r1 r2 l1 l2 g H1 H2)
        (conj (rb_cmp_ok e N HW HN cmp r1 r2 l1 l2 g H1 H2) (rb_hash_ok e N HW HN r1 l1 g H1))))))).
Qed.
Print Assumptions C36_ring_clone_eq_cmp_hash.
(** The same for slices of buffers. *)
Theorem C36_ring_slice_eq_cmp_hash :
  forall (A : Type) (e : env A) (N : nat) (s1 s2 : nat * nat) (r1 r2 : ring A) (l1 l2 other : list A) (g : log A)
         (cl : nat -> A -> option A) (eqA : A -> A -> bool) (pc : A -> A -> option comparison) (cmp : A -> A -> comparison),
  N + N < word e -> 0 < N -> calm e -> RHolds N r1 l1 -> RHolds N r2 l2 ->
  fst s1 <= snd s1 <= length l1 -> fst s2 <= snd s2 <= length l2 ->
  let v1 := take (snd s1 - fst s1) (drop (fst s1) l1) in
  let v2 := take (snd s2 - fst s2) (drop (fst s2) l2) in
  agrees (RHolds N) (RMade N) g (sl_to_owned e N cl s1 r1 g)
    (if length (clones cl 0 v1) =? length v1 then SRet l1 (clones cl 0 v1) [] else SPanic l1 (clones cl 0 v1) []) /\
  sl_eq e N eqA s1 s2 (r1, r2) g = Ret (r1, r2) g (slice_eq eqA v1 v2) /\
  sl_eq_list e N eqA s1 other r1 g = Ret r1 g (slice_eq eqA v1 other) /\
  sl_partial_cmp e N pc s1 s2 (r1, r2) g = Ret (r1, r2) g (iter_partial_cmp pc v1 v2) /\
  sl_cmp e N cmp s1 s2 (r1, r2) g = Ret (r1, r2) g (iter_cmp cmp v1 v2) /\
  sl_hash e N s1 r1 g = Ret r1 g (map HItem v1).
Proof.
  intros A e N s1 s2 r1 r2 l1 l2 other g cl eqA pc cmp HW HN Hc H1 H2 I1 I2 v1 v2.
  split. { pose proof (sl_to_owned_ok e N HW HN Hc cl s1 r1 l1 g H1 I1) as P. unfold bl_clone in P.
    change (sub_list s1 l1) with v1 in P. destruct (length (clones cl 0 v1) =? length v1); exact P. }
  exact (conj (sl_eq_ok e N HW HN eqA s1 s2 r1 r2 l1 l2 g H1 H2 I1 I2)
        (conj (sl_eq_list_ok e N HW HN eqA s1 r1 l1 other g H1 I1)
        (conj (sl_partial_cmp_ok e N HW HN pc s1 s2 r1 r2 l1 l2 g H1 H2 I1 I2)
        (conj (sl_cmp_ok e N HW HN cmp s1 s2 r1 r2 l1 l2 g H1 H2 I1 I2) (sl_hash_ok e N HW HN s1 r1 l1 g H1 I1))))).
Qed.
Print Assumptions C36_ring_slice_eq_cmp_hash.
Example C36_example : match rb_clone dbg 4 (fun k a => if k <? 2 then Some (a + 10) else None) ex_ring log0 with
  | Panic r g => dropped g = [13; 11] /\ match rb_contents dbg 4 r g with Ret _ _ l => l = [3; 1; 2] | _ => False end
  | _ => False
  end.
Proof. vm_compute. auto. Qed.

(** Construction from iterators, as C21. *)
Theorem C36_ring_collect_extend :
  forall (A : Type) (e : env A) (N : nat) (k : nat) (it : list (ev A)) (r : ring A) (l : list A) (g : log A),
  N + N < word e -> 0 < N -> calm e -> RHolds N r l ->
  agrees (RHolds N) eq g (rb_extend e N it r g) (bl_extend N it l) /\
  agrees (fun _ _ => True) (RMade N) g (rb_from_iter e N it tt g) (bl_from_iter N it) /\
  agrees eq (RMade N) g (rb_collect_from e N k it g) (bl_collect N k it []).
Proof.
  intros A e N k it r l g HW HN Hc H.
  exact (conj (rb_extend_ok e N HW HN Hc it r l g H) (conj (rb_from_iter_unit e N HW HN Hc it g)
        (rb_collect_from_ok e N HW HN Hc k it g))).
Qed.
Print Assumptions C36_ring_collect_extend.
Example C36_collect_example : exists r g, rb_collect_from dbg 4 2 [Yield 7; Yield 8; Yield 9] log0 = Ret [Yield 9] g (r, tt) /\
  rb_contents dbg 4 r g = Ret r g [7; 8].
Proof. eexists _, _. split; vm_compute; reflexivity. Qed.

(** C37. *)
Theorem C37_ring_index_arithmetic :
  forall (A O : Type) (e : env A) (N i k : nat) (o : O) (g : log A), 0 < N ->
  (i + k < word e ->
   raw_add e N i k o g = Ret o g ((i + k) mod N) /\ raw_add_assign e N i k o g = Ret o g ((i + k) mod N)) /\
  (i < N -> k + N < word e -> exists x, x < N /\ (x + k) mod N = i mod N /\
   raw_sub e N i k o g = Ret o g x /\ raw_sub_assign e N i k o g = Ret o g x) /\
  (i < N -> N < word e -> raw_inc e N i o g = Ret o g ((i + 1) mod N)) /\
  (i < N -> raw_dec e N i o g = Ret o g ((i + (N - 1)) mod N)).
Proof.
  intros A O e N i k o g HN. split; [|split; [|split]].
  - intros H. exact (raw_add_mod e N HN i k o g H).
  - intros Hi Hk. destruct (raw_sub_mod e N HN i k o g Hi Hk) as (x & H1 & H2 & H3 & H4). eauto 6.
  - intros Hi HW. exact (raw_inc_mod e N HN i o g Hi HW).
  - intros Hi. exact (raw_dec_mod e N HN i o g Hi).
Qed.
Print Assumptions C37_ring_index_arithmetic.
Example C37_example : raw_sub dbg 5 2 104 tt log0 = Ret tt log0 3 /\ (3 + 104) mod 5 = 2 mod 5 /\ 104 + 5 < word dbg.
Proof. split; [vm_compute; reflexivity|]. split; [reflexivity|vm_compute; lia]. Qed.
