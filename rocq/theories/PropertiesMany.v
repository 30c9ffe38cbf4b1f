(** * Several shared iterators over one container at the same time (C90). *)
From Verif Require Import Machine IterSpec ManyModel ManySpec ManyProofs ChunkExamples.
From Verif Require RingModel RingProofs RingProofs4 SparseModel SparseSpec SparseProofs RingLaws Instances.

Section many.
Context {A : Type} (e : env A).
(** C90.  Any number of shared iterators of one ring buffer ([None]: of the whole buffer; [Some (i, j)]: of its slice [i..j]),
    asked in any order: each answers as if it were alone.  The buffer is bit for bit the same afterwards, and no destructor has run. *)
Theorem C90_ring_shared_iterators : forall N vs script (r : RingModel.ring A) l g, N + N < word e -> 0 < N ->
  RingProofs.RHolds N r l -> (forall i j, In (Some (i, j)) vs -> i <= j <= length l) ->
  exists g' outs, ring_readers e N vs script r g = Ret r g' outs /\ dropped g' = dropped g /\ leaked g' = leaked g /\
    independent (map (fun v => match v with None => l | Some (i, j) => take (j - i) (drop i l) end) vs) script outs.
Proof.
  intros N vs script r l g HW HN H F.
  destruct (ring_readers_ok e N HW HN vs script r l g H) as (g' & outs & E & I & D & K).
  { apply Forall_forall. intros v Hv [i j] ->. exact (F i j Hv). }
  exists g', outs. split; [exact E|]. split; [exact D|]. split; [exact K|].
  erewrite map_ext; [exact I|]. intros [[i j]|]; reflexivity.
Qed.
(** The same for a sparse chunk and its three kinds of shared iterators. *)
Theorem C90_sparse_shared_iterators : forall N vs script (c : SparseModel.sparse A) s g, N < word e -> SparseProofs.SHolds N c s ->
  exists g' outs, sparse_readers e N vs script c g = Ret c g' outs /\ dropped g' = dropped g /\ leaked g' = leaked g /\
    independent (map (fun v => match v with Values => map Value (SparseSpec.values s) | Entries => map Entry (SparseSpec.entries s)
                               | Options => map Option s end) vs)
      (map (fun j => (j, Front)) script) outs.
Proof.
  intros N vs script c s g HW H. destruct (sparse_readers_ok e N HW vs script c s g H) as (g' & outs & E & I & D & K).
  exists g', outs. split; [exact E|]. split; [exact D|]. split; [exact K|]. exact I.
Qed.
(** What [independent] says about the whole history: the answers are as many as the calls on existing iterators and in the same order,
    and any two histories with the same iterators and the same calls, however interleaved, give each iterator the same answers. *)
Theorem C90_interleaving_is_irrelevant : forall I (lists : list (list I)) script script' outs outs',
  (forall j, calls_of j script = calls_of j script') -> independent lists script outs -> independent lists script' outs' ->
  forall j, j < length lists -> answers_of j outs = answers_of j outs'.
Proof.
  intros I lists script script' outs outs' Ec [_ H] [_ H'] j Hj.
  destruct (lists !! j) as [l|] eqn:El; [|apply nth_error_None in El || apply lookup_ge_None in El; lia].
  rewrite (H j l El), (H' j l El), Ec. reflexivity.
Qed.
End many.
Print Assumptions C90_ring_shared_iterators.
Print Assumptions C90_sparse_shared_iterators.
Print Assumptions C90_interleaving_is_irrelevant.

(** Non-vacuity: [3; 1; 2] wrapped in a ring of capacity 4; two iterators of it all and one of the slice [1..3]. *)
Example C90_ring_example :
  match ring_readers dbg 4 [None; Some (1, 3); None] [(0, Front); (1, Back); (2, Back); (0, Back); (1, Front); (1, Front); (0, Front); (0, Front); (7, Back)]
          RingLaws.ex_ring log0 with
  | Ret _ _ outs => Some outs | _ => None end
  = Some [(0, Some 3); (1, Some 2); (2, Some 2); (0, Some 2); (1, Some 1); (1, None); (0, Some 1); (0, None)].
Proof. vm_compute. reflexivity. Qed.
Definition C90_ring_case := C90_ring_shared_iterators dbg 4 [None; Some (1, 3); None] [(0, Front); (1, Back)] RingLaws.ex_ring [3; 1; 2] log0
  ltac:(cbn; lia) ltac:(lia) (proj1 RingLaws.ex_ring_holds)
  ltac:(intros i j [E|[E|[E|[]]]]; inversion E; subst; cbn; lia).
Example C90_sparse_example :
  match sparse_readers rel 4 [Values; Entries; Options] [0; 1; 2; 2; 0; 0; 1; 2; 2; 2] Instances.ex_sparse log0 with
  | Ret _ _ outs => Some outs | _ => None end
  = Some [(0, Some (Value 8)); (1, Some (Entry (0, 8))); (2, Some (Option (Some 8))); (2, Some (Option None)); (0, Some (Value 7)); (0, None);
          (1, Some (Entry (2, 7))); (2, Some (Option (Some 7))); (2, Some (Option None)); (2, None)].
Proof. vm_compute. reflexivity. Qed.
Definition C90_sparse_case := C90_sparse_shared_iterators rel 4 [Values; Entries; Options] [0; 1; 2] Instances.ex_sparse
  [Some 8; None; Some 7; None] log0 ltac:(cbn; lia) Instances.ex_sparse_holds.
