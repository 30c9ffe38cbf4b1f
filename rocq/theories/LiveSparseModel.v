(** * Collecting a [SparseChunk] from a live iterator of options (the rest of LiveModel.v). *)
From Verif Require Import Machine SparseModel LiveModel.

Section sparse.
Context {A S : Type} (e : env A) (N : nat) (next : M A S (option (option A))).
(** sparse_chunk/mod.rs 352-368 [FromIterator<Option<A>>::from_iter]: the loop, with the counter of [enumerate] at [index].
    [fuel] bounds the number of items.  The counter is a [usize]; for an item that is stored it is stepped here after the
    store instead of before, which only matters if it overflows, and then the store panics all the same. *)
Fixpoint sp_fill_live (fuel index : nat) : M A (sparse A * (S * log A)) unit :=
  match fuel with
  | 0 => hang
  | Datatypes.S fuel' =>
      let! x := on_iter next in
      match x with
      | None => ret tt
      | Some None =>
          let! index' := uadd e index 1 in
          sp_fill_live fuel' index'
      | Some (Some value) =>
          let! old := on_fst (sp_insert e N index value) in
          on_fst (drop_values e (option_list old)) ;;;
          let! index' := uadd e index 1 in
          sp_fill_live fuel' index'
      end
  end.
Definition sp_from_iter_live (fuel : nat) : M A (S * log A) (sparse A * unit) :=
  let! out := sp_new in with_local out (sp_destroy e N) (sp_fill_live fuel 0).
End sparse.
