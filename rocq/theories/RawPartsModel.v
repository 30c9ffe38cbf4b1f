(** * Slices made with [core::slice::from_raw_parts].

    The documented contract of [from_raw_parts(ptr, n)]: all [n] elements are initialised.  [slots_peek] (Machine.v) checks
    exactly this.  [Chunk::as_slice] (ChunkModel.v) and [InlineArray::deref] (InlineModel.v) are modelled with it.  The model
    of [SparseChunk] (SparseModel.v) looks only at the slot wanted; here are its methods again, with the contract of
    [from_raw_parts] enforced wherever the code calls it. *)
From Verif Require Import Machine SparseModel.

Section raw.
Context {A : Type} (e : env A) (N : nat).
Notation M := (M A (sparse A)).

(** sparse_chunk/mod.rs 93-96 [values], 98-101 [values_mut]: a slice of all [N] slots. *)
Definition raw_values : M (list A) := slots_peek N 0 N.
(** sparse_chunk/mod.rs 103-107 [force_read], 109-113 [force_write]. *)
Definition raw_force_read (index : nat) : M A := raw_values ;;; sp_force_read N index.
Definition raw_force_write (index : nat) (value : A) : M unit := raw_values ;;; sp_force_write e N index value.
(** sparse_chunk/mod.rs 156-169 [insert]. *)
Definition raw_insert (index : nat) (value : A) : M (option A) :=
  if N <=? index then panic_dropping e value
  else
    let! was := map_set N index true in
    if was then
      raw_values ;;;
      (if index <? N then
        let! old := slot_read N index in
        slot_write N index value ;;;
        ret (Some old)
      else panic_dropping e value)
    else
      raw_force_write index value ;;;
      ret None.
(** sparse_chunk/mod.rs 171-183 [remove]. *)
Definition raw_remove (index : nat) : M (option A) :=
  if N <=? index then panic
  else
    let! was := map_set N index false in
    if was then let! a := raw_force_read index in ret (Some a)
    else ret None.
(** sparse_chunk/mod.rs 216-224 [get_unchecked], 192-202 [get]. *)
Definition raw_get (index : nat) : M (option A) :=
  if N <=? index then ret None
  else
    let! b := map_get N index in
    if b then raw_values ;;; let! a := sp_get_unchecked N index in ret (Some a) else ret None.
(** sparse_chunk/mod.rs 59-71 [drop]: the slice is made anew for every element dropped. *)
Fixpoint raw_drop_loop (bits : list nat) : M unit :=
  match bits with
  | [] => ret tt
  | index :: bits' =>
      raw_values ;;;
      (if index <? N then slots_drop e N index 1 else panic) ;;;
      raw_drop_loop bits'
  end.
Definition raw_drop : M unit := let! c := get in raw_drop_loop (bm_indices N (smap c)).
End raw.
