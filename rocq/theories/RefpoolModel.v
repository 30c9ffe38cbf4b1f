(** * Model of src/sized_chunk/refpool.rs and src/ring_buffer/refpool.rs (the one for [SparseChunk] is in
    SparseModel.v).

    The target of [default_uninit] and [clone_uninit] is uninitialised memory: its [usize] fields contain any
    values, its slots hold no live element.  The state is (target, self). *)
From Verif Require Import Machine ChunkModel RingModel.

Section refpool.
Context {A : Type} (e : env A) (N : nat).

(** sized_chunk/refpool.rs 8-14 [default_uninit]. *)
Definition chunk_default_uninit : M A (chunk A) unit := set_left 0 ;;; set_right 0.
(** sized_chunk/refpool.rs 21-32 [clone_uninit].  [cl k a] is the result of the [k]-th call of [A::clone]. *)
Fixpoint chunk_clone_uninit_loop (cl : nat -> A -> option A) (n index k : nat) : M A (chunk A * chunk A) unit :=
  match n with
  | 0 => ret tt
  | S n' =>
      let! a := on_snd (slot_peek N index) in
      match cl k a with
      | None => panic
      | Some a' => on_fst (slot_write N index a') ;;; chunk_clone_uninit_loop cl n' (S index) (S k)
      end
  end.
Definition chunk_clone_uninit (cl : nat -> A -> option A) : M A (chunk A * chunk A) unit :=
  let! s := get in
  on_fst (set_left (left (snd s))) ;;;
  on_fst (set_right (right (snd s))) ;;;
  chunk_clone_uninit_loop cl (right (snd s) - left (snd s)) (left (snd s)) 0.

(** ring_buffer/refpool.rs 9-16 [default_uninit]. *)
Definition ring_default_uninit : M A (ring A) unit :=
  let! z := raw_from e N 0 in
  set_origin z ;;; set_length 0.
(** ring_buffer/refpool.rs 22-36 [clone_uninit]; the loop is over [self.range()]. *)
Fixpoint ring_clone_uninit_loop (cl : nat -> A -> option A) (n index k : nat) : M A (ring A * ring A) unit :=
  match n with
  | 0 => ret tt
  | S n' =>
      let! index' := raw_inc e N index in
      ptr e N index ;;;
      let! a := on_snd (slot_peek N index) in
      match cl k a with
      | None => panic
      | Some a' => on_fst (slot_write N index a') ;;; ring_clone_uninit_loop cl n' index' (S k)
      end
  end.
Definition ring_clone_uninit (cl : nat -> A -> option A) : M A (ring A * ring A) unit :=
  let! s := get in
  on_fst (set_origin (origin (snd s))) ;;;
  on_fst (set_length (rlen (snd s))) ;;;
  let! rg := on_snd (rb_range e N) in
  ring_clone_uninit_loop cl (snd rg) (fst rg) 0.
End refpool.
