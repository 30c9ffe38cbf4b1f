(** * A client closure called on every element of a mutable iterator: it may leave the element, replace it, assign to it
    (the destructor of the old value runs then, and may panic) or panic. *)
From Verif Require Import Machine IterSpec.
From Verif Require ChunkModel RingModel SparseModel InlineModel.

(** What one call of the closure, [|x: &mut A| ..], does with [*x]. *)
Inductive use (A : Type) :=
| Leaves              (* nothing *)
| Replaces (b : A)    (* [let old = mem::replace(x, b)], [old] being consumed without running its destructor *)
| Assigns (b : A)     (* [*x = b] *)
| Panics.
Arguments Leaves {A}. Arguments Replaces {A}. Arguments Assigns {A}. Arguments Panics {A}.

Section visit.
Context {A X : Type} (e : env A).
(** [next]/[next_back] of the iterator: the reference obtained (a slot number) and the value read through it;
    [replace]: [mem::replace] through a reference. *)
Variable (pull : side -> M A X (option (nat * A))) (replace : nat -> A -> M A X A).
(** Client code: [if let Some(x) = it.next() { f(x) }] (or [next_back]), once for every entry of [script];
    [act k a] is what the [k]-th call of the closure does when it finds [a]. *)
Fixpoint visit (act : nat -> A -> use A) (k : nat) (script : list side) : M A X unit :=
  match script with
  | [] => ret tt
  | s :: script' =>
      let! x := pull s in
      match x with
      | None => visit act k script'
      | Some (p, a) =>
          match act k a with
          | Leaves => ret tt
          | Replaces b => let! _ := replace p b in ret tt
          | Assigns b => let! old := replace p b in drop_values e [old]
          | Panics => panic
          end ;;;
          visit act (S k) script'
      end
  end.
End visit.
(** [mem::replace] through a reference to slot [p]. *)
Definition swap_slot {A O} `{HasMem A O} (N p : nat) (b : A) : M A O A :=
  let! old := slot_read N p in slot_write N p b ;;; ret old.
(** The iterator goes out of scope (no iterator of the crate has a destructor), the container stays. *)
Definition scoped {A I C R} (i : I) (m : M A (I * C) R) : M A C R := fun c g =>
  match m (i, c) g with
  | Ret x g r => Ret (snd x) g r
  | Panic x g => Panic (snd x) g
  | UB u => UB u | Hang => Hang | Abort => Abort
  end.
Definition scoped_fst {A I C R} (i : I) (m : M A (C * I) R) : M A C R := fun c g =>
  match m (c, i) g with
  | Ret x g r => Ret (fst x) g r
  | Panic x g => Panic (fst x) g
  | UB u => UB u | Hang => Hang | Abort => Abort
  end.
Section chunk.
Import ChunkModel.
Context {A : Type} (e : env A) (N : nat) (act : nat -> A -> use A).
(** [slice::IterMut] over the slots [fst it .. snd it) of the chunk (core). *)
Definition sm_pull (s : side) : M A ((nat * nat) * chunk A) (option (nat * A)) :=
  let! x := get in
  if fst (fst x) <? snd (fst x) then
    match s with
    | Front =>
        on_fst (put (S (fst (fst x)), snd (fst x))) ;;;
        let! a := on_snd (slot_peek N (fst (fst x))) in
        ret (Some (fst (fst x), a))
    | Back =>
        on_fst (put (fst (fst x), snd (fst x) - 1)) ;;;
        let! a := on_snd (slot_peek N (snd (fst x) - 1)) in
        ret (Some (snd (fst x) - 1, a))
    end
  else ret None.
(** src/sized_chunk/mod.rs 893-899 [IntoIterator for &mut Chunk], which is [iter_mut] of the slice (692-699 [as_mut_slice])
    through [DerefMut]; then the closure is called on the elements. *)
Definition ch_visit (script : list side) : M A (chunk A) unit :=
  let! c := get in
  let! n := len e in
  scoped (left c, left c + n) (visit e sm_pull (fun p b => on_snd (swap_slot N p b)) act 0 script).
End chunk.
Section ring.
Import RingModel.
Context {A : Type} (e : env A) (N : nat) (act : nat -> A -> use A).
(** src/ring_buffer/iter.rs 89-125 [IterMut::next], [next_back]. *)
Definition rm_pull (s : side) : M A (idx * ring A) (option (nat * A)) :=
  match s with Front => it_next e N | Back => it_next_back e N end.
(** src/ring_buffer/mod.rs 340-342 [iter_mut], 970-979 [IntoIterator for &mut RingBuffer]. *)
Definition rb_visit (script : list side) : M A (ring A) unit :=
  let! ix := rb_iter e N in
  scoped ix (visit e rm_pull (fun p b => on_snd (swap_slot N p b)) act 0 script).
(** src/ring_buffer/slice.rs 342-348 [SliceMut::iter_mut], 538-547 [IntoIterator] of a mutable slice. *)
Definition sl_visit (s : nat * nat) (script : list side) : M A (ring A) unit :=
  let! ix := sl_iter e N s in
  scoped ix (visit e rm_pull (fun p b => on_snd (swap_slot N p b)) act 0 script).
End ring.
Section sparse.
Import SparseModel.
Context {A : Type} (e : env A) (N : nat) (act : nat -> A -> use A).
(** src/sparse_chunk/mod.rs 256-261 [iter_mut]; src/sparse_chunk/iter.rs 38-59 [IterMut], which has no [next_back]. *)
Definition sp_visit (n : nat) : M A (sparse A) unit :=
  let! c := get in
  scoped_fst (smap c) (visit e (fun _ => im_next N) (fun p b => on_fst (swap_slot N p b)) act 0 (repeat Front n)).
(** src/sparse_chunk/mod.rs 289-293 [option_iter_mut]; client code [chunk.option_iter_mut().flatten()]: core's
    [Flatten::next] calls [OptionIterMut::next] until it gives an occupied entry or ends (at most [N] + 1 times: the fuel). *)
Fixpoint om_flat (fuel : nat) : M A (sparse A * nat) (option (nat * A)) :=
  match fuel with
  | 0 => hang
  | S fuel' =>
      let! x := om_next e N in
      match x with
      | None => ret None
      | Some None => om_flat fuel'
      | Some (Some r) => ret (Some r)
      end
  end.
Definition om_visit (n : nat) : M A (sparse A) unit :=
  scoped_fst 0 (visit e (fun _ => om_flat (S N)) (fun p b => on_fst (swap_slot N p b)) act 0 (repeat Front n)).
End sparse.
Section inline.
Import InlineModel.
Context {A : Type} (e : env A) (L : layout) (b : nat) (d : ptr) (act : nat -> A -> use A).
(** [slice::IterMut] over the elements [fst it .. snd it) of the slice starting at [d] (core). *)
Definition ia_at (i : nat) : M A (inline A) A :=
  let! p := ptr_add L d i (size_a L) in
  let! l := elems_peek L b p 1 in
  match l with [a] => ret a | _ => undefined DeadSlot end.
Definition ia_swap (i : nat) (v : A) : M A (inline A) A :=
  let! p := ptr_add L d i (size_a L) in
  let! old := elem_read L b p in
  elem_write L b p v ;;;
  ret old.
Definition ai_pull (s : side) : M A ((nat * nat) * inline A) (option (nat * A)) :=
  let! x := get in
  if fst (fst x) <? snd (fst x) then
    match s with
    | Front =>
        on_fst (put (S (fst (fst x)), snd (fst x))) ;;;
        let! a := on_snd (ia_at (fst (fst x))) in
        ret (Some (fst (fst x), a))
    | Back =>
        on_fst (put (fst (fst x), snd (fst x) - 1)) ;;;
        let! a := on_snd (ia_at (snd (fst x) - 1)) in
        ret (Some (snd (fst x) - 1, a))
    end
  else ret None.
End inline.
(** src/inline_array/mod.rs 561-567 [IntoIterator for &mut InlineArray], which is [iter_mut] of the slice (449-453
    [deref_mut]); then the closure is called on the elements. *)
Definition ia_visit {A} (e : env A) (L : InlineModel.layout) (b : nat) (act : nat -> A -> use A) (script : list side)
  : M A (InlineModel.inline A) unit :=
  let! d := InlineModel.ia_data e L b in
  let! n := InlineModel.ia_len e L b in
  scoped (0, n) (visit e (ai_pull L b d) (fun i v => on_snd (ia_swap L b d i v)) act 0 script).
