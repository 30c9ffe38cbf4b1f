(** * Model of [SparseChunk<A, N>]  (src/sparse_chunk/{mod,iter,refpool}.rs)

    Every method is transcribed statement by statement.  [N] is the const generic parameter.

    The occupation bitmap is [bitmaps::Bitmap<N>] of the external crate [bitmaps]; only its documented
    contract is used ([bm_*] below).  Calling [get]/[set] with an index [>= N] violates that contract and
    counts as undefined behaviour here (the crate has a debug assertion there).

    Simplification: [values()]/[values_mut()] (mod.rs 93-101) build a slice [&[A]] over all [N] slots, also
    over those holding no value.  Building the slice is not an event of this model; using one of its
    elements is (a bounds check, then an access to the slot, which must be live to be read or dropped). *)
From Verif Require Import Machine.

(** ** Contract of [bitmaps::Bitmap<N>] (bitmaps 3.x, used at mod.rs 20, 55 and iter.rs 1). *)
Definition bitmap := nat -> bool.
Section bitmap.
Context (N : nat).
(** [Bitmap::default()]/[Bitmap::new()]: no bit set. *)
Definition bm0 : bitmap := fun _ => false.
Definition bm_put (b : bitmap) (i : nat) (v : bool) : bitmap := fun p => if p =? i then v else b p.
(** What [for index in &bits] yields: the set bits in increasing order. *)
Definition bm_indices (b : bitmap) : list nat := List.filter b (seq 0 N).
(** [Bitmap::len]: the number of set bits. *)
Definition bm_len (b : bitmap) : nat := length (bm_indices b).
(** [Bitmap::first_index]: the least set bit. *)
Definition bm_first (b : bitmap) : option nat := List.find b (seq 0 N).
(** [bitmaps::Iter::next] on an iterator standing at [cur]: the least set bit at or after [cur]. *)
Definition bm_next (b : bitmap) (cur : nat) : option nat := List.find b (seq cur (N - cur)).
(** [PartialEq for Bitmap]. *)
Definition bm_eq (b1 b2 : bitmap) : bool := forallb (fun i => Bool.eqb (b1 i) (b2 i)) (seq 0 N).
End bitmap.

(** mod.rs 50-56: [pub struct SparseChunk<A, const N: usize> { map, data }]. *)
Record sparse (A : Type) := Sparse { smap : bitmap; sdata : mem A }.
Arguments Sparse {A}. Arguments smap {A}. Arguments sdata {A}.
Global Instance sparse_mem A : HasMem A (sparse A) :=
  {| getm := sdata; setm := fun m c => Sparse (smap c) m |}.

Section sparse.
Context {A : Type} (e : env A) (N : nat).
Notation M := (M A (sparse A)).

(** [self.map.get(index)]. *)
Definition map_get (index : nat) : M bool :=
  let! c := get in
  if index <? N then ret (smap c index) else undefined OutOfBounds.
(** [self.map.set(index, value)]: returns the previous value of the bit. *)
Definition map_set (index : nat) (value : bool) : M bool :=
  let! c := get in
  if index <? N then put (Sparse (bm_put (smap c) index value) (sdata c)) ;;; ret (smap c index)
  else undefined OutOfBounds.

(** mod.rs 103-107 [force_read]: [ptr::read(&chunk.values()[index])]. *)
Definition sp_force_read (index : nat) : M A :=
  if index <? N then slot_read N index else panic.
(** mod.rs 109-113 [force_write]. *)
Definition sp_force_write (index : nat) (value : A) : M unit :=
  if index <? N then slot_write N index value else panic_dropping e value.

(** mod.rs 59-71 [Drop::drop].  [bits] is a copy of the map.  [needs_drop] is false only for types whose
    destructor does nothing. *)
Fixpoint sp_drop_loop (bits : list nat) : M unit :=
  match bits with
  | [] => ret tt
  | index :: bits' =>
      (if index <? N then slots_drop e N index 1 else panic) ;;;
      sp_drop_loop bits'
  end.
Definition sp_drop : M unit := let! c := get in sp_drop_loop (bm_indices N (smap c)).
Definition sp_destroy : M unit := destroying N sp_drop.

(** mod.rs 115-121 [new]; 308-315 [default]. *)
Definition sparse0 : sparse A := Sparse bm0 mem0.
Definition sp_new {O} : Machine.M A O (sparse A) := ret sparse0.

(** mod.rs 138-142 [len]; 144-148 [is_empty]; 150-154 [is_full]. *)
Definition sp_len : M nat := let! c := get in ret (bm_len N (smap c)).
Definition sp_is_empty : M bool := let! c := get in ret (bm_len N (smap c) =? 0).
Definition sp_is_full : M bool := let! n := sp_len in ret (n =? N).

(** mod.rs 156-169 [insert]. *)
Definition sp_insert (index : nat) (value : A) : M (option A) :=
  if N <=? index then panic_dropping e value
  else
    let! was := map_set index true in
    if was then
      (* Some(mem::replace(&mut self.values_mut()[index], value)) *)
      if index <? N then
        let! old := slot_read N index in
        slot_write N index value ;;;
        ret (Some old)
      else panic_dropping e value
    else
      sp_force_write index value ;;;
      ret None.
(** mod.rs 171-183 [remove]. *)
Definition sp_remove (index : nat) : M (option A) :=
  if N <=? index then panic
  else
    let! was := map_set index false in
    if was then let! a := sp_force_read index in ret (Some a)
    else ret None.
(** mod.rs 241-244 [first_index]. *)
Definition sp_first_index : M (option nat) := let! c := get in ret (bm_first N (smap c)).
(** mod.rs 185-190 [pop]. *)
Definition sp_pop : M (option A) :=
  let! first := sp_first_index in
  match first with
  | None => ret None
  | Some index => sp_remove index
  end.
(** mod.rs 216-224, 226-234 [get_unchecked]/[get_unchecked_mut]: no bounds check. *)
Definition sp_get_unchecked (index : nat) : M A := slot_peek N index.
(** mod.rs 192-202 [get]; 204-214 [get_mut] is the same with a mutable reference. *)
Definition sp_get (index : nat) : M (option A) :=
  if N <=? index then ret None
  else
    let! b := map_get index in
    if b then let! a := sp_get_unchecked index in ret (Some a) else ret None.
(** Client code [c.get_mut(index).map(|r| mem::replace(r, value))]: when there is no value the closure,
    which owns [value], is dropped. *)
Definition sp_get_mut_replace (index : nat) (value : A) : M (option A) :=
  let! x := sp_get index in
  match x with
  | Some _ =>
      let! old := slot_read N index in
      slot_write N index value ;;;
      ret (Some old)
  | None => drop_values e [value] ;;; ret None
  end.
(** mod.rs 317-327 [Index::index]: [self.get(index).unwrap()]. *)
Definition sp_index (index : nat) : M A :=
  let! x := sp_get index in match x with Some a => ret a | None => panic end.
(** mod.rs 329-337 [IndexMut::index_mut], used as [c[index] = value]: the old value is dropped, then the
    new one is stored (also if that destructor panics). *)
Definition sp_assign (index : nat) (value : A) : M unit :=
  let! x := sp_get index in
  match x with
  | None => panic_dropping e value
  | Some _ =>
      let! old := slot_read N index in
      slot_write N index value ;;;
      drop_values e [old]
  end.

(** mod.rs 123-128 [unit].  The [Option<A>] returned by [insert] is dropped. *)
Definition sp_unit (index : nat) (value : A) : Machine.M A unit (sparse A * unit) :=
  let! c := sp_new in
  with_local c sp_destroy (
    let! old := on_fst (sp_insert index value) in
    on_fst (drop_values e (option_list old))).
(** mod.rs 130-136 [pair].  If the first [insert] panics, [value2] is dropped with the other arguments,
    after the chunk. *)
Definition sp_pair (index1 : nat) (value1 : A) (index2 : nat) (value2 : A)
  : Machine.M A unit (sparse A * unit) := fun o g =>
  let first :=
    with_local sparse0 sp_destroy (
      let! old := on_fst (sp_insert index1 value1) in
      on_fst (drop_values e (option_list old))) in
  match first o g with
  | Ret o g (c, _) =>
      with_local c sp_destroy (
        let! old := on_fst (sp_insert index2 value2) in
        on_fst (drop_values e (option_list old))) o g
  | Panic o g => panic_dropping e value2 o g
  | UB u => UB u
  | Hang => Hang
  | Abort => Abort
  end.

(** mod.rs 236-239 [indices]: everything the iterator yields. *)
Definition sp_indices : M (list nat) := let! c := get in ret (bm_indices N (smap c)).

(** mod.rs 73-84 [Clone::clone]: the state is (out, self); the [k]-th call of [A::clone] on [a] is [cl k a]. *)
Fixpoint sp_clone_loop (cl : nat -> A -> option A) (bits : list nat) (k : nat)
  : Machine.M A (sparse A * sparse A) unit :=
  match bits with
  | [] => ret tt
  | index :: bits' =>
      let! a := on_snd (sp_index index) in
      match cl k a with
      | None => panic
      | Some a' =>
          let! old := on_fst (sp_insert index a') in
          on_fst (drop_values e (option_list old)) ;;;
          sp_clone_loop cl bits' (S k)
      end
  end.
Definition sp_clone (cl : nat -> A -> option A) : M (sparse A * unit) :=
  let! out := sp_new in
  with_local out sp_destroy (
    let! bits := on_snd sp_indices in
    sp_clone_loop cl bits 0).

(** mod.rs 352-368 [FromIterator<Option<A>>]: [enumerate] counts from [index].  Simplification: the counter
    of [enumerate] is not bounded by [usize] (after [word] items it would overflow). *)
Fixpoint sp_from_iter_loop (it : list (ev (option A))) (index : nat)
  : Machine.M A (sparse A * unit) unit :=
  match it with
  | [] => ret tt
  | Boom :: _ => panic
  | Yield None :: it' => sp_from_iter_loop it' (S index)
  | Yield (Some value) :: it' =>
      let! old := on_fst (sp_insert index value) in
      on_fst (drop_values e (option_list old)) ;;;
      sp_from_iter_loop it' (S index)
  end.
Definition sp_from_iter (it : list (ev (option A))) : Machine.M A unit (sparse A * unit) :=
  let! out := sp_new in with_local out sp_destroy (sp_from_iter_loop it 0).

(** mod.rs 370-386 [PartialEq]; the state is (self, other). *)
Definition opt_eqb (eqA : A -> A -> bool) (x y : option A) : bool :=
  match x, y with Some a, Some b => eqA a b | None, None => true | _, _ => false end.
Fixpoint sp_eq_loop (eqA : A -> A -> bool) (bits : list nat) : Machine.M A (sparse A * sparse A) bool :=
  match bits with
  | [] => ret true
  | index :: bits' =>
      let! x := on_fst (sp_get index) in
      let! y := on_snd (sp_get index) in
      if negb (opt_eqb eqA x y) then ret false else sp_eq_loop eqA bits'
  end.
Definition sp_eq (eqA : A -> A -> bool) : Machine.M A (sparse A * sparse A) bool :=
  let! s := get in
  if negb (bm_eq N (smap (fst s)) (smap (snd s))) then ret false
  else let! bits := on_fst sp_indices in sp_eq_loop eqA bits.
(** mod.rs 388-405, 407-424 [PartialEq<BTreeMap<usize, A>>], [PartialEq<HashMap<usize, A>>].  Of the
    other map only [len] and [get] are used: they are parameters here. *)
Fixpoint sp_eq_map_loop (eqA : A -> A -> bool) (other : nat -> option A) (bits : list nat) : M bool :=
  match bits with
  | [] => ret true
  | index :: bits' =>
      let! x := sp_get index in
      if negb (opt_eqb eqA x (other index)) then ret false else sp_eq_map_loop eqA other bits'
  end.
Definition sp_eq_map (eqA : A -> A -> bool) (len : nat) (other : nat -> option A) : M bool :=
  let! n := sp_len in
  if negb (n =? len) then ret false
  else let! bits := sp_indices in sp_eq_map_loop eqA other bits.

(** ** src/sparse_chunk/iter.rs.  An item that is a reference is given by its index and the value there. *)
(** [self.chunk.values()[index]] behind a reference. *)
Definition sp_value_ref (index : nat) : M (nat * A) :=
  if index <? N then let! a := slot_peek N index in ret (index, a) else panic.
(** mod.rs 246-252 [iter]; iter.rs 20-22 [Iter::next]; the state is (chunk, position of the bitmap iterator). *)
Definition it_next_index : Machine.M A (sparse A * nat) (option nat) :=
  let! s := get in
  match bm_next N (smap (fst s)) (snd s) with
  | None => on_snd (put N) ;;; ret None
  | Some index => on_snd (put (S index)) ;;; ret (Some index)
  end.
Definition it_next : Machine.M A (sparse A * nat) (option (nat * A)) :=
  let! x := it_next_index in
  match x with
  | None => ret None
  | Some index => let! r := on_fst (sp_value_ref index) in ret (Some r)
  end.
(** iter.rs 24-26, 56-58 [size_hint] of [Iter] and [IterMut]. *)
Definition it_size_hint {O} : Machine.M A O (nat * option nat) := ret (0, Some N).
(** iter.rs 44-54 [IterMut::next]; the state is (chunk, the iterator's own copy of the bitmap). *)
Definition im_next : Machine.M A (sparse A * bitmap) (option (nat * A)) :=
  let! s := get in
  match bm_first N (snd s) with
  | Some index =>
      on_snd (put (bm_put (snd s) index false)) ;;;
      let! r := on_fst (sp_value_ref index) in
      ret (Some r)
  | None => ret None
  end.
(** mod.rs 268-272 [entries]: [indices().zip(iter())]; the state is (chunk, (position of the indices, position
    of the iterator)). *)
Definition en_next : Machine.M A (sparse A * (nat * nat)) (option (nat * A)) := fun s g =>
  match it_next_index (fst s, fst (snd s)) g with
  | Ret (c, cur) g None => Ret (c, (cur, snd (snd s))) g None
  | Ret (c, cur) g (Some index) =>
      match it_next (c, snd (snd s)) g with
      | Ret (c, cur2) g None => Ret (c, (cur, cur2)) g None
      | Ret (c, cur2) g (Some r) => Ret (c, (cur, cur2)) g (Some (index, snd r))
      | Panic (c, cur2) g => Panic (c, (cur, cur2)) g
      | UB u => UB u | Hang => Hang | Abort => Abort
      end
  | Panic (c, cur) g => Panic (c, (cur, snd (snd s))) g
  | UB u => UB u | Hang => Hang | Abort => Abort
  end.
(** iter.rs 78-80 [Drain::next]; 82-85 [size_hint].  mod.rs 263-266 [drain] and 339-350 [into_iter] wrap the chunk. *)
Definition dr_next : M (option A) := sp_pop.
Definition dr_size_hint : M (nat * option nat) := let! len := sp_len in ret (len, Some len).
(** iter.rs 106-114 [OptionIter::next]; the state is (chunk, index), initially index 0: mod.rs 274-305 [option_iter],
    [option_iter_mut], [option_drain]. *)
Definition oi_next : Machine.M A (sparse A * nat) (option (option A)) :=
  let! s := get in
  if snd s <? N then
    let! result := on_fst (sp_get (snd s)) in
    let! i := uadd e (snd s) 1 in
    on_snd (put i) ;;;
    ret (Some result)
  else ret None.
(** iter.rs 116-121, 159-164, 195-200 [size_hint] of [OptionIter], [OptionIterMut], [OptionDrain]. *)
Definition oi_size_hint : Machine.M A (sparse A * nat) (nat * option nat) :=
  let! s := get in
  let! n := usub e N (snd s) in
  let! n' := usub e N (snd s) in
  ret (n, Some n').
(** iter.rs 142-157 [OptionIterMut::next]. *)
Definition om_next : Machine.M A (sparse A * nat) (option (option (nat * A))) :=
  let! s := get in
  if snd s <? N then
    let! b := on_fst (map_get (snd s)) in
    let! result := (if b then let! r := on_fst (sp_value_ref (snd s)) in ret (Some (Some r))
                    else ret (Some None)) in
    let! i := uadd e (snd s) 1 in
    on_snd (put i) ;;;
    ret result
  else ret None.
(** iter.rs 185-193 [OptionDrain::next]. *)
Definition od_next : Machine.M A (sparse A * nat) (option (option A)) :=
  let! s := get in
  if snd s <? N then
    let! result := on_fst (sp_remove (snd s)) in
    let! i := uadd e (snd s) 1 in
    on_snd (put i) ;;;
    ret (Some result)
  else ret None.

(** Client code: an [OptionDrain] is made of the chunk (mod.rs 297-305 [option_drain]) and [next] is called on
    it [n] times.  What is left of the chunk (the field [chunk] of the iterator) is the final state. *)
Fixpoint od_calls (n : nat) : Machine.M A (sparse A * nat) (list (option (option A))) :=
  match n with
  | 0 => ret []
  | S n' => let! x := od_next in let! xs := od_calls n' in ret (x :: xs)
  end.
Definition sp_option_drain (n : nat) : M (list (option (option A))) := fun c g =>
  match od_calls n (c, 0) g with
  | Ret s g r => Ret (fst s) g r
  | Panic s g => Panic (fst s) g
  | UB u => UB u | Hang => Hang | Abort => Abort
  end.

(** Client code [for r in c.iter_mut() { *r = new(k) }], [k] counting the items. *)
Fixpoint im_assign_loop (new : nat -> A) (fuel k : nat) : Machine.M A (sparse A * bitmap) unit :=
  match fuel with
  | 0 => hang
  | S fuel' =>
      let! x := im_next in
      match x with
      | None => ret tt
      | Some (index, _) =>
          let! old := on_fst (slot_read N index) in
          on_fst (slot_write N index (new k)) ;;;
          on_fst (drop_values e [old]) ;;;
          im_assign_loop new fuel' (S k)
      end
  end.
(** [iter_mut]: mod.rs 254-261.  (At most [N] items: fuel [S N] suffices.) *)
Definition sp_iter_mut_assign (new : nat -> A) : M unit := fun c g =>
  match im_assign_loop new (S N) 0 (c, smap c) g with
  | Ret s g r => Ret (fst s) g r
  | Panic s g => Panic (fst s) g
  | UB u => UB u | Hang => Hang | Abort => Abort
  end.

(** ** src/sparse_chunk/refpool.rs.  The target slot holds an arbitrary bit pattern before: [junk]. *)
(** refpool.rs 9-18 [default_uninit]: only the map is written. *)
Definition sp_default_uninit : Machine.M A (sparse A) unit := fun target g =>
  Ret (Sparse bm0 (sdata target)) g tt.
(** refpool.rs 20-35 [clone_uninit]: the map first, then the elements; the state is (target, self). *)
Fixpoint sp_clone_uninit_loop (cl : nat -> A -> option A) (bits : list nat) (k : nat)
  : Machine.M A (sparse A * sparse A) unit :=
  match bits with
  | [] => ret tt
  | index :: bits' =>
      let! a := on_snd (sp_index index) in
      match cl k a with
      | None => panic
      | Some a' => on_fst (slot_write N index a') ;;; sp_clone_uninit_loop cl bits' (S k)
      end
  end.
Definition sp_clone_uninit (cl : nat -> A -> option A) : Machine.M A (sparse A * sparse A) unit :=
  let! s := get in
  on_fst (put (Sparse (smap (snd s)) (sdata (fst s)))) ;;;
  let! bits := on_snd sp_indices in
  sp_clone_uninit_loop cl bits 0.
End sparse.
