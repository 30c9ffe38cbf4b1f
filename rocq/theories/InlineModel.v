(** * Model of [InlineArray<A, T>]  (src/inline_array/{mod,iter}.rs), down to bytes.

    The array lives in the bytes of a host value of type [T]: a [usize] header (the length) and the elements,
    found by pointer arithmetic from sizes and alignments.  So here memory is a map from byte offsets to
    what is stored there; every access is checked for bounds, alignment, and for reading exactly the bytes
    that were written as a value of that type.  The object may be at any address that is a multiple of its
    alignment, a different one at every call (Rust moves objects): the address is the parameter [b]. *)
From Verif Require Import Machine ChunkModel.

(** Sizes and alignments that the compiler chose: of the element type [A], the host type [T], [usize], and the
    alignment of [u64]. *)
Record layout := Layout {
  size_a : nat; align_a : nat; size_t : nat; align_t : nat; size_us : nat; align_us : nat; align_u64 : nat }.

(** What one byte contains.  [BLen n k]: byte [k] of a [usize] of value [n].  [BHead a]: byte 0 of the
    element [a].  [BTail k]: byte [k > 0] of an element.  [None] in the memory: uninitialised, or the value
    there has been moved out or dropped. *)
Inductive byte (A : Type) := BLen (n k : nat) | BHead (a : A) | BTail (k : nat).
Arguments BLen {A}. Arguments BHead {A}. Arguments BTail {A}.

(** mod.rs 76-110: the bytes of [data].  Elements of a zero-sized type occupy no bytes: the live ones are the
    bag [zst] (all at the same address; they are indistinguishable). *)
Record inline (A : Type) := Inline { bytes : nat -> option (byte A); zst : list A }.
Arguments Inline {A}. Arguments bytes {A}. Arguments zst {A}.
Definition inline_uninit {A} : inline A := Inline (fun _ => None) [].

(** Pointers into [data]: a byte offset; or [NonNull::dangling()]. *)
Inductive ptr := Dangling | At (off : nat).

Section layout.
Context {A : Type} (e : env A) (L : layout).
(** [repr(C)] struct of mod.rs 76-110: the alignment is the largest of the fields' ([(u64, usize)], [T]); the
    first two fields have size 0, so [data] is at offset 0. *)
Definition align_self : nat := (align_u64 L `max` align_us L) `max` align_t L.
(** The size is that of [data], rounded up to the alignment. *)
Definition size_self : nat := (size_t L + align_self - 1) / align_self * align_self.
(** mod.rs 112-126, 141-147 [capacity], [CAPACITY]. *)
Definition capacity : nat :=
  if size_a L =? 0 then word e - 1
  else if (align_a L <=? align_self) && (size_us L <? size_t L) then (size_t L - size_us L) / size_a L
  else 0.
(** mod.rs 133 [HEADER_FIRST], 136 [ELEMENT_SKIP], 138 [HEADER_SKIP]. *)
Definition header_first : bool := align_a L <=? align_us L.
Definition element_skip : nat := if header_first then 1 else 0.
Definition header_skip : nat := capacity * (1 - element_skip).
End layout.

(** ** Memory accesses. *)
Section prims.
Context {A : Type} (e : env A) (L : layout) (b : nat).
Notation M := (M A (inline A)).
Definition aligned_at (al : nat) (p : ptr) : bool :=
  match p with Dangling => true | At off => (b + off) mod al =? 0 end.
(** [ptr.add(count)] on a pointer to a type of size [size]: must stay within [data] (or one past it). *)
Definition ptr_add (p : ptr) (count size : nat) : M ptr :=
  match p with
  | Dangling => if count * size =? 0 then ret Dangling else undefined OutOfBounds
  | At off => if off + count * size <=? size_t L then ret (At (off + count * size)) else undefined OutOfBounds
  end.
(** Valid for accesses of [n] bytes with alignment [al]; accesses of size 0 are valid at any aligned
    address. *)
Definition valid (p : ptr) (n al : nat) : bool :=
  aligned_at al p &&
  match p with Dangling => n =? 0 | At off => off + n <=? size_t L end.
Definition is_byte_of_len (n k : nat) (x : option (byte A)) : bool :=
  match x with Some (BLen n' k') => (n' =? n) && (k' =? k) | _ => false end.
Definition is_tail (k : nat) (x : option (byte A)) : bool :=
  match x with Some (BTail k') => k' =? k | _ => false end.
Definition is_free (x : option (byte A)) : bool := match x with None => true | _ => false end.
Definition not_elem (x : option (byte A)) : bool :=
  match x with None => true | Some (BLen _ _) => true | _ => false end.

(** Reading [*ptr] for a [*const usize]: all its bytes must be those of one [usize]. *)
Definition usize_read (p : ptr) : M nat := fun c g =>
  if negb (valid p (size_us L) (align_us L)) then UB OutOfBounds else
  match p with
  | Dangling => UB OutOfBounds
  | At off =>
      match bytes c off with
      | Some (BLen n _) =>
          if forallb (fun k => is_byte_of_len n k (bytes c (off + k))) (seq 0 (size_us L))
          then Ret c g n else UB DeadSlot
      | _ => UB DeadSlot
      end
  end.
(** Writing it: must not overwrite elements. *)
Definition usize_write (p : ptr) (n : nat) : M unit := fun c g =>
  if negb (valid p (size_us L) (align_us L)) then UB OutOfBounds else
  match p with
  | Dangling => UB OutOfBounds
  | At off =>
      if forallb (fun k => not_elem (bytes c (off + k))) (seq 0 (size_us L))
      then Ret (Inline (fun q => if (off <=? q) && (q <? off + size_us L) then Some (BLen n (q - off))
                                 else bytes c q) (zst c)) g tt
      else UB Clobber
  end.

(** The element stored at offset [off]. *)
Definition decode (m : nat -> option (byte A)) (off : nat) : option A :=
  match m off with
  | Some (BHead a) =>
      if forallb (fun k => is_tail k (m (off + k))) (seq 1 (size_a L - 1)) then Some a else None
  | _ => None
  end.
Definition clear_bytes (m : nat -> option (byte A)) (from n : nat) : nat -> option (byte A) :=
  fun q => if (from <=? q) && (q <? from + n) then None else m q.
(** [ptr::read]. *)
Definition elem_read (p : ptr) : M A := fun c g =>
  if negb (valid p (size_a L) (align_a L)) then UB OutOfBounds else
  if size_a L =? 0 then
    match zst c with [] => UB DeadSlot | a :: z => Ret (Inline (bytes c) z) g a end
  else
    match p with
    | Dangling => UB OutOfBounds
    | At off =>
        match decode (bytes c) off with
        | Some a => Ret (Inline (clear_bytes (bytes c) off (size_a L)) (zst c)) g a
        | None => UB DeadSlot
        end
    end.
(** [ptr::write]: must not overwrite anything that is alive. *)
Definition elem_write (p : ptr) (a : A) : M unit := fun c g =>
  if negb (valid p (size_a L) (align_a L)) then UB OutOfBounds else
  if size_a L =? 0 then Ret (Inline (bytes c) (a :: zst c)) (log_write 1 g) tt
  else
    match p with
    | Dangling => UB OutOfBounds
    | At off =>
        if forallb (fun k => is_free (bytes c (off + k))) (seq 0 (size_a L))
        then Ret (Inline (fun q => if (off <=? q) && (q <? off + size_a L)
                                   then Some (if q =? off then BHead a else BTail (q - off))
                                   else bytes c q) (zst c)) (log_write 1 g) tt
        else UB Clobber
    end.
(** [ptr::copy(from, to, n)]: bytes are moved; nothing alive outside the source region may be overwritten.
    Zero-sized elements do not move. *)
Definition elems_move (from to : ptr) (n : nat) : M unit := fun c g =>
  if negb (valid from (n * size_a L) (align_a L) && valid to (n * size_a L) (align_a L)) then UB OutOfBounds else
  if size_a L =? 0 then Ret c (log_write n g) tt
  else
    match from, to with
    | At x, At y =>
        let w := n * size_a L in
        if forallb (fun k => is_free (clear_bytes (bytes c) x w (y + k))) (seq 0 w)
        then Ret (Inline (fun q => if (y <=? q) && (q <? y + w) then bytes c (x + (q - y))
                                   else clear_bytes (bytes c) x w q) (zst c)) (log_write n g) tt
        else UB Clobber
    | _, _ => Ret c (log_write n g) tt
    end.
(** A slice [&[A]] of [n] elements at [p]: all must be alive. *)
Definition elems_peek (p : ptr) (n : nat) : M (list A) := fun c g =>
  if negb (valid p (n * size_a L) (align_a L)) then UB OutOfBounds else
  if size_a L =? 0 then
    if n <=? length (zst c) then Ret c g (take n (zst c)) else UB DeadSlot
  else
    match p with
    | Dangling => Ret c g []
    | At off =>
        match mapM (fun i => decode (bytes c) (off + i * size_a L)) (seq 0 n) with
        | Some l => Ret c g l
        | None => UB DeadSlot
        end
    end.
(** Moving the elements of that slice out (the source of a [ptr::copy] to another object). *)
Definition elems_take (p : ptr) (n : nat) : M (list A) :=
  let! vs := elems_peek p n in
  (fun c g => Ret (if size_a L =? 0 then Inline (bytes c) (drop n (zst c))
                   else match p with
                        | Dangling => c
                        | At off => Inline (clear_bytes (bytes c) off (n * size_a L)) (zst c)
                        end) g tt) ;;;
  ret vs.
(** [ptr::drop_in_place::<[A]>]. *)
Definition elems_drop (p : ptr) (n : nat) : M unit :=
  let! vs := elems_take p n in drop_values e vs.
(** The storage goes out of scope: whatever is still in it is leaked. *)
Definition leftover (c : inline A) : list A :=
  omap (fun q => match bytes c q with Some (BHead a) => Some a | _ => None end) (seq 0 (size_t L)) ++ zst c.
Definition inline_release : M unit := fun c g => Ret inline_uninit (log_leak (leftover c) g) tt.
End prims.
(** [ptr::copy] of [n] elements from one array (the second object, at address [b2]) to another, at [b]:
    the values are moved out, then written one after the other. *)
Fixpoint elems_put {A} (L : layout) (b : nat) (to : ptr) (vs : list A) : M A (inline A) unit :=
  match vs with
  | [] => ret tt
  | a :: vs' =>
      elem_write L b to a ;;;
      let! to' := ptr_add L to 1 (size_a L) in
      elems_put L b to' vs'
  end.
Definition elems_transfer {A} (L : layout) (b b2 : nat) (from to : ptr) (n : nat)
  : M A (inline A * inline A) unit :=
  let! vs := on_snd (elems_take L b2 from n) in
  on_fst (elems_put L b to vs).

(** ** The methods of the array at address [b]. *)
Section inline.
Context {A : Type} (e : env A) (L : layout) (b : nat).
Notation M := (M A (inline A)).
Notation cap := (capacity e L).

(** mod.rs 151-160 [len_const]; 164-173 [len_mut] is the same. *)
Definition ia_len_ptr : M ptr :=
  let! p := ptr_add L (At 0) (header_skip e L) (size_a L) in
  debug_assert e (aligned_at b (align_us L) p) ;;;
  ret p.
(** mod.rs 177-189 [data]; 193-205 [data_mut] is the same. *)
Definition ia_data : M ptr :=
  if cap =? 0 then ret Dangling
  else
    let! p := ptr_add L (At 0) (element_skip L) (size_us L) in
    debug_assert e (aligned_at b (align_a L) p) ;;;
    ret p.
(** mod.rs 209-212 [ptr_at]; 216-219 [ptr_at_mut]. *)
Definition ia_ptr_at (index : nat) : M ptr :=
  debug_assert e (index <? cap) ;;;
  let! d := ia_data in
  ptr_add L d index (size_a L).
(** mod.rs 222-224 [read_at]; 227-229 [write_at]. *)
Definition ia_read_at (index : nat) : M A := let! p := ia_ptr_at index in elem_read L b p.
Definition ia_write_at (index : nat) (value : A) : M unit := let! p := ia_ptr_at index in elem_write L b p value.
(** mod.rs 234-236 [len]; 241-243 [is_empty]; 248-250 [is_full]. *)
Definition ia_len : M nat := let! p := ia_len_ptr in usize_read L b p.
Definition ia_set_len (n : nat) : M unit := let! p := ia_len_ptr in usize_write L b p n.
Definition ia_is_empty : M bool := let! n := ia_len in ret (n =? 0).
Definition ia_is_full : M bool := let! n := ia_len in ret (cap <=? n).

(** mod.rs 442-453 [deref], [deref_mut]: the slice of the contents.  455-477 [borrow], [borrow_mut], [as_ref], [as_mut]
    forward to it; 553-567 [into_iter] of references are the iterators of the slice. *)
Definition ia_deref : M (list A) :=
  let! d := ia_data in
  let! n := ia_len in
  elems_peek L b d n.
(** mod.rs 389-391 [drop_contents]. *)
Definition ia_drop_contents : M unit :=
  let! d := ia_data in
  let! n := ia_len in
  elems_drop e L b d n.
(** mod.rs 409-413 [Drop]; then the storage disappears. *)
Definition ia_destroy : M unit := fun c g =>
  match ia_drop_contents c g with
  | Ret c' g' _ => inline_release L c' g'
  | Panic c' g' => Panic inline_uninit (log_leak (leftover L c') g')
  | x => x
  end.

(** mod.rs 260-291 [new]; 415-419 [default].  The array under construction is a local variable that unwinding would drop.
    [&self_ as *const _ == self_.data.as_ptr()] holds because [data] is at offset 0. *)
Definition ia_new : Machine.M A unit (inline A) :=
  assert (size_us L <? size_t L) ;;;
  assert ((cap =? 0) || (align_self L mod align_a L =? 0)) ;;;
  let! r := with_local inline_uninit ia_destroy (
    assert (b mod align_us L =? 0) ;;;
    assert ((size_self L =? size_t L) || (align_t L <? align_self L)) ;;;
    let! d := on_fst ia_data in
    assert (aligned_at b (align_a L) d) ;;;
    let! d := on_fst ia_data in
    assert (aligned_at b (align_a L) d) ;;;
    assert ((element_skip L =? 0) || (header_skip e L =? 0)) ;;;
    on_fst (ia_set_len 0)) in
  ret (fst r).

(** mod.rs 298-306 [push]. *)
Definition ia_push (value : A) : M unit :=
  let! full := ia_is_full in
  if full then panic_dropping e value
  else
    let! n := ia_len in
    ia_write_at n value ;;;
    let! n := ia_len in
    let! n' := uadd e n 1 in
    ia_set_len n'.
(** mod.rs 313-322 [pop]. *)
Definition ia_pop : M (option A) :=
  let! empty := ia_is_empty in
  if empty then ret None
  else
    let! n := ia_len in
    let! n' := usub e n 1 in
    ia_set_len n' ;;;
    let! n := ia_len in
    let! a := ia_read_at n in
    ret (Some a).
(** mod.rs 330-343 [insert]. *)
Definition ia_insert (index : nat) (value : A) : M unit :=
  let! full := ia_is_full in
  if full then panic_dropping e value
  else
    let! n := ia_len in
    if n <? index then panic_dropping e value
    else
      let! src := ia_ptr_at index in
      let! dst := ptr_add L src 1 (size_a L) in
      let! n := ia_len in
      let! k := usub e n index in
      elems_move L b src dst k ;;;
      elem_write L b src value ;;;
      let! n := ia_len in
      let! n' := uadd e n 1 in
      ia_set_len n'.
(** mod.rs 352-364 [remove]. *)
Definition ia_remove (index : nat) : M (option A) :=
  let! n := ia_len in
  if n <=? index then ret None
  else
    let! src := ia_ptr_at index in
    let! value := elem_read L b src in
    let! n := ia_len in
    let! n' := usub e n 1 in
    ia_set_len n' ;;;
    let! from := ptr_add L src 1 (size_a L) in
    let! n := ia_len in
    let! k := usub e n index in
    elems_move L b from src k ;;;
    ret (Some value).
(** mod.rs 396-401 [clear]. *)
Definition ia_clear : M unit := ia_drop_contents ;;; ia_set_len 0.

(** mod.rs 569-583 [Extend]; 585-603 the same for copies. *)
Fixpoint ia_extend (it : list (ev A)) : M unit :=
  match it with
  | [] => ret tt
  | Boom :: _ => panic
  | Yield a :: it' => ia_push a ;;; ia_extend it'
  end.
(** Client code through [DerefMut]: [x[i] = v]. *)
Definition ia_assign (i : nat) (v : A) : M unit :=
  let! d := ia_data in
  let! n := ia_len in
  let! _ := elems_peek L b d n in
  if i <? n then
    let! p := ptr_add L d i (size_a L) in
    let! old := elem_read L b p in
    elem_write L b p v ;;;
    drop_values e [old]
  else panic_dropping e v.
(** ... [x[i]]. *)
Definition ia_index (i : nat) : M A :=
  let! l := ia_deref in
  match l !! i with Some a => ret a | None => panic end.
(** ... and any slice method that permutes the elements in place (sort, reverse, swap, ...). *)
Definition ia_update_slice (f : list A -> list A) : M unit :=
  let! d := ia_data in
  let! n := ia_len in
  let! l := elems_take L b d n in
  elems_put L b d (f l).

(** mod.rs 478-486 [PartialEq]; 490-505 [PartialOrd], [Ord] (the other array is given by its contents);
    518-530 [Hash]: every item, no length. *)
Definition ia_eq (eqA : A -> A -> bool) (other : list A) : M bool := let! l := ia_deref in ret (slice_eq eqA l other).
Definition ia_hash : M (list (hev A)) := let! l := ia_deref in ret (map HItem l).

(** iter.rs 13-19, 46-52: [next] and [size_hint] of [Iter] and [Drain]; 22-26, 55-59 [next_back] is [pop].
    mod.rs 404-406 [drain] and 532-538 [into_iter] wrap the array. *)
Definition ia_next : M (option A) := ia_remove 0.
Definition ia_size_hint : M (nat * option nat) :=
  let! n := ia_len in let! n' := ia_len in ret (n, Some n').
End inline.

(** ** Methods involving a second array, at address [b2]. *)
Section inline2.
Context {A : Type} (e : env A) (L : layout) (b b2 : nat).

(** mod.rs 373-386 [split_off]; the new array is the first object. *)
Definition ia_split_off (index : nat) : M A (inline A) (inline A * unit) :=
  let! n := ia_len e L b in
  if n <? index then panic
  else
    let! out := (fun c g => match ia_new e L b2 tt g with
                            | Ret _ g' out => Ret c g' out | Panic _ g' => Panic c g'
                            | UB u => UB u | Hang => Hang | Abort => Abort end) in
    with_local out (ia_destroy e L b2) (
      let! n := on_snd (ia_len e L b) in
      if index <? n then
        let! src := on_snd (ia_ptr_at e L b index) in
        let! dst := on_fst (ia_data e L b2) in
        let! n := on_snd (ia_len e L b) in
        let! k := usub e n index in
        elems_transfer L b2 b src dst k ;;;
        let! n := on_snd (ia_len e L b) in
        let! k := usub e n index in
        on_fst (ia_set_len e L b2 k) ;;;
        on_snd (ia_set_len e L b index)
      else ret tt).

(** mod.rs 428-439 [clone]; [self.get_unchecked(i)] goes through [deref].  The [i]-th call of [A::clone] on
    [a] is [cl i a]. *)
Fixpoint ia_clone_loop (cl : nat -> A -> option A) (i k : nat) : M A (inline A * inline A) unit :=
  match k with
  | 0 => ret tt
  | S k' =>
      let! l := on_snd (ia_deref e L b) in
      match l !! i with
      | None => undefined OutOfBounds
      | Some a =>
          match cl i a with
          | None => panic
          | Some a' => on_fst (ia_write_at e L b2 i a') ;;; ia_clone_loop cl (S i) k'
          end
      end
  end.
Definition ia_clone (cl : nat -> A -> option A) : M A (inline A) (inline A * unit) :=
  let! copy := (fun c g => match ia_new e L b2 tt g with
                           | Ret _ g' out => Ret c g' out | Panic _ g' => Panic c g'
                           | UB u => UB u | Hang => Hang | Abort => Abort end) in
  with_local copy (ia_destroy e L b2) (
    let! n := on_snd (ia_len e L b) in
    ia_clone_loop cl 0 n ;;;
    let! n := on_snd (ia_len e L b) in
    on_fst (ia_set_len e L b2 n)).

(** mod.rs 540-551 [FromIterator]. *)
Definition ia_from_iter (it : list (ev A)) : M A unit (inline A * unit) :=
  let! chunk := ia_new e L b in
  with_local chunk (ia_destroy e L b) (on_fst (ia_extend e L b it)).

(** mod.rs 478-505 on two arrays. *)
Definition ia_eq2 (eqA : A -> A -> bool) : M A (inline A * inline A) bool :=
  let! l1 := on_fst (ia_deref e L b) in let! l2 := on_snd (ia_deref e L b2) in ret (slice_eq eqA l1 l2).
Definition ia_partial_cmp (pc : A -> A -> option comparison) : M A (inline A * inline A) (option comparison) :=
  let! l1 := on_fst (ia_deref e L b) in let! l2 := on_snd (ia_deref e L b2) in ret (iter_partial_cmp pc l1 l2).
Definition ia_cmp (cmp : A -> A -> comparison) : M A (inline A * inline A) comparison :=
  let! l1 := on_fst (ia_deref e L b) in let! l2 := on_snd (ia_deref e L b2) in ret (iter_cmp cmp l1 l2).
End inline2.

(** ** src/sized_chunk/mod.rs 816-832 [From<&mut InlineArray<A, T>> for Chunk<A, N>].
    [out.mut_ptr(0)] is slot 0 of the chunk. *)
Section convert.
Context {A : Type} (e : env A) (L : layout) (b N : nat).
Fixpoint slots_put (i : nat) (vs : list A) : M A (chunk A) unit :=
  match vs with
  | [] => ret tt
  | a :: vs' => slot_write N i a ;;; slots_put (S i) vs'
  end.
Definition chunk_from_mut : M A (inline A) (chunk A) :=
  let! n := (if capacity e L <=? N then ret 0 else ia_len e L b) in
  assert ((capacity e L <=? N) || (n <=? N)) ;;;
  let! r := ia_len e L b in
  let! r := with_local (Chunk 0 r mem0) (destroy e N) (
    let! d := on_snd (ia_data e L b) in
    let! c := on_fst get in
    let! vs := on_snd (elems_take L b d (right c)) in
    on_fst (slots_put 0 vs) ;;;
    on_snd (ia_set_len e L b 0)) in
  ret (fst r).
(** src/sized_chunk/mod.rs 809-814 [From<InlineArray<A, T>>]: the array, a by-value argument, is dropped at the end. *)
Definition chunk_from (array : inline A) : M A unit (chunk A) := fun _ g =>
  match chunk_from_mut array g with
  | Ret array' g' c =>
      match ia_destroy e L b array' g' with
      | Ret _ g'' _ => Ret tt g'' c
      | Panic _ g'' =>   (* the chunk already built is dropped by unwinding *)
          match destroy e N c g'' with
          | Ret _ g3 _ => Panic tt g3 | Panic _ _ => Abort | UB u => UB u | Hang => Hang | Abort => Abort
          end
      | UB u => UB u | Hang => Hang | Abort => Abort
      end
  | Panic array' g' =>
      match ia_destroy e L b array' g' with
      | Ret _ g'' _ => Panic tt g'' | Panic _ _ => Abort | UB u => UB u | Hang => Hang | Abort => Abort
      end
  | UB u => UB u | Hang => Hang | Abort => Abort
  end.
End convert.
