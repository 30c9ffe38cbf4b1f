(** * Model of [Chunk<A, N>]  (src/sized_chunk/mod.rs, src/sized_chunk/iter.rs)

    Every method is transcribed statement by statement.  [N] is the const generic parameter. *)
From Verif Require Import Machine.

(** src/sized_chunk/mod.rs 93-97: [pub struct Chunk<A, const N: usize> { left, right, data }]. *)
Record chunk (A : Type) := Chunk { left : nat; right : nat; cdata : mem A }.
Arguments Chunk {A}. Arguments left {A}. Arguments right {A}. Arguments cdata {A}.

Global Instance chunk_mem A : HasMem A (chunk A) :=
  {| getm := cdata; setm := fun m c => Chunk (left c) (right c) m |}.

Section chunk.
Context {A : Type} (e : env A) (N : nat).
Notation M := (M A (chunk A)).

Definition set_left (x : nat) : M unit := fun c g => Ret (Chunk x (right c) (cdata c)) g tt.
Definition set_right (x : nat) : M unit := fun c g => Ret (Chunk (left c) x (cdata c)) g tt.

(** mod.rs 128-135 [new]; 702-706 [default]. *)
Definition new : chunk A := Chunk 0 0 mem0.

(** mod.rs 226-228 [len]. *)
Definition len : M nat := let! c := get in usub e (right c) (left c).
(** mod.rs 232-234 [is_empty]. *)
Definition is_empty (c : chunk A) : bool := left c =? right c.
(** mod.rs 238-240 [is_full]. *)
Definition is_full (c : chunk A) : bool := (left c =? 0) && (right c =? N).

(** mod.rs 255-257 [force_read]. *)
Definition force_read (index : nat) : M A := slot_read N index.
(** mod.rs 262-264 [force_write]. *)
Definition force_write (index : nat) (value : A) : M unit := slot_write N index value.
(** mod.rs 268-272 [force_copy]. *)
Definition force_copy (from to count : nat) : M unit :=
  if 0 <? count then slots_move N from to count else ret tt.
(** mod.rs 319-329 [force_copy_to]: from the second object into the first. *)
Definition force_copy_to (from to count : nat) : Machine.M A (chunk A * chunk A) unit :=
  if 0 <? count then slots_transfer N N from to count else ret tt.

(** mod.rs 682-699 [as_slice]/[as_mut_slice]: the contents as a slice (242-251 [ptr], [mut_ptr]).  834-856 [borrow],
    [borrow_mut], [as_ref], [as_mut] and 858-870 [deref], [deref_mut] forward to them; 885-899 [into_iter] of references
    are the iterators of the slice. *)
Definition as_slice : M (list A) :=
  let! c := get in
  let! n := len in
  slots_peek N (left c) n.

(** mod.rs 99-103 [Drop::drop]: [drop_in_place(self.as_mut_slice())]. *)
Definition drop_ : M unit :=
  let! c := get in
  let! n := len in
  slots_drop e N (left c) n.
(** The chunk goes out of scope. *)
Definition destroy : M unit := destroying N drop_.

(** mod.rs 138-149 [unit].  The argument is dropped if the assertion fails. *)
Definition unit_ (value : A) : Machine.M A unit (chunk A * unit) :=
  if 1 <=? N then
    with_local (Chunk 0 1 mem0) destroy (on_fst (force_write 0 value))
  else panic_dropping e value.

(** mod.rs 152-164 [pair].  Arguments are dropped in reverse order of declaration on panic. *)
Definition pair_ (v1 v2 : A) : Machine.M A unit (chunk A * unit) :=
  if 2 <=? N then
    with_local (Chunk 0 2 mem0) destroy
      (on_fst (force_write 0 v1 ;;; force_write 1 v2))
  else if bomb e v2 then (fun _ _ => Abort)
  else (fun o g => panic_dropping e v1 o (log_drop [v2] g)).

(** mod.rs 336-350 [push_front]. *)
Definition push_front (value : A) : M unit :=
  let! c := get in
  if is_full c then panic_dropping e value
  else
    (if is_empty c then set_left N ;;; set_right N
     else if left c =? 0 then
       let! l := usub e N (right c) in
       set_left l ;;;
       force_copy 0 l (right c) ;;;
       set_right N
     else ret tt) ;;;
    let! c := get in
    let! l := usub e (left c) 1 in
    set_left l ;;;
    force_write l value.

(** mod.rs 357-371 [push_back]. *)
Definition push_back (value : A) : M unit :=
  let! c := get in
  if is_full c then panic_dropping e value
  else
    (if is_empty c then set_left 0 ;;; set_right 0
     else if right c =? N then
       let! n := len in
       force_copy (left c) 0 n ;;;
       let! r := usub e N (left c) in
       set_right r ;;;
       set_left 0
     else ret tt) ;;;
    let! c := get in
    force_write (right c) value ;;;
    let! r := uadd e (right c) 1 in
    set_right r.

(** mod.rs 378-386 [pop_front]. *)
Definition pop_front : M A :=
  let! c := get in
  if is_empty c then panic
  else
    let! value := force_read (left c) in
    let! l := uadd e (left c) 1 in
    set_left l ;;;
    ret value.

(** mod.rs 393-400 [pop_back]. *)
Definition pop_back : M A :=
  let! c := get in
  if is_empty c then panic
  else
    let! r := usub e (right c) 1 in
    set_right r ;;;
    force_read r.

(** mod.rs 407-412 [drop_left]; [&mut self[..index]] panics when [index > len]. *)
Definition drop_left (index : nat) : M unit :=
  if 0 <? index then
    let! c := get in
    let! n := len in
    if index <=? n then
      slots_drop e N (left c) index ;;;
      let! l := uadd e (left c) index in
      set_left l
    else panic
  else ret tt.

(** mod.rs 419-424 [drop_right]; [&mut self[index..]] panics when [index > len]. *)
Definition drop_right (index : nat) : M unit :=
  let! c := get in
  let! n := len in
  if negb (index =? n) then
    if index <=? n then
      slots_drop e N (left c + index) (n - index) ;;;
      let! r := uadd e (left c) index in
      set_right r
    else panic
  else ret tt.

(** mod.rs 433-447 [split_off]: state is (new chunk, self). *)
Definition split_off (index : nat) : M (chunk A * unit) :=
  let! n := len in
  if n <? index then panic
  else if index =? n then ret (new, tt)
  else
    with_local new destroy (
      let! s := get in
      let! start := uadd e (left (snd s)) index in
      let! ln := usub e (right (snd s)) start in
      force_copy_to start 0 ln ;;;
      on_fst (set_right ln) ;;;
      on_snd (set_right start)).

(** mod.rs 454-469 [append]: state is (self, other). *)
Definition append : Machine.M A (chunk A * chunk A) unit :=
  let! self_len := on_fst len in
  let! other_len := on_snd len in
  let! total := uadd e self_len other_len in
  if N <? total then panic
  else
    let! s := get in
    let! rr := uadd e (right (fst s)) other_len in
    (if N <? rr then
       on_fst (force_copy (left (fst s)) 0 self_len ;;;
               let! r := usub e (right (fst s)) (left (fst s)) in
               set_right r ;;;
               set_left 0)
     else ret tt) ;;;
    let! s := get in
    force_copy_to (left (snd s)) (right (fst s)) other_len ;;;
    let! r := uadd e (right (fst s)) other_len in
    on_fst (set_right r) ;;;
    on_snd (set_left 0 ;;; set_right 0).

(** mod.rs 478-491 [drain_from_front]: state is (self, other). *)
Definition drain_from_front (count : nat) : Machine.M A (chunk A * chunk A) unit :=
  let! self_len := on_fst len in
  let! other_len := on_snd len in
  let! total := uadd e self_len count in
  assert (total <=? N) ;;;
  assert (count <=? other_len) ;;;
  let! s := get in
  let! rr := uadd e (right (fst s)) count in
  (if N <? rr then
     on_fst (force_copy (left (fst s)) 0 self_len ;;;
             let! r := usub e (right (fst s)) (left (fst s)) in
             set_right r ;;;
             set_left 0)
   else ret tt) ;;;
  let! s := get in
  force_copy_to (left (snd s)) (right (fst s)) count ;;;
  let! r := uadd e (right (fst s)) count in
  on_fst (set_right r) ;;;
  let! l := uadd e (left (snd s)) count in
  on_snd (set_left l).

(** mod.rs 500-513 [drain_from_back]: state is (self, other). *)
Definition drain_from_back (count : nat) : Machine.M A (chunk A * chunk A) unit :=
  let! self_len := on_fst len in
  let! other_len := on_snd len in
  let! total := uadd e self_len count in
  assert (total <=? N) ;;;
  assert (count <=? other_len) ;;;
  let! s := get in
  (if left (fst s) <? count then
     let! d := usub e N self_len in
     on_fst (force_copy (left (fst s)) d self_len ;;;
             set_left d ;;;
             set_right N)
   else ret tt) ;;;
  let! s := get in
  let! from := usub e (right (snd s)) count in
  let! to := usub e (left (fst s)) count in
  force_copy_to from to count ;;;
  let! l := usub e (left (fst s)) count in
  on_fst (set_left l) ;;;
  let! r := usub e (right (snd s)) count in
  on_snd (set_right r).

(** mod.rs 200-208 [from_front]: runs on [other]; returns the new chunk. *)
Definition from_front (count : nat) : M (chunk A * unit) :=
  let! other_len := len in
  debug_assert e (count <=? other_len) ;;;
  with_local new destroy (
    let! s := get in
    force_copy_to (left (snd s)) 0 count ;;;
    on_fst (set_right count) ;;;
    let! l := uadd e (left (snd s)) count in
    on_snd (set_left l)).

(** mod.rs 214-222 [from_back]. *)
Definition from_back (count : nat) : M (chunk A * unit) :=
  let! other_len := len in
  debug_assert e (count <=? other_len) ;;;
  with_local new destroy (
    let! s := get in
    let! from := usub e (right (snd s)) count in
    force_copy_to from 0 count ;;;
    on_fst (set_right count) ;;;
    let! r := usub e (right (snd s)) count in
    on_snd (set_right r)).

(** mod.rs 170-173 [drain_from]. *)
Definition drain_from : M (chunk A * unit) :=
  let! other_len := len in
  from_front other_len.

(** mod.rs 520-522 [set]: [replace(&mut self[index], value)]. *)
Definition set (index : nat) (value : A) : M A :=
  let! c := get in
  let! n := len in
  if index <? n then
    let! old := slot_read N (left c + index) in
    slot_write N (left c + index) value ;;;
    ret old
  else panic_dropping e value.

(** mod.rs 717-725 [IndexMut]: client code [chunk[index] = value]; the old value is dropped after the new one
    has been stored. *)
Definition assign (index : nat) (value : A) : M unit :=
  let! c := get in
  let! n := len in
  if index <? n then
    let! old := slot_read N (left c + index) in
    slot_write N (left c + index) value ;;;
    drop_values e [old]
  else panic_dropping e value.

(** mod.rs 708-725 [Index]/[IndexMut] with a [usize]. *)
Definition index (i : nat) : M A :=
  let! c := get in
  let! n := len in
  if i <? n then slot_peek N (left c + i) else panic.

(** mod.rs 530-553 [insert]. *)
Definition insert (index : nat) (value : A) : M unit :=
  let! c := get in
  if is_full c then panic_dropping e value
  else
    let! n := len in
    if n <? index then panic_dropping e value
    else
      let! real_index := uadd e index (left c) in
      let left_size := index in
      let! right_size := usub e (right c) real_index in
      if (right c =? N) || ((0 <? left c) && (left_size <? right_size)) then
        let! l1 := usub e (left c) 1 in
        force_copy (left c) l1 left_size ;;;
        let! w := usub e real_index 1 in
        force_write w value ;;;
        set_left l1
      else
        let! ri1 := uadd e real_index 1 in
        force_copy real_index ri1 right_size ;;;
        force_write real_index value ;;;
        let! r1 := uadd e (right c) 1 in
        set_right r1.

(** mod.rs 573-584 [insert_ordered].  [bs] is the standard library's [binary_search] on the slice:
    the index it reports ([Ok] or [Err]), or [None] if the comparison panics. *)
Definition insert_ordered (bs : list A -> A -> option nat) (value : A) : M unit :=
  let! c := get in
  if is_full c then panic_dropping e value
  else
    let! l := as_slice in
    match bs l value with
    | Some i => insert i value
    | None => panic_dropping e value
    end.

(** mod.rs 304-307: the loop of [write_from_iter], at most [k] items of the iterator script [it]
    from [write_index] on; returns the final [write_index].  On a panic of the iterator the live
    values of the chunk, which has been made empty, are forgotten (ghost). *)
Fixpoint write_loop (k : nat) (it : list (ev A)) (write_index : nat) : M nat :=
  match k, it with
  | S k', Yield value :: it' =>
      force_write write_index value ;;;
      let! wi := uadd e write_index 1 in
      write_loop k' it' wi
  | S _, Boom :: _ => slots_forget N 0 0 ;;; panic
  | _, _ => ret write_index
  end.

(** mod.rs 289-315 [write_from_iter].  [len2] is the value of [iter.len()] here (line 302).  An [iter.len()] that panics here
    does so after the chunk has been made empty and before anything is written: that is the script [Boom] with [len2 = 1]. *)
Definition write_from_iter (write_index : nat) (len2 : nat) (it : list (ev A)) : M unit :=
  let! c := get in
  set_left 0 ;;; set_right 0 ;;;
  let! expected_end := uadd e write_index len2 in
  let! wi := write_loop len2 it write_index in
  (if expected_end =? wi then ret tt else slots_forget N 0 0 ;;; panic) ;;;
  set_left (left c) ;;;
  set_right (right c).

(** mod.rs 595-639 [insert_from].  [len1] is the value of [iter.len()] at line 601. *)
Definition insert_from (index : nat) (len1 len2 : nat) (it : list (ev A)) : M unit :=
  let insert_size := len1 in
  let! n := len in
  let! total := uadd e n insert_size in
  if N <? total then panic
  else if n <? index then panic
  else
    let! c := get in
    let! real_index := uadd e index (left c) in
    let left_size := index in
    let! right_size := usub e (right c) real_index in
    if (right c =? N) || ((insert_size <=? left c) && (left_size <? right_size)) then
      let! l1 := usub e (left c) insert_size in
      force_copy (left c) l1 left_size ;;;
      let! write_index := usub e real_index insert_size in
      write_from_iter write_index len2 it ;;;
      set_left l1
    else
      let! rr := uadd e (right c) insert_size in
      if (left c =? 0) || (rr <=? N) then
        let! to := uadd e real_index insert_size in
        force_copy real_index to right_size ;;;
        write_from_iter real_index len2 it ;;;
        let! r1 := uadd e (right c) insert_size in
        set_right r1
      else
        force_copy (left c) 0 left_size ;;;
        let! to := uadd e left_size insert_size in
        force_copy real_index to right_size ;;;
        write_from_iter left_size len2 it ;;;
        let! r1 := usub e (right c) (left c) in
        let! r2 := uadd e r1 insert_size in
        set_right r2 ;;;
        set_left 0.

(** mod.rs 649-665 [remove]. *)
Definition remove (index : nat) : M A :=
  let! n := len in
  if n <=? index then panic
  else
    let! c := get in
    let! real_index := uadd e index (left c) in
    let! value := force_read real_index in
    let left_size := index in
    let! rs := usub e (right c) real_index in
    let! right_size := usub e rs 1 in
    (if left_size <? right_size then
       let! l1 := uadd e (left c) 1 in
       force_copy (left c) l1 left_size ;;;
       set_left l1
     else
       let! ri1 := uadd e real_index 1 in
       force_copy ri1 real_index right_size ;;;
       let! r1 := usub e (right c) 1 in
       set_right r1) ;;;
    ret value.

(** mod.rs 675-679 [clear]. *)
Definition clear : M unit :=
  let! c := get in
  let! n := len in
  slots_drop e N (left c) n ;;;
  set_left 0 ;;;
  set_right 0.

(** mod.rs 901-915 [Extend<A>::extend] (and 917-934 for [&A] with [A: Copy]). *)
Fixpoint extend (it : list (ev A)) : M unit :=
  match it with
  | [] => ret tt
  | Yield a :: it' => push_back a ;;; extend it'
  | Boom :: _ => panic
  end.

(** mod.rs 872-883 [FromIterator::from_iter]. *)
Definition from_iter (it : list (ev A)) : Machine.M A unit (chunk A * unit) :=
  with_local new destroy (on_fst (extend it)).

(** mod.rs 181-194 [collect_from]; the caller's iterator [&mut I] is the object. *)
Fixpoint collect_loop (count : nat) : Machine.M A (chunk A * list (ev A)) unit :=
  match count with
  | 0 => ret tt
  | S count' =>
      let! s := get in
      match snd s with
      | [] => panic                                    (* expect("underfull iterator") *)
      | Boom :: it' => on_snd (put it') ;;; panic
      | Yield a :: it' =>
          on_snd (put it') ;;;
          on_fst (push_back a) ;;;
          collect_loop count'
      end
  end.
Definition collect_from (count : nat) : Machine.M A (list (ev A)) (chunk A * unit) :=
  with_local new destroy (collect_loop count).

(** mod.rs 105-122 [Clone::clone].  [cl k a] is the result of the [k]-th call of [A::clone], on [a];
    [None] if it panics. *)
Fixpoint clone_loop (cl : nat -> A -> option A) (n index k : nat)
  : Machine.M A (chunk A * chunk A) unit :=
  match n with
  | 0 => ret tt
  | S n' =>
      let! a := on_snd (slot_peek N index) in
      match cl k a with
      | None => panic
      | Some a' =>
          on_fst (force_write index a') ;;;
          let! i1 := uadd e index 1 in
          on_fst (set_right i1) ;;;
          clone_loop cl n' i1 (S k)
      end
  end.
Definition clone (cl : nat -> A -> option A) : M (chunk A * unit) :=
  with_local new destroy (
    let! s := get in
    on_fst (set_left (left (snd s)) ;;; set_right (left (snd s))) ;;;
    clone_loop cl (right (snd s) - left (snd s)) (left (snd s)) 0).

(** iter.rs 12-18 [Iter::next], 56-62 [Drain::next]; mod.rs 668-670 [drain] and 936-943 [into_iter] wrap the chunk. *)
Definition iter_next : M (option A) :=
  let! c := get in
  if is_empty c then ret None else let! a := pop_front in ret (Some a).
(** iter.rs 26-32 [Iter::next_back], 73-79 [Drain::next_back]. *)
Definition iter_next_back : M (option A) :=
  let! c := get in
  if is_empty c then ret None else let! a := pop_back in ret (Some a).
(** iter.rs 20-22, 64-66 [size_hint]: lower bound and upper bound are both [len()]. *)
Definition size_hint : M (nat * option nat) :=
  let! n := len in ret (n, Some n).

(** mod.rs 858-870 [DerefMut]: the caller rewrites the slice in place, e.g. [sort].  [f] is what the
    slice operation does to the elements (it cannot change their number). *)
Fixpoint write_back (at_ : nat) (l : list A) : M unit :=
  match l with
  | [] => ret tt
  | a :: l' =>
      let! _ := slot_read N at_ in
      slot_write N at_ a ;;;
      write_back (S at_) l'
  end.
Definition update_slice (f : list A -> list A) : M unit :=
  let! c := get in
  let! l := as_slice in
  write_back (left c) (take (length l) (f l)).

(** mod.rs 737-749 [Hash]: each item is hashed in order; there is no length prefix. *)
Definition hash : M (list (hev A)) :=
  let! l := as_slice in ret (map HItem l).
(** mod.rs 751-759 [PartialEq<Slice> for Chunk]: comparison of slices ([other] here is a chunk). *)
Definition eq_ (eqA : A -> A -> bool) : Machine.M A (chunk A * chunk A) bool :=
  let! l1 := on_fst as_slice in
  let! l2 := on_snd as_slice in
  ret (slice_eq eqA l1 l2).
(** mod.rs 763-770 [PartialOrd]. *)
Definition partial_cmp (pc : A -> A -> option comparison)
  : Machine.M A (chunk A * chunk A) (option comparison) :=
  let! l1 := on_fst as_slice in
  let! l2 := on_snd as_slice in
  ret (iter_partial_cmp pc l1 l2).
(** mod.rs 772-779 [Ord]. *)
Definition cmp_ (cmp : A -> A -> comparison) : Machine.M A (chunk A * chunk A) comparison :=
  let! l1 := on_fst as_slice in
  let! l2 := on_snd as_slice in
  ret (iter_cmp cmp l1 l2).
End chunk.

Section chunk_bytes.
Context (e : env nat) (N : nat).
(** mod.rs 782-787 [io::Write::write]; bytes are modelled as [nat]s.  789-791 [flush] does nothing. *)
Definition io_write (buf : list nat) : M nat (chunk nat) nat :=
  let! old_len := len e in
  let! room := usub e N old_len in
  extend e N (map Yield (take room buf)) ;;;
  let! n := len e in
  usub e n old_len.
(** mod.rs 795-807 [io::Read::read]: returns the new contents of [buf] and the count. *)
Fixpoint io_read_loop (k : nat) (buf : list nat) : M nat (chunk nat) (list nat) :=
  match k, buf with
  | S k', _ :: buf' =>
      let! p := pop_front e N in
      let! rest := io_read_loop k' buf' in
      ret (p :: rest)
  | _, _ => ret buf
  end.
Definition io_read (buf : list nat) : M nat (chunk nat) (list nat * nat) :=
  let! n := len e in
  let read_size := length buf `min` n in
  if read_size =? 0 then ret (buf, 0)
  else
    let! buf' := io_read_loop read_size buf in
    ret (buf', read_size).
End chunk_bytes.
