(** * Model of [RingBuffer<A, N>]  (src/ring_buffer/{mod,index,iter,slice}.rs)

    Every method is transcribed statement by statement.  [N] is the const generic parameter.  A
    [RawIndex<N>] is a plain number here; every place where the code builds one from a [usize] has its
    debug assertion ([raw_from]). *)
From Verif Require Import Machine.

(** mod.rs 60-64: [pub struct RingBuffer<A, const N: usize> { origin, length, data }]. *)
Record ring (A : Type) := Ring { origin : nat; rlen : nat; rdata : mem A }.
Arguments Ring {A}. Arguments origin {A}. Arguments rlen {A}. Arguments rdata {A}.
Global Instance ring_mem A : HasMem A (ring A) :=
  {| getm := rdata; setm := fun m r => Ring (origin r) (rlen r) m |}.

(** ** src/ring_buffer/index.rs *)
Section index.
Context {A O : Type} (e : env A) (N : nat).
Notation M := (M A O).

(** index.rs 45-52 [From<usize> for RawIndex]; 9-15 [clone], 20-25 [to_usize], 54-60 [eq] are those of the number. *)
Definition raw_from (index : nat) : M nat := debug_assert e (index <? N) ;;; ret index.
(** index.rs 79-81, 90-92: [while result >= N { result -= N; }].  Each round subtracts [N]; with [N > 0]
    [S result] rounds of fuel always suffice, with [N = 0] the loop never ends (see [wrap_down_zero]). *)
Fixpoint wrap_down (fuel result : nat) : M nat :=
  if result <? N then ret result
  else match fuel with
       | 0 => hang
       | S fuel' => let! result := usub e result N in wrap_down fuel' result
       end.
(** index.rs 73-84 [Add<usize>]. *)
Definition raw_add (i other : nat) : M nat :=
  let! result := uadd e i other in
  let! result := wrap_down (S result) result in
  raw_from result.
(** index.rs 86-94 [AddAssign<usize>]. *)
Definition raw_add_assign (i other : nat) : M nat :=
  let! result := uadd e i other in
  wrap_down (S result) result.
(** index.rs 111-113, 121-123: [while other > start { start += N; }].  After [word e] rounds [start] has its first
    value again, so the loop does not end if that much fuel does not suffice (see [wrap_up_hangs]). *)
Fixpoint wrap_up (fuel start other : nat) : M nat :=
  if start <? other then
    match fuel with
    | 0 => hang
    | S fuel' => let! start := uadd e start N in wrap_up fuel' start other
    end
  else ret start.
(** index.rs 105-116 [Sub<usize>]. *)
Definition raw_sub (i other : nat) : M nat :=
  let! start := wrap_up (S other + word e) i other in
  let! d := usub e start other in
  raw_from d.
(** index.rs 118-126 [SubAssign<usize>]. *)
Definition raw_sub_assign (i other : nat) : M nat :=
  let! start := wrap_up (S other + word e) i other in
  usub e start other.
(** index.rs 27-34 [inc]: the new value (the old one is returned to the caller, here [i] itself). *)
Definition raw_inc (i : nat) : M nat :=
  let! n1 := usub e N 1 in
  if i =? n1 then ret 0 else uadd e i 1.
(** index.rs 36-42 [dec]: the new value. *)
Definition raw_dec (i : nat) : M nat :=
  if i =? 0 then usub e N 1 else usub e i 1.
(** mod.rs 120-130: the debug assertion in [ptr] and [mut_ptr]. *)
Definition ptr (index : nat) : M unit := debug_assert e (index <? N).
End index.

Section ring.
Context {A : Type} (e : env A) (N : nat).
Notation M := (M A (ring A)).

Definition set_origin (x : nat) : M unit := fun r g => Ret (Ring x (rlen r) (rdata r)) g tt.
Definition set_length (x : nat) : M unit := fun r g => Ret (Ring (origin r) x (rdata r)) g tt.

(** mod.rs 77-84 [len]. *)
Definition rb_len : M nat := let! r := get in ret (rlen r).
(** array_ops [HasLength::is_empty]: [len() == 0]. *)
Definition rb_is_empty (r : ring A) : bool := rlen r =? 0.
(** mod.rs 319-321 [is_full]. *)
Definition rb_is_full (r : ring A) : bool := rlen r =? N.
(** mod.rs 116-118 [raw]. *)
Definition raw (index : nat) : M nat := let! r := get in raw_add e N (origin r) index.

(** mod.rs 134-136 [force_drop]. *)
Definition rb_force_drop (index : nat) : M unit :=
  ptr e N index ;;;
  let! a := slot_read N index in
  drop_values e [a].
(** mod.rs 140-142 [force_read]. *)
Definition rb_force_read (index : nat) : M A := ptr e N index ;;; slot_read N index.
(** mod.rs 146-148 [force_write]. *)
Definition rb_force_write (index : nat) (value : A) : M unit := ptr e N index ;;; slot_write N index value.

(** mod.rs 158-171 [force_copy_to], from the second object into the first. *)
Definition rb_force_copy_to (from to count : nat) : Machine.M A (ring A * ring A) unit :=
  if 0 <? count then
    let! f := uadd e from count in
    debug_assert e (f <=? N) ;;;
    let! t := uadd e to count in
    debug_assert e (t <=? N) ;;;
    ptr e N from ;;; ptr e N to ;;;
    slots_transfer N N from to count
  else ret tt.
(** mod.rs 151-186 [copy_from]; the state is (self, source).  The recursion ends after at most two levels
    when [count <= N]; [fuel] is a bound on its depth. *)
Fixpoint copy_from_ (fuel from to count : nat) : Machine.M A (ring A * ring A) unit :=
  let! f := uadd e from count in
  if N <? f then
    let! first_length := usub e N from in
    let! last_length := usub e count first_length in
    match fuel with
    | 0 => hang
    | S fuel' =>
        copy_from_ fuel' from to first_length ;;;
        let! zero := raw_from e N 0 in
        let! to' := raw_add e N to first_length in
        copy_from_ fuel' zero to' last_length
    end
  else
    let! t := uadd e to count in
    if N <? t then
      let! first_length := usub e N to in
      let! last_length := usub e count first_length in
      rb_force_copy_to from to first_length ;;;
      let! from' := raw_add e N from first_length in
      let! zero := raw_from e N 0 in
      rb_force_copy_to from' zero last_length
    else rb_force_copy_to from to count.
Definition copy_from (from to count : nat) : Machine.M A (ring A * ring A) unit :=
  copy_from_ (S count) from to count.

(** mod.rs 214-220 [range]: builds an [IndexIter]; the right end is computed eagerly.  Returns the left
    index and the number of remaining items. *)
Definition rb_range : M (nat * nat) :=
  let! r := get in
  let! _ := raw_add e N (origin r) (rlen r) in
  ret (origin r, rlen r).
(** index.rs 134-144 [IndexIter::next]: [for i in range] with [count] items left, starting at [left]. *)
Fixpoint for_range (count left : nat) (body : nat -> M unit) : M unit :=
  match count with
  | 0 => ret tt
  | S count' =>
      let! left' := raw_inc e N left in
      body left ;;;
      for_range count' left' body
  end.
(** [Iterator::skip]: [count] items are consumed first. *)
Fixpoint skip_range (count left : nat) : M nat :=
  match count with
  | 0 => ret left
  | S count' => let! left' := raw_inc e N left in skip_range count' left'
  end.

(** mod.rs 66-75 [Drop::drop]. *)
Definition rb_drop : M unit :=
  let! rg := rb_range in
  for_range (snd rg) (fst rg) rb_force_drop.
Definition rb_destroy : M unit := destroying N rb_drop.

(** mod.rs 225-231 [new]; 761-767 [default]. *)
Definition ring0 : ring A := Ring 0 0 mem0.
Definition rb_new {O} : Machine.M A O (ring A) := let! z := raw_from e N 0 in ret ring0.

(** mod.rs 236-247 [unit]. *)
Definition rb_unit (value : A) : Machine.M A unit (ring A * unit) :=
  if 1 <=? N then
    let! z := raw_from e N 0 in
    with_local (Ring z 1 mem0) rb_destroy (
      let! z := raw_from e N 0 in on_fst (rb_force_write z value))
  else panic_dropping e value.
(** mod.rs 252-264 [pair]. *)
Definition rb_pair (v1 v2 : A) : Machine.M A unit (ring A * unit) :=
  if 2 <=? N then
    let! z := raw_from e N 0 in
    with_local (Ring z 2 mem0) rb_destroy (
      let! z := raw_from e N 0 in on_fst (rb_force_write z v1) ;;;
      let! o := raw_from e N 1 in on_fst (rb_force_write o v2))
  else if bomb e v2 then (fun _ _ => Abort)
  else (fun o g => panic_dropping e v1 o (log_drop [v2] g)).

(** mod.rs 388-390, 398-400 [get_unchecked]/[get_unchecked_mut]. *)
Definition rb_get_unchecked (index : nat) : M A :=
  let! i := raw index in
  ptr e N i ;;;
  slot_peek N i.
(** mod.rs 86-108 [get]/[get_mut]. *)
Definition rb_get (index : nat) : M (option A) :=
  let! r := get in
  if rlen r <=? index then ret None else let! a := rb_get_unchecked index in ret (Some a).
(** mod.rs 785-813 [Index]/[IndexMut]. *)
Definition rb_index (index : nat) : M A :=
  let! r := get in
  if rlen r <=? index then panic else rb_get_unchecked index.
(** Assignment through [index_mut]: [buffer[index] = value] drops the old value in place first.
    (If its destructor panics the slot is written nevertheless.) *)
Definition rb_assign (index : nat) (value : A) : M unit :=
  let! r := get in
  if rlen r <=? index then panic_dropping e value
  else
    let! i := raw index in
    ptr e N i ;;;
    let! old := slot_read N i in
    slot_write N i value ;;;
    drop_values e [old].

(** mod.rs 407-414 [push_back]. *)
Definition rb_push_back (value : A) : M unit :=
  let! r := get in
  if rb_is_full r then panic_dropping e value
  else
    let! i := raw (rlen r) in
    rb_force_write i value ;;;
    let! l := uadd e (rlen r) 1 in
    set_length l.
(** mod.rs 421-429 [push_front]. *)
Definition rb_push_front (value : A) : M unit :=
  let! r := get in
  if rb_is_full r then panic_dropping e value
  else
    let! o := raw_dec e N (origin r) in
    set_origin o ;;;
    let! l := uadd e (rlen r) 1 in
    set_length l ;;;
    rb_force_write o value.
(** mod.rs 436-443 [pop_back]. *)
Definition rb_pop_back : M (option A) :=
  let! r := get in
  if rb_is_empty r then ret None
  else
    let! l := usub e (rlen r) 1 in
    set_length l ;;;
    let! i := raw l in
    let! a := rb_force_read i in
    ret (Some a).
(** mod.rs 450-458 [pop_front]. *)
Definition rb_pop_front : M (option A) :=
  let! r := get in
  if rb_is_empty r then ret None
  else
    let! l := usub e (rlen r) 1 in
    set_length l ;;;
    let! o := raw_inc e N (origin r) in
    set_origin o ;;;
    let! a := rb_force_read (origin r) in
    ret (Some a).

(** mod.rs 465-476 [drop_left]. *)
Definition rb_drop_left (index : nat) : M unit :=
  if 0 <? index then
    let! r := get in
    if rlen r <? index then panic
    else
      let! rg := rb_range in
      for_range (index `min` snd rg) (fst rg) rb_force_drop ;;;
      let! o := raw_add_assign e N (origin r) index in
      set_origin o ;;;
      let! l := usub e (rlen r) index in
      set_length l
  else ret tt.
(** mod.rs 483-494 [drop_right]. *)
Definition rb_drop_right (index : nat) : M unit :=
  let! r := get in
  if rlen r <? index then panic
  else if index =? rlen r then ret tt
  else
    let! rg := rb_range in
    let! left := skip_range index (fst rg) in
    for_range (snd rg - index) left rb_force_drop ;;;
    set_length index.

(** mod.rs 504-517 [split_off]; inside, the state is (right, self). *)
Definition rb_split_off (index : nat) : M (ring A * unit) :=
  let! r := get in
  if rlen r <? index then panic
  else if index =? rlen r then let! b := rb_new in ret (b, tt)
  else
    let! b := rb_new in
    with_local b rb_destroy (
      let! length := on_snd (usub e (rlen r) index) in
      let! from := on_snd (raw index) in
      let! zero := raw_from e N 0 in
      copy_from from zero length ;;;
      on_snd (set_length index) ;;;
      on_fst (set_length length)).

(** mod.rs 538-551 [drain_from_front]; the state is (self, other). *)
Definition rb_drain_from_front (count : nat) : Machine.M A (ring A * ring A) unit :=
  let! s := get in
  let! total := uadd e (rlen (fst s)) count in
  if N <? total then panic
  else if rlen (snd s) <? count then panic
  else
    let! to := on_fst (raw (rlen (fst s))) in
    copy_from (origin (snd s)) to count ;;;
    let! o := raw_add_assign e N (origin (snd s)) count in
    on_snd (set_origin o) ;;;
    let! l := usub e (rlen (snd s)) count in
    on_snd (set_length l) ;;;
    let! l := uadd e (rlen (fst s)) count in
    on_fst (set_length l).
(** mod.rs 527-529 [append]. *)
Definition rb_append : Machine.M A (ring A * ring A) unit :=
  let! s := get in rb_drain_from_front (rlen (snd s)).
(** mod.rs 560-574 [drain_from_back]; the state is (self, other). *)
Definition rb_drain_from_back (count : nat) : Machine.M A (ring A * ring A) unit :=
  let! s := get in
  let! total := uadd e (rlen (fst s)) count in
  if N <? total then panic
  else if rlen (snd s) <? count then panic
  else
    let! o := raw_sub_assign e N (origin (fst s)) count in
    on_fst (set_origin o) ;;;
    let! k := usub e (rlen (snd s)) count in
    let! source_index := raw_add e N (origin (snd s)) k in
    copy_from source_index o count ;;;
    let! l := usub e (rlen (snd s)) count in
    on_snd (set_length l) ;;;
    let! l := uadd e (rlen (fst s)) count in
    on_fst (set_length l).
(** mod.rs 299-303 [from_front], 310-314 [from_back], 272-274 [drain_from]: run on [other]. *)
Definition rb_from_front (count : nat) : M (ring A * unit) :=
  let! b := rb_new in with_local b rb_destroy (rb_drain_from_front count).
Definition rb_from_back (count : nat) : M (ring A * unit) :=
  let! b := rb_new in with_local b rb_destroy (rb_drain_from_back count).
Definition rb_drain_from : M (ring A * unit) :=
  let! r := get in rb_from_front (rlen r).

(** mod.rs 601-604, 674-677: [while i != target { force_write(i + by, force_read(i)); i -= 1; }].
    From [i] down to [target] there are fewer than [N] steps, so fuel [N] suffices. *)
Fixpoint shift_down (fuel i target by_ : nat) : M unit :=
  if i =? target then ret tt
  else match fuel with
       | 0 => hang
       | S fuel' =>
           let! to := raw_add e N i by_ in
           let! a := rb_force_read i in
           rb_force_write to a ;;;
           let! i' := raw_sub_assign e N i 1 in
           shift_down fuel' i' target by_
       end.
(** mod.rs 611-613, 684-686: the body of [for i in self.range().take(index)]. *)
Definition pull_one (by_ i : nat) : M unit :=
  let! from := raw_add e N i by_ in
  let! a := rb_force_read from in
  rb_force_write i a.

(** mod.rs 582-616 [insert]. *)
Definition rb_insert (index : nat) (value : A) : M unit :=
  let! r := get in
  if rb_is_full r then panic_dropping e value
  else if rlen r <? index then panic_dropping e value
  else if index =? 0 then rb_push_front value
  else if index =? rlen r then rb_push_back value
  else
    let! right_count := usub e (rlen r) index in
    (if right_count <? index then
       let! l1 := usub e (rlen r) 1 in
       let! i := raw l1 in
       let! target := raw index in
       shift_down N i target 1 ;;;
       let! to := raw_add e N target 1 in
       let! a := rb_force_read target in
       rb_force_write to a ;;;
       let! l := uadd e (rlen r) 1 in
       set_length l
     else
       let! o := raw_sub_assign e N (origin r) 1 in
       set_origin o ;;;
       let! l := uadd e (rlen r) 1 in
       set_length l ;;;
       let! rg := rb_range in
       for_range (index `min` snd rg) (fst rg) (pull_one 1)) ;;;
    let! i := raw index in
    rb_force_write i value.

(** mod.rs 872-879 [Extend<A>::extend] (and 881-888 for [&A]). *)
Fixpoint rb_extend (it : list (ev A)) : M unit :=
  match it with
  | [] => ret tt
  | Yield a :: it' => rb_push_back a ;;; rb_extend it'
  | Boom :: _ => panic
  end.

(** mod.rs 694-698: [for value in iter.take(insert_size)]; returns [inserted].  When the iterator panics
    the buffer pretends to be empty, so its values are forgotten (ghost). *)
Fixpoint fill_loop (k : nat) (it : list (ev A)) (index inserted : nat) : M nat :=
  match k, it with
  | S k', Yield value :: it' =>
      rb_force_write index value ;;;
      let! index' := raw_add_assign e N index 1 in
      let! inserted' := uadd e inserted 1 in
      fill_loop k' it' index' inserted'
  | S _, Boom :: _ => slots_forget N 0 0 ;;; panic
  | _, _ => ret inserted
  end.
(** mod.rs 648-705 [insert_from]; [insert_size] is what [iter.len()] returns. *)
Definition rb_insert_from (index insert_size : nat) (it : list (ev A)) : M unit :=
  let! r := get in
  let! total := uadd e (rlen r) insert_size in
  if N <? total then panic
  else if rlen r <? index then panic
  else if index =? rlen r then rb_extend it
  else
    let! right_count := usub e (rlen r) index in
    (if right_count <? index then
       let! l1 := usub e (rlen r) 1 in
       let! i := raw l1 in
       let! target := raw index in
       shift_down N i target insert_size ;;;
       let! to := raw_add e N target insert_size in
       let! a := rb_force_read target in
       rb_force_write to a ;;;
       let! l := uadd e (rlen r) insert_size in
       set_length l
     else
       let! o := raw_sub_assign e N (origin r) insert_size in
       set_origin o ;;;
       let! l := uadd e (rlen r) insert_size in
       set_length l ;;;
       let! rg := rb_range in
       for_range (index `min` snd rg) (fst rg) (pull_one insert_size)) ;;;
    let! i := raw index in
    let! length := rb_len in
    set_length 0 ;;;
    let! inserted := fill_loop insert_size it i 0 in
    (if inserted =? insert_size then ret tt else slots_forget N 0 0 ;;; panic) ;;;
    set_length length.

(** mod.rs 626-637 [insert_ordered].  [bs]: array_ops' [binary_search] on the slice of the whole buffer. *)
Definition rb_peek_all_ := fix go (count left : nat) : M (list A) :=
  match count with
  | 0 => ret []
  | S count' =>
      let! left' := raw_inc e N left in
      ptr e N left ;;;
      let! a := slot_peek N left in
      let! rest := go count' left' in
      ret (a :: rest)
  end.
(** mod.rs 327-334 [iter] run to its end (iter.rs 22-29). *)
Definition rb_contents : M (list A) :=
  let! rg := rb_range in rb_peek_all_ (snd rg) (fst rg).
Definition rb_insert_ordered (bs : list A -> A -> option nat) (value : A) : M unit :=
  let! r := get in
  if rb_is_full r then panic_dropping e value
  else
    let! l := rb_contents in
    match bs l value with
    | Some i => rb_insert i value
    | None => panic_dropping e value
    end.

(** mod.rs 727-730: [while i != target { force_write(i, force_read(i + 1)); i += 1; }]. *)
Fixpoint close_up (fuel i target : nat) : M unit :=
  if i =? target then ret tt
  else match fuel with
       | 0 => hang
       | S fuel' =>
           let! from := raw_add e N i 1 in
           let! a := rb_force_read from in
           rb_force_write i a ;;;
           let! i' := raw_add_assign e N i 1 in
           close_up fuel' i' target
       end.
(** mod.rs 734-737: [while i != self.origin { force_write(i, force_read(i - 1)); i -= 1; }]. *)
Fixpoint close_down (fuel i target : nat) : M unit :=
  if i =? target then ret tt
  else match fuel with
       | 0 => hang
       | S fuel' =>
           let! from := raw_sub e N i 1 in
           let! a := rb_force_read from in
           rb_force_write i a ;;;
           let! i' := raw_sub_assign e N i 1 in
           close_down fuel' i' target
       end.
(** mod.rs 715-742 [remove]. *)
Definition rb_remove (index : nat) : M A :=
  let! r := get in
  if rlen r <=? index then panic
  else
    let! i := raw index in
    let! value := rb_force_read i in
    let! right_count := usub e (rlen r) index in
    (if right_count <? index then
       let! l := usub e (rlen r) 1 in
       set_length l ;;;
       let! i := raw index in
       let! target := raw l in
       close_up N i target
     else
       let! i := raw index in
       close_down N i (origin r) ;;;
       let! o := raw_add_assign e N (origin r) 1 in
       set_origin o ;;;
       let! l := usub e (rlen r) 1 in
       set_length l) ;;;
    ret value.

(** mod.rs 752-758 [clear]. *)
Definition rb_clear : M unit :=
  let! rg := rb_range in
  for_range (snd rg) (fst rg) rb_force_drop ;;;
  let! z := raw_from e N 0 in
  set_origin z ;;;
  set_length 0.

(** mod.rs 939-946 [FromIterator]. *)
Definition rb_from_iter {O} (it : list (ev A)) : Machine.M A O (ring A * unit) :=
  let! b := rb_new in with_local b rb_destroy (on_fst (rb_extend it)).
(** mod.rs 283-292 [collect_from]: [from_iter(iter.take(count))], then the length check.  The loop is that
    of [extend] over [Take]; the caller's iterator is the object. *)
Fixpoint rb_take_loop (count : nat) : Machine.M A (ring A * list (ev A)) unit :=
  match count with
  | 0 => ret tt
  | S count' =>
      let! s := get in
      match snd s with
      | [] => ret tt
      | Boom :: it' => on_snd (put it') ;;; panic
      | Yield a :: it' =>
          on_snd (put it') ;;;
          on_fst (rb_push_back a) ;;;
          rb_take_loop count'
      end
  end.
Definition rb_collect_from (count : nat) : Machine.M A (list (ev A)) (ring A * unit) :=
  let! b := rb_new in
  with_local b rb_destroy (
    rb_take_loop count ;;;
    let! s := get in
    if rlen (fst s) <? count then panic else ret tt).

(** mod.rs 769-783 [Clone::clone]: from the second object into the first. *)
Fixpoint rb_clone_loop (cl : nat -> A -> option A) (n index k : nat)
  : Machine.M A (ring A * ring A) unit :=
  match n with
  | 0 => ret tt
  | S n' =>
      let! index' := raw_inc e N index in
      ptr e N index ;;;
      let! a := on_snd (slot_peek N index) in
      match cl k a with
      | None => panic
      | Some a' =>
          on_fst (rb_force_write index a') ;;;
          let! s := get in
          let! l := uadd e (rlen (fst s)) 1 in
          on_fst (set_length l) ;;;
          rb_clone_loop cl n' index' (S k)
      end
  end.
Definition rb_clone (cl : nat -> A -> option A) : M (ring A * unit) :=
  let! b := rb_new in
  with_local b rb_destroy (
    let! s := get in
    on_fst (set_origin (origin (snd s))) ;;;
    on_fst (set_length (rlen (snd s))) ;;;
    let! rg := on_snd rb_range in
    on_fst (set_length 0) ;;;
    rb_clone_loop cl (snd rg) (fst rg) 0).

(** mod.rs 815-821 [PartialEq]: the lengths, then element-wise. *)
Definition rb_eq (eqA : A -> A -> bool) : Machine.M A (ring A * ring A) bool :=
  let! s := get in
  if rlen (fst s) =? rlen (snd s) then
    let! l1 := on_fst rb_contents in
    let! l2 := on_snd rb_contents in
    ret (slice_eq eqA l1 l2)
  else ret false.
(** mod.rs 823-834 [PartialEq<PrimSlice>]: comparison with a borrowed slice. *)
Definition rb_eq_list (eqA : A -> A -> bool) (other : list A) : M bool :=
  let! r := get in
  if rlen r =? length other then let! l := rb_contents in ret (slice_eq eqA l other) else ret false.
(** mod.rs 856-862 [PartialOrd]. *)
Definition rb_partial_cmp (pc : A -> A -> option comparison)
  : Machine.M A (ring A * ring A) (option comparison) :=
  let! l1 := on_fst rb_contents in
  let! l2 := on_snd rb_contents in
  ret (iter_partial_cmp pc l1 l2).
(** mod.rs 864-870 [Ord]. *)
Definition rb_cmp (cmp : A -> A -> comparison) : Machine.M A (ring A * ring A) comparison :=
  let! l1 := on_fst rb_contents in
  let! l2 := on_snd rb_contents in
  ret (iter_cmp cmp l1 l2).
(** mod.rs 897-904 [Hash]. *)
Definition rb_hash : M (list (hev A)) :=
  let! l := rb_contents in ret (map HItem l).

(** ** Iterators (iter.rs).  [Drain] and [OwnedIter] are [rb_pop_front]/[rb_pop_back] on the buffer: iter.rs 139-142,
    170-173 [next]; 152-155, 183-186 [next_back]; mod.rs 745-747 [drain] and 948-957 [into_iter] wrap the buffer. *)
(** iter.rs 146-148, 177-179 [size_hint]. *)
Definition rb_size_hint : M (nat * option nat) := let! n := rb_len in ret (n, Some n).
End ring.

(** iter.rs 12-17 [Iter], 54-60 [IterMut]: the borrowed buffer together with the iterator's registers. *)
Record idx := Idx { ileft : nat; iright : nat; iremaining : nat }.
Section ref_iter.
Context {A : Type} (e : env A) (N : nat).
Notation MI := (Machine.M A (idx * ring A)).
Definition set_idx (x : idx) : MI unit := on_fst (put x).

(** iter.rs 22-29 [Iter::next], 95-103 [IterMut::next].  The item is the slot number together with the
    value it refers to.  ([IterMut::mut_ptr] has no debug assertion; the access is the same.) *)
Definition it_next : MI (option (nat * A)) :=
  let! s := get in
  if iremaining (fst s) =? 0 then ret None
  else
    let! rem := usub e (iremaining (fst s)) 1 in
    let! l := raw_inc e N (ileft (fst s)) in
    set_idx (Idx l (iright (fst s)) rem) ;;;
    ptr e N (ileft (fst s)) ;;;
    let! a := on_snd (slot_peek N (ileft (fst s))) in
    ret (Some (ileft (fst s), a)).
(** iter.rs 39-46 [Iter::next_back], 116-124 [IterMut::next_back]. *)
Definition it_next_back : MI (option (nat * A)) :=
  let! s := get in
  if iremaining (fst s) =? 0 then ret None
  else
    let! rem := usub e (iremaining (fst s)) 1 in
    let! r := raw_dec e N (iright (fst s)) in
    set_idx (Idx (ileft (fst s)) r rem) ;;;
    ptr e N r ;;;
    let! a := on_snd (slot_peek N r) in
    ret (Some (r, a)).
(** iter.rs 33-35, 107-109 [size_hint]. *)
Definition it_size_hint : MI (nat * option nat) :=
  let! s := get in ret (iremaining (fst s), Some (iremaining (fst s))).

(** mod.rs 327-334 [iter], 340-342 [iter_mut]; iter.rs 66-82 [IterMut::new]; 84-87 [mut_ptr].  mod.rs 959-979 [into_iter]
    of references. *)
Definition rb_iter : Machine.M A (ring A) idx :=
  let! r := get in
  let! right := raw_add e N (origin r) (rlen r) in
  ret (Idx (origin r) right (rlen r)).
End ref_iter.

(** ** src/ring_buffer/slice.rs.  A slice is its range; the buffer is the object. *)
Inductive bound := Unbounded | Included (i : nat) | Excluded (i : nat).
Section slices.
Context {A : Type} (e : env A) (N : nat).
Notation M := (M A (ring A)).

(** mod.rs 345-362 [parse_range]; 366-380 [slice], [slice_mut]; slice.rs 136-148, 418-429 [from]: the whole range;
    150-159 [clone], 296-304 [unmut], 431-437 [into]: the same range of the same buffer. *)
Definition rb_slice (lo hi : bound) : M (nat * nat) :=
  let! r := get in
  let! start := (match lo with
                 | Unbounded => ret 0
                 | Included i => ret i
                 | Excluded _ => panic     (* unimplemented!() *)
                 end) in
  let! end_ := (match hi with
                | Unbounded => ret (rlen r)
                | Included i => uadd e i 1
                | Excluded i => ret i
                end) in
  if (rlen r <? end_) || (end_ <? start) then panic else ret (start, end_).
(** slice.rs 29-31, 264-266 [len]. *)
Definition sl_len (s : nat * nat) : M nat := usub e (snd s) (fst s).
(** slice.rs 54-56, 312-324 [get_unchecked]. *)
Definition sl_get_unchecked (s : nat * nat) (index : nat) : M A :=
  let! i := uadd e (fst s) index in rb_get_unchecked e N i.
(** slice.rs 38-44, 273-292 [get]/[get_mut]. *)
Definition sl_get (s : nat * nat) (index : nat) : M (option A) :=
  let! n := sl_len s in
  if n <=? index then ret None else let! a := sl_get_unchecked s index in ret (Some a).
(** slice.rs 161-169, 439-455 [Index]/[IndexMut]: bound checked against the *buffer*. *)
Definition sl_index (s : nat * nat) (index : nat) : M A :=
  let! i := uadd e (fst s) index in rb_index e N i.
Definition sl_assign (s : nat * nat) (index : nat) (value : A) : M unit :=
  let! i := uadd e (fst s) index in rb_assign e N i value.
(** slice.rs 61-68, 329-348 [iter], [iter_mut]; 241-250, 527-547 [into_iter]. *)
Definition sl_iter (s : nat * nat) : M idx :=
  let! r := get in
  let! left := raw_add e N (origin r) (fst s) in
  let! left' := raw_add e N (origin r) (fst s) in
  let! n := sl_len s in
  let! right := raw_add e N left' n in
  let! n := sl_len s in
  ret (Idx left right n).
(** slice.rs 75-98, 356-379 [Slice::slice]. *)
Definition sl_slice (s : nat * nat) (lo hi : bound) : M (nat * nat) :=
  let! start := (match lo with
                 | Unbounded => ret (fst s)
                 | Included i => uadd e (fst s) i
                 | Excluded _ => panic     (* unimplemented!() *)
                 end) in
  let! end_ := (match hi with
                | Unbounded => ret (snd s)
                | Included i => let! x := uadd e (fst s) i in uadd e x 1
                | Excluded i => uadd e (fst s) i
                end) in
  if (start <? fst s) || (snd s <? end_) || (end_ <? start) then panic else ret (start, end_).
(** slice.rs 102-123, 383-405 [split_at]. *)
Definition sl_split_at (s : nat * nat) (index : nat) : M ((nat * nat) * (nat * nat)) :=
  let! n := sl_len s in
  if n <? index then panic
  else
    let! i := uadd e (fst s) index in
    ret ((fst s, i), (i, snd s)).
(** The elements seen by iterating over the slice ([for x in slice.iter()]). *)
Definition sl_contents (s : nat * nat) : M (list A) :=
  let! i := sl_iter s in
  rb_peek_all_ e N (iremaining i) (ileft i).
End slices.

Section slice_ops.
Context {A : Type} (e : env A) (N : nat).
Notation M := (M A (ring A)).
(** slice.rs 171-185, 457-471 [PartialEq] of two slices (of two buffers); with [s2] the whole range this is
    the comparison with a [RingBuffer] (mod.rs 836-852, slice.rs 187-193, 473-479). *)
Definition sl_eq (eqA : A -> A -> bool) (s1 s2 : nat * nat) : Machine.M A (ring A * ring A) bool :=
  let! n1 := on_fst (sl_len e s1) in
  let! n2 := on_snd (sl_len e s2) in
  if n1 =? n2 then
    let! l1 := on_fst (sl_contents e N s1) in
    let! l2 := on_snd (sl_contents e N s2) in
    ret (slice_eq eqA l1 l2)
  else ret false.
(** slice.rs 195-205, 481-491 [PartialEq<S>]: comparison with a borrowed slice. *)
Definition sl_eq_list (eqA : A -> A -> bool) (s : nat * nat) (other : list A) : M bool :=
  let! n := sl_len e s in
  if n =? length other then let! l := sl_contents e N s in ret (slice_eq eqA l other) else ret false.
(** slice.rs 209-215, 495-501 [PartialOrd]; 217-223, 503-509 [Ord]; 232-239, 518-525 [Hash]. *)
Definition sl_partial_cmp (pc : A -> A -> option comparison) (s1 s2 : nat * nat)
  : Machine.M A (ring A * ring A) (option comparison) :=
  let! l1 := on_fst (sl_contents e N s1) in
  let! l2 := on_snd (sl_contents e N s2) in
  ret (iter_partial_cmp pc l1 l2).
Definition sl_cmp (cmp : A -> A -> comparison) (s1 s2 : nat * nat)
  : Machine.M A (ring A * ring A) comparison :=
  let! l1 := on_fst (sl_contents e N s1) in
  let! l2 := on_snd (sl_contents e N s2) in
  ret (iter_cmp cmp l1 l2).
Definition sl_hash (s : nat * nat) : M (list (hev A)) :=
  let! l := sl_contents e N s in ret (map HItem l).
(** [Iterator::cloned] over [l]: the [k]-th item is [cl k a], or a panic. *)
Fixpoint cloned (cl : nat -> A -> option A) (k : nat) (l : list A) : list (ev A) :=
  match l with
  | [] => []
  | a :: l' => match cl k a with Some a' => Yield a' | None => Boom end :: cloned cl (S k) l'
  end.
(** slice.rs 128-133, 410-415 [to_owned]: [self.iter().cloned().collect()].  (The borrowed elements are
    looked at before the loop instead of during it; they cannot change.) *)
Definition sl_to_owned (cl : nat -> A -> option A) (s : nat * nat) : M (ring A * unit) :=
  let! l := sl_contents e N s in
  rb_from_iter e N (cloned cl 0 l).
End slice_ops.

Section ring_bytes.
Context (e : env nat) (N : nat).
(** [ptr::copy_nonoverlapping] from a byte slice into the storage at [to]. *)
Definition write_bytes (to : nat) (src : list nat) : M nat (ring nat) unit := fun r g =>
  if to + length src <=? N then
    Ret (setm (mrecv (getm r) (fun i => src !! i) 0 to (length src)) r)
        (log_write (length src) (log_leak (omap (getm r) (seq to (length src))) g)) tt
  else UB OutOfBounds.
(** mod.rs 190-210 [copy_from_slice]. *)
Definition copy_from_slice (source : list nat) (to : nat) : M nat (ring nat) unit :=
  let count := length source in
  let! t := uadd e to count in
  debug_assert e (t <=? N) ;;;
  if N <? t then
    let! first_length := usub e N to in
    ptr e N to ;;;
    write_bytes to (take first_length source) ;;;
    let! zero := raw_from e N 0 in
    ptr e N zero ;;;
    write_bytes zero (drop first_length source)
  else
    ptr e N to ;;;
    write_bytes to source.
(** mod.rs 907-916 [io::Write::write]; 918-921 [flush] does nothing. *)
Definition rb_io_write (buf : list nat) : M nat (ring nat) nat :=
  let! r := get in
  let! max_new := usub e N (rlen r) in
  let buf' := if max_new <? length buf then take max_new buf else buf in
  let! to := raw_add e N (origin r) (rlen r) in
  copy_from_slice buf' to ;;;
  let! l := uadd e (rlen r) (length buf') in
  set_length l ;;;
  ret (length buf').
(** mod.rs 925-937 [io::Read::read]; [unwrap] panics on [None]. *)
Fixpoint rb_io_read_loop (k : nat) (buf : list nat) : M nat (ring nat) (list nat) :=
  match k, buf with
  | S k', _ :: buf' =>
      let! p := rb_pop_front e N in
      match p with
      | None => panic
      | Some p =>
          let! rest := rb_io_read_loop k' buf' in
          ret (p :: rest)
      end
  | _, _ => ret buf
  end.
Definition rb_io_read (buf : list nat) : M nat (ring nat) (list nat * nat) :=
  let! r := get in
  let read_size := length buf `min` rlen r in
  if read_size =? 0 then ret (buf, 0)
  else
    let! buf' := rb_io_read_loop read_size buf in
    ret (buf', read_size).
End ring_bytes.
