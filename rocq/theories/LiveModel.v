(** * Consuming a live iterator.

    In the other models an iterator passed to a method is a script of what its [next] will return.  Here it is an object of
    its own, with its own [next] and [len], running while the container is being filled: the loops below are those of
    ChunkModel.v, RingModel.v and InlineModel.v with the script replaced by calls on that object.  The iterator is used
    through a reference ([&mut iter], or one that borrows its container, like [Drain]), so it is still there afterwards.
    The iterator keeps a log of its own. *)
From Verif Require Import Machine ChunkModel RingModel InlineModel.

(** [ExactSizeIterator::len], the provided method: [size_hint] must be exact. *)
Definition exact_len {A S} (hint : M A S (nat * option nat)) : M A S nat :=
  let! h := hint in
  match snd h with
  | Some n => if fst h =? n then ret n else panic
  | None => panic
  end.

Section live.
Context {A S X : Type} (next : M A S (option X)) (hint : M A S (nat * option nat)).
(** A call on the iterator; the state is (the container, (the iterator, its log)). *)
Definition on_iter {O R} (m : M A S R) : M A (O * (S * log A)) R := fun o g =>
  match m (fst (snd o)) (snd (snd o)) with
  | Ret s gs r => Ret (fst o, (s, gs)) g r
  | Panic s gs => Panic (fst o, (s, gs)) g
  | UB u => UB u | Hang => Hang | Abort => Abort
  end.
(** [for item in iter { push(item) }]: sized_chunk/mod.rs 910-914, ring_buffer/mod.rs 873-878,
    inline_array/mod.rs 576-582.  [fuel] bounds the number of items. *)
Fixpoint extend_live {O} (push : X -> M A O unit) (fuel : nat) : M A (O * (S * log A)) unit :=
  match fuel with
  | 0 => hang
  | Datatypes.S fuel' =>
      let! x := on_iter next in
      match x with
      | None => ret tt
      | Some a => on_fst (push a) ;;; extend_live push fuel'
      end
  end.
End live.

Section chunk.
Context {A S : Type} (e : env A) (N : nat) (next : M A S (option A)) (hint : M A S (nat * option nat)).
Notation M2 := (M A (chunk A * (S * log A))).
(** sized_chunk/mod.rs 304-307, over [iter.take(len)]; if [next] panics the values of the chunk, made empty, are forgotten
    (ghost). *)
Fixpoint write_loop_live (k write_index : nat) : M2 nat :=
  match k with
  | 0 => ret write_index
  | Datatypes.S k' =>
      let! x := (fun o g => match on_iter next o g with
                            | Panic o g => (on_fst (slots_forget N 0 0) ;;; panic) o g
                            | x => x
                            end) in
      match x with
      | None => ret write_index
      | Some value =>
          on_fst (force_write N write_index value) ;;;
          let! wi := uadd e write_index 1 in
          write_loop_live k' wi
      end
  end.
(** sized_chunk/mod.rs 289-315 [write_from_iter]; ghost as before. *)
Definition write_from_iter_live (write_index : nat) : M2 unit :=
  let! c := on_fst get in
  on_fst (set_left 0 ;;; set_right 0) ;;;
  let! len2 := (fun o g => match on_iter (exact_len hint) o g with
                           | Panic o g => (on_fst (slots_forget N 0 0) ;;; panic) o g
                           | x => x
                           end) in
  let! expected_end := uadd e write_index len2 in
  let! wi := write_loop_live len2 write_index in
  (if expected_end =? wi then ret tt else on_fst (slots_forget N 0 0) ;;; panic) ;;;
  on_fst (set_left (left c) ;;; set_right (right c)).
(** sized_chunk/mod.rs 595-639 [insert_from]. *)
Definition insert_from_live (index : nat) : M2 unit :=
  let! insert_size := on_iter (exact_len hint) in
  let! n := on_fst (len e) in
  let! total := uadd e n insert_size in
  if N <? total then panic
  else if n <? index then panic
  else
    let! c := on_fst get in
    let! real_index := uadd e index (left c) in
    let left_size := index in
    let! right_size := usub e (right c) real_index in
    if (right c =? N) || ((insert_size <=? left c) && (left_size <? right_size)) then
      let! l1 := usub e (left c) insert_size in
      on_fst (force_copy N (left c) l1 left_size) ;;;
      let! write_index := usub e real_index insert_size in
      write_from_iter_live write_index ;;;
      on_fst (set_left l1)
    else
      let! rr := uadd e (right c) insert_size in
      if (left c =? 0) || (rr <=? N) then
        let! to := uadd e real_index insert_size in
        on_fst (force_copy N real_index to right_size) ;;;
        write_from_iter_live real_index ;;;
        let! r1 := uadd e (right c) insert_size in
        on_fst (set_right r1)
      else
        on_fst (force_copy N (left c) 0 left_size) ;;;
        let! to := uadd e left_size insert_size in
        on_fst (force_copy N real_index to right_size) ;;;
        write_from_iter_live left_size ;;;
        let! r1 := usub e (right c) (left c) in
        let! r2 := uadd e r1 insert_size in
        on_fst (set_right r2 ;;; set_left 0).
(** sized_chunk/mod.rs 181-194 [collect_from]. *)
Fixpoint collect_loop_live (count : nat) : M2 unit :=
  match count with
  | 0 => ret tt
  | Datatypes.S count' =>
      let! x := on_iter next in
      match x with
      | None => panic
      | Some a => on_fst (push_back e N a) ;;; collect_loop_live count'
      end
  end.
Definition collect_from_live (count : nat) : M A (S * log A) (chunk A * unit) :=
  with_local ChunkModel.new (destroy e N) (collect_loop_live count).
(** sized_chunk/mod.rs 872-883 [from_iter]. *)
Definition from_iter_live (fuel : nat) : M A (S * log A) (chunk A * unit) :=
  with_local ChunkModel.new (destroy e N) (extend_live next (push_back e N) fuel).
End chunk.

Section ring.
Context {A S : Type} (e : env A) (N : nat) (next : M A S (option A)) (hint : M A S (nat * option nat)).
Notation M2 := (M A (ring A * (S * log A))).
(** ring_buffer/mod.rs 694-698, over [iter.take(insert_size)]. *)
Fixpoint fill_loop_live (k index inserted : nat) : M2 nat :=
  match k with
  | 0 => ret inserted
  | Datatypes.S k' =>
      let! x := (fun o g => match on_iter next o g with
                            | Panic o g => (on_fst (slots_forget N 0 0) ;;; panic) o g
                            | x => x
                            end) in
      match x with
      | None => ret inserted
      | Some value =>
          on_fst (rb_force_write e N index value) ;;;
          let! index' := raw_add_assign e N index 1 in
          let! inserted' := uadd e inserted 1 in
          fill_loop_live k' index' inserted'
      end
  end.
(** ring_buffer/mod.rs 648-705 [insert_from]; [fuel] bounds the items of [extend]. *)
Definition rb_insert_from_live (fuel index : nat) : M2 unit :=
  let! insert_size := on_iter (exact_len hint) in
  let! r := on_fst get in
  let! total := uadd e (rlen r) insert_size in
  if N <? total then panic
  else if rlen r <? index then panic
  else if index =? rlen r then extend_live next (rb_push_back e N) fuel
  else
    let! right_count := usub e (rlen r) index in
    on_fst (if right_count <? index then
       let! l1 := usub e (rlen r) 1 in
       let! i := raw e N l1 in
       let! target := raw e N index in
       shift_down e N N i target insert_size ;;;
       let! to := raw_add e N target insert_size in
       let! a := rb_force_read e N target in
       rb_force_write e N to a ;;;
       let! l := uadd e (rlen r) insert_size in
       set_length l
     else
       let! o := raw_sub_assign e N (origin r) insert_size in
       set_origin o ;;;
       let! l := uadd e (rlen r) insert_size in
       set_length l ;;;
       let! rg := rb_range e N in
       for_range e N (index `min` snd rg) (fst rg) (pull_one e N insert_size)) ;;;
    let! i := on_fst (raw e N index) in
    let! length := on_fst rb_len in
    on_fst (set_length 0) ;;;
    let! inserted := fill_loop_live insert_size i 0 in
    (if inserted =? insert_size then ret tt else on_fst (slots_forget N 0 0) ;;; panic) ;;;
    on_fst (set_length length).
(** ring_buffer/mod.rs 939-946 [from_iter]. *)
Definition rb_from_iter_live (fuel : nat) : M A (S * log A) (ring A * unit) :=
  let! b := rb_new e N in
  with_local b (rb_destroy e N) (extend_live next (rb_push_back e N) fuel).
(** ring_buffer/mod.rs 283-292 [collect_from]: [extend] over [iter.take(count)], then the check. *)
Fixpoint rb_take_loop_live (count : nat) : M2 unit :=
  match count with
  | 0 => ret tt
  | Datatypes.S count' =>
      let! x := on_iter next in
      match x with
      | None => ret tt
      | Some a => on_fst (rb_push_back e N a) ;;; rb_take_loop_live count'
      end
  end.
Definition rb_collect_from_live (count : nat) : M A (S * log A) (ring A * unit) :=
  let! b := rb_new e N in
  with_local b (rb_destroy e N) (
    rb_take_loop_live count ;;;
    let! s := get in
    if rlen (fst s) <? count then panic else ret tt).
End ring.

(** inline_array/mod.rs 540-551 [from_iter], into an array at address [b]. *)
Definition ia_from_iter_live {A S} (e : env A) (L : layout) (b : nat) (next : M A S (option A)) (fuel : nat)
  : M A (S * log A) (inline A * unit) :=
  let! chunk := (fun o g => match ia_new e L b tt g with
                            | Ret _ g' c => Ret o g' c | Panic _ g' => Panic o g'
                            | UB u => UB u | Hang => Hang | Abort => Abort end) in
  with_local chunk (ia_destroy e L b) (extend_live next (ia_push e L b) fuel).
