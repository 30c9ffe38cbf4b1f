(** * Comparing, hashing and printing when the elements' own [PartialEq], [Ord], [Hash] or [Debug] may do anything.

    In the other model files the elements' comparison functions are total functions.  Here they are calls into the caller's
    code: call number [k] is answered by [answer k x], where [x] is what is asked about (a pair of elements, or one element);
    [None] is a panic.  Answers may depend on the number of the call, hence may contradict each other.
    The first component of the state is the list of calls made so far. *)
From Verif Require Import Machine ChunkModel RingModel.
From Verif Require SparseModel InlineModel.

Definition ask {A O X T} (answer : nat -> X -> option T) (x : X) : M A (list X * O) T := fun s g =>
  match answer (length (fst s)) x with
  | Some t => Ret (fst s ++ [x], snd s) g t
  | None => Panic (fst s ++ [x], snd s) g
  end.

Section walks.
Context {A O1 O2 T R : Type}.
(** core's [Iterator::eq], [cmp] and [partial_cmp]: take one item from each side, ask, stop if the answer decides.
    [stop t = Some r]: the answer [t] decides for [r].  The rest says what to return when both end, the left one ends
    first, the right one ends first.  [fuel] bounds the recursion only; running out of it is [Hang]. *)
Fixpoint compare_iters (next1 : M A O1 (option A)) (next2 : M A O2 (option A)) (answer : nat -> A * A -> option T)
    (stop : T -> option R) (both_end left_ends right_ends : R) (fuel : nat) : M A (list (A * A) * (O1 * O2)) R :=
  match fuel with
  | 0 => hang
  | S fuel' =>
      let! x := on_snd (on_fst next1) in
      let! y := on_snd (on_snd next2) in
      match x, y with
      | None, None => ret both_end
      | None, Some _ => ret left_ends
      | Some _, None => ret right_ends
      | Some a, Some b =>
          let! t := ask answer (a, b) in
          match stop t with
          | Some r => ret r
          | None => compare_iters next1 next2 answer stop both_end left_ends right_ends fuel'
          end
      end
  end.
(** [for item in self { item.hash(hasher) }]. *)
Fixpoint hash_iter (next : M A O1 (option A)) (answer : nat -> A -> option unit) (fuel : nat) : M A (list A * O1) unit :=
  match fuel with
  | 0 => hang
  | S fuel' =>
      let! x := on_snd next in
      match x with
      | None => ret tt
      | Some a => let! _ := ask answer a in hash_iter next answer fuel'
      end
  end.
(** core's [DebugList::entries] / [DebugMap::entries]: every item is taken from the iterator, but after the first error
    ([false]) nothing more is printed. *)
Fixpoint debug_iter {X} (next : M A O1 (option X)) (answer : nat -> X -> option bool) (fuel : nat) (ok : bool)
  : M A (list X * O1) bool :=
  match fuel with
  | 0 => hang
  | S fuel' =>
      let! x := on_snd next in
      match x with
      | None => ret ok
      | Some a =>
          let! ok' := (if ok then ask answer a else ret false) in
          debug_iter next answer fuel' ok'
      end
  end.
End walks.

(** Running with two local iterators [i1], [i2] that have no destructors. *)
Definition with_iters {A C I1 I2 O1 O2 R} (i1 : I1) (i2 : I2) (m : M A (C * ((I1 * O1) * (I2 * O2))) R)
  : M A (C * (O1 * O2)) R := fun s g =>
  let out x := (fst x, (snd (fst (snd x)), snd (snd (snd x)))) in
  match m (fst s, ((i1, fst (snd s)), (i2, snd (snd s)))) g with
  | Ret s' g' r => Ret (out s') g' r
  | Panic s' g' => Panic (out s') g'
  | UB u => UB u | Hang => Hang | Abort => Abort
  end.
Definition with_iter {A C I O R} (i : I) (m : M A (C * (I * O)) R) : M A (C * O) R := fun s g =>
  match m (fst s, (i, snd s)) g with
  | Ret s' g' r => Ret (fst s', snd (snd s')) g' r
  | Panic s' g' => Panic (fst s', snd (snd s')) g'
  | UB u => UB u | Hang => Hang | Abort => Abort
  end.
(** [slice::Iter::next] (core): the iterator is the rest of the slice. *)
Definition slice_next {A O} : M A (list A * O) (option A) := on_fst (fun l g =>
  match l with [] => Ret [] g None | a :: l' => Ret l' g (Some a) end).

Section containers.
Context {A : Type} (e : env A) (N : nat).
Notation pairs_asked := (nat -> A * A -> option _).

(** ** Comparing two slices (core): [==] compares the lengths first. *)
Section slices.
Context {O1 O2 : Type} (as1 : M A O1 (list A)) (as2 : M A O2 (list A)).
Notation M2 := (M A (list (A * A) * (O1 * O2))).
Definition slices_walk {T R} answer (stop : T -> option R) both left_ends right_ends (l1 l2 : list A) : M2 R :=
  with_iters l1 l2 (compare_iters slice_next slice_next answer stop both left_ends right_ends (S (length l1))).
Definition slices_eq (answer : nat -> A * A -> option bool) : M2 bool :=
  let! l1 := on_snd (on_fst as1) in
  let! l2 := on_snd (on_snd as2) in
  if length l1 =? length l2 then slices_walk answer (fun t => if t then None else Some false) true false false l1 l2 else ret false.
Definition slices_cmp (answer : nat -> A * A -> option comparison) : M2 comparison :=
  let! l1 := on_snd (on_fst as1) in
  let! l2 := on_snd (on_snd as2) in
  slices_walk answer (fun t => match t with Eq => None | _ => Some t end) Eq Lt Gt l1 l2.
Definition slices_partial_cmp (answer : nat -> A * A -> option (option comparison)) : M2 (option comparison) :=
  let! l1 := on_snd (on_fst as1) in
  let! l2 := on_snd (on_snd as2) in
  slices_walk answer (fun t => match t with Some Eq => None | _ => Some t end) (Some Eq) (Some Lt) (Some Gt) l1 l2.
Definition slices_hash (answer : nat -> A -> option unit) : M A (list A * O1) unit :=
  let! l := on_snd as1 in with_iter l (hash_iter slice_next answer (S (length l))).
(** [header]: whether printing the name succeeded ([?] returns at once if not). *)
Definition slices_fmt (header : bool) (answer : nat -> A -> option bool) : M A (list A * O1) bool :=
  if header then let! l := on_snd as1 in with_iter l (debug_iter slice_next answer (S (length l)) true) else ret false.
End slices.

(** sized_chunk/mod.rs 751-759 [PartialEq] (the other side a chunk); 763-770 [PartialOrd]; 772-779 [Ord]; 737-749 [Hash];
    727-735 [Debug]. *)
Definition chunk_eq_by := slices_eq (as_slice e N) (as_slice e N).
Definition chunk_cmp_by := slices_cmp (as_slice e N) (as_slice e N).
Definition chunk_partial_cmp_by := slices_partial_cmp (as_slice e N) (as_slice e N).
Definition chunk_hash_by := slices_hash (as_slice e N).
Definition chunk_fmt_by := slices_fmt (as_slice e N).
(** ... and the other side any borrowed slice. *)
Definition chunk_eq_slice_by (other : list A) := slices_eq (O2 := unit) (as_slice e N) (ret other).

(** inline_array/mod.rs 478-486 [PartialEq]; 490-497 [PartialOrd]; 499-506 [Ord]; 518-530 [Hash]; 508-516 [Debug]. *)
Definition inline_eq_by L b b2 := slices_eq (InlineModel.ia_deref e L b) (InlineModel.ia_deref e L b2).
Definition inline_cmp_by L b b2 := slices_cmp (InlineModel.ia_deref e L b) (InlineModel.ia_deref e L b2).
Definition inline_partial_cmp_by L b b2 := slices_partial_cmp (InlineModel.ia_deref e L b) (InlineModel.ia_deref e L b2).
Definition inline_hash_by L b := slices_hash (InlineModel.ia_deref e L b).
Definition inline_fmt_by L b := slices_fmt (InlineModel.ia_deref e L b).

(** ** RingBuffer and its slices.  [it1], [it2] make the iterators ([rb_iter] or [sl_iter] of a range), [n1], [n2] are the
    [len]s.  ring_buffer/iter.rs 22-29 [next]. *)
Definition ring_next : M A (idx * ring A) (option A) := let! x := it_next e N in ret (option_map snd x).
Section rings.
Context (n1 n2 : M A (ring A) nat) (it1 it2 : M A (ring A) idx).
Notation M2 := (M A (list (A * A) * (ring A * ring A))).
Definition rings_walk {T R} answer (stop : T -> option R) both left_ends right_ends : M2 R :=
  let! i1 := on_snd (on_fst it1) in
  let! i2 := on_snd (on_snd it2) in
  with_iters i1 i2 (compare_iters ring_next ring_next answer stop both left_ends right_ends (S (iremaining i1))).
Definition rings_eq (answer : nat -> A * A -> option bool) : M2 bool :=
  let! a := on_snd (on_fst n1) in
  let! b := on_snd (on_snd n2) in
  if a =? b then rings_walk answer (fun t => if t then None else Some false) true false false else ret false.
(** Comparison with a borrowed slice. *)
Definition rings_eq_list (other : list A) (answer : nat -> A * A -> option bool) : M A (list (A * A) * (ring A * unit)) bool :=
  let! a := on_snd (on_fst n1) in
  if a =? length other then
    let! i1 := on_snd (on_fst it1) in
    with_iters i1 other (compare_iters ring_next slice_next answer (fun t => if t then None else Some false) true false false (S (iremaining i1)))
  else ret false.
Definition rings_hash (answer : nat -> A -> option unit) : M A (list A * ring A) unit :=
  let! i := on_snd it1 in with_iter i (hash_iter ring_next answer (S (iremaining i))).
Definition rings_fmt (header : bool) (answer : nat -> A -> option bool) : M A (list A * ring A) bool :=
  if header then let! i := on_snd it1 in with_iter i (debug_iter ring_next answer (S (iremaining i)) true) else ret false.
End rings.
(** ring_buffer/mod.rs 815-821, 823-834 [PartialEq]; 856-862 [PartialOrd]; 864-870 [Ord]; 897-904 [Hash]; 890-895 [Debug]. *)
Definition ring_eq_by := rings_eq rb_len rb_len (rb_iter e N) (rb_iter e N).
Definition ring_eq_list_by := rings_eq_list rb_len (rb_iter e N).
Definition ring_cmp_by answer := rings_walk (rb_iter e N) (rb_iter e N) answer (fun t => match t with Eq => None | _ => Some t end) Eq Lt Gt.
Definition ring_partial_cmp_by answer := rings_walk (rb_iter e N) (rb_iter e N) answer (fun t => match t with Some Eq => None | _ => Some t end) (Some Eq) (Some Lt) (Some Gt).
Definition ring_hash_by := rings_hash (rb_iter e N).
Definition ring_fmt_by := rings_fmt (rb_iter e N).
(** ring_buffer/slice.rs 171-185, 457-471; 195-205, 481-491; 209-223, 495-509; 232-239, 518-525; 225-230, 511-516. *)
Definition rslice_eq_by s1 s2 := rings_eq (sl_len e s1) (sl_len e s2) (sl_iter e N s1) (sl_iter e N s2).
Definition rslice_eq_list_by s := rings_eq_list (sl_len e s) (sl_iter e N s).
Definition rslice_cmp_by s1 s2 answer := rings_walk (sl_iter e N s1) (sl_iter e N s2) answer (fun t => match t with Eq => None | _ => Some t end) Eq Lt Gt.
Definition rslice_partial_cmp_by s1 s2 answer :=
  rings_walk (sl_iter e N s1) (sl_iter e N s2) answer (fun t => match t with Some Eq => None | _ => Some t end) (Some Eq) (Some Lt) (Some Gt).
Definition rslice_hash_by s := rings_hash (sl_iter e N s).
Definition rslice_fmt_by s := rings_fmt (sl_iter e N s).

(** ** SparseChunk.  [Option]'s [==] asks the element only if both are [Some]. *)
Definition ask_options {O} (answer : nat -> A * A -> option bool) (x y : option A) : M A (list (A * A) * O) bool :=
  match x, y with
  | Some a, Some b => ask answer (a, b)
  | None, None => ret true
  | _, _ => ret false
  end.
(** sparse_chunk/mod.rs 370-386 [PartialEq]. *)
Fixpoint sparse_eq_loop_by answer (bits : list nat)
  : M A (list (A * A) * (SparseModel.sparse A * SparseModel.sparse A)) bool :=
  match bits with
  | [] => ret true
  | index :: bits' =>
      let! x := on_snd (on_fst (SparseModel.sp_get N index)) in
      let! y := on_snd (on_snd (SparseModel.sp_get N index)) in
      let! t := ask_options answer x y in
      if negb t then ret false else sparse_eq_loop_by answer bits'
  end.
Definition sparse_eq_by answer : M A (list (A * A) * (SparseModel.sparse A * SparseModel.sparse A)) bool :=
  let! s := on_snd get in
  if negb (SparseModel.bm_eq N (SparseModel.smap (fst s)) (SparseModel.smap (snd s))) then ret false
  else let! bits := on_snd (on_fst (SparseModel.sp_indices N)) in sparse_eq_loop_by answer bits.
(** sparse_chunk/mod.rs 388-405, 407-424: comparison with a map given by its [len] and [get]. *)
Fixpoint sparse_eq_map_loop_by (other : nat -> option A) answer (bits : list nat)
  : M A (list (A * A) * SparseModel.sparse A) bool :=
  match bits with
  | [] => ret true
  | index :: bits' =>
      let! x := on_snd (SparseModel.sp_get N index) in
      let! t := ask_options answer x (other index) in
      if negb t then ret false else sparse_eq_map_loop_by other answer bits'
  end.
Definition sparse_eq_map_by (len : nat) (other : nat -> option A) answer : M A (list (A * A) * SparseModel.sparse A) bool :=
  let! n := on_snd (SparseModel.sp_len N) in
  if negb (n =? len) then ret false
  else let! bits := on_snd (SparseModel.sp_indices N) in sparse_eq_map_loop_by other answer bits.
(** sparse_chunk/mod.rs 433-442 [Debug]; 268-272 [entries], the iterator being its two positions. *)
Definition sparse_entry_next : M A ((nat * nat) * SparseModel.sparse A) (option (nat * A)) := fun s g =>
  match SparseModel.en_next N (snd s, fst s) g with
  | Ret s' g' r => Ret (snd s', fst s') g' r
  | Panic s' g' => Panic (snd s', fst s') g'
  | UB u => UB u | Hang => Hang | Abort => Abort
  end.
Definition sparse_fmt_by (header : bool) (answer : nat -> nat * A -> option bool)
  : M A (list (nat * A) * SparseModel.sparse A) bool :=
  if header then with_iter (0, 0) (debug_iter sparse_entry_next answer (S N) true) else ret false.
End containers.
