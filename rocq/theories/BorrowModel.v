(** * Pointers and references under Rust's aliasing rules.

    The other models check that an access hits a live element.  Rust demands more: a pointer may only be used as long as no
    conflicting use of the memory has invalidated it.  Two precise proposals for these rules exist, Stacked Borrows and Tree
    Borrows (the two modes of Miri); both are defined here, and then the pointers every unsafe function of the crate creates
    and uses.

    Simplifications: memory is counted in places, not bytes (place 0 of an object: its fields, resp. the header of an
    [InlineArray]; place [1 + i]: slot [i]); no protectors, no two-phase borrows, no interior mutability; a [*const]
    pointer made from a [&] is that reference.  What is computed (which slot, how many) is an argument here; the
    values come from the other models. *)
From Verif Require Import Machine IterSpec.

(** ** What code does with pointers.  A pointer is known by the number ("tag") it got when it was made. *)
Definition place : Type := nat * nat.      (* object, place in it *)
Definition region := place -> bool.
Definition whole (o N : nat) : region := fun l => (fst l =? o) && (snd l <=? N).
Definition fields (o : nat) : region := fun l => (fst l =? o) && (snd l =? 0).
Definition slots (o a n : nat) : region := fun l => (fst l =? o) && (a <? snd l) && (snd l <=? a + n).
Inductive kind := RefMut | RefShr | RawPtr.
Inductive act :=
| Reb (k : kind) (p q : nat) (rg : region)  (* [q] := a pointer of kind [k], made from [p], to [rg] *)
| Acc (w : bool) (p : nat) (rg : region).   (* write ([w]) or read [rg] through [p] *)
(** Code: draws fresh tags, appends to the trace. *)
Definition T (X : Type) : Type := nat -> nat * list act * X.
Definition tret {X} (x : X) : T X := fun b => (b, [], x).
Definition tbind {X Y} (m : T X) (k : X -> T Y) : T Y := fun b =>
  let '(b1, t1, x) := m b in let '(b2, t2, y) := k x b1 in (b2, t1 ++ t2, y).
Definition reb (k : kind) (p : nat) (rg : region) : T nat := fun b => (S b, [Reb k p b rg], b).
Definition acc (w : bool) (p : nat) (rg : region) : T unit := fun b => (b, [Acc w p rg], tt).
Notation "'do!' x := m 'in' k" := (tbind m (fun x => k)) (at level 200, x name, k at level 200).
Notation "m ,,, k" := (tbind m (fun _ => k)) (at level 100, right associativity).

(** ** Stacked Borrows (Jung et al., POPL 2020, and Miri), at one place.  The stack, top first. *)
Inductive perm := PUniq | PRaw | PShr | POff.
Definition stack := list (perm * nat).
Definition writable (p : perm) : bool := match p with PUniq | PRaw => true | _ => false end.
Definition readable (p : perm) : bool := match p with POff => false | _ => true end.
(** The topmost item for tag [t] that allows the access: (items above, its permission, items below). *)
Fixpoint grant (ok : perm -> bool) (t : nat) (st : stack) : option (stack * perm * stack) :=
  match st with
  | [] => None
  | (p, u) :: st' =>
      if (u =? t) && ok p then Some ([], p, st')
      else match grant ok t st' with
           | Some (ab, p', be) => Some ((p, u) :: ab, p', be)
           | None => None
           end
  end.
Definition is_raw (x : perm * nat) : bool := match fst x with PRaw => true | _ => false end.
(** The raw pointers directly above a raw granting item belong to the same block and survive a write through it. *)
Fixpoint raw_block (ab : stack) : stack :=
  match ab with [] => [] | x :: ab' => if forallb is_raw ab then ab else raw_block ab' end.
Definition block (p : perm) (ab : stack) : stack := match p with PRaw => raw_block ab | _ => [] end.
Definition disable (x : perm * nat) : perm * nat := match x with (PUniq, u) => (POff, u) | _ => x end.
Definition sb_read (t : nat) (st : stack) : option stack :=
  match grant readable t st with
  | Some (ab, p, be) => Some (map disable ab ++ (p, t) :: be)
  | None => None
  end.
Definition sb_write (t : nat) (st : stack) : option stack :=
  match grant writable t st with
  | Some (ab, p, be) => Some (block p ab ++ (p, t) :: be)
  | None => None
  end.
(** A raw pointer is no access: its item goes right above the granting item (and its block). *)
Definition sb_raw (t q : nat) (st : stack) : option stack :=
  match grant writable t st with
  | Some (ab, p, be) =>
      let bl := block p ab in Some (take (length ab - length bl) ab ++ (PRaw, q) :: bl ++ (p, t) :: be)
  | None => None
  end.
Definition sb_step (l : place) (a : act) (st : stack) : option stack :=
  match a with
  | Reb k p q rg =>
      if rg l then
        match k with
        | RefMut => match sb_write p st with Some st' => Some ((PUniq, q) :: st') | None => None end
        | RefShr => match sb_read p st with Some st' => Some ((PShr, q) :: st') | None => None end
        | RawPtr => sb_raw p q st
        end
      else Some st
  | Acc w p rg => if rg l then (if w then sb_write p st else sb_read p st) else Some st
  end.

(** ** Tree Borrows (Villani et al., PLDI 2025), at one place.  [tpath t]: [t] and the pointers it comes from. *)
Inductive tperm := TReserved | TActive | TFrozen | TDisabled.
Record tree := Tree { tpath : nat -> list nat; tprm : nat -> tperm }.
Definition mem (u : nat) (l : list nat) : bool := existsb (Nat.eqb u) l.
(** An access through the pointer itself or one made from it; [None]: undefined behaviour. *)
Definition child (w : bool) (p : tperm) : option tperm :=
  match p with
  | TDisabled => None
  | TFrozen => if w then None else Some TFrozen
  | _ => if w then Some TActive else Some p
  end.
(** Any other access. *)
Definition foreign (w : bool) (p : tperm) : tperm :=
  if w then TDisabled else match p with TActive => TFrozen | _ => p end.
Definition tb_access (w : bool) (t : nat) (s : tree) : option tree :=
  if forallb (fun u => match child w (tprm s u) with Some _ => true | None => false end) (tpath s t)
  then Some (Tree (tpath s) (fun u =>
    if mem u (tpath s t) then match child w (tprm s u) with Some p => p | None => TDisabled end
    else foreign w (tprm s u)))
  else None.
Definition set {X} (f : nat -> X) (q : nat) (x : X) : nat -> X := fun u => if u =? q then x else f u.
(** Making a reference reads the memory it points to; a raw pointer is the pointer it was made from. *)
Definition tb_step (l : place) (a : act) (s : tree) : option tree :=
  match a with
  | Reb RawPtr p q _ => Some (Tree (set (tpath s) q (tpath s p)) (tprm s))
  | Reb k p q rg =>
      let s' := Tree (set (tpath s) q (q :: tpath s p))
                  (set (tprm s) q (match k with RefMut => TReserved | _ => TFrozen end)) in
      if rg l then tb_access false q s' else Some s'
  | Acc w p rg => if rg l then tb_access w p s else Some s
  end.

(** ** Acceptance.  Object [o] is owned through the pointer with tag [o] (the root of its stacks and trees); a
    trace is accepted if no place objects. *)
Fixpoint follow {S} (step : act -> S -> option S) (tr : list act) (s : S) : option S :=
  match tr with
  | [] => Some s
  | a :: tr' => match step a s with Some s' => follow step tr' s' | None => None end
  end.
Definition stack0 (l : place) : stack := [(PUniq, fst l)].
Definition tree0 : tree := Tree (fun t => [t]) (fun _ => TActive).
Definition sb_accepts (tr : list act) : Prop := forall l, follow (sb_step l) tr (stack0 l) <> None.
Definition tb_accepts (tr : list act) : Prop := forall l, follow (tb_step l) tr tree0 <> None.
(** The trace of code that runs with the objects [0 .. k - 1] in existence. *)
Definition trace {X} (k : nat) (m : T X) : list act := snd (fst (m k)).

(** ** The unsafe functions.  Object numbers [o], capacity [N]; [self] is the tag of the reference passed. *)
Section code.
Context (N : nat).

(** *** Chunk: sized_chunk/mod.rs 242-245 [ptr], 248-251 [mut_ptr]. *)
Definition b_ptr (o self : nat) : T nat :=
  do! s := reb RefShr self (whole o N) in reb RefShr s (slots o 0 N).
Definition b_mut_ptr (o self : nat) : T nat :=
  do! s := reb RefMut self (whole o N) in
  do! d := reb RefMut s (slots o 0 N) in
  reb RawPtr d (slots o 0 N).
(** sized_chunk/mod.rs 225-228 [len] and the like: reading the fields through [&self]. *)
Definition b_fields (o self : nat) : T unit :=
  do! s := reb RefShr self (whole o N) in acc false s (fields o).
(** [self.left = ..] *)
Definition b_set_fields (o self : nat) : T unit := acc true self (fields o).
(** sized_chunk/mod.rs 255-257 [force_read]. *)
Definition b_force_read (o self i : nat) : T unit :=
  do! c := reb RefMut self (whole o N) in
  do! p := b_ptr o c in acc false p (slots o i 1).
(** sized_chunk/mod.rs 262-264 [force_write]. *)
Definition b_force_write (o self i : nat) : T unit :=
  do! c := reb RefMut self (whole o N) in
  do! p := b_mut_ptr o c in acc true p (slots o i 1).
(** sized_chunk/mod.rs 268-272 [force_copy]: [ptr::copy(chunk.ptr(from), chunk.mut_ptr(to), count)]. *)
Definition b_force_copy (o self from to count : nat) : T unit :=
  do! c := reb RefMut self (whole o N) in
  if 0 <? count then
    do! p := b_ptr o c in
    do! q := b_mut_ptr o c in
    acc false p (slots o from count) ,,, acc true q (slots o to count)
  else tret tt.
(** sized_chunk/mod.rs 317-329 [force_copy_to]. *)
Definition b_force_copy_to (o self o' other from to count : nat) : T unit :=
  do! c := reb RefMut self (whole o N) in
  do! d := reb RefMut other (whole o' N) in
  if 0 <? count then
    do! p := b_ptr o c in
    do! q := b_mut_ptr o' d in
    acc false p (slots o from count) ,,, acc true q (slots o' to count)
  else tret tt.
(** sized_chunk/mod.rs 682-699 [as_slice], [as_mut_slice] (pointer first, then [self.len()]), the [n] elements from
    slot [a] on, and a use of the slice: reading, resp. writing or [drop_in_place] (101, 409, 421, 676). *)
Definition b_slice_read (o self a n : nat) : T unit :=
  do! s := reb RefShr self (whole o N) in
  do! d := reb RefShr s (slots o 0 N) in
  b_fields o s ,,,
  do! x := reb RefShr d (slots o a n) in acc false x (slots o a n).
Definition b_slice_write (o self a n : nat) : T unit :=
  do! s := reb RefMut self (whole o N) in
  do! d := reb RefMut s (slots o 0 N) in
  do! p := reb RawPtr d (slots o 0 N) in
  b_fields o s ,,,
  do! x := reb RefMut p (slots o a n) in acc true x (slots o a n).

(** *** RingBuffer: ring_buffer/mod.rs 121-130 [ptr], [mut_ptr]: as for [Chunk].  139-142 [force_read]. *)
Definition b_ring_read (o self i : nat) : T unit :=
  do! p := b_ptr o self in acc false p (slots o i 1).
(** 133-136 [force_drop], 145-148 [force_write]. *)
Definition b_ring_write (o self i : nat) : T unit :=
  do! p := b_mut_ptr o self in acc true p (slots o i 1).
(** 158-171 [copy_from]'s [force_copy_to]. *)
Definition b_ring_copy_to (o self o' other from to count : nat) : T unit :=
  do! c := reb RefMut self (whole o N) in
  do! d := reb RefMut other (whole o' N) in
  if 0 <? count then
    do! p := b_mut_ptr o c in
    do! q := b_mut_ptr o' d in
    acc false p (slots o from count) ,,, acc true q (slots o' to count)
  else tret tt.
(** 388-400 [get_unchecked], [get_unchecked_mut]: a reference to slot [i]. *)
Definition b_ring_get (o self i : nat) : T nat :=
  do! s := reb RefShr self (whole o N) in
  do! p := b_ptr o s in reb RefShr p (slots o i 1).
Definition b_ring_get_mut (o self i : nat) : T nat :=
  do! s := reb RefMut self (whole o N) in
  do! p := b_mut_ptr o s in reb RefMut p (slots o i 1).

(** *** InlineArray: the header lies in the same [data] as the elements.  inline_array/mod.rs 148-157 [len_const],
    232-236 [len]. *)
Definition b_ia_len (o self : nat) : T unit :=
  do! s := reb RefShr self (whole o N) in
  do! d := reb RefShr s (whole o N) in acc false d (fields o).
(** 176-189 [data], 204-208 [ptr_at]. *)
Definition b_ia_data (o self : nat) : T nat :=
  do! s := reb RefShr self (whole o N) in reb RefShr s (whole o N).
(** 161-173 [len_mut]; 191-204 [data_mut], 211-216 [ptr_at_mut]. *)
Definition b_ia_data_mut (o self : nat) : T nat :=
  do! s := reb RefMut self (whole o N) in
  do! d := reb RefMut s (whole o N) in reb RawPtr d (whole o N).
Definition b_ia_set_len (o self : nat) : T unit :=
  do! p := b_ia_data_mut o self in acc false p (fields o) ,,, acc true p (fields o).
(** 300-309 [push], 314-323 [pop]; 221-229 [read_at], [write_at]. *)
Definition b_ia_push (o self len : nat) : T unit :=
  b_ia_len o self ,,, b_ia_len o self ,,,
  do! p := b_ia_data_mut o self in acc true p (slots o len 1) ,,,
  b_ia_set_len o self.
Definition b_ia_pop (o self len : nat) : T unit :=
  b_ia_len o self ,,, b_ia_set_len o self ,,, b_ia_len o self ,,,
  do! p := b_ia_data o self in acc false p (slots o (len - 1) 1).
(** [ptr::copy(p + from, q + to, n)]: no access if [n] is 0. *)
Definition b_copy (p : nat) (src : region) (q : nat) (dst : region) (n : nat) : T unit :=
  if 0 <? n then acc false p src ,,, acc true q dst else tret tt.
(** 331-344 [insert]. *)
Definition b_ia_insert (o self len i : nat) : T unit :=
  b_ia_len o self ,,, b_ia_len o self ,,,
  do! src := b_ia_data_mut o self in
  b_ia_len o self ,,,
  b_copy src (slots o i (len - i)) src (slots o (i + 1) (len - i)) (len - i) ,,,
  acc true src (slots o i 1) ,,,
  b_ia_set_len o self.
(** 352-364 [remove]: [src], read, [*self.len_mut() -= 1], then [ptr::copy(src.add(1), src, self.len() - index)]. *)
Definition b_ia_remove (o self len i : nat) : T unit :=
  b_ia_len o self ,,,
  do! src := b_ia_data_mut o self in
  acc false src (slots o i 1) ,,,
  b_ia_set_len o self ,,,
  b_ia_len o self ,,,
  b_copy src (slots o (i + 1) (len - 1 - i)) src (slots o i (len - 1 - i)) (len - 1 - i).
(** 373-386 [split_off], into the new array [o']. *)
Definition b_ia_split_off (o self o' out len i : nat) : T unit :=
  b_ia_len o self ,,,
  do! p := b_ia_data o self in
  do! q := b_ia_data_mut o' out in
  b_ia_len o self ,,,
  b_copy p (slots o i (len - i)) q (slots o' 0 (len - i)) (len - i) ,,,
  b_ia_len o self ,,, b_ia_set_len o' out ,,, b_ia_set_len o self.
(** 442-453 [deref], [deref_mut] (pointer first, then [self.len()]) and a use of the slice; 389-391 [drop_contents]. *)
Definition b_ia_slice_read (o self len : nat) : T unit :=
  do! s := reb RefShr self (whole o N) in
  do! p := b_ia_data o s in
  b_ia_len o s ,,,
  do! x := reb RefShr p (slots o 0 len) in acc false x (slots o 0 len).
Definition b_ia_slice_write (o self len : nat) : T unit :=
  do! s := reb RefMut self (whole o N) in
  do! p := b_ia_data_mut o s in
  b_ia_len o s ,,,
  do! x := reb RefMut p (slots o 0 len) in acc true x (slots o 0 len).
(** 393-398 [clear]: [drop_contents], then [*self.len_mut() = 0]. *)
Definition b_ia_clear (o self len : nat) : T unit := b_ia_slice_write o self len ,,, b_ia_set_len o self.
(** sized_chunk/mod.rs 817-832 [From<&mut InlineArray> for Chunk], into the new chunk [o']. *)
Definition b_chunk_from_inline (o self o' out len : nat) : T unit :=
  b_ia_len o self ,,, b_set_fields o' out ,,,
  do! p := b_ia_data o self in
  do! q := b_mut_ptr o' out in
  b_copy p (slots o 0 len) q (slots o' 0 len) len ,,,
  b_ia_set_len o self.

(** *** SparseChunk: sparse_chunk/mod.rs 94-101 [values], [values_mut]; the bitmap is in the fields. *)
Definition b_values (o self : nat) : T nat :=
  do! p := b_ptr o self in reb RefShr p (slots o 0 N).
Definition b_values_mut (o self : nat) : T nat :=
  do! p := b_mut_ptr o self in reb RefMut p (slots o 0 N).
(** 103-113 [force_read], [force_write]; 67 [drop_in_place(&mut self.values_mut()[index])], 163 [mem::replace]. *)
Definition b_sp_read (o self i : nat) : T unit :=
  do! c := reb RefShr self (whole o N) in
  do! v := b_values o c in
  do! x := reb RefShr v (slots o i 1) in acc false x (slots o i 1).
Definition b_sp_write (o self i : nat) : T unit :=
  do! c := reb RefMut self (whole o N) in
  do! v := b_values_mut o c in
  do! x := reb RefMut v (slots o i 1) in acc false x (slots o i 1) ,,, acc true x (slots o i 1).

(** *** One call of an unsafe primitive, or of a method that handles pointers itself, on owned objects. *)
Inductive call :=
| Fields (o : nat) | SetFields (o : nat)
| ChunkRead (o i : nat) | ChunkWrite (o i : nat) | ChunkCopy (o from to n : nat) | ChunkCopyTo (o o' from to n : nat)
| SliceRead (o a n : nat) | SliceWrite (o a n : nat)
| RingRead (o i : nat) | RingWrite (o i : nat) | RingCopyTo (o o' from to n : nat)
| RingGet (o i : nat) | RingGetMut (o i : nat)
| ArrayLen (o : nat) | ArrayPush (o len : nat) | ArrayPop (o len : nat) | ArrayInsert (o len i : nat)
| ArrayRemove (o len i : nat) | ArraySplitOff (o o' len i : nat) | ArrayRead (o len : nat) | ArrayWrite (o len : nat)
| ArrayClear (o len : nat)
| ChunkFromArray (o o' len : nat)
| SparseRead (o i : nat) | SparseWrite (o i : nat).
Definition b_call (c : call) : T unit :=
  match c with
  | Fields o => b_fields o o
  | SetFields o => b_set_fields o o
  | ChunkRead o i => b_force_read o o i
  | ChunkWrite o i => b_force_write o o i
  | ChunkCopy o from to n => b_force_copy o o from to n
  | ChunkCopyTo o o' from to n => b_force_copy_to o o o' o' from to n
  | SliceRead o a n => b_slice_read o o a n
  | SliceWrite o a n => b_slice_write o o a n
  | RingRead o i => b_ring_read o o i
  | RingWrite o i => b_ring_write o o i
  | RingCopyTo o o' from to n => b_ring_copy_to o o o' o' from to n
  | RingGet o i => do! x := b_ring_get o o i in acc false x (slots o i 1)
  | RingGetMut o i => do! x := b_ring_get_mut o o i in acc true x (slots o i 1)
  | ArrayLen o => b_ia_len o o
  | ArrayPush o len => b_ia_push o o len
  | ArrayPop o len => b_ia_pop o o len
  | ArrayInsert o len i => b_ia_insert o o len i
  | ArrayRemove o len i => b_ia_remove o o len i
  | ArraySplitOff o o' len i => b_ia_split_off o o o' o' len i
  | ArrayRead o len => b_ia_slice_read o o len
  | ArrayWrite o len => b_ia_slice_write o o len
  | ArrayClear o len => b_ia_clear o o len
  | ChunkFromArray o o' len => b_chunk_from_inline o o o' o' len
  | SparseRead o i => b_sp_read o o i
  | SparseWrite o i => b_sp_write o o i
  end.
Fixpoint b_calls (cs : list call) : T unit :=
  match cs with [] => tret tt | c :: cs' => b_call c ,,, b_calls cs' end.

(** *** References that live on.  A client calls [next]/[next_back] of a mutable iterator and reads or writes through the
    references it got so far ([Touch w j]: the one got [j]th); [ys] are the slots of the items, [None]: no item, or an
    [option_iter_mut] at a vacant index. *)
Inductive iact := Next | Touch (w : bool) (j : nat).
(** ring_buffer/iter.rs 70-83 [IterMut::new], [new_slice]: a raw pointer to the slots; 95-103, 116-124 [next],
    [next_back]: [&mut *self.mut_ptr(index)]. *)
Definition b_ring_iter_mut (o self : nat) : T nat :=
  do! b := reb RefMut self (whole o N) in
  do! c := reb RefMut b (whole o N) in
  do! d := reb RefMut c (slots o 0 N) in
  reb RawPtr d (slots o 0 N).
Definition b_ring_next (o it i : nat) : T nat := reb RefMut it (slots o i 1).
(** sparse_chunk/mod.rs 256-261 [iter_mut]: [chunk: self]; sparse_chunk/iter.rs 44-54 [IterMut::next], 142-157
    [OptionIterMut::next]: [let p: *mut A = &mut self.chunk.values_mut()[index]; &mut *p]. *)
Definition b_sp_iter_mut (o self : nat) : T nat := reb RefMut self (whole o N).
Definition b_sp_next (o it i : nat) : T nat :=
  do! v := b_values_mut o it in
  do! x := reb RefMut v (slots o i 1) in
  do! p := reb RawPtr x (slots o i 1) in
  reb RefMut p (slots o i 1).
Fixpoint b_client (next : nat -> T nat) (o : nat) (script : list iact) (ys : list (option nat)) (refs : list (nat * nat))
  : T unit :=
  match script with
  | [] => tret tt
  | Next :: script' =>
      match ys with
      | Some i :: ys' => do! x := next i in b_client next o script' ys' (refs ++ [(x, i)])
      | _ :: ys' => b_client next o script' ys' refs
      | [] => b_client next o script' [] refs
      end
  | Touch w j :: script' =>
      match refs !! j with
      | Some (x, i) => acc w x (slots o i 1) ,,, b_client next o script' ys refs
      | None => b_client next o script' ys refs
      end
  end.
Definition b_ring_client (o : nat) (script : list iact) (ys : list (option nat)) : T unit :=
  do! it := b_ring_iter_mut o o in b_client (b_ring_next o it) o script ys [].
Definition b_sp_client (o : nat) (script : list iact) (ys : list (option nat)) : T unit :=
  do! it := b_sp_iter_mut o o in b_client (b_sp_next o it) o script ys [].

(** ring_buffer/slice.rs 383-405 [SliceMut::split_at]: two [&mut *ptr] to the whole buffer.  Then the halves are used:
    [get_mut(i)] (286-292, 321-324) and a write, or [get(i)] (273-279, 311-314) and a read; [i]: the slot. *)
Record use := Use { right_half : bool; writes_ : bool; use_slot : nat }.
Definition b_split_at (o self : nat) : T (nat * nat) :=
  do! p := reb RawPtr self (whole o N) in
  do! l := reb RefMut p (whole o N) in
  do! r := reb RefMut p (whole o N) in
  tret (l, r).
Definition b_use (o l r : nat) (u : use) : T unit :=
  let h := if right_half u then r else l in
  if writes_ u then do! x := b_ring_get_mut o h (use_slot u) in acc true x (slots o (use_slot u) 1)
  else do! x := b_ring_get o h (use_slot u) in acc false x (slots o (use_slot u) 1).
Fixpoint b_uses (o l r : nat) (us : list use) : T unit :=
  match us with [] => tret tt | u :: us' => b_use o l r u ,,, b_uses o l r us' end.
Definition b_split_client (o : nat) (us : list use) : T unit :=
  do! h := b_split_at o o in b_uses o (fst h) (snd h) us.

(** *** Methods of [Chunk] as calls of the primitives, for a chunk with fields [left], [right]: the calls and the new fields;
    [None]: the method panics. *)
Inductive chunk_op :=
| CPushFront | CPushBack | CPopFront | CPopBack | CSet (i : nat) | CInsert (i : nat) | CRemove (i : nat)
| CDropLeft (i : nat) | CDropRight (i : nat) | CClear | CRead.
Definition chunk_calls (o left right : nat) (op : chunk_op) : option (list call * (nat * nat)) :=
  let n := right - left in
  match op with
  (* sized_chunk/mod.rs 336-350 [push_front] *)
  | CPushFront =>
      if (left =? 0) && (right =? N) then None
      else
        let '(cs, l, r) :=
          if left =? right then ([SetFields o], N, N)
          else if left =? 0 then ([SetFields o; ChunkCopy o 0 (N - right) right; SetFields o], N - right, N)
          else ([], left, right) in
        Some ([Fields o; Fields o] ++ cs ++ [SetFields o; ChunkWrite o (l - 1)], (l - 1, r))
  (* 357-371 [push_back] *)
  | CPushBack =>
      if (left =? 0) && (right =? N) then None
      else
        let '(cs, l, r) :=
          if left =? right then ([SetFields o], 0, 0)
          else if right =? N then ([Fields o; ChunkCopy o left 0 n; SetFields o], 0, N - left)
          else ([], left, right) in
        Some ([Fields o; Fields o] ++ cs ++ [ChunkWrite o r; SetFields o], (l, r + 1))
  (* 378-386 [pop_front], 393-400 [pop_back] *)
  | CPopFront => if left =? right then None else Some ([Fields o; ChunkRead o left; SetFields o], (left + 1, right))
  | CPopBack => if left =? right then None else Some ([Fields o; SetFields o; ChunkRead o (right - 1)], (left, right - 1))
  (* 520-522 [set] *)
  | CSet i => if i <? n then Some ([SliceWrite o left n], (left, right)) else None
  (* 530-553 [insert] *)
  | CInsert i =>
      if (left =? 0) && (right =? N) then None
      else if n <? i then None
      else if (right =? N) || ((0 <? left) && (i <? n - i))
      then Some ([Fields o; Fields o; ChunkCopy o left (left - 1) i; ChunkWrite o (left + i - 1); SetFields o], (left - 1, right))
      else Some ([Fields o; Fields o; ChunkCopy o (left + i) (left + i + 1) (n - i); ChunkWrite o (left + i); SetFields o], (left, right + 1))
  (* 649-665 [remove] *)
  | CRemove i =>
      if n <=? i then None
      else if i <? n - i - 1
      then Some ([Fields o; ChunkRead o (left + i); ChunkCopy o left (left + 1) i; SetFields o], (left + 1, right))
      else Some ([Fields o; ChunkRead o (left + i); ChunkCopy o (left + i + 1) (left + i) (n - i - 1); SetFields o], (left, right - 1))
  (* 407-412 [drop_left], 419-424 [drop_right]: the slice is made of all elements, then cut *)
  | CDropLeft i =>
      if i =? 0 then Some ([], (left, right))
      else if n <? i then None else Some ([SliceWrite o left n; SetFields o], (left + i, right))
  | CDropRight i =>
      if i =? n then Some ([Fields o], (left, right))
      else if n <? i then None else Some ([Fields o; SliceWrite o left n; SetFields o], (left, left + i))
  (* 675-679 [clear]; 682-689 [as_slice] *)
  | CClear => Some ([SliceWrite o left n; SetFields o], (0, 0))
  | CRead => Some ([SliceRead o left n], (left, right))
  end.
(** A program on one chunk; a panicking method ends it. *)
Fixpoint chunk_program (o left right : nat) (ops : list chunk_op) : list call :=
  match ops with
  | [] => []
  | op :: ops' =>
      match chunk_calls o left right op with
      | Some (cs, (l, r)) => cs ++ chunk_program o l r ops'
      | None => []
      end
  end.
End code.
