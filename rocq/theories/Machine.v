(** * The machine: Rust's semantics as far as this crate needs it.

    Every data structure of the crate is an inline array [data: MaybeUninit<[A; N]>] plus a few
    [usize] registers, manipulated by unsafe code.  This file fixes

    - the possible outcomes of a call ([outcome]),
    - [usize] arithmetic in the debug and the release profile ([uadd], [usub]),
    - the element storage: a *linear* memory of slots ([slot_read], [slot_write], [slots_move], ...),
    - the ghost log of dropped and leaked values and of slot writes ([log]),
    - user callbacks that may panic: destructors ([bomb]) and iterators ([ev]).

    No definition here models a particular line of /repo; the model files cite this vocabulary. *)
From Coq Require Export Lia ZifyBool ZifyNat.
From stdpp Require Export list numbers.

(** Build- and type-dependent parameters.
    [word]  : number of values of [usize] (2^64 on a 64 bit target).
    [debug] : true in the dev profile (overflow checks and [debug_assert!] on), false in release.
              Simplification: Cargo's default profiles switch both together.
    [bomb]  : values whose destructor ([Drop::drop]) panics. *)
Record env (A : Type) := Env { word : nat; debug : bool; bomb : A -> bool }.
Arguments Env {A}. Arguments word {A}. Arguments debug {A}. Arguments bomb {A}.

(** No destructor panics. *)
Definition calm {A} (e : env A) : Prop := forall a, bomb e a = false.

(** Ghost log.  [dropped]: values whose destructor has run, in order.  [leaked]: values that can no
    longer be reached but whose destructor never ran.  [writes]: number of slots written. *)
Record log (A : Type) := Log { dropped : list A; leaked : list A; writes : nat }.
Arguments Log {A}. Arguments dropped {A}. Arguments leaked {A}. Arguments writes {A}.

Definition log_drop {A} (vs : list A) (g : log A) := Log (dropped g ++ vs) (leaked g) (writes g).
Definition log_leak {A} (vs : list A) (g : log A) := Log (dropped g) (leaked g ++ vs) (writes g).
Definition log_write {A} (n : nat) (g : log A) := Log (dropped g) (leaked g) (writes g + n).
Definition log0 {A} : log A := Log [] [] 0.

(** Kinds of memory-safety violation. *)
Inductive ub := OutOfBounds   (* access at or beyond the end of the allocation, or misaligned *)
              | DeadSlot      (* use of a slot holding no live value: never initialised,
                                 moved out, or already dropped (double drop) *)
              | Clobber.      (* bytes of a live object overwritten (byte-level model of InlineArray only;
                                 in the slot model the old value is leaked) *)

(** Outcome of running a piece of code on an object of type [O].
    [Panic] carries the object as it is left behind, because it can be used again after
    [catch_unwind] and is in any case destroyed later.  [Abort] is a panic during unwinding.
    [Hang] is a loop that does not terminate within its (sufficient) fuel. *)
Inductive outcome (A O R : Type) :=
  | Ret (o : O) (g : log A) (r : R)
  | Panic (o : O) (g : log A)
  | UB (k : ub)
  | Hang
  | Abort.
Arguments Ret {A O R}. Arguments Panic {A O R}. Arguments UB {A O R}.
Arguments Hang {A O R}. Arguments Abort {A O R}.

Definition M (A O R : Type) := O -> log A -> outcome A O R.

Definition ret {A O R} (r : R) : M A O R := fun o g => Ret o g r.
Definition bind {A O R T} (m : M A O R) (k : R -> M A O T) : M A O T := fun o g =>
  match m o g with
  | Ret o' g' r => k r o' g'
  | Panic o' g' => Panic o' g'
  | UB u => UB u
  | Hang => Hang
  | Abort => Abort
  end.
Definition get {A O} : M A O O := fun o g => Ret o g o.
Definition put {A O} (o' : O) : M A O unit := fun o g => Ret o' g tt.
Definition panic {A O R} : M A O R := fun o g => Panic o g.
Definition undefined {A O R} (k : ub) : M A O R := fun o g => UB k.
Definition hang {A O R} : M A O R := fun o g => Hang.

Notation "'let!' x := m 'in' k" := (bind m (fun x => k))
  (at level 200, x name, m at level 100, k at level 200).
Notation "m ;;; k" := (bind m (fun _ => k)) (at level 100, right associativity).

(** Running code on one of two objects. *)
Definition on_fst {A O1 O2 R} (m : M A O1 R) : M A (O1 * O2) R := fun o g =>
  match m (fst o) g with
  | Ret o1 g' r => Ret (o1, snd o) g' r
  | Panic o1 g' => Panic (o1, snd o) g'
  | UB u => UB u
  | Hang => Hang
  | Abort => Abort
  end.
Definition on_snd {A O1 O2 R} (m : M A O2 R) : M A (O1 * O2) R := fun o g =>
  match m (snd o) g with
  | Ret o2 g' r => Ret (fst o, o2) g' r
  | Panic o2 g' => Panic (fst o, o2) g'
  | UB u => UB u
  | Hang => Hang
  | Abort => Abort
  end.

(** A local variable [c] of type [O1] living during [m]: returned with the result if [m] returns,
    destroyed by unwinding if [m] panics.  A destructor that panics during unwinding aborts. *)
Definition with_local {A O1 O2 R} (init : O1) (destroy : M A O1 unit) (m : M A (O1 * O2) R)
  : M A O2 (O1 * R) := fun o2 g =>
  match m (init, o2) g with
  | Ret o g' r => Ret (snd o) g' (fst o, r)
  | Panic o g' =>
      match destroy (fst o) g' with
      | Ret _ g'' _ => Panic (snd o) g''
      | Panic _ _ => Abort
      | UB u => UB u
      | Hang => Hang
      | Abort => Abort
      end
  | UB u => UB u
  | Hang => Hang
  | Abort => Abort
  end.

(** ** usize arithmetic.  In the debug profile overflow panics, in release it wraps modulo [word].
    (Both operands are below [word]; then [a + b - word] and [a + word - b] are the wrapped values.) *)
Section arith.
Context {A O : Type} (e : env A).
Definition uadd (a b : nat) : M A O nat :=
  if a + b <? word e then ret (a + b) else if debug e then panic else ret (a + b - word e).
Definition usub (a b : nat) : M A O nat :=
  if b <=? a then ret (a - b) else if debug e then panic else ret (a + word e - b).
(** [debug_assert!(b)]. *)
Definition debug_assert (b : bool) : M A O unit :=
  if debug e && negb b then panic else ret tt.
(** [assert!(b)]. *)
Definition assert (b : bool) : M A O unit := if b then ret tt else panic.
End arith.

(** ** Element storage.  Slot [i] holds [Some a] when it contains a live value. *)
Definition mem (A : Type) := nat -> option A.
Definition mem0 {A} : mem A := fun _ => None.
Definition upd {A} (m : mem A) (i : nat) (x : option A) : mem A :=
  fun p => if p =? i then x else m p.
(** Moving [n] slots from [from] to [to] (regions may overlap, as in [ptr::copy]). *)
Definition mmove {A} (m : mem A) (from to n : nat) : mem A :=
  fun p => if (to <=? p) && (p <? to + n) then m (from + (p - to))
           else if (from <=? p) && (p <? from + n) then None else m p.
(** Live values overwritten by that move. *)
Definition overwritten {A} (m : mem A) (from to n : nat) : list A :=
  omap (fun p => if (from <=? p) && (p <? from + n) then None else m p) (seq to n).
(** Receiving [n] slots of [src], starting at [from], at position [to]. *)
Definition mrecv {A} (m src : mem A) (from to n : nat) : mem A :=
  fun p => if (to <=? p) && (p <? to + n) then src (from + (p - to)) else m p.
(** Slots [from .. from+n) lose their values. *)
Definition mclear {A} (m : mem A) (from n : nat) : mem A :=
  fun p => if (from <=? p) && (p <? from + n) then None else m p.

(** Objects that contain element storage. *)
Class HasMem (A O : Type) := { getm : O -> mem A; setm : mem A -> O -> O }.

Section prims.
Context {A O : Type} `{HasMem A O} (e : env A) (N : nat).

(** [ptr::read]: moves the value out of slot [i]. *)
Definition slot_read (i : nat) : M A O A := fun o g =>
  if i <? N then
    match getm o i with
    | Some a => Ret (setm (upd (getm o) i None) o) g a
    | None => UB DeadSlot
    end
  else UB OutOfBounds.

(** Reading through a reference [&*ptr]: the value stays in the slot. *)
Definition slot_peek (i : nat) : M A O A := fun o g =>
  if i <? N then
    match getm o i with
    | Some a => Ret o g a
    | None => UB DeadSlot
    end
  else UB OutOfBounds.

(** [ptr::write]: overwrites slot [i] without dropping; a live value there is leaked. *)
Definition slot_write (i : nat) (a : A) : M A O unit := fun o g =>
  if i <? N then
    Ret (setm (upd (getm o) i (Some a)) o) (log_write 1 (log_leak (option_list (getm o i)) g)) tt
  else UB OutOfBounds.

(** [ptr::copy] inside one object: an untyped move of [n] slots. *)
Definition slots_move (from to n : nat) : M A O unit := fun o g =>
  if (from + n <=? N) && (to + n <=? N) then
    Ret (setm (mmove (getm o) from to n) o)
        (log_write n (log_leak (overwritten (getm o) from to n) g)) tt
  else UB OutOfBounds.

(** References to all of [a .. a+n) (a slice [&[A]]): every slot must be live. *)
Definition slots_peek (a n : nat) : M A O (list A) := fun o g =>
  if a + n <=? N then
    match mapM (getm o) (seq a n) with
    | Some l => Ret o g l
    | None => UB DeadSlot
    end
  else UB OutOfBounds.

(** Running the destructors of [vs] in order.  If one panics the others still run (drop glue of a
    slice), then the panic propagates; a second panic aborts. *)
Definition drop_values (vs : list A) : M A O unit := fun o g =>
  match List.filter (bomb e) vs with
  | [] => Ret o (log_drop vs g) tt
  | [_] => Panic o (log_drop vs g)
  | _ :: _ :: _ => Abort
  end.

(** [ptr::drop_in_place] on the slice [a .. a+n). *)
Definition slots_drop (a n : nat) : M A O unit :=
  let! vs := slots_peek a n in
  (fun o g => Ret (setm (mclear (getm o) a n) o) g tt) ;;;
  drop_values vs.

(** Unwinding with an owned value [v] in scope: [v] is dropped; a panic there aborts. *)
Definition panic_dropping {R} (v : A) : M A O R := fun o g =>
  if bomb e v then Abort else Panic o (log_drop [v] g).

(** The storage goes out of scope: whatever is still in it is leaked. *)
Definition slots_release : M A O unit := fun o g =>
  Ret (setm mem0 o) (log_leak (omap (getm o) (seq 0 N)) g) tt.

(** Ghost step: forget all live values outside [a .. a+n): nothing will ever drop them. *)
Definition slots_forget (a n : nat) : M A O unit := fun o g =>
  Ret (setm (fun p => if (a <=? p) && (p <? a + n) then getm o p else None) o)
      (log_leak (omap (mclear (getm o) a n) (seq 0 N)) g) tt.
End prims.

(** Destroying an object: its [Drop] implementation runs, then its storage disappears. *)
Definition destroying {A O} `{HasMem A O} (N : nat) (drop : M A O unit) : M A O unit := fun o g =>
  match drop o g with
  | Ret o' g' _ => slots_release N o' g'
  | Panic o' g' => match slots_release N o' g' with
                   | Ret o'' g'' _ => Panic o'' g''
                   | x => x
                   end
  | x => x
  end.

(** [ptr::copy_nonoverlapping] of [n] slots from the second object ([from], capacity [Nsrc]) to the
    first ([to], capacity [Ndst]). *)
Definition slots_transfer {A O1 O2} `{HasMem A O1} `{HasMem A O2} (Ndst Nsrc : nat) (from to n : nat)
  : M A (O1 * O2) unit := fun o g =>
  if (from + n <=? Nsrc) && (to + n <=? Ndst) then
    Ret (setm (mrecv (getm (fst o)) (getm (snd o)) from to n) (fst o),
         setm (mclear (getm (snd o)) from n) (snd o))
        (log_write n (log_leak (omap (getm (fst o)) (seq to n)) g)) tt
  else UB OutOfBounds.

(** ** Iterators supplied by the caller: what successive [next()] calls do.
    [Yield a]: returns [Some a].  [Boom]: panics.  End of the list: returns [None].
    (Any terminating run of a consumer looks at finitely many calls.) *)
Inductive ev (A : Type) := Yield (a : A) | Boom.
Arguments Yield {A}. Arguments Boom {A}.

(** ** Standard library operations on slices used by the crate (contracts of [core]). *)
(** [<[A] as PartialEq>::eq]: same length and element-wise [==]. *)
Fixpoint slice_eq {A B} (eqA : A -> B -> bool) (l1 : list A) (l2 : list B) : bool :=
  match l1, l2 with
  | [], [] => true
  | a :: l1', b :: l2' => eqA a b && slice_eq eqA l1' l2'
  | _, _ => false
  end.
(** [Iterator::partial_cmp]: lexicographic; stops at the first pair that is not [Some Equal]. *)
Fixpoint iter_partial_cmp {A} (pc : A -> A -> option comparison) (l1 l2 : list A) : option comparison :=
  match l1, l2 with
  | [], [] => Some Eq
  | [], _ :: _ => Some Lt
  | _ :: _, [] => Some Gt
  | a :: l1', b :: l2' =>
      match pc a b with Some Eq => iter_partial_cmp pc l1' l2' | r => r end
  end.
(** [Iterator::cmp]. *)
Fixpoint iter_cmp {A} (cmp : A -> A -> comparison) (l1 l2 : list A) : comparison :=
  match l1, l2 with
  | [], [] => Eq
  | [], _ :: _ => Lt
  | _ :: _, [] => Gt
  | a :: l1', b :: l2' => match cmp a b with Eq => iter_cmp cmp l1' l2' | r => r end
  end.
(** What a [Hasher] is fed: a length prefix ([write_length_prefix]) or an element. *)
Inductive hev (A : Type) := HLen (n : nat) | HItem (a : A).
Arguments HLen {A}. Arguments HItem {A}.
(** [<[A] as Hash>::hash]: the length, then the elements. *)
Definition slice_hash {A} (l : list A) : list (hev A) := HLen (length l) :: map HItem l.
