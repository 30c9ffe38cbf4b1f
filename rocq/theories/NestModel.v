(** * Containers of containers.

    [Chunk<RingBuffer<T>>], [SparseChunk<InlineArray<T, H>>] and so on: the element type of the outer container is a type of
    containers, moved like any value, and dropped by its destructor.  The code of the outer container is that of
    MixModel.v for this element type.  It is run on a log of its own, which says which inner containers it drops; then those are
    destroyed, in that order.
    Simplification: between two such destructors the outer code does nothing that could be observed. *)
From Verif Require Import Machine Program ChunkModel RingModel SparseModel InlineModel InlineSpec IterSpec
  ChunkProgram RingProgram SparseProgram InlineProgram MixModel TempModel TempMix OwnModel OwnMix WalkModel WalkMix.

Section nest.
Context {A : Type} (e : env A).
Notation obj := (mobj e).

(** The same machine for elements of another type. *)
Definition over {B} (b : B -> bool) : env B := Env (word e) (debug e) b.
(** The elements in a container: [as_slice], [iter], [deref] (src/sized_chunk/mod.rs 682-688, src/ring_buffer/mod.rs 327-334,
    src/inline_array/mod.rs 444-446); of a [SparseChunk] (src/sparse_chunk/mod.rs 300-302) what its [option_drain] yields. *)
Definition contents (x : obj) : list A :=
  match run1 (mix_kit e) match x with
      | OfChunk _ _ => M1Chunk CAsSlice | OfRing _ _ => M1Ring BContents | OfInline _ _ => M1Inline IAsSlice
      | OfSparse k _ => M1Sparse (POptionDrain (`k)) end x log0 with
  | Ret _ _ (MRes (RRefs l)) => l | Ret _ _ (MSp (PCells l)) => omap mjoin l | _ => []
  end.
(** A container's destructor panics if that of one of its elements does. *)
Definition outer_env : env obj := over (fun x => existsb (bomb e) (contents x)).
Notation E := outer_env.

(** The destructors of inner containers, one after the other: src/sized_chunk/mod.rs 100-102,
    src/ring_buffer/mod.rs 68-74, src/sparse_chunk/mod.rs 63-70, src/inline_array/mod.rs 389-391, 410-412.  (That one of them panics
    is known to the outer code, [outer_env], which has done what it does then.) *)
Fixpoint settle (D : list obj) : M A unit unit := fun _ g =>
  match D with
  | [] => Ret tt g tt
  | x :: D' =>
      match kill (mix_kit e) x g with
      | Ret _ g' _ | Panic _ g' => settle D' tt g'
      | UB u => UB u | Hang => Hang | Abort => Abort
      end
  end.
(** Code of the outer container.  What it leaks is lost with everything inside. *)
Definition lower {O R} (m : M obj O R) : M A O R := fun o g =>
  match m o log0 with
  | Ret o' gs r =>
      match settle (dropped gs) tt (log_leak (flat_map contents (leaked gs)) g) with
      | Ret _ g' _ | Panic _ g' => Ret o' g' r
      | UB u => UB u | Hang => Hang | Abort => Abort
      end
  | Panic o' gs =>
      match settle (dropped gs) tt (log_leak (flat_map contents (leaked gs)) g) with
      | Ret _ g' _ | Panic _ g' => Panic o' g'
      | UB u => UB u | Hang => Hang | Abort => Abort
      end
  | UB u => UB u | Hang => Hang | Abort => Abort
  end.

(** ** Methods of the outer container, of any kind and for any type [B] of elements.  A method that the kind does not have is given
    as one of another kind, which is rejected. *)
(** [x.push_front(v)], [x.push_back(v)] ([InlineArray]: [push]), [x.insert(i, v)]: src/sized_chunk/mod.rs 336-350, 357-371,
    530-553, src/ring_buffer/mod.rs 421-429, 407-414, 582-616, src/sparse_chunk/mod.rs 159-169, src/inline_array/mod.rs 298-306, 330-343. *)
Inductive put_op := PutFront | PutBack | PutAt (i : nat).
Definition o_put {B C R S I} {f : env B} (o : put_op) (x : anyof f C R S I) (v : B) : mop1 B :=
  match x, o with
  | OfChunk _ _, PutFront => M1Chunk (CPushFront v) | OfChunk _ _, PutBack => M1Chunk (CPushBack v)
  | OfChunk _ _, PutAt i => M1Chunk (CInsert i v)
  | OfRing _ _, PutFront => M1Ring (BPushFront v) | OfRing _ _, PutBack => M1Ring (BPushBack v)
  | OfRing _ _, PutAt i => M1Ring (BInsert i v)
  | OfSparse _ _, PutAt i => M1Sparse (PInsert i v) | OfSparse _ _, _ => M1Chunk (CPushFront v)
  | OfInline _ _, PutBack => M1Inline (IPush v) | OfInline _ _, PutAt i => M1Inline (IInsert i v)
  | OfInline _ _, PutFront => M1Chunk (CPushFront v)
  end.
(** [x.pop_front()], [x.pop_back()], [x.remove(i)]; [SparseChunk]: [pop], [remove]; [InlineArray]: [pop], [remove]; with an
    [unwrap()] where they return an option.  src/sized_chunk/mod.rs 378-386, 393-400, 649-665, src/ring_buffer/mod.rs 450-458, 436-443,
    715-742, src/sparse_chunk/mod.rs 188-190, 174-183, src/inline_array/mod.rs 313-322, 352-364. *)
Inductive take_op := TakeFront | TakeBack | TakeAt (i : nat).
Definition o_take {B C R S I} {f : env B} (o : take_op) (x : anyof f C R S I) : mop1 B :=
  match x, o with
  | OfChunk _ _, TakeFront => M1Chunk CPopFront | OfChunk _ _, TakeBack => M1Chunk CPopBack
  | OfChunk _ _, TakeAt i => M1Chunk (CRemove i)
  | OfRing _ _, TakeFront => M1Ring BPopFront | OfRing _ _, TakeBack => M1Ring BPopBack
  | OfRing _ _, TakeAt i => M1Ring (BRemove i)
  | OfSparse _ _, TakeFront => M1Sparse PPop | OfSparse _ _, TakeAt i => M1Sparse (PRemove i)
  | OfSparse _ _, TakeBack => M1Chunk CPopBack
  | OfInline _ _, TakeBack => M1Inline IPop | OfInline _ _, TakeAt i => M1Inline (IRemove i)
  | OfInline _ _, TakeFront => M1Chunk CPopFront
  end.
(** [x.clear()], [x.drop_left(n)], [x.drop_right(n)], [x.len()], moving an [InlineArray]: src/sized_chunk/mod.rs 675-679, 407-412,
    419-424, 226-228, src/ring_buffer/mod.rs 752-758, 465-476, 483-494, 81-83, src/sparse_chunk/mod.rs 140-142,
    src/inline_array/mod.rs 396-401, 234-236. *)
Inductive method_op := OClear | ODropLeft (n : nat) | ODropRight (n : nat) | OLen | OMove (q : nat).
Definition o_method {B C R S I} {f : env B} (o : method_op) (x : anyof f C R S I) : mop1 B :=
  match x, o with
  | OfChunk _ _, OClear => M1Chunk CClear | OfChunk _ _, ODropLeft n => M1Chunk (CDropLeft n)
  | OfChunk _ _, ODropRight n => M1Chunk (CDropRight n) | OfChunk _ _, OLen => M1Chunk CLen
  | OfRing _ _, OClear => M1Ring BClear | OfRing _ _, ODropLeft n => M1Ring (BDropLeft n)
  | OfRing _ _, ODropRight n => M1Ring (BDropRight n) | OfRing _ _, OLen => M1Ring BLen
  | OfSparse _ _, OLen => M1Sparse PLen
  | OfInline _ _, OClear => M1Inline IClear | OfInline _ _, OLen => M1Inline ILen | OfInline _ _, OMove q => M1Inline (IMove q)
  | OfChunk _ _, OMove _ => M1Ring BClear | OfRing _ _, OMove _ => M1Chunk CClear | OfSparse _ _, _ => M1Chunk CClear
  | OfInline _ _, _ => M1Chunk CClear
  end.
(** [x[i]], and [x[i] = v]: src/sized_chunk/mod.rs 713-715, 722-724, src/ring_buffer/mod.rs 789-798, 803-812,
    src/sparse_chunk/mod.rs 324-326, 334-336, src/inline_array/mod.rs 444-446, 450-452 (as a slice). *)
Definition o_index {B C R S I} {f : env B} (i : nat) (x : anyof f C R S I) : mop1 B :=
  match x with
  | OfChunk _ _ => M1Chunk (CIndex i) | OfRing _ _ => M1Ring (BIndex i) | OfSparse _ _ => M1Sparse (PIndex i)
  | OfInline _ _ => M1Inline (IIndex i)
  end.
Definition o_assign {B C R S I} {f : env B} (i : nat) (v : B) (x : anyof f C R S I) : mop1 B :=
  match x with
  | OfChunk _ _ => M1Chunk (CAssign i v) | OfRing _ _ => M1Ring (BAssign i v) | OfSparse _ _ => M1Sparse (PAssign i v)
  | OfInline _ _ => M1Inline (IAssign i v)
  end.
(** The outer kinds.  The elements of an inline array of containers are not of size 0. *)
Definition olay := { L | wf_layout e L /\ host_ok e L /\ size_a L <> 0 }.
Definition at_size {B} (b : B -> bool) (k : olay) : ilay (over b) :=
  exist (fun L => wf_layout (over b) L /\ host_ok (over b) L) (`k)
    (match proj2_sig k with
     | conj W (conj H Z) =>
         conj (WfLayout B (over b) (`k) (wf_a e _ W) (wf_t e _ W) (wf_us e _ W) (wf_u64 e _ W) (wf_size_a e _ W) (wf_size_us e _ W)
                 (wf_size_t e _ W) (wf_us_pos e _ W) (wf_word e _ W) (fun Z0 => False_ind _ (Z Z0))) H
     end).
Inductive otarget := OToChunk (k : ccap e) | OToRing (k : rcap e) | OToInline (k : olay) (q : nat).
Definition o_target {B} (b : B -> bool) (t : otarget) : target (over b) :=
  match t with OToChunk k => ToChunk (e := over b) k | OToRing k => ToRing (e := over b) k
  | OToInline k q => ToInline (at_size b k) q end.
(** [new()]: src/sized_chunk/mod.rs 129-135, src/ring_buffer/mod.rs 225-231, src/sparse_chunk/mod.rs 116-121,
    src/inline_array/mod.rs 260-291. *)
Inductive new_op := ONewChunk (k : ccap e) | ONewRing (k : rcap e) | ONewSparse (k : scap e) | ONewInline (k : olay) (q : nat).
Definition o_new {B} (b : B -> bool) (o : new_op) : mop0 (over b) :=
  match o with
  | ONewChunk k => OfChunk (e := over b) k CNew | ONewRing k => OfRing (e := over b) k BNew
  | ONewSparse k => OfSparse (e := over b) k PNew | ONewInline k q => OfInline (at_size b k) (INew q)
  end.
(** [x.split_off(i)], [x.drain().collect()] (MixModel.v) and so on, [Chunk::drain_from(&mut x)]: src/sized_chunk/mod.rs 433-447,
    170-173, src/ring_buffer/mod.rs 504-517, 272-274, src/inline_array/mod.rs 373-386; lines of [collect]: MixModel.v. *)
Inductive spawn_op := OSplitOff (q i : nat) | ODrainFrom | OCollect (sd : side) (t : otarget) | OCollectSparse (sd : side) (k : scap e).
Definition o_spawn {B C R S I} {b : B -> bool} (o : spawn_op) (x : anyof (over b) C R S I) : mopn (over b) :=
  match o with
  | OSplitOff q i =>
      match x with
      | OfChunk _ _ => MnChunk (CSplitOff i) | OfRing _ _ => MnRing (BSplitOff i) | OfInline _ _ => MnInline (ISplitOff q i)
      | OfSparse _ _ => MnChunk (CSplitOff i)
      end
  | ODrainFrom => match x with OfRing _ _ => MnRing BDrainFrom | _ => MnChunk CDrainFrom end
  | OCollect sd t => MnCollect sd (o_target b t)
  | OCollectSparse sd k => MnCollectSparse (e := over b) sd k
  end.
(** [x.append(&mut y)], [x.extend(y.drain())]: src/sized_chunk/mod.rs 454-469, src/ring_buffer/mod.rs 527-529; [extend]: MixModel.v. *)
Inductive merge_op := OAppend | OExtend (sd : side).
Definition o_merge {B C R S I} {f : env B} (o : merge_op) (x : anyof f C R S I) : mop2 B :=
  match o with
  | OAppend => match x with OfRing _ _ => M2Ring BAppend | _ => M2Chunk CAppend end
  | OExtend sd => M2Extend sd
  end.

(** What is read off a result. *)
Definition ref_of {B} (r : mres B) : option B := match r with MRes (RRef a) | MSp (PRef a) => Some a | _ => None end.
Definition info {B} (r : mres B) : option nat := match r with MRes (RNat n) | MSp (PNat n) => Some n | _ => None end.
Definition m_outs {B} (r : mres B) : list B := match r with MRes r => moved_out r | MSp r => sp_moved_out r end.

(** ** Variables that hold a container, or a container of containers *)
Definition nobj := (obj + mobj E)%type.
Inductive nres (A : Type) := NInner (r : wres A) | NOuter (n : option nat).

(** Pushing what is taken out of a variable: [x.push_back(mem::take(&mut y))].  A container that was in the cell of a [SparseChunk]
    is returned, and dropped. *)
Definition put (o : put_op) : M A (mobj E * obj) unit := fun xy g =>
  match run0 (mix_kit e) (m_fresh e (snd xy)) tt g with
  | Ret _ g0 z =>
      match lower (let! r := run1 (mix_kit E) (o_put o (fst xy) (snd xy)) in drop_values E (m_outs r)) (fst xy) g0 with
      | Ret x g1 _ => Ret (x, z) g1 tt
      | Panic x g1 => Panic (x, z) g1
      | UB u => UB u | Hang => Hang | Abort => Abort
      end
  | Panic _ g0 => Panic xy g0
  | UB u => UB u | Hang => Hang | Abort => Abort
  end.
(** [let y = x.pop_back()]. *)
Definition take_out (o : take_op) : M A (mobj E) obj := fun x g =>
  match lower (run1 (mix_kit E) (o_take o x)) x g with
  | Ret x' g' r => match m_outs r with [v] => Ret x' g' v | _ => Panic x' g' end
  | Panic x' g' => Panic x' g'
  | UB u => UB u | Hang => Hang | Abort => Abort
  end.
(** [x[i].method(..)], [x[i].method(&mut y)], by [IndexMut] (src/sized_chunk/mod.rs 722-724, src/ring_buffer/mod.rs 803-812,
    src/sparse_chunk/mod.rs 334-336, src/inline_array/mod.rs 450-452): [m] works on the element in its slot, through the reference.  The model
    has no references into containers: what is left of the element is put back in its slot by the code of [x[i] = v]; the element
    that is there is not destroyed. *)
Definition put_back (i : nat) (v : obj) : M A (mobj E) unit := fun x g =>
  match run1 (mix_kit E) (o_assign i v x) x log0 with
  | Ret x' _ _ | Panic x' _ => Ret x' g tt
  | UB u => UB u | Hang => Hang | Abort => Abort
  end.
Definition at_index {Y R} (i : nat) (m : M A (obj * Y) R) : M A (mobj E * Y) R := fun xy g =>
  match lower (run1 (mix_kit E) (o_index i (fst xy))) (fst xy) g with
  | Ret x1 g1 r =>
      match ref_of r with
      | None => ill_typed xy g
      | Some v =>
          match m (v, snd xy) g1 with
          | Ret (v', y') g2 t =>
              match put_back i v' x1 g2 with
              | Ret x2 g3 _ => Ret (x2, y') g3 t
              | Panic x2 g3 => Panic (x2, y') g3
              | UB u => UB u | Hang => Hang | Abort => Abort
              end
          | Panic (v', y') g2 =>
              match put_back i v' x1 g2 with
              | Ret x2 g3 _ | Panic x2 g3 => Panic (x2, y') g3
              | UB u => UB u | Hang => Hang | Abort => Abort
              end
          | UB u => UB u | Hang => Hang | Abort => Abort
          end
      end
  | Panic x1 g1 => Panic (x1, snd xy) g1
  | UB u => UB u | Hang => Hang | Abort => Abort
  end.
(** With nothing else. *)
Definition at_index1 {R} (i : nat) (m : M A obj R) : M A (mobj E) R := fun x g =>
  match at_index i (on_fst m) (x, tt) g with
  | Ret (x', _) g' r => Ret x' g' r
  | Panic (x', _) g' => Panic x' g'
  | UB u => UB u | Hang => Hang | Abort => Abort
  end.

(** The operations: those of C84 on inner containers in variables, and [x[i]] of the outer ones. *)
Inductive nop0 := NNew (o : mop0 e) | NNewOuter (o : new_op).
Inductive nop1 := NMethod (o : mop1 A + walk_op A) | NAt (i : nat) (o : mop1 A + walk_op A) | NOuterMethod (o : method_op).
Inductive nopn :=
  | NSpawn (o : own_op e) | NAtSpawn (i : nat) (o : own_op e)   (* [let y = x[i].split_off(3)] *)
  | NTake (o : take_op) | NOuterSpawn (o : spawn_op).
Inductive nop2 :=
  | NMethod2 (o : passed (mop2 A)) | NAt2 (i : nat) (o : passed (mop2 A))  (* [x[i].append(&mut y)] *)
  | NPut (o : put_op) | NMerge (o : merge_op).

Definition as_inner {R T} (f : R -> T) (m : M A obj R) (y : obj) (g : log A) : outcome A nobj T :=
  match m y g with
  | Ret y' g' r => Ret (inl y') g' (f r)
  | Panic y' g' => Panic (inl y') g'
  | UB u => UB u | Hang => Hang | Abort => Abort
  end.
Definition as_outer {R T} (f : R -> T) (m : M A (mobj E) R) (x : mobj E) (g : log A) : outcome A nobj T :=
  match m x g with
  | Ret x' g' r => Ret (inr x') g' (f r)
  | Panic x' g' => Panic (inr x') g'
  | UB u => UB u | Hang => Hang | Abort => Abort
  end.
Definition as_two {O1 O2 R T} (f1 : O1 -> nobj) (f2 : O2 -> nobj) (f : R -> T) (m : M A (O1 * O2) R) (x : O1) (y : O2) (g : log A)
  : outcome A (nobj * nobj) T :=
  match m (x, y) g with
  | Ret (x', y') g' r => Ret (f1 x', f2 y') g' (f r)
  | Panic (x', y') g' => Panic (f1 x', f2 y') g'
  | UB u => UB u | Hang => Hang | Abort => Abort
  end.
Definition nest_kit : kit A nop0 nop1 nopn nop2 (nres A) nobj := {|
  run0 := fun o => match o with
    | NNew o => mapR inl (run0 (walk_kit e) o)
    | NNewOuter o => mapR inr (lower (run0 (mix_kit E) (o_new _ o)))
    end;
  run1 := fun o x g => match o, x with
    | NMethod o, inl y => as_inner (NInner A) (run1 (walk_kit e) o) y g
    | NAt i o, inr x => as_outer (NInner A) (at_index1 i (run1 (walk_kit e) o)) x g
    | NOuterMethod o, inr x => as_outer (fun r => NOuter A (info r)) (lower (run1 (mix_kit E) (o_method o x))) x g
    | _, _ => ill_typed x g
    end;
  runn := fun o x g => match o, x with
    | NSpawn o, inl y => as_inner inl (runn (walk_kit e) o) y g
    | NAtSpawn i o, inr x => as_outer inl (at_index1 i (runn (walk_kit e) o)) x g
    | NTake o, inr x => as_outer inl (take_out o) x g
    | NOuterSpawn o, inr x => as_outer inr (lower (runn (mix_kit E) (o_spawn o x))) x g
    | _, _ => ill_typed x g
    end;
  run2 := fun o xy g => match o, fst xy, snd xy with
    | NMethod2 o, inl x, inl y => as_two inl inl (NInner A) (run2 (walk_kit e) o) x y g
    | NAt2 i o, inr x, inl y => as_two inr inl (NInner A) (at_index i (run2 (walk_kit e) o)) x y g
    | NPut o, inr x, inl y => as_two inr inl (fun _ => NOuter A None) (put o) x y g
    | NMerge o, inr x, inr y => as_two inr inr (fun _ => NOuter A None) (lower (run2 (mix_kit E) (o_merge o x))) x y g
    | _, _, _ => ill_typed xy g
    end;
  kill := fun x g => match x with
    | inl y => as_inner (fun r => r) (kill (mix_kit e)) y g
    | inr x => as_outer (fun r => r) (lower (kill (mix_kit E))) x g
    end |}.
End nest.
Arguments NInner {A}. Arguments NOuter {A}.
Arguments NNew {A e}. Arguments NNewOuter {A e}. Arguments NMethod {A}. Arguments NAt {A}. Arguments NOuterMethod {A}.
Arguments NSpawn {A e}. Arguments NAtSpawn {A e}. Arguments NTake {A e}. Arguments NOuterSpawn {A e}.
Arguments NMethod2 {A}. Arguments NAt2 {A}. Arguments NPut {A}. Arguments NMerge {A}.
Arguments OSplitOff {A e}. Arguments ODrainFrom {A e}. Arguments OCollect {A e}. Arguments OCollectSparse {A e}.
Arguments OToChunk {A e}. Arguments OToRing {A e}. Arguments OToInline {A e}.
Arguments ONewChunk {A e}. Arguments ONewRing {A e}. Arguments ONewSparse {A e}. Arguments ONewInline {A e}.
Arguments nop1 A : clear implicits. Arguments nop2 A : clear implicits.
