(** * Specifications specific to [InlineArray], on plain lists (see Spec.v for the conventions). *)
From Verif Require Import Machine Spec InlineModel.

(** Clone: the source is unchanged; if a clone panics those already made are leaked. *)
Definition bl_clone_leaking {A} (cl : nat -> A -> option A) (l : list A) : sres A (list A) (list A) :=
  if length (clones cl 0 l) =? length l then SRet l (clones cl 0 l) []
  else SPanic l [] (clones cl 0 l).
(** Conversion to a container of capacity [N], by reference: everything moves. *)
Definition bl_convert {A} (N : nat) (l : list A) : sres A (list A) (list A) :=
  if length l <=? N then SRet [] l [] else SPanic l [] [].
(** The same for an argument passed by value: if the call panics it is dropped. *)
Definition bl_convert_owned {A} (N : nat) (l : list A) : sres A unit (list A) :=
  if length l <=? N then SRet tt l [] else SPanic tt l [].

(** ** Layouts that a Rust compiler can choose (the reference: alignments are powers of two, sizes are
    multiples of the alignment, a type of size 0 has only one value, objects are smaller than the address
    space). *)
Definition pow2 (a : nat) : Prop := exists k, a = 2 ^ k.
Record wf_layout {A : Type} (e : env A) (L : layout) : Prop := WfLayout {
  wf_a : pow2 (align_a L); wf_t : pow2 (align_t L); wf_us : pow2 (align_us L); wf_u64 : pow2 (align_u64 L);
  wf_size_a : Nat.divide (align_a L) (size_a L);
  wf_size_us : Nat.divide (align_us L) (size_us L);
  wf_size_t : Nat.divide (align_t L) (size_t L);
  wf_us_pos : 0 < size_us L;
  wf_word : size_t L < word e;
  wf_zst : size_a L = 0 -> forall x y : A, x = y }.
(** Objects are at multiples of their alignment. *)
Definition placed (L : layout) (b : nat) : Prop := Nat.divide (align_self L) b.
(** The types for which [new] succeeds. *)
Definition host_ok {A} (e : env A) (L : layout) : Prop :=
  size_us L < size_t L /\ (size_a L = 0 -> Nat.divide (align_a L) (align_self L)).
