(** * What a move must not destroy *)
From Verif Require Import Machine InlineModel MoveModel.

(** Where an [InlineArray] keeps things in its host: the one with the larger alignment, header or elements, comes first
    (src/inline_array/mod.rs, documentation of the struct). *)
Section places.
Context {A : Type} (e : env A) (L : layout).
Definition header_at : nat := if align_a L <=? align_us L then 0 else capacity e L * size_a L.
Definition elements_at : nat := if align_a L <=? align_us L then size_us L else 0.
Definition in_header (q : nat) : Prop := header_at <= q < header_at + size_us L.
(** [q] is byte [m] of element number [j]. *)
Definition in_element (q j m : nat) : Prop := m < size_a L /\ q = elements_at + j * size_a L + m.
(** Neither the header nor a byte of the first [n] elements that is not padding of the element falls on padding of the
    host. *)
Definition harmless (P : padding) (n : nat) : Prop :=
  forall q, pad_t P q = true -> ~ in_header q /\ forall j m, j < n -> in_element q j m -> pad_a P m = true.
End places.
