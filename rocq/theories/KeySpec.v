(** * The laws the standard library demands of [PartialEq], [Eq], [PartialOrd], [Ord], [Hash], and so of the keys of maps

    [eq x y = Some b]: the comparison returns [b] ([None]: it does not return).  [V]: the values the laws are about. *)
From Verif Require Import Machine.

Section laws.
Context {X H : Type} (V : X -> Prop) (eq : X -> X -> option bool) (pc : X -> X -> option (option comparison))
  (cm : X -> X -> option comparison) (hs : X -> option (list H)).
(** [PartialEq]: symmetric and transitive. *)
Record peq_laws : Prop := {
  peq_total : forall x y, V x -> V y -> exists b, eq x y = Some b;
  peq_sym : forall x y, V x -> V y -> eq x y = Some true -> eq y x = Some true;
  peq_trans : forall x y z, V x -> V y -> V z -> eq x y = Some true -> eq y z = Some true -> eq x z = Some true }.
(** [Eq]: also reflexive. *)
Definition eq_refl_law : Prop := forall x, V x -> eq x x = Some true.
(** [PartialOrd]: agrees with [==]; [a < b] iff [b > a]; [<] is transitive; what is equal compares in the same way. *)
Record pord_laws : Prop := {
  pord_total : forall x y, V x -> V y -> exists r, pc x y = Some r;
  pord_eq : forall x y, V x -> V y -> (pc x y = Some (Some Eq) <-> eq x y = Some true);
  pord_dual : forall x y, V x -> V y -> (pc x y = Some (Some Lt) <-> pc y x = Some (Some Gt));
  pord_trans : forall x y z, V x -> V y -> V z -> pc x y = Some (Some Lt) -> pc y z = Some (Some Lt) -> pc x z = Some (Some Lt);
  pord_same : forall x y z, V x -> V y -> V z -> eq x y = Some true -> pc x z = pc y z /\ pc z x = pc z y }.
(** [Ord]: total, and the same as [PartialOrd]. *)
Record ord_laws : Prop := {
  ord_total : forall x y, V x -> V y -> exists c, cm x y = Some c;
  ord_same : forall x y c, V x -> V y -> (pc x y = Some (Some c) <-> cm x y = Some c) }.
(** [Hash]: what is equal feeds the hasher the same. *)
Record hash_laws : Prop := {
  hash_total : forall x, V x -> exists h, hs x = Some h;
  hash_same : forall x y, V x -> V y -> eq x y = Some true -> hs x = hs y }.

(** Of a type that is [PartialEq] and [PartialOrd] (like floats). *)
Definition lawful_partial : Prop := peq_laws /\ pord_laws.
(** Of a type that can be the key of a [BTreeMap] or a [HashMap]. *)
Definition lawful_key : Prop := peq_laws /\ eq_refl_law /\ pord_laws /\ ord_laws /\ hash_laws.
End laws.

(** The functions of an element type: they return. *)
Definition elt2 {A R} (f : A -> A -> R) : A -> A -> option R := fun a b => Some (f a b).
Definition elt1 {A R} (f : A -> R) : A -> option R := fun a => Some (f a).
Definition anything {A} : A -> Prop := fun _ => True.

(** What a call on two (one) containers returns. *)
Definition answer {A O R} (m : M A O R) (o : O) : option R :=
  match m o log0 with Ret _ _ r => Some r | _ => None end.
(** What a hasher is fed, given what the elements feed it and how a length is fed. *)
Definition fed {A H} (h : A -> list H) (hl : nat -> list H) (evs : list (hev A)) : list H :=
  flat_map (fun ev => match ev with HItem a => h a | HLen n => hl n end) evs.
