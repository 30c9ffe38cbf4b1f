(** * Specification of generated containers. *)
From Verif Require Import Machine Spec ArbitraryModel.

(** The items generated before the first error or panic, and what that was. *)
Fixpoint made {B} (src : list (gen B)) : list B :=
  match src with Item b :: src' => b :: made src' | _ => [] end.
Fixpoint trouble {B} (src : list (gen B)) : option (gen B) :=
  match src with [] => None | Item _ :: src' => trouble src' | x :: _ => Some x end.
(** At most [N] items are generated; [vals]: the values contained in the items. *)
Definition gen_container {A B} (vals : list B -> list A) (N : nat) (u : option (list (gen B)))
  : sres A unit (option (list B)) :=
  match u with
  | None => SRet tt None []
  | Some src =>
      let xs := made (take N src) in
      match trouble (take N src) with
      | None => SRet tt (Some xs) []
      | Some Fail => SRet tt None (vals xs)
      | Some _ => SPanic tt (vals xs) []
      end
  end.
