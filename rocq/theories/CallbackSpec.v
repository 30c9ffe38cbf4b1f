(** * Specification of calls that consult the caller's code about the elements. *)
From Verif Require Import Machine.

(** Questions about [xs] are asked in order, one each, up to and including the first one that is
    not answered or whose answer decides; if there is none the result is [final].  [None]: a panic. *)
Definition questions {X T R} (answer : nat -> X -> option T) (stop : T -> option R) (final : R) (xs : list X)
    (calls : list X) (res : option R) : Prop :=
  let undecided i := forall x, xs !! i = Some x -> exists t, answer i x = Some t /\ stop t = None in
  (calls = xs /\ (forall i, undecided i) /\ res = Some final) \/
  (exists i x, xs !! i = Some x /\ calls = take (S i) xs /\ (forall j, j < i -> undecided j) /\
     ((answer i x = None /\ res = None) \/ exists t r, answer i x = Some t /\ stop t = Some r /\ res = Some r)).
(** The outcome: the calls made, the objects, the log, and the result or a panic. *)
Definition tells {A X O R} (calls : list X) (o : O) (g : log A) (res : option R) : outcome A (list X * O) R :=
  match res with Some r => Ret (calls, o) g r | None => Panic (calls, o) g end.

(** The call [m] on [o] asks about [xs] as above; the objects and the log stay as they are, whether it returns or panics. *)
Definition asked {A X O T R} (m : M A (list X * O) R) (o : O) (g : log A) (answer : nat -> X -> option T)
    (stop : T -> option R) (final : R) (xs : list X) : Prop :=
  exists calls res, questions answer stop final xs calls res /\ m ([], o) g = tells calls o g res.
(** ... it asks nothing and returns [r]. *)
Definition unasked {A X O R} (m : M A (list X * O) R) (o : O) (g : log A) (r : R) : Prop := m ([], o) g = Ret ([], o) g r.
(** Which answers decide: [==] stops at [false], [cmp] and [partial_cmp] at anything but [Equal]. *)
Definition eq_stop (t : bool) : option bool := if t then None else Some false.
Definition cmp_stop (t : comparison) : option comparison := match t with Eq => None | _ => Some t end.
Definition pcmp_stop (t : option comparison) : option (option comparison) := match t with Some Eq => None | _ => Some t end.
