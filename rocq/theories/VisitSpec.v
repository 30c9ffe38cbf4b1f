(** * Specification of a client closure called on the elements given by a mutable iterator. *)
From Verif Require Import Machine IterSpec VisitModel.

(** What [visited boom act k script l] describes: the elements of [l] not yet given, of which the script takes the first
    ([Front]) or the last ([Back]) one, the [k]-th call of the closure finding its original value.  The result is the
    list afterwards, the values whose destructor ran, and whether the whole thing ends in a panic.  A panic of the
    closure, or of the destructor of the value assigned over (the value [boom] says yes to), stops everything: the
    assignment itself has happened in the second case. *)
Inductive reaction (A : Type) := Goes (new : A) (out : list A) | Stops (new : A) (out : list A).
Arguments Goes {A}. Arguments Stops {A}.
Definition react {A} (boom : A -> bool) (u : use A) (a : A) : reaction A :=
  match u with
  | Leaves => Goes a []
  | Replaces b => Goes b []
  | Assigns b => if boom a then Stops b [a] else Goes b [a]
  | Panics => Stops a []
  end.
Fixpoint visited {A} (boom : A -> bool) (act : nat -> A -> use A) (k : nat) (script : list side) (l : list A)
  : list A * list A * bool :=
  match script with
  | [] => (l, [], false)
  | Front :: script' =>
      match l with
      | [] => ([], [], false)
      | a :: rest =>
          match react boom (act k a) a with
          | Stops b out => (b :: rest, out, true)
          | Goes b out =>
              let '(m, d, p) := visited boom act (S k) script' rest in (b :: m, out ++ d, p)
          end
      end
  | Back :: script' =>
      match rev l with
      | [] => ([], [], false)
      | a :: rest =>
          match react boom (act k a) a with
          | Stops b out => (rev rest ++ [b], out, true)
          | Goes b out =>
              let '(m, d, p) := visited boom act (S k) script' (rev rest) in (m ++ [b], out ++ d, p)
          end
      end
  end.
(** The run [o] of a loop over the elements of a container ends as [v] says: with the contents [v] predicts held (by
    [holds]), having run exactly the destructors predicted, nothing leaked, by a panic or not as predicted. *)
Definition ends_as {A C R} (holds : C -> list A -> Prop) (g : log A) (v : list A * list A * bool) (o : outcome A C R) : Prop :=
  let '(m, d, p) := v in
  match o with
  | Ret c g' _ => p = false /\ holds c m /\ dropped g' = dropped g ++ d /\ leaked g' = leaked g
  | Panic c g' => p = true /\ holds c m /\ dropped g' = dropped g ++ d /\ leaked g' = leaked g
  | _ => False
  end.
