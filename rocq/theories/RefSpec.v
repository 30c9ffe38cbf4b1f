(** * Specification of mutation through iterators. *)
From Verif Require Import Machine IterSpec.

(** [l] after a client of a double-ended mutable iterator over [l] has replaced every element it was given by [f] of
    it: [Front] gives the first element not yet given, [Back] the last one. *)
Fixpoint mutated {A} (f : A -> A) (script : list side) (l : list A) : list A :=
  match script with
  | [] => l
  | Front :: script' =>
      match l with
      | [] => []
      | a :: rest => f a :: mutated f script' rest
      end
  | Back :: script' =>
      match rev l with
      | [] => []
      | a :: rest => mutated f script' (rev rest) ++ [f a]
      end
  end.
(** The first [n] occupied cells mapped. *)
Fixpoint map_first {A} (f : A -> A) (n : nat) (s : list (option A)) : list (option A) :=
  match n, s with
  | 0, _ => s
  | _, [] => []
  | S n', Some a :: s' => Some (f a) :: map_first f n' s'
  | S _, None :: s' => None :: map_first f n s'
  end.
