(** * Specification of several shared iterators used at the same time. *)
From Verif Require Import Machine IterSpec.

(** The calls made on iterator [j], and the answers it gave. *)
Definition calls_of (j : nat) (script : list (nat * side)) : list side :=
  map snd (List.filter (fun c => fst c =? j) script).
Definition answers_of {I} (j : nat) (outs : list (nat * option I)) : list (option I) :=
  map snd (List.filter (fun c => fst c =? j) outs).
(** What [next]/[next_back] answer on an iterator over [l] that is alone. *)
Definition alone {I} (script : list side) (l : list I) : list (option I) := map snd (fst (pulls script l)).
(** Every iterator behaves as if it were alone: [lists] are the sequences the iterators stand for. *)
Definition independent {I} (lists : list (list I)) (script : list (nat * side)) (outs : list (nat * option I)) : Prop :=
  map fst outs = List.filter (fun j => j <? length lists) (map fst script) /\
  forall j l, lists !! j = Some l -> answers_of j outs = alone (calls_of j script) l.
