(** * What it means for an iterator to deliver a list. *)
From Verif Require Import Machine LiveModel.

(** [F s l]: the iterator [s] has the items [l] left.  Then [next] returns the first of them, [None] if there is none, and
    leaves the others; [size_hint] says exactly how many there are.  Nothing is dropped or leaked. *)
Definition feeds {A S X} (F : S -> list X -> Prop) (next : M A S (option X)) (hint : M A S (nat * option nat)) : Prop :=
  forall s l g, F s l ->
  (exists s' g', next s g = Ret s' g' (head l) /\ F s' (tail l) /\ dropped g' = dropped g /\ leaked g' = leaked g) /\
  (exists s' g', hint s g = Ret s' g' (length l, Some (length l)) /\ F s' l /\ dropped g' = dropped g /\ leaked g' = leaked g).

(** The call on (container, (iterator, its log)) returned (or panicked, as [panics] says) with the container holding [d],
    the iterator still having [l], the elements [ds] dropped - and nothing else dropped or leaked, by either. *)
Definition ends {A S X O} (H : O -> list A -> Prop) (F : S -> list X -> Prop) (gs g : log A) (panics : bool)
    (x : outcome A (O * (S * log A)) unit) (d : list A) (l : list X) (ds : list A) : Prop :=
  exists o s gs' g', x = (if panics then Panic (o, (s, gs')) g' else Ret (o, (s, gs')) g' tt) /\
    H o d /\ F s l /\ dropped g' = dropped g ++ ds /\ leaked g' = leaked g /\
    dropped gs' = dropped gs /\ leaked gs' = leaked gs.
(** The same for a call that makes a container; if it panics what had been collected is dropped ([ds]). *)
Definition makes {A S X C} (H : C -> list A -> Prop) (F : S -> list X -> Prop) (gs g : log A)
    (x : outcome A (S * log A) (C * unit)) (made : option (list A)) (l : list X) (ds : list A) : Prop :=
  exists s gs' g', F s l /\ dropped g' = dropped g ++ ds /\ leaked g' = leaked g /\
    dropped gs' = dropped gs /\ leaked gs' = leaked gs /\
    match made with
    | Some d => exists c, x = Ret (s, gs') g' (c, tt) /\ H c d
    | None => x = Panic (s, gs') g'
    end.

(** [extend]: items are taken one at a time and appended.  If they do not all fit, the container ends up full, the item that
    found no room is dropped, the call panics, and the iterator keeps the rest. *)
Definition extends {A S C} (H : C -> list A -> Prop) (N : nat) (F : S -> list A -> Prop)
    (extend : nat -> M A (C * (S * log A)) unit) : Prop :=
  forall (fuel : nat) (c : C) (d : list A) (s : S) (l : list A) (gs g : log A),
  H c d -> F s l -> length l < fuel ->
  let room := N - length d in
  ends H F gs g (room <? length l) (extend fuel (c, (s, gs)) g)
    (d ++ take room l) (drop (1 + room) l) (take 1 (drop room l)).
(** [collect] ([FromIterator]): the container of all the items; if there are more than fit, the item that found no room and
    then the ones collected are dropped, the call panics, and the iterator keeps the rest. *)
Definition collects {A S C} (H : C -> list A -> Prop) (N : nat) (F : S -> list A -> Prop)
    (from_iter : nat -> M A (S * log A) (C * unit)) : Prop :=
  forall (fuel : nat) (s : S) (l : list A) (gs g : log A), F s l -> length l < fuel ->
  makes H F gs g (from_iter fuel (s, gs) g) (if length l <=? N then Some l else None) (drop (1 + N) l)
    (if length l <=? N then [] else take 1 (drop N l) ++ take N l).
(** [collect_from(iter, count)]: the container of the first [count] items, which must exist and fit. *)
Definition collects_from {A S C} (H : C -> list A -> Prop) (N : nat) (F : S -> list A -> Prop)
    (collect_from : nat -> M A (S * log A) (C * unit)) : Prop :=
  forall (count : nat) (s : S) (l : list A) (gs g : log A), F s l ->
  let fits := (count <=? length l) && (count <=? N) in
  makes H F gs g (collect_from count (s, gs) g) (if fits then Some (take count l) else None)
    (drop (count `min` (1 + N)) l)
    (if fits then [] else take 1 (drop N (take count l)) ++ take N (take count l)).
(** [insert_from(index, iter)]: everything is inserted at [index]; if it does not fit, or the index is out of bounds, the
    call panics and neither the container nor the iterator has changed. *)
Definition inserts_from {A S C} (H : C -> list A -> Prop) (N W : nat) (F : S -> list A -> Prop)
    (insert_from : nat -> nat -> M A (C * (S * log A)) unit) : Prop :=
  forall (fuel : nat) (c : C) (d : list A) (s : S) (l : list A) (gs g : log A) (i : nat),
  H c d -> F s l -> length d + length l < W -> length l < fuel ->
  let fits := (length d + length l <=? N) && (i <=? length d) in
  ends H F gs g (negb fits) (insert_from fuel i (c, (s, gs)) g)
    (if fits then take i d ++ l ++ drop i d else d) (if fits then [] else l) [].

(** ** Iterators that do anything *)
(** An iterator that may panic, stop early, or announce a length it does not have.  [F s gs hs it]: the iterator in state
    [s], with log [gs], will answer calls of [size_hint] with [hs] ([None]: it panics) and calls of [next] with [it]: an
    item, a panic, or [None] when the script is over.  Nothing is asked of an iterator that has returned [None]: [E]. *)
Definition scripted {A S X} (F : S -> log A -> list (option (nat * option nat)) -> list (ev X) -> Prop) (E : S -> log A -> Prop)
    (next : M A S (option X)) (hint : M A S (nat * option nat)) : Prop :=
  forall s gs hs it, F s gs hs it ->
  match it with
  | Yield x :: it' => exists s' gs', next s gs = Ret s' gs' (Some x) /\ F s' gs' hs it'
  | Boom :: it' => exists s' gs', next s gs = Panic s' gs' /\ F s' gs' hs it'
  | [] => exists s' gs', next s gs = Ret s' gs' None /\ E s' gs'
  end /\
  match hs with
  | Some h :: hs' => exists s' gs', hint s gs = Ret s' gs' h /\ F s' gs' hs' it
  | None :: hs' => exists s' gs', hint s gs = Panic s' gs' /\ F s' gs' hs' it
  | [] => True
  end.
(** What [ExactSizeIterator::len] makes of an answer of [size_hint]: it panics unless the answer is exact. *)
Definition len_of (h : option (nat * option nat)) : option nat :=
  match h with Some (n, Some m) => if n =? m then Some n else None | _ => None end.
(** The iterator has taken some steps of its script, or has ended. *)
Definition later {A S X} (F : S -> log A -> list (option (nat * option nat)) -> list (ev X) -> Prop) (E : S -> log A -> Prop)
    hs it (o : S * log A) : Prop :=
  (exists hs' it', F (fst o) (snd o) hs' it' /\ hs' `suffix_of` hs /\ it' `suffix_of` it) \/ E (fst o) (snd o).
(** The container holds [d], the iterator satisfies [P]. *)
Definition held {A S C} (H : C -> list A -> Prop) (P : S * log A -> Prop) (o : C * (S * log A)) (d : list A) : Prop :=
  H (fst o) d /\ P (snd o).
(** What is left of the script. *)
Definition rest_of {A S X} (F : S -> log A -> list (option (nat * option nat)) -> list (ev X) -> Prop) (E : S -> log A -> Prop)
    hs (o : S * log A) (it : list (ev X)) : Prop :=
  F (fst o) (snd o) hs it \/ it = [] /\ E (fst o) (snd o).
(** An iterator that never ends. *)
Definition endless {A S X} (I : S -> log A -> Prop) (next : M A S (option X)) : Prop :=
  forall s gs, I s gs -> exists s' gs' x, next s gs = Ret s' gs' (Some x) /\ I s' gs'.
