(** * Forward iterators: the protocol, its specification on lists, and a generic proof.

    A client calls [next] [n] times, also after the end; before every call it asks for [size_hint]. *)
From Verif Require Import Machine Spec Prims.

Section client.
Context {A O I : Type} (nxt : M A O (option I)) (sh : M A O (nat * option nat)).
Fixpoint pull_n (n : nat) : M A O (list ((nat * option nat) * option I)) :=
  match n with
  | 0 => ret []
  | S n' =>
      let! h := sh in
      let! x := nxt in
      let! rest := pull_n n' in
      ret ((h, x) :: rest)
  end.
End client.

Section spec.
Context {I : Type} (hint : nat -> nat * option nat).
(** What the client must see when the iterator stands for the list [l] and announces [hint (length l)]. *)
Fixpoint serves (n : nat) (l : list I) : list ((nat * option nat) * option I) :=
  match n with
  | 0 => []
  | S n' => (hint (length l), head l) :: serves n' (tail l)
  end.
End spec.
(** A size hint [(lo, hi)] is valid for [n] remaining items. *)
Definition valid_hint (h : nat * option nat) (n : nat) : Prop :=
  fst h <= n /\ match snd h with Some hi => n <= hi | None => True end.

(** The items of a served client are the first [n] items, then [None]. *)
Lemma serves_items {I} hint n : forall (l : list I),
  map snd (serves hint n l) = map Some (take n l) ++ replicate (n - length l) None.
Proof.
  induction n as [|n IH]; intros l; cbn [serves map snd]; [destruct l; reflexivity|].
  rewrite IH. destruct l as [|a l]; cbn.
  - destruct n; cbn; reflexivity.
  - reflexivity.
Qed.

Section generic.
Context {A O I : Type} (H : O -> list I -> Prop) (nxt : M A O (option I))
  (sh : M A O (nat * option nat)) (hint : nat -> nat * option nat).
Hypothesis Hn : forall o l g, H o l -> exists o' g', nxt o g = Ret o' g' (head l) /\
  H o' (tail l) /\ dropped g' = dropped g /\ leaked g' = leaked g.
Hypothesis Hs : forall o l g, H o l -> sh o g = Ret o g (hint (length l)).

Lemma pull_n_ok n : forall o l g, H o l ->
  exists o' g', pull_n nxt sh n o g = Ret o' g' (serves hint n l) /\
    H o' (drop n l) /\ dropped g' = dropped g /\ leaked g' = leaked g.
Proof.
  induction n as [|n IH]; intros o l g Ho; cbn [pull_n serves].
  - exists o, g. rewrite drop_0. auto.
  - rewrite (bind_Ret _ _ _ _ _ _ _ (Hs o l g Ho)).
    destruct (Hn o l g Ho) as (o' & g' & E & Ho' & D & L). rewrite (bind_Ret _ _ _ _ _ _ _ E).
    destruct (IH o' (tail l) g' Ho') as (o'' & g'' & E'' & Ho'' & D' & L').
    rewrite (bind_Ret _ _ _ _ _ _ _ E''). exists o'', g''.
    rewrite D', L', D, L. split; [reflexivity|]. split; [|auto].
    destruct l; cbn in *; [rewrite drop_nil in Ho''|]; exact Ho''.
Qed.
End generic.
