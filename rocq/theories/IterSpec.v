(** * Double-ended iterators: the protocol, its specification on lists, and a generic proof.

    A client calls [next] ([Front]) and [next_back] ([Back]) in any order; before every call it also
    asks for [size_hint]. *)
From Verif Require Import Machine Spec Prims.

Inductive side := Front | Back.

(** Calling a method for each element of a list. *)
Fixpoint each {A O X} (f : X -> M A O unit) (xs : list X) : M A O unit :=
  match xs with [] => ret tt | x :: xs' => f x ;;; each f xs' end.

Section client.
Context {A O I : Type} (nxt nxtb : M A O (option I)) (sh : M A O (nat * option nat)).
(** The client. *)
Fixpoint pull_all (script : list side) : M A O (list ((nat * option nat) * option I)) :=
  match script with
  | [] => ret []
  | s :: script' =>
      let! h := sh in
      let! x := (match s with Front => nxt | Back => nxtb end) in
      let! rest := pull_all script' in
      ret ((h, x) :: rest)
  end.
End client.

Section spec.
Context {I : Type}.
Implicit Types (l : list I).
(** What the client must see when the iterator stands for the list [l], and what is left. *)
Definition take_side (s : side) l : option I * list I :=
  match s with
  | Front => match l with [] => (None, []) | a :: l' => (Some a, l') end
  | Back => match l !! (length l - 1) with
            | None => (None, l)
            | Some a => (Some a, take (length l - 1) l)
            end
  end.
Fixpoint pulls (script : list side) l : list ((nat * option nat) * option I) * list I :=
  match script with
  | [] => ([], l)
  | s :: script' =>
      let (x, l') := take_side s l in
      let (rest, l'') := pulls script' l' in
      (((length l, Some (length l)), x) :: rest, l'')
  end.
End spec.

(** Items delivered to [Front] and to [Back] calls, in the order of the calls. *)
Fixpoint delivered {I H} (s : side) (script : list side) (outs : list (H * option I)) : list I :=
  match script, outs with
  | Front :: script', (_, Some a) :: outs' =>
      match s with Front => a :: delivered s script' outs' | Back => delivered s script' outs' end
  | Back :: script', (_, Some a) :: outs' =>
      match s with Back => a :: delivered s script' outs' | Front => delivered s script' outs' end
  | _ :: script', (_, None) :: outs' => delivered s script' outs'
  | _, _ => []
  end.

(** Every element is delivered exactly once or left: those delivered at the front, then the rest, then
    those delivered at the back in reverse, are the original list. *)
Lemma take_last_app {I} (l : list I) a : l !! (length l - 1) = Some a -> take (length l - 1) l ++ [a] = l.
Proof.
  intros H. pose proof (lookup_lt_Some _ _ _ H).
  rewrite <- (take_drop (length l - 1) l) at 3. f_equal.
  rewrite (drop_S l a) by assumption. rewrite drop_ge by lia. reflexivity.
Qed.
Lemma pulls_partition {I} (script : list side) : forall (l : list I),
  delivered Front script (fst (pulls script l)) ++ snd (pulls script l) ++
    rev (delivered Back script (fst (pulls script l))) = l.
Proof.
  induction script as [|s script IH]; intros l; cbn [pulls delivered fst snd rev].
  - cbn. apply app_nil_r.
  - destruct s; cbn [take_side].
    + destruct l as [|a l]; cbn.
      * specialize (IH []). destruct (pulls script []) as [rest l'']. exact IH.
      * specialize (IH l). destruct (pulls script l) as [rest l'']. cbn in *. rewrite IH. reflexivity.
    + destruct (l !! (length l - 1)) as [a|] eqn:Ha.
      * specialize (IH (take (length l - 1) l)).
        destruct (pulls script (take (length l - 1) l)) as [rest l'']. cbn in *.
        rewrite !app_assoc. rewrite <- (app_assoc _ l'').
        rewrite IH. apply take_last_app. exact Ha.
      * specialize (IH l). destruct (pulls script l) as [rest l'']. exact IH.
Qed.
(** Exhausted iterators stay exhausted. *)
Lemma pulls_nil {I} (script : list side) :
  pulls script (@nil I) = (map (fun _ => ((0, Some 0), None)) script, []).
Proof.
  induction script as [|s script IH]; [reflexivity|].
  cbn [pulls map]. destruct s; cbn [take_side lookup length]; cbn; rewrite IH; reflexivity.
Qed.

(** An iterator whose three methods act on the list it stands for serves every client correctly. *)
Section generic.
Context {A O I : Type} (H : O -> list I -> Prop) (nxt nxtb : M A O (option I))
  (sh : M A O (nat * option nat)).
Hypothesis Hn : forall o l g, H o l -> exists o' g', nxt o g = Ret o' g' (fst (take_side Front l)) /\
  H o' (snd (take_side Front l)) /\ dropped g' = dropped g /\ leaked g' = leaked g.
Hypothesis Hb : forall o l g, H o l -> exists o' g', nxtb o g = Ret o' g' (fst (take_side Back l)) /\
  H o' (snd (take_side Back l)) /\ dropped g' = dropped g /\ leaked g' = leaked g.
Hypothesis Hs : forall o l g, H o l -> sh o g = Ret o g (length l, Some (length l)).

Lemma pull_all_ok script : forall o l g, H o l ->
  exists o' g', pull_all nxt nxtb sh script o g = Ret o' g' (fst (pulls script l)) /\
    H o' (snd (pulls script l)) /\ dropped g' = dropped g /\ leaked g' = leaked g.
Proof.
  induction script as [|s script IH]; intros o l g Ho; cbn [pull_all pulls].
  - eexists _, _. split; [reflexivity|]. auto.
  - rewrite (bind_Ret _ _ _ _ _ _ _ (Hs o l g Ho)).
    assert (HH : forall s, exists o' g', (match s with Front => nxt | Back => nxtb end) o g =
       Ret o' g' (fst (take_side s l)) /\ H o' (snd (take_side s l)) /\
       dropped g' = dropped g /\ leaked g' = leaked g) by (intros []; auto).
    destruct (HH s) as (o' & g' & E & Ho' & D & L). rewrite (bind_Ret _ _ _ _ _ _ _ E).
    destruct (take_side s l) as [x l']. cbn [fst snd] in *.
    destruct (IH o' l' g' Ho') as (o'' & g'' & E'' & Ho'' & D' & L').
    rewrite (bind_Ret _ _ _ _ _ _ _ E'').
    destruct (pulls script l') as [rest l'']. cbn [fst snd] in *. exists o'', g''.
    rewrite D', L', D, L. auto.
Qed.

(** The same, when [next] and [next_back] are known to meet the list specifications. *)
Lemma agrees_take_side s (m : M A O (option I)) o l g :
  agrees H eq g (m o g) (SRet (snd (take_side s l)) (fst (take_side s l)) []) ->
  exists o' g', m o g = Ret o' g' (fst (take_side s l)) /\
    H o' (snd (take_side s l)) /\ dropped g' = dropped g /\ leaked g' = leaked g.
Proof.
  intros (o' & g' & r & E & Ho & -> & D & L). exists o', g'. rewrite app_nil_r in D. auto.
Qed.
End generic.
