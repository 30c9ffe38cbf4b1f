(** * What a history of pushes and pops costs. *)
From Verif Require Import Machine Spec Prims ChunkModel ChunkProofs ChunkProofs5.

(** Push a value at one end, or pop there. *)
Inductive deque_op (A : Type) := PushF (v : A) | PushB (v : A) | PopF | PopB.
Arguments PushF {A}. Arguments PushB {A}. Arguments PopF {A}. Arguments PopB {A}.
Definition at_front {A} (o : deque_op A) : bool := match o with PushF _ | PopF => true | _ => false end.
Definition is_push {A} (o : deque_op A) : bool := match o with PushF _ | PushB _ => true | _ => false end.
(** How often the history changes from one end to the other. *)
Fixpoint turns {A} (h : list (deque_op A)) : nat :=
  match h with
  | o :: ((o' :: _) as h') => (if Bool.eqb (at_front o) (at_front o') then 0 else 1) + turns h'
  | _ => 0
  end.
Definition pushes {A} (h : list (deque_op A)) : nat := length (List.filter is_push h).

Section history.
Context {A : Type} (e : env A) (N : nat).
Definition deque_step (o : deque_op A) : M A (chunk A) unit :=
  match o with
  | PushF v => push_front e N v
  | PushB v => push_back e N v
  | PopF => pop_front e N ;;; ret tt
  | PopB => pop_back e N ;;; ret tt
  end.
(** Every panic (full, or empty) is caught.  [None]: undefined behaviour, a hang or an abort. *)
Fixpoint history (h : list (deque_op A)) (c : chunk A) (g : log A) : option (chunk A * log A) :=
  match h with
  | [] => Some (c, g)
  | o :: h' => match deque_step o c g with
               | Ret c' g' _ | Panic c' g' => history h' c' g'
               | _ => None
               end
  end.

Hypothesis HW : N + N < word e.
Hypothesis Hcalm : calm e.
(** How many shifts a run at this end can still cause. *)
Definition slack (front : bool) (c : chunk A) : nat :=
  if front then (if right c =? N then 0 else 1) else (if left c =? 0 then 0 else 1).
Lemma slack_le b c : slack b c <= 1.
Proof. unfold slack. destruct b, (_ =? _); lia. Qed.
Lemma slack_bound b b' w w' k : (w' <= w + 1 /\ b' <= b) \/ (b = 1 /\ b' = 0 /\ w' <= w + k + 1 /\ k <= N - 1) ->
  w' + (N - 1) * b' <= w + 1 + (N - 1) * b.
Proof. nia. Qed.
Lemma push_front_slack c l g v : Holds N c l -> length l < N ->
  post (fun c' g' _ => Holds N c' (v :: l) /\ writes g' + (N - 1) * slack true c' <= writes g + 1 + (N - 1) * slack true c) (push_front e N v c g).
Proof.
  intros H Hl. start. unfold push_front. exec; try lia; cbn [post]; (split; [holds|]); apply (slack_bound _ _ _ _ (length l));
   cbn [writes log_write]; unfold slack; cbn [left right]; pw.
Qed.
Lemma push_back_slack c l g v : Holds N c l -> length l < N ->
  post (fun c' g' _ => Holds N c' (l ++ [v]) /\ writes g' + (N - 1) * slack false c' <= writes g + 1 + (N - 1) * slack false c) (push_back e N v c g).
Proof.
  intros H Hl. start. unfold push_back. exec; try lia; cbn [post]; (split; [holds|]); apply (slack_bound _ _ _ _ (length l));
   cbn [writes log_write]; unfold slack; cbn [left right]; pw.
Qed.
Lemma pop_front_slack c a l g : Holds N c (a :: l) ->
  post (fun c' g' _ => Holds N c' l /\ writes g' = writes g /\ right c' = right c) (pop_front e N c g).
Proof.
  intros H. start. cbn [length] in Hlen. unfold pop_front. exec; try lia; cbn [post]; (split; [holds|]); auto.
Qed.
Lemma pop_back_slack c l a g : Holds N c (l ++ [a]) ->
  post (fun c' g' _ => Holds N c' l /\ writes g' = writes g /\ left c' = left c) (pop_back e N c g).
Proof.
  intros H. start. rewrite app_length in Hlen. cbn [length] in Hlen. unfold pop_back. exec; try lia; cbn [post]; (split; [holds|]); auto.
Qed.
Lemma deque_step_cost o c l g : Holds N c l ->
  exists c' g' l', (deque_step o c g = Ret c' g' tt \/ deque_step o c g = Panic c' g') /\ Holds N c' l' /\
    writes g' + (N - 1) * slack (at_front o) c' <= writes g + (if is_push o then 1 else 0) + (N - 1) * slack (at_front o) c.
Proof.
  intros H. pose proof (holds_length e N HW _ _ H) as HlN.
  assert (Full : length l = N -> is_full N c = true).
  { intros E. destruct H as (H1 & H2 & _). unfold is_full. lia. }
  assert (Empty : l = [] -> is_empty c = true).
  { intros ->. destruct H as (H1 & H2 & _). cbn in H1. unfold is_empty. lia. }
  destruct o as [v|v| |]; cbn [deque_step at_front is_push].
  - destruct (length l <? N) eqn:E.
    + destruct (post_exists _ _ (push_front_slack c l g v H ltac:(lia))) as (c' & g' & [] & E1 & H1 & H2). eauto 10.
    + exists c, (log_drop [v] g), l. split; [right|]. 
      { unfold push_front. erewrite (bind_Ret get) by reflexivity. rewrite Full by lia. unfold panic_dropping. rewrite Hcalm. reflexivity. }
      split; [exact H|]. cbn. lia.
  - destruct (length l <? N) eqn:E.
    + destruct (post_exists _ _ (push_back_slack c l g v H ltac:(lia))) as (c' & g' & [] & E1 & H1 & H2). eauto 10.
    + exists c, (log_drop [v] g), l. split; [right|]. 
      { unfold push_back. erewrite (bind_Ret get) by reflexivity. rewrite Full by lia. unfold panic_dropping. rewrite Hcalm. reflexivity. }
      split; [exact H|]. cbn. lia.
  - destruct l as [|a l].
    + exists c, g, []. split; [right|split; [exact H|lia]]. unfold pop_front. 
      rewrite bind_bind. erewrite (bind_Ret get) by reflexivity. rewrite Empty by reflexivity. reflexivity.
    + destruct (post_exists _ _ (pop_front_slack c a l g H)) as (c' & g' & r & E1 & H1 & H2 & H3).
      exists c', g', l. split; [left; rewrite (bind_Ret _ _ _ _ _ _ _ E1); reflexivity|]. split; [exact H1|].
      unfold slack. rewrite H2, H3. lia.
  - destruct l as [|a l] using rev_ind.
    + exists c, g, []. split; [right|split; [exact H|lia]]. unfold pop_back. 
      rewrite bind_bind. erewrite (bind_Ret get) by reflexivity. rewrite Empty by reflexivity. reflexivity.
    + destruct (post_exists _ _ (pop_back_slack c l a g H)) as (c' & g' & r & E1 & H1 & H2 & H3).
      exists c', g', l. split; [left; rewrite (bind_Ret _ _ _ _ _ _ _ E1); reflexivity|]. split; [exact H1|].
      unfold slack. rewrite H2, H3. lia.
Qed.
Lemma history_slack h : forall c l g, Holds N c l ->
  exists c' g' l', history h c g = Some (c', g') /\ Holds N c' l' /\
    writes g' <= writes g + pushes h + (N - 1) * (turns h + match h with [] => 0 | o :: _ => slack (at_front o) c end).
Proof.
  induction h as [|o h IH]; intros c l g H.
  - exists c, g, l. cbn. split; [auto|]. split; [exact H|lia].
  - destruct (deque_step_cost o c l g H) as (c1 & g1 & l1 & E & H1 & C).
    destruct (IH c1 l1 g1 H1) as (c' & g' & l' & E' & H' & C'). exists c', g', l'. split.
    { cbn [history]. destruct E as [-> | ->]; exact E'. }
    split; [exact H'|]. unfold pushes in *. cbn [List.filter].
    assert (P : length (if is_push o then o :: List.filter is_push h else List.filter is_push h) =
      (if is_push o then 1 else 0) + length (List.filter is_push h)) by (destruct (is_push o); reflexivity). rewrite P.
    destruct h as [|o' h]; [cbn [turns List.filter length] in *; nia|]. cbn [turns] in *. pose proof (slack_le (at_front o') c1).
    destruct (Bool.eqb (at_front o) (at_front o')) eqn:Eb; [apply eqb_prop in Eb; rewrite Eb in *; nia|nia].
Qed.
(** One write for every push, and one shift of the contents for every change of direction (and one for the first run). *)
Theorem history_cost h c l g : Holds N c l ->
  exists c' g' l', history h c g = Some (c', g') /\ Holds N c' l' /\
    writes g' <= writes g + pushes h + (turns h + 1) * (N - 1).
Proof.
  intros H. destruct (history_slack h c l g H) as (c' & g' & l' & E & H' & C). exists c', g', l'. split; [exact E|]. split; [exact H'|].
  destruct h as [|o h]; [nia|]. pose proof (slack_le (at_front o) c). nia.
Qed.
End history.
