(** * Is a push or pop O(1) on average? *)
From Verif Require Import Machine Spec Prims ChunkModel ChunkProofs ChunkProofs5 ChunkCost.

(** What a push or pop does to the contents of a deque of capacity [N]. *)
Definition deque_effect {A} (N : nat) (o : deque_op A) (l : list A) : list A :=
  match o with
  | PushF v => if length l <? N then v :: l else l
  | PushB v => if length l <? N then l ++ [v] else l
  | PopF => tail l
  | PopB => removelast l
  end.
(** Never more than [b] elements during the history. *)
Fixpoint at_most {A} (N b : nat) (h : list (deque_op A)) (l : list A) : Prop :=
  match h with
  | [] => True
  | o :: h' => length (deque_effect N o l) <= b /\ at_most N b h' (deque_effect N o l)
  end.

Lemma pushes_le {A} (h : list (deque_op A)) : pushes h <= length h.
Proof. unfold pushes. induction h as [|o h IH]; cbn [List.filter length]; [lia|]. destruct (is_push o); cbn [length]; lia. Qed.

(** [h] again and again. *)
Fixpoint repeated {A} (k : nat) (h : list (deque_op A)) : list (deque_op A) :=
  match k with 0 => [] | S k' => h ++ repeated k' h end.
Lemma repeated_length {A} k (h : list (deque_op A)) : length (repeated k h) = k * length h.
Proof. induction k; cbn; [done|]. rewrite app_length. lia. Qed.

Section chunk.
Context {A : Type} (e : env A) (N : nat).
Hypothesis HW : N + N < word e.
Hypothesis Hcalm : calm e.

Ltac fin := solve [repeat split; first [discriminate | reflexivity | lia]].
Ltac pick l := destruct l; cbn [length] in *; first [lia | left; fin | right; left; fin | right; right; fin].
Lemma push_back_exact c l g v : Holds N c l -> length l < N ->
  post (fun c' g' _ => Holds N c' (l ++ [v]) /\
    ((l = [] /\ writes g' = writes g + 1 /\ right c' = 1) \/
     (l <> [] /\ right c = N /\ writes g' = writes g + length l + 1 /\ right c' = length l + 1 /\ left c' = 0) \/
     (l <> [] /\ right c <> N /\ writes g' = writes g + 1 /\ right c' = right c + 1))) (push_back e N v c g).
Proof.
  intros H Hl. start. unfold push_back. exec; try lia; cbn [post]; (split; [holds|]); cbn [writes log_write left right]; pick l.
Qed.
Lemma push_front_exact c l g v : Holds N c l -> length l < N ->
  post (fun c' g' _ => Holds N c' (v :: l) /\
    ((l = [] /\ writes g' = writes g + 1 /\ left c' = N - 1) \/
     (l <> [] /\ left c = 0 /\ writes g' = writes g + length l + 1 /\ left c' = N - length l - 1 /\ right c' = N) \/
     (l <> [] /\ left c <> 0 /\ writes g' = writes g + 1 /\ left c = left c' + 1))) (push_front e N v c g).
Proof.
  intros H Hl. start. unfold push_front. exec; try lia; cbn [post]; (split; [holds|]); cbn [writes log_write left right]; pick l.
Qed.
Lemma pop_front_exact c a l g : Holds N c (a :: l) ->
  post (fun c' g' _ => Holds N c' l /\ writes g' = writes g /\ right c' = right c /\ left c' = left c + 1) (pop_front e N c g).
Proof.
  intros H. start. cbn [length] in Hlen. unfold pop_front. exec; try lia; cbn [post]; (split; [holds|]); auto.
Qed.
Lemma pop_back_exact c l a g : Holds N c (l ++ [a]) ->
  post (fun c' g' _ => Holds N c' l /\ writes g' = writes g /\ left c' = left c /\ right c = right c' + 1) (pop_back e N c g).
Proof.
  intros H. start. rewrite app_length in Hlen. cbn [length] in Hlen. unfold pop_back. exec; try lia; cbn [post]; (split; [holds|]); cbn [left right]; repeat split; try reflexivity; lia.
Qed.
(** One step, with the two registers. *)
Lemma deque_step_exact o c l g : Holds N c l ->
  exists c' g', (deque_step e N o c g = Ret c' g' tt \/ deque_step e N o c g = Panic c' g') /\ Holds N c' (deque_effect N o l) /\
  match o with
  | PushB _ => (N <= length l /\ writes g' = writes g /\ c' = c) \/
      (l = [] /\ writes g' = writes g + 1 /\ right c' = 1) \/
      (l <> [] /\ right c = N /\ writes g' = writes g + length l + 1 /\ right c' = length l + 1 /\ left c' = 0) \/
      (l <> [] /\ right c <> N /\ writes g' = writes g + 1 /\ right c' = right c + 1)
  | PushF _ => (N <= length l /\ writes g' = writes g /\ c' = c) \/
      (l = [] /\ writes g' = writes g + 1 /\ left c' = N - 1) \/
      (l <> [] /\ left c = 0 /\ writes g' = writes g + length l + 1 /\ left c' = N - length l - 1 /\ right c' = N) \/
      (l <> [] /\ left c <> 0 /\ writes g' = writes g + 1 /\ left c = left c' + 1)
  | PopF => writes g' = writes g /\ right c' = right c /\ left c <= left c'
  | PopB => writes g' = writes g /\ left c' = left c /\ right c' <= right c
  end.
Proof.
  intros H. pose proof (holds_length e N HW _ _ H) as HlN.
  assert (Full : length l = N -> is_full N c = true).
  { intros E. destruct H as (H1 & H2 & _). unfold is_full. lia. }
  assert (Empty : l = [] -> is_empty c = true).
  { intros ->. destruct H as (H1 & H2 & _). cbn in H1. unfold is_empty. lia. }
  destruct o as [v|v| |]; cbn [deque_step deque_effect].
  - destruct (length l <? N) eqn:E.
    + destruct (post_exists _ _ (push_front_exact c l g v H ltac:(lia))) as (c' & g' & [] & E1 & H1 & H2). eauto 10.
    + exists c, (log_drop [v] g). split; [right|].
      { unfold push_front. erewrite (bind_Ret get) by reflexivity. rewrite Full by lia. unfold panic_dropping. rewrite Hcalm. reflexivity. }
      split; [exact H|]. left. cbn. repeat split; lia.
  - destruct (length l <? N) eqn:E.
    + destruct (post_exists _ _ (push_back_exact c l g v H ltac:(lia))) as (c' & g' & [] & E1 & H1 & H2). eauto 10.
    + exists c, (log_drop [v] g). split; [right|].
      { unfold push_back. erewrite (bind_Ret get) by reflexivity. rewrite Full by lia. unfold panic_dropping. rewrite Hcalm. reflexivity. }
      split; [exact H|]. left. cbn. repeat split; lia.
  - destruct l as [|a l].
    + exists c, g. split; [right|split; [exact H|repeat split; lia]]. unfold pop_front.
      rewrite bind_bind. erewrite (bind_Ret get) by reflexivity. rewrite Empty by reflexivity. reflexivity.
    + destruct (post_exists _ _ (pop_front_exact c a l g H)) as (c' & g' & r & E1 & H1 & H2 & H3 & H4).
      exists c', g'. split; [left; rewrite (bind_Ret _ _ _ _ _ _ _ E1); reflexivity|]. split; [exact H1|]. repeat split; lia.
  - destruct l as [|a l _] using rev_ind.
    + exists c, g. split; [right|split; [exact H|repeat split; lia]]. unfold pop_back.
      rewrite bind_bind. erewrite (bind_Ret get) by reflexivity. rewrite Empty by reflexivity. reflexivity.
    + destruct (post_exists _ _ (pop_back_exact c l a g H)) as (c' & g' & r & E1 & H1 & H2 & H3 & H4).
      exists c', g'. split; [left; rewrite (bind_Ret _ _ _ _ _ _ _ E1); reflexivity|]. rewrite removelast_last.
      split; [exact H1|]. repeat split; lia.
Qed.

(** ** Pushes at one end only, and some room left over: constant on average.

    [d]: pushes since the last shift.  Each shift moves at most [b] values and makes room for at least [N - b] pushes. *)
Definition no_push_front (o : deque_op A) : Prop := match o with PushF _ => False | _ => True end.
Definition no_push_back (o : deque_op A) : Prop := match o with PushB _ => False | _ => True end.
Lemma pushes_cons (o : deque_op A) h : pushes (o :: h) = (if is_push o then 1 else 0) + pushes h.
Proof. unfold pushes. cbn [List.filter]. destruct (is_push o); reflexivity. Qed.
Lemma queue_back b h : b < N -> forall c l g m p d,
  Holds N c l -> length l <= b -> Forall no_push_front h -> at_most N b h l ->
  (N - b) * m <= b * p -> N - b <= d + (N - right c) ->
  exists c' g' m' d', history e N h c g = Some (c', g') /\
    writes g' + m <= writes g + pushes h + m' /\ (N - b) * m' + b * d' <= b * (p + d + pushes h).
Proof.
  intros Hb. induction h as [|o h IH]; intros c l g m p d H Hl Hf Ha Hm Hd.
  { exists c, g, m, d. cbn. split; [done|]. unfold pushes; cbn. nia. }
  inversion Hf as [|? ? Ho Hf' Eo]; subst; clear Hf; rename Hf' into Hf. destruct Ha as [Ha1 Ha]. rewrite pushes_cons.
  destruct (deque_step_exact o c l g H) as (c1 & g1 & E & H1 & C).
  assert (Hist : history e N (o :: h) c g = history e N h c1 g1) by (cbn [history]; destruct E as [-> | ->]; reflexivity).
  rewrite Hist. clear E Hist.
  destruct o as [v|v| |]; cbn [no_push_front is_push] in *; [done| | |].
  - assert (Hlt : length l < b).
    { cbn [deque_effect] in Ha1. destruct (length l <? N) eqn:El; [|lia]. rewrite app_length in Ha1; cbn in Ha1; lia. }
    destruct C as [(C & _)|[(Cl & Cw & Cr)|[(Cl & Ce & Cw & Cr & _)|(Cl & Ce & Cw & Cr)]]]; [lia| | |].
    + destruct (IH c1 _ g1 m p (d + 1) H1 Ha1 Hf Ha Hm ltac:(lia)) as (c' & g' & m' & d' & E' & W & B).
      exists c', g', m', d'. split; [exact E'|]. split; [lia|]. nia.
    + destruct (IH c1 _ g1 (m + length l) (p + d) 1 H1 Ha1 Hf Ha ltac:(nia) ltac:(lia)) as (c' & g' & m' & d' & E' & W & B).
      exists c', g', m', d'. split; [exact E'|]. split; [lia|]. nia.
    + destruct (IH c1 _ g1 m p (d + 1) H1 Ha1 Hf Ha Hm ltac:(lia)) as (c' & g' & m' & d' & E' & W & B).
      exists c', g', m', d'. split; [exact E'|]. split; [lia|]. nia.
  - destruct C as (Cw & Cr & _).
    destruct (IH c1 _ g1 m p d H1 Ha1 Hf Ha Hm ltac:(lia)) as (c' & g' & m' & d' & E' & W & B).
    exists c', g', m', d'. split; [exact E'|]. split; [lia|]. nia.
  - destruct C as (Cw & _ & Cr).
    destruct (IH c1 _ g1 m p d H1 Ha1 Hf Ha Hm ltac:(lia)) as (c' & g' & m' & d' & E' & W & B).
    exists c', g', m', d'. split; [exact E'|]. split; [lia|]. nia.
Qed.
Lemma queue_front b h : b < N -> forall c l g m p d,
  Holds N c l -> length l <= b -> Forall no_push_back h -> at_most N b h l ->
  (N - b) * m <= b * p -> (l <> [] -> N - b <= d + left c) ->
  exists c' g' m' d', history e N h c g = Some (c', g') /\
    writes g' + m <= writes g + pushes h + m' /\ (N - b) * m' + b * d' <= b * (p + d + pushes h).
Proof.
  intros Hb. induction h as [|o h IH]; intros c l g m p d H Hl Hf Ha Hm Hd.
  { exists c, g, m, d. cbn. split; [done|]. unfold pushes; cbn. nia. }
  inversion Hf as [|? ? Ho Hf' Eo]; subst; clear Hf; rename Hf' into Hf. destruct Ha as [Ha1 Ha]. rewrite pushes_cons.
  destruct (deque_step_exact o c l g H) as (c1 & g1 & E & H1 & C).
  assert (Hist : history e N (o :: h) c g = history e N h c1 g1) by (cbn [history]; destruct E as [-> | ->]; reflexivity).
  rewrite Hist. clear E Hist.
  destruct o as [v|v| |]; cbn [no_push_back is_push] in *; [|done| |].
  - assert (Hlt : length l < b).
    { cbn [deque_effect] in Ha1. destruct (length l <? N) eqn:El; [|lia]. cbn in Ha1; lia. }
    destruct C as [(C & _)|[(Cl & Cw & Cr)|[(Cl & Ce & Cw & Cr & _)|(Cl & Ce & Cw & Cr)]]]; [lia| | |].
    + destruct (IH c1 _ g1 m p (d + 1) H1 Ha1 Hf Ha Hm ltac:(intros _; lia)) as (c' & g' & m' & d' & E' & W & B).
      exists c', g', m', d'. split; [exact E'|]. split; [lia|]. nia.
    + specialize (Hd Cl).
      destruct (IH c1 _ g1 (m + length l) (p + d) 1 H1 Ha1 Hf Ha ltac:(nia) ltac:(intros _; lia)) as (c' & g' & m' & d' & E' & W & B).
      exists c', g', m', d'. split; [exact E'|]. split; [lia|]. nia.
    + specialize (Hd Cl).
      destruct (IH c1 _ g1 m p (d + 1) H1 Ha1 Hf Ha Hm ltac:(intros _; lia)) as (c' & g' & m' & d' & E' & W & B).
      exists c', g', m', d'. split; [exact E'|]. split; [lia|]. nia.
  - destruct C as (Cw & _ & Cr).
    assert (Hd1 : deque_effect N PopF l <> [] -> N - b <= d + left c1).
    { intros Hn. assert (l <> []) as Hn' by (intros ->; done). specialize (Hd Hn'). lia. }
    destruct (IH c1 _ g1 m p d H1 Ha1 Hf Ha Hm Hd1) as (c' & g' & m' & d' & E' & W & B).
    exists c', g', m', d'. split; [exact E'|]. split; [lia|]. nia.
  - destruct C as (Cw & Cr & _).
    assert (Hd1 : deque_effect N PopB l <> [] -> N - b <= d + left c1).
    { intros Hn. assert (l <> []) as Hn' by (intros ->; done). specialize (Hd Hn'). lia. }
    destruct (IH c1 _ g1 m p d H1 Ha1 Hf Ha Hm Hd1) as (c' & g' & m' & d' & E' & W & B).
    exists c', g', m', d'. split; [exact E'|]. split; [lia|]. nia.
Qed.
Theorem one_sided b h g : b < N -> Forall no_push_front h \/ Forall no_push_back h -> at_most N b h [] ->
  exists c' g', history e N h new g = Some (c', g') /\ (N - b) * (writes g' - writes g) <= N * pushes h.
Proof.
  intros Hb [Hf|Hf] Ha.
  - destruct (queue_back b h Hb new [] g 0 0 0 (new_holds e N HW) ltac:(cbn; lia) Hf Ha ltac:(lia) ltac:(cbn; lia))
      as (c' & g' & m' & d' & E & W & B). exists c', g'. split; [exact E|]. nia.
  - destruct (queue_front b h Hb new [] g 0 0 0 (new_holds e N HW) ltac:(cbn; lia) Hf Ha ltac:(lia) ltac:(done))
      as (c' & g' & m' & d' & E & W & B). exists c', g'. split; [exact E|]. nia.
Qed.

(** ** The worst cases. *)
Lemma history_app h1 h2 c g : history e N (h1 ++ h2) c g =
  match history e N h1 c g with Some (c', g') => history e N h2 c' g' | None => None end.
Proof.
  revert c g. induction h1 as [|o h1 IH]; intros c g; [reflexivity|]. cbn [app history].
  destruct (deque_step e N o c g); auto.
Qed.
Lemma history_step o h c g l : Holds N c l -> exists c1 g1, history e N (o :: h) c g = history e N h c1 g1 /\
  Holds N c1 (deque_effect N o l) /\
  match o with
  | PushB _ => (N <= length l /\ writes g1 = writes g /\ c1 = c) \/
      (l = [] /\ writes g1 = writes g + 1 /\ right c1 = 1) \/
      (l <> [] /\ right c = N /\ writes g1 = writes g + length l + 1 /\ right c1 = length l + 1 /\ left c1 = 0) \/
      (l <> [] /\ right c <> N /\ writes g1 = writes g + 1 /\ right c1 = right c + 1)
  | PushF _ => (N <= length l /\ writes g1 = writes g /\ c1 = c) \/
      (l = [] /\ writes g1 = writes g + 1 /\ left c1 = N - 1) \/
      (l <> [] /\ left c = 0 /\ writes g1 = writes g + length l + 1 /\ left c1 = N - length l - 1 /\ right c1 = N) \/
      (l <> [] /\ left c <> 0 /\ writes g1 = writes g + 1 /\ left c = left c1 + 1)
  | PopF => writes g1 = writes g /\ right c1 = right c /\ left c <= left c1
  | PopB => writes g1 = writes g /\ left c1 = left c /\ right c1 <= right c
  end.
Proof.
  intros H. destruct (deque_step_exact o c l g H) as (c1 & g1 & E & H1 & C). exists c1, g1. split; [|split; [exact H1|exact C]].
  cbn [history]; destruct E as [-> | ->]; reflexivity.
Qed.
Lemma fill_back (v : A) n : forall c l g, Holds N c l -> right c = length l -> length l + n <= N ->
  exists c' g', history e N (replicate n (PushB v)) c g = Some (c', g') /\ Holds N c' (l ++ replicate n v) /\
    right c' = length l + n /\ writes g' = writes g + n.
Proof.
  induction n as [|n IH]; intros c l g H Hr Hn.
  { exists c, g. cbn. rewrite app_nil_r. split; [done|]. split; [done|lia]. }
  cbn [replicate]. destruct (history_step (PushB v) (replicate n (PushB v)) c g l H) as (c1 & g1 & -> & H1 & C).
  cbn [deque_effect] in H1. rewrite (proj2 (Nat.ltb_lt (length l) N)) in H1 by lia.
  assert (W : writes g1 = writes g + 1 /\ right c1 = length l + 1).
  { destruct C as [C|[(-> & C1 & C2)|[C|C]]]; try lia. cbn. lia. }
  destruct (IH c1 (l ++ [v]) g1 H1) as (c' & g' & E & H' & Hr' & W').
  { rewrite app_length; cbn; lia. } { rewrite app_length; cbn; lia. }
  exists c', g'. split; [exact E|]. rewrite <- app_assoc in H'. split; [exact H'|]. rewrite app_length in Hr'. cbn in Hr'. lia.
Qed.
(** Both ends in turn: every push shifts everything. *)
Definition both_ends (v : A) : list (deque_op A) := [PushF v; PopF; PushB v; PopB].
Lemma both_ends_cost v k : forall c l g, Holds N c l -> left c = 0 -> l <> [] -> length l < N ->
  exists c' g', history e N (repeated k (both_ends v)) c g = Some (c', g') /\ writes g' = writes g + k * (2 * length l + 2).
Proof.
  induction k as [|k IH]; intros c l g H Hz Hl Hn.
  { exists c, g. cbn. split; [done|lia]. }
  assert (T : forall l' : list A, length l' = length l -> (length l' <? N) = true) by (intros; apply Nat.ltb_lt; lia).
  cbn [repeated both_ends app].
  destruct (history_step (PushF v) (PopF :: PushB v :: PopB :: repeated k (both_ends v)) c g l H) as (c1 & g1 & -> & H1 & C1).
  cbn [deque_effect] in H1. rewrite T in H1 by done.
  destruct (history_step PopF (PushB v :: PopB :: repeated k (both_ends v)) c1 g1 _ H1) as (c2 & g2 & -> & H2 & C2).
  cbn [deque_effect tail] in H2.
  destruct (history_step (PushB v) (PopB :: repeated k (both_ends v)) c2 g2 _ H2) as (c3 & g3 & -> & H3 & C3).
  cbn [deque_effect] in H3. rewrite T in H3 by done.
  destruct (history_step PopB (repeated k (both_ends v)) c3 g3 _ H3) as (c4 & g4 & -> & H4 & C4).
  cbn [deque_effect] in H4. rewrite removelast_last in H4.
  destruct C1 as [C|[C|[C|C]]]; [lia|naive_solver| |lia]. destruct C3 as [D|[D|[D|D]]]; [lia|naive_solver| |lia].
  destruct (IH c4 l g4 H4 ltac:(lia) Hl Hn) as (c' & g' & E & W). exists c', g'. split; [exact E|]. nia.
Qed.
(** A queue in a chunk with one free place: every push shifts everything. *)
Definition queued (v : A) : list (deque_op A) := [PushB v; PopF].
Lemma queued_cost v k : forall c l g, Holds N c l -> right c = N -> l <> [] -> length l + 1 = N ->
  exists c' g', history e N (repeated k (queued v)) c g = Some (c', g') /\ writes g' = writes g + k * N.
Proof.
  induction k as [|k IH]; intros c l g H Hz Hl Hn.
  { exists c, g. cbn. split; [done|lia]. }
  cbn [repeated queued app].
  destruct (history_step (PushB v) (PopF :: repeated k (queued v)) c g l H) as (c1 & g1 & -> & H1 & C1).
  cbn [deque_effect] in H1. rewrite (proj2 (Nat.ltb_lt (length l) N)) in H1 by lia.
  destruct (history_step PopF (repeated k (queued v)) c1 g1 _ H1) as (c2 & g2 & -> & H2 & C2).
  cbn [deque_effect] in H2.
  destruct C1 as [C|[C|[C|C]]]; [lia|naive_solver| |lia].
  assert (L : length (tail (l ++ [v])) = length l) by (destruct l; cbn; rewrite ?app_length; cbn; [done|lia]).
  destruct (IH c2 (tail (l ++ [v])) g2 H2 ltac:(lia)) as (c' & g' & E & W).
  { intros X. rewrite X in L. cbn in L. destruct l; [done|cbn in L; lia]. } { lia. }
  exists c', g'. split; [exact E|]. nia.
Qed.
Theorem worst_both_ends (v : A) n k g : 0 < n -> n < N ->
  exists c' g', history e N (replicate n (PushB v) ++ repeated k (both_ends v)) new g = Some (c', g') /\
    writes g' = writes g + n + k * (2 * n + 2).
Proof.
  intros Hn HN. rewrite history_app.
  destruct (fill_back v n new [] g (new_holds e N HW) eq_refl ltac:(cbn; lia)) as (c1 & g1 & -> & H1 & R1 & W1).
  cbn [app] in H1. cbn [length] in R1.
  assert (Z : left c1 = 0) by (destruct H1 as (H1 & _); rewrite replicate_length in H1; lia).
  destruct (both_ends_cost v k c1 _ g1 H1 Z) as (c' & g' & E & W).
  { destruct n; [lia|done]. } { rewrite replicate_length; lia. }
  exists c', g'. split; [exact E|]. rewrite replicate_length in W. lia.
Qed.
Theorem worst_queue (v : A) k g : 1 < N ->
  exists c' g', history e N (replicate N (PushB v) ++ PopF :: repeated k (queued v)) new g = Some (c', g') /\
    writes g' = writes g + N + k * N.
Proof.
  intros HN. rewrite history_app.
  destruct (fill_back v N new [] g (new_holds e N HW) eq_refl ltac:(cbn; lia)) as (c1 & g1 & -> & H1 & R1 & W1).
  cbn [app] in H1. cbn [length] in R1.
  destruct (history_step PopF (repeated k (queued v)) c1 g1 _ H1) as (c2 & g2 & -> & H2 & C2).
  cbn [deque_effect] in H2.
  assert (L : length (tail (replicate N v)) + 1 = N) by (destruct N; cbn; rewrite ?replicate_length; lia).
  destruct (queued_cost v k c2 _ g2 H2 ltac:(lia)) as (c' & g' & E & W).
  { intros X. rewrite X in L. cbn in L. lia. } { exact L. }
  exists c', g'. split; [exact E|]. lia.
Qed.
End chunk.
