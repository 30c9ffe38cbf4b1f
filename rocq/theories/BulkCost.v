(** * How many values the bulk operations write. *)
From Verif Require Import Machine Spec Prims IterSpec ChunkModel ChunkProofs ChunkProofs2 ChunkProofs5 ChunkLaws ChunkCost ChunkExamples.

Section within.
Context {A : Type} (e : env A).
Implicit Types g : log A.
(** However the call ends, at most [b] writes are on the log. *)
Definition within {O R} (b : nat) (x : outcome A O R) : Prop :=
  match x with Ret _ g' _ | Panic _ g' => writes g' <= b | _ => True end.
Lemma within_le {O R} a b (x : outcome A O R) : within a x -> a <= b -> within b x.
Proof. destruct x; cbn; lia. Qed.
Lemma within_bind {O R T} b (m : M A O R) (k : R -> M A O T) o g :
  within b (m o g) -> (forall r o' g', writes g' <= b -> within b (k r o' g')) -> within b (bind m k o g).
Proof. unfold bind. destruct (m o g); cbn; auto. Qed.
Lemma uadd_cost {O} x y (o : O) g : within (writes g) (uadd e x y o g).
Proof. unfold uadd. destruct (_ <? _); [|destruct (debug e)]; cbn; lia. Qed.
Lemma usub_cost {O} x y (o : O) g : within (writes g) (usub e x y o g).
Proof. unfold usub. destruct (_ <=? _); [|destruct (debug e)]; cbn; lia. Qed.
Lemma step_bind {O R T} b a (m : M A O R) (k : R -> M A O T) o g :
  within a (m o g) -> a <= b -> (forall x o' g', writes g' <= a -> within b (k x o' g')) -> within b (bind m k o g).
Proof. intros H Hab Hk. unfold bind. destruct (m o g); cbn in *; auto; lia. Qed.
End within.

Section chunk.
Context {A : Type} (e : env A) (N : nat).
Hypothesis HW : N + N < word e.
Implicit Types (c : chunk A) (l : list A) (g : log A).
Notation wrote n := (fun _ g' _ => writes g' = n).
Notation wrote_at_most n := (fun _ g' _ => writes g' <= n).
Ltac count := exec; try lia; cbn [post writes log_write log_drop log_leak]; try lia.
Lemma from_front_cost c l g k : Holds N c l -> k <= length l -> post (wrote (writes g + k)) (from_front e N k c g).
Proof. intros H Hk. start. unfold from_front. destruct (0 <? k) eqn:E; count. Qed.
Lemma from_back_cost c l g k : Holds N c l -> k <= length l -> post (wrote (writes g + k)) (from_back e N k c g).
Proof. intros H Hk. start. unfold from_back. destruct (0 <? k) eqn:E; count. Qed.
Lemma split_off_cost c l g i : Holds N c l -> i <= length l -> post (wrote (writes g + (length l - i))) (split_off e N i c g).
Proof. intros H Hk. start. unfold split_off. count. Qed.
Lemma append_cost c1 c2 l1 l2 g : Holds N c1 l1 -> Holds N c2 l2 -> length l1 + length l2 <= N ->
  post (fun _ g' _ => writes g' <= writes g + length l1 + length l2 /\ (right c1 + length l2 <= N -> writes g' = writes g + length l2)) (append e N (c1, c2) g).
Proof. intros H1 H2 HL. do 2 start. unfold append. count. all: split; [lia|]; cbn; intros; lia. Qed.
Lemma drain_from_front_cost c1 c2 l1 l2 g k : Holds N c1 l1 -> Holds N c2 l2 -> length l1 + k <= N -> k <= length l2 ->
  post (fun _ g' _ => writes g' <= writes g + length l1 + k /\ (right c1 + k <= N -> writes g' = writes g + k)) (drain_from_front e N k (c1, c2) g).
Proof. intros H1 H2 HL HK. do 2 start. unfold drain_from_front. count. all: split; [lia|]; cbn; intros; lia. Qed.
Lemma drain_from_back_cost c1 c2 l1 l2 g k : Holds N c1 l1 -> Holds N c2 l2 -> length l1 + k <= N -> k <= length l2 ->
  post (fun _ g' _ => writes g' <= writes g + length l1 + k /\ (k <= left c1 -> writes g' = writes g + k)) (drain_from_back e N k (c1, c2) g).
Proof. intros H1 H2 HL HK. do 2 start. unfold drain_from_back. count. all: split; [lia|]; cbn; intros; lia. Qed.

Lemma write_loop_cost k : forall it wi c g, within (writes g + k) (write_loop e N k it wi c g).
Proof.
  induction k as [|k IH]; intros it wi c g; [destruct it as [|[]]; cbn; lia|].
  destruct it as [|[a|] it]; cbn [write_loop]; [cbn; lia| |cbn; lia].
  unfold force_write, slot_write, bind. destruct (wi <? N); [|exact I].
  unfold uadd. destruct (wi + 1 <? word e); [|destruct (debug e); [cbn; lia|]].
  all: unfold ret.
  all: match goal with |- context [write_loop _ _ _ ?i ?w ?c1 ?g1] => specialize (IH i w c1 g1); unfold within in *; destruct (write_loop _ _ _ _ _ _ _); cbn in *; lia end.
Qed.
Lemma write_from_iter_cost wi n it c g : within (writes g + n) (write_from_iter e N wi n it c g).
Proof.
  unfold write_from_iter, bind, get, set_left, set_right.
  destruct (uadd e wi n _ g) as [c1 g1 x|c1 g1| | |] eqn:E; try exact I.
  2: { unfold uadd in E. destruct (_ <? _); [discriminate|]. destruct (debug e); [|discriminate]. injection E as <- <-. cbn. lia. }
  assert (g1 = g) as ->.
  { unfold uadd in E. destruct (_ <? _); [|destruct (debug e); [discriminate|]]; injection E; auto. }
  pose proof (write_loop_cost n it wi c1 g) as W. destruct (write_loop _ _ _ _ _ _ _) as [c2 g2 w|c2 g2| | |]; try exact I; cbn in W; [|exact W].
  destruct (x =? w); cbn; exact W.
Qed.
(** [insert_from], whatever the iterator does. *)
Lemma insert_from_cost c l g i n it : Holds N c l -> length l + n <= N -> i <= length l ->
  within (writes g + length l + n) (insert_from e N i n n it c g).
Proof.
  intros H Hn Hi. start. unfold insert_from.
  repeat (steps; try match goal with |- within _ ((if ?b then ?x else ?y) _ _) => head_if b x y end); try lia.
  all: repeat match goal with
    | |- within _ (bind (write_from_iter _ _ _ _ _) _ _ _) => apply within_bind; [eapply within_le; [apply write_from_iter_cost|cbn; lia]|intros ? ? ? ?]
    | |- within _ (bind (uadd _ _ _) _ _ _) => apply within_bind; [eapply within_le; [apply uadd_cost|cbn; lia]|intros ? ? ? ?]
    | |- within _ (bind (usub _ _ _) _ _ _) => apply within_bind; [eapply within_le; [apply usub_cost|cbn; lia]|intros ? ? ? ?]
    | |- within _ _ => cbn; assumption
    end.
Qed.
(** An iterator that yields what it announces. *)
Lemma insert_from_truthful_cost c l g i xs : Holds N c l -> length l + length xs <= N -> i <= length l ->
  post (fun _ g' _ => writes g' <= writes g + length l + length xs) (insert_from e N i (length xs) (length xs) (map Yield xs) c g).
Proof.
  intros H Hn Hi. pose proof (insert_from_cost c l g i (length xs) (map Yield xs) H Hn Hi) as C.
  pose proof (insert_from_ok e N HW c l g i (length xs) (map Yield xs) H ltac:(lia) ltac:(lia)) as P.
  unfold bl_insert_from_any in P. rewrite if_true in P by lia. rewrite (yields_all xs), Nat.eqb_refl in P.
  destruct P as (c' & g' & r & E & _). rewrite E in *. exact C.
Qed.
Lemma insert_cost c l g i v : Holds N c l -> length l < N -> i <= length l ->
  post (fun _ g' _ => writes g' <= writes g + i `max` (length l - i) + 1 /\
                      (0 < left c -> right c < N -> writes g' = writes g + i `min` (length l - i) + 1)) (insert e N i v c g).
Proof. intros H Hn Hi. start. unfold insert. count. all: split; cbn; intros; lia. Qed.
Lemma remove_cost c l g i : Holds N c l -> i < length l ->
  post (wrote (writes g + i `min` (length l - 1 - i))) (remove e N i c g).
Proof.
  intros H Hi. start. destruct (l !! i) as [a|] eqn:Ea; [|apply lookup_ge_None in Ea; lia]. unfold remove. count.
Qed.
Lemma extend_cost xs : forall c l g, Holds N c l -> length l + length xs <= N ->
  post (fun c' g' _ => writes g' + (N - 1) * slack N false c' <= writes g + length xs + (N - 1) * slack N false c /\
                       (right c + length xs <= N -> writes g' = writes g + length xs)) (extend e N (map Yield xs) c g).
Proof.
  induction xs as [|x xs IH]; intros c l g H Hl; cbn [map extend length] in *; [cbn; lia|].
  pose proof (push_back_slack e N HW c l g x H ltac:(lia)) as C.
  assert (R : right c < N -> post (fun c' g' _ => writes g' = writes g + 1 /\ right c' <= right c + 1) (push_back e N x c g)).
  { intros Hr. clear C IH. start. cbn [right] in Hr. unfold push_back. count; cbn; lia. }
  destruct (post_exists _ _ C) as (c' & g' & [] & E & H' & C'). rewrite E in R. cbn [post] in R.
  erewrite bind_Ret by exact E. specialize (IH c' (l ++ [x]) g' H'). rewrite app_length in IH. cbn [length] in IH.
  specialize (IH ltac:(lia)). destruct (extend e N (map Yield xs) c' g'); cbn in *; try contradiction.
  split; [lia|]. intros Hr. destruct R as [R1 R2]; [lia|]. destruct IH as [_ IH]. lia.
Qed.
End chunk.

Section free.
Context {A : Type} (e : env A) (N : nat).
Lemma drop_values_cost {O} vs (o : O) g : within (writes g) (drop_values e vs o g).
Proof. unfold drop_values. destruct (List.filter (bomb e) vs) as [|? []]; cbn; lia. Qed.
Lemma slots_drop_cost {O} `{HasMem A O} a n (o : O) g : within (writes g) (slots_drop e N a n o g).
Proof.
  unfold slots_drop. apply (step_bind _ (writes g)); [|lia|].
  { unfold slots_peek. destruct (_ <=? _); [|exact I]. destruct (mapM _ _); cbn; [lia|exact I]. }
  intros x o' g' Hg. erewrite bind_Ret by reflexivity. eapply within_le; [apply drop_values_cost|exact Hg].
Qed.
Lemma chunk_len_cost (c : chunk A) g : within (writes g) (len e c g).
Proof. unfold len. erewrite (bind_Ret get) by reflexivity. apply usub_cost. Qed.
Lemma drop_left_free i c g : within (writes g) (drop_left e N i c g).
Proof.
  unfold drop_left. destruct (0 <? i); [|cbn; lia]. erewrite (bind_Ret get) by reflexivity.
  apply (step_bind _ (writes g)); [apply chunk_len_cost|lia|]. intros n c1 g1 H1. destruct (i <=? n); [|exact H1].
  apply within_bind; [eapply within_le; [apply slots_drop_cost|exact H1]|]. intros u c2 g2 H2.
  apply within_bind; [eapply within_le; [apply uadd_cost|exact H2]|]. intros n' c3 g3 H3. exact H3.
Qed.
Lemma drop_right_free i c g : within (writes g) (drop_right e N i c g).
Proof.
  unfold drop_right. erewrite (bind_Ret get) by reflexivity.
  apply (step_bind _ (writes g)); [apply chunk_len_cost|lia|]. intros n c1 g1 H1. destruct (negb (i =? n)); [|exact H1].
  destruct (i <=? n); [|exact H1].
  apply within_bind; [eapply within_le; [apply slots_drop_cost|exact H1]|]. intros u c2 g2 H2.
  apply within_bind; [eapply within_le; [apply uadd_cost|exact H2]|]. intros n' c3 g3 H3. exact H3.
Qed.
Lemma clear_free c g : within (writes g) (clear e N c g).
Proof.
  unfold clear. erewrite (bind_Ret get) by reflexivity.
  apply (step_bind _ (writes g)); [apply chunk_len_cost|lia|]. intros n c1 g1 H1.
  apply within_bind; [eapply within_le; [apply slots_drop_cost|exact H1]|]. intros u c2 g2 H2. exact H2.
Qed.
End free.
