(** * Iterators that never end.

    A finite script [p ++ rest] stands for an iterator whose first events are [p].  When the outcome is the same for
    every [rest], nothing behind [p] is asked for, so an endless iterator that starts with [p] has this outcome too. *)
From Verif Require Import Machine Spec Prims IterSpec ChunkModel ChunkProofs ChunkProofs2
  RingModel RingProofs RingProofs2 RingProofs3 RingProofs4 SparseModel SparseSpec SparseProofs SparseProofs2.
From Verif Require InlineModel InlineSpec InlineProofs InlineProofs2 InlineProofs3.

Lemma bl_extend_full {A} N (p : list (ev A)) : forall l, length l <= N -> N < length l + length p ->
  exists d, bl_extend N p l = SPanic (l ++ yields (N - length l) p) d [].
Proof.
  induction p as [|[a|] p IH]; intros l Hl Hp; cbn [length bl_extend] in *.
  - lia.
  - destruct (length l <? N) eqn:E.
    + destruct (IH (l ++ [a])) as (d & Q); [rewrite app_length; cbn; lia|rewrite app_length; cbn; lia|].
      exists d. rewrite Q. f_equal. rewrite <- app_assoc. f_equal. rewrite app_length. cbn.
      replace (N - length l) with (S (N - (length l + 1))) by lia. reflexivity.
    + exists [a]. replace (N - length l) with 0 by lia. cbn. rewrite app_nil_r. reflexivity.
  - exists []. destruct (N - length l); cbn; rewrite app_nil_r; reflexivity.
Qed.
Lemma on_fst_Panic' {A O1 O2 R} (m : M A O1 R) (o : O1 * O2) g o' g' : m (fst o) g = Panic o' g' ->
  on_fst m o g = Panic (o', snd o) g'.
Proof. intros E. unfold on_fst. rewrite E. reflexivity. Qed.
Lemma agrees_panics {A O S R R'} (H : O -> S -> Prop) (RR : R -> R' -> Prop) (g : log A) x s d k :
  agrees H RR g x (SPanic s d k) -> exists o' g', x = Panic o' g' /\ H o' s.
Proof. intros (o' & g' & k' & E & Ho & _). eauto. Qed.

Lemma bind_ext {A O R T} (m : M A O R) (k k' : R -> M A O T) o g : (forall r o g, k r o g = k' r o g) ->
  bind m k o g = bind m k' o g.
Proof. intros H. unfold bind. destruct (m o g); auto. Qed.
Lemma bind_eq {A O R T} (m m' : M A O R) (k k' : R -> M A O T) o g : (forall o g, m o g = m' o g) ->
  (forall r o g, k r o g = k' r o g) -> bind m k o g = bind m' k' o g.
Proof. intros E H. unfold bind. rewrite E. destruct (m' o g); auto. Qed.
Lemma bind_get {A O T} (k k' : O -> M A O T) o g : k o o g = k' o o g -> bind get k o g = bind get k' o g.
Proof. auto. Qed.

(** ** Chunk. *)
Section chunk.
Context {A : Type} (e : env A) (N : nat).
Lemma extend_prefix p rest : forall c g c' g', extend e N p c g = Panic c' g' -> extend e N (p ++ rest) c g = Panic c' g'.
Proof.
  induction p as [|[a|] p IH]; intros c g c' g'; cbn [extend app].
  - discriminate.
  - unfold bind. destruct (push_back e N a c g); auto.
  - auto.
Qed.
Lemma write_loop_prefix rest k : forall p w c g, k <= length p ->
  write_loop e N k (p ++ rest) w c g = write_loop e N k p w c g.
Proof.
  induction k as [|k IH]; intros p w c g Hk; cbn [write_loop].
  - destruct p as [|[a|] p]; cbn [app]; destruct rest as [|[b|] rest]; reflexivity.
  - destruct p as [|[a|] p]; cbn [app length] in *; [lia| |reflexivity].
    apply bind_ext. intros _ c1 g1. apply bind_ext. intros wi c2 g2. apply IH. lia.
Qed.
(** [insert_from] asks for as many items as the iterator announces. *)
Lemma insert_from_prefix i n1 n2 p rest c g : n2 <= length p ->
  insert_from e N i n1 n2 (p ++ rest) c g = insert_from e N i n1 n2 p c g.
Proof.
  intros Hp. assert (W : forall w c g, write_from_iter e N w n2 (p ++ rest) c g = write_from_iter e N w n2 p c g).
  { intros w c0 g0. unfold write_from_iter.
    repeat (first [apply bind_eq; [intros; apply write_loop_prefix, Hp|] | apply bind_ext]; intros). reflexivity. }
  unfold insert_from.
  repeat first [reflexivity | apply W | apply bind_eq; [intros; apply W|intros] | apply bind_ext; intros
               | match goal with |- context [if ?b then _ else _] => destruct b end].
Qed.
Lemma collect_loop_prefix rest k : forall c p g,
  match collect_loop e N k (c, p) g with
  | Ret s g' r => collect_loop e N k (c, p ++ rest) g = Ret (fst s, snd s ++ rest) g' r
  | Panic s g' => k <= length p -> collect_loop e N k (c, p ++ rest) g = Panic (fst s, snd s ++ rest) g'
  | _ => True
  end.
Proof.
  induction k as [|k IH]; intros c p g; cbn [collect_loop]; [reflexivity|].
  destruct p as [|[a|] p].
  - cbn. lia.
  - unfold bind, get, on_snd, put, on_fst; cbn [fst snd app].
    destruct (push_back e N a c g) as [c1 g1 r|c1 g1|u| |]; cbn [fst snd]; auto.
    specialize (IH c1 p g1). destruct (collect_loop e N k (c1, p) g1); auto. cbn. intros. apply IH. lia.
  - cbn. auto.
Qed.
Lemma collect_from_prefix k p rest g :
  match collect_from e N k p g with
  | Ret it g' r => collect_from e N k (p ++ rest) g = Ret (it ++ rest) g' r
  | Panic it g' => k <= length p -> collect_from e N k (p ++ rest) g = Panic (it ++ rest) g'
  | _ => True
  end.
Proof.
  pose proof (collect_loop_prefix rest k new p g) as P. unfold collect_from, with_local.
  destruct (collect_loop e N k (new, p) g) as [s g' r|s g'|u| |]; auto.
  - rewrite P. reflexivity.
  - destruct (destroy e N (fst s) g') eqn:E; auto. intros Hk. rewrite (P Hk). cbn [fst snd]. rewrite E. reflexivity.
Qed.
Hypothesis HW : N + N < word e.
Hypothesis Hcalm : calm e.
Theorem extend_endless p c l g : Holds N c l -> N < length l + length p ->
  exists c' g', (forall rest, extend e N (p ++ rest) c g = Panic c' g') /\ Holds N c' (l ++ yields (N - length l) p).
Proof.
  intros H Hp. assert (Hl : length l <= N) by (destruct H as (H1 & H2 & _); lia).
  destruct (bl_extend_full N p l Hl Hp) as (d & E).
  pose proof (extend_ok e N HW Hcalm p c l g H) as P. rewrite E in P. destruct (agrees_panics _ _ _ _ _ _ _ P) as (c' & g' & Q & Hc).
  exists c', g'. split; [|exact Hc]. intros rest. apply extend_prefix, Q.
Qed.
Theorem from_iter_endless p g : N < length p ->
  exists g', forall rest, from_iter e N (p ++ rest) tt g = Panic tt g'.
Proof.
  intros Hp. destruct (extend_endless p new [] g (new_holds e N HW) Hp) as (c' & g' & E & H).
  destruct (destroy_ok e N HW Hcalm c' _ g' H) as (c2 & g2 & [] & E2 & _).
  exists g2. intros rest. unfold from_iter, with_local. rewrite (on_fst_Panic' _ (new, tt) g c' g' (E rest)). cbn [fst snd].
  rewrite E2. reflexivity.
Qed.
End chunk.

(** ** RingBuffer. *)
Section ring.
Context {A : Type} (e : env A) (N : nat).
Lemma rb_extend_prefix p rest : forall c g c' g', rb_extend e N p c g = Panic c' g' -> rb_extend e N (p ++ rest) c g = Panic c' g'.
Proof.
  induction p as [|[a|] p IH]; intros c g c' g'; cbn [rb_extend app].
  - discriminate.
  - unfold bind. destruct (rb_push_back e N a c g); auto.
  - auto.
Qed.
Lemma fill_loop_prefix rest k : forall p i j c g, k <= length p ->
  fill_loop e N k (p ++ rest) i j c g = fill_loop e N k p i j c g.
Proof.
  induction k as [|k IH]; intros p i j c g Hk; cbn [fill_loop].
  - destruct p as [|[a|] p]; cbn [app]; destruct rest as [|[b|] rest]; reflexivity.
  - destruct p as [|[a|] p]; cbn [app length] in *; [lia| |reflexivity].
    apply bind_ext. intros _ c1 g1. apply bind_ext. intros wi c2 g2. apply bind_ext. intros x c3 g3. apply IH. lia.
Qed.
(** In front of the end [insert_from] asks for as many items as the iterator announces. *)
Lemma rb_insert_from_prefix i n p rest c g : n <= length p -> i <> rlen c ->
  rb_insert_from e N i n (p ++ rest) c g = rb_insert_from e N i n p c g.
Proof.
  intros Hp Hi. unfold rb_insert_from. apply bind_get. apply bind_ext; intros.
  destruct (_ <? _); [reflexivity|]. destruct (_ <? _); [reflexivity|].
  destruct (i =? rlen c) eqn:E; [apply Nat.eqb_eq in E; contradiction|].
  apply bind_ext; intros. apply bind_ext; intros. apply bind_ext; intros. apply bind_ext; intros. apply bind_ext; intros.
  apply bind_eq; [intros; apply fill_loop_prefix, Hp|]. intros. reflexivity.
Qed.
Lemma rb_take_loop_prefix rest k : forall c p g,
  match rb_take_loop e N k (c, p) g with
  | Ret s g' r => k <= length p -> rb_take_loop e N k (c, p ++ rest) g = Ret (fst s, snd s ++ rest) g' r
  | Panic s g' => rb_take_loop e N k (c, p ++ rest) g = Panic (fst s, snd s ++ rest) g'
  | _ => True
  end.
Proof.
  induction k as [|k IH]; intros c p g; cbn [rb_take_loop]; [intros _; reflexivity|].
  destruct p as [|[a|] p].
  - cbn. lia.
  - unfold bind, get, on_snd, put, on_fst; cbn [fst snd app].
    destruct (rb_push_back e N a c g) as [c1 g1 r|c1 g1|u| |]; cbn [fst snd]; auto.
    specialize (IH c1 p g1). destruct (rb_take_loop e N k (c1, p) g1); auto. cbn. intros. apply IH. lia.
  - cbn. auto.
Qed.
Hypothesis HW : N + N < word e.
Hypothesis HN : 0 < N.
Lemma rb_collect_from_prefix k p rest g : k <= length p ->
  match rb_collect_from e N k p g with
  | Ret it g' r => rb_collect_from e N k (p ++ rest) g = Ret (it ++ rest) g' r
  | Panic it g' => rb_collect_from e N k (p ++ rest) g = Panic (it ++ rest) g'
  | _ => True
  end.
Proof.
  intros Hk. unfold rb_collect_from.
  erewrite (bind_Ret (rb_new e N) _ p) by (apply rb_new_eq; assumption).
  erewrite (bind_Ret (rb_new e N) _ (p ++ rest)) by (apply rb_new_eq; assumption).
  pose proof (rb_take_loop_prefix rest k ring0 p g) as P. unfold with_local.
  destruct (rb_take_loop e N k (ring0, p) g) as [s g' r|s g'|u| |] eqn:E.
  - specialize (P Hk). erewrite (bind_Ret _ _ (ring0, p)) by exact E. erewrite (bind_Ret _ _ (ring0, p ++ rest)) by exact P.
    destruct s as [r0 it]. unfold bind, get. cbn [fst snd].
    destruct (rlen r0 <? k); cbn [fst snd].
    + unfold panic. cbn [fst snd]. destruct (rb_destroy e N r0 g'); auto.
    + reflexivity.
  - erewrite (bind_Panic _ _ (ring0, p)) by exact E. erewrite (bind_Panic _ _ (ring0, p ++ rest)) by exact P.
    cbn [fst snd]. destruct (rb_destroy e N (fst s) g'); auto.
  - unfold bind. rewrite E. exact I.
  - unfold bind. rewrite E. exact I.
  - unfold bind. rewrite E. exact I.
Qed.
Hypothesis Hcalm : calm e.
Theorem rb_extend_endless p c l g : RHolds N c l -> N < length l + length p ->
  exists c' g', (forall rest, rb_extend e N (p ++ rest) c g = Panic c' g') /\ RHolds N c' (l ++ yields (N - length l) p).
Proof.
  intros H Hp. assert (Hl : length l <= N) by (pose proof (rholds_length N c l H); destruct H as (_ & H1 & H2 & _); lia).
  destruct (bl_extend_full N p l Hl Hp) as (d & E).
  pose proof (rb_extend_ok e N HW HN Hcalm p c l g H) as P. rewrite E in P. destruct (agrees_panics _ _ _ _ _ _ _ P) as (c' & g' & Q & Hc).
  exists c', g'. split; [|exact Hc]. intros rest. apply rb_extend_prefix, Q.
Qed.
Theorem rb_from_iter_endless p g : N < length p ->
  exists g', forall rest, rb_from_iter e N (p ++ rest) tt g = Panic tt g'.
Proof.
  intros Hp. destruct (rb_extend_endless p ring0 [] g (ring0_holds N HN) Hp) as (c' & g' & E & H).
  destruct (rb_destroy_ok e N HW HN Hcalm c' _ g' H) as (c2 & g2 & [] & E2 & _).
  exists g2. intros rest. unfold rb_from_iter. erewrite bind_Ret by (apply rb_new_eq; assumption).
  unfold with_local. rewrite (on_fst_Panic' _ (ring0, tt) g c' g' (E rest)). cbn [fst snd].
  rewrite E2. reflexivity.
Qed.
End ring.

(** ** SparseChunk. *)
Section sparse.
Context {A : Type} (e : env A) (N : nat).
Lemma sp_from_iter_loop_prefix p rest : forall i s g s' g', sp_from_iter_loop e N p i s g = Panic s' g' ->
  sp_from_iter_loop e N (p ++ rest) i s g = Panic s' g'.
Proof.
  induction p as [|[[a|]|] p IH]; intros i s g s' g'; cbn [sp_from_iter_loop app].
  - discriminate.
  - unfold bind. destruct (on_fst (sp_insert e N i a) s g) as [s1 g1 r1|s1 g1|u| |]; auto.
    destruct (on_fst (drop_values e (option_list r1)) s1 g1); auto.
  - apply IH.
  - auto.
Qed.
Hypothesis Hcalm : calm e.
(** An occupied item at a position that does not exist ends it all. *)
Theorem sp_from_iter_endless p k v g : N <= k -> p !! k = Some (Yield (Some v)) ->
  exists g', forall rest, sp_from_iter e N (p ++ rest) tt g = Panic tt g'.
Proof.
  intros Hk Hv.
  assert (F : forall p i (s : list (option A)), length s = N -> (exists j, N <= i + j /\ p !! j = Some (Yield (Some v))) ->
    exists s' d k', ar_fill p i s = SPanic s' d k').
  { clear. intros p. induction p as [|[[a|]|] p IH]; intros i s Hs (j & Hj & Ej); cbn [ar_fill]; [discriminate| | |eauto].
    - destruct (i <? length s) eqn:E; [|eauto]. destruct j as [|j]; [lia|]. apply IH; [rewrite insert_length; exact Hs|].
      exists j. split; [lia|exact Ej].
    - destruct j as [|j]; [discriminate|]. apply IH; [exact Hs|]. exists j. split; [lia|exact Ej]. }
  destruct (F p 0 (no_cells N) (replicate_length _ _)) as (s' & d & k' & E); [exists k; auto|].
  pose proof (sp_from_iter_loop_ok e N Hcalm p 0 sparse0 _ g (sparse0_holds N) (fun j _ Hj => no_cells_lookup N j Hj)) as P.
  rewrite E in P. destruct P as ([c' []] & g' & k2 & Q & [Hc _] & _). cbn [fst snd] in Hc.
  destruct (sp_destroy_ok e N c' s' g' Hcalm Hc) as (c2 & g2 & [] & E2 & _).
  exists g2. intros rest. unfold sp_from_iter, sp_new. rewrite bind_ret. unfold with_local.
  rewrite (sp_from_iter_loop_prefix p rest 0 _ _ _ _ Q). cbn [fst snd]. rewrite E2. reflexivity.
Qed.
Theorem sp_from_iter_goes_on p g : (forall k, N <= k -> k < length p -> p !! k = Some (Yield None)) -> (forall k, p !! k <> Some Boom) ->
  exists g' r, sp_from_iter e N p tt g = Ret tt g' r.
Proof.
  intros H1 H2.
  assert (F : forall p i (s : list (option A)), length s = N -> (forall k, N <= i + k -> k < length p -> p !! k = Some (Yield None)) ->
    (forall k, p !! k <> Some Boom) -> exists s', ar_fill p i s = SRet s' tt []).
  { clear. intros p. induction p as [|[[a|]|] p IH]; intros i s Hs P1 P2; cbn [ar_fill].
    - eauto.
    - destruct (i <? length s) eqn:E.
      + apply IH; [rewrite insert_length; exact Hs| |intros k; exact (P2 (S k))]. intros k K1 K2. apply (P1 (S k)); cbn; lia.
      + exfalso. specialize (P1 0). cbn in P1. discriminate P1; lia.
    - apply IH; [exact Hs| |intros k; exact (P2 (S k))]. intros k K1 K2. apply (P1 (S k)); cbn; lia.
    - exfalso. exact (P2 0 eq_refl). }
  destruct (F p 0 (no_cells N) (replicate_length _ _)) as (s' & E); [exact H1|exact H2|].
  pose proof (sp_from_iter_loop_ok e N Hcalm p 0 sparse0 _ g (sparse0_holds N) (fun j _ Hj => no_cells_lookup N j Hj)) as P.
  rewrite E in P. destruct P as ([c' []] & g' & r & Q & _).
  exists g', (c', r). unfold sp_from_iter, sp_new. rewrite bind_ret. unfold with_local. rewrite Q. reflexivity.
Qed.
End sparse.

(** ** InlineArray. *)
Section inline.
Import InlineModel InlineSpec.
Context {A : Type} (e : env A) (L : layout).
Hypothesis WF : wf_layout e L.
Hypothesis HOST : host_ok e L.
Lemma ia_extend_prefix b p rest : forall c g c' g', ia_extend e L b p c g = Panic c' g' -> ia_extend e L b (p ++ rest) c g = Panic c' g'.
Proof.
  induction p as [|[a|] p IH]; intros c g c' g'; cbn [ia_extend app].
  - discriminate.
  - unfold bind. destruct (ia_push e L b a c g); auto.
  - auto.
Qed.
Hypothesis Hcalm : calm e.
Theorem ia_extend_endless b p c l g : placed L b -> InlineProofs2.IHolds e L c l -> capacity e L < length l + length p ->
  exists c' g', (forall rest, ia_extend e L b (p ++ rest) c g = Panic c' g') /\
    InlineProofs2.IHolds e L c' (l ++ yields (capacity e L - length l) p).
Proof.
  intros Hb H Hp. assert (Hl : length l <= capacity e L) by apply H.
  destruct (bl_extend_full _ p l Hl Hp) as (d & E).
  pose proof (InlineProofs2.extend_ok e L WF HOST Hcalm b p Hb c l g H) as P. rewrite E in P. destruct (agrees_panics _ _ _ _ _ _ _ P) as (c' & g' & Q & Hc).
  exists c', g'. split; [|exact Hc]. intros rest. apply ia_extend_prefix, Q.
Qed.
Theorem ia_from_iter_endless b p g : placed L b -> capacity e L < length p ->
  exists g', forall rest, ia_from_iter e L b (p ++ rest) tt g = Panic tt g'.
Proof.
  intros Hb Hp. destruct (InlineProofs2.new_ok e L WF HOST b tt g Hb) as (c & En & H).
  destruct (ia_extend_endless b p c [] g Hb H Hp) as (c' & g' & E & H').
  destruct (InlineProofs2.destroy_ok e L WF HOST Hcalm b c' _ g' Hb H') as (c2 & E2).
  eexists. intros rest. unfold ia_from_iter. erewrite bind_Ret by exact En.
  unfold with_local. rewrite (on_fst_Panic' _ (c, tt) g c' g' (E rest)). cbn [fst snd].
  rewrite E2. reflexivity.
Qed.
End inline.
