(** * [Chunk], continued: constructors, iterators, [insert_from], [clone]. *)
From Verif Require Import Machine Spec Prims ChunkModel ChunkProofs.

Section proofs.
Context {A : Type} (e : env A) (N : nat).
Hypothesis HW : N + N < word e.
Hypothesis Hcalm : calm e.
Implicit Types (c : chunk A) (l : list A) (g : log A) (v : A) (i k index count : nat).
Notation agr := (agrees (Holds N) eq).
Notation Holds2 := (both (Holds N) (Holds N)).
Ltac make_ret := eexists _, _, _; split; [reflexivity|]; split; [exact I|];
  split; [holds | split; log_eq].
Lemma insert_ordered_ok c l g v bs : Holds N c l ->
  agr g (insert_ordered e N bs v c g)
    (if length l <? N then
       match bs l v with Some i => bl_insert N i v l | None => SPanic l [v] [] end
     else SPanic l [v] []).
Proof.
  intros H. unfold insert_ordered. erewrite bind_Ret by reflexivity.
  rewrite (is_full_ok e N HW _ _ H). pose proof (holds_length e N HW _ _ H).
  assert (Hp : agr g (panic_dropping (R:=unit) e v c g) (SPanic (R:=unit) l [v] [])).
  { rewrite panic_dropping_ok by assumption. eexists _, _, []. rewrite app_nil_r. auto. }
  destruct (length l <? N) eqn:E; cbn.
  - replace (length l =? N) with false by lia.
    erewrite bind_Ret by (apply as_slice_eq; eassumption).
    destruct (bs l v); [|exact Hp]. apply insert_ok; auto.
  - replace (length l =? N) with true by lia. exact Hp.
Qed.

Lemma extend_ok it : forall c l g, Holds N c l -> agr g (extend e N it c g) (bl_extend N it l).
Proof.
  induction it as [|[a|] it IH]; intros c l g H; cbn [extend bl_extend].
  - eexists _, _, _. split; [reflexivity|]. rewrite app_nil_r. auto.
  - pose proof (push_back_ok e N HW Hcalm c l g a H) as Hp. unfold bl_push_back in Hp.
    destruct (length l <? N) eqn:E; destruct Hp as (c' & g' & r & E1 & H1 & E2 & E3 & E4).
    + rewrite (bind_Ret _ _ _ _ _ _ _ E1). rewrite app_nil_r in E3.
      apply (agrees_same _ _ g g'); auto.
    + rewrite (bind_Panic _ _ _ _ _ _ E1). exists c', g', r. auto.
  - eexists _, _, []. split; [reflexivity|]. rewrite !app_nil_r. auto.
Qed.

Lemma building {O2 S2 R R'} (H2 : O2 -> S2 -> Prop) (RR : R -> R' -> Prop) 
    (m : M A (chunk A * O2) R) (o2 : O2) g s init :
  agrees (both (Holds N) H2) RR g (m (init, o2) g) s ->
  agrees H2 (fun cr l => Holds N (fst cr) l) g (with_local init (destroy e N) m o2 g) (closing s).
Proof.
  apply with_local_agrees; [auto|]. intros. apply destroy_ret; auto.
Qed.

Lemma from_iter_ok it g :
  agrees (fun _ _ => True) (Made N) g (from_iter e N it tt g) (bl_from_iter N it).
Proof.
  unfold from_iter, bl_from_iter.
  pose proof (building (fun _ _ => True) eq (on_fst (O2:=unit) (extend e N it)) tt g _ new
    (on_fst_agrees (Holds N) (fun _ _ => True) eq (extend e N it) new tt tt g _ I
      (extend_ok it _ _ g (new_holds e N HW)))) as W.
  destruct (bl_extend N it []) as [l r d|l d k]; exact W.
Qed.


Fixpoint collecting k (it : list (ev A)) l : sres A (list A * list (ev A)) unit :=
  match k, it with
  | 0, _ => SRet (l, it) tt []
  | S _, [] => SPanic (l, []) [] []
  | S _, Boom :: it' => SPanic (l, it') [] []
  | S k', Yield a :: it' =>
      if length l <? N then collecting k' it' (l ++ [a]) else SPanic (l, it') [a] []
  end.
Lemma collecting_closed k : forall it l, closing (collecting k it l) = bl_collect N k it l.
Proof.
  induction k as [|k IH]; intros [|[a|] it] l; cbn [collecting bl_collect]; try reflexivity.
  destruct (length l <? N); [apply IH | reflexivity].
Qed.
Lemma collect_loop_ok k : forall it c l g, Holds N c l ->
  agrees (both (Holds N) eq) eq g (collect_loop e N k (c, it) g) (collecting k it l).
Proof.
  induction k as [|k IH]; intros it c l g H; cbn [collect_loop].
  - exists (c, it), g, tt. rewrite app_nil_r. repeat split; apply H.
  - erewrite (bind_Ret get) by reflexivity. destruct it as [|[a|] it]; cbn [snd collecting].
    + exists (c, []), g, []. rewrite !app_nil_r. repeat split; try reflexivity; apply H.
    + erewrite (bind_Ret (on_snd _)) by reflexivity. cbn [fst snd].
      pose proof (push_back_ok e N HW Hcalm c l g a H) as Hp. unfold bl_push_back in Hp.
      destruct (length l <? N) eqn:E; destruct Hp as (c' & g' & r & E1 & H1 & E2 & E3 & E4).
      * erewrite bind_Ret by (apply on_fst_Ret; exact E1).
        rewrite app_nil_r in E3. apply (agrees_same _ _ g g'); auto.
      * erewrite (bind_Panic (on_fst _)) by (unfold on_fst; cbn [fst snd]; rewrite E1; reflexivity).
        exists (c', it), g', r. repeat split; try assumption; apply H1.
    + erewrite (bind_Ret (on_snd _)) by reflexivity. cbn [fst snd].
      exists (c, it), g, []. rewrite !app_nil_r. repeat split; try reflexivity; apply H.
Qed.
Lemma collect_from_ok k it g :
  agrees eq (Made N) g (collect_from e N k it g) (bl_collect N k it []).
Proof.
  unfold collect_from. rewrite <- collecting_closed. eapply building.
  apply collect_loop_ok, (new_holds e N HW).
Qed.

Lemma unit_ok v g :
  agrees (fun _ _ => True) (Made N) g (unit_ e N v tt g) (bl_unit N v).
Proof.
  unfold unit_, bl_unit. destruct (1 <=? N) eqn:E.
  - eapply agrees_Ret; [eapply with_local_Ret; unfold force_write; prim|]. make_ret.
  - rewrite panic_dropping_ok by assumption. eexists _, _, []. rewrite app_nil_r. auto.
Qed.
Lemma pair_ok v1 v2 g :
  agrees (fun _ _ => True) (Made N) g (pair_ e N v1 v2 tt g) (bl_pair N v1 v2).
Proof.
  unfold pair_, bl_pair. destruct (2 <=? N) eqn:E.
  - eapply agrees_Ret; [eapply with_local_Ret; rewrite on_fst_bind; unfold force_write|].
    + exec.
    + make_ret.
  - rewrite Hcalm, panic_dropping_ok by assumption. eexists _, _, [].
    split; [reflexivity|]. split; [exact I|]. split; [log_eq|]. split; [log_eq|reflexivity].
Qed.

Lemma write_loop_ok k : forall it wi c g, wi + k <= N ->
  (forall p, wi <= p < wi + k -> cdata c p = None) ->
  exists m', (forall p, m' p = if (wi <=? p) && (p <? wi + length (yields k it))
                               then yields k it !! (p - wi) else cdata c p) /\
   (write_loop e N k it wi c g =
      Ret (Chunk (left c) (right c) m') (log_write (length (yields k it)) g) (wi + length (yields k it)) \/
    (length (yields k it) < k /\
     write_loop e N k it wi c g =
      bind (slots_forget N 0 0) (fun _ => panic) (Chunk (left c) (right c) m')
        (log_write (length (yields k it)) g))).
Proof.
  assert (Hlw : forall x y g, log_write x (log_write y g) = log_write (y + x) g).
  { intros x y [d lk w]. unfold log_write. cbn. f_equal. lia. }
  assert (Hl0 : forall g, log_write 0 g = g).
  { intros [d lk w]. unfold log_write. cbn. f_equal. lia. }
  induction k as [|k IH]; intros it wi c g Hk Hn.
  { exists (cdata c). cbn [yields length]. split.
    - intros p. pw.
    - left. destruct it as [|[]]; cbn [write_loop]; rewrite Hl0, Nat.add_0_r; destruct c; reflexivity. }
  destruct it as [|[a|] it]; cbn [yields length write_loop].
  - exists (cdata c). split; [intros p; pw|]. left. rewrite Hl0, Nat.add_0_r; destruct c; reflexivity.
  - unfold force_write. erewrite bind_Ret by (apply slot_write_ok; [lia | apply Hn; lia]).
    erewrite bind_Ret by (apply uadd_ok; lia).
    destruct (IH it (wi + 1) (Chunk (left c) (right c) (upd (cdata c) wi (Some a))) (log_write 1 g))
      as (m' & Hm' & HR); [lia | |].
    { intros p Hp. cbn. unfold upd. split_if. apply Hn. lia. }
    exists m'. split.
    { intros p. rewrite Hm'. cbn [cdata]. unfold upd. pw. }
    rewrite Hlw in HR. cbn [left right] in HR.
    replace (wi + S (length (yields k it))) with (wi + 1 + length (yields k it)) by lia.
    replace (S (length (yields k it))) with (1 + length (yields k it)) by lia.
    destruct HR as [HR|[HR1 HR]]; [left|right; split; [lia|]]; exact HR.
  - exists (cdata c). split; [intros p; pw|]. right. split; [lia|]. rewrite Hl0; destruct c; reflexivity.
Qed.

(** [l1], then a gap of [n] free slots, then [l2]; [l1] starts at slot [a]. *)
Definition Gap (c : chunk A) (a : nat) l1 (n : nat) l2 : Prop :=
  a + length l1 + n + length l2 <= N /\
  forall p, cdata c p = if p <? a + length l1 then (if a <=? p then l1 !! (p - a) else None)
                        else if p <? a + length l1 + n then None else l2 !! (p - (a + length l1 + n)).

Lemma write_from_iter_ok it n a l1 l2 c g : Gap c a l1 n l2 -> n < word e ->
  let ys := yields n it in
  (length ys = n ->
     exists m' g', write_from_iter e N (a + length l1) n it c g = Ret (Chunk (left c) (right c) m') g' tt /\
     dropped g' = dropped g /\ leaked g' = leaked g /\
     forall p, m' p = if a <=? p then (l1 ++ ys ++ l2) !! (p - a) else None) /\
  (length ys <> n ->
     exists c' g', write_from_iter e N (a + length l1) n it c g = Panic c' g' /\
     Holds N c' [] /\ dropped g' = dropped g /\ leaked g' = leaked g ++ l1 ++ ys ++ l2).
Proof.
  intros [Hfit Hm] Hn ys. pose proof (yields_length n it) as Hy. fold ys in Hy.
  destruct (write_loop_ok n it (a + length l1) (Chunk 0 0 (cdata c)) g) as (m' & Hm' & HR); [lia| |].
  { intros p Hp. cbn. rewrite Hm. pw. }
  fold ys in Hm', HR. cbn [cdata left right] in Hm', HR.
  assert (Hm2 : forall p, m' p = if p <? a + length l1 + length ys 
                 then (if a <=? p then (l1 ++ ys) !! (p - a) else None)
                 else if p <? a + length l1 + n then None else l2 !! (p - (a + length l1 + n))).
  { intros p. rewrite Hm', Hm. pw. }
  assert (Hforget : forall g, exists c' g', slots_forget N 0 0 (Chunk 0 0 m') g = Ret c' g' tt /\
     Holds N c' [] /\ dropped g' = dropped g /\ leaked g' = leaked g ++ l1 ++ ys ++ l2).
  { intros g0. unfold slots_forget. cbn [getm setm chunk_mem cdata left right].
    eexists _, _. split; [reflexivity|]. split; [|split].
    - unfold Holds. cbn [left right cdata length]. split; [lia|]. split; [lia|]. intros p. pw.
    - reflexivity.
    - cbn [leaked log_leak]. f_equal.
      rewrite (omap_ext' _ m') by (intros; unfold mclear; pw).
      replace N with ((a + length l1 + length ys) + (N - (a + length l1 + length ys))) by lia.
      rewrite seq_app, omap_app'. cbn [plus]. rewrite app_assoc. f_equal.
      + apply (omap_range _ _ _ a); [lia | lookups; lia |].
        intros p Hp. rewrite Hm2. pw.
      + apply (omap_range _ _ _ (a + length l1 + n)); [lia | lia |].
        intros p Hp. rewrite Hm2. pw. }
  unfold write_from_iter. erewrite (bind_Ret get) by reflexivity.
  erewrite (bind_Ret (set_left 0)) by reflexivity. erewrite (bind_Ret (set_right 0)) by reflexivity.
  erewrite bind_Ret by (apply uadd_ok; lia). cbn [left right cdata].
  split; intros Hys.
  - destruct HR as [HR|[HR1 HR]]; [|lia].
    rewrite (bind_Ret _ _ _ _ _ _ _ HR). replace (_ =? _) with true by lia.
    eexists _, _. split; [reflexivity|]. split; [reflexivity|]. split; [reflexivity|].
    intros p. rewrite Hm2. pw.
  - destruct HR as [HR|[HR1 HR]].
    + rewrite (bind_Ret _ _ _ _ _ _ _ HR). replace (_ =? _) with false by lia.
      destruct (Hforget (log_write (length ys) g)) as (c' & g' & E & H1 & H2 & H3).
      exists c', g'. rewrite bind_bind, (bind_Ret _ _ _ _ _ _ _ E), bind_panic. auto.
    + destruct (Hforget (log_write (length ys) g)) as (c' & g' & E & H1 & H2 & H3).
      exists c', g'. rewrite (bind_Ret _ _ _ _ _ _ _ E) in HR.
      rewrite (bind_Panic _ _ _ _ _ _ HR). auto.
Qed.
Lemma insert_from_ok c l g i n it : Holds N c l -> n < word e ->
  length l + n < word e \/ debug e = true ->
  agr g (insert_from e N i n n it c g) (bl_insert_from_any N i n it l).
Proof.
  intros H Hn Hov. unfold insert_from, bl_insert_from_any.
  erewrite bind_Ret by (apply (len_eq e N HW); eassumption).
  assert (Hp : agr g (Panic (R:=unit) c g) (SPanic (R:=unit) l [] [])).
  { eexists _, _, []. rewrite !app_nil_r. auto. }
  pose proof (holds_length e N HW _ _ H) as HlN.
  destruct (length l + n <? word e) eqn:Eov.
  2: { replace ((length l + n <=? N) && (i <=? length l)) with false by lia.
       unfold uadd, bind. rewrite Eov. destruct Hov as [|Hd]; [lia|]. rewrite Hd. exact Hp. }
  erewrite bind_Ret by (apply uadd_ok; lia).
  destruct (length l + n <=? N) eqn:EN; [|replace (N <? length l + n) with true by lia; exact Hp].
  replace (N <? length l + n) with false by lia.
  destruct (i <=? length l) eqn:Ei; [|replace (length l <? i) with true by lia; exact Hp].
  replace (length l <? i) with false by lia. cbn [andb].
  assert (Hperm : Permutation (l ++ yields n it) (take i l ++ yields n it ++ drop i l)).
  { rewrite <- (take_drop i l) at 1. rewrite <- app_assoc. apply Permutation_app_head.
    apply Permutation_app_comm. }
  assert (fin : forall (c1 : chunk A) g1 a (k : unit -> M A (chunk A) unit) rt',
     dropped g1 = dropped g -> leaked g1 = leaked g ->
     Gap c1 a (take i l) n (drop i l) ->
     (forall m' g', exists g'', k tt (Chunk (left c1) (right c1) m') g' = Ret (Chunk a rt' m') g'' tt
         /\ dropped g'' = dropped g' /\ leaked g'' = leaked g') ->
     rt' = a + (length l + n) ->
     agr g (bind (write_from_iter e N (a + i) n it) k c1 g1)
       (if length (yields n it) =? n
        then SRet (take i l ++ yields n it ++ drop i l) tt []
        else SPanic [] [] (l ++ yields n it))).
  { intros c1 g1 a k rt' D1 L1 HG Hk Hrt.
    destruct (write_from_iter_ok it n a (take i l) (drop i l) c1 g1 HG Hn) as [W1 W2].
    rewrite take_length in W1, W2. replace (i `min` length l) with i in W1, W2 by lia.
    destruct HG as [HG _]. rewrite take_length, drop_length in HG.
    pose proof (yields_length n it).
    destruct (length (yields n it) =? n) eqn:Ey.
    - destruct (W1 ltac:(lia)) as (m' & g' & E & D2 & L2 & Hm').
      rewrite (bind_Ret _ _ _ _ _ _ _ E).
      destruct (Hk m' g') as (g'' & E' & D3 & L3). rewrite E'.
      eexists _, _, _. split; [reflexivity|]. split; [|split; [reflexivity|]].
      + split; [|split]; cbn [left right cdata]; [lookups; lia | lia | exact Hm'].
      + rewrite D3, L3, D2, L2, D1, L1, app_nil_r. auto.
    - destruct (W2 ltac:(lia)) as (c' & g' & E & H' & D2 & L2).
      rewrite (bind_Panic _ _ _ _ _ _ E). exists c', g', (take i l ++ yields n it ++ drop i l).
      rewrite D2, L2, D1, L1, app_nil_r. auto. }
  clear Hp Hperm. start. exec.
  all: match goal with |- agr _ (bind (write_from_iter _ _ ?w _ _) _ _ _) _ =>
         first [ replace w with ((lf - n) + i) by lia; apply (fin _ _ (lf - n) _ ((lf - n) + (length l + n)))
               | replace w with (lf + i) by lia; apply (fin _ _ lf _ (lf + (length l + n)))
               | replace w with (0 + i) by lia; apply (fin _ _ 0 _ (0 + (length l + n))) ] end;
    [ reflexivity | reflexivity
    | split; [lookups; lia | intros p; mem_unfold; pw]
    | intros m' g'; cbn beta; exec;
      eexists; split; [unfold set_left, set_right; cbn [left right cdata]; f_equal; f_equal; lia | split; reflexivity]
    | lia ].
Qed.
End proofs.
