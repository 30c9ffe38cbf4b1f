(** * Proofs about StreamModel.v. *)
From Verif Require Import Machine Spec Prims StreamModel StreamSpec.

Section stream.
Context {O : Type} (write : list nat -> M nat O nat) (read : list nat -> M nat O (list nat * nat)).
Context (N : nat) (P : Prop) (H : O -> list nat -> Prop).
Hypothesis Hcap : forall o l, H o l -> length l <= N.
Hypothesis Hwrite : forall o l g buf, H o l ->
  agrees H eq g (write buf o g) (SRet (l ++ take (N - length l) buf) (length buf `min` (N - length l)) []) \/
  (P /\ 0 < length buf `min` (N - length l) /\ write buf o g = Panic o g).
Hypothesis Hread : forall o l g buf, H o l ->
  agrees H eq g (read buf o g) (let n := length buf `min` length l in SRet (drop n l) (take n l ++ drop n buf, n) []).

Definition fine (g g' : log nat) := dropped g' = dropped g /\ leaked g' = leaked g.
Lemma fine_refl g : fine g g. Proof. split; reflexivity. Qed.
Lemma fine_trans g1 g2 g3 : fine g1 g2 -> fine g2 g3 -> fine g1 g3.
Proof. intros [H1 H2] [H3 H4]. split; congruence. Qed.
(** A call either did what the queue does, or panicked and changed nothing. *)
Definition did {R} (g : log nat) (x : outcome nat O R) (o : O) (q' : list nat) (r : R) (cond : Prop) : Prop :=
  (exists o' g', x = Ret o' g' r /\ H o' q' /\ fine g g') \/ (P /\ cond /\ x = Panic o g).

Lemma Hwrite' o l g buf : H o l ->
  did g (write buf o g) o (l ++ take (N - length l) buf) (length buf `min` (N - length l)) (0 < length buf `min` (N - length l)).
Proof.
  intros Hl. destruct (Hwrite o l g buf Hl) as [(o' & g' & r & E & H' & -> & D & L)|?]; [left|right; assumption].
  rewrite app_nil_r in D. exists o', g'. split; [exact E|]. split; [exact H'|]. split; assumption.
Qed.
Lemma Hread' o l g buf : H o l -> exists o' g', read buf o g =
    Ret o' g' (take (length buf `min` length l) l ++ drop (length buf `min` length l) buf, length buf `min` length l) /\
  H o' (drop (length buf `min` length l) l) /\ fine g g'.
Proof.
  intros Hl. destruct (Hread o l g buf Hl) as (o' & g' & r & E & H' & -> & D & L). rewrite app_nil_r in D.
  exists o', g'. split; [exact E|]. split; [exact H'|]. split; assumption.
Qed.

Lemma write_all_ok o l g buf : H o l ->
  did g (write_all write (S (length buf)) buf o g) o (l ++ take (N - length l) buf) (length buf <=? N - length l)
    (buf <> [] /\ length l < N).
Proof.
  intros Hl. pose proof (Hcap o l Hl). destruct buf as [|b buf]; [left|].
  { exists o, g. rewrite take_nil, app_nil_r. split; [reflexivity|]. split; [exact Hl|apply fine_refl]. }
  set (bs := b :: buf) in *. assert (Hbs : 0 < length bs) by (cbn; lia).
  assert (W : forall f, write_all write (S f) bs = (let! n := write bs in
     if n =? 0 then ret false else if length bs <? n then panic else write_all write f (drop n bs))) by reflexivity.
  rewrite W. destruct (Hwrite' o l g bs Hl) as [(o1 & g1 & E1 & H1 & F1)|(HP & Hr & E1)].
  2:{ right. split; [exact HP|]. split; [split; [discriminate|lia]|]. unfold bind. rewrite E1. reflexivity. }
  left. erewrite bind_Ret by exact E1.
  destruct (length bs `min` (N - length l) =? 0) eqn:E0.
  { exists o1, g1. replace (length bs <=? N - length l) with false by lia. auto. }
  rewrite if_false by lia.
  destruct (length bs <=? N - length l) eqn:El.
  { replace (drop (length bs `min` (N - length l)) bs) with (@nil nat) by (symmetry; apply drop_ge; lia).
    exists o1, g1. split; [destruct bs; [cbn in Hbs; lia|reflexivity]|]. auto. }
  (* the second write *)
  assert (Hd : length (drop (length bs `min` (N - length l)) bs) = length bs - (N - length l)) by (rewrite drop_length; lia).
  destruct (length bs) as [|m] eqn:Em; [lia|].
  destruct (drop (S m `min` (N - length l)) bs) as [|b2 bs2] eqn:Ed; [cbn in Hd; lia|].
  assert (L1 : length (l ++ take (N - length l) bs) = N) by (rewrite app_length, take_length; lia).
  destruct (Hwrite' o1 _ g1 (b2 :: bs2) H1) as [(o2 & g2 & E2 & H2 & F2)|(HP & Hr & _)]; [|rewrite L1 in Hr; lia].
  rewrite L1 in E2, H2. rewrite Nat.sub_diag in E2, H2. rewrite Nat.min_0_r in E2. rewrite take_0, app_nil_r in H2.
  exists o2, g2. split; [|split; [exact H2|eapply fine_trans; eassumption]].
  change (write_all write (S m) (b2 :: bs2) o1 g1) with ((let! n := write (b2 :: bs2) in
     if n =? 0 then ret false else if length (b2 :: bs2) <? n then panic else write_all write m (drop n (b2 :: bs2))) o1 g1).
  erewrite bind_Ret by exact E2. reflexivity.
Qed.

Lemma read_exact_ok o l g buf : H o l -> exists o' g',
  read_exact read (S (length buf)) buf o g =
    Ret o' g' (length buf <=? length l, take (length buf) l ++ drop (length l) buf) /\
  H o' (drop (length buf) l) /\ fine g g'.
Proof.
  intros Hl. destruct buf as [|b buf].
  { exists o, g. rewrite take_0, drop_nil, drop_0. split; [reflexivity|]. split; [exact Hl|apply fine_refl]. }
  set (bs := b :: buf) in *. assert (Hbs : 0 < length bs) by (cbn; lia).
  assert (W : forall f, read_exact read (S f) bs = (let! x := read bs in let '(buf', n) := x in
     if n =? 0 then ret (false, buf') else if length buf' <? n then panic else
       let! y := read_exact read f (drop n buf') in ret (fst y, take n buf' ++ snd y))) by reflexivity.
  rewrite W. destruct (Hread' o l g bs Hl) as (o1 & g1 & E1 & H1 & F1). erewrite bind_Ret by exact E1. cbv beta iota.
  destruct (length bs `min` length l =? 0) eqn:E0.
  { assert (length l = 0) as L0 by lia. destruct l; [|discriminate]. cbn [length] in *. rewrite Nat.min_0_r in *.
    exists o1, g1. rewrite take_nil, drop_nil in *. replace (length bs <=? 0) with false by lia.
    split; [reflexivity|]. split; assumption. }
  assert (Lb : length (take (length bs `min` length l) l ++ drop (length bs `min` length l) bs) = length bs)
    by (rewrite app_length, take_length, drop_length; lia).
  rewrite if_false by (rewrite Lb; lia).
  rewrite take_app_alt by (rewrite take_length; lia). rewrite drop_app_alt by (rewrite take_length; lia).
  destruct (length bs <=? length l) eqn:El.
  { replace (length bs `min` length l) with (length bs) in * by lia. rewrite drop_all. rewrite drop_ge by lia.
    exists o1, g1. split; [destruct bs; [cbn in Hbs; lia|reflexivity]|]. split; assumption. }
  replace (length bs `min` length l) with (length l) in * by lia.
  destruct (length bs) as [|m] eqn:Em; [lia|].
  assert (Hd : length (drop (length l) bs) = S m - length l) by (rewrite drop_length; lia).
  destruct (drop (length l) bs) as [|b2 bs2] eqn:Ed; [cbn in Hd; lia|].
  rewrite drop_all in H1. destruct (Hread' o1 [] g1 (b2 :: bs2) H1) as (o2 & g2 & E2 & H2 & F2).
  cbn [length] in E2, H2. rewrite Nat.min_0_r in E2, H2. rewrite take_0, drop_0 in E2. rewrite drop_nil in H2.
  exists o2, g2. split; [|split; [rewrite drop_ge by lia; exact H2|eapply fine_trans; eassumption]].
  change (read_exact read (S m) (b2 :: bs2)) with (let! x := read (b2 :: bs2) in let '(buf', n) := x in
     if n =? 0 then ret (false, buf') else if length buf' <? n then panic else
       let! y := read_exact read m (drop n buf') in ret (fst y, take n buf' ++ snd y)).
  erewrite bind_Ret by (erewrite bind_Ret by exact E2; reflexivity).
  cbn [fst snd app]. rewrite firstn_all, take_ge by lia. reflexivity.
Qed.

Lemma read_to_end_ok size : forall fuel k o l g, H o l -> length l < fuel -> exists o' g',
  read_to_end read fuel k size o g = Ret o' g' l /\ H o' [] /\ fine g g'.
Proof.
  induction fuel as [|fuel IH]; intros k o l g Hl Hf; [lia|]. cbn [read_to_end].
  destruct (Hread' o l g (repeat 0 (S (size k))) Hl) as (o1 & g1 & E1 & H1 & F1).
  erewrite bind_Ret by exact E1. cbv beta iota. rewrite repeat_length in *.
  destruct (S (size k) `min` length l =? 0) eqn:E0.
  { destruct l; [|cbn [length] in E0; lia]. rewrite drop_nil in H1. exists o1, g1. auto. }
  destruct (IH (S k) o1 _ g1 H1) as (o2 & g2 & E2 & H2 & F2); [rewrite drop_length; lia|].
  exists o2, g2. erewrite bind_Ret by exact E2. split; [|split; [exact H2|eapply fine_trans; eassumption]].
  rewrite take_app_alt by (rewrite take_length; lia). unfold ret. rewrite take_drop. reflexivity.
Qed.

Lemma io_try_ok fuel op o l g : H o l -> N < fuel -> exists o' g' r,
  io_try write read fuel op o g = Ret o' g' r /\ fine g g' /\
  ((exists q', queue_call N op l = (q', r) /\ H o' q') \/
   (P /\ r = Panicked /\ H o' l /\ length l < N /\ exists buf, (op = Write buf \/ op = WriteAll buf) /\ buf <> [])).
Proof.
  intros Hl Hf. pose proof (Hcap o l Hl). unfold io_try.
  destruct op as [buf|buf| |buf|buf|size]; cbn [io_call queue_call].
  - destruct (Hwrite' o l g buf Hl) as [(o1 & g1 & E1 & H1 & F1)|(HP & Hr & E1)].
    + erewrite bind_Ret by exact E1. exists o1, g1, (Wrote (length buf `min` (N - length l))).
      split; [reflexivity|]. split; [exact F1|]. left. eexists. split; [|exact H1]. f_equal. f_equal. rewrite take_length. lia.
    + unfold bind. rewrite E1. exists o, g, Panicked. split; [reflexivity|]. split; [apply fine_refl|]. right.
      split; [exact HP|]. split; [reflexivity|]. split; [exact Hl|]. split; [lia|]. exists buf. split; [auto|].
      intros ->. cbn in Hr. lia.
  - destruct (write_all_ok o l g buf Hl) as [(o1 & g1 & E1 & H1 & F1)|(HP & [Hr1 Hr2] & E1)].
    + erewrite bind_Ret by exact E1. exists o1, g1, (All (length buf <=? N - length l)).
      split; [reflexivity|]. split; [exact F1|]. left. eauto.
    + unfold bind. rewrite E1. exists o, g, Panicked. split; [reflexivity|]. split; [apply fine_refl|]. right.
      split; [exact HP|]. split; [reflexivity|]. split; [exact Hl|]. split; [exact Hr2|]. exists buf. auto.
  - exists o, g, Flushed. split; [reflexivity|]. split; [apply fine_refl|]. left. eauto.
  - destruct (Hread' o l g buf Hl) as (o1 & g1 & E1 & H1 & F1). erewrite bind_Ret by exact E1. cbn [fst snd].
    eexists o1, g1, _. split; [reflexivity|]. split; [exact F1|]. left. eauto.
  - destruct (read_exact_ok o l g buf Hl) as (o1 & g1 & E1 & H1 & F1). erewrite bind_Ret by exact E1. cbn [fst snd].
    eexists o1, g1, _. split; [reflexivity|]. split; [exact F1|]. left. eauto.
  - destruct (read_to_end_ok size fuel 0 o l g Hl ltac:(lia)) as (o1 & g1 & E1 & H1 & F1). erewrite bind_Ret by exact E1.
    eexists o1, g1, _. split; [reflexivity|]. split; [exact F1|]. left. eauto.
Qed.
Lemma io_run_ok fuel : N < fuel -> forall ops o l g, H o l -> exists o' g' rs q',
  io_run write read fuel ops o g = Ret o' g' rs /\ queue_run N P l ops rs q' /\ H o' q' /\ fine g g'.
Proof.
  intros Hf. induction ops as [|op ops IH]; intros o l g Hl.
  { exists o, g, [], l. split; [reflexivity|]. split; [constructor|]. split; [exact Hl|apply fine_refl]. }
  cbn [io_run]. destruct (io_try_ok fuel op o l g Hl Hf) as (o1 & g1 & r & E1 & F1 & D).
  destruct D as [(q1 & Q1 & H1)|(HP & -> & H1 & Hlt & buf & Ho & Hb)].
  - destruct (IH o1 q1 g1 H1) as (o2 & g2 & rs & q' & E2 & Q2 & H2 & F2).
    exists o2, g2, (r :: rs), q'. erewrite bind_Ret by exact E1. erewrite bind_Ret by exact E2.
    split; [reflexivity|]. split; [eapply queue_step; eassumption|]. split; [exact H2|eapply fine_trans; eassumption].
  - destruct (IH o1 l g1 H1) as (o2 & g2 & rs & q' & E2 & Q2 & H2 & F2).
    exists o2, g2, (Panicked :: rs), q'. erewrite bind_Ret by exact E1. erewrite bind_Ret by exact E2.
    split; [reflexivity|]. split; [eapply queue_panic; eassumption|]. split; [exact H2|eapply fine_trans; eassumption].
Qed.
End stream.

(** Bytes are neither lost, nor made up, nor reordered. *)
Lemma queue_call_conserves N op q q' r : queue_call N op q = (q', r) -> length q <= N -> exists ins outs,
  accepted op r ins /\ delivered op r outs /\ q ++ ins = outs ++ q' /\ length q' <= N.
Proof.
  intros E Hq. destruct op as [buf|buf| |buf|buf|size]; cbn [queue_call] in E; injection E as <- <-; cbn [accepted delivered].
  - exists (take (N - length q) buf), []. rewrite take_length.
    split; [split; [lia|]|].
    { destruct (Nat.le_gt_cases (length buf) (N - length q)); [rewrite !take_ge by lia; reflexivity|f_equal; lia]. }
    split; [reflexivity|]. split; [reflexivity|]. rewrite app_length, take_length. lia.
  - exists (take (N - length q) buf), []. split.
    { destruct (length buf <=? N - length q) eqn:E; [apply take_ge; lia|]. split; [exists (drop (N - length q) buf); symmetry; apply take_drop|rewrite take_length; lia]. }
    split; [reflexivity|]. split; [reflexivity|]. rewrite app_length, take_length. lia.
  - exists [], []. rewrite app_nil_r. auto.
  - exists [], (take (length buf `min` length q) q). split; [reflexivity|]. rewrite take_length.
    split; [split; [lia|]; split; [lia|reflexivity]|]. rewrite app_nil_r, take_drop. split; [reflexivity|]. rewrite drop_length. lia.
  - exists [], (take (length buf) q). split; [reflexivity|]. split.
    { destruct (length buf <=? length q) eqn:E.
      - rewrite (drop_ge buf) by lia. rewrite app_nil_r, take_length. split; [reflexivity|lia].
      - rewrite take_ge by lia. split; [lia|reflexivity]. }
    rewrite app_nil_r, take_drop. split; [reflexivity|]. rewrite drop_length. lia.
  - exists [], q. rewrite !app_nil_r. cbn. split; [reflexivity|]. split; [reflexivity|]. split; [reflexivity|lia].
Qed.
Lemma queue_run_conserves N P q ops rs q' : queue_run N P q ops rs q' -> length q <= N -> exists ins outs,
  Forall3 accepted ops rs ins /\ Forall3 delivered ops rs outs /\ q ++ concat ins = concat outs ++ q' /\ length q' <= N.
Proof.
  induction 1 as [q|q op ops q1 r rs q' E R IH|q op buf ops rs q' HP Ho Hb Hlt R IH]; intros Hq.
  - exists [], []. rewrite app_nil_r. repeat split; try constructor. exact Hq.
  - destruct (queue_call_conserves N op q q1 r E Hq) as (i & d & A1 & D1 & C1 & L1).
    destruct (IH L1) as (ins & outs & A2 & D2 & C2 & L2). exists (i :: ins), (d :: outs).
    split; [constructor; assumption|]. split; [constructor; assumption|]. split; [|exact L2].
    cbn [concat]. rewrite app_assoc, C1, <- !app_assoc, C2. reflexivity.
  - destruct (IH Hq) as (ins & outs & A2 & D2 & C2 & L2). exists ([] :: ins), ([] :: outs).
    split; [constructor; [destruct Ho as [-> | ->]; reflexivity|assumption]|].
    split; [constructor; [destruct Ho as [-> | ->]; reflexivity|assumption]|]. auto.
Qed.
Lemma queue_run_no_panic N q ops rs q' : queue_run N False q ops rs q' -> ~ In Panicked rs.
Proof.
  induction 1 as [q|q op ops q1 r rs q' E R IH|]; [cbn; auto| |tauto].
  intros [->|?]; [|tauto]. destruct op; cbn in E; discriminate.
Qed.
