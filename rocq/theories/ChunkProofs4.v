(** * [Chunk], continued: iterators, comparison, I/O, counting writes. *)
From Verif Require Import Machine Spec Prims IterSpec ChunkModel ChunkProofs ChunkProofs2 ChunkProofs3.

Section proofs.
Context {A : Type} (e : env A) (N : nat).
Hypothesis HW : N + N < word e.
Implicit Types (c : chunk A) (l : list A) (g : log A) (v : A) (i k index count : nat).
Notation agr := (agrees (Holds N) eq).
Notation Holds2 := (both (Holds N) (Holds N)).
Lemma iter_next_ok c l g : Holds N c l ->
  exists c' g', iter_next e N c g = Ret c' g' (fst (take_side Front l)) /\
    Holds N c' (snd (take_side Front l)) /\ dropped g' = dropped g /\ leaked g' = leaked g.
Proof.
  intros H. unfold iter_next. erewrite (bind_Ret get) by reflexivity.
  rewrite (is_empty_ok e N HW _ _ H). destruct l as [|a l]; cbn [length take_side fst snd].
  - exists c, g. auto.
  - destruct (pop_front_ok e N HW c (a :: l) g H) as (c' & g' & r & E1 & H1 & -> & E2 & E3).
    change (S (length l) =? 0) with false. cbn iota.
    rewrite (bind_Ret _ _ _ _ _ _ _ E1). exists c', g'. rewrite app_nil_r in E2. auto.
Qed.
Lemma iter_next_back_ok c l g : Holds N c l ->
  exists c' g', iter_next_back e N c g = Ret c' g' (fst (take_side Back l)) /\
    Holds N c' (snd (take_side Back l)) /\ dropped g' = dropped g /\ leaked g' = leaked g.
Proof.
  intros H. unfold iter_next_back. erewrite (bind_Ret get) by reflexivity.
  rewrite (is_empty_ok e N HW _ _ H). pose proof (pop_back_ok e N HW c l g H) as P.
  unfold bl_pop_back in P. cbn [take_side].
  destruct (l !! (length l - 1)) as [a|] eqn:Ha; cbn [fst snd].
  - pose proof (lookup_lt_Some _ _ _ Ha). replace (length l =? 0) with false by lia.
    destruct P as (c' & g' & r & E1 & H1 & -> & E2 & E3).
    rewrite (bind_Ret _ _ _ _ _ _ _ E1). exists c', g'. rewrite app_nil_r in E2. auto.
  - apply lookup_ge_None in Ha. replace (length l =? 0) with true by lia. exists c, g. auto.
Qed.
Lemma size_hint_ok c l g : Holds N c l -> size_hint e c g = Ret c g (length l, Some (length l)).
Proof.
  intros H. unfold size_hint. erewrite bind_Ret by (apply (len_eq e N HW); eassumption). reflexivity.
Qed.
Lemma iter_ok script c l g : Holds N c l ->
  exists c' g', pull_all (iter_next e N) (iter_next_back e N) (size_hint e) script c g =
      Ret c' g' (fst (pulls script l)) /\
    Holds N c' (snd (pulls script l)) /\ dropped g' = dropped g /\ leaked g' = leaked g.
Proof.
  apply (pull_all_ok (Holds N)).
  - intros. apply iter_next_ok; assumption.
  - intros. apply iter_next_back_ok; assumption.
  - intros. apply size_hint_ok; assumption.
Qed.

(** ** Comparison and hashing *)
Lemma hash_ok c l g : Holds N c l -> hash e N c g = Ret c g (map HItem l).
Proof.
  intros H. unfold hash. erewrite bind_Ret by (apply (as_slice_eq e N HW); eassumption). reflexivity.
Qed.
Lemma two_slices {T} (f : list A -> list A -> T) c1 c2 l1 l2 g : Holds N c1 l1 -> Holds N c2 l2 ->
  (let! l1 := on_fst (as_slice e N) in let! l2 := on_snd (as_slice e N) in ret (f l1 l2)) (c1, c2) g
  = Ret (c1, c2) g (f l1 l2).
Proof.
  intros H1 H2. erewrite bind_Ret by (apply on_fst_Ret, (as_slice_eq e N HW); eassumption).
  erewrite bind_Ret by (apply on_snd_Ret, (as_slice_eq e N HW); eassumption). reflexivity.
Qed.
End proofs.

Section bytes.
Context (e : env nat) (N : nat).
Hypothesis HW : N + N < word e.
Hypothesis Hcalm : calm e.
Implicit Types (c : chunk nat) (l : list nat) (g : log nat).

Lemma bl_extend_fits {A} (N' : nat) (xs l : list A) : length l + length xs <= N' ->
  bl_extend N' (map Yield xs) l = SRet (l ++ xs) tt [].
Proof.
  revert l. induction xs as [|x xs IH]; intros l H; cbn [map bl_extend].
  - rewrite app_nil_r. reflexivity.
  - cbn in H. replace (length l <? N') with true by lia.
    rewrite IH by (rewrite app_length; cbn; lia). rewrite <- app_assoc. reflexivity.
Qed.
Lemma io_write_ok c l g buf : Holds N c l ->
  agrees (Holds N) eq g (io_write e N buf c g)
    (SRet (l ++ take (N - length l) buf) (length buf `min` (N - length l)) []).
Proof.
  intros H. pose proof (holds_length e N HW _ _ H). unfold io_write.
  erewrite bind_Ret by (apply (len_eq e N HW); eassumption).
  erewrite bind_Ret by (apply usub_ok; lia).
  pose proof (extend_ok e N HW Hcalm (map Yield (take (N - length l) buf)) c l g H) as HE.
  rewrite bl_extend_fits in HE by (rewrite take_length; lia).
  destruct HE as (c' & g' & r & E & H' & _ & D & L).
  rewrite (bind_Ret _ _ _ _ _ _ _ E).
  erewrite bind_Ret by (apply (len_eq e N HW); eassumption).
  erewrite usub_ok by (rewrite app_length; lia).
  eexists _, _, _. split; [reflexivity|]. split; [exact H'|]. split; [|auto].
  rewrite app_length, take_length. lia.
Qed.
Lemma io_read_loop_ok k : forall buf c l g, Holds N c l -> k <= length l -> k <= length buf ->
  agrees (Holds N) eq g (io_read_loop e N k buf c g)
    (SRet (drop k l) (take k l ++ drop k buf) []).
Proof.
  induction k as [|k IH]; intros buf c l g H Hl Hb; cbn [io_read_loop].
  - eexists _, _, _. split; [destruct buf; reflexivity|]. rewrite !drop_0, app_nil_r. auto.
  - destruct buf as [|b buf]; [cbn in Hb; lia|]. destruct l as [|a l]; [cbn in Hl; lia|].
    cbn in Hl, Hb.
    destruct (pop_front_ok e N HW c (a :: l) g H) as (c' & g' & r & E1 & H1 & -> & E2 & E3).
    rewrite (bind_Ret _ _ _ _ _ _ _ E1). rewrite app_nil_r in E2.
    destruct (IH buf c' l g' H1 ltac:(lia) ltac:(lia)) as (c2 & g2 & r2 & E4 & H4 & -> & E5 & E6).
    rewrite (bind_Ret _ _ _ _ _ _ _ E4).
    eexists _, _, _. split; [reflexivity|]. cbn [drop take app]. rewrite E5, E6, E2, E3. auto.
Qed.
Lemma io_read_ok c l g buf : Holds N c l ->
  agrees (Holds N) eq g (io_read e N buf c g)
    (let n := length buf `min` length l in
     SRet (drop n l) (take n l ++ drop n buf, n) []).
Proof.
  intros H. unfold io_read. erewrite bind_Ret by (apply (len_eq e N HW); eassumption).
  cbn zeta. destruct (length buf `min` length l =? 0) eqn:E.
  - replace (length buf `min` length l) with 0 by lia. eexists _, _, _. split; [reflexivity|].
    rewrite !drop_0, app_nil_r. auto.
  - destruct (io_read_loop_ok (length buf `min` length l) buf c l g H ltac:(lia) ltac:(lia))
      as (c2 & g2 & r2 & E4 & H4 & -> & E5 & E6).
    rewrite (bind_Ret _ _ _ _ _ _ _ E4). eexists _, _, _. split; [reflexivity|]. auto.
Qed.
End bytes.
