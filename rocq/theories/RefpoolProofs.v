(** * The pool constructors of [Chunk] and [RingBuffer]. *)
From Verif Require Import Machine Spec Prims ChunkModel ChunkProofs ChunkProofs3 RingModel RingProofs RingProofs2 RingProofs5 RefpoolModel.

Section chunk.
Context {A : Type} (e : env A) (N : nat).
Implicit Types (l done : list A) (g : log A).

Lemma chunk_loop cl n : forall k (dst src : chunk A) done l g, Holds N src l ->
  Holds N (Chunk (left src) (left src + length done) (cdata dst)) done -> length done + n = length l ->
  exists m g',
    Holds N (Chunk (left src) (left src + length (done ++ clones cl k (drop (length done) l))) m)
      (done ++ clones cl k (drop (length done) l)) /\
    dropped g' = dropped g /\ leaked g' = leaked g /\
    chunk_clone_uninit_loop N cl n (left src + length done) k (dst, src) g =
      if length (clones cl k (drop (length done) l)) =? n then Ret (Chunk (left dst) (right dst) m, src) g' tt
      else Panic (Chunk (left dst) (right dst) m, src) g'.
Proof.
  induction n as [|n IH]; intros k dst src done l g Hs Hd Hn.
  - exists (cdata dst), g. rewrite drop_ge by lia. cbn [clones]. rewrite app_nil_r. destruct dst. auto.
  - destruct (l !! length done) as [a|] eqn:Ha; [|apply lookup_ge_None in Ha; lia].
    assert (Hdr : drop (length done) l = a :: drop (S (length done)) l).
    { apply drop_S. exact Ha. }
    rewrite Hdr. cbn [chunk_clone_uninit_loop clones].
    erewrite bind_Ret.
    2: { apply on_snd_Ret. apply (slot_peek_ok _ _ a).
         - destruct Hs as (? & ? & _). lia.
         - destruct Hs as (? & ? & Hm). cbn. rewrite Hm. replace (left src <=? _) with true by lia.
           rewrite <- Ha. f_equal. lia. }
    destruct (cl k a) as [a'|].
    + destruct Hd as (Hd1 & Hd2 & Hd3). destruct Hs as (Hs1 & Hs2 & Hs3). cbn [left right cdata] in *.
      erewrite bind_Ret.
      2: { apply on_fst_Ret. apply slot_write_ok; [lia|]. cbn. rewrite Hd3. pw. }
      cbn [fst snd getm setm chunk_mem].
      destruct (IH (S k) (Chunk (left dst) (right dst)
                            (upd (cdata dst) (left src + length done) (Some a'))) src (done ++ [a']) l
                   (log_write 1 g)) as (m & g' & H1 & H2 & H3 & H4).
      * repeat split; assumption.
      * unfold Holds. cbn [left right cdata]. split; [reflexivity|]. split; [lookups; lia|].
        intros p. unfold upd. rewrite Hd3. pw.
      * lookups; lia.
      * exists m, g'. assert (El : length (done ++ [a']) = S (length done)) by (rewrite app_length; cbn; lia). rewrite !El in H1, H4. cbn [left right] in H4.
        rewrite <- app_assoc in H1. cbn [app] in H1. split; [exact H1|].
        split; [exact H2|]. split; [exact H3|].
        replace (S (left src + length done)) with (left src + S (length done)) by lia.
        rewrite H4. cbn [length]. change (S ?x =? S ?y) with (x =? y). reflexivity.
    + exists (cdata dst), g. cbn [length]. rewrite app_nil_r. destruct dst. auto.
Qed.
(** The target of [clone_uninit] ends up as a chunk with the cloned contents; if a clone panics, the clones
    made before are still in the target's memory, which nobody owns. *)
Lemma chunk_clone_uninit_ok cl x y c l g : Holds N c l ->
  exists c' g', chunk_clone_uninit N cl (Chunk x y mem0, c) g =
      (if length (clones cl 0 l) =? length l then Ret (c', c) g' tt else Panic (c', c) g') /\
    dropped g' = dropped g /\ leaked g' = leaked g /\
    (length (clones cl 0 l) = length l -> Holds N c' (clones cl 0 l)).
Proof.
  intros H. pose proof H as (Hr & HN & _). unfold chunk_clone_uninit. erewrite (bind_Ret get) by reflexivity.
  erewrite (bind_Ret (on_fst _)) by reflexivity. erewrite (bind_Ret (on_fst _)) by reflexivity.
  cbn [fst snd left right cdata].
  destruct (chunk_loop cl (length l) 0 (Chunk (left c) (right c) mem0) c [] l g H) as (m & g' & H1 & H2 & H3 & H4).
  - unfold Holds. cbn. split; [reflexivity|]. split; [lia|]. intros p. unfold mem0. pw.
  - reflexivity.
  - cbn [length app drop] in *. rewrite Nat.add_0_r in H4. replace (right c - left c) with (length l) by lia.
    rewrite drop_0 in *. exists (Chunk (left c) (right c) m), g'. split; [exact H4|]. split; [exact H2|]. split; [exact H3|].
    intros El. rewrite El in H1. rewrite Hr. exact H1.
Qed.
Lemma chunk_default_uninit_ok x y g :
  exists c, chunk_default_uninit (Chunk x y mem0) g = Ret c g tt /\ Holds N c (@nil A).
Proof.
  exists (Chunk 0 0 mem0). split; [reflexivity|]. split; [reflexivity|]. split; [cbn; lia|].
  intros p. reflexivity.
Qed.
End chunk.

Section ring.
Context {A : Type} (e : env A) (N : nat).
Hypothesis HW : N + N < word e.
Hypothesis HN : 0 < N.
Implicit Types (l done : list A) (g : log A).

Lemma ring_loop cl n : forall k (dst src : ring A) done l g, RHolds N src l ->
  RHolds N (Ring (origin src) (length done) (rdata dst)) done -> length done + n = length l ->
  exists m g',
    RHolds N (Ring (origin src) (length (done ++ clones cl k (drop (length done) l))) m)
      (done ++ clones cl k (drop (length done) l)) /\
    dropped g' = dropped g /\ leaked g' = leaked g /\
    ring_clone_uninit_loop e N cl n (wr N (origin src + length done)) k (dst, src) g =
      if length (clones cl k (drop (length done) l)) =? n then Ret (Ring (origin dst) (rlen dst) m, src) g' tt
      else Panic (Ring (origin dst) (rlen dst) m, src) g'.
Proof.
  induction n as [|n IH]; intros k dst src done l g Hs Hd Hn.
  - exists (rdata dst), g. rewrite drop_ge by lia. cbn [clones]. rewrite app_nil_r. destruct dst. auto.
  - destruct (l !! length done) as [a|] eqn:Ha; [|apply lookup_ge_None in Ha; lia].
    assert (Hdr : drop (length done) l = a :: drop (S (length done)) l).
    { apply drop_S. exact Ha. }
    rewrite Hdr. cbn [ring_clone_uninit_loop clones].
    pose proof (rholds_length N _ _ Hs) as Hcap.
    pose proof (rep_of_holds N _ _ Hs) as Rs. pose proof (rep_of_holds N _ _ Hd) as Rd.
    assert (Ho : origin src < N) by apply Hs.
    pose proof (wr_lt N (origin src + length done) ltac:(lia)) as Hw.
    erewrite bind_Ret by (apply raw_inc_ok; assumption). rewrite wr_add by lia.
    erewrite bind_Ret by (apply ptr_ok; lia).
    erewrite bind_Ret.
    2: { apply on_snd_Ret. apply (slot_peek_ok _ _ a); [exact Hw|].
         cbn [getm ring_mem snd]. rewrite (Rep_at N _ _ _ _ Rs) by lia. exact Ha. }
    destruct (cl k a) as [a'|].
    + destruct dst as [od nd md]. cbn [origin rdata] in Rd.
      erewrite bind_Ret.
      2: { apply on_fst_Ret. apply slot_write_ok; [exact Hw|].
           cbn [getm ring_mem fst rdata]. rewrite (Rep_at N _ _ _ _ Rd) by lia. apply lookup_ge_None. lia. }
      cbn [fst snd getm setm ring_mem origin rlen rdata].
      assert (H' : RHolds N (Ring (origin src) (length (done ++ [a']))
          (upd md (wr N (origin src + length done)) (Some a'))) (done ++ [a'])).
      { eapply holds_of_rep; [exact Ho| | |apply (Rep_upd N _ _ _ _ _ Rd Ho)|]; lookups; try lia.
        intros t Ht. unfold upd. pw. }
      destruct (IH (S k) (Ring od nd (upd md (wr N (origin src + length done)) (Some a'))) src (done ++ [a']) l
                  (log_write 1 g) Hs H' ltac:(lookups; lia))
        as (m & g' & H1 & H2 & H3 & H4).
      exists m, g'. assert (El : length (done ++ [a']) = S (length done)) by (rewrite app_length; cbn; lia). rewrite !El in H1, H4.
      replace (length done + 1) with (S (length done)) by lia.
      rewrite <- app_assoc in H1. cbn [app] in H1. split; [exact H1|].
      split; [exact H2|]. split; [exact H3|].
      rewrite H4. cbn [length]. change (S ?x =? S ?y) with (x =? y). reflexivity.
    + exists (rdata dst), g. cbn [length]. rewrite app_nil_r. destruct dst. auto.
Qed.
Lemma ring_clone_uninit_ok cl x y r l g : RHolds N r l ->
  exists r' g', ring_clone_uninit e N cl (Ring x y mem0, r) g =
      (if length (clones cl 0 l) =? length l then Ret (r', r) g' tt else Panic (r', r) g') /\
    dropped g' = dropped g /\ leaked g' = leaked g /\
    (length (clones cl 0 l) = length l -> RHolds N r' (clones cl 0 l)).
Proof.
  intros H. assert (Ho : origin r < N) by apply H. assert (En : rlen r = length l) by apply H.
  pose proof (rholds_length N _ _ H).
  unfold ring_clone_uninit. erewrite (bind_Ret get) by reflexivity.
  erewrite (bind_Ret (on_fst _)) by reflexivity. erewrite (bind_Ret (on_fst _)) by reflexivity.
  cbn [fst snd origin rlen rdata].
  erewrite (bind_Ret (on_snd _)).
  2: { apply on_snd_Ret. unfold rb_range. erewrite (bind_Ret get) by reflexivity.
       cbn [snd]. erewrite bind_Ret by (apply raw_add_ok; lia). reflexivity. }
  cbn [fst snd].
  destruct (ring_loop cl (length l) 0 (Ring (origin r) (rlen r) mem0) r [] l g H) as (m & g' & H1 & H2 & H3 & H4).
  - repeat split; cbn; try lia. intros p. unfold mem0. rewrite lookup_nil. split_if; reflexivity.
  - reflexivity.
  - cbn [length app drop] in *. rewrite Nat.add_0_r in H4.
    assert (Ew : wr N (origin r) = origin r) by (unfold wr; split_if; lia).
    rewrite Ew in H4. rewrite drop_0 in *. exists (Ring (origin r) (rlen r) m), g'. rewrite En in *.
    split; [exact H4|]. split; [exact H2|]. split; [exact H3|]. intros El. rewrite El in H1. exact H1.
Qed.
Lemma ring_default_uninit_ok x y g :
  exists r, ring_default_uninit e N (Ring x y mem0) g = Ret r g tt /\ RHolds N r (@nil A).
Proof.
  exists ring0. split; [|apply ring0_holds; exact HN].
  unfold ring_default_uninit, raw_from, debug_assert. replace (0 <? N) with true by lia.
  rewrite andb_false_r. reflexivity.
Qed.
End ring.
