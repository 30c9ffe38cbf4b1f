(** * [Chunk], continued: clone, iterators, slices, I/O. *)
From Verif Require Import Machine Spec Prims ChunkModel ChunkProofs ChunkProofs2.

Section proofs.
Context {A : Type} (e : env A) (N : nat).
Hypothesis HW : N + N < word e.
Hypothesis Hcalm : calm e.
Implicit Types (c : chunk A) (l : list A) (g : log A) (v : A) (i k index count : nat).
Notation agr := (agrees (Holds N) eq).
Notation Holds2 := (both (Holds N) (Holds N)).
Lemma clone_loop_ok cl n : forall k dst src done l g, Holds N src l -> Holds N dst done ->
  left dst = left src -> length done + n = length l ->
  exists dst' g',
    Holds N dst' (done ++ clones cl k (drop (length done) l)) /\
    dropped g' = dropped g /\ leaked g' = leaked g /\
    clone_loop e N cl n (left src + length done) k (dst, src) g =
      if length (clones cl k (drop (length done) l)) =? n then Ret (dst', src) g' tt
      else Panic (dst', src) g'.
Proof.
  induction n as [|n IH]; intros k dst src done l g Hs Hd Hl Hn.
  - exists dst, g. rewrite drop_ge by lia. cbn. rewrite app_nil_r. auto.
  - destruct (l !! length done) as [a|] eqn:Ha; [|apply lookup_ge_None in Ha; lia].
    assert (Hdr : drop (length done) l = a :: drop (S (length done)) l).
    { apply drop_S. exact Ha. }
    rewrite Hdr. cbn [clone_loop clones].
    erewrite bind_Ret.
    2: { apply on_snd_Ret. apply (slot_peek_ok _ _ a).
         - destruct Hs as (? & ? & _). lia.
         - destruct Hs as (? & ? & Hm). cbn. rewrite Hm. replace (left src <=? _) with true by lia.
           rewrite <- Ha. f_equal. lia. }
    destruct (cl k a) as [a'|].
    + destruct Hd as (Hd1 & Hd2 & Hd3). destruct Hs as (Hs1 & Hs2 & Hs3).
      unfold force_write.
      erewrite bind_Ret.
      2: { apply on_fst_Ret. apply slot_write_ok; [lia|]. cbn. rewrite Hd3. pw. }
      erewrite bind_Ret by (apply uadd_ok; lia).
      erewrite (bind_Ret (on_fst _)) by reflexivity. cbn [fst snd left right cdata getm setm chunk_mem].
      destruct (IH (S k) (Chunk (left dst) (left src + length done + 1)
                            (upd (cdata dst) (left src + length done) (Some a'))) src (done ++ [a']) l
                   (log_write 1 g)) as (dst' & g' & H1 & H2 & H3 & H4).
      * repeat split; assumption.
      * unfold Holds. cbn [left right cdata]. split; [lookups; lia|]. split; [lia|].
        intros p. unfold upd. rewrite Hd3. pw.
      * exact Hl.
      * lookups; lia.
      * exists dst', g'. rewrite app_length in H1, H4. cbn [length] in H1, H4.
        replace (length done + 1) with (S (length done)) in H1, H4 by lia.
        rewrite <- app_assoc in H1. cbn [app] in H1. split; [exact H1|].
        split; [exact H2|]. split; [exact H3|]. 
        replace (left src + length done + 1) with (left src + S (length done)) by lia.
        replace (left src + length done + 1) with (left src + S (length done)) in H4 by lia.
        rewrite H4. cbn [length].
        change (S ?x =? S ?y) with (x =? y). reflexivity.
    + exists dst, g. cbn. rewrite app_nil_r. auto.
Qed.
Lemma clone_ok cl c l g : Holds N c l ->
  agrees (Holds N) (Made N) g (clone e N cl c g) (bl_clone cl l).
Proof.
  intros H. unfold clone.
  assert (W : agrees (both (Holds N) (Holds N)) eq g ((
    let! s := get in
    on_fst (set_left (left (snd s)) ;;; set_right (left (snd s))) ;;;
    clone_loop e N cl (right (snd s) - left (snd s)) (left (snd s)) 0) (new, c) g)
    (if length (clones cl 0 l) =? length l then SRet (clones cl 0 l, l) tt []
     else SPanic (clones cl 0 l, l) [] [])).
  { erewrite (bind_Ret get) by reflexivity. erewrite (bind_Ret (on_fst _)) by reflexivity.
    cbn [fst snd left right cdata].
    destruct (clone_loop_ok cl (right c - left c) 0 (Chunk (left c) (left c) (cdata new)) c [] l g)
      as (dst' & g' & H1 & H2 & H3 & H4).
    - exact H.
    - destruct H as (? & ? & _). unfold Holds. cbn. split; [lia|]. split; [lia|].
      intros p. unfold mem0. pw.
    - reflexivity.
    - destruct H as (? & ? & _). cbn. lia.
    - cbn [length] in H4. rewrite Nat.add_0_r in H4. rewrite H4. cbn [drop].
      replace (right c - left c) with (length l) by (destruct H as (? & ? & _); lia).
      rewrite drop_0. destruct (length (clones cl 0 l) =? length l); [eexists _, _, _ | eexists _, _, []]; (split; [reflexivity|]); rewrite H2, H3, ?app_nil_r.
      + split; [split; assumption|]. auto.
      + split; [split; assumption|]. auto. }
  apply (building e N HW Hcalm) in W. unfold bl_clone.
  destruct (_ =? _); exact W.
Qed.

(** [DerefMut]: the caller rewrites the slice. *)
Lemma write_back_ok l' : forall c g a pre l post, Holds N c (pre ++ l ++ post) -> length l = length l' ->
  a = left c + length pre ->
  exists c' g', write_back N a l' c g = Ret c' g' tt /\ Holds N c' (pre ++ l' ++ post) /\
    dropped g' = dropped g /\ leaked g' = leaked g.
Proof.
  induction l' as [|a' l' IH]; intros c g a pre l post H Hl ->; cbn [write_back].
  - destruct l; [|discriminate]. exists c, g. auto.
  - destruct l as [|x l]; [discriminate|]. cbn in Hl.
    destruct H as (H1 & H2 & H3). rewrite !app_length in H1. cbn [length] in H1.
    erewrite bind_Ret.
    2: { apply (slot_read_ok _ _ x); [lia|]. cbn. rewrite H3. pw. }
    erewrite bind_Ret.
    2: { apply slot_write_ok; [lia|]. cbn. unfold upd. pw. }
    cbn [getm setm chunk_mem cdata left right].
    edestruct (IH (Chunk (left c) (right c)
        (upd (upd (cdata c) (left c + length pre) None) (left c + length pre) (Some a')))
        (log_write 1 g) (S (left c + length pre)) (pre ++ [a']) l post) as (c' & g' & E1 & E2 & E3 & E4).
    + unfold Holds. cbn [left right cdata]. split; [lookups; lia|]. split; [lia|].
      intros p. unfold upd. rewrite H3. pw.
    + lia.
    + cbn [left]. lookups. lia.
    + exists c', g'. rewrite <- app_assoc in E2. cbn [app] in E2. rewrite E1. auto.
Qed.
Lemma update_slice_ok f c l g : Holds N c l -> length (f l) = length l ->
  agr g (update_slice e N f c g) (SRet (f l) tt []).
Proof.
  intros H Hf. unfold update_slice. erewrite (bind_Ret get) by reflexivity.
  erewrite bind_Ret by (apply (as_slice_eq e N HW); eassumption).
  destruct (write_back_ok (take (length l) (f l)) c g (left c) [] l []) as (c' & g' & E1 & E2 & E3 & E4).
  - cbn. rewrite app_nil_r. exact H.
  - lookups. lia.
  - cbn. lia.
  - rewrite E1. eexists _, _, _. split; [reflexivity|]. cbn [app] in E2. rewrite app_nil_r in E2.
    rewrite take_ge in E2 by lia. rewrite app_nil_r. auto.
Qed.
End proofs.
