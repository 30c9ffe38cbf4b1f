(** * Each container filled from a live iterator: the statements of LiveSpec.v, one container at a time. *)
From Verif Require Import Machine Spec Prims LiveModel LiveSpec LiveProofs LiveProofs2 LiveProofs3 ChunkModel ChunkProofs RingModel
  RingProofs RingProofs2 RingProofs3 SparseModel SparseSpec SparseProofs InlineModel InlineSpec InlineProofs2.

Section live.
Context {A S : Type} (e : env A) (F : S -> list A -> Prop) (next : M A S (option A)) (hint : M A S (nat * option nat)).
Hypothesis Hc : calm e.
Hypothesis Hf : feeds F next hint.

Lemma chunk_extends N : N + N < word e -> extends (Holds N) N F (extend_live next (push_back e N)).
Proof.
  intros HW fuel c d s l gs g H Hs Hl room; unfold room.
  eapply extend_live_ok; try eassumption; [intros; eapply push_back_ok; eassumption|].
  exact (holds_length e N HW c d H).
Qed.
Lemma ring_extends N : N + N < word e -> 0 < N -> extends (RHolds N) N F (extend_live next (rb_push_back e N)).
Proof.
  intros HW HN fuel c d s l gs g H Hs Hl room; unfold room.
  eapply extend_live_ok; try eassumption; [intros; eapply rb_push_back_ok; eassumption|].
  destruct H as (_ & _ & H & _). exact H.
Qed.
Lemma inline_extends L b : wf_layout e L -> host_ok e L -> placed L b ->
  extends (IHolds e L) (capacity e L) F (extend_live next (ia_push e L b)).
Proof.
  intros WF HO Hb fuel c d s l gs g H Hs Hl room; unfold room.
  eapply extend_live_ok; try eassumption; [intros; eapply push_ok; eassumption|].
  destruct H as [H _]. exact H.
Qed.

Lemma extends_collects {C} (H : C -> list A -> Prop) K init destroy extend s l gs g fuel :
  (forall o d g, H o d -> exists o', destroy o g = Ret o' (log_drop d g) tt) ->
  H init [] -> F s l -> length l < fuel -> extends H K F extend ->
  makes H F gs g (with_local init destroy (extend fuel) (s, gs) g) (if length l <=? K then Some l else None) (drop (1 + K) l)
    (if length l <=? K then [] else take 1 (drop K l) ++ take K l).
Proof.
  clear Hf. intros Hd Hi Hs Hl HE.
  pose proof (building_live F H destroy Hd init (extend fuel) s gs g _ _ _ _ (HE fuel init [] s l gs g Hi Hs Hl)) as P.
  cbn [length app] in P. rewrite Nat.sub_0_r in P.
  destruct (length l <=? K) eqn:El.
  - replace (K <? length l) with false in P by lia. rewrite take_ge in P by lia. rewrite (drop_ge l K) in P by lia. exact P.
  - replace (K <? length l) with true in P by lia. exact P.
Qed.
Lemma chunk_collects N : N + N < word e -> collects (Holds N) N F (from_iter_live e N next).
Proof.
  intros HW fuel s l gs g Hs Hl. apply (extends_collects (Holds N)); try assumption; [intros; eapply destroy_ret; eassumption| |].
  - exact (new_holds e N HW).
  - apply chunk_extends. assumption.
Qed.
Lemma ring_collects N : N + N < word e -> 0 < N -> collects (RHolds N) N F (rb_from_iter_live e N next).
Proof.
  intros HW HN fuel s l gs g Hs Hl. unfold rb_from_iter_live. erewrite bind_Ret by (apply rb_new_eq; assumption).
  apply (extends_collects (RHolds N)); try assumption; [intros; eapply rb_destroy_ret; eassumption| |].
  - apply ring0_holds; assumption.
  - apply ring_extends; assumption.
Qed.
Lemma inline_collects L b : wf_layout e L -> host_ok e L -> placed L b ->
  collects (IHolds e L) (capacity e L) F (ia_from_iter_live e L b next).
Proof.
  intros WF HO Hb fuel s l gs g Hs Hl. destruct (new_ok e L WF HO b tt g Hb) as (c & E & H). unfold ia_from_iter_live.
  erewrite bind_Ret by (rewrite E; reflexivity).
  apply (extends_collects (IHolds e L)); try assumption; [intros; eapply destroy_ok; eassumption|].
  apply inline_extends; assumption.
Qed.

Lemma chunk_collects_from N : N + N < word e -> collects_from (Holds N) N F (collect_from_live e N next).
Proof.
  intros HW count s l gs g Hs fits.
    pose proof (take_live_ok F next hint Hf (Holds N) N (push_back e N) (fun o d g v => push_back_ok e N HW Hc o d g v)
      true count ChunkModel.new s [] l gs g (new_holds e N HW) Hs ltac:(cbn [length]; lia)) as P.
    assert (Eq : forall k o g, collect_loop_live e N next k o g = take_live next (push_back e N) true k o g).
    { induction k as [|k IH]; intros o g0; [reflexivity|]. cbn [collect_loop_live take_live]. unfold bind.
      destruct (on_iter next o g0) as [o1 g1 [a|]| | | |]; try reflexivity.
      destruct (on_fst (push_back e N a) o1 g1); try reflexivity. apply IH. }
    rewrite <- Eq in P.
    apply (building_live F (Holds N) (destroy e N) (fun o d g => destroy_ret e N HW Hc o d g)) in P.
    cbn [length app] in P. rewrite Nat.sub_0_r in P.
    assert (Eb : ((N <? count `min` length l) || true && (length l <? count)) = negb fits) by (unfold fits; lia).
    rewrite Eb in P. destruct fits eqn:Ef; cbn [negb] in P; [|exact P]. unfold fits in Ef.
    rewrite (take_ge (take count l)) in P by (rewrite take_length; lia).
    rewrite (drop_ge (take count l)) in P by (rewrite take_length; lia). exact P.
Qed.
Lemma ring_collects_from N : N + N < word e -> 0 < N -> collects_from (RHolds N) N F (rb_collect_from_live e N next).
Proof.
  intros HW HN count s l gs g Hs fits.
    unfold rb_collect_from_live. erewrite bind_Ret by (apply rb_new_eq; assumption).
    pose proof (take_live_ok F next hint Hf (RHolds N) N (rb_push_back e N) (fun o d g v => rb_push_back_ok e N HW HN Hc o d g v)
      false count ring0 s [] l gs g (ring0_holds N HN) Hs ltac:(cbn [length]; lia)) as P.
    assert (Eq : forall k o g, rb_take_loop_live e N next k o g = take_live next (rb_push_back e N) false k o g).
    { induction k as [|k IH]; intros o g0; [reflexivity|]. cbn [rb_take_loop_live take_live]. unfold bind.
      destruct (on_iter next o g0) as [o1 g1 [a|]| | | |]; try reflexivity.
      destruct (on_fst (rb_push_back e N a) o1 g1); try reflexivity. apply IH. }
    rewrite <- Eq in P. cbn [length app andb] in P. rewrite Nat.sub_0_r, orb_false_r in P.
    assert (P2 : ends (RHolds N) F gs g (negb fits)
      ((rb_take_loop_live e N next count ;;;
        let! s := get in if rlen (fst s) <? count then panic else ret tt) (ring0, (s, gs)) g)
      (take N (take count l)) (drop (count `min` (1 + N)) l) (take 1 (drop N (take count l)))).
    { destruct P as (o & s' & gs' & g' & E & H' & F' & D). exists o, s', gs', g'. split; [|auto].
      destruct (N <? count `min` length l) eqn:En.
      - unfold bind. rewrite E. replace fits with false by (unfold fits; lia). reflexivity.
      - erewrite bind_Ret by exact E. erewrite (bind_Ret get) by reflexivity. cbn [fst].
        pose proof H' as (_ & Hl & _). rewrite Hl, !take_length.
        replace (N `min` (count `min` length l)) with (count `min` length l) by lia.
        destruct fits eqn:Ef; unfold fits in Ef; cbn [negb].
        + rewrite if_false by lia. reflexivity.
        + rewrite if_true by lia. reflexivity. }
    apply (building_live F (RHolds N) (rb_destroy e N) (fun o d g => rb_destroy_ret e N HW HN Hc o d g)) in P2.
    destruct fits eqn:Ef; cbn [negb] in P2; [|exact P2]. unfold fits in Ef.
    rewrite (take_ge (take count l)) in P2 by (rewrite take_length; lia).
    rewrite (drop_ge (take count l)) in P2 by (rewrite take_length; lia). exact P2.
Qed.
Lemma chunk_inserts_from N : N + N < word e -> inserts_from (Holds N) N (word e) F (fun _ => insert_from_live e N next hint).
Proof. intros HW fuel c d s l gs g i H Hs Hw Hl. apply insert_from_live_ok; assumption. Qed.
Lemma ring_inserts_from N : N + N < word e -> 0 < N -> inserts_from (RHolds N) N (word e) F (rb_insert_from_live e N next hint).
Proof. intros HW HN fuel c d s l gs g i H Hs Hw Hl. apply rb_insert_from_live_ok; assumption. Qed.
End live.
