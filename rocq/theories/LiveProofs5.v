(** * Proofs about LiveModel.v: [insert_from] with iterators that panic, stop early or lie. *)
From Verif Require Import Machine Spec Prims LiveModel LiveSpec LiveProofs4 ChunkModel RingModel.
From Verif Require ChunkProofs RingProofs.

Section chunk.
Context {A S : Type} (e : env A) (N : nat)
  (F : S -> log A -> list (option (nat * option nat)) -> list (ev A) -> Prop) (E : S -> log A -> Prop)
  (next : M A S (option A)) (hint : M A S (nat * option nat)).
Hypothesis Hs : scripted F E next hint.
Notation at_ := (at_ F).
Notation later := (later F E).
Notation rest hs it := (fun o => rest_of F E hs o it).

Lemma rest_later hs hs0 it it0 o : hs `suffix_of` hs0 -> it `suffix_of` it0 -> rest_of F E hs o it -> later hs0 it0 o.
Proof. intros H1 H2 [H|[_ H]]; [left; exists hs, it; auto|right; exact H]. Qed.
Lemma sim_write_loop hs hs0 it0 k : forall it wi, hs `suffix_of` hs0 -> it `suffix_of` it0 ->
  sim (beside (at_ hs it)) (beside (rest hs (drop k it))) (beside (later hs0 it0)) (write_loop_live e N next k wi) (write_loop e N k it wi).
Proof.
  induction k as [|k IH]; intros it wi Hhs Hit; cbn [write_loop_live].
  - intros l o g [H1 H2]. exists l. split; [reflexivity|]. split; [exact H1|left; exact H2].
  - eapply sim_next_forget; [exact Hs|]. destruct it as [|[x|] it]; cbn [write_loop drop].
    + intros l o g [H1 H2]. exists l. split; [reflexivity|]. split; [exact H1|right; auto].
    + assert (Hit' : it `suffix_of` it0) by (eapply suffix_cons_l; exact Hit).
      eapply sim_bind; [apply sim_fst; intros o; apply at_later; assumption|]. intros _.
      eapply sim_bind; [apply sim_uadd; intros l o [H1 H2]; split; [exact H1|eapply at_later; eassumption]|].
      intros wi'. apply IH; assumption.
    + split; [|reflexivity]. intros o. apply at_later; [exact Hhs|eapply suffix_cons_l; exact Hit].
Qed.
Lemma beside_mono {C} (P K : S * log A -> Prop) : (forall o, P o -> K o) -> forall (l : C * (S * log A)) o, beside P l o -> beside K l o.
Proof. intros H l o [H1 H2]. split; auto. Qed.
Section tail.
Context (h : option (nat * option nat)) (hs hs0 : list (option (nat * option nat))) (it : list (ev A)).
Hypothesis Hhs : (h :: hs) `suffix_of` hs0.
Lemma hs_tail : hs `suffix_of` hs0. Proof. eapply suffix_cons_l; exact Hhs. Qed.
Lemma before_later o : at_ (h :: hs) it o -> later hs0 it o.
Proof. apply at_later; [exact Hhs|reflexivity]. Qed.
Lemma after_later o : at_ hs it o -> later hs0 it o.
Proof. apply at_later; [exact hs_tail|reflexivity]. Qed.
Lemma done_later n o : rest_of F E hs o (drop n it) -> later hs0 it o.
Proof. apply rest_later; [exact hs_tail|exists (take n it); rewrite take_drop; reflexivity]. Qed.
Lemma sim_write n2 wi : len_of h = Some n2 ->
  sim (beside (at_ (h :: hs) it)) (beside (rest hs (drop n2 it))) (beside (later hs0 it))
    (write_from_iter_live e N next hint wi) (write_from_iter e N wi n2 it).
Proof.
  intros Hh. unfold write_from_iter_live, write_from_iter.
  eapply sim_bind; [apply sim_fst; exact before_later|]. intros c0.
  apply sim_bind with (P1 := beside (at_ (h :: hs) it)) (m := (set_left 0 ;;; set_right 0)) (k := fun _ =>
    let! expected_end := uadd e wi n2 in
    let! wi' := write_loop e N n2 it wi in
    (if expected_end =? wi' then ret tt else slots_forget N 0 0 ;;; panic) ;;;
    set_left (left c0) ;;; set_right (right c0)); [apply sim_fst; exact before_later|]. intros _.
  eapply sim_len_forget; [exact Hs|exact Hh|].
  eapply sim_bind; [apply sim_uadd, beside_mono, after_later|]. intros ee.
  eapply sim_bind; [apply sim_write_loop; [exact hs_tail|reflexivity]|]. intros wi'.
  eapply sim_bind; [|intros _; apply sim_fst, done_later].
  apply sim_if; [apply sim_ret|]. eapply sim_bind; [apply sim_fst, done_later|]. intros _.
  apply sim_panic, beside_mono, done_later.
Qed.
(** [len()] panics when the items are about to be written: as when the first of them panics. *)
Lemma sim_write_fails wi : len_of h = None -> wi + 1 < word e ->
  sim (beside (at_ (h :: hs) it)) (beside (fun _ => False)) (beside (later hs0 it))
    (write_from_iter_live e N next hint wi) (write_from_iter e N wi 1 [Boom]).
Proof.
  intros Hh Hw [c [s gs]] c1 g [E1 HP]. cbn [fst snd] in E1, HP. subst c1. unfold at_ in HP. cbn [fst snd] in HP.
  destruct (exact_len_answer F E next hint Hs s gs h hs it HP) as (s' & gs' & H' & E1). rewrite Hh in E1.
  unfold write_from_iter_live, write_from_iter. cbn [write_loop]. unfold bind, on_fst, set_left, set_right, get, on_iter, uadd.
  cbn [fst snd left right]. rewrite E1, if_true by lia. unfold slots_forget, ret, panic. cbn [fst snd].
  eexists. split; [reflexivity|]. split; [reflexivity|apply after_later; exact H'].
Qed.
End tail.

Lemma sim_insert_from h1 h2 hs n1 n2 it i : len_of h1 = Some n1 -> len_of h2 = Some n2 ->
  sim (beside (at_ (h1 :: h2 :: hs) it)) (beside (rest hs (drop n2 it))) (beside (later (h1 :: h2 :: hs) it))
    (insert_from_live e N next hint i) (insert_from e N i n1 n2 it).
Proof.
  intros Hh1 Hh2. assert (Hhs : (h2 :: hs) `suffix_of` (h1 :: h2 :: hs)) by apply suffix_cons_r, reflexivity.
  pose proof (before_later h2 hs _ it Hhs) as B. pose proof (done_later h2 hs _ it Hhs n2) as D.
  unfold insert_from_live, insert_from. eapply sim_len; [exact Hs|exact Hh1|]. cbv zeta.
  eapply sim_bind; [apply sim_fst, B|]. intros n. eapply sim_bind; [apply sim_uadd, beside_mono, B|]. intros total.
  apply sim_if; [apply sim_panic, beside_mono, B|]. apply sim_if; [apply sim_panic, beside_mono, B|].
  eapply sim_bind; [apply sim_fst, B|]. intros c. eapply sim_bind; [apply sim_uadd, beside_mono, B|]. intros ri.
  eapply sim_bind; [apply sim_usub, beside_mono, B|]. intros rs. apply sim_if.
  - eapply sim_bind; [apply sim_usub, beside_mono, B|]. intros l1. eapply sim_bind; [apply sim_fst, B|]. intros _.
    eapply sim_bind; [apply sim_usub, beside_mono, B|]. intros wi. eapply sim_bind; [apply sim_write; eassumption|]. intros _.
    apply sim_fst, D.
  - eapply sim_bind; [apply sim_uadd, beside_mono, B|]. intros rr. apply sim_if.
    + eapply sim_bind; [apply sim_uadd, beside_mono, B|]. intros to. eapply sim_bind; [apply sim_fst, B|]. intros _.
      eapply sim_bind; [apply sim_write; eassumption|]. intros _. eapply sim_bind; [apply sim_uadd, beside_mono, D|]. intros r1.
      apply sim_fst, D.
    + eapply sim_bind; [apply sim_fst, B|]. intros _. eapply sim_bind; [apply sim_uadd, beside_mono, B|]. intros to.
      eapply sim_bind; [apply sim_fst, B|]. intros _.
      eapply sim_bind; [apply sim_write; eassumption|]. intros _. eapply sim_bind; [apply sim_usub, beside_mono, D|]. intros r1.
      eapply sim_bind; [apply sim_uadd, beside_mono, D|]. intros r2. apply sim_fst, D.
Qed.
(** The second [len()] panics. *)
Lemma sim_insert_from_fails h1 h2 hs n1 it i c l s gs g : N + N < word e -> N + 1 < word e -> len_of h1 = Some n1 -> len_of h2 = None ->
  ChunkProofs.Holds N c l -> length l + n1 <= N -> i <= length l -> F s gs (h1 :: h2 :: hs) it ->
  mirrors (beside (fun _ => False)) (beside (later (h1 :: h2 :: hs) it)) (insert_from_live e N next hint i (c, (s, gs)) g) (insert_from e N i n1 1 [Boom] c g).
Proof.
  intros HW HW1 Hh1 Hh2 Hc Hn Hi HF.
  destruct (exact_len_answer F E next hint Hs s gs h1 (h2 :: hs) it HF) as (s' & gs' & H' & E1). rewrite Hh1 in E1.
  unfold insert_from_live, insert_from. cbv zeta.
  assert (HlN : right c <= N /\ left c + length l = right c).
  { destruct Hc as (? & ? & _). lia. }
  erewrite (bind_Ret (on_iter (exact_len hint))) by (unfold on_iter; cbn [fst snd]; rewrite E1; reflexivity).
  erewrite (bind_Ret (on_fst (len e))) by (apply on_fst_Ret; apply (ChunkProofs.len_eq e N HW c l g Hc)).
  erewrite (bind_Ret (len e)) by (apply (ChunkProofs.len_eq e N HW c l g Hc)).
  erewrite !bind_Ret by (apply uadd_ok; lia). rewrite !if_false by lia.
  erewrite (bind_Ret (on_fst get)) by reflexivity. erewrite (bind_Ret get) by reflexivity.
  cbn [fst snd]. erewrite (bind_Ret (uadd e _ _) _ (c, (s', gs'))) by (apply uadd_ok; lia). erewrite (bind_Ret (uadd e _ _) _ c) by (apply uadd_ok; lia).
  erewrite (bind_Ret (usub e _ _) _ (c, (s', gs'))) by (apply usub_ok; lia). erewrite (bind_Ret (usub e _ _) _ c) by (apply usub_ok; lia).
  assert (W : forall wi (kl : unit -> M A (chunk A * (S * log A)) unit) k, wi + 1 < word e ->
    sim (beside (at_ (h2 :: hs) it)) (beside (fun _ => False)) (beside (later (h1 :: h2 :: hs) it))
      (bind (write_from_iter_live e N next hint wi) kl) (bind (write_from_iter e N wi 1 [Boom]) k)).
  { intros wi kl k Hw. eapply sim_bind; [eapply sim_write_fails; [apply suffix_cons_r; reflexivity|assumption..]|].
    intros u0 l0 o0 g0 H. destruct H as [_ H]. destruct H. }
  assert (B : forall o, at_ (h2 :: hs) it o -> later (h1 :: h2 :: hs) it o)
    by (apply before_later; apply suffix_cons_r; reflexivity).
  assert (G : forall ml m, sim (beside (at_ (h2 :: hs) it)) (beside (fun _ => False)) (beside (later (h1 :: h2 :: hs) it)) ml m ->
    mirrors (beside (fun _ => False)) (beside (later (h1 :: h2 :: hs) it)) (ml (c, (s', gs')) g) (m c g : outcome A _ unit)).
  { intros ml m H. apply H. split; [reflexivity|exact H']. }
  apply G. destruct (_ || _) eqn:Eb.
  - eapply sim_bind; [apply sim_usub, beside_mono, B|]. intros l1. eapply sim_bind; [apply sim_fst, B|]. intros _.
    intros l0 o0 g0 H0.
    assert (Hle : n1 <= i + left c) by lia.
    erewrite (bind_Ret (usub e _ _) _ l0) by (apply usub_ok; lia). erewrite (bind_Ret (usub e _ _) _ o0) by (apply usub_ok; lia).
    apply W; [lia|exact H0].
  - eapply sim_bind; [apply sim_uadd, beside_mono, B|]. intros rr. apply sim_if.
    + eapply sim_bind; [apply sim_uadd, beside_mono, B|]. intros to. eapply sim_bind; [apply sim_fst, B|]. intros _.
      apply W. lia.
    + eapply sim_bind; [apply sim_fst, B|]. intros _. eapply sim_bind; [apply sim_uadd, beside_mono, B|]. intros to.
      eapply sim_bind; [apply sim_fst, B|]. intros _. apply W. lia.
Qed.
End chunk.

Section ring.
Context {A S : Type} (e : env A) (N : nat)
  (F : S -> log A -> list (option (nat * option nat)) -> list (ev A) -> Prop) (E : S -> log A -> Prop)
  (next : M A S (option A)) (hint : M A S (nat * option nat)).
Hypothesis Hs : scripted F E next hint.
Notation at_ := (at_ F).
Notation later := (later F E).
Notation rest hs it := (fun o => rest_of F E hs o it).

Lemma sim_wrap_down {L O} (P K : L -> O -> Prop) fuel : (forall l o, P l o -> K l o) ->
  forall x, sim (A := A) P P K (wrap_down e N fuel x) (wrap_down e N fuel x).
Proof.
  intros HK. induction fuel as [|fuel IH]; intros x; cbn [wrap_down]; apply sim_if; try apply sim_ret.
  - intros l o g H. reflexivity.
  - eapply sim_bind; [apply sim_usub, HK|]. exact IH.
Qed.
Lemma sim_fill_loop hs hs0 it0 k : forall it i n, hs `suffix_of` hs0 -> it `suffix_of` it0 ->
  sim (beside (at_ hs it)) (beside (rest hs (drop k it))) (beside (later hs0 it0)) (fill_loop_live e N next k i n) (fill_loop e N k it i n).
Proof.
  induction k as [|k IH]; intros it i n Hhs Hit; cbn [fill_loop_live].
  - intros l o g [H1 H2]. exists l. split; [reflexivity|]. split; [exact H1|left; exact H2].
  - eapply sim_next_forget; [exact Hs|]. destruct it as [|[x|] it]; cbn [fill_loop drop].
    + intros l o g [H1 H2]. exists l. split; [reflexivity|]. split; [exact H1|right; auto].
    + assert (Hit' : it `suffix_of` it0) by (eapply suffix_cons_l; exact Hit).
      assert (B : forall o, at_ hs it o -> later hs0 it0 o) by (intros o; apply at_later; assumption).
      eapply sim_bind; [apply sim_fst, B|]. intros _.
      eapply sim_bind; [unfold raw_add_assign; eapply sim_bind;
        [apply sim_uadd, beside_mono, B|intros; apply sim_wrap_down, beside_mono, B]|]. intros i'.
      eapply sim_bind; [apply sim_uadd, beside_mono, B|]. intros n'. apply IH; assumption.
    + split; [|reflexivity]. intros o. apply at_later; [exact Hhs|eapply suffix_cons_l; exact Hit].
Qed.
Lemma sim_rb_insert_from fuel h hs n it i : len_of h = Some n -> length it < fuel ->
  sim (beside (at_ (h :: hs) it)) (beside (later hs it)) (beside (later hs it))
    (rb_insert_from_live e N next hint fuel i) (rb_insert_from e N i n it).
Proof.
  intros Hh Hf. assert (B : forall o, at_ hs it o -> later hs it o) by (intros o; apply at_later; reflexivity).
  assert (D : forall o, rest_of F E hs o (drop n it) -> later hs it o)
    by (intros o; apply rest_later; [reflexivity|exists (take n it); rewrite take_drop; reflexivity]).
  assert (W : forall o, over E o -> later hs it o) by (intros o; apply over_later).
  unfold rb_insert_from_live, rb_insert_from. eapply sim_len; [exact Hs|exact Hh|].
  eapply sim_bind; [apply sim_fst, B|]. intros r. eapply sim_bind; [apply sim_uadd, beside_mono, B|]. intros total.
  apply sim_if; [apply sim_panic, beside_mono, B|]. apply sim_if; [apply sim_panic, beside_mono, B|].
  apply sim_if.
  - apply sim_weaken with (P := beside (at_ hs it)) (Q := beside (over E)) (K' := beside (later hs it));
      [auto|apply beside_mono, W|auto|].
    apply (sim_extend F E next hint Hs (rb_push_back e N) (rb_extend e N)); auto.
  - eapply sim_bind; [apply sim_usub, beside_mono, B|]. intros rc. eapply sim_bind; [apply sim_fst, B|]. intros _.
    eapply sim_bind; [apply sim_fst, B|]. intros i'. eapply sim_bind; [apply sim_fst, B|]. intros n'.
    eapply sim_bind; [apply sim_fst, B|]. intros _. eapply sim_bind; [apply sim_fill_loop; reflexivity|]. intros k.
    apply sim_weaken with (P := beside (rest hs (drop n it))) (Q := beside (rest hs (drop n it))) (K' := beside (later hs it));
      [auto|apply beside_mono, D|auto|].
    eapply sim_bind; [|intros _; apply sim_fst, D].
    apply sim_if; [apply sim_ret|]. eapply sim_bind; [apply sim_fst, D|]. intros _. apply sim_panic, beside_mono, D.
Qed.
End ring.
