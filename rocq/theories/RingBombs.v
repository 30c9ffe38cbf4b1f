(** * [RingBuffer]s of values whose destructors may panic. *)
From Verif Require Import Machine Spec Prims IterSpec RingModel RingProofs RingProofs2 RingProofs3
  RingProofs4 RingProofs5 RingProofs6 Program SpecProps RingProgram Bombs BombProgram ChunkBombs.

Section ring.
Context {A : Type} (e : env A) (N : nat).
Notation e0 := (calmed e).
Notation M := (M A (ring A)).
Lemma tame_set_origin x : tame e (set_origin (A := A) x) (set_origin x).
Proof. apply mute_tame. intros o g. reflexivity. Qed.
Lemma tame_set_length x : tame e (set_length (A := A) x) (set_length x).
Proof. apply mute_tame. intros o g. reflexivity. Qed.
Section index.
Context {O : Type}.
Lemma tame_raw_from i : tame e (O := O) (raw_from e N i) (raw_from e0 N i).
Proof. unfold raw_from. tame. Qed.
Lemma tame_wrap_down k : forall i, tame e (O := O) (wrap_down e N k i) (wrap_down e0 N k i).
Proof. induction k as [|k IH]; intros i; cbn [wrap_down]; tame; try apply IH. Qed.
Lemma tame_wrap_up k : forall i j, tame e (O := O) (wrap_up e N k i j) (wrap_up e0 N k i j).
Proof. induction k as [|k IH]; intros i j; cbn [wrap_up]; tame; try apply IH. Qed.
Lemma tame_raw_add i j : tame e (O := O) (raw_add e N i j) (raw_add e0 N i j).
Proof. unfold raw_add. apply tame_bind; [tame|]. intros r. apply tame_bind; [apply tame_wrap_down|]. intros. apply tame_raw_from. Qed.
Lemma tame_raw_add_assign i j : tame e (O := O) (raw_add_assign e N i j) (raw_add_assign e0 N i j).
Proof. unfold raw_add_assign. apply tame_bind; [tame|]. intros r. apply tame_wrap_down. Qed.
Lemma tame_raw_sub i j : tame e (O := O) (raw_sub e N i j) (raw_sub e0 N i j).
Proof. unfold raw_sub. apply tame_bind; [apply tame_wrap_up|]. intros. apply tame_bind; [tame|]. intros. apply tame_raw_from. Qed.
Lemma tame_raw_sub_assign i j : tame e (O := O) (raw_sub_assign e N i j) (raw_sub_assign e0 N i j).
Proof. unfold raw_sub_assign. apply tame_bind; [apply tame_wrap_up|]. intros. tame. Qed.
Lemma tame_raw_inc i : tame e (O := O) (raw_inc e N i) (raw_inc e0 N i).
Proof. unfold raw_inc. tame. Qed.
Lemma tame_raw_dec i : tame e (O := O) (raw_dec e N i) (raw_dec e0 N i).
Proof. unfold raw_dec. tame. Qed.
Lemma tame_ptr i : tame e (O := O) (ptr e N i) (ptr e0 N i).
Proof. unfold ptr. tame. Qed.
End index.
Ltac tame_i := first
  [ apply tame_set_origin | apply tame_set_length | apply tame_raw_from | apply tame_raw_add | apply tame_raw_add_assign
  | apply tame_raw_sub | apply tame_raw_sub_assign | apply tame_raw_inc | apply tame_raw_dec | apply tame_ptr ].
Ltac tame_a := repeat first [tame_i | tame_step].
Lemma tame_raw i : tame e (raw e N i) (raw e0 N i).
Proof. unfold raw. tame_a. Qed.
Lemma tame_rb_range : tame e (rb_range e N) (rb_range e0 N).
Proof. unfold rb_range. tame_a. Qed.
Lemma tame_rb_force_read i : tame e (rb_force_read e N i) (rb_force_read e0 N i).
Proof. unfold rb_force_read. tame_a. Qed.
Lemma tame_rb_force_write i a : tame e (rb_force_write e N i a) (rb_force_write e0 N i a).
Proof. unfold rb_force_write. tame_a. Qed.
Lemma tame_for_range (b b0 : nat -> M unit) : (forall i, tame e (b i) (b0 i)) ->
  forall k i, tame e (for_range e N k i b) (for_range e0 N k i b0).
Proof. intros Hb. induction k as [|k IH]; intros i; cbn [for_range]; tame_a; try apply IH; try apply Hb. Qed.
Lemma tame_skip_range k : forall i, tame e (skip_range (A := A) e N k i) (skip_range e0 N k i).
Proof. induction k as [|k IH]; intros i; cbn [skip_range]; tame_a; try apply IH. Qed.
Lemma brisk_rb_force_drop i : brisk e (rb_force_drop e N i) (rb_force_drop e0 N i).
Proof.
  unfold rb_force_drop. apply brisk_bind; [apply tame_brisk, tame_ptr|]. intros _.
  apply brisk_bind; [apply tame_brisk, tame_slot_read|]. intros a. apply brisk_drop_values.
Qed.
Lemma brisk_drop_range k : forall i, brisk e (for_range e N k i (rb_force_drop e N)) (for_range e0 N k i (rb_force_drop e0 N)).
Proof.
  induction k as [|k IH]; intros i; cbn [for_range]; [apply tame_brisk, tame_ret|].
  apply brisk_bind; [apply tame_brisk, tame_raw_inc|]. intros j.
  apply brisk_bind; [apply brisk_rb_force_drop|]. intros _. apply IH.
Qed.
Lemma brisk_rb_destroy : brisk e (rb_destroy e N) (rb_destroy e0 N).
Proof.
  apply brisk_destroying. unfold rb_drop. apply brisk_bind; [apply tame_brisk, tame_rb_range|]. intros r.
  apply brisk_drop_range.
Qed.
Ltac tame_d := repeat first
  [ tame_i | apply tame_raw | apply tame_rb_range | apply tame_rb_force_read | apply tame_rb_force_write
  | apply tame_with_local; [apply brisk_rb_destroy|] | tame_step].
Lemma tame_rb_force_copy_to i j n : tame e (rb_force_copy_to e N i j n) (rb_force_copy_to e0 N i j n).
Proof. unfold rb_force_copy_to. tame_d. Qed.
Lemma tame_copy_from_ k : forall i j n, tame e (copy_from_ e N k i j n) (copy_from_ e0 N k i j n).
Proof. induction k as [|k IH]; intros i j n; cbn [copy_from_]; tame_d; first [apply IH | apply tame_rb_force_copy_to]. Qed.
Lemma tame_copy_from i j n : tame e (copy_from e N i j n) (copy_from e0 N i j n).
Proof. apply tame_copy_from_. Qed.
Lemma tame_rb_push_front v : tame e (rb_push_front e N v) (rb_push_front e0 N v).
Proof. unfold rb_push_front. tame_d. Qed.
Lemma tame_rb_push_back v : tame e (rb_push_back e N v) (rb_push_back e0 N v).
Proof. unfold rb_push_back. tame_d. Qed.
Lemma tame_rb_extend it : tame e (rb_extend e N it) (rb_extend e0 N it).
Proof. induction it as [|[a|] it IH]; cbn [rb_extend]; tame_d; try apply tame_rb_push_back. Qed.
Lemma tame_shift_down k : forall i t b, tame e (shift_down e N k i t b) (shift_down e0 N k i t b).
Proof. induction k as [|k IH]; intros i t b; cbn [shift_down]; tame_d; try apply IH. Qed.
Lemma tame_pull_one b i : tame e (pull_one e N b i) (pull_one e0 N b i).
Proof. unfold pull_one. tame_d. Qed.
Ltac tame_x := repeat first
  [ apply tame_rb_push_front | apply tame_rb_push_back | apply tame_rb_extend | apply tame_shift_down
  | apply tame_for_range; intros ?; apply tame_pull_one | apply tame_copy_from
  | tame_i | apply tame_raw | apply tame_rb_range | apply tame_rb_force_read | apply tame_rb_force_write
  | apply tame_with_local; [apply brisk_rb_destroy|] | tame_step].
Lemma tame_rb_insert i v : tame e (rb_insert e N i v) (rb_insert e0 N i v).
Proof. unfold rb_insert. tame_x. Qed.
Lemma tame_fill_loop k : forall it i n, tame e (fill_loop e N k it i n) (fill_loop e0 N k it i n).
Proof. induction k as [|k IH]; intros [|[a|] it] i n; cbn [fill_loop]; tame_d; try apply IH. Qed.
Lemma tame_rb_insert_from i n it : tame e (rb_insert_from e N i n it) (rb_insert_from e0 N i n it).
Proof. unfold rb_insert_from, rb_len. tame_x. all: apply tame_fill_loop. Qed.
Lemma tame_rb_peek_all k : forall i, tame e (rb_peek_all_ e N k i) (rb_peek_all_ e0 N k i).
Proof. induction k as [|k IH]; intros i; cbn [rb_peek_all_]; tame_d; try apply IH. Qed.
Lemma tame_rb_contents : tame e (rb_contents e N) (rb_contents e0 N).
Proof. unfold rb_contents. tame_d. apply tame_rb_peek_all. Qed.
Lemma tame_close_up k : forall i t, tame e (close_up e N k i t) (close_up e0 N k i t).
Proof. induction k as [|k IH]; intros i t; cbn [close_up]; tame_d; try apply IH. Qed.
Lemma tame_close_down k : forall i t, tame e (close_down e N k i t) (close_down e0 N k i t).
Proof. induction k as [|k IH]; intros i t; cbn [close_down]; tame_d; try apply IH. Qed.
Lemma tame_rb_remove i : tame e (rb_remove e N i) (rb_remove e0 N i).
Proof. unfold rb_remove. tame_x. apply tame_close_up. apply tame_close_down. Qed.
Lemma tame_rb_take_loop k : tame e (rb_take_loop e N k) (rb_take_loop e0 N k).
Proof. induction k as [|k IH]; cbn [rb_take_loop]; tame_x. Qed.
Lemma tame_rb_clone_loop cl n : forall i k, tame e (rb_clone_loop e N cl n i k) (rb_clone_loop e0 N cl n i k).
Proof. induction n as [|n IH]; intros i k; cbn [rb_clone_loop]; tame_x; try apply IH. Qed.
Lemma tame_sl_contents s : tame e (sl_contents e N s) (sl_contents e0 N s).
Proof. unfold sl_contents, sl_iter, sl_len. tame_x. apply tame_rb_peek_all. Qed.
Lemma mild_rb_drop_left i : mild e (rb_drop_left e N i) (rb_drop_left e0 N i).
Proof.
  unfold rb_drop_left. destruct (0 <? i); [|apply tame_mild, tame_ret].
  apply mild_bind; [apply tame_mild, tame_get|]. intros c. destruct (_ <? _); [apply tame_mild, tame_panic|].
  apply mild_bind; [apply tame_mild, tame_rb_range|]. intros n.
  apply mild_bind; [apply brisk_mild, brisk_drop_range|]. intros _. apply tame_mild. tame_d.
Qed.
Lemma mild_rb_drop_right i : mild e (rb_drop_right e N i) (rb_drop_right e0 N i).
Proof.
  unfold rb_drop_right. apply mild_bind; [apply tame_mild, tame_get|]. intros c.
  destruct (_ <? _); [apply tame_mild, tame_panic|]. destruct (_ =? _); [apply tame_mild, tame_ret|].
  apply mild_bind; [apply tame_mild, tame_rb_range|]. intros n.
  apply mild_bind; [apply tame_mild, tame_skip_range|]. intros l.
  apply mild_bind; [apply brisk_mild, brisk_drop_range|]. intros _. apply tame_mild. tame_d.
Qed.
Lemma mild_rb_clear : mild e (rb_clear e N) (rb_clear e0 N).
Proof.
  unfold rb_clear. apply mild_bind; [apply tame_mild, tame_rb_range|]. intros n.
  apply mild_bind; [apply brisk_mild, brisk_drop_range|]. intros _. apply tame_mild. tame_d.
Qed.

(** Destroying a ring buffer: the elements are dropped in order up to the first whose destructor panics; the others
    are leaked. *)
Definition ring_killb (l : list A) : bres (A := A) unit unit :=
  if no_bomb e l then BRet tt tt l
  else BPanic tt (until_bomb e l) (drop (length (until_bomb e l)) l).
(** Assignment through an index writes the new value even if the old one panics while it is dropped. *)
Definition ring_bspec : bkit A (ring_op0 A) (ring_op1 A) (ring_opn A) (ring_op2 A) (res A) (list A) :=
  let B := bombed_spec e (ring_spec e N) ring_killb in {|
  bs0 := bs0 B;
  bs1 := fun o l => match o with
    | BAssign i v => match l !! i with
        | Some a => if bomb e a then BPanic (take i l ++ v :: drop (S i) l) [a] []
                    else BRet (take i l ++ v :: drop (S i) l) RUnit [a]
        | None => if bomb e v then BAbort else BPanic l [v] []
        end
    | _ => bs1 B o l end;
  bsn := bsn B; bs2 := bs2 B; bsk := bsk B; bg0 := bg0 B; bg1 := bg1 B; bgn := bgn B |}.
Hypothesis HW : N + N < word e.
Hypothesis HN : 0 < N.
Lemma no_bomb_until l : no_bomb e l = true -> until_bomb e l = l.
Proof.
  unfold no_bomb. induction l as [|a l IH]; cbn; [reflexivity|]. destruct (bomb e a); cbn; [discriminate|].
  intros H. f_equal. apply IH, H.
Qed.
Lemma ring_killb_ok r l g : RHolds N r l -> agreesb (fun _ _ => True) eq g (rb_destroy e N r g) (ring_killb l).
Proof.
  intros Hr. destruct (rb_destroy_bombs e N HW HN r l g Hr) as (r' & g' & E & D & ks & L & P). unfold ring_killb.
  pose proof (no_bomb_until l) as U.
  destruct (no_bomb e l) eqn:B.
  - rewrite U in D, P by reflexivity. rewrite drop_all in P. symmetry in P. apply Permutation_nil in P. subst ks.
    rewrite app_nil_r in L. exists r', g', tt. auto.
  - exists r', g', ks. rewrite E. repeat split; auto. symmetry; exact P.
Qed.
Lemma until_bomb_prefix l : until_bomb e l ++ drop (length (until_bomb e l)) l = l.
Proof. induction l as [|a l IH]; cbn; [reflexivity|]. destruct (bomb e a); cbn; [reflexivity|]. f_equal. exact IH. Qed.
Lemma rb_assign_bomb r l g i v a : RHolds N r l -> l !! i = Some a ->
  agreesb (RHolds N) eq g (rb_assign e N i v r g)
    (if bomb e a then BPanic (take i l ++ v :: drop (S i) l) [a] [] else BRet (take i l ++ v :: drop (S i) l) tt [a]).
Proof.
  intros H Ha. destruct (bomb e a) eqn:Hb; cbn [agreesb]; start; unfold rb_assign;
    pose proof (lookup_lt_Some _ _ _ Ha); exec; unfold drop_values; cbn [List.filter]; rewrite Hb; cbn [length].
  - done_panic.
  - done_ret.
Qed.
Lemma rb_assign_out r l g i v : RHolds N r l -> l !! i = None ->
  agreesb (RHolds N) eq g (rb_assign e N i v r g) (if bomb e v then BAbort else BPanic (R := unit) l [v] []).
Proof.
  intros H Ha. apply lookup_ge_None in Ha.
  destruct (bomb e v) eqn:Hb; cbn [agreesb]; start; unfold rb_assign; exec; unfold panic_dropping; rewrite Hb.
  - reflexivity.
  - done_panic.
Qed.
Theorem ring_refinesb : refinesb (ring_kit e N) (ring_spec e N) ring_bspec (RHolds N).
Proof.
  apply refines_lift with (e := e) (K0 := ring_kit e0 N).
  - exact (ring_refines e0 N HW HN (calmed_calm e)).
  - intros o. left. split; [|reflexivity]. destruct o; cbn [run0 ring_kit]; try apply tame_mapR; unfold rb_new, rb_unit, rb_pair, rb_from_iter, rb_collect_from.
    3: destruct (2 <=? N).
    4: { intros o g. unfold tamed, panic_dropping. cbn. exists [v2; v1]. rewrite <- app_assoc. split; [reflexivity|].
         cbn. destruct (bomb e v2); cbn; [reflexivity|]. destruct (bomb e v1); reflexivity. }
    all: repeat first [apply tame_sealed | apply tame_rb_take_loop | progress tame_x].
  - intros o. destruct o.
    all: match goal with |- context [BAssign] => right | _ => left; split; [|reflexivity] end; cbn [run1 spec1 ring_kit ring_spec].
    all: try (left; apply tame_mapR; unfold rb_pop_front, rb_pop_back, rb_insert_ordered, rb_index, rb_get, rb_get_unchecked,
                rb_eq_list, rb_len;
              repeat first [apply tame_rb_peek_all | apply tame_rb_insert | apply tame_rb_insert_from | apply tame_rb_contents
                           | apply tame_rb_remove | apply tame_sl_contents | progress tame_x]; fail).
    + intros x s g Hx _. cbn [bs1 ring_bspec]. destruct (s !! i) as [a|] eqn:Ha.
      * pose proof (agreesb_mapR _ (@unit_res A) _ _ _ _ (rb_assign_bomb x s g i v a Hx Ha)) as P.
        destruct (bomb e a); exact P.
      * pose proof (agreesb_mapR _ (@unit_res A) _ _ _ _ (rb_assign_out x s g i v Hx Ha)) as P.
        destruct (bomb e v); exact P.
    + right. split; [apply mild_mapR, mild_rb_drop_left|]. intros s. unfold bl_drop_left. split_if; cbn; auto.
    + right. split; [apply mild_mapR, mild_rb_drop_right|]. intros s. unfold bl_drop_right. split_if; cbn; auto.
    + right. split; [apply mild_mapR, mild_rb_clear|]. intros s. exact I.
  - intros o. split; [|reflexivity]. destruct o; cbn [runn ring_kit]; apply tame_mapR; unfold rb_split_off, rb_drain_from, rb_from_front, rb_from_back,
      rb_drain_from_front, rb_drain_from_back, rb_clone, sl_to_owned, rb_from_iter, rb_new;
      repeat first [apply tame_rb_peek_all | apply tame_rb_clone_loop | apply tame_sl_contents | progress tame_x].
  - intros o. split; [|reflexivity]. destruct o; cbn [run2 ring_kit]; apply tame_mapR; unfold rb_append, rb_drain_from_front, rb_drain_from_back, rb_eq, rb_partial_cmp;
      repeat first [apply tame_rb_peek_all | apply tame_rb_contents | progress tame_x].
  - intros x s g. apply ring_killb_ok.
Qed.

Notation prog := (list (cmd (ring_op0 A) (ring_op1 A) (ring_opn A) (ring_op2 A))).
Lemma ring_bbalanced : balancedb (ring_spec e N) ring_bspec.
Proof.
  pose proof (bombed_balanced e (ring_spec e N) ring_killb (ring_balanced e N)) as P.
  assert (HK : forall l, match ring_killb l with
    | BRet _ _ d => Permutation (items (ring_spec e N) l) d
    | BPanic _ d k => Permutation (items (ring_spec e N) l) (d ++ k)
    | _ => True end).
  { intros l. unfold ring_killb. destruct (no_bomb e l); cbn; [reflexivity|]. rewrite until_bomb_prefix. reflexivity. }
  specialize (P HK). split; [exact (bbal0 _ _ P)| |exact (bbaln _ _ P)|exact (bbal2 _ _ P)|exact (bbalk _ _ P)].
  intros o x HL. pose proof (bbal1 _ _ P o x HL) as P1. destruct o; try exact P1.
  pose proof (bal1 _ (ring_balanced e N) (BAssign i v) x HL) as P2. clear P1.
  cbn [bs1 ring_bspec bg1 bombed_spec]. cbn [spec1 ring_spec] in P2. unfold bl_assign in P2.
  destruct (x !! i) as [a|]; cbn [smapR] in P2.
  - destruct (bomb e a); [rewrite app_nil_r|]; exact P2.
  - destruct (bomb e v); [exact I|exact P2].
Qed.
Theorem ring_bomb_program (p : prog) : ball_legal (ring_spec e N) ring_bspec p [] ->
  match brun ring_bspec p [] with
  | BFinished Y d k evs gv => exists X g, runx (ring_kit e N) p [] log0 = Finished X g evs /\
      Forall2 (orel (RHolds N)) X Y /\ dropped g = d /\ Permutation (leaked g) k /\
      Permutation gv (live (ring_spec e N) Y ++ returned (ring_spec e N) evs ++ dropped g ++ leaked g)
  | BAborted => runx (ring_kit e N) p [] log0 = Aborted
  | BUnknown => True
  end.
Proof. apply bomb_program; [exact ring_refinesb|exact ring_bbalanced]. Qed.

(** Discarding, on the normal path, a value whose destructor panics. *)
Definition ring_discards (o : ring_op1 A) (l : list A) : Prop :=
  match o with
  | BDropLeft i => i <= length l /\ exists a, In a (take i l) /\ bomb e a = true
  | BDropRight i => i <= length l /\ exists a, In a (drop i l) /\ bomb e a = true
  | BClear => exists a, In a l /\ bomb e a = true
  | _ => False
  end.
Lemma ring_known p s : spares ring_bspec ring_discards p s -> brun ring_bspec p s <> BUnknown.
Proof.
  apply spares_known; cbn [bs0 bs1 bsn bs2 bsk ring_bspec bombed_spec].
  - intros o. apply quiet_known. destruct o; cbn [spec0 ring_spec]; quiet.
  - intros o l H. destruct o.
    all: try (exfalso; revert H; apply quiet_known; cbn [spec1 ring_spec]; quiet; fail).
    1: { exfalso. destruct (l !! i) as [a|]; [destruct (bomb e a)|destruct (bomb e v)]; discriminate. }
    all: apply with_bombs_open in H; cbn [spec1 ring_spec ring_discards] in *.
    + unfold bl_drop_left in H. destruct (i <=? length l) eqn:E; cbn in H; [|contradiction].
      split; [lia|]. apply existsb_exists, H.
    + unfold bl_drop_right in H. destruct (i <=? length l) eqn:E; cbn in H; [|contradiction].
      split; [lia|]. apply existsb_exists, H.
    + apply existsb_exists, H.
  - intros o l. apply quiet_known. destruct o; cbn [specn ring_spec]; unfold bl_to_owned; quiet.
  - intros o l. apply quiet_known. destruct o; cbn [spec2 ring_spec]; quiet.
  - intros x. unfold ring_killb. destruct (no_bomb _ _); discriminate.
Qed.
Theorem ring_bomb_safe (p : prog) : ball_legal (ring_spec e N) ring_bspec p [] -> spares ring_bspec ring_discards p [] ->
  match brun ring_bspec p [] with
  | BFinished Y d k evs gv => exists X g, runx (ring_kit e N) p [] log0 = Finished X g evs /\
      Forall2 (orel (RHolds N)) X Y /\ dropped g = d /\ Permutation (leaked g) k /\
      Permutation gv (live (ring_spec e N) Y ++ returned (ring_spec e N) evs ++ dropped g ++ leaked g)
  | BAborted => runx (ring_kit e N) p [] log0 = Aborted
  | BUnknown => False
  end.
Proof.
  intros HL HS. pose proof (ring_bomb_program p HL) as P. pose proof (ring_known p [] HS) as Q.
  destruct (brun ring_bspec p []); auto.
Qed.
End ring.
