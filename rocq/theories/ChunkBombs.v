(** * [Chunk]s of values whose destructors may panic. *)
From Verif Require Import Machine Spec Prims IterSpec ChunkModel ChunkProofs ChunkProofs2 ChunkProofs3
  ChunkProofs4 ChunkProofs5 Program SpecProps ChunkProgram ChunkLaws Bombs BombProgram.

Ltac tame_step := first
  [ assumption
  | apply tame_bind; [|intros ?]
  | apply tame_ret | apply tame_get | apply tame_put | apply tame_panic | apply tame_undefined | apply tame_hang
  | apply tame_uadd | apply tame_usub | apply tame_debug_assert | apply tame_assert | apply tame_panic_dropping
  | apply tame_slot_read | apply tame_slot_peek | apply tame_slot_write | apply tame_slots_move
  | apply tame_slots_peek | apply tame_slots_release | apply tame_slots_forget | apply tame_slots_transfer
  | apply tame_on_fst | apply tame_on_snd
  | match goal with
    | |- tame _ (if ?b then _ else _) _ => destruct b
    | |- tame _ (match ?x with _ => _ end) _ => destruct x
    end ].
Ltac tame := repeat tame_step.

(** Which specifications drop nothing when they return. *)
Lemma bl_extend_quiet {A} n it : forall l : list A, match bl_extend n it l with SRet _ _ d => d = [] | _ => True end.
Proof. induction it as [|[a|] it IH]; intros l; cbn [bl_extend]; auto. destruct (_ <? _); [apply IH|exact I]. Qed.
Lemma bl_collect_quiet {A} n k : forall it (l : list A), match bl_collect n k it l with SRet _ _ d => d = [] | _ => True end.
Proof. induction k as [|k IH]; intros [|[a|] it] l; cbn [bl_collect]; auto. destruct (_ <? _); [apply IH|exact I]. Qed.
Lemma quiet_map {A S R T} (f : R -> T) (x : sres A S R) :
  match x with SRet _ _ d => d = [] | _ => True end -> match smapR f x with SRet _ _ d => d = [] | _ => True end.
Proof. destruct x; auto. Qed.
Lemma bl_from_iter_quiet {A} n (it : list (ev A)) : match bl_from_iter n it with SRet _ _ d => d = [] | _ => True end.
Proof. unfold bl_from_iter. pose proof (bl_extend_quiet n it []) as P. destruct (bl_extend n it []); auto. Qed.
Lemma ssealed_quiet {A S R} (x : sres A S R) : match x with SRet _ _ d => d = [] | _ => True end ->
  match ssealed x with SRet _ _ d => d = [] | _ => True end.
Proof. destruct x; auto. Qed.
Ltac quiet := repeat first [reflexivity | exact I | apply bl_extend_quiet | apply bl_from_iter_quiet
    | apply ssealed_quiet, bl_collect_quiet
    | apply quiet_map
    | match goal with
      | |- context [if ?b then _ else _] => destruct b eqn:?
      | |- context [match ?l !! ?i with _ => _ end] => destruct (l !! i)
      | |- context [match ?x with Some _ => _ | None => _ end] => destruct x
      | |- context [match ?x with [] => _ | _ :: _ => _ end] => destruct x
      end
    | progress unfold bl_unit, bl_pair, bl_push_front, bl_push_back, bl_pop_front, bl_pop_back, bl_insert, bl_insert_from_any,
        bl_insert_from_tail, bl_remove, bl_set, bl_index, bl_drop_left, bl_drop_right, bl_try_pop_front, bl_try_pop_back, bl_try_remove, bl_split_off,
        bl_from_front, bl_from_back, bl_drain_all, bl_clone, bl_append, bl_drain_from_front, bl_drain_from_back, bl_get ].

Section chunk.
Context {A : Type} (e : env A) (N : nat).
Notation e0 := (calmed e).
Notation M := (M A (chunk A)).
Lemma tame_set_left x : tame e (set_left (A := A) x) (set_left x).
Proof. apply mute_tame. intros o g. reflexivity. Qed.
Lemma tame_set_right x : tame e (set_right (A := A) x) (set_right x).
Proof. apply mute_tame. intros o g. reflexivity. Qed.
Ltac tame_c := repeat first [apply tame_set_left | apply tame_set_right | tame_step].
Lemma tame_len : tame e (len e) (len e0).
Proof. unfold len. tame_c. Qed.
Lemma tame_force_copy i j n : tame e (force_copy (A := A) N i j n) (force_copy N i j n).
Proof. unfold force_copy. tame_c. Qed.
Lemma tame_force_copy_to i j n : tame e (force_copy_to (A := A) N i j n) (force_copy_to N i j n).
Proof. unfold force_copy_to. tame_c. Qed.
Lemma tame_as_slice : tame e (as_slice e N) (as_slice e0 N).
Proof. unfold as_slice. tame_c. Qed.
Lemma brisk_destroy : brisk e (destroy e N) (destroy e0 N).
Proof.
  apply brisk_destroying. unfold drop_. apply brisk_bind; [apply tame_brisk, tame_get|]. intros c.
  apply brisk_bind; [apply tame_brisk, tame_len|]. intros n. apply brisk_slots_drop.
Qed.
Ltac tame_d := repeat first
  [ apply tame_set_left | apply tame_set_right | apply tame_len | apply tame_force_copy | apply tame_force_copy_to
  | apply tame_as_slice | apply tame_with_local; [apply brisk_destroy|] | tame_step].
Lemma tame_push_front v : tame e (push_front e N v) (push_front e0 N v).
Proof. unfold push_front, force_write. tame_d. Qed.
Lemma tame_push_back v : tame e (push_back e N v) (push_back e0 N v).
Proof. unfold push_back, force_write. tame_d. Qed.
Lemma tame_extend it : tame e (extend e N it) (extend e0 N it).
Proof. induction it as [|[a|] it IH]; cbn [extend]; tame_d; try apply tame_push_back. Qed.
Lemma tame_insert i v : tame e (insert e N i v) (insert e0 N i v).
Proof. unfold insert, force_write. tame_d. Qed.
Lemma tame_write_loop k : forall it w, tame e (write_loop e N k it w) (write_loop e0 N k it w).
Proof. induction k as [|k IH]; intros [|[a|] it] w; cbn [write_loop]; unfold force_write; tame_d; try apply IH. Qed.
Lemma tame_write_from_iter w n it : tame e (write_from_iter e N w n it) (write_from_iter e0 N w n it).
Proof. unfold write_from_iter. tame_d; try apply tame_write_loop. Qed.
Lemma tame_insert_from i n1 n2 it : tame e (insert_from e N i n1 n2 it) (insert_from e0 N i n1 n2 it).
Proof. unfold insert_from. tame_d. all: apply tame_write_loop. Qed.
Lemma tame_collect_loop k : tame e (collect_loop e N k) (collect_loop e0 N k).
Proof. induction k as [|k IH]; cbn [collect_loop]; tame_d; try apply tame_push_back. Qed.
Lemma tame_clone_loop cl n : forall i k, tame e (clone_loop e N cl n i k) (clone_loop e0 N cl n i k).
Proof. induction n as [|n IH]; intros i k; cbn [clone_loop]; unfold force_write; tame_d; try apply IH. Qed.
Lemma tame_write_back l : forall i, tame e (write_back (A := A) N i l) (write_back N i l).
Proof. induction l as [|a l IH]; intros i; cbn [write_back]; tame_d; try apply IH. Qed.
Lemma tame_mapR {O R T} (f : R -> T) (m m0 : Machine.M A O R) : tame e m m0 -> tame e (mapR f m) (mapR f m0).
Proof. intros Hm. unfold mapR. tame. Qed.
Lemma tame_sealed {O R} (o : O) (m m0 : Machine.M A O R) : tame e m m0 -> tame e (sealed o m) (sealed o m0).
Proof.
  intros Hm [] g. specialize (Hm o g). unfold tamed, sealed in *. destruct (m0 o g); auto.
  1-2: destruct Hm as (d & D & E); exists d; split; [exact D|]; rewrite E; destruct (existsb _ _); reflexivity.
  all: destruct Hm as [-> | ->]; auto.
Qed.
Lemma mild_mapR {O R T} (f : R -> T) (m m0 : Machine.M A O R) : mild e m m0 -> mild e (mapR f m) (mapR f m0).
Proof. intros Hm. apply mild_bind; [exact Hm|]. intros r. apply tame_mild, tame_ret. Qed.
Lemma mild_drop_left i : mild e (drop_left e N i) (drop_left e0 N i).
Proof.
  unfold drop_left. destruct (0 <? i); [|apply tame_mild, tame_ret].
  apply mild_bind; [apply tame_mild, tame_get|]. intros c. apply mild_bind; [apply tame_mild, tame_len|]. intros n.
  destruct (i <=? n); [|apply tame_mild, tame_panic].
  apply mild_bind; [apply brisk_mild, brisk_slots_drop|]. intros _. apply tame_mild. tame_d.
Qed.
Lemma mild_drop_right i : mild e (drop_right e N i) (drop_right e0 N i).
Proof.
  unfold drop_right. apply mild_bind; [apply tame_mild, tame_get|]. intros c.
  apply mild_bind; [apply tame_mild, tame_len|]. intros n.
  destruct (negb (i =? n)); [|apply tame_mild, tame_ret]. destruct (i <=? n); [|apply tame_mild, tame_panic].
  apply mild_bind; [apply brisk_mild, brisk_slots_drop|]. intros _. apply tame_mild. tame_d.
Qed.
Lemma mild_clear : mild e (clear e N) (clear e0 N).
Proof.
  unfold clear. apply mild_bind; [apply tame_mild, tame_get|]. intros c.
  apply mild_bind; [apply tame_mild, tame_len|]. intros n.
  apply mild_bind; [apply brisk_mild, brisk_slots_drop|]. intros _. apply tame_mild. tame_d.
Qed.

(** Destroying a chunk: all the elements are dropped; one panic propagates, a second one aborts. *)
Definition chunk_killb (l : list A) : bres (A := A) unit unit :=
  match length (List.filter (bomb e) l) with
  | 0 => BRet tt tt l
  | 1 => BPanic tt l []
  | _ => BAbort
  end.
Hypothesis HW : N + N < word e.
Lemma chunk_killb_ok c l g : Holds N c l -> agreesb (fun _ _ => True) eq g (destroy e N c g) (chunk_killb l).
Proof.
  intros Hc. pose proof (destroy_bombs e N HW c l g Hc) as P. unfold chunk_killb.
  destruct (length (List.filter (bomb e) l)) as [|[|n]].
  - destruct P as (c' & P). exists c', (log_drop l g), tt. auto.
  - destruct P as (c' & P). exists c', (log_drop l g), []. cbn. rewrite app_nil_r. auto.
  - exact P.
Qed.
(** [chunk[i] = v] stores the new value even when the old value's destructor panics. *)
Definition chunk_bspec : bkit A (chunk_op0 A) (chunk_op1 A) (chunk_opn A) (chunk_op2 A) (res A) (list A) :=
  let B := bombed_spec e (chunk_spec e N) chunk_killb in {|
  bs0 := bs0 B;
  bs1 := fun o l => match o with
    | CAssign i v => match l !! i with
        | Some a => if bomb e a then BPanic (take i l ++ v :: drop (S i) l) [a] []
                    else BRet (take i l ++ v :: drop (S i) l) RUnit [a]
        | None => if bomb e v then BAbort else BPanic l [v] []
        end
    | _ => bs1 B o l end;
  bsn := bsn B; bs2 := bs2 B; bsk := bsk B; bg0 := bg0 B; bg1 := bg1 B; bgn := bgn B |}.
Lemma assign_bomb c l g i v a : Holds N c l -> l !! i = Some a ->
  agreesb (Holds N) eq g (assign e N i v c g)
    (if bomb e a then BPanic (take i l ++ v :: drop (S i) l) [a] [] else BRet (take i l ++ v :: drop (S i) l) tt [a]).
Proof.
  intros H Ha. destruct (bomb e a) eqn:Hb; cbn [agreesb]; start; unfold assign;
    pose proof (lookup_lt_Some _ _ _ Ha); exec; unfold drop_values; cbn [List.filter]; rewrite Hb; cbn [length].
  - done_panic.
  - done_ret.
Qed.
Lemma assign_out c l g i v : Holds N c l -> l !! i = None ->
  agreesb (Holds N) eq g (assign e N i v c g) (if bomb e v then BAbort else BPanic (R := unit) l [v] []).
Proof.
  intros H Ha. apply lookup_ge_None in Ha.
  destruct (bomb e v) eqn:Hb; cbn [agreesb]; start; unfold assign; exec; unfold panic_dropping; rewrite Hb.
  - reflexivity.
  - done_panic.
Qed.
Lemma agreesb_mapR {O S R T} (H : O -> S -> Prop) (f : R -> T) (m : Machine.M A O R) o g b :
  agreesb H eq g (m o g) b ->
  agreesb H eq g (mapR f m o g)
    (match b with BRet s r d => BRet s (f r) d | BPanic s d k => BPanic s d k | BAbort => BAbort | BOpen => BOpen end).
Proof.
  destruct b as [s r d|s d k| |]; cbn; auto.
  - intros (o' & g' & x & E & Ho & -> & D & L). exists o', g', (f r). unfold mapR, bind. rewrite E. auto.
  - intros (o' & g' & k' & E & Ho & D & L & P). exists o', g', k'. unfold mapR, bind. rewrite E. auto.
  - intros E. unfold mapR, bind. rewrite E. reflexivity.
Qed.
Theorem chunk_refinesb :
  refinesb (chunk_kit e N) (chunk_spec e N) chunk_bspec (Holds N).
Proof.
  apply refines_lift with (e := e) (K0 := chunk_kit e0 N).
  - exact (chunk_refines e0 N HW (calmed_calm e)).
  - intros o. left. split; [|reflexivity]. destruct o; cbn [run0 chunk_kit]; try apply tame_mapR; unfold unit_, pair_, from_iter, collect_from, force_write.
    3: destruct (2 <=? N).
    4: { intros o g. unfold tamed, panic_dropping. cbn. exists [v2; v1]. rewrite <- app_assoc. split; [reflexivity|].
         cbn. destruct (bomb e v2); cbn; [reflexivity|]. destruct (bomb e v1); reflexivity. }
    all: repeat first [apply tame_extend | apply tame_sealed | apply tame_collect_loop
                      | progress tame_d].
  - intros o. destruct o.
    all: match goal with |- context [CAssign] => right | _ => left; split; [|reflexivity] end; cbn [run1 spec1 chunk_kit chunk_spec].
    all: try (left; apply tame_mapR; unfold pop_front, pop_back, insert_ordered, remove, set, index, iter_next, iter_next_back,
                update_slice, pop_front, pop_back, force_read;
              first [apply tame_push_front | apply tame_push_back | apply tame_insert | apply tame_insert_from
                    | apply tame_extend
                    | repeat first [apply tame_insert | apply tame_write_back | tame_d]]; fail).
    + intros x s g Hx _. cbn [bs1 chunk_bspec]. destruct (s !! i) as [a|] eqn:Ha.
      * pose proof (agreesb_mapR _ (@unit_res A) _ _ _ _ (assign_bomb x s g i v a Hx Ha)) as P.
        destruct (bomb e a); exact P.
      * pose proof (agreesb_mapR _ (@unit_res A) _ _ _ _ (assign_out x s g i v Hx Ha)) as P.
        destruct (bomb e v); exact P.
    + right. split; [apply mild_mapR, mild_drop_left|]. intros s. unfold bl_drop_left. split_if; cbn; auto.
    + right. split; [apply mild_mapR, mild_drop_right|]. intros s. unfold bl_drop_right. split_if; cbn; auto.
    + right. split; [apply mild_mapR, mild_clear|]. intros s. exact I.
  - intros o. split; [|reflexivity]. destruct o; cbn [runn chunk_kit]; apply tame_mapR; unfold split_off, drain_from, from_front, from_back, clone;
      repeat first [apply tame_clone_loop | progress tame_d].
  - intros o. split; [|reflexivity]. destruct o; cbn [run2 chunk_kit]; apply tame_mapR; unfold append, drain_from_front, drain_from_back, eq_, partial_cmp;
      tame_d.
  - intros x s g. apply chunk_killb_ok.
Qed.

Notation prog := (list (cmd (chunk_op0 A) (chunk_op1 A) (chunk_opn A) (chunk_op2 A))).
Lemma chunk_bbalanced : balancedb (chunk_spec e N) chunk_bspec.
Proof.
  pose proof (bombed_balanced e (chunk_spec e N) chunk_killb (chunk_balanced e N)) as P.
  assert (HK : forall l, match chunk_killb l with
    | BRet _ _ d => Permutation (items (chunk_spec e N) l) d
    | BPanic _ d k => Permutation (items (chunk_spec e N) l) (d ++ k)
    | _ => True end).
  { intros l. unfold chunk_killb. destruct (length _) as [|[|n]]; cbn; rewrite ?app_nil_r; auto. }
  specialize (P HK). split; [exact (bbal0 _ _ P)| |exact (bbaln _ _ P)|exact (bbal2 _ _ P)|exact (bbalk _ _ P)].
  intros o x HL. pose proof (bbal1 _ _ P o x HL) as P1. destruct o; try exact P1.
  pose proof (bal1 _ (chunk_balanced e N) (CAssign i v) x HL) as P2. clear P1.
  cbn [bs1 chunk_bspec bg1 bombed_spec]. cbn [spec1 chunk_spec] in P2. unfold bl_assign in P2.
  destruct (x !! i) as [a|]; cbn [smapR] in P2.
  - destruct (bomb e a); [rewrite app_nil_r|]; exact P2.
  - destruct (bomb e v); [exact I|exact P2].
Qed.
Theorem chunk_bomb_program (p : prog) : ball_legal (chunk_spec e N) chunk_bspec p [] ->
  match brun chunk_bspec p [] with
  | BFinished Y d k evs gv => exists X g, runx (chunk_kit e N) p [] log0 = Finished X g evs /\
      Forall2 (orel (Holds N)) X Y /\ dropped g = d /\ Permutation (leaked g) k /\
      Permutation gv (live (chunk_spec e N) Y ++ returned (chunk_spec e N) evs ++ dropped g ++ leaked g)
  | BAborted => runx (chunk_kit e N) p [] log0 = Aborted
  | BUnknown => True
  end.
Proof.
  apply bomb_program; [exact chunk_refinesb|exact chunk_bbalanced].
Qed.

(** Discarding, on the normal path, a value whose destructor panics. *)
Definition chunk_discards (o : chunk_op1 A) (l : list A) : Prop :=
  match o with
  | CDropLeft i => i <= length l /\ exists a, In a (take i l) /\ bomb e a = true
  | CDropRight i => i <= length l /\ exists a, In a (drop i l) /\ bomb e a = true
  | CClear => exists a, In a l /\ bomb e a = true
  | _ => False
  end.
Lemma quiet_known {S R} (x : sres A S R) : match x with SRet _ _ d => d = [] | _ => True end -> with_bombs e x <> BOpen.
Proof. intros Q H. apply with_bombs_open in H. destruct x; [subst; discriminate|contradiction]. Qed.
Lemma chunk_known p s : spares chunk_bspec chunk_discards p s -> brun chunk_bspec p s <> BUnknown.
Proof.
  apply spares_known; cbn [bs0 bs1 bsn bs2 bsk chunk_bspec bombed_spec].
  - intros o. apply quiet_known. destruct o; cbn [spec0 chunk_spec]; quiet.
  - intros o l H. destruct o.
    all: try (exfalso; revert H; apply quiet_known; cbn [spec1 chunk_spec]; quiet; fail).
    1: { exfalso. cbn [bs1 chunk_bspec] in H. destruct (l !! i) as [a|]; [destruct (bomb e a)|destruct (bomb e v)]; discriminate. }
    all: apply with_bombs_open in H; cbn [spec1 chunk_spec chunk_discards] in *.
    + unfold bl_drop_left in H. destruct (i <=? length l) eqn:E; cbn in H; [|contradiction].
      split; [lia|]. apply existsb_exists, H.
    + unfold bl_drop_right in H. destruct (i <=? length l) eqn:E; cbn in H; [|contradiction].
      split; [lia|]. apply existsb_exists, H.
    + apply existsb_exists, H.
  - intros o l. apply quiet_known. destruct o; cbn [specn chunk_spec]; quiet.
  - intros o l. apply quiet_known. destruct o; cbn [spec2 chunk_spec]; quiet.
  - intros x. unfold chunk_killb. destruct (length _) as [|[|n]]; discriminate.
Qed.
Theorem chunk_bomb_safe (p : prog) : ball_legal (chunk_spec e N) chunk_bspec p [] -> spares chunk_bspec chunk_discards p [] ->
  match brun chunk_bspec p [] with
  | BFinished Y d k evs gv => exists X g, runx (chunk_kit e N) p [] log0 = Finished X g evs /\
      Forall2 (orel (Holds N)) X Y /\ dropped g = d /\ Permutation (leaked g) k /\
      Permutation gv (live (chunk_spec e N) Y ++ returned (chunk_spec e N) evs ++ dropped g ++ leaked g)
  | BAborted => runx (chunk_kit e N) p [] log0 = Aborted
  | BUnknown => False
  end.
Proof.
  intros HL HS. pose proof (chunk_bomb_program p HL) as P. pose proof (chunk_known p [] HS) as Q.
  destruct (brun chunk_bspec p []); auto.
Qed.
End chunk.
