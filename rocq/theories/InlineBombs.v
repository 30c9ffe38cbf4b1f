(** * [InlineArray]s of values whose destructors may panic. *)
From Verif Require Import Machine Spec Prims InlineModel InlineSpec InlineProofs InlineProofs2 InlineProofs3
  Program SpecProps ChunkProgram InlineProgram InlineLaws Bombs BombProgram ChunkBombs RingBombs.

Section inline.
Context {A : Type} (e : env A) (L : layout).
Notation e0 := (calmed e).
Notation M := (M A (inline A)).
Ltac mute := apply mute_tame; intros ? ?.
Lemma tame_ptr_add p n s : tame e (ptr_add (A := A) L p n s) (ptr_add L p n s).
Proof. unfold ptr_add. destruct p; tame. Qed.
Lemma tame_usize_read b p : tame e (usize_read (A := A) L b p) (usize_read L b p).
Proof.
  mute. unfold usize_read. destruct (negb _); [exact I|]. destruct p; [exact I|]. destruct (bytes _ _) as [[]|]; try exact I.
  destruct (forallb _ _); [reflexivity|exact I].
Qed.
Lemma tame_usize_write b p n : tame e (usize_write (A := A) L b p n) (usize_write L b p n).
Proof.
  mute. unfold usize_write. destruct (negb _); [exact I|]. destruct p; [exact I|].
  destruct (forallb _ _); [reflexivity|exact I].
Qed.
Lemma tame_elem_read b p : tame e (elem_read (A := A) L b p) (elem_read L b p).
Proof.
  mute. unfold elem_read. destruct (negb _); [exact I|]. destruct (_ =? _).
  - destruct (zst _); [exact I|reflexivity].
  - destruct p; [exact I|]. destruct (decode _ _ _); [reflexivity|exact I].
Qed.
Lemma tame_elem_write b p a : tame e (elem_write (A := A) L b p a) (elem_write L b p a).
Proof.
  mute. unfold elem_write. destruct (negb _); [exact I|]. destruct (_ =? _); [reflexivity|].
  destruct p; [exact I|]. destruct (forallb _ _); [reflexivity|exact I].
Qed.
Lemma tame_elems_move b p q n : tame e (elems_move (A := A) L b p q n) (elems_move L b p q n).
Proof.
  mute. unfold elems_move. destruct (negb _); [exact I|]. destruct (_ =? _); [reflexivity|].
  destruct p, q; try reflexivity. cbn zeta. destruct (forallb _ _); [reflexivity|exact I].
Qed.
Lemma tame_elems_peek b p n : tame e (elems_peek (A := A) L b p n) (elems_peek L b p n).
Proof.
  mute. unfold elems_peek. destruct (negb _); [exact I|]. destruct (_ =? _).
  - destruct (_ <=? _); [reflexivity|exact I].
  - destruct p; [reflexivity|]. destruct (mapM _ _); [reflexivity|exact I].
Qed.
Lemma tame_elems_take b p n : tame e (elems_take (A := A) L b p n) (elems_take L b p n).
Proof.
  unfold elems_take. apply tame_bind; [apply tame_elems_peek|]. intros vs.
  apply tame_bind; [mute; reflexivity|]. intros _. apply tame_ret.
Qed.
Ltac tame_p := repeat first
  [ apply tame_ptr_add | apply tame_usize_read | apply tame_usize_write | apply tame_elem_read | apply tame_elem_write
  | apply tame_elems_move | apply tame_elems_take | apply tame_elems_peek | tame_step ].
Lemma tame_elems_put b vs : forall p, tame e (elems_put (A := A) L b p vs) (elems_put L b p vs).
Proof. induction vs as [|a vs IH]; intros p; cbn [elems_put]; tame_p. apply IH. Qed.
Lemma tame_elems_transfer b b2 p q n : tame e (elems_transfer (A := A) L b b2 p q n) (elems_transfer L b b2 p q n).
Proof. unfold elems_transfer. tame_p. apply tame_elems_put. Qed.
Lemma tame_ia_len_ptr b : tame e (ia_len_ptr e L b) (ia_len_ptr e0 L b).
Proof. unfold ia_len_ptr. tame_p. Qed.
Lemma tame_ia_data b : tame e (ia_data e L b) (ia_data e0 L b).
Proof. unfold ia_data. change (capacity e0 L) with (capacity e L). tame_p. Qed.
Ltac tame_q := repeat first
  [ apply tame_ia_len_ptr | apply tame_ia_data
  | apply tame_ptr_add | apply tame_usize_read | apply tame_usize_write | apply tame_elem_read | apply tame_elem_write
  | apply tame_elems_move | apply tame_elems_take | apply tame_elems_peek | apply tame_elems_put | apply tame_elems_transfer
  | tame_step ].
Lemma tame_ia_ptr_at b i : tame e (ia_ptr_at e L b i) (ia_ptr_at e0 L b i).
Proof. unfold ia_ptr_at. change (capacity e0 L) with (capacity e L). tame_q. Qed.
Lemma tame_ia_write_at b i a : tame e (ia_write_at e L b i a) (ia_write_at e0 L b i a).
Proof. unfold ia_write_at. apply tame_bind; [apply tame_ia_ptr_at|]. intros. tame_q. Qed.
Lemma tame_ia_read_at b i : tame e (ia_read_at e L b i) (ia_read_at e0 L b i).
Proof. unfold ia_read_at. apply tame_bind; [apply tame_ia_ptr_at|]. intros. tame_q. Qed.
Lemma tame_ia_len b : tame e (ia_len e L b) (ia_len e0 L b).
Proof. unfold ia_len. tame_q. Qed.
Lemma tame_ia_set_len b n : tame e (ia_set_len e L b n) (ia_set_len e0 L b n).
Proof. unfold ia_set_len. tame_q. Qed.
Lemma tame_ia_deref b : tame e (ia_deref e L b) (ia_deref e0 L b).
Proof. unfold ia_deref, ia_len. tame_q. Qed.
Lemma tame_ia_is_full b : tame e (ia_is_full e L b) (ia_is_full e0 L b).
Proof. unfold ia_is_full, ia_len. change (capacity e0 L) with (capacity e L). tame_q. Qed.
Lemma brisk_ia_drop_contents b : brisk e (ia_drop_contents e L b) (ia_drop_contents e0 L b).
Proof.
  unfold ia_drop_contents, elems_drop.
  apply brisk_bind; [apply tame_brisk, tame_ia_data|]. intros d.
  apply brisk_bind; [apply tame_brisk, tame_ia_len|]. intros n.
  apply brisk_bind; [apply tame_brisk, tame_elems_take|]. intros vs. apply brisk_drop_values.
Qed.
Lemma brisk_ia_destroy b : brisk e (ia_destroy e L b) (ia_destroy e0 L b).
Proof.
  intros o g. pose proof (brisk_ia_drop_contents b o g) as Hm. unfold ia_destroy.
  destruct (ia_drop_contents e0 L b o g) as [o1 g1 r1|o1 g1|u| |].
  - destruct Hm as (d & D & E). cbn [inline_release]. exists d. split; [exact D|]. destruct (existsb _ d).
    + destruct E as [-> | (o2 & g2 & ->)]; cbn; eauto.
    + rewrite E. reflexivity.
  - destruct Hm as (d & D & E). cbn. exists d. split; [exact D|].
    destruct (existsb _ d); [destruct E as [-> | (o2 & g2 & ->)]|rewrite E]; cbn; eauto.
  - destruct Hm as [-> | [-> | (o2 & g2 & ->)]]; cbn; eauto.
  - destruct Hm as [-> | [-> | (o2 & g2 & ->)]]; cbn; eauto.
  - destruct Hm as [-> | [-> | (o2 & g2 & ->)]]; cbn; eauto.
Qed.
Ltac tame_x := repeat first
  [ apply tame_ia_len | apply tame_ia_set_len | apply tame_ia_deref | apply tame_ia_is_full | apply tame_ia_ptr_at
  | apply tame_ia_write_at | apply tame_ia_read_at
  | apply tame_ia_data | apply tame_ptr_add | apply tame_elem_read | apply tame_elem_write
  | apply tame_elems_move | apply tame_elems_take | apply tame_elems_peek | apply tame_elems_put | apply tame_elems_transfer
  | apply tame_with_local; [apply brisk_ia_destroy|]
  | tame_step ].
Lemma tame_ia_new b : tame e (ia_new e L b) (ia_new e0 L b).
Proof.
  unfold ia_new. change (capacity e0 L) with (capacity e L). change (header_skip e0 L) with (header_skip e L). tame_x.
Qed.
Lemma tame_ia_push b v : tame e (ia_push e L b v) (ia_push e0 L b v).
Proof. unfold ia_push. tame_x. Qed.
Lemma tame_ia_pop b : tame e (ia_pop e L b) (ia_pop e0 L b).
Proof. unfold ia_pop, ia_is_empty. tame_x. Qed.
Lemma tame_ia_insert b i v : tame e (ia_insert e L b i v) (ia_insert e0 L b i v).
Proof. unfold ia_insert. tame_x. Qed.
Lemma tame_ia_remove b i : tame e (ia_remove e L b i) (ia_remove e0 L b i).
Proof. unfold ia_remove. tame_x. Qed.
Lemma tame_ia_extend b it : tame e (ia_extend e L b it) (ia_extend e0 L b it).
Proof. induction it as [|[a|] it IH]; cbn [ia_extend]; [tame| |tame]. apply tame_bind; [apply tame_ia_push|]. intros _. exact IH. Qed.
Lemma mild_ia_clear b : mild e (ia_clear e L b) (ia_clear e0 L b).
Proof.
  unfold ia_clear. apply mild_bind; [apply brisk_mild, brisk_ia_drop_contents|]. intros _. apply tame_mild, tame_ia_set_len.
Qed.
Lemma tame_ia_clone_loop b b2 cl k : forall i, tame e (ia_clone_loop e L b b2 cl i k) (ia_clone_loop e0 L b b2 cl i k).
Proof. induction k as [|k IH]; intros i; cbn [ia_clone_loop]; tame_x. apply IH. Qed.
(** Running a computation on a fresh object from inside another one. *)
Lemma tame_aside {O R} (m m0 : Machine.M A unit R) : tame e m m0 ->
  tame (O := O) e (fun c g => match m tt g with Ret _ g' out => Ret c g' out | Panic _ g' => Panic c g'
                              | UB u => UB u | Hang => Hang | Abort => Abort end)
           (fun c g => match m0 tt g with Ret _ g' out => Ret c g' out | Panic _ g' => Panic c g'
                              | UB u => UB u | Hang => Hang | Abort => Abort end).
Proof.
  intros Hm o g. specialize (Hm tt g). unfold tamed in *. destruct (m0 tt g); auto.
  1-2: destruct Hm as (d & D & E); exists d; split; [exact D|]; rewrite E; destruct (existsb _ _); reflexivity.
  all: destruct Hm as [-> | ->]; auto.
Qed.
Lemma tame_ia_split_off b b2 i : tame e (ia_split_off e L b b2 i) (ia_split_off e0 L b b2 i).
Proof.
  unfold ia_split_off. apply tame_bind; [apply tame_ia_len|]. intros n. destruct (n <? i); [apply tame_panic|].
  apply tame_bind; [apply tame_aside, tame_ia_new|]. intros out. tame_x.
Qed.
Lemma tame_ia_clone b b2 cl : tame e (ia_clone e L b b2 cl) (ia_clone e0 L b b2 cl).
Proof.
  unfold ia_clone. apply tame_bind; [apply tame_aside, tame_ia_new|]. intros out.
  apply tame_with_local; [apply brisk_ia_destroy|]. apply tame_bind; [apply tame_on_snd, tame_ia_len|]. intros n.
  apply tame_bind; [apply tame_ia_clone_loop|]. intros _. tame_x.
Qed.
Lemma tame_in_place {R} (m m0 : nat -> M R) : (forall b, tame e (m b) (m0 b)) -> tame e (in_place L m) (in_place L m0).
Proof. intros Hm o g. exact (tame_on_snd e (m (address L (fst o))) (m0 (address L (fst o))) (Hm _) o g). Qed.
Lemma mild_in_place {R} (m m0 : nat -> M R) : (forall b, mild e (m b) (m0 b)) -> mild e (in_place L m) (in_place L m0).
Proof.
  intros Hm o g. specialize (Hm (address L (fst o)) (snd o) g). unfold in_place, on_snd. destruct (m0 _ (snd o) g); auto.
  all: destruct Hm as (d & D & E); exists d; split; [exact D|]; intros B; rewrite E by exact B; reflexivity.
Qed.
Lemma tame_in_places {R} (m m0 : nat -> nat -> Machine.M A (inline A * inline A) R) :
  (forall b b2, tame e (m b b2) (m0 b b2)) -> tame e (in_places L m) (in_places L m0).
Proof.
  intros Hm o g. specialize (Hm (address L (fst (fst o))) (address L (fst (snd o))) (snd (fst o), snd (snd o)) g).
  unfold tamed, in_places in *. destruct (m0 _ _ _ g); auto.
  1-2: destruct Hm as (d & D & E); exists d; split; [exact D|]; rewrite E; destruct (existsb _ _); reflexivity.
  all: destruct Hm as [-> | ->]; auto.
Qed.

(** Destroying an array: as a chunk, all the elements are dropped; one panic propagates, a second one aborts.
    Assigning to an element: as a ring buffer, the new value is stored also if the old one panics. *)
Definition ia_bspec N : bkit A (ia_op0 A) (ia_op1 A) (ia_opn A) (ia_op2 A) (res A) (list A) :=
  let B := bombed_spec e (ia_spec N) (chunk_killb e) in {|
  bs0 := bs0 B;
  bs1 := fun o l => match o with
    | IAssign i v => match l !! i with
        | Some a => if bomb e a then BPanic (take i l ++ v :: drop (S i) l) [a] []
                    else BRet (take i l ++ v :: drop (S i) l) RUnit [a]
        | None => if bomb e v then BAbort else BPanic l [v] []
        end
    | _ => bs1 B o l end;
  bsn := bsn B; bs2 := bs2 B; bsk := bsk B; bg0 := bg0 B; bg1 := bg1 B; bgn := bgn B |}.

Hypothesis WF : wf_layout e L.
Hypothesis HOST : host_ok e L.
Notation cap := (capacity e L).
Notation LHolds := (LHolds e L).
Lemma ia_killb_ok b c l g : placed L b -> IHolds e L c l ->
  agreesb (fun _ _ => True) eq g (ia_destroy e L b c g) (chunk_killb e l).
Proof.
  intros Hb H. destruct (drop_contents_any e L WF HOST b c l g Hb H) as (c' & E & H').
  unfold ia_destroy, chunk_killb. rewrite E. unfold drop_values, inline_release.
  destruct (List.filter (bomb e) l) as [|x [|y z]]; cbn [length].
  - rewrite (leftover_none _ _ _ _ _ _ H') by reflexivity. rewrite log_leak_nil.
    eexists _, (log_drop l g), tt. split; [reflexivity|]. cbn. auto.
  - rewrite (leftover_none _ _ _ _ _ _ H') by reflexivity. rewrite log_leak_nil.
    eexists _, (log_drop l g), []. split; [reflexivity|]. cbn. rewrite app_nil_r. auto.
  - reflexivity.
Qed.
Lemma agreesb_in_place {R R'} (RR : R -> R' -> Prop) (m : nat -> M R) o g s :
  agreesb (IHolds e L) RR g (m (address L (fst o)) (snd o) g) s ->
  agreesb LHolds RR g (in_place L m o g) s.
Proof.
  destruct s as [s r d|s d k| |]; cbn [agreesb].
  - apply in_place_agrees. - apply in_place_agrees.
  - unfold in_place, on_snd. intros ->. reflexivity.
  - auto.
Qed.
Lemma ia_assign_bombs b c l g i v : placed L b -> IHolds e L c l ->
  agreesb (IHolds e L) eq g (ia_assign e L b i v c g)
    (match l !! i with
     | Some a => if bomb e a then BPanic (take i l ++ v :: drop (S i) l) [a] []
                 else BRet (take i l ++ v :: drop (S i) l) tt [a]
     | None => if bomb e v then BAbort else BPanic l [v] []
     end).
Proof.
  intros Hb [Hl H]. pose proof H as H0.
  destruct (l !! i) as [a|] eqn:Ea; [pose proof (lookup_lt_Some _ _ _ Ea); destruct (bomb e a) eqn:B
    |apply lookup_ge_None in Ea; destruct (bomb e v) eqn:B]; cbn [agreesb]; unfold ia_assign; iexec WF HOST.
  all: erewrite bind_Ret by (eapply (data_peek_ok _ _ WF HOST); [eassumption|exact H|assumption|reflexivity|lia]).
  all: iexec WF HOST.
  1-2: erewrite bind_Ret by (apply (ptr_add_data_ok _ _ HOST); lia); iexec WF HOST.
  1-2: unfold drop_values; cbn [List.filter]; rewrite B; cbn [length].
  - ipanic.
  - iret.
  - rewrite if_false by lia. unfold panic_dropping. rewrite B. reflexivity.
  - unfold panic_dropping. rewrite B. ipanic.
Qed.
Theorem ia_refinesb : refinesb (ia_kit e L) (ia_spec cap) (ia_bspec cap) LHolds.
Proof.
  assert (WF0 : wf_layout e0 L) by (destruct WF; constructor; assumption).
  pose proof (ia_refines e0 L WF0 HOST (calmed_calm e)) as R.
  apply refines_lift with (e := e) (K0 := ia_kit e0 L).
  - exact R.
  - intros o. left. split; [|reflexivity]. destruct o; cbn [run0 ia_kit]; apply tame_mapR; [apply tame_ia_new|].
    unfold ia_from_iter. apply tame_bind; [apply tame_ia_new|]. intros c.
    apply tame_with_local; [apply brisk_ia_destroy|]. apply tame_on_fst, tame_ia_extend.
  - intros o. destruct o.
    all: match goal with |- context [IAssign] => right | _ => left; split; [|reflexivity] end; cbn [run1 spec1 ia_kit ia_spec].
    1: left; mute; reflexivity.
    all: try (left; apply tame_mapR, tame_in_place; intros b; unfold ia_update_slice, ia_next, ia_is_empty, ia_eq, ia_index;
      first [apply tame_ia_push | apply tame_ia_pop | apply tame_ia_insert | apply tame_ia_remove | apply tame_ia_extend | tame_x]; fail).
    + right. split; [apply mild_mapR, mild_in_place; intros b; apply mild_ia_clear|]. intros s. exact I.
    + intros x s g Hx _. cbn [bs1 ia_bspec].
      pose proof (agreesb_mapR _ (@unit_res A) _ _ _ _ (agreesb_in_place eq (fun b => ia_assign e L b i v) x g _
        (ia_assign_bombs (address L (fst x)) (snd x) s g i v (address_placed L _) Hx))) as P.
      destruct (s !! i) as [a|]; [destruct (bomb e a)|destruct (bomb e v)]; exact P.
  - intros o. split; [|reflexivity]. destruct o; cbn [runn ia_kit]; apply tame_mapR, tame_in_place; intros b;
      [apply tame_ia_split_off|apply tame_ia_clone].
  - intros o. split; [|reflexivity]. destruct o; cbn [run2 ia_kit]; apply tame_mapR, tame_in_places; intros b b2;
      unfold ia_eq2, ia_partial_cmp, ia_cmp; tame_x.
  - intros x s g Hx. cbn [kill ia_kit bsk ia_bspec bombed_spec].
    pose proof (ia_killb_ok (address L (fst x)) (snd x) s g (address_placed L _) Hx) as P.
    unfold in_place, on_snd. destruct (chunk_killb e s) as [u r d|u d k| |]; cbn in *; auto.
    + destruct P as (o' & g' & r0 & E & P). eexists (fst x, o'), g', r0. rewrite E. auto.
    + destruct P as (o' & g' & r0 & E & P). eexists (fst x, o'), g', r0. rewrite E. auto.
    + rewrite P. reflexivity.
Qed.
Lemma ia_bbalanced N : balancedb (ia_spec N) (ia_bspec N).
Proof.
  pose proof (bombed_balanced e (ia_spec N) (chunk_killb e) (ia_balanced N)) as P.
  assert (HK : forall l, match chunk_killb e l with
    | BRet _ _ d => Permutation (items (ia_spec N) l) d
    | BPanic _ d k => Permutation (items (ia_spec N) l) (d ++ k)
    | _ => True end).
  { intros l. unfold chunk_killb. destruct (length _) as [|[|n]]; cbn; rewrite ?app_nil_r; auto. }
  specialize (P HK). split; [exact (bbal0 _ _ P)| |exact (bbaln _ _ P)|exact (bbal2 _ _ P)|exact (bbalk _ _ P)].
  intros o x HL. pose proof (bbal1 _ _ P o x HL) as P1. destruct o; try exact P1.
  pose proof (bal1 _ (ia_balanced N) (IAssign i v) x HL) as P2. clear P1.
  cbn [bs1 ia_bspec bg1 bombed_spec]. cbn [spec1 ia_spec] in P2. unfold bl_assign in P2.
  destruct (x !! i) as [a|]; cbn [smapR] in P2.
  - destruct (bomb e a); [rewrite app_nil_r|]; exact P2.
  - destruct (bomb e v); [exact I|exact P2].
Qed.
Notation prog := (list (cmd (ia_op0 A) (ia_op1 A) (ia_opn A) (ia_op2 A))).
Theorem ia_bomb_program (p : prog) : ball_legal (ia_spec cap) (ia_bspec cap) p [] ->
  match brun (ia_bspec cap) p [] with
  | BFinished Y d k evs gv => exists X g, runx (ia_kit e L) p [] log0 = Finished X g evs /\
      Forall2 (orel LHolds) X Y /\ dropped g = d /\ Permutation (leaked g) k /\
      Permutation gv (live (ia_spec cap) Y ++ returned (ia_spec cap) evs ++ dropped g ++ leaked g)
  | BAborted => runx (ia_kit e L) p [] log0 = Aborted
  | BUnknown => True
  end.
Proof. apply bomb_program; [exact ia_refinesb|apply ia_bbalanced]. Qed.

(** Discarding, on the normal path, a value whose destructor panics. *)
Definition ia_discards (o : ia_op1 A) (l : list A) : Prop :=
  match o with IClear => exists a, In a l /\ bomb e a = true | _ => False end.
Lemma ia_known N p s : spares (ia_bspec N) ia_discards p s -> brun (ia_bspec N) p s <> BUnknown.
Proof.
  apply spares_known; cbn [bs0 bs1 bsn bs2 bsk ia_bspec bombed_spec].
  - intros o. apply quiet_known. destruct o; cbn [spec0 ia_spec]; quiet.
  - intros o l H. destruct o.
    all: try (exfalso; revert H; apply quiet_known; cbn [spec1 ia_spec]; quiet; fail).
    + apply with_bombs_open in H. apply existsb_exists, H.
    + exfalso. destruct (l !! i) as [a|]; [destruct (bomb e a)|destruct (bomb e v)]; discriminate.
  - intros o l. apply quiet_known. destruct o; cbn [specn ia_spec]; unfold bl_clone_leaking; quiet.
  - intros o l. apply quiet_known. destruct o; cbn [spec2 ia_spec]; quiet.
  - intros x. unfold chunk_killb. destruct (length _) as [|[|n]]; discriminate.
Qed.
Theorem ia_bomb_safe (p : prog) : ball_legal (ia_spec cap) (ia_bspec cap) p [] -> spares (ia_bspec cap) ia_discards p [] ->
  match brun (ia_bspec cap) p [] with
  | BFinished Y d k evs gv => exists X g, runx (ia_kit e L) p [] log0 = Finished X g evs /\
      Forall2 (orel LHolds) X Y /\ dropped g = d /\ Permutation (leaked g) k /\
      Permutation gv (live (ia_spec cap) Y ++ returned (ia_spec cap) evs ++ dropped g ++ leaked g)
  | BAborted => runx (ia_kit e L) p [] log0 = Aborted
  | BUnknown => False
  end.
Proof.
  intros HL HS. pose proof (ia_bomb_program p HL) as P. pose proof (ia_known cap p [] HS) as Q.
  destruct (brun (ia_bspec cap) p []); auto.
Qed.
End inline.
