(** * Programs that use several kinds of container at once, of values whose destructors may panic. *)
From Verif Require Import Machine Spec Prims Program ChunkModel RingModel SparseModel SparseSpec SparseProofs SparseProofs2 SparseProofs3
  InlineModel InlineSpec InlineProofs InlineProofs2 InlineProofs3 LiveModel LiveSpec LiveLaws LiveSparseModel LiveSparse
  IterSpec SpecProps ChunkProgram RingProgram SparseProgram InlineProgram MixModel MixSpec MixProofs MixProgram MixBalance
  Bombs BombProgram ChunkBombs RingBombs SparseBombs InlineBombs MixBombSpec.
From Verif Require ChunkProofs RingProofs.

(** ** Single executions *)
Section tamed.
Context {A : Type} (e : env A).
Notation bombs := (List.existsb (bomb e)).
Lemma tamed_agrees {O S R R'} (H : O -> S -> Prop) (RR : R -> R' -> Prop) (x x0 : outcome A O R) g (s : sres A S R') :
  tamed e g x x0 -> agrees H RR g x0 s -> agreesb H RR g x (with_bombs e s).
Proof.
  intros Ht. destruct s as [s r d|s d k]; cbn.
  - intros (o' & g' & r0 & E & Ho & Hr & D & L). rewrite E in Ht. destruct Ht as (d2 & D2 & E2).
    rewrite D in D2. apply app_inv_head in D2. subst d2. destruct (bombs d); [exact I|]. rewrite E2.
    exists o', g', r0. auto.
  - intros (o' & g' & k' & E & Ho & D & L & P). rewrite E in Ht. destruct Ht as (d2 & D2 & E2).
    rewrite D in D2. apply app_inv_head in D2. subst d2. destruct (bombs d); [exact E2|]. rewrite E2.
    exists o', g', k'. auto.
Qed.
Lemma tamed_bind {O R T} (m m0 : M A O R) (k k0 : R -> M A O T) o g :
  tamed e g (m o g) (m0 o g) ->
  (forall o1 g1 r1, m0 o g = Ret o1 g1 r1 -> tamed e g1 (k r1 o1 g1) (k0 r1 o1 g1)) ->
  tamed e g (bind m k o g) (bind m0 k0 o g).
Proof.
  intros Hm Hk. unfold tamed in *. unfold bind.
  destruct (m0 o g) as [o1 g1 r1|o1 g1|u| |].
  - destruct Hm as (d & D & E). specialize (Hk o1 g1 r1 eq_refl).
    destruct (bombs d) eqn:B; rewrite E.
    + destruct (k0 r1 o1 g1) as [o2 g2 r2|o2 g2|u| |]; auto.
      all: destruct Hk as (d2 & D2 & E2); exists (d ++ d2); rewrite D2, D, app_assoc; split; [reflexivity|];
        rewrite existsb_app, B; reflexivity.
    + destruct (k0 r1 o1 g1) as [o2 g2 r2|o2 g2|u| |]; auto.
      all: destruct Hk as (d2 & D2 & E2); exists (d ++ d2); rewrite D2, D, app_assoc; split; [reflexivity|];
        rewrite existsb_app, B; exact E2.
  - destruct Hm as (d & D & E). exists d. split; [exact D|]. rewrite E. destruct (bombs d); reflexivity.
  - destruct Hm as [-> | ->]; auto.
  - destruct Hm as [-> | ->]; auto.
  - destruct Hm as [-> | ->]; auto.
Qed.
Lemma tamed_with_local {O1 O2 R} (i : O1) (k k0 : M A O1 unit) (m m0 : M A (O1 * O2) R) o g :
  brisk e k k0 -> tamed e g (m (i, o) g) (m0 (i, o) g) -> tamed e g (with_local i k m o g) (with_local i k0 m0 o g).
Proof.
  intros Hk Hm. unfold tamed in *. unfold with_local.
  destruct (m0 (i, o) g) as [o1 g1 r1|o1 g1|u| |].
  - destruct Hm as (d & D & E). exists d. split; [exact D|]. rewrite E. destruct (bombs d); reflexivity.
  - destruct Hm as (d & D & E). specialize (Hk (fst o1) g1). rewrite E.
    destruct (k0 (fst o1) g1) as [o2 g2 r2|o2 g2|u| |].
    + destruct Hk as (d2 & D2 & E2). exists (d ++ d2). rewrite D2, D, app_assoc, existsb_app. split; [reflexivity|].
      destruct (bombs d); [reflexivity|]. cbn [orb]. destruct (bombs d2).
      * destruct E2 as [-> | (o3 & g3 & ->)]; reflexivity.
      * rewrite E2. reflexivity.
    + destruct Hk as (d2 & D2 & E2). destruct (bombs d); [auto|].
      destruct (bombs d2); [destruct E2 as [-> | (o3 & g3 & ->)]|rewrite E2]; auto.
    + destruct (bombs d); [auto|]. destruct Hk as [-> | [-> | (o3 & g3 & ->)]]; auto.
    + destruct (bombs d); [auto|]. destruct Hk as [-> | [-> | (o3 & g3 & ->)]]; auto.
    + destruct (bombs d); [auto|]. destruct Hk as [-> | [-> | (o3 & g3 & ->)]]; auto.
  - destruct Hm as [-> | ->]; auto.
  - destruct Hm as [-> | ->]; auto.
  - destruct Hm as [-> | ->]; auto.
Qed.
End tamed.

(** ** Filling a container from a live iterator *)
Section live.
Context {A S : Type} (e : env A).
Notation e0 := (calmed e).
Lemma tame_on_iter {O R} (m : M A S R) : tame e (O := O * (S * log A)) (on_iter m) (on_iter m).
Proof. apply mute_tame. intros o g. unfold on_iter. destruct (m _ _); auto. Qed.
Lemma tame_forgetting {O R} (m : M A (O * (S * log A)) R) (k : M A (O * (S * log A)) R) :
  tame e m m -> tame e k k -> tame e (fun o g => match m o g with Panic o g => k o g | x => x end)
    (fun o g => match m o g with Panic o g => k o g | x => x end).
Proof.
  intros Hm Hk o g. specialize (Hm o g). unfold tamed in *. destruct (m o g) as [o1 g1 r1|o1 g1|u| |].
  - exact Hm.
  - destruct Hm as (d & D & E). specialize (Hk o1 g1). unfold tamed in Hk.
    destruct (List.existsb (bomb e) d) eqn:B; [discriminate E|].
    destruct (k o1 g1) as [o2 g2 r2|o2 g2|u| |]; auto.
    all: destruct Hk as (d2 & D2 & E2); exists (d ++ d2); rewrite D2, D, app_assoc, existsb_app, B; auto.
  - auto.
  - auto.
  - auto.
Qed.
Ltac tame_l := repeat first [apply tame_on_iter | apply tame_forgetting | tame_step].
Lemma tame_extend_live {O X} (next : M A S (option X)) (push push0 : X -> M A O unit) : (forall a, tame e (push a) (push0 a)) ->
  forall fuel, tame e (extend_live next push fuel) (extend_live next push0 fuel).
Proof.
  intros Hp. induction fuel as [|fuel IH]; cbn [extend_live]; [apply tame_hang|].
  apply tame_bind; [apply tame_on_iter|]. intros [a|]; [|apply tame_ret].
  apply tame_bind; [apply tame_on_fst, Hp|]. intros _. exact IH.
Qed.
Section chunk.
Context (N : nat) (next : M A S (option A)) (hint : M A S (nat * option nat)).
Lemma tame_from_iter_live fuel : tame e (from_iter_live e N next fuel) (from_iter_live e0 N next fuel).
Proof. apply tame_with_local; [apply brisk_destroy|]. apply tame_extend_live. intros a. apply tame_push_back. Qed.
Lemma tame_collect_loop_live n : tame e (collect_loop_live e N next n) (collect_loop_live e0 N next n).
Proof.
  induction n as [|n IH]; cbn [collect_loop_live]; [apply tame_ret|].
  apply tame_bind; [apply tame_on_iter|]. intros [a|]; [|apply tame_panic].
  apply tame_bind; [apply tame_on_fst, tame_push_back|]. intros _. exact IH.
Qed.
Lemma tame_collect_from_live n : tame e (collect_from_live e N next n) (collect_from_live e0 N next n).
Proof. apply tame_with_local; [apply brisk_destroy|]. apply tame_collect_loop_live. Qed.
Lemma tame_write_loop_live k : forall w, tame e (write_loop_live e N next k w) (write_loop_live e0 N next k w).
Proof.
  induction k as [|k IH]; intros w; cbn [write_loop_live]; [apply tame_ret|].
  apply tame_bind; [tame_l|]. intros [a|]; [|apply tame_ret].
  apply tame_bind; [apply tame_on_fst; unfold force_write; tame_l|]. intros _.
  apply tame_bind; [apply tame_uadd|]. intros w'. apply IH.
Qed.
Ltac tame_c := repeat first [apply tame_write_loop_live | apply tame_set_left | apply tame_set_right | apply tame_len
  | apply tame_force_copy | apply tame_on_iter | apply tame_forgetting | tame_step].
Lemma tame_write_from_iter_live w : tame e (write_from_iter_live e N next hint w) (write_from_iter_live e0 N next hint w).
Proof. unfold write_from_iter_live. tame_c. Qed.
Lemma tame_insert_from_live i : tame e (insert_from_live e N next hint i) (insert_from_live e0 N next hint i).
Proof. unfold insert_from_live. repeat first [apply tame_write_from_iter_live | progress tame_c]. Qed.
End chunk.
Section ring.
Context (N : nat) (next : M A S (option A)) (hint : M A S (nat * option nat)).
Lemma tame_rb_new {O} : tame (O := O) e (rb_new e N) (rb_new e0 N).
Proof. unfold rb_new. repeat first [apply tame_raw_from | tame_step]. Qed.
Lemma tame_rb_from_iter_live fuel : tame e (rb_from_iter_live e N next fuel) (rb_from_iter_live e0 N next fuel).
Proof.
  apply tame_bind; [apply tame_rb_new|]. intros b.
  apply tame_with_local; [apply brisk_rb_destroy|]. apply tame_extend_live. intros a. apply tame_rb_push_back.
Qed.
Lemma tame_rb_take_loop_live n : tame e (rb_take_loop_live e N next n) (rb_take_loop_live e0 N next n).
Proof.
  induction n as [|n IH]; cbn [rb_take_loop_live]; [apply tame_ret|].
  apply tame_bind; [apply tame_on_iter|]. intros [a|]; [|apply tame_ret].
  apply tame_bind; [apply tame_on_fst, tame_rb_push_back|]. intros _. exact IH.
Qed.
Lemma tame_rb_collect_from_live n : tame e (rb_collect_from_live e N next n) (rb_collect_from_live e0 N next n).
Proof.
  apply tame_bind; [apply tame_rb_new|]. intros b. apply tame_with_local; [apply brisk_rb_destroy|].
  apply tame_bind; [apply tame_rb_take_loop_live|]. intros _. tame_l.
Qed.
Lemma tame_fill_loop_live k : forall i n, tame e (fill_loop_live e N next k i n) (fill_loop_live e0 N next k i n).
Proof.
  induction k as [|k IH]; intros i n; cbn [fill_loop_live]; [apply tame_ret|].
  apply tame_bind; [tame_l|]. intros [a|]; [|apply tame_ret].
  apply tame_bind; [apply tame_on_fst, tame_rb_force_write|]. intros _.
  apply tame_bind; [apply tame_raw_add_assign|]. intros i'.
  apply tame_bind; [apply tame_uadd|]. intros n'. apply IH.
Qed.
Lemma tame_rb_insert_from_live fuel i : tame e (rb_insert_from_live e N next hint fuel i) (rb_insert_from_live e0 N next hint fuel i).
Proof.
  unfold rb_insert_from_live.
  repeat first [ apply tame_fill_loop_live | apply tame_extend_live; intros ?; apply tame_rb_push_back
    | apply tame_shift_down | apply tame_for_range; intros ?; apply tame_pull_one
    | apply tame_set_origin | apply tame_set_length | apply tame_raw_add | apply tame_raw_add_assign | apply tame_raw_sub_assign
    | apply tame_raw | apply tame_rb_range | apply tame_rb_force_read | apply tame_rb_force_write | apply tame_on_iter | tame_step].
Qed.
End ring.
Lemma tame_ia_from_iter_live L b (next : M A S (option A)) fuel :
  tame e (ia_from_iter_live e L b next fuel) (ia_from_iter_live e0 L b next fuel).
Proof.
  apply tame_bind; [apply tame_aside, tame_ia_new|]. intros c.
  apply tame_with_local; [apply brisk_ia_destroy|]. apply tame_extend_live. intros a. apply tame_ia_push.
Qed.
(** The cells from [i] on are still empty. *)
Lemma sp_fill_live_tamed N (next : M A S (option (option A))) : forall fuel i c s o g,
  SHolds N c s -> (forall j, i <= j -> j < N -> s !! j = Some None) -> i + fuel <= word e ->
  tamed e g (sp_fill_live e N next fuel i (c, o) g) (sp_fill_live e0 N next fuel i (c, o) g).
Proof.
  induction fuel as [|fuel IH]; intros i c s o g Hc He Hw; cbn [sp_fill_live]; [left; reflexivity|].
  apply tamed_bind; [apply tame_on_iter|]. intros o1 g1 r1 E1.
  assert (Ec : fst o1 = c) by (unfold on_iter in E1; destruct (next _ _); inversion E1; reflexivity). clear E1.
  destruct o1 as [c1 o1]. cbn [fst] in Ec. subst c1.
  assert (Step : forall c' s' g1, SHolds N c' s' -> (forall j, i < j -> j < N -> s' !! j = Some None) ->
    tamed e g1 ((let! index' := uadd e i 1 in sp_fill_live e N next fuel index') (c', o1) g1)
      ((let! index' := uadd e0 i 1 in sp_fill_live e0 N next fuel index') (c', o1) g1)).
  { intros c' s' g2 Hc' He'. destruct fuel as [|fuel].
    - apply tame_bind; [apply tame_uadd|]. intros r. apply tame_hang.
    - erewrite (bind_Ret (uadd e i 1)) by (apply uadd_ok; lia). erewrite (bind_Ret (uadd e0 i 1)) by (apply uadd_ok; cbn; lia).
      rewrite Nat.add_1_r. eapply IH; [exact Hc'|exact He'|lia]. }
  destruct r1 as [[v|]|]; [| |apply tame_ret].
  - destruct (decide (i < N)) as [Hi|Hi].
    + pose proof (sp_insert_ok e0 N c s g1 i v (calmed_calm e) Hc) as P. unfold ar_insert in P. rewrite (He i) in P by lia.
      destruct P as (c' & g' & r & E & Hc' & -> & D & L). rewrite app_nil_r in D.
      apply tamed_bind; [apply tame_on_fst, tame_sp_insert|]. intros o2 g2 r2 E2.
      unfold on_fst in E2. cbn [fst snd] in E2. rewrite E in E2. inversion E2; subst o2 g2 r2. clear E2.
      cbn [option_list]. apply tamed_bind.
      { unfold on_fst, drop_values. cbn. exists []. rewrite app_nil_r. auto. }
      intros o3 g3 r3 E3. unfold on_fst, drop_values in E3. cbn in E3. inversion E3; subst o3 g3 r3. clear E3.
      eapply Step; [exact Hc'|]. intros j Hj HjN. rewrite list_lookup_insert_ne by lia. apply He; lia.
    + apply tamed_bind; [apply tame_on_fst, tame_sp_insert|]. intros o2 g2 r2 E2. exfalso.
      unfold on_fst, sp_insert in E2. cbn [fst snd] in E2. replace (N <=? i) with true in E2 by lia. discriminate E2.
  - eapply Step; [exact Hc|]. intros j Hj HjN. apply He; lia.
Qed.
Lemma brisk_sp_destroy N : brisk e (sp_destroy (A := A) e N) (sp_destroy e0 N).
Proof.
  apply brisk_destroying. apply brisk_bind; [apply tame_brisk, tame_get|]. intros c.
  induction (bm_indices N (smap c)) as [|i bits IH]; cbn [sp_drop_loop]; [apply tame_brisk, tame_ret|].
  apply brisk_bind; [|intros _; exact IH]. destruct (i <? N); [apply brisk_slots_drop|apply tame_brisk, tame_panic].
Qed.
Lemma sp_from_iter_live_tamed N (next : M A S (option (option A))) fuel o g : fuel <= word e ->
  tamed e g (sp_from_iter_live e N next fuel o g) (sp_from_iter_live e0 N next fuel o g).
Proof.
  intros Hw. unfold sp_from_iter_live, sp_new. rewrite !bind_ret. apply tamed_with_local; [apply brisk_sp_destroy|].
  eapply sp_fill_live_tamed; [apply sparse0_holds| |lia]. intros j _ Hj. apply lookup_replicate. auto.
Qed.
End live.

(** ** The calls *)
Section mix.
Context {A : Type} (e : env A).
Notation e0 := (calmed e).
Notation obj := (mobj e).
Notation st := (mst e).
Notation MHolds := (MHolds e).
Notation Holds := ChunkProofs.Holds.
Notation RHolds := RingProofs.RHolds.

Lemma as_kind_agreesb {O S R R2} (f : O -> obj) (f2 : S -> st) (H : O -> S -> Prop) (RR : R -> R2 -> Prop) (m : M A O R) c g b :
  (forall c l, H c l -> MHolds (f c) (f2 l)) ->
  agreesb H RR g (m c g) b -> agreesb MHolds RR g (as_kind e f m c g) (bas_kind e f2 b).
Proof.
  intros Hf. destruct b as [s r d|s d k| |]; cbn [agreesb bas_kind].
  - intros P. exact (as_kind_agrees e f f2 H RR m c g _ Hf P).
  - intros P. exact (as_kind_agrees e f f2 H RR m c g _ Hf P).
  - intros E. unfold as_kind. rewrite E. reflexivity.
  - auto.
Qed.
Lemma as_kind2_agreesb {O S R R2} (f f' : O -> obj) (f2 f2' : S -> st) (H : O -> S -> Prop) (RR : R -> R2 -> Prop)
    (m : M A (O * O) R) x y g b :
  (forall c l, H c l -> MHolds (f c) (f2 l)) -> (forall c l, H c l -> MHolds (f' c) (f2' l)) ->
  agreesb (both H H) RR g (m (x, y) g) b -> agreesb (both MHolds MHolds) RR g (as_kind2 e f f' m x y g) (bas_kind2 e f2 f2' b).
Proof.
  intros Hf Hf2. destruct b as [s r d|s d k| |]; cbn [agreesb bas_kind2].
  - intros P. exact (as_kind2_agrees e f f' f2 f2' H RR m x y g _ Hf Hf2 P).
  - intros P. exact (as_kind2_agrees e f f' f2 f2' H RR m x y g _ Hf Hf2 P).
  - intros E. unfold as_kind2. rewrite E. reflexivity.
  - auto.
Qed.
Lemma mapR_agreesb {O S R R' T T'} (H : O -> S -> Prop) (RR : R -> R' -> Prop) (TT : T -> T' -> Prop) (f : R -> T) (f2 : R' -> T')
    g (m : M A O R) o b :
  (forall r r', RR r r' -> TT (f r) (f2 r')) -> agreesb H RR g (m o g) b -> agreesb H TT g (mapR f m o g) (bmap f2 b).
Proof.
  intros Hf. destruct b as [s r d|s d k| |]; cbn [agreesb bmap].
  - intros P. exact (mapR_agrees H RR TT f f2 g m o g (SRet s r d) Hf P).
  - intros P. exact (mapR_agrees H RR TT f f2 g m o g (SPanic s d k) Hf P).
  - intros E. unfold mapR, bind. rewrite E. reflexivity.
  - auto.
Qed.
Lemma mapR_agreesb_eq {O S R T} (H : O -> S -> Prop) (f : R -> T) g (m : M A O R) o b :
  agreesb H eq g (m o g) b -> agreesb H eq g (mapR f m o g) (bmap f b).
Proof. apply mapR_agreesb. intros r r' ->. reflexivity. Qed.

(** The iterators drop nothing. *)
Lemma consuming_tamed {O R} (f : O -> obj) (m m0 : M A (O * (obj * log A)) R) x y g :
  tame e m m0 ->
  match m0 (x, (y, log0)) g with Ret (_, (_, gs)) _ _ | Panic (_, (_, gs)) _ => dropped gs = [] | _ => True end ->
  tamed e g (consuming e f m x y g) (consuming e f m0 x y g).
Proof.
  intros Ht Hq. specialize (Ht (x, (y, log0)) g). unfold tamed, consuming in *.
  destruct (m0 (x, (y, log0)) g) as [[x' [y' gs]] g' r|[x' [y' gs]] g'|u| |]; cbn [dropped log_join].
  1-2: destruct Ht as (d & D & E); exists d; rewrite Hq, app_nil_r; split; [exact D|]; rewrite E; destruct (existsb _ d); reflexivity.
  all: destruct Ht as [-> | ->]; auto.
Qed.
Lemma made_from_tamed {C} (f : C -> obj) (m m0 : M A (obj * log A) (C * unit)) y g :
  tamed e g (m (y, log0) g) (m0 (y, log0) g) ->
  match m0 (y, log0) g with Ret (_, gs) _ _ | Panic (_, gs) _ => dropped gs = [] | _ => True end ->
  tamed e g (made_from e f m y g) (made_from e f m0 y g).
Proof.
  intros Ht Hq. unfold tamed, made_from in *.
  destruct (m0 (y, log0) g) as [[y' gs] g' [c []]|[y' gs] g'|u| |]; cbn [dropped log_join].
  1-2: destruct Ht as (d & D & E); exists d; rewrite Hq, app_nil_r; split; [exact D|]; rewrite E; destruct (existsb _ d); reflexivity.
  all: destruct Ht as [-> | ->]; auto.
Qed.
Lemma ends_quiet {S X O} (H : O -> list A -> Prop) (F : S -> list X -> Prop) g p x d l ds : ends H F log0 g p x d l ds ->
  match x with Ret (_, (_, gs)) _ _ | Panic (_, (_, gs)) _ => dropped gs = [] | _ => True end.
Proof. intros (o & s & gs & g' & -> & _ & _ & _ & _ & D & _). destruct p; exact D. Qed.
Lemma makes_quiet {S X C} (H : C -> list A -> Prop) (F : S -> list X -> Prop) g x made l ds : makes H F log0 g x made l ds ->
  match x with Ret (_, gs) _ _ | Panic (_, gs) _ => dropped gs = [] | _ => True end.
Proof. intros (s & gs & g' & _ & _ & _ & D & _ & E). destruct made; [destruct E as (c & -> & _)|rewrite E]; exact D. Qed.

Lemma tame_in_place_with {S R} L (m m0 : nat -> M A (inline A * S) R) : (forall b, tame e (m b) (m0 b)) ->
  tame e (in_place_with L m) (in_place_with L m0).
Proof.
  intros Hm [[q i] s] g. specialize (Hm (address L q) (i, s) g). unfold tamed, in_place_with in *. cbn [fst snd].
  destruct (m0 (address L q) (i, s) g) as [[i' s'] g' r|[i' s'] g'|u| |].
  1-2: destruct Hm as (d & D & E); exists d; split; [exact D|]; rewrite E; destruct (existsb _ d); reflexivity.
  all: destruct Hm as [-> | ->]; auto.
Qed.

Lemma wf_calmed (k : ilay e) : wf_layout e0 (`k).
Proof. destruct (proj1 (proj2_sig k)). constructor; assumption. Qed.
Lemma m_extend_bombs sd x y s1 s2 g : MHolds x s1 -> MHolds y s2 -> is_list e s1 -> iterates e sd s2 ->
  agreesb (both MHolds MHolds) eq g (m_extend e sd (x, y) g) (with_bombs e (mix_extend e sd s1 s2)).
Proof.
  intros Hx Hy Hl Hi. pose proof (m_feeds e sd s2 Hi) as Hf. pose proof (calmed_calm e) as Hc.
  destruct x as [k c|k c|k c|k c], s1 as [k2 d|k2 d|k2 d|k2 d]; cbn in Hx, Hl; try contradiction; destruct Hx as [<- Hx];
    unfold m_extend; cbn [fst snd].
  - assert (He : extends (Holds (`k)) (`k) (feeding e sd s2) (extend_live (m_next e sd) (push_back e0 (`k)))).
    { eapply chunk_extends; eauto. exact (proj2_sig k). }
    eapply tamed_agrees; [apply (consuming_tamed (OfChunk k) _ (extend_live (m_next e sd) (push_back e0 (`k)) (m_fuel e y)))|].
    + apply tame_extend_live. intros a. apply tame_push_back.
    + eapply ends_quiet. exact (He _ c d y _ log0 g Hx (feeding_0 e sd s2 y Hy) (m_fuel_enough e sd y s2 Hy)).
    + refine (extend_agrees e (Holds (`k)) (`k) sd (OfChunk k) _ c y d (OfChunk k d) s2 g Hi Hy Hx eq_refl eq_refl He _).
      intros. apply holds_chunk. assumption.
  - assert (He : extends (RHolds (`k)) (`k) (feeding e sd s2) (extend_live (m_next e sd) (rb_push_back e0 (`k)))).
    { eapply ring_extends; eauto; [exact (proj1 (proj2_sig k))|exact (proj2 (proj2_sig k))]. }
    eapply tamed_agrees; [apply (consuming_tamed (OfRing k) _ (extend_live (m_next e sd) (rb_push_back e0 (`k)) (m_fuel e y)))|].
    + apply tame_extend_live. intros a. apply tame_rb_push_back.
    + eapply ends_quiet. exact (He _ c d y _ log0 g Hx (feeding_0 e sd s2 y Hy) (m_fuel_enough e sd y s2 Hy)).
    + refine (extend_agrees e (RHolds (`k)) (`k) sd (OfRing k) _ c y d (OfRing k d) s2 g Hi Hy Hx eq_refl eq_refl He _).
      intros. apply holds_ring. assumption.
  - set (ext0 := fun fuel => in_place_with (`k) (fun b => extend_live (m_next e sd) (ia_push e0 (`k) b) fuel)).
    assert (He : extends (LHolds e (`k)) (capacity e (`k)) (feeding e sd s2) ext0).
    { intros fuel [q i] dd y' l gs g' Hi' Hs' Hl' room.
      destruct (inline_extends e0 (feeding e sd s2) (m_next e sd) (m_hint e) Hc Hf (`k) (address (`k) q) (wf_calmed k) (proj2 (proj2_sig k))
        (address_placed _ _) fuel i dd y' l gs g' Hi' Hs' Hl') as (o & y2 & gs' & g2 & E & Ho & R).
      exists (q, o), y2, gs', g2. split; [|split; [exact Ho|exact R]].
      unfold ext0, in_place_with. cbn [fst snd]. rewrite E. change (capacity e0 (`k)) with (capacity e (`k)). fold room. destruct (room <? length l); reflexivity. }
    eapply tamed_agrees; [apply (consuming_tamed (OfInline k) _ (ext0 (m_fuel e y)))|].
    + apply tame_in_place_with. intros b. apply tame_extend_live. intros a. apply tame_ia_push.
    + eapply ends_quiet. exact (He _ c d y _ log0 g Hx (feeding_0 e sd s2 y Hy) (m_fuel_enough e sd y s2 Hy)).
    + refine (extend_agrees e (LHolds e (`k)) (capacity e (`k)) sd (OfInline k) _ c y d (OfInline k d) s2 g Hi Hy Hx eq_refl eq_refl He _).
      intros. apply holds_inline. assumption.
Qed.
Lemma m_insert_from_bombs sd i x y s1 s2 g : MHolds x s1 -> MHolds y s2 ->
  match s1 with OfChunk _ _ | OfRing _ _ => True | _ => False end -> is_list e s2 ->
  length (m_items e s1) + length (m_items e s2) < word e ->
  agreesb (both MHolds MHolds) eq g (m_insert_from e sd i (x, y) g) (with_bombs e (mix_insert_from e sd i s1 s2)).
Proof.
  intros Hx Hy H1 H2 Hw. assert (Hi : iterates e sd s2) by (destruct s2, sd; cbn in *; auto).
  pose proof (m_feeds e sd s2 Hi) as Hf. pose proof (calmed_calm e) as Hc.
  assert (Ey : m_insert_from e sd i (x, y) g = match x with
    | OfChunk k c => consuming e (OfChunk k) (insert_from_live e (`k) (m_next e sd) (m_hint e) i) c y g
    | OfRing k r => consuming e (OfRing k) (rb_insert_from_live e (`k) (m_next e sd) (m_hint e) (m_fuel e y) i) r y g
    | _ => ill_typed (x, y) g end).
  { destruct y, s2; cbn in Hy, H2; try contradiction; reflexivity. }
  rewrite Ey. clear Ey.
  assert (Hw2 : length (m_items e s1) + length (queue e sd s2) < word e) by (rewrite queue_length; exact Hw).
  destruct x as [k c|k c|k c|k c], s1 as [k2 d|k2 d|k2 d|k2 d]; cbn in Hx, H1; try contradiction; destruct Hx as [<- Hx].
  - assert (He : inserts_from (Holds (`k)) (`k) (word e) (feeding e sd s2) (fun _ => insert_from_live e0 (`k) (m_next e sd) (m_hint e))).
    { apply (chunk_inserts_from e0); eauto. exact (proj2_sig k). }
    eapply tamed_agrees; [apply (consuming_tamed (OfChunk k) _ (insert_from_live e0 (`k) (m_next e sd) (m_hint e) i))|].
    + apply tame_insert_from_live.
    + eapply ends_quiet. exact (He _ c d y _ log0 g i Hx (feeding_0 e sd s2 y Hy) Hw2 (m_fuel_enough e sd y s2 Hy)).
    + refine (insert_from_agrees e (Holds (`k)) (`k) sd i (OfChunk k) (fun _ => insert_from_live e0 (`k) (m_next e sd) (m_hint e))
        c y d (OfChunk k d) s2 g Hi Hy Hx eq_refl eq_refl Hw eq_refl He _).
      intros. apply holds_chunk. assumption.
  - assert (He : inserts_from (RHolds (`k)) (`k) (word e) (feeding e sd s2) (rb_insert_from_live e0 (`k) (m_next e sd) (m_hint e))).
    { apply (ring_inserts_from e0); eauto; [exact (proj1 (proj2_sig k))|exact (proj2 (proj2_sig k))]. }
    eapply tamed_agrees; [apply (consuming_tamed (OfRing k) _ (rb_insert_from_live e0 (`k) (m_next e sd) (m_hint e) (m_fuel e y) i))|].
    + apply tame_rb_insert_from_live.
    + eapply ends_quiet. exact (He _ c d y _ log0 g i Hx (feeding_0 e sd s2 y Hy) Hw2 (m_fuel_enough e sd y s2 Hy)).
    + refine (insert_from_agrees e (RHolds (`k)) (`k) sd i (OfRing k) (rb_insert_from_live e0 (`k) (m_next e sd) (m_hint e))
        c y d (OfRing k d) s2 g Hi Hy Hx eq_refl eq_refl Hw eq_refl He _).
      intros. apply holds_ring. assumption.
Qed.
Lemma m_collect_bombs sd t y s2 g : MHolds y s2 -> iterates e sd s2 ->
  agreesb MHolds MHolds g (m_collect e sd t y g) (with_bombs e (mix_collect e sd t s2)).
Proof.
  intros Hy Hi. pose proof (m_feeds e sd s2 Hi) as Hf. pose proof (calmed_calm e) as Hc. destruct t as [k|k|k q]; unfold m_collect.
  - assert (He : collects (Holds (`k)) (`k) (feeding e sd s2) (from_iter_live e0 (`k) (m_next e sd))).
    { eapply chunk_collects; eauto. exact (proj2_sig k). }
    eapply tamed_agrees; [apply (made_from_tamed (OfChunk k) _ (from_iter_live e0 (`k) (m_next e sd) (m_fuel e y)))|].
    + apply tame_from_iter_live.
    + eapply makes_quiet. exact (He _ y _ log0 g (feeding_0 e sd s2 y Hy) (m_fuel_enough e sd y s2 Hy)).
    + refine (collect_agrees e (Holds (`k)) sd (ToChunk k) (OfChunk k) _ y s2 g Hi Hy He _). intros. apply holds_chunk. assumption.
  - assert (He : collects (RHolds (`k)) (`k) (feeding e sd s2) (rb_from_iter_live e0 (`k) (m_next e sd))).
    { eapply ring_collects; eauto; [exact (proj1 (proj2_sig k))|exact (proj2 (proj2_sig k))]. }
    eapply tamed_agrees; [apply (made_from_tamed (OfRing k) _ (rb_from_iter_live e0 (`k) (m_next e sd) (m_fuel e y)))|].
    + apply tame_rb_from_iter_live.
    + eapply makes_quiet. exact (He _ y _ log0 g (feeding_0 e sd s2 y Hy) (m_fuel_enough e sd y s2 Hy)).
    + refine (collect_agrees e (RHolds (`k)) sd (ToRing k) (OfRing k) _ y s2 g Hi Hy He _). intros. apply holds_ring. assumption.
  - assert (He : collects (IHolds e (`k)) (capacity e (`k)) (feeding e sd s2) (ia_from_iter_live e0 (`k) (address (`k) q) (m_next e sd))).
    { apply (inline_collects e0 (feeding e sd s2) (m_next e sd) (m_hint e)); eauto; [apply wf_calmed|exact (proj2 (proj2_sig k))|apply address_placed]. }
    eapply tamed_agrees; [apply (made_from_tamed (fun c => OfInline k (q, c)) _ (ia_from_iter_live e0 (`k) (address (`k) q) (m_next e sd) (m_fuel e y)))|].
    + apply tame_ia_from_iter_live.
    + eapply makes_quiet. exact (He _ y _ log0 g (feeding_0 e sd s2 y Hy) (m_fuel_enough e sd y s2 Hy)).
    + refine (collect_agrees e (IHolds e (`k)) sd (ToInline k q) (fun c => OfInline k (q, c)) _ y s2 g Hi Hy He _). intros. apply holds_inline. assumption.
Qed.
Lemma m_collect_from_bombs sd t n y s2 g : MHolds y s2 -> iterates e sd s2 -> match t with ToInline _ _ => False | _ => True end ->
  agreesb MHolds MHolds g (m_collect_from e sd t n y g) (with_bombs e (mix_collect_from e sd t n s2)).
Proof.
  intros Hy Hi Ht. pose proof (m_feeds e sd s2 Hi) as Hf. pose proof (calmed_calm e) as Hc.
  destruct t as [k|k|k q]; unfold m_collect_from; [| |contradiction].
  - assert (He : collects_from (Holds (`k)) (`k) (feeding e sd s2) (collect_from_live e0 (`k) (m_next e sd))).
    { eapply chunk_collects_from; eauto. exact (proj2_sig k). }
    eapply tamed_agrees; [apply (made_from_tamed (OfChunk k) _ (collect_from_live e0 (`k) (m_next e sd) n))|].
    + apply tame_collect_from_live.
    + eapply makes_quiet. exact (He n y _ log0 g (feeding_0 e sd s2 y Hy)).
    + refine (collect_from_agrees e (Holds (`k)) sd (ToChunk k) (OfChunk k) _ n y s2 g Hi Hy He _). intros. apply holds_chunk. assumption.
  - assert (He : collects_from (RHolds (`k)) (`k) (feeding e sd s2) (rb_collect_from_live e0 (`k) (m_next e sd))).
    { eapply ring_collects_from; eauto; [exact (proj1 (proj2_sig k))|exact (proj2 (proj2_sig k))]. }
    eapply tamed_agrees; [apply (made_from_tamed (OfRing k) _ (rb_collect_from_live e0 (`k) (m_next e sd) n))|].
    + apply tame_rb_collect_from_live.
    + eapply makes_quiet. exact (He n y _ log0 g (feeding_0 e sd s2 y Hy)).
    + refine (collect_from_agrees e (RHolds (`k)) sd (ToRing k) (OfRing k) _ n y s2 g Hi Hy He _). intros. apply holds_ring. assumption.
Qed.
Lemma fuel_fits (y : obj) : m_fuel e y <= word e.
Proof.
  destruct y as [k c|k c|k c|k c]; cbn [m_fuel]; pose proof (proj2_sig k) as Hk; cbn in Hk; try lia.
  destruct Hk as [WF HO]. unfold capacity. pose proof (wf_word e (`k) WF).
  destruct (size_a (`k) =? 0) eqn:E0; [lia|]. destruct (_ && _); [|lia].
  pose proof (Nat.div_le_upper_bound (size_t (`k) - size_us (`k)) (size_a (`k)) (size_t (`k) - size_us (`k)) ltac:(lia) ltac:(nia)). lia.
Qed.
Lemma sp_collects_quiet {S} N W (F : S -> list (option A) -> Prop) collect fuel s l g : sp_collects N W F collect ->
  F s l -> length l < fuel -> length l < W ->
  match collect fuel (s, log0) g with Ret (_, gs) _ _ | Panic (_, gs) _ => dropped gs = [] | _ => True end.
Proof.
  intros HC Hs Hl Hw. destruct (HC fuel s l log0 g Hs Hl Hw) as [IA IB].
  pose proof (entries_first (drop N l) 0) as P. destruct (entries_from 0 (drop N l)) as [|[j v] es].
  - destruct (IA P) as (s' & gs & g' & c & -> & _ & _ & _ & _ & D & _). exact D.
  - destruct P as [_ P]. rewrite Nat.sub_0_r in P.
    destruct (IB _ _ _ P (values_no_cells j)) as (s' & gs & g' & -> & _ & _ & _ & D & _). exact D.
Qed.
Lemma m_collect_sparse_bombs sd k y s2 g : MHolds y s2 -> iterates e sd s2 ->
  agreesb MHolds MHolds g (m_collect_sparse e sd k y g) (with_bombs e (mix_collect_sparse e sd k s2)).
Proof.
  intros Hy Hi. unfold m_collect_sparse.
  assert (He : sp_collects (`k) (word e) (somes e (feeding e sd s2)) (sp_from_iter_live e0 (`k) (map_some e (m_next e sd)))).
  { eapply (sparse_collects e0); [apply calmed_calm|]. exact (map_some_feeds e _ _ _ (m_feeds e sd s2 Hi)). }
  eapply tamed_agrees; [apply (made_from_tamed (OfSparse k) _ (sp_from_iter_live e0 (`k) (map_some e (m_next e sd)) (m_fuel e y)))|].
  - apply sp_from_iter_live_tamed. apply fuel_fits.
  - eapply sp_collects_quiet; [exact He| | |].
    + exists (queue e sd s2). split; [reflexivity|]. apply feeding_0. exact Hy.
    + rewrite map_length. apply m_fuel_enough. exact Hy.
    + rewrite map_length, queue_length. exact (items_count e y s2 Hy).
  - exact (collect_sparse_agrees e sd k _ y s2 g Hy Hi He).
Qed.
Lemma m_collect_cells_bombs k y s2 g : MHolds y s2 -> match s2 with OfSparse _ _ => True | _ => False end ->
  agreesb MHolds MHolds g (m_collect_cells e k y g) (with_bombs e (mix_collect_cells e k s2)).
Proof.
  intros Hy Hk. destruct y as [k2 c|k2 c|k2 c|k2 c], s2 as [k3 s|k3 s|k3 s|k3 s]; cbn in Hy, Hk; try contradiction. destruct Hy as [<- Hy].
  pose proof (proj2_sig k2) as HW. cbn in HW. assert (EN : length s = `k2) by apply Hy.
  assert (He : sp_collects (`k) (word e) (cells_left (`k2)) (sp_from_iter_live e0 (`k) (od_next e (`k2)))).
  { eapply (sparse_collects e0); [apply calmed_calm|]. exact (option_drain_feeds e (`k2) HW). }
  change (m_collect_cells e k (OfSparse k2 c) g) with (made_from_cells e k k2 (sp_from_iter_live e (`k) (od_next e (`k2)) (S (`k2))) c g).
  eapply tamed_agrees; [|exact (collect_cells_agrees e k k2 _ c s g Hy He)].
  assert (Hq : match sp_from_iter_live e0 (`k) (od_next e (`k2)) (S (`k2)) ((c, 0), log0) g with
    | Ret (_, gs) _ _ | Panic (_, gs) _ => dropped gs = [] | _ => True end).
  { eapply sp_collects_quiet with (l := s); [exact He| | |]; [|lia|lia].
    exists s. cbn [fst snd]. rewrite drop_0. repeat split; auto; [lia|apply Hy|apply Hy]. }
  pose proof (sp_from_iter_live_tamed e (`k) (od_next e (`k2)) (S (`k2)) ((c, 0), log0) g ltac:(lia)) as Ht.
  unfold tamed, made_from_cells in *.
  destruct (sp_from_iter_live e0 (`k) (od_next e (`k2)) (S (`k2)) ((c, 0), log0) g) as [[[c' n] gs] g' [new []]|[[c' n] gs] g'|u| |];
    cbn [dropped log_join].
  1-2: destruct Ht as (d & D & E); exists d; rewrite Hq, app_nil_r; split; [exact D|]; rewrite E; destruct (existsb _ d); reflexivity.
  all: destruct Ht as [-> | ->]; auto.
Qed.
Lemma tame_slots_put N vs : forall i, tame e (slots_put N i vs) (slots_put N i vs).
Proof.
  induction vs as [|a vs IH]; intros i; cbn [slots_put]; repeat first [apply tame_slot_write | apply IH | tame_step].
Qed.
Lemma tame_chunk_from_mut L b N : tame e (chunk_from_mut e L b N) (chunk_from_mut e0 L b N).
Proof.
  unfold chunk_from_mut. change (capacity e0 L) with (capacity e L). repeat first
    [ apply tame_ia_len | apply tame_ia_data | apply tame_elems_take | apply tame_ia_set_len | apply tame_slots_put
    | apply tame_with_local; [apply brisk_destroy|] | tame_step ].
Qed.
Lemma chunk_refb (k : ccap e) : refinesb (chunk_kit e (`k)) (chunk_spec e (`k)) (chunk_bspec e (`k)) (Holds (`k)).
Proof. apply chunk_refinesb. exact (proj2_sig k). Qed.
Lemma ring_refb (k : rcap e) : refinesb (ring_kit e (`k)) (ring_spec e (`k)) (ring_bspec e (`k)) (RHolds (`k)).
Proof. apply ring_refinesb; [exact (proj1 (proj2_sig k))|exact (proj2 (proj2_sig k))]. Qed.
Lemma sparse_refb (k : scap e) : refinesb (sparse_kit e (`k)) (array_spec (`k)) (sparse_bspec e (`k)) (SHolds (`k)).
Proof. apply sparse_refinesb. exact (proj2_sig k). Qed.
Lemma inline_refb (k : ilay e) : refinesb (ia_kit e (`k)) (ia_spec (capacity e (`k))) (ia_bspec e (capacity e (`k))) (LHolds e (`k)).
Proof. apply ia_refinesb; [exact (proj1 (proj2_sig k))|exact (proj2 (proj2_sig k))]. Qed.

Lemma kill_agreesb {O S} (f : O -> obj) (m : M A O unit) c g (b : bres (A := A) S unit) :
  agreesb (fun _ _ => True) eq g (m c g) b -> agreesb (fun _ _ => True) eq g (as_kind e f m c g) b.
Proof.
  destruct b as [s r d|s d k| |]; cbn; auto; unfold as_kind.
  - intros (o & g' & r' & E & R). rewrite E. eexists _, _, _. split; [reflexivity|]. exact R.
  - intros (o & g' & k' & E & R). rewrite E. eexists _, _, k'. split; [reflexivity|]. exact R.
  - intros ->. reflexivity.
Qed.
Theorem mix_refinesb : refinesb (mix_kit e) (mix_spec e) (mix_bspec e) MHolds.
Proof.
  constructor.
  - intros [k o|k o|k o|k o] g; cbn [run0 bs0 mix_kit mix_bspec].
    + eapply mapR_agreesb; [|exact (rfb0 _ _ _ _ (chunk_refb k) o g)]. intros; apply holds_chunk; assumption.
    + eapply mapR_agreesb; [|exact (rfb0 _ _ _ _ (ring_refb k) o g)]. intros; apply holds_ring; assumption.
    + eapply mapR_agreesb; [|exact (rfb0 _ _ _ _ (sparse_refb k) o g)]. intros; apply holds_sparse; assumption.
    + eapply mapR_agreesb; [|exact (rfb0 _ _ _ _ (inline_refb k) o g)]. intros; apply holds_inline; assumption.
  - intros o x s g Hx Hl. destruct o as [o|o|o|o], x as [k c|k c|k c|k c], s as [k2 l|k2 l|k2 l|k2 l];
      cbn [MixProofs.MHolds] in Hx; try contradiction; destruct Hx as [<- Hx]; cbn [legal1 mix_spec] in Hl; try contradiction;
      cbn [run1 bs1 mix_kit mix_bspec].
    + eapply as_kind_agreesb; [intros; apply holds_chunk; eassumption|]. apply mapR_agreesb_eq. apply (rfb1 _ _ _ _ (chunk_refb k)); assumption.
    + eapply as_kind_agreesb; [intros; apply holds_ring; eassumption|]. apply mapR_agreesb_eq. apply (rfb1 _ _ _ _ (ring_refb k)); assumption.
    + eapply as_kind_agreesb; [intros; apply holds_sparse; eassumption|]. apply mapR_agreesb_eq. apply (rfb1 _ _ _ _ (sparse_refb k)); [assumption|exact I].
    + eapply as_kind_agreesb; [intros; apply holds_inline; eassumption|]. apply mapR_agreesb_eq. apply (rfb1 _ _ _ _ (inline_refb k)); assumption.
  - intros o x s g Hx Hl. destruct o as [o|o|o|o|kc|sd t|sd t n|sd k|k].
    6: { apply m_collect_bombs; assumption. }
    6: { destruct Hl. apply m_collect_from_bombs; assumption. }
    6: { apply m_collect_sparse_bombs; assumption. }
    6: { apply m_collect_cells_bombs; assumption. }
    all: destruct x as [k c|k c|k c|k c], s as [k2 l|k2 l|k2 l|k2 l];
      cbn [MixProofs.MHolds] in Hx; try contradiction; destruct Hx as [<- Hx]; cbn [legaln mix_spec] in Hl; try contradiction;
      cbn [runn bsn mix_kit mix_bspec].
    + eapply as_kind_agreesb; [intros; apply holds_chunk; eassumption|].
      eapply mapR_agreesb; [|apply (rfbn _ _ _ _ (chunk_refb k)); eassumption]. intros; apply holds_chunk; assumption.
    + eapply as_kind_agreesb; [intros; apply holds_ring; eassumption|].
      eapply mapR_agreesb; [|apply (rfbn _ _ _ _ (ring_refb k)); eassumption]. intros; apply holds_ring; assumption.
    + eapply as_kind_agreesb; [intros; apply holds_sparse; eassumption|].
      eapply mapR_agreesb; [|apply (rfbn _ _ _ _ (sparse_refb k)); [eassumption|exact I]]. intros; apply holds_sparse; assumption.
    + eapply as_kind_agreesb; [intros; apply holds_inline; eassumption|].
      eapply mapR_agreesb; [|apply (rfbn _ _ _ _ (inline_refb k)); [eassumption|exact I]]. intros; apply holds_inline; assumption.
    + assert (Eq : with_bombs e (sas_kind e (OfInline k) (smapR (OfChunk kc) (bl_convert (`kc) l))) =
        bas_kind e (OfInline k) (bmap (fun c => OfChunk kc c : mst e) (with_bombs e (bl_convert (`kc) l)))).
      { unfold bl_convert. destruct (_ <=? _); reflexivity. }
      rewrite Eq. eapply as_kind_agreesb; [intros; apply holds_inline; eassumption|].
      eapply mapR_agreesb; [intros r r' Hr; apply holds_chunk; exact Hr|]. apply agreesb_in_place.
      eapply tame_agrees; [apply tame_chunk_from_mut|]. apply (chunk_from_mut_ok e0 (`k) (wf_calmed k) (proj2 (proj2_sig k)));
        [exact (proj2_sig kc)|apply address_placed|exact Hx].
  - intros o [x y] [s1 s2] g [Hx Hy] Hl. cbn [fst snd] in Hx, Hy. destruct o as [o|o|o|o|sd|sd i|eqA].
    5: { destruct Hl as [H1 H2]. cbn [run2 bs2 mix_kit mix_bspec fst snd].
         pose proof (mapR_agreesb_eq _ (mres_unit (A := A)) g (m_extend e sd) (x, y) _ (m_extend_bombs sd x y s1 s2 g Hx Hy H1 H2)) as P.
         destruct (mix_extend e sd s1 s2); cbn [with_bombs smapR] in *; destruct (existsb _ _); exact P. }
    5: { destruct Hl as (H1 & H2 & H3). cbn [run2 bs2 mix_kit mix_bspec fst snd].
         pose proof (mapR_agreesb_eq _ (mres_unit (A := A)) g (m_insert_from e sd i) (x, y) _ (m_insert_from_bombs sd i x y s1 s2 g Hx Hy H1 H2 H3)) as P.
         destruct (mix_insert_from e sd i s1 s2); cbn [with_bombs smapR] in *; destruct (existsb _ _); exact P. }
    5: { destruct Hl as (H1 & H2). cbn [run2 bs2 mix_kit mix_bspec fst snd]. unfold mapR.
         erewrite bind_Ret by (eapply m_eq_slice_ok; eassumption). cbn. eexists _, _, _. split; [reflexivity|].
         repeat split; auto. symmetry; apply app_nil_r. }
    all: destruct x as [k c|k c|k c|k c], s1 as [k2 l|k2 l|k2 l|k2 l]; cbn [MixProofs.MHolds] in Hx; try contradiction; destruct Hx as [<- Hx].
    all: destruct y as [k' c'|k' c'|k' c'|k' c'], s2 as [k2' l'|k2' l'|k2' l'|k2' l']; cbn [MixProofs.MHolds] in Hy; try contradiction; destruct Hy as [<- Hy].
    all: cbn [legal2 mix_spec fst snd same_kind] in Hl; try (exfalso; tauto); destruct Hl as [Ek Hl]; try contradiction.
    all: cbn [run2 bs2 mix_kit mix_bspec fst snd].
    all: rewrite (decide_True_pi Ek).
    + eapply as_kind2_agreesb with (H := Holds (`k)); [intros; apply holds_chunk; assumption|rewrite Ek; intros; apply holds_chunk; assumption|].
      apply mapR_agreesb_eq. apply (rfb2 _ _ _ _ (chunk_refb k)); [|exact Hl]. split; [exact Hx|]. cbn [snd]. rewrite Ek. exact Hy.
    + eapply as_kind2_agreesb with (H := RHolds (`k)); [intros; apply holds_ring; assumption|rewrite Ek; intros; apply holds_ring; assumption|].
      apply mapR_agreesb_eq. apply (rfb2 _ _ _ _ (ring_refb k)); [|exact Hl]. split; [exact Hx|]. cbn [snd]. rewrite Ek. exact Hy.
    + eapply as_kind2_agreesb with (H := SHolds (`k)); [intros; apply holds_sparse; assumption|rewrite Ek; intros; apply holds_sparse; assumption|].
      apply mapR_agreesb_eq. apply (rfb2 _ _ _ _ (sparse_refb k)); [|exact I]. split; [exact Hx|]. cbn [snd]. rewrite Ek. exact Hy.
    + eapply as_kind2_agreesb with (H := LHolds e (`k)); [intros; apply holds_inline; assumption|rewrite Ek; intros; apply holds_inline; assumption|].
      apply mapR_agreesb_eq. apply (rfb2 _ _ _ _ (inline_refb k)); [|exact I]. split; [exact Hx|]. cbn [snd]. rewrite Ek. exact Hy.
  - intros x s g Hx. destruct x as [k c|k c|k c|k c], s as [k2 l|k2 l|k2 l|k2 l];
      cbn [MixProofs.MHolds] in Hx; try contradiction; destruct Hx as [<- Hx]; cbn [kill mix_kit bsk mix_bspec].
    + apply kill_agreesb. apply (rfbk _ _ _ _ (chunk_refb k)). exact Hx.
    + apply kill_agreesb. apply (rfbk _ _ _ _ (ring_refb k)). exact Hx.
    + apply kill_agreesb. apply (rfbk _ _ _ _ (sparse_refb k)). exact Hx.
    + apply kill_agreesb. apply (rfbk _ _ _ _ (inline_refb k)). exact Hx.
Qed.

(** ** Values are conserved *)
Theorem mix_bbalanced : balancedb (mix_spec e) (mix_bspec e).
Proof.
  constructor.
  - intros [k o|k o|k o|k o]; cbn [bs0 bg0 mix_bspec items mix_spec].
    + pose proof (bbal0 _ _ (chunk_bbalanced e (`k)) o) as P. destruct (bs0 _ _); exact P.
    + pose proof (bbal0 _ _ (ring_bbalanced e (`k)) o) as P. destruct (bs0 _ _); exact P.
    + pose proof (bbal0 _ _ (sparse_bbalanced e (`k) (proj2_sig k)) o) as P. destruct (bs0 _ _); exact P.
    + pose proof (bbal0 _ _ (ia_bbalanced e (capacity e (`k))) o) as P. destruct (bs0 _ _); exact P.
  - intros o x Hl. destruct o as [o|o|o|o], x as [k l|k l|k l|k l]; cbn [legal1 mix_spec] in Hl; try contradiction;
      cbn [bs1 bg1 mix_bspec items outs mix_spec].
    + pose proof (bbal1 _ _ (chunk_bbalanced e (`k)) o l Hl) as P. destruct (bs1 _ _ _); exact P.
    + pose proof (bbal1 _ _ (ring_bbalanced e (`k)) o l Hl) as P. destruct (bs1 _ _ _); exact P.
    + pose proof (bbal1 _ _ (sparse_bbalanced e (`k) (proj2_sig k)) o l I) as P. destruct (bs1 _ _ _); exact P.
    + pose proof (bbal1 _ _ (ia_bbalanced e (capacity e (`k))) o l Hl) as P. destruct (bs1 _ _ _); exact P.
  - intros o x Hl. pose proof (baln _ (mix_balanced e) o x Hl) as Q. destruct o as [o|o|o|o|kc|sd t|sd t n|sd k|k].
    6-9: cbn [bsn bgn specn givenn mix_bspec mix_spec items] in *;
      match goal with |- context [with_bombs e ?s] => destruct s; cbn [with_bombs]; destruct (existsb _ _); auto end.
    all: destruct x as [k l|k l|k l|k l]; cbn [legaln mix_spec] in Hl; try contradiction;
      cbn [bsn bgn mix_bspec items outs mix_spec].
    + pose proof (bbaln _ _ (chunk_bbalanced e (`k)) o l Hl) as P. destruct (bsn _ _ _); exact P.
    + pose proof (bbaln _ _ (ring_bbalanced e (`k)) o l Hl) as P. destruct (bsn _ _ _); exact P.
    + pose proof (bbaln _ _ (sparse_bbalanced e (`k) (proj2_sig k)) o l I) as P. destruct (bsn _ _ _); exact P.
    + pose proof (bbaln _ _ (ia_bbalanced e (capacity e (`k))) o l I) as P. destruct (bsn _ _ _); exact P.
    + cbn [specn givenn mix_spec items] in Q. destruct (sas_kind _ _ _); cbn [with_bombs]; destruct (existsb _ _); auto.
  - intros o [x y] Hl. pose proof (bal2 _ (mix_balanced e) o (x, y) Hl) as Q. destruct o as [o|o|o|o|sd|sd i|eqA].
    5-6: cbn [bs2 spec2 mix_bspec mix_spec items outs fst snd] in *;
      match goal with |- context [with_bombs e ?s] => destruct s; cbn [with_bombs]; destruct (existsb _ _); auto end.
    5: exact Q.
    all: destruct x as [k l|k l|k l|k l], y as [k2 l2|k2 l2|k2 l2|k2 l2]; cbn [legal2 mix_spec fst snd same_kind] in Hl;
      try (exfalso; tauto); destruct Hl as [Ek Hl]; try contradiction; clear Q; cbn [bs2 mix_bspec items outs mix_spec fst snd].
    + pose proof (bbal2 _ _ (chunk_bbalanced e (`k)) o (l, l2) Hl) as P. cbn [fst snd] in P. destruct (bs2 _ _ _); exact P.
    + pose proof (bbal2 _ _ (ring_bbalanced e (`k)) o (l, l2) Hl) as P. cbn [fst snd] in P. destruct (bs2 _ _ _); exact P.
    + pose proof (bbal2 _ _ (sparse_bbalanced e (`k) (proj2_sig k)) o (l, l2) I) as P. cbn [fst snd] in P. destruct (bs2 _ _ _); exact P.
    + pose proof (bbal2 _ _ (ia_bbalanced e (capacity e (`k))) o (l, l2) I) as P. cbn [fst snd] in P. destruct (bs2 _ _ _); exact P.
  - intros [k l|k l|k l|k l]; cbn [bsk mix_bspec items mix_spec m_items].
    + exact (bbalk _ _ (chunk_bbalanced e (`k)) l).
    + exact (bbalk _ _ (ring_bbalanced e (`k)) l).
    + exact (bbalk _ _ (sparse_bbalanced e (`k) (proj2_sig k)) l).
    + exact (bbalk _ _ (ia_bbalanced e (capacity e (`k))) l).
Qed.

(** ** No call is left undescribed *)
Lemma bmap_open {S R T} (f : R -> T) (b : bres (A := A) S R) : b <> BOpen -> bmap f b <> BOpen. Proof. destruct b; cbn; congruence. Qed.
Lemma bas_kind_open {S R} (f : S -> st) (b : bres (A := A) S R) : b <> BOpen -> bas_kind e f b <> BOpen. Proof. destruct b; cbn; congruence. Qed.
Lemma bas_kind2_open {S R} (f f2 : S -> st) (b : bres (A := A) (S * S) R) : b <> BOpen -> bas_kind2 e f f2 b <> BOpen. Proof. destruct b; cbn; congruence. Qed.
Lemma mix_known p s : spares (mix_bspec e) (mix_discards e) p s -> brun (mix_bspec e) p s <> BUnknown.
Proof.
  pose proof (fun k : ccap e => known_calls _ _ (chunk_known e (`k) (proj2_sig k))) as KC.
  pose proof (fun k : rcap e => known_calls _ _ (ring_known e (`k) (proj1 (proj2_sig k)) (proj2 (proj2_sig k)))) as KR.
  pose proof (fun k : scap e => known_calls _ (fun _ _ => False) (fun p s _ => sparse_known e (`k) p s)) as KS.
  pose proof (fun N => known_calls _ _ (ia_known e N)) as KI.
  apply spares_known_weak; cbn [bs0 bs1 bsn bs2 bsk mix_bspec].
  - intros [k o|k o|k o|k o]; apply bmap_open; [apply KC|apply KR|apply KS|apply KI].
  - intros o x HD. destruct o as [o|o|o|o], x as [k l|k l|k l|k l]; try discriminate; apply bas_kind_open, bmap_open.
    + apply KC, HD.
    + apply KR, HD.
    + apply KS. auto.
    + apply KI, HD.
  - intros o x. destruct o as [o|o|o|o|kc|sd t|sd t n|sd k|k].
    6: apply quiet_known; unfold mix_collect; destruct (_ <=? _); auto.
    6: apply quiet_known; unfold mix_collect_from; destruct (_ && _); auto.
    6: apply quiet_known; unfold mix_collect_sparse; destruct (_ <=? _); auto.
    6: apply quiet_known; unfold mix_collect_cells; destruct x; auto; destruct (entries _) as [|[]]; auto.
    all: destruct x as [k l|k l|k l|k l]; try discriminate.
    5: apply quiet_known; unfold bl_convert; destruct (_ <=? _); cbn; auto.
    all: apply bas_kind_open, bmap_open.
    + apply KC.
    + apply KR.
    + apply KS.
    + apply KI.
  - intros o [x y]. cbn [fst snd]. destruct o as [o|o|o|o|sd|sd i|eqA].
    5: apply quiet_known; unfold mix_extend; destruct (_ <=? _); cbn; auto.
    5: apply quiet_known; unfold mix_insert_from; destruct (_ && _); cbn; auto.
    5: discriminate.
    all: destruct x as [k l|k l|k l|k l], y as [k2 l2|k2 l2|k2 l2|k2 l2]; try discriminate; apply bas_kind2_open, bmap_open.
    + apply KC.
    + apply KR.
    + apply KS.
    + apply KI.
  - intros [k l|k l|k l|k l]; [apply KC|apply KR|apply KS|apply KI].
Qed.
Notation prog := (list (cmd (mop0 e) (mop1 A) (mopn e) (mop2 A))).
Theorem mix_bomb_safe (p : prog) : ball_legal (mix_spec e) (mix_bspec e) p [] -> spares (mix_bspec e) (mix_discards e) p [] ->
  match brun (mix_bspec e) p [] with
  | BFinished Y d k evs gv => exists X g, runx (mix_kit e) p [] log0 = Finished X g evs /\
      Forall2 (orel MHolds) X Y /\ dropped g = d /\ Permutation (leaked g) k /\
      Permutation gv (live (mix_spec e) Y ++ returned (mix_spec e) evs ++ dropped g ++ leaked g)
  | BAborted => runx (mix_kit e) p [] log0 = Aborted
  | BUnknown => False
  end.
Proof.
  intros HL HS. pose proof (bomb_program _ _ _ _ mix_refinesb mix_bbalanced p HL) as P. pose proof (mix_known p [] HS) as Q.
  destruct (brun (mix_bspec e) p []); auto.
Qed.
End mix.
