(** * Containers of containers of values whose destructors may panic: the code does what NestBombSpec.v says. *)
From Verif Require Import Machine Spec Prims Program InlineModel InlineSpec SparseSpec IterSpec MixModel MixSpec MixProofs MixProgram ChunkProgram RingProgram
  SparseProgram InlineProgram Bombs BombProgram ChunkBombs RingBombs SparseBombs InlineBombs MixBombSpec MixBombs TempModel TempSpec TempMix OwnModel OwnSpec OwnMix
  WalkModel WalkSpec WalkMix NestModel NestSpec NestNature NestProofs NestBalance NestBombSpec.
From Verif Require RingProofs.

(** ** The specification of MixBombSpec.v treats elements alike, if their destructors do. *)
Section nature.
Context {A : Type} (e : env A) {B1 B2 : Type} (R : B1 -> B2 -> Prop) (b1 : B1 -> bool) (b2 : B2 -> bool).
Hypothesis HB : forall x y, R x y -> b1 x = b2 y.
Notation E1 := (over e b1).
Notation E2 := (over e b2).
Notation lft := (lift e R b1 b2).
Definition balike {S1 S2 T1 T2} (RS : S1 -> S2 -> Prop) (RT : T1 -> T2 -> Prop) (s1 : bres (A := B1) S1 T1) (s2 : bres (A := B2) S2 T2) : Prop :=
  match s1, s2 with
  | BRet x r d, BRet x2 r2 d2 => RS x x2 /\ RT r r2 /\ Forall2 R d d2
  | BPanic x d k, BPanic x2 d2 k2 => RS x x2 /\ Forall2 R d d2 /\ Forall2 R k k2
  | BAbort, BAbort => True
  | BOpen, BOpen => True
  | _, _ => False
  end.
Lemma bombs_alike l l2 : Forall2 R l l2 -> existsb b1 l = existsb b2 l2.
Proof. induction 1 as [|x y l l2 Hx _ IH]; cbn; [reflexivity|]. rewrite IH, (HB x y Hx). reflexivity. Qed.
Lemma with_bombs_alike {S1 S2 T1 T2} (RS : S1 -> S2 -> Prop) (RT : T1 -> T2 -> Prop) s1 s2 :
  alike R RS RT s1 s2 -> balike RS RT (with_bombs E1 s1) (with_bombs E2 s2).
Proof.
  destruct s1 as [x r d|x d k], s2 as [x2 r2 d2|x2 d2 k2]; cbn; try contradiction; intros (H1 & H2 & H3).
  - rewrite (bombs_alike _ _ H3). destruct (existsb b2 d2); cbn; auto.
  - rewrite (bombs_alike _ _ H2). destruct (existsb b2 d2); cbn; auto.
Qed.
Lemma filter_alike l l2 : Forall2 R l l2 -> length (List.filter b1 l) = length (List.filter b2 l2).
Proof. induction 1 as [|x y l l2 Hx _ IH]; cbn; [reflexivity|]. rewrite (HB x y Hx). destruct (b2 y); cbn; congruence. Qed.
Lemma no_bomb_none {B} (b : B -> bool) l : RingProofs.no_bomb (over e b) l = negb (existsb b l).
Proof. unfold RingProofs.no_bomb. induction l as [|x l IH]; [reflexivity|]. cbn in *. rewrite IH. destruct (b x); reflexivity. Qed.
Lemma until_alike l l2 : Forall2 R l l2 -> Forall2 R (RingProofs.until_bomb E1 l) (RingProofs.until_bomb E2 l2).
Proof.
  induction 1 as [|x y l l2 Hx _ IH]; cbn; [constructor|]. rewrite (HB x y Hx). destruct (b2 y); auto.
Qed.
Lemma stop_alike l l2 : Forall2 R l l2 -> balike (fun _ _ : unit => True) eq (ring_killb E1 l) (ring_killb E2 l2).
Proof.
  intros H. unfold ring_killb. rewrite !no_bomb_none, (bombs_alike _ _ H). pose proof (until_alike _ _ H) as U.
  destruct (existsb b2 l2); cbn; repeat split; auto. rewrite <- (Forall2_length _ _ _ U). apply Forall2_drop. exact H.
Qed.
Lemma slice_alike l l2 : Forall2 R l l2 -> balike (fun _ _ : unit => True) eq (chunk_killb E1 l) (chunk_killb E2 l2).
Proof.
  intros H. unfold chunk_killb. cbn [bomb over]. rewrite (filter_alike _ _ H). destruct (length _) as [|[|n]]; cbn; auto.
Qed.
Lemma kill_alike x y : lft x y -> balike (fun _ _ => True) eq (bsk (mix_bspec E1) x) (bsk (mix_bspec E2) y).
Proof.
  destruct x as [k l|k l|k l|k l], y as [k2 l2|k2 l2|k2 l2|k2 l2]; try contradiction; intros [_ H].
  - exact (slice_alike _ _ H).
  - exact (stop_alike _ _ H).
  - exact (stop_alike _ _ (values_alike R _ _ H)).
  - exact (slice_alike _ _ H).
Qed.
End nature.

(** ** The calls on outer containers are as without panicking destructors, or abort, or are left open. *)
Section outer.
Context {A : Type} (e : env A) {B : Type} (b : B -> bool).
Notation E := (over e b).
Lemma wb_kind {S T} (f : S -> mst E) (h : T -> mres B) (s : sres B S T) :
  bas_kind E f (bmap h (with_bombs E s)) = with_bombs E (sas_kind E f (smapR h s)).
Proof. destruct s; cbn; destruct (existsb _ _); reflexivity. Qed.
Lemma wb_kindn {S T} (f : S -> mst E) (h : T -> mst E) (s : sres B S T) :
  bas_kind E f (bmap h (with_bombs E s)) = with_bombs E (sas_kind E f (smapR h s)).
Proof. destruct s; cbn; destruct (existsb _ _); reflexivity. Qed.
Lemma wb_kind2 {S T} (f f2 : S -> mst E) (h : T -> mres B) (s : sres B (S * S) T) :
  bas_kind2 E f f2 (bmap h (with_bombs E s)) = with_bombs E (sas_kind2 E f f2 (smapR h s)).
Proof. destruct s; cbn; destruct (existsb _ _); reflexivity. Qed.
Lemma put_wb o x v : bs1 (mix_bspec E) (o_put o x v) x = with_bombs E (spec1 (mix_spec E) (o_put o x v) x).
Proof. destruct x, o; try reflexivity; apply wb_kind. Qed.
Lemma take_wb o x : bs1 (mix_bspec E) (o_take o x) x = with_bombs E (spec1 (mix_spec E) (o_take o x) x).
Proof. destruct x, o; try reflexivity; apply wb_kind. Qed.
Lemma method_wb o x : bs1 (mix_bspec E) (o_method o x) x = with_bombs E (spec1 (mix_spec E) (o_method o x) x).
Proof. destruct x, o; try reflexivity; apply wb_kind. Qed.
Lemma index_wb i x : bs1 (mix_bspec E) (o_index i x) x = with_bombs E (spec1 (mix_spec E) (o_index i x) x).
Proof. destruct x; apply wb_kind. Qed.
Lemma spawn_wb o x : bsn (mix_bspec E) (o_spawn e o x) x = with_bombs E (specn (mix_spec E) (o_spawn e o x) x).
Proof. destruct o, x; try reflexivity; apply wb_kindn. Qed.
Lemma merge_wb o x y : bs2 (mix_bspec E) (o_merge o x) (x, y) = with_bombs E (spec2 (mix_spec E) (o_merge o x) (x, y)).
Proof. destruct o, x; try reflexivity; destruct y; try reflexivity; apply wb_kind2. Qed.
Lemma new_wb o : bs0 (mix_bspec E) (o_new e b o) = with_bombs E (spec0 (mix_spec E) (o_new e b o)).
Proof. destruct o; reflexivity. Qed.
Lemma assign_wb i v w (x : mst E) : elem e i x = Some w ->
  (exists r, bs1 (mix_bspec E) (o_assign i v x) x = BRet (with_elem e i v x) r [w]) \/
  bs1 (mix_bspec E) (o_assign i v x) x = BPanic (with_elem e i v x) [w] [].
Proof.
  destruct x as [k l|k l|k l|k l]; cbn [o_assign bs1 mix_bspec chunk_bspec ring_bspec sparse_bspec ia_bspec elem with_elem]; intros E0.
  3: { destruct (l !! i) as [[a|]|]; try discriminate. injection E0 as ->. destruct (bomb E w); cbn; eauto. }
  all: rewrite E0, <- insert_take_drop by eauto using lookup_lt_Some; destruct (bomb E w); cbn; eauto.
Qed.
End outer.

(** ** Dropping containers, and the code of the outer container *)
Section nest.
Context {A : Type} (e : env A).
Notation obj := (mobj e).
Notation st := (mst e).
Notation R := (MHolds e).
Notation bb := (fun x => existsb (bomb e) (contents e x)).
Notation E := (outer_env e).
Notation Es := (outer_senv e).
Notation lft := (lift e R bb (sbomb e)).
Lemma HB x y : R x y -> bb x = sbomb e y.
Proof. intros H. unfold sbomb. rewrite (contents_ok e x y H). reflexivity. Qed.
Notation balk := (balike R).

Lemma kill_open x : bsk (mix_bspec e) x <> BOpen.
Proof.
  destruct x as [k l|k l|k l|k l]; cbn [bsk mix_bspec chunk_bspec ring_bspec sparse_bspec ia_bspec bombed_spec].
  1,4: unfold chunk_killb; match goal with |- context [match ?x with _ => _ end] => destruct x as [|[|n]] end; discriminate.
  all: unfold sparse_killb, ring_killb; destruct (RingProofs.no_bomb e _); discriminate.
Qed.
Lemma filter_none (l : list A) : existsb (bomb e) l = false -> List.filter (bomb e) l = [].
Proof. induction l as [|a l IH]; cbn; [reflexivity|]. destruct (bomb e a); [discriminate|]. exact IH. Qed.
Lemma no_bomb_none' l : RingProofs.no_bomb e l = negb (existsb (bomb e) l).
Proof. unfold RingProofs.no_bomb. induction l as [|x l IH]; [reflexivity|]. cbn in *. rewrite IH. destruct (bomb e x); reflexivity. Qed.
Lemma kill_quiet x : sbomb e x = false -> bsk (mix_bspec e) x = BRet tt tt (m_items e x).
Proof.
  unfold sbomb. destruct x as [k l|k l|k l|k l]; cbn [bsk mix_bspec chunk_bspec ring_bspec sparse_bspec ia_bspec bombed_spec m_items]; intros H.
  1,4: unfold chunk_killb; rewrite (filter_none _ H); reflexivity.
  all: unfold sparse_killb, ring_killb; rewrite no_bomb_none', H; reflexivity.
Qed.
Lemma settle_okb D D' : Forall2 R D D' -> forall g,
  match bsettle e D' with
  | Some (d, k) => exists g' k', settle e D tt g = Ret tt g' tt /\ dropped g' = dropped g ++ d /\ leaked g' = leaked g ++ k' /\ Permutation k k'
  | None => settle e D tt g = Abort
  end.
Proof.
  induction 1 as [|x s D D' Hx HD IH]; intros g; cbn [settle bsettle].
  - exists g, []. rewrite !app_nil_r. auto.
  - pose proof (rfbk _ _ _ _ (mix_refinesb e) x s g Hx) as P. pose proof (kill_open s) as Q.
    destruct (bsk (mix_bspec e) s) as [u r d|u d k| |]; cbn [agreesb agrees] in P; [| | |congruence].
    + destruct P as (x' & g1 & r' & Ek & _ & _ & D1 & L1). rewrite Ek. specialize (IH g1).
      destruct (bsettle e D') as [[d' k']|]; [|exact IH].
      destruct IH as (g2 & k2 & E2 & D2 & L2 & PK). exists g2, k2. rewrite E2, D2, D1, L2, L1, <- app_assoc. auto.
    + destruct P as (x' & g1 & k1 & Ek & _ & D1 & L1 & PK1). rewrite Ek. specialize (IH g1).
      destruct (bsettle e D') as [[d' k']|]; [|exact IH].
      destruct IH as (g2 & k2 & E2 & D2 & L2 & PK). exists g2, (k1 ++ k2). rewrite E2, D2, D1, L2, L1, <- !app_assoc.
      repeat split; auto. apply Permutation_app; assumption.
    + rewrite P. reflexivity.
Qed.
Lemma bsettle_quiet D : existsb (sbomb e) D = false -> bsettle e D = Some (flat_map (m_items e) D, []).
Proof.
  induction D as [|x D IH]; [reflexivity|]. cbn [existsb bsettle flat_map]. intros H. apply orb_false_iff in H. destruct H as [H1 H2].
  rewrite (kill_quiet x H1), (IH H2). reflexivity.
Qed.
Definition bquiet {S T} (b : bres (A := st) S T) : Prop := match b with BRet _ _ d => existsb (sbomb e) d = false | _ => True end.
Lemma wb_quiet {S T} (s : sres st S T) : bquiet (with_bombs Es s).
Proof. destruct s as [x r d|x d k]; cbn; destruct (existsb (sbomb e) d) eqn:H; cbn; auto. Qed.
Lemma bsk_quiet x : bquiet (bsk (mix_bspec Es) x).
Proof.
  destruct x as [k l|k l|k l|k l]; cbn [bsk mix_bspec chunk_bspec ring_bspec sparse_bspec ia_bspec bombed_spec].
  1,4: unfold chunk_killb; destruct (List.filter (bomb Es) l) as [|a [|a' q]] eqn:H; cbn; auto;
    clear -H; induction l as [|x l IH]; [reflexivity|]; cbn in *; destruct (sbomb e x); [discriminate|]; auto.
  all: unfold sparse_killb, ring_killb; match goal with |- context [RingProofs.no_bomb ?x ?l] => change (RingProofs.no_bomb x l) with (RingProofs.no_bomb (over e (sbomb e)) l); rewrite (no_bomb_none e (sbomb e) l); destruct (existsb (sbomb e) l) eqn:H end; cbn; auto.
Qed.
Lemma perm_alike (k2 k k' : list st) (ko : list obj) : Permutation k k2 -> Forall2 R ko k2 -> exists k3, Permutation k k3 /\ Forall2 R ko k3.
Proof. eauto. Qed.
Lemma lower_okb {O S S2 T T2 T3} (H : O -> S -> Prop) (RR : T -> T2 -> Prop) (RS : S -> S2 -> Prop) (RT : T2 -> T3 -> Prop)
  (m : M obj O T) o g (s : bres (A := obj) S T2) (s2 : bres (A := st) S2 T3) :
  agreesb H RR log0 (m o log0) s -> balk RS RT s s2 -> bquiet s2 ->
  agreesb (fun o s2 => exists s, H o s /\ RS s s2) (fun r r3 => exists r2, RR r r2 /\ RT r2 r3) g (lower e m o g) (bflat e s2).
Proof.
  unfold lower. destruct s as [s r d|s d k| |], s2 as [s2 r2 d2|s2 d2 k2| |]; cbn [balike agreesb bquiet]; try contradiction.
  - intros (o' & gs & t & Em & Ho & Hr & D & L) (HS & HT & HD) HQ. rewrite Em. cbn in D, L. rewrite D, L. cbn.
    pose proof (settle_okb _ _ HD (log_leak [] g)) as W. rewrite (bsettle_quiet _ HQ) in W.
    destruct W as (g' & k' & Es & D' & L' & PK). apply Permutation_nil in PK. subst k'. rewrite Es. cbn in D', L'. rewrite !app_nil_r in L'.
    exists o', g', t. repeat split; eauto.
  - intros (o' & gs & k' & Em & Ho & D & L & P) (HS & HD & HK) _. rewrite Em. cbn in D, L. rewrite D, L. cbn.
    assert (exists k3, Permutation k2 k3 /\ Forall2 R k' k3) as (k3 & P3 & F3).
    { clear -P HK. revert k2 HK. induction P as [|x k k' P IH|x y k|k k' k'' P IH P2 IH2]; intros k2 HK.
      - inversion HK. exists []. auto.
      - inversion HK as [|x0 b k0 k2' Hx HK']; subst. destruct (IH _ HK') as (k3 & P3 & F3). exists (b :: k3). auto.
      - inversion HK as [|x0 b k0 k2' Hx HK']; subst. inversion HK' as [|x1 b1 k1 k3 Hx1 HK1]; subst.
        exists (b1 :: b :: k3). split; [apply perm_swap|auto].
      - destruct (IH _ HK) as (k3 & P3 & F3). destruct (IH2 _ F3) as (k4 & P4 & F4). exists k4. split; [|exact F4]. etransitivity; eassumption. }
    rewrite (contents_all e _ _ F3).
    pose proof (settle_okb _ _ HD (log_leak (flat_map (m_items e) k3) g)) as W. destruct (bsettle e d2) as [[d' k4]|]; cbn [agreesb agrees].
    + destruct W as (g' & k5 & Es & D' & L' & PK). rewrite Es. cbn in D', L'.
      exists o', g', (flat_map (m_items e) k3 ++ k5). rewrite app_assoc. repeat split; eauto.
      rewrite (Permutation_app_comm k4). apply Permutation_app; [|exact PK]. apply Permutation_flat_map. exact P3.
    + rewrite W. reflexivity.
  - intros -> _ _. reflexivity.
  - auto.
Qed.
Notation refE := (mix_refinesb E).
Notation OH := (OHolds e).
Lemma outer_wb {O S T T2} (H : O -> S -> Prop) (RR : T -> T2 -> Prop) g x (b b2 : bres (A := obj) S T2) : b = b2 -> agreesb H RR g x b -> agreesb H RR g x b2.
Proof. intros ->. auto. Qed.

Lemma put_back_okb i v v' w x l s g : MHolds E x l -> lft l s -> elem e i l = Some w -> R v v' ->
  exists x', put_back e i v x g = Ret x' g tt /\ OH x' (with_elem e i v' s).
Proof.
  intros Hx Hl He Hv. unfold put_back. rewrite (assign_same e i v x l Hx).
  pose proof (rfb1 _ _ _ _ refE (o_assign i v l) x l log0 Hx (legal_assign e bb i v l)) as P.
  assert (W : forall x', MHolds E x' (with_elem e i v l) -> OH x' (with_elem e i v' s)).
  { intros x' Hx'. exists (with_elem e i v l). split; [exact Hx'|]. apply with_elem_alike; assumption. }
  destruct (assign_wb e bb i v w l He) as [[r Eb]|Eb].
  - apply (outer_wb _ _ _ _ _ _ Eb) in P. destruct P as (x' & g' & t & Em & Hx' & _). rewrite Em. eauto.
  - apply (outer_wb _ _ _ _ _ _ Eb) in P. destruct P as (x' & g' & t & Em & Hx' & _). rewrite Em. eauto.
Qed.
Lemma at_okb {Y Y2 T T2} (HY : Y -> Y2 -> Prop) (RR : T -> T2 -> Prop) i (m : M A (obj * Y) T) (f : st -> bres (A := A) (st * Y2) T2) x s y y2 g :
  OH x s -> HY y y2 ->
  (forall v v' g, R v v' -> elem e i s = Some v' -> agreesb (both R HY) RR g (m (v, y) g) (f v')) ->
  agreesb (both OH HY) RR g (at_index e i m (x, y) g) (bspec_at e i f s y2).
Proof.
  intros (l & Hx & Hl) Hy Hm. unfold at_index, bspec_at. cbn [fst snd]. rewrite (index_same e i x l Hx).
  pose proof (outer_wb _ _ _ _ _ _ (index_wb e bb i l) (rfb1 _ _ _ _ refE (o_index i l) x l log0 Hx (legal_index e bb i l))) as P.
  pose proof (elem_alike e R bb (sbomb e) i l s Hl) as HE.
  match type of P with agreesb _ _ _ _ (with_bombs _ ?z) => assert (Q : match z with
    | SRet x' r d => x' = l /\ d = [] /\ exists v, elem e i l = Some v /\ ref_of r = Some v
    | SPanic x' d k => x' = l /\ d = [] /\ k = [] /\ elem e i l = None end) by exact (spec_index e bb i l);
    destruct z as [l1 r d|l1 d k] end.
  - destruct Q as (-> & -> & v & Ev & Er). rewrite Ev in HE. destruct (elem e i s) as [v'|] eqn:E2; [|inversion HE].
    assert (Hv : R v v') by (inversion HE; subst; assumption).
    pose proof (lower_okb (MHolds E) eq lft (fun r v' => exists v, ref_of r = Some v /\ elem e i l = Some v /\ R v v') _ x g _ (BRet s v' []) P) as W.
    destruct W as (x1 & g1 & r1 & Em & (l1 & Hx1 & Hl1) & (r2 & -> & v2 & Er2 & Ev2 & Hv2) & D & L).
    { cbn. repeat split; eauto. }
    { reflexivity. }
    rewrite Em, Er2. cbn in D. rewrite app_nil_r in D. pose proof (Hm v2 v' g1 Hv2 eq_refl) as W.
    assert (exists w, elem e i l1 = Some w) as (w & Hw).
    { pose proof (elem_alike e R bb (sbomb e) i l1 s Hl1) as HE1. rewrite E2 in HE1. inversion HE1; eauto. }
    destruct (f v') as [[v3 y3] t d|[v3 y3] d k| |]; [| |rewrite W; reflexivity|exact I].
    + destruct W as ((v4 & y4) & g2 & t4 & Em2 & [Hv4 Hy4] & Ht & D2 & L2). rewrite Em2. cbn in Hv4, Hy4.
      destruct (put_back_okb i v4 v3 w x1 l1 s g2 Hx1 Hl1 Hw Hv4) as (x' & Ep & Ho). rewrite Ep.
      exists (x', y4), g2, t4. rewrite <- D, <- L. repeat split; auto.
    + destruct W as ((v4 & y4) & g2 & k4 & Em2 & [Hv4 Hy4] & D2 & L2 & PK). rewrite Em2. cbn in Hv4, Hy4.
      destruct (put_back_okb i v4 v3 w x1 l1 s g2 Hx1 Hl1 Hw Hv4) as (x' & Ep & Ho). rewrite Ep.
      exists (x', y4), g2, k4. rewrite <- D, <- L. repeat split; auto.
  - destruct Q as (-> & -> & -> & Ev). rewrite Ev in HE. destruct (elem e i s) as [v'|] eqn:E2; [inversion HE|].
    pose proof (lower_okb (MHolds E) eq lft (fun _ (_ : unit) => True) _ x g _ (BPanic s [] []) P) as W.
    destruct W as (x1 & g1 & k1 & Em & (l1 & Hx1 & Hl1) & D & L & PK).
    { cbn. repeat split; auto; constructor. }
    { exact I. }
    rewrite Em. exists (x1, y), g1, k1. repeat split; auto. exists l1. auto.
Qed.
Lemma at1_okb {T T2} (RR : T -> T2 -> Prop) i (m : M A obj T) (f : st -> bres (A := A) st T2) x s g :
  OH x s ->
  (forall v v' g, R v v' -> elem e i s = Some v' -> agreesb R RR g (m v g) (f v')) ->
  agreesb OH RR g (at_index1 e i m x g) (bspec_at1 e i f s).
Proof.
  intros Hx Hm.
  pose proof (at_okb (fun _ _ : unit => True) RR i (on_fst m)
    (fun v => match f v with BRet v' r d => BRet (v', tt) r d | BPanic v' d k => BPanic (v', tt) d k | BAbort => BAbort | BOpen => BOpen end) x s tt tt g Hx I) as P.
  unfold at_index1, bspec_at1, bspec_at in *. destruct (elem e i s) as [v'|] eqn:Ev.
  - specialize (P ltac:(intros v w g1 Hv E1; injection E1 as ->; specialize (Hm v w g1 Hv eq_refl); unfold on_fst; cbn [fst snd];
      destruct (f w); [| |cbn in Hm |- *; rewrite Hm; reflexivity|exact I];
      [destruct Hm as (o' & g' & r' & -> & ? & ? & ? & ?); exists (o', tt), g', r'|destruct Hm as (o' & g' & r' & -> & ? & ? & ? & ?); exists (o', tt), g', r'];
      repeat split; auto)).
    destruct (f v') as [v3 t d|v3 d k| |]; [| |cbn in P |- *; rewrite P; reflexivity|exact I];
      destruct P as ((x' & u) & g' & r' & -> & [Ho _] & P); exists x', g', r'; auto.
  - specialize (P ltac:(discriminate)). destruct P as ((x' & u) & g' & r' & -> & [Ho _] & P). exists x', g', r'; auto.
Qed.

(** What was in the cell is dropped. *)
Definition discard {B S} (b : B -> bool) (s : bres (A := B) S (mres B)) : bres (A := B) S unit :=
  match s with
  | BRet x r d =>
      match length (List.filter b (m_outs r)) with
      | 0 => BRet x tt (d ++ m_outs r) | 1 => BPanic x (d ++ m_outs r) [] | _ => BAbort
      end
  | BPanic x d k => BPanic x d k
  | BAbort => BAbort | BOpen => BOpen
  end.
Lemma discard_alike {S1 S2} (RS : S1 -> S2 -> Prop) s1 s2 : balk RS (res_alike R) s1 s2 -> balk RS (fun _ _ => True) (discard bb s1) (discard (sbomb e) s2).
Proof.
  destruct s1 as [x r d|x d k| |], s2 as [x2 r2 d2|x2 d2 k2| |]; cbn [balike discard]; try contradiction; auto.
  intros (H1 & [_ H2] & H3). rewrite (filter_alike R bb (sbomb e) HB _ _ H2).
  destruct (length _) as [|[|n]]; cbn; auto using Forall2_app.
Qed.
Lemma discard_quiet {S} (s : bres (A := st) S (mres st)) : bquiet s -> bquiet (discard (sbomb e) s).
Proof.
  destruct s as [x r d|x d k| |]; cbn [discard bquiet]; auto. intros H.
  destruct (List.filter (sbomb e) (m_outs r)) as [|a [|a' q]] eqn:F; cbn; auto.
  rewrite existsb_app, H. clear -F. induction (m_outs r) as [|x l IH]; [reflexivity|]. cbn in *. destruct (sbomb e x); [discriminate|]. auto.
Qed.
Lemma put_okb o x s y t g : OH x s -> R y t -> legal1 (mix_spec Es) (o_put o s t) s ->
  agreesb (both OH R) (fun _ _ => True) g (put e o (x, y) g) (bspec_put e o s t).
Proof.
  intros (l & Hx & Hl) Hy HL. unfold put, bspec_put. cbn [fst snd]. rewrite (put_same e o x l y Hx).
  destruct (fresh_ok e y t g Hy) as (u & g0 & z & Ef & _ & Hz & D0 & L0). rewrite Ef. cbn in D0. rewrite app_nil_r in D0.
  pose proof (outer_wb _ _ _ _ _ _ (put_wb e bb o l y) (rfb1 _ _ _ _ refE (o_put o l y) x l log0 Hx (legal_put e R bb (sbomb e) o y t l s Hl HL))) as P.
  pose proof (with_bombs_alike e R bb (sbomb e) HB _ _ _ _ (put_alike e R bb (sbomb e) o y t l s Hy Hl)) as Q.
  pose proof (wb_quiet (spec1 (mix_spec Es) (o_put o s t) s)) as QQ.
  assert (Ew : bs1 (mix_bspec Es) (o_put o s t) s = with_bombs Es (spec1 (mix_spec Es) (o_put o s t) s)) by exact (put_wb e (sbomb e) o s t).
  rewrite Ew. clear Ew.
  set (s2 := with_bombs Es (spec1 (mix_spec Es) (o_put o s t) s)) in *.
  match type of P with agreesb _ _ _ _ ?z => set (s1 := z) in * end. change (balk lft (res_alike R) s1 s2) in Q. clearbody s1 s2.
  assert (P1 : agreesb (MHolds E) (fun _ _ => True) log0 ((let! r := run1 (mix_kit E) (o_put o l y) in drop_values E (m_outs r)) x log0) (discard bb s1)).
  { destruct s1 as [l1 r d|l1 d k| |]; cbn [discard agreesb agrees] in P |- *; [| |unfold bind; rewrite P; reflexivity|exact I].
    - destruct P as (x' & gs & r' & Em & Hx' & -> & D & L). unfold bind. rewrite Em. unfold drop_values. change (bomb E) with bb.
      destruct (List.filter bb (m_outs r)) as [|a [|a' q]]; cbn [length agreesb agrees]; [| |reflexivity];
        (eexists _, _, _; split; [reflexivity|]; cbn; rewrite D, L; repeat split; auto).
    - destruct P as (x' & gs & k' & Em & P). unfold bind. rewrite Em. exists x', gs, k'. auto. }
  pose proof (lower_okb _ _ _ _ _ x g0 _ _ P1 (discard_alike _ _ _ Q) (discard_quiet _ QQ)) as W.
  match goal with |- agreesb _ _ _ _ (bas_one _ _ ?z) => match type of W with agreesb ?a1 ?a2 ?a3 ?a4 _ => change (agreesb a1 a2 a3 a4 z) in W;
    destruct z as [x2 r2 d2|x2 d2 k2| |] end end; cbn [bas_one].
  - destruct W as (x' & g' & r' & Em & (l' & Hx' & Hl') & _ & D & L). rewrite Em. rewrite D0 in D. rewrite L0 in L. exists (x', z), g', tt.
    repeat split; auto; exists l'; auto.
  - destruct W as (x' & g' & k' & Em & (l' & Hx' & Hl') & D & L & PK). rewrite Em. rewrite D0 in D. rewrite L0 in L. exists (x', z), g', k'.
    repeat split; auto; exists l'; auto.
  - cbn [agreesb] in W |- *. rewrite W. reflexivity.
  - exact I.
Qed.
Lemma take_okb o x s g : OH x s -> legal1 (mix_spec Es) (o_take o s) s ->
  agreesb OH R g (take_out e o x g) (bspec_take e o s).
Proof.
  intros (l & Hx & Hl) HL. unfold take_out, bspec_take. rewrite (take_same e o x l Hx).
  pose proof (outer_wb _ _ _ _ _ _ (take_wb e bb o l) (rfb1 _ _ _ _ refE (o_take o l) x l log0 Hx (legal_take e R bb (sbomb e) o l s Hl HL))) as P.
  pose proof (with_bombs_alike e R bb (sbomb e) HB _ _ _ _ (take_alike e R bb (sbomb e) o l s Hl)) as Q.
  pose proof (lower_okb _ _ _ _ _ x g _ _ P Q (wb_quiet _)) as W.
  assert (Ew : bs1 (mix_bspec Es) (o_take o s) s = with_bombs Es (spec1 (mix_spec Es) (o_take o s) s)) by exact (take_wb e (sbomb e) o s).
  rewrite Ew. clear Ew P Q.
  match goal with |- agreesb _ _ _ _ (match ?z with _ => _ end) => match type of W with agreesb ?a1 ?a2 ?a3 ?a4 _ => change (agreesb a1 a2 a3 a4 z) in W;
    destruct z as [x2 r2 d2|x2 d2 k2| |] end end.
  - destruct W as (x' & g' & r' & Em & (l' & Hx' & Hl') & (r1 & -> & _ & HF) & D & L). rewrite Em.
    destruct HF as [|v v' q q' Hv [|v1 v1' q1 q1' Hv1 HF]].
    + exists x', g', []. rewrite app_nil_r. repeat split; auto; exists l'; auto.
    + exists x', g', v. repeat split; auto; exists l'; auto.
    + exists x', g', []. rewrite app_nil_r. repeat split; auto; exists l'; auto.
  - destruct W as (x' & g' & k' & Em & (l' & Hx' & Hl') & D & L & PK). rewrite Em. exists x', g', k'.
    repeat split; auto; exists l'; auto.
  - cbn [agreesb] in W |- *. rewrite W. reflexivity.
  - exact I.
Qed.

Notation NH := (NHolds e).
Lemma as_inner_okb {T T2 U U2} (f : T -> U) (f2 : T2 -> U2) (RR : T -> T2 -> Prop) (RU : U -> U2 -> Prop) m y g (s : bres (A := A) st T2) :
  (forall r r2, RR r r2 -> RU (f r) (f2 r2)) ->
  agreesb R RR g (m y g) s -> agreesb NH RU g (as_inner e f m y g) (bas_one inl f2 s).
Proof.
  intros Hf. unfold as_inner. destruct s as [s r d|s d k| |]; cbn.
  - intros (o' & g' & r' & -> & P). exists (inl o'), g', (f r'). intuition.
  - intros (o' & g' & r' & -> & P). exists (inl o'), g', r'. intuition.
  - intros ->. reflexivity.
  - auto.
Qed.
Lemma as_outer_okb {T T2 U U2} (f : T -> U) (f2 : T2 -> U2) (RR : T -> T2 -> Prop) (RU : U -> U2 -> Prop) m x g (s : bres (A := A) (mst Es) T2) :
  (forall r r2, RR r r2 -> RU (f r) (f2 r2)) ->
  agreesb OH RR g (m x g) s -> agreesb NH RU g (as_outer e f m x g) (bas_one inr f2 s).
Proof.
  intros Hf. unfold as_outer. destruct s as [s r d|s d k| |]; cbn.
  - intros (o' & g' & r' & -> & P). exists (inr o'), g', (f r'). intuition.
  - intros (o' & g' & r' & -> & P). exists (inr o'), g', r'. intuition.
  - intros ->. reflexivity.
  - auto.
Qed.
Lemma as_two_okb {O1 O2 S1 S2 T T2 U U2} (H1 : O1 -> S1 -> Prop) (H2 : O2 -> S2 -> Prop) (f1 : O1 -> nobj e) (f2 : O2 -> nobj e)
  (s1 : S1 -> nst e) (s2 : S2 -> nst e) (f : T -> U) (h : T2 -> U2) (RR : T -> T2 -> Prop) (RU : U -> U2 -> Prop) m x y g (s : bres (A := A) (S1 * S2) T2) :
  (forall r r2, RR r r2 -> RU (f r) (h r2)) -> (forall o t, H1 o t -> NH (f1 o) (s1 t)) -> (forall o t, H2 o t -> NH (f2 o) (s2 t)) ->
  agreesb (both H1 H2) RR g (m (x, y) g) s -> agreesb (both NH NH) RU g (as_two e f1 f2 f m x y g) (bas_two e s1 s2 h s).
Proof.
  intros Hf HA HC. unfold as_two, bas_two, bas_one. destruct s as [[t1 t2] r d|[t1 t2] d k| |]; cbn.
  - intros ([o1 o2] & g' & r' & -> & [Ha Hb] & P). exists (f1 o1, f2 o2), g', (f r'). split; [reflexivity|]. split; [split; cbn; auto|]. intuition.
  - intros ([o1 o2] & g' & r' & -> & [Ha Hb] & P). exists (f1 o1, f2 o2), g', r'. split; [reflexivity|]. split; [split; cbn; auto|]. intuition.
  - intros ->. reflexivity.
  - auto.
Qed.
Lemma agreesb_weaken {O S T T2} (H H2 : O -> S -> Prop) (RR RR2 : T -> T2 -> Prop) g x (s : bres (A := A) S T2) :
  (forall o t, H o t -> H2 o t) -> (forall r t, RR r t -> RR2 r t) -> agreesb H RR g x s -> agreesb H2 RR2 g x s.
Proof.
  intros HA HC. destruct s; cbn; auto.
  - intros (o' & g' & r' & -> & P). exists o', g', r'. intuition.
  - intros (o' & g' & r' & -> & P). exists o', g', r'. intuition.
Qed.
Lemma mapR_okb {T T2 U U2} (f : T -> U) (f2 : T2 -> U2) (RR : T -> T2 -> Prop) (RU : U -> U2 -> Prop) (m : M A unit T) g (s : bres (A := A) unit T2) :
  (forall r r2, RR r r2 -> RU (f r) (f2 r2)) ->
  agreesb (fun _ _ => True) RR g (m tt g) s -> agreesb (fun _ _ => True) RU g (mapR f m tt g) (bmap f2 s).
Proof.
  intros Hf. unfold mapR. destruct s as [s r d|s d k| |]; cbn.
  - intros (o' & g' & r' & Em & P). rewrite (bind_Ret _ _ _ _ _ _ _ Em). exists o', g', (f r'). intuition.
  - intros (o' & g' & r' & Em & P). rewrite (bind_Panic _ _ _ _ _ _ Em). exists o', g', r'. intuition.
  - intros Em. unfold bind. rewrite Em. reflexivity.
  - auto.
Qed.

Notation wref := (walk_refinesb e).
Notation ALIKE w := (with_bombs_alike e R bb (sbomb e) HB _ _ _ _ w).
Theorem nest_refinesb : refinesb (nest_kit e) (nest_spec e) (nest_bspec e) NH.
Proof.
  constructor.
  - intros [o|o] g; cbn [run0 bs0 nest_kit nest_bspec].
    + eapply mapR_okb; [|exact (rfb0 _ _ _ _ wref o g)]. auto.
    + pose proof (outer_wb _ _ _ _ _ _ (new_wb e bb o) (rfb0 _ _ _ _ refE (o_new e _ o) log0)) as P.
      pose proof (lower_okb _ _ _ _ _ tt g _ _ P (ALIKE (new_alike e R bb (sbomb e) o)) (wb_quiet _)) as W.
      assert (Ew : bs0 (mix_bspec Es) (o_new e (sbomb e) o) = with_bombs Es (spec0 (mix_spec Es) (o_new e (sbomb e) o))) by exact (new_wb e (sbomb e) o).
      rewrite Ew. apply (mapR_okb inr inr OH); [auto|]. eapply agreesb_weaken; [| |exact W]; auto.
  - intros o x s g Hx HL. destruct o as [o|i o|o], x as [y|x], s as [t|s]; cbn [NHolds] in Hx; try contradiction; cbn [legal1 nest_spec] in HL;
      cbn [run1 bs1 nest_kit nest_bspec].
    + apply (as_inner_okb _ _ eq); [congruence|]. exact (rfb1 _ _ _ _ wref o y t g Hx HL).
    + apply (as_outer_okb _ _ eq); [congruence|]. apply at1_okb; [exact Hx|]. intros v v' g1 Hv Ev. unfold at_elem in HL. rewrite Ev in HL.
      exact (rfb1 _ _ _ _ wref o v v' g1 Hv HL).
    + destruct Hx as (l & Hx & Hl). rewrite (method_same e o x l Hx).
      pose proof (outer_wb _ _ _ _ _ _ (method_wb e bb o l) (rfb1 _ _ _ _ refE (o_method o l) x l log0 Hx (legal_method e R bb (sbomb e) o l s Hl HL))) as P.
      pose proof (lower_okb _ _ _ _ _ x g _ _ P (ALIKE (method_alike e R bb (sbomb e) o l s Hl)) (wb_quiet _)) as W.
      assert (Ew : bs1 (mix_bspec Es) (o_method o s) s = with_bombs Es (spec1 (mix_spec Es) (o_method o s) s)) by exact (method_wb e (sbomb e) o s).
      rewrite Ew.
      eapply as_outer_okb; [|exact W]. intros r r2 (r1 & -> & Ei & _). rewrite Ei. reflexivity.
  - intros o x s g Hx HL. destruct o as [o|i o|o|o], x as [y|x], s as [t|s]; cbn [NHolds] in Hx; try contradiction; cbn [legaln nest_spec] in HL;
      cbn [runn bsn nest_kit nest_bspec].
    + apply (as_inner_okb _ _ R); [auto|]. exact (rfbn _ _ _ _ wref o y t g Hx HL).
    + apply (as_outer_okb _ _ R); [auto|]. apply at1_okb; [exact Hx|]. intros v v' g1 Hv Ev. unfold at_elem in HL. rewrite Ev in HL.
      exact (rfbn _ _ _ _ wref o v v' g1 Hv HL).
    + apply (as_outer_okb _ _ R); [auto|]. apply take_okb; assumption.
    + destruct Hx as (l & Hx & Hl). rewrite (spawn_same e o x l Hx).
      pose proof (outer_wb _ _ _ _ _ _ (spawn_wb e bb o l) (rfbn _ _ _ _ refE (o_spawn e o l) x l log0 Hx (legal_spawn e R bb (sbomb e) o l s Hl HL))) as P.
      pose proof (lower_okb _ _ _ _ _ x g _ _ P (ALIKE (spawn_alike e R bb (sbomb e) o l s Hl)) (wb_quiet _)) as W.
      assert (Ew : bsn (mix_bspec Es) (o_spawn e o s) s = with_bombs Es (specn (mix_spec Es) (o_spawn e o s) s)) by exact (spawn_wb e (sbomb e) o s).
      rewrite Ew.
      eapply as_outer_okb; [|exact W]. intros r r2 (r1 & Hr & Hr2). exists r1. auto.
  - intros o [x y] [s t] g [Hx Hy] HL. cbn [fst snd] in Hx, Hy.
    destruct o as [o|i o|o|o], x as [x|x], s as [s|s]; cbn [NHolds] in Hx; try contradiction;
      destruct y as [y|y], t as [t|t]; cbn [NHolds] in Hy; try contradiction; cbn [legal2 nest_spec fst snd] in HL; try contradiction;
      cbn [run2 bs2 nest_kit nest_bspec fst snd].
    + eapply (as_two_okb R R); [| | |exact (rfb2 _ _ _ _ wref o (x, y) (s, t) g (conj Hx Hy) HL)]; cbn; [congruence|auto|auto].
    + eapply (as_two_okb OH R) with (RR := eq); [congruence|auto|auto|]. apply at_okb; [exact Hx|exact Hy|].
      intros v v' g1 Hv Ev. unfold at_elem in HL. rewrite Ev in HL. exact (rfb2 _ _ _ _ wref o (v, y) (v', t) g1 (conj Hv Hy) HL).
    + eapply (as_two_okb OH R); [| | |apply put_okb; eassumption]; cbn; auto.
    + destruct Hx as (l & Hx & Hl), Hy as (l2 & Hy & Hl2). rewrite (merge_same e o x l Hx).
      pose proof (legal_merge e R bb (sbomb e) o l l2 s t Hl Hl2 HL) as HL'.
      pose proof (outer_wb _ _ _ _ _ _ (merge_wb e bb o l l2) (rfb2 _ _ _ _ refE (o_merge o l) (x, y) (l, l2) log0 (conj Hx Hy) HL')) as P.
      pose proof (lower_okb _ _ _ _ _ (x, y) g _ _ P (ALIKE (merge_alike e R bb (sbomb e) o l l2 s t Hl Hl2 HL')) (wb_quiet _)) as W.
      assert (Ew : bs2 (mix_bspec Es) (o_merge o s) (s, t) = with_bombs Es (spec2 (mix_spec Es) (o_merge o s) (s, t))) by exact (merge_wb e (sbomb e) o s t).
      rewrite Ew.
      eapply (as_two_okb OH OH); [| | |eapply agreesb_weaken; [| |exact W]]; [|auto|auto| |intros r r2 H0; exact H0].
      * reflexivity.
      * intros [o1 o2] [t1 t2] ([l3 l4] & [H1 H2] & [H3 H4]). split; [exists l3|exists l4]; auto.
  - intros x s g Hx. destruct x as [y|x], s as [t|s]; cbn [NHolds] in Hx; try contradiction; cbn [kill nest_kit bsk nest_bspec].
    + pose proof (rfbk _ _ _ _ (mix_refinesb e) y t g Hx) as P. unfold as_inner.
      destruct (bsk (mix_bspec e) t) as [u r d|u d k| |]; cbn [agreesb agrees] in P |- *; [| |rewrite P; reflexivity|exact I].
      * destruct P as (o' & g' & r' & -> & P). exists (inl o'), g', r'. auto.
      * destruct P as (o' & g' & r' & -> & P). exists (inl o'), g', r'. auto.
    + destruct Hx as (l & Hx & Hl). pose proof (rfbk _ _ _ _ refE x l log0 Hx) as P.
      pose proof (lower_okb _ _ _ _ _ x g _ _ P (kill_alike e R bb (sbomb e) HB l s Hl) (bsk_quiet s)) as W. unfold as_outer.
      match goal with |- agreesb _ _ _ _ ?z => match type of W with agreesb ?a1 ?a2 ?a3 ?a4 _ => change (agreesb a1 a2 a3 a4 z) in W;
        destruct z as [u r d|u d k| |] end end; cbn [agreesb agrees] in W |- *; [| |rewrite W; reflexivity|exact I].
      * destruct W as (x' & g' & r' & Em & _ & (r1 & -> & ->) & D). rewrite Em. exists (inr x'), g', r. auto.
      * destruct W as (x' & g' & k' & Em & _ & D). rewrite Em. exists (inr x'), g', k'. auto.
Qed.
End nest.
