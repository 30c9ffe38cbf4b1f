(** * Containers of containers: the code does what the specification says. *)
From Verif Require Import Machine Spec Prims Program InlineModel InlineSpec SparseSpec IterSpec MixModel MixSpec MixProofs MixProgram ChunkProgram RingProgram
  SparseProgram InlineProgram TempModel TempSpec TempMix Bombs BombProgram MixBombSpec MixBombs OwnModel OwnSpec OwnMix WalkModel WalkSpec WalkMix NestModel NestSpec NestNature.

Section nest.
Context {A : Type} (e : env A).
Notation obj := (mobj e).
Notation st := (mst e).
Notation R := (MHolds e).
Notation bb := (fun x => existsb (bomb e) (contents e x)).
Notation E := (outer_env e).
Notation Es := (outer_senv e).
Notation lft := (lift e R bb (sbomb e)).

Definition OHolds (x : mobj E) (s : mst Es) : Prop := exists l : mst E, MHolds E x l /\ lft l s.
Definition NHolds (x : nobj e) (s : nst e) : Prop :=
  match x, s with inl y, inl t => R y t | inr x, inr s => OHolds x s | _, _ => False end.

Lemma contents_ok x s : R x s -> contents e x = m_items e s.
Proof.
  intros Hx. unfold contents. pose proof (fun o => rfb1 _ _ _ _ (mix_refinesb e) o x s log0 Hx) as P.
  destruct x as [k x|k x|k x|k x], s as [k' l|k' l|k' l|k' l]; cbn in Hx; try contradiction.
  - destruct (P (M1Chunk CAsSlice) I) as (x' & g' & r & -> & _ & -> & _). reflexivity.
  - destruct (P (M1Ring BContents) I) as (x' & g' & r & -> & _ & -> & _). reflexivity.
  - destruct (P (M1Sparse (POptionDrain (`k))) I) as (x' & g' & r & -> & _ & -> & _).
    destruct Hx as [-> [Hl _]]. cbn. rewrite <- Hl, firstn_all, Nat.sub_diag. cbn. rewrite app_nil_r. unfold values, entries.
    generalize 0. clear. induction l as [|[a|] l IH]; intros i; cbn; [reflexivity| |apply IH]. f_equal. apply IH.
  - destruct (P (M1Inline IAsSlice) I) as (x' & g' & r & -> & _ & -> & _). reflexivity.
Qed.
Lemma contents_all D D' : Forall2 R D D' -> flat_map (contents e) D = flat_map (m_items e) D'.
Proof. induction 1; cbn; [reflexivity|]. f_equal; auto using contents_ok. Qed.
Section calm.
Hypothesis Hc : calm e.
Lemma calm_outer : calm E.
Proof. intros x. cbn. induction (contents e x) as [|a l IH]; [reflexivity|]. cbn. rewrite Hc. exact IH. Qed.
Notation refE := (mix_refines E calm_outer).

Lemma kill_ret x s g : R x s -> exists x' g', kill (mix_kit e) x g = Ret x' g' tt /\
  dropped g' = dropped g ++ m_items e s /\ leaked g' = leaked g.
Proof.
  intros Hx. destruct (refk _ _ _ (mix_refines e Hc) x s g Hx) as (x' & g' & r & Ek & _ & Hr & D & L).
  exists x', g'. destruct r. auto.
Qed.
Lemma settle_ok D D' : Forall2 R D D' -> forall g, exists g', settle e D tt g = Ret tt g' tt /\
  dropped g' = dropped g ++ flat_map (m_items e) D' /\ leaked g' = leaked g.
Proof.
  induction 1 as [|x s D D' Hx HD IH]; intros g; cbn [settle flat_map].
  - exists g. rewrite app_nil_r. auto.
  - destruct (kill_ret x s g Hx) as (x' & g1 & Ek & D1 & L1). rewrite Ek.
    destruct (IH g1) as (g2 & E2 & D2 & L2). exists g2. split; [exact E2|]. rewrite D2, D1, L2, L1, <- app_assoc. auto.
Qed.
Lemma lower_ok {O S S2 T T2 T3} (H : O -> S -> Prop) (RR : T -> T2 -> Prop) (RS : S -> S2 -> Prop) (RT : T2 -> T3 -> Prop)
  (m : M obj O T) o g (s : sres obj S T2) (s2 : sres st S2 T3) :
  agrees H RR log0 (m o log0) s -> alike R RS RT s s2 ->
  agrees (fun o s2 => exists s, H o s /\ RS s s2) (fun r r3 => exists r2, RR r r2 /\ RT r2 r3) g (lower e m o g) (flat e s2).
Proof.
  unfold lower. destruct s as [s r d|s d k], s2 as [s2 r2 d2|s2 d2 k2]; cbn; try contradiction.
  - intros (o' & gs & t & Em & Ho & Hr & D & L) (HS & HT & HD). rewrite Em. cbn in D, L. rewrite D, L. cbn.
    destruct (settle_ok _ _ HD (log_leak [] g)) as (g' & Es & D' & L'). rewrite Es. cbn in D', L'. rewrite app_nil_r in L'.
    exists o', g', t. repeat split; eauto.
  - intros (o' & gs & k' & Em & Ho & D & L & P) (HS & HD & HK). rewrite Em. cbn in D, L. rewrite D, L. cbn.
    assert (exists k3, Permutation k2 k3 /\ Forall2 R k' k3) as (k3 & P3 & F3).
    { clear -P HK. revert k2 HK. induction P as [|x k k' P IH|x y k|k k' k'' P IH P2 IH2]; intros k2 HK.
      - inversion HK. exists []. auto.
      - inversion HK as [|x0 b k0 k2' Hx HK']; subst. destruct (IH _ HK') as (k3 & P3 & F3). exists (b :: k3). auto.
      - inversion HK as [|x0 b k0 k2' Hx HK']; subst. inversion HK' as [|x1 b1 k1 k3 Hx1 HK1]; subst.
        exists (b1 :: b :: k3). split; [apply perm_swap|auto].
      - destruct (IH _ HK) as (k3 & P3 & F3). destruct (IH2 _ F3) as (k4 & P4 & F4). exists k4. split; [|exact F4]. etransitivity; eassumption. }
    rewrite (contents_all _ _ F3).
    destruct (settle_ok _ _ HD (log_leak (flat_map (m_items e) k3) g)) as (g' & Es & D' & L'). rewrite Es. cbn in D', L'.
    exists o', g', (flat_map (m_items e) k3). repeat split; eauto. apply Permutation_flat_map. exact P3.
Qed.

(** The calls go to the right kind. *)
Lemma put_same o x (l : mst E) v : MHolds E x l -> o_put o x v = o_put o l v.
Proof. destruct x, l; cbn; try contradiction; intros _; destruct o; reflexivity. Qed.
Lemma take_same o x (l : mst E) : MHolds E x l -> o_take (B := obj) o x = o_take o l.
Proof. destruct x, l; cbn; try contradiction; intros _; destruct o; reflexivity. Qed.
Lemma method_same o x (l : mst E) : MHolds E x l -> o_method (B := obj) o x = o_method o l.
Proof. destruct x, l; cbn; try contradiction; intros _; destruct o; reflexivity. Qed.
Lemma index_same i x (l : mst E) : MHolds E x l -> o_index (B := obj) i x = o_index i l.
Proof. destruct x, l; cbn; try contradiction; reflexivity. Qed.
Lemma assign_same i v x (l : mst E) : MHolds E x l -> o_assign i v x = o_assign i v l.
Proof. destruct x, l; cbn; try contradiction; reflexivity. Qed.
Lemma spawn_same o x (l : mst E) : MHolds E x l -> o_spawn e (b := bb) o x = o_spawn e o l.
Proof. destruct x, l; cbn; try contradiction; intros _; destruct o; reflexivity. Qed.
Lemma merge_same o x (l : mst E) : MHolds E x l -> o_merge (B := obj) o x = o_merge o l.
Proof. destruct x, l; cbn; try contradiction; intros _; destruct o; reflexivity. Qed.

Lemma put_back_ok i v v' w x l s g : MHolds E x l -> lft l s -> elem e i l = Some w -> R v v' ->
  exists x', put_back e i v x g = Ret x' g tt /\ OHolds x' (with_elem e i v' s).
Proof.
  intros Hx Hl He Hv. unfold put_back. rewrite (assign_same i v x l Hx).
  pose proof (ref1 _ _ _ refE (o_assign i v l) x l log0 Hx (legal_assign e bb i v l)) as P.
  destruct (spec_assign e bb i v w l He) as (r & Es). change (spec1 (mix_spec E) (o_assign i v l) l = SRet (with_elem e i v l) r [w]) in Es. rewrite Es in P.
  destruct P as (x' & g' & t & Em & Hx' & _). rewrite Em. exists x'. split; [reflexivity|].
  exists (with_elem e i v l). split; [exact Hx'|]. apply with_elem_alike; assumption.
Qed.
Lemma at_ok {Y Y2 T T2} (HY : Y -> Y2 -> Prop) (RR : T -> T2 -> Prop) i (m : M A (obj * Y) T) (f : st -> sres A (st * Y2) T2) x s y y2 g :
  OHolds x s -> HY y y2 ->
  (forall v v' g, R v v' -> elem e i s = Some v' -> agrees (both R HY) RR g (m (v, y) g) (f v')) ->
  agrees (both OHolds HY) RR g (at_index e i m (x, y) g) (spec_at e i f s y2).
Proof.
  intros (l & Hx & Hl) Hy Hm. unfold at_index, spec_at. cbn [fst snd]. rewrite (index_same i x l Hx).
  pose proof (ref1 _ _ _ refE (o_index i l) x l log0 Hx (legal_index e bb i l)) as P.
  assert (Q : match spec1 (mix_spec E) (o_index i l) l with
    | SRet x' r d => x' = l /\ d = [] /\ exists v, elem e i l = Some v /\ ref_of r = Some v
    | SPanic x' d k => x' = l /\ d = [] /\ k = [] /\ elem e i l = None end) by exact (spec_index e bb i l).
  pose proof (elem_alike e R bb (sbomb e) i l s Hl) as HE.
  destruct (spec1 (mix_spec E) (o_index i l) l) as [l1 r d|l1 d k].
  - destruct Q as (-> & -> & v & Ev & Er). rewrite Ev in HE. destruct (elem e i s) as [v'|] eqn:E2; [|inversion HE].
    assert (Hv : R v v') by (inversion HE; subst; assumption).
    pose proof (lower_ok (MHolds E) eq lft (fun r v' => exists v, ref_of r = Some v /\ elem e i l = Some v /\ R v v') _ x g _ (SRet s v' []) P) as W.
    destruct W as (x1 & g1 & r1 & Em & (l1 & Hx1 & Hl1) & (r2 & -> & v2 & Er2 & Ev2 & Hv2) & D & L).
    { cbn. repeat split; eauto. }
    rewrite Em, Er2. cbn in D. rewrite app_nil_r in D. pose proof (Hm v2 v' g1 Hv2 eq_refl) as W.
    assert (exists w, elem e i l1 = Some w) as (w & Hw).
    { pose proof (elem_alike e R bb (sbomb e) i l1 s Hl1) as HE1. rewrite E2 in HE1. inversion HE1; eauto. }
    destruct (f v') as [[v3 y3] t d|[v3 y3] d k].
    + destruct W as ((v4 & y4) & g2 & t4 & Em2 & [Hv4 Hy4] & Ht & D2 & L2). rewrite Em2. cbn in Hv4, Hy4.
      destruct (put_back_ok i v4 v3 w x1 l1 s g2 Hx1 Hl1 Hw Hv4) as (x' & Ep & Ho). rewrite Ep.
      exists (x', y4), g2, t4. rewrite <- D, <- L. repeat split; auto.
    + destruct W as ((v4 & y4) & g2 & k4 & Em2 & [Hv4 Hy4] & D2 & L2 & PK). rewrite Em2. cbn in Hv4, Hy4.
      destruct (put_back_ok i v4 v3 w x1 l1 s g2 Hx1 Hl1 Hw Hv4) as (x' & Ep & Ho). rewrite Ep.
      exists (x', y4), g2, k4. rewrite <- D, <- L. repeat split; auto.
  - destruct Q as (-> & -> & -> & Ev). rewrite Ev in HE. destruct (elem e i s) as [v'|] eqn:E2; [inversion HE|].
    pose proof (lower_ok (MHolds E) eq lft (fun _ (_ : unit) => True) _ x g _ (SPanic s [] []) P) as W.
    destruct W as (x1 & g1 & k1 & Em & (l1 & Hx1 & Hl1) & D & L & PK).
    { cbn. repeat split; auto; constructor. }
    rewrite Em. exists (x1, y), g1, k1. repeat split; auto. exists l1. auto.
Qed.
Lemma at1_ok {T T2} (RR : T -> T2 -> Prop) i (m : M A obj T) (f : st -> sres A st T2) x s g :
  OHolds x s ->
  (forall v v' g, R v v' -> elem e i s = Some v' -> agrees R RR g (m v g) (f v')) ->
  agrees OHolds RR g (at_index1 e i m x g) (spec_at1 e i f s).
Proof.
  intros Hx Hm.
  pose proof (at_ok (fun _ _ : unit => True) RR i (on_fst m)
    (fun v => match f v with SRet v' r d => SRet (v', tt) r d | SPanic v' d k => SPanic (v', tt) d k end) x s tt tt g Hx I) as P.
  unfold at_index1, spec_at1, spec_at in *. destruct (elem e i s) as [v'|] eqn:Ev.
  - specialize (P ltac:(intros v w g1 Hv E1; injection E1 as ->; specialize (Hm v w g1 Hv eq_refl); unfold on_fst; cbn [fst snd];
      destruct (f w);
      [destruct Hm as (o' & g' & r' & -> & ? & ? & ? & ?); exists (o', tt), g', r'|destruct Hm as (o' & g' & r' & -> & ? & ? & ? & ?); exists (o', tt), g', r'];
      repeat split; auto)).
    destruct (f v') as [v3 t d|v3 d k]; destruct P as ((x' & u) & g' & r' & -> & [Ho _] & P); exists x', g', r'; auto.
  - specialize (P ltac:(discriminate)). destruct P as ((x' & u) & g' & r' & -> & [Ho _] & P). exists x', g', r'; auto.
Qed.

Lemma fresh_ok y t g : R y t -> agrees (fun _ _ => True) R g (run0 (mix_kit e) (m_fresh e y) tt g) (SRet tt (m_empty e t) []).
Proof. apply m_fresh_ok. Qed.
Lemma put_ok o x s y t g : OHolds x s -> R y t -> legal1 (mix_spec Es) (o_put o s t) s ->
  agrees (both OHolds R) (fun _ r => r = NOuter None) g (put e o (x, y) g) (spec_put e o s t).
Proof.
  intros (l & Hx & Hl) Hy HL. unfold put, spec_put. cbn [fst snd]. rewrite (put_same o x l y Hx).
  destruct (fresh_ok y t g Hy) as (u & g0 & z & Ef & _ & Hz & D0 & L0). rewrite Ef. cbn in D0. rewrite app_nil_r in D0.
  pose proof (ref1 _ _ _ refE (o_put o l y) x l log0 Hx (legal_put e R bb (sbomb e) o y t l s Hl HL)) as P.
  assert (Q : alike R lft (res_alike R) (spec1 (mix_spec E) (o_put o l y) l) (spec1 (mix_spec Es) (o_put o s t) s))
    by exact (put_alike e R bb (sbomb e) o y t l s Hy Hl).
  set (s1 := spec1 (mix_spec E) (o_put o l y) l) in *. clearbody s1.
  set (s2 := spec1 (mix_spec Es) (o_put o s t) s) in *. clearbody s2.
  pose (d1 := match s1 with SRet x r d => SRet x tt (d ++ m_outs r) | SPanic x d k => SPanic x d k end).
  pose (d2 := match s2 with SRet x r d => SRet x tt (d ++ m_outs r) | SPanic x d k => SPanic x d k end : sres st (mst Es) unit).
  assert (P1 : agrees (MHolds E) (fun _ _ => True) log0 ((let! r := run1 (mix_kit E) (o_put o l y) in drop_values E (m_outs r)) x log0) d1).
  { subst d1. destruct s1 as [l1 r d|l1 d k].
    - destruct P as (x' & gs & r' & Em & Hx' & -> & D & L). unfold bind. rewrite Em. unfold drop_values.
      assert (List.filter (bomb E) (m_outs r) = []) as ->.
      { induction (m_outs r) as [|a q IH]; [reflexivity|]. cbn [List.filter]. rewrite calm_outer. exact IH. }
      eexists _, _, _. split; [reflexivity|]. cbn. rewrite D, L. repeat split; auto.
    - destruct P as (x' & gs & k' & Em & P). unfold bind. rewrite Em. exists x', gs, k'. auto. }
  assert (Q1 : alike R lft (fun _ _ => True) d1 d2).
  { clear -Q. subst d1 d2. destruct s1, s2; cbn [alike] in Q |- *; try contradiction; destruct Q as (Q1 & Q2 & Q3); [|auto].
    split; [exact Q1|]. split; [exact I|]. apply Forall2_app; [exact Q3|]. apply Q2. }
  pose proof (lower_ok _ _ _ _ _ x g0 _ _ P1 Q1) as W. subst d2. destruct s2 as [s2 r2 d2|s2 d2 k2].
  - destruct W as (x' & g' & r' & Em & (l' & Hx' & Hl') & _ & D & L). rewrite Em. rewrite D0 in D. rewrite L0 in L. exists (x', z), g', tt.
    repeat split; auto; exists l'; auto.
  - destruct W as (x' & g' & k' & Em & (l' & Hx' & Hl') & D & L & PK). rewrite Em. rewrite D0 in D. rewrite L0 in L. exists (x', z), g', k'.
    repeat split; auto; exists l'; auto.
Qed.
Lemma take_ok o x s g : OHolds x s -> legal1 (mix_spec Es) (o_take o s) s ->
  agrees OHolds R g (take_out e o x g) (spec_take e o s).
Proof.
  intros (l & Hx & Hl) HL. unfold take_out, spec_take. rewrite (take_same o x l Hx).
  pose proof (ref1 _ _ _ refE (o_take o l) x l log0 Hx (legal_take e R bb (sbomb e) o l s Hl HL)) as P.
  assert (Q : alike R lft (res_alike R) (spec1 (mix_spec E) (o_take o l) l) (spec1 (mix_spec Es) (o_take o s) s))
    by exact (take_alike e R bb (sbomb e) o l s Hl).
  pose proof (lower_ok _ _ _ _ _ x g _ _ P Q) as W.
  set (s2 := spec1 (mix_spec Es) (o_take o s) s) in *. clearbody s2.
  destruct s2 as [s2 r2 d2|s2 d2 k2].
  - destruct W as (x' & g' & r' & Em & (l' & Hx' & Hl') & (r1 & -> & _ & HF) & D & L). rewrite Em.
    change (outs (mix_spec Es) r2) with (m_outs r2).
    destruct HF as [|v v' q q' Hv [|v1 v1' q1 q1' Hv1 HF]].
    + exists x', g', []. rewrite app_nil_r. repeat split; auto; exists l'; auto.
    + exists x', g', v. repeat split; auto; exists l'; auto.
    + exists x', g', []. rewrite app_nil_r. repeat split; auto; exists l'; auto.
  - destruct W as (x' & g' & k' & Em & (l' & Hx' & Hl') & D & L & PK). rewrite Em. exists x', g', k'.
    repeat split; auto; exists l'; auto.
Qed.

Lemma as_inner_ok {T T2 U U2} (f : T -> U) (f2 : T2 -> U2) (RR : T -> T2 -> Prop) (RU : U -> U2 -> Prop) m y g (s : sres A st T2) :
  (forall r r2, RR r r2 -> RU (f r) (f2 r2)) ->
  agrees R RR g (m y g) s -> agrees NHolds RU g (as_inner e f m y g) (sas_one inl f2 s).
Proof.
  intros Hf. unfold as_inner. destruct s as [s r d|s d k]; cbn.
  - intros (o' & g' & r' & -> & P). exists (inl o'), g', (f r'). intuition.
  - intros (o' & g' & r' & -> & P). exists (inl o'), g', r'. intuition.
Qed.
Lemma as_outer_ok {T T2 U U2} (f : T -> U) (f2 : T2 -> U2) (RR : T -> T2 -> Prop) (RU : U -> U2 -> Prop) m x g (s : sres A (mst Es) T2) :
  (forall r r2, RR r r2 -> RU (f r) (f2 r2)) ->
  agrees OHolds RR g (m x g) s -> agrees NHolds RU g (as_outer e f m x g) (sas_one inr f2 s).
Proof.
  intros Hf. unfold as_outer. destruct s as [s r d|s d k]; cbn.
  - intros (o' & g' & r' & -> & P). exists (inr o'), g', (f r'). intuition.
  - intros (o' & g' & r' & -> & P). exists (inr o'), g', r'. intuition.
Qed.
Lemma as_two_ok {O1 O2 S1 S2 T T2 U U2} (H1 : O1 -> S1 -> Prop) (H2 : O2 -> S2 -> Prop) (f1 : O1 -> nobj e) (f2 : O2 -> nobj e)
  (s1 : S1 -> nst e) (s2 : S2 -> nst e) (f : T -> U) (h : T2 -> U2) (RR : T -> T2 -> Prop) (RU : U -> U2 -> Prop) m x y g (s : sres A (S1 * S2) T2) :
  (forall r r2, RR r r2 -> RU (f r) (h r2)) -> (forall o t, H1 o t -> NHolds (f1 o) (s1 t)) -> (forall o t, H2 o t -> NHolds (f2 o) (s2 t)) ->
  agrees (both H1 H2) RR g (m (x, y) g) s -> agrees (both NHolds NHolds) RU g (as_two e f1 f2 f m x y g) (sas_two e s1 s2 h s).
Proof.
  intros Hf HA HB. unfold as_two. destruct s as [[t1 t2] r d|[t1 t2] d k]; cbn.
  - intros ([o1 o2] & g' & r' & -> & [Ha Hb] & P). exists (f1 o1, f2 o2), g', (f r'). split; [reflexivity|]. split; [split; cbn; auto|]. intuition.
  - intros ([o1 o2] & g' & r' & -> & [Ha Hb] & P). exists (f1 o1, f2 o2), g', r'. split; [reflexivity|]. split; [split; cbn; auto|]. intuition.
Qed.
Lemma agrees_weaken {O S T T2} (H H2 : O -> S -> Prop) (RR RR2 : T -> T2 -> Prop) g x (s : sres A S T2) :
  (forall o t, H o t -> H2 o t) -> (forall r t, RR r t -> RR2 r t) -> agrees H RR g x s -> agrees H2 RR2 g x s.
Proof.
  intros HA HB. destruct s; cbn.
  - intros (o' & g' & r' & -> & P). exists o', g', r'. intuition.
  - intros (o' & g' & r' & -> & P). exists o', g', r'. intuition.
Qed.

Notation wref := (walk_refines e Hc).
Theorem nest_refines : refines (nest_kit e) (nest_spec e) NHolds.
Proof.
  constructor.
  - intros [o|o] g; cbn [run0 spec0 nest_kit nest_spec].
    + pose proof (ref0 _ _ _ wref o g) as P. unfold mapR.
      destruct (spec0 (walk_spec e) o) as [s r d|s d k]; cbn.
      * destruct P as (o' & g' & r' & Em & P). rewrite (bind_Ret _ _ _ _ _ _ _ Em). exists o', g', (inl r'). auto.
      * destruct P as (o' & g' & r' & Em & P). rewrite (bind_Panic _ _ _ _ _ _ Em). exists o', g', r'. auto.
    + assert (P : agrees (fun (_ _ : unit) => True) (fun r r3 => exists r2, MHolds E r r2 /\ lft r2 r3) g
        (lower e (run0 (mix_kit E) (o_new e bb o)) tt g) (flat e (spec0 (mix_spec Es) (o_new e (sbomb e) o)))).
      { eapply agrees_weaken; [| |exact (lower_ok _ _ _ _ _ tt g _ _ (ref0 _ _ _ refE (o_new e _ o) log0) (new_alike e R bb (sbomb e) o))]; auto. }
      unfold mapR.
      match goal with |- agrees _ _ _ _ (sas_one _ _ ?ss) => destruct ss as [s r d|s d k] end; cbn.
      * destruct P as (o' & g' & r' & Em & _ & P & Q). erewrite (bind_Ret _ _ _ _ _ _ _ Em). exists o', g', (inr r').
        auto.
      * destruct P as (o' & g' & r' & Em & _ & Q). erewrite (bind_Panic _ _ _ _ _ _ Em). exists o', g', r'. auto.
  - intros o x s g Hx HL. destruct o as [o|i o|o], x as [y|x], s as [t|s]; cbn [NHolds] in Hx; try contradiction; cbn [legal1 nest_spec] in HL;
      cbn [run1 spec1 nest_kit nest_spec].
    + apply (as_inner_ok _ _ eq); [congruence|]. exact (ref1 _ _ _ wref o y t g Hx HL).
    + apply (as_outer_ok _ _ eq); [congruence|]. apply at1_ok; [exact Hx|]. intros v v' g1 Hv Ev. unfold at_elem in HL. rewrite Ev in HL.
      exact (ref1 _ _ _ wref o v v' g1 Hv HL).
    + destruct Hx as (l & Hx & Hl). rewrite (method_same o x l Hx).
      pose proof (ref1 _ _ _ refE (o_method o l) x l log0 Hx (legal_method e R bb (sbomb e) o l s Hl HL)) as P.
      pose proof (lower_ok _ _ _ _ _ x g _ _ P (method_alike e R bb (sbomb e) o l s Hl)) as W.
      eapply as_outer_ok; [|exact W]. intros r r2 (r1 & -> & Ei & _). rewrite Ei. reflexivity.
  - intros o x s g Hx HL. destruct o as [o|i o|o|o], x as [y|x], s as [t|s]; cbn [NHolds] in Hx; try contradiction; cbn [legaln nest_spec] in HL;
      cbn [runn specn nest_kit nest_spec].
    + apply (as_inner_ok _ _ R); [auto|]. exact (refn _ _ _ wref o y t g Hx HL).
    + apply (as_outer_ok _ _ R); [auto|]. apply at1_ok; [exact Hx|]. intros v v' g1 Hv Ev. unfold at_elem in HL. rewrite Ev in HL.
      exact (refn _ _ _ wref o v v' g1 Hv HL).
    + apply (as_outer_ok _ _ R); [auto|]. apply take_ok; assumption.
    + destruct Hx as (l & Hx & Hl). rewrite (spawn_same o x l Hx).
      pose proof (refn _ _ _ refE (o_spawn e o l) x l log0 Hx (legal_spawn e R bb (sbomb e) o l s Hl HL)) as P.
      pose proof (lower_ok _ _ _ _ _ x g _ _ P (spawn_alike e R bb (sbomb e) o l s Hl)) as W.
      eapply as_outer_ok; [|exact W]. intros r r2 (r1 & Hr & Hr2). exists r1. auto.
  - intros o [x y] [s t] g [Hx Hy] HL. cbn [fst snd] in Hx, Hy.
    destruct o as [o|i o|o|o], x as [x|x], s as [s|s]; cbn [NHolds] in Hx; try contradiction;
      destruct y as [y|y], t as [t|t]; cbn [NHolds] in Hy; try contradiction; cbn [legal2 nest_spec fst snd] in HL; try contradiction;
      cbn [run2 spec2 nest_kit nest_spec fst snd].
    + eapply (as_two_ok R R); [| | |exact (ref2 _ _ _ wref o (x, y) (s, t) g (conj Hx Hy) HL)]; cbn; [congruence|auto|auto].
    + eapply (as_two_ok OHolds R) with (RR := eq); [congruence|auto|auto|]. apply at_ok; [exact Hx|exact Hy|].
      intros v v' g1 Hv Ev. unfold at_elem in HL. rewrite Ev in HL. exact (ref2 _ _ _ wref o (v, y) (v', t) g1 (conj Hv Hy) HL).
    + eapply (as_two_ok OHolds R); [| | |apply put_ok; eassumption]; cbn; auto.
    + destruct Hx as (l & Hx & Hl), Hy as (l2 & Hy & Hl2). rewrite (merge_same o x l Hx).
      pose proof (legal_merge e R bb (sbomb e) o l l2 s t Hl Hl2 HL) as HL'.
      pose proof (ref2 _ _ _ refE (o_merge o l) (x, y) (l, l2) log0 (conj Hx Hy) HL') as P.
      pose proof (lower_ok _ _ _ _ _ (x, y) g _ _ P (merge_alike e R bb (sbomb e) o l l2 s t Hl Hl2 HL')) as W.
      eapply (as_two_ok OHolds OHolds); [| | |eapply agrees_weaken; [| |exact W]]; [|auto|auto| |intros r r2 H0; exact H0].
      * reflexivity.
      * intros [o1 o2] [t1 t2] ([l3 l4] & [H1 H2] & [H3 H4]). split; [exists l3|exists l4]; auto.
  - intros x s g Hx. destruct x as [y|x], s as [t|s]; cbn [NHolds] in Hx; try contradiction; cbn [kill nest_kit items nest_spec nest_items].
    + destruct (kill_ret y t g Hx) as (y' & g' & Ek & D & L). unfold as_inner. rewrite Ek. exists (inl y'), g', tt. auto.
    + destruct Hx as (l & Hx & Hl). pose proof (refk _ _ _ refE x l log0 Hx) as P.
      pose proof (lower_ok _ _ (fun _ _ => True) eq _ x g _ (SRet tt tt (m_items Es s)) P) as W.
      destruct W as (x' & g' & r' & Em & _ & (r1 & -> & ->) & D & L).
      { cbn. repeat split; auto. exact (items_alike e R bb (sbomb e) l s Hl). }
      unfold as_outer. rewrite Em. exists (inr x'), g', tt. auto.
Qed.
End calm.
End nest.
