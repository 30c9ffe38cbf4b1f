(** * Lexicographic comparison preserves the laws *)
From Verif Require Import Machine Spec KeySpec.

Ltac injs := repeat match goal with H : Some _ = Some _ |- _ => injection H as H end.

Section lists.
Context {A H : Type} (eqA : A -> A -> bool) (pc : A -> A -> option comparison) (cm : A -> A -> comparison) (h : A -> list H).
Implicit Types (l : list A) (a b : A).

Lemma list_peq : peq_laws anything (elt2 eqA) -> peq_laws anything (elt2 (slice_eq eqA)).
Proof.
  intros [_ S T]. unfold elt2, anything in *. split.
  - eauto.
  - intros x y _ _ HE. injs. f_equal. revert y HE. induction x as [|a x IH]; intros [|b y]; cbn; try discriminate; [reflexivity|].
    rewrite !andb_true_iff. intros [H1 H2]. split; [|apply IH; exact H2].
    assert (E := S a b I I (f_equal Some H1)). injs. exact E.
  - intros x y z _ _ _ HE1 HE2. injs. f_equal. revert y z HE1 HE2.
    induction x as [|a x IH]; intros [|b y] [|c z]; cbn; try discriminate; [reflexivity|].
    rewrite !andb_true_iff. intros [H1 H2] [H3 H4]. split; [|eapply IH; eassumption].
    assert (E := T a b c I I I (f_equal Some H1) (f_equal Some H3)). injs. exact E.
Qed.
Lemma list_refl : eq_refl_law anything (elt2 eqA) -> eq_refl_law anything (elt2 (slice_eq eqA)).
Proof.
  intros R l _. unfold elt2. f_equal. induction l as [|a l IH]; cbn; [reflexivity|].
  assert (E := R a I). unfold elt2 in E. injs. rewrite E. exact IH.
Qed.
Lemma pc_eq (P : pord_laws anything (elt2 eqA) (elt2 pc)) a b : pc a b = Some Eq <-> eqA a b = true.
Proof.
  pose proof (pord_eq _ _ _ P a b I I) as E. unfold elt2 in E. split; intros Hab.
  - assert (E1 := proj1 E (f_equal Some Hab)). injs. exact E1.
  - assert (E1 := proj2 E (f_equal Some Hab)). injs. exact E1.
Qed.
Lemma list_pord : pord_laws anything (elt2 eqA) (elt2 pc) ->
  pord_laws anything (elt2 (slice_eq eqA)) (elt2 (iter_partial_cmp pc)).
Proof.
  intros P. pose proof (pc_eq P) as PE.
  assert (D : forall a b, pc a b = Some Lt <-> pc b a = Some Gt).
  { intros a b. pose proof (pord_dual _ _ _ P a b I I) as E. unfold elt2 in E. split; intros Hab.
    - assert (E1 := proj1 E (f_equal Some Hab)). injs. exact E1.
    - assert (E1 := proj2 E (f_equal Some Hab)). injs. exact E1. }
  assert (T : forall a b c, pc a b = Some Lt -> pc b c = Some Lt -> pc a c = Some Lt).
  { intros a b c H1 H2. assert (E := pord_trans _ _ _ P a b c I I I (f_equal Some H1) (f_equal Some H2)). unfold elt2 in E. injs. exact E. }
  assert (Q : forall a b c, eqA a b = true -> pc a c = pc b c /\ pc c a = pc c b).
  { intros a b c H1. destruct (pord_same _ _ _ P a b c I I I (f_equal Some H1)) as [E1 E2]. unfold elt2 in *. injs. auto. }
  assert (S : forall a b, pc a b = Some Eq -> pc b a = Some Eq).
  { intros a b Hab. destruct (Q a b a) as [E1 E2]; [apply PE; exact Hab|]. destruct (Q a b b) as [E3 E4]; [apply PE; exact Hab|]. congruence. }
  clear P. unfold elt2, anything. split.
  - eauto.
  - intros x y _ _. transitivity (iter_partial_cmp pc x y = Some Eq).
    { split; intros E; [injs; exact E|rewrite E; reflexivity]. }
    transitivity (slice_eq eqA x y = true); [|split; intros E; [rewrite E; reflexivity|injs; exact E]].
    revert y. induction x as [|a x IH]; intros [|b y]; cbn; try (split; congruence).
    rewrite andb_true_iff, <- PE, <- IH. destruct (pc a b) as [[]|]; split; try intros [? ?]; try intros ?; try split; congruence.
  - intros x y _ _. assert (E : iter_partial_cmp pc x y = Some Lt <-> iter_partial_cmp pc y x = Some Gt).
    { revert y. induction x as [|a x IH]; intros [|b y]; cbn; try (split; congruence).
      destruct (pc a b) as [[]|] eqn:E1.
      - rewrite (S a b E1). apply IH.
      - rewrite (proj1 (D a b) E1). split; reflexivity.
      - split; [discriminate|]. destruct (pc b a) as [[]|] eqn:E2; try discriminate.
        + apply S in E2. congruence.
        + apply D in E2. congruence.
      - split; [discriminate|]. destruct (pc b a) as [[]|] eqn:E2; try discriminate.
        + apply S in E2. congruence.
        + apply D in E2. congruence. }
    split; intros E3; injs; f_equal; apply E; exact E3.
  - intros x y z _ _ _ HE1 HE2. injs. f_equal. revert y z HE1 HE2.
    induction x as [|a x IH]; intros [|b y] [|c z]; cbn; try discriminate; try reflexivity.
    destruct (pc a b) as [[]|] eqn:E1; try discriminate.
    + destruct (Q a b c) as [-> _]; [apply PE; exact E1|]. destruct (pc b c) as [[]|]; try discriminate; [apply IH|reflexivity].
    + intros _. destruct (pc b c) as [[]|] eqn:E2; try discriminate.
      * destruct (Q b c a) as [_ <-]; [apply PE; exact E2|]. rewrite E1. reflexivity.
      * rewrite (T a b c E1 E2). reflexivity.
  - intros x y z _ _ _ HE. injs. assert (E : iter_partial_cmp pc x z = iter_partial_cmp pc y z /\ iter_partial_cmp pc z x = iter_partial_cmp pc z y).
    { revert y z HE. induction x as [|a x IH]; intros [|b y] [|c z]; cbn; try discriminate; try (split; reflexivity).
      rewrite andb_true_iff. intros [H1 H2]. destruct (Q a b c H1) as [-> ->]. destruct (IH y z H2) as [-> ->]. split; reflexivity. }
    destruct E as [-> ->]. split; reflexivity.
Qed.
Lemma list_ord : pord_laws anything (elt2 eqA) (elt2 pc) -> ord_laws anything (elt2 pc) (elt2 cm) ->
  ord_laws anything (elt2 (iter_partial_cmp pc)) (elt2 (iter_cmp cm)).
Proof.
  intros _ [_ O]. unfold elt2, anything in *. split; [eauto|].
  assert (E : forall a b, pc a b = Some (cm a b)).
  { intros a b. pose proof (proj2 (O a b (cm a b) I I) eq_refl) as E. injs. exact E. }
  assert (E2 : forall x y, iter_partial_cmp pc x y = Some (iter_cmp cm x y)).
  { induction x as [|a x IH]; intros [|b y]; cbn; try reflexivity. rewrite E. destruct (cm a b); [apply IH|reflexivity|reflexivity]. }
  intros x y c _ _. rewrite E2. split; intros E3; injs; subst; reflexivity.
Qed.
Lemma list_hash hl : hash_laws anything (elt2 eqA) (elt1 h) ->
  hash_laws anything (elt2 (slice_eq eqA)) (elt1 (fun l => fed h hl (map HItem l))).
Proof.
  intros [_ S]. unfold elt2, elt1, anything in *. split; [eauto|]. intros x y _ _ HE. injs. f_equal.
  revert y HE. induction x as [|a x IH]; intros [|b y]; cbn; try discriminate; [reflexivity|].
  rewrite andb_true_iff. intros [H1 H2]. f_equal; [|apply IH; exact H2].
  assert (E := S a b I I (f_equal Some H1)). injs. exact E.
Qed.
End lists.

(** Laws carry over to what behaves as its contents do. *)
Section transfer.
Context {X Y H : Type} (V : X -> Prop) (R : X -> Y -> Prop)
  (eqX : X -> X -> option bool) (pcX : X -> X -> option (option comparison)) (cmX : X -> X -> option comparison) (hsX : X -> option (list H))
  (eqY : Y -> Y -> bool) (pcY : Y -> Y -> option comparison) (cmY : Y -> Y -> comparison) (hsY : Y -> list H).
Hypothesis has : forall x, V x -> exists y, R x y.
Lemma transfer_peq : (forall x x' y y', R x y -> R x' y' -> eqX x x' = Some (eqY y y')) ->
  peq_laws anything (elt2 eqY) -> peq_laws V eqX.
Proof.
  intros E [T0 S T]. split.
  - intros x1 x2 V1 V2. destruct (has _ V1) as [y1 R1], (has _ V2) as [y2 R2]. rewrite (E _ _ _ _ R1 R2). eauto.
  - intros x1 x2 V1 V2. destruct (has _ V1) as [y1 R1], (has _ V2) as [y2 R2]. rewrite (E _ _ _ _ R1 R2), (E _ _ _ _ R2 R1). apply S; exact I.
  - intros x1 x2 x3 V1 V2 V3. destruct (has _ V1) as [y1 R1], (has _ V2) as [y2 R2], (has _ V3) as [y3 R3].
    rewrite (E _ _ _ _ R1 R2), (E _ _ _ _ R2 R3), (E _ _ _ _ R1 R3). apply T; exact I.
Qed.
Lemma transfer_refl : (forall x x' y y', R x y -> R x' y' -> eqX x x' = Some (eqY y y')) ->
  eq_refl_law anything (elt2 eqY) -> eq_refl_law V eqX.
Proof. intros E P x1 V1. destruct (has _ V1) as [y1 R1]. rewrite (E _ _ _ _ R1 R1). apply P. exact I. Qed.
Lemma transfer_pord : (forall x x' y y', R x y -> R x' y' -> eqX x x' = Some (eqY y y')) ->
  (forall x x' y y', R x y -> R x' y' -> pcX x x' = Some (pcY y y')) ->
  pord_laws anything (elt2 eqY) (elt2 pcY) -> pord_laws V eqX pcX.
Proof.
  intros E F P. destruct P as [T0 PE D T Q]. split.
  - intros x1 x2 V1 V2. destruct (has _ V1) as [y1 R1], (has _ V2) as [y2 R2]. rewrite (F _ _ _ _ R1 R2). eauto.
  - intros x1 x2 V1 V2. destruct (has _ V1) as [y1 R1], (has _ V2) as [y2 R2]. rewrite (E _ _ _ _ R1 R2), (F _ _ _ _ R1 R2). apply PE; exact I.
  - intros x1 x2 V1 V2. destruct (has _ V1) as [y1 R1], (has _ V2) as [y2 R2]. rewrite (F _ _ _ _ R1 R2), (F _ _ _ _ R2 R1). apply D; exact I.
  - intros x1 x2 x3 V1 V2 V3. destruct (has _ V1) as [y1 R1], (has _ V2) as [y2 R2], (has _ V3) as [y3 R3].
    rewrite (F _ _ _ _ R1 R2), (F _ _ _ _ R2 R3), (F _ _ _ _ R1 R3). apply T; exact I.
  - intros x1 x2 x3 V1 V2 V3. destruct (has _ V1) as [y1 R1], (has _ V2) as [y2 R2], (has _ V3) as [y3 R3].
    rewrite (E _ _ _ _ R1 R2), (F _ _ _ _ R1 R3), (F _ _ _ _ R2 R3), (F _ _ _ _ R3 R1), (F _ _ _ _ R3 R2). apply Q; exact I.
Qed.
Lemma transfer_ord : (forall x x' y y', R x y -> R x' y' -> pcX x x' = Some (pcY y y')) ->
  (forall x x' y y', R x y -> R x' y' -> cmX x x' = Some (cmY y y')) ->
  ord_laws anything (elt2 pcY) (elt2 cmY) -> ord_laws V pcX cmX.
Proof.
  intros F G [T0 S]. split.
  - intros x1 x2 V1 V2. destruct (has _ V1) as [y1 R1], (has _ V2) as [y2 R2]. rewrite (G _ _ _ _ R1 R2). eauto.
  - intros x1 x2 c V1 V2. destruct (has _ V1) as [y1 R1], (has _ V2) as [y2 R2]. rewrite (G _ _ _ _ R1 R2), (F _ _ _ _ R1 R2). apply S; exact I.
Qed.
Lemma transfer_hash : (forall x x' y y', R x y -> R x' y' -> eqX x x' = Some (eqY y y')) ->
  (forall x y, R x y -> hsX x = Some (hsY y)) ->
  hash_laws anything (elt2 eqY) (elt1 hsY) -> hash_laws V eqX hsX.
Proof.
  intros E G [T0 S]. split.
  - intros x1 V1. destruct (has _ V1) as [y1 R1]. rewrite (G _ _ R1). eauto.
  - intros x1 x2 V1 V2. destruct (has _ V1) as [y1 R1], (has _ V2) as [y2 R2]. rewrite (E _ _ _ _ R1 R2), (G _ _ R1), (G _ _ R2). apply S; exact I.
Qed.
End transfer.

(** Containers that compare and hash as the lists of their elements do. *)
Section containers.
Context {A X H : Type} (V : X -> Prop) (R : X -> list A -> Prop)
  (eqX : X -> X -> option bool) (pcX : X -> X -> option (option comparison)) (cmX : X -> X -> option comparison) (hsX : X -> option (list H))
  (eqA : A -> A -> bool) (pc : A -> A -> option comparison) (cm : A -> A -> comparison) (h : A -> list H) (hl : nat -> list H).
Hypothesis has : forall x, V x -> exists l, R x l.
Hypothesis E : forall x x' l l', R x l -> R x' l' -> eqX x x' = Some (slice_eq eqA l l').
Hypothesis F : forall x x' l l', R x l -> R x' l' -> pcX x x' = Some (iter_partial_cmp pc l l').
Hypothesis G : forall x x' l l', R x l -> R x' l' -> cmX x x' = Some (iter_cmp cm l l').
Hypothesis K : forall x l, R x l -> hsX x = Some (fed h hl (map HItem l)).
Lemma lifts :
  (lawful_partial anything (elt2 eqA) (elt2 pc) -> lawful_partial V eqX pcX) /\
  (lawful_key anything (elt2 eqA) (elt2 pc) (elt2 cm) (elt1 h) -> lawful_key V eqX pcX cmX hsX).
Proof.
  split.
  - intros [P1 P2]. split.
    + eapply transfer_peq; [exact has|exact E|apply list_peq; exact P1].
    + eapply transfer_pord; [exact has|exact E|exact F|apply list_pord; exact P2].
  - intros (P1 & P2 & P3 & P4 & P5). split; [|split; [|split; [|split]]].
    + eapply transfer_peq; [exact has|exact E|apply list_peq; exact P1].
    + eapply transfer_refl; [exact has|exact E|apply list_refl; exact P2].
    + eapply transfer_pord; [exact has|exact E|exact F|apply list_pord; exact P3].
    + eapply transfer_ord; [exact has|exact F|exact G|eapply list_ord; eassumption].
    + eapply transfer_hash; [exact has|exact E|exact K|eapply list_hash; eassumption].
Qed.
End containers.
