(** * Destructors that panic: from the calm execution to the real one.

    [calmed e] is [e] without panicking destructors.  For most code the execution in [e] is that in [calmed e],
    except that it aborts exactly if a value with a panicking destructor is dropped (all these drops happen while
    unwinding).  [tame] says so; it is compositional.  For code that drops values on its normal path see [brisk]. *)
From Verif Require Import Machine Spec Prims.

Definition calmed {A} (e : env A) : env A := Env (word e) (debug e) (fun _ => false).
Lemma calmed_calm {A} (e : env A) : calm (calmed e).
Proof. intros a. reflexivity. Qed.

Section tame.
Context {A : Type} (e : env A).
Notation e0 := (calmed e).
Notation bombs := (List.existsb (bomb e)).

(** [x0]: the calm outcome, [x]: the real one, both started with the log [g]. *)
Definition tamed {O R} (g : log A) (x x0 : outcome A O R) : Prop :=
  match x0 with
  | Ret _ g' _ | Panic _ g' => exists d, dropped g' = dropped g ++ d /\ x = if bombs d then Abort else x0
  | _ => x = x0 \/ x = Abort
  end.
Definition tame {O R} (m m0 : M A O R) : Prop := forall o g, tamed g (m o g) (m0 o g).
(** If a value with a panicking destructor is dropped it ends in an abort or in a panic. *)
Definition brisk {O R} (m m0 : M A O R) : Prop := forall o g,
  match m0 o g with
  | Ret _ g' _ | Panic _ g' => exists d, dropped g' = dropped g ++ d /\
      (if bombs d then m o g = Abort \/ (exists o2 g2, m o g = Panic o2 g2) else m o g = m0 o g)
  | _ => m o g = m0 o g \/ m o g = Abort \/ (exists o2 g2, m o g = Panic o2 g2)
  end.

Lemma tame_brisk {O R} (m m0 : M A O R) : tame m m0 -> brisk m m0.
Proof.
  intros H o g. specialize (H o g). unfold tamed in H. destruct (m0 o g).
  1-2: destruct H as (d & D & E); exists d; split; [exact D|]; destruct (bombs d); auto.
  all: destruct H; auto.
Qed.

(** Code that drops nothing. *)
Definition mute {O R} (m : M A O R) : Prop := forall o g,
  match m o g with Ret _ g' _ | Panic _ g' => dropped g' = dropped g | _ => True end.
Lemma mute_tame {O R} (m : M A O R) : mute m -> tame m m.
Proof.
  intros H o g. specialize (H o g). unfold tamed. destruct (m o g); auto;
    exists []; rewrite app_nil_r; auto.
Qed.

Lemma tame_bind {O R T} (m m0 : M A O R) (k k0 : R -> M A O T) :
  tame m m0 -> (forall r, tame (k r) (k0 r)) -> tame (bind m k) (bind m0 k0).
Proof.
  intros Hm Hk o g. specialize (Hm o g). unfold tamed in *. unfold bind.
  destruct (m0 o g) as [o1 g1 r1|o1 g1|u| |].
  - destruct Hm as (d & D & E). specialize (Hk r1 o1 g1). unfold tamed in Hk.
    destruct (bombs d) eqn:B; rewrite E.
    + destruct (k0 r1 o1 g1) as [o2 g2 r2|o2 g2|u| |]; auto.
      all: destruct Hk as (d2 & D2 & E2); exists (d ++ d2); rewrite D2, D, app_assoc; split; [reflexivity|];
        rewrite existsb_app, B; reflexivity.
    + destruct (k0 r1 o1 g1) as [o2 g2 r2|o2 g2|u| |]; auto.
      all: destruct Hk as (d2 & D2 & E2); exists (d ++ d2); rewrite D2, D, app_assoc; split; [reflexivity|];
        rewrite existsb_app, B; exact E2.
  - destruct Hm as (d & D & E). exists d. split; [exact D|]. rewrite E. destruct (bombs d); reflexivity.
  - destruct Hm as [-> | ->]; auto.
  - destruct Hm as [-> | ->]; auto.
  - destruct Hm as [-> | ->]; auto.
Qed.
Lemma tame_on_fst {O1 O2 R} (m m0 : M A O1 R) : tame m m0 -> tame (O := O1 * O2) (on_fst m) (on_fst m0).
Proof.
  intros Hm o g. specialize (Hm (fst o) g). unfold tamed in *. unfold on_fst.
  destruct (m0 (fst o) g) as [o1 g1 r1|o1 g1|u| |].
  1-2: destruct Hm as (d & D & E); exists d; split; [exact D|]; rewrite E; destruct (bombs d); reflexivity.
  all: destruct Hm as [-> | ->]; auto.
Qed.
Lemma tame_on_snd {O1 O2 R} (m m0 : M A O2 R) : tame m m0 -> tame (O := O1 * O2) (on_snd m) (on_snd m0).
Proof.
  intros Hm o g. specialize (Hm (snd o) g). unfold tamed in *. unfold on_snd.
  destruct (m0 (snd o) g) as [o1 g1 r1|o1 g1|u| |].
  1-2: destruct Hm as (d & D & E); exists d; split; [exact D|]; rewrite E; destruct (bombs d); reflexivity.
  all: destruct Hm as [-> | ->]; auto.
Qed.
Lemma tame_with_local {O1 O2 R} (i : O1) (k k0 : M A O1 unit) (m m0 : M A (O1 * O2) R) :
  brisk k k0 -> tame m m0 -> tame (with_local i k m) (with_local i k0 m0).
Proof.
  intros Hk Hm o g. specialize (Hm (i, o) g). unfold tamed in *. unfold with_local.
  destruct (m0 (i, o) g) as [o1 g1 r1|o1 g1|u| |].
  - destruct Hm as (d & D & E). exists d. split; [exact D|]. rewrite E. destruct (bombs d); reflexivity.
  - destruct Hm as (d & D & E). specialize (Hk (fst o1) g1). rewrite E.
    destruct (k0 (fst o1) g1) as [o2 g2 r2|o2 g2|u| |].
    + destruct Hk as (d2 & D2 & E2). exists (d ++ d2). rewrite D2, D, app_assoc, existsb_app. split; [reflexivity|].
      destruct (bombs d); [reflexivity|]. cbn [orb]. destruct (bombs d2).
      * destruct E2 as [-> | (o3 & g3 & ->)]; reflexivity.
      * rewrite E2. reflexivity.
    + destruct Hk as (d2 & D2 & E2). destruct (bombs d); [auto|].
      destruct (bombs d2); [destruct E2 as [-> | (o3 & g3 & ->)]|rewrite E2]; auto.
    + destruct (bombs d); [auto|]. destruct Hk as [-> | [-> | (o3 & g3 & ->)]]; auto.
    + destruct (bombs d); [auto|]. destruct Hk as [-> | [-> | (o3 & g3 & ->)]]; auto.
    + destruct (bombs d); [auto|]. destruct Hk as [-> | [-> | (o3 & g3 & ->)]]; auto.
  - destruct Hm as [-> | ->]; auto.
  - destruct Hm as [-> | ->]; auto.
  - destruct Hm as [-> | ->]; auto.
Qed.

Lemma tame_ret {O R} (r : R) : tame (O := O) (ret r) (ret r).
Proof. apply mute_tame. intros o g. reflexivity. Qed.
Lemma tame_get {O} : tame (O := O) get get.
Proof. apply mute_tame. intros o g. reflexivity. Qed.
Lemma tame_put {O} (o : O) : tame (put o) (put o).
Proof. apply mute_tame. intros o' g. reflexivity. Qed.
Lemma tame_panic {O R} : tame (O := O) (R := R) panic panic.
Proof. apply mute_tame. intros o g. reflexivity. Qed.
Lemma tame_undefined {O R} u : tame (O := O) (R := R) (undefined u) (undefined u).
Proof. apply mute_tame. intros o g. exact I. Qed.
Lemma tame_hang {O R} : tame (O := O) (R := R) hang hang.
Proof. apply mute_tame. intros o g. exact I. Qed.
Lemma tame_uadd {O} a b : tame (O := O) (uadd e a b) (uadd e0 a b).
Proof.
  change (uadd e0 a b) with (uadd (O := O) e a b). apply mute_tame. intros o g. unfold uadd.
  destruct (_ <? _); [reflexivity|]. destruct (debug e); reflexivity.
Qed.
Lemma tame_usub {O} a b : tame (O := O) (usub e a b) (usub e0 a b).
Proof.
  change (usub e0 a b) with (usub (O := O) e a b). apply mute_tame. intros o g. unfold usub.
  destruct (_ <=? _); [reflexivity|]. destruct (debug e); reflexivity.
Qed.
Lemma tame_debug_assert {O} b : tame (O := O) (debug_assert e b) (debug_assert e0 b).
Proof.
  change (debug_assert e0 b) with (debug_assert (O := O) e b). apply mute_tame. intros o g. unfold debug_assert.
  destruct (_ && _); reflexivity.
Qed.
Lemma tame_assert {O} b : tame (O := O) (assert b) (assert b).
Proof. apply mute_tame. intros o g. destruct b; reflexivity. Qed.
Lemma tame_panic_dropping {O R} v : tame (O := O) (R := R) (panic_dropping e v) (panic_dropping e0 v).
Proof. intros o g. unfold tamed, panic_dropping. cbn. exists [v]. split; [reflexivity|]. cbn. destruct (bomb e v); reflexivity. Qed.

Section mem.
Context {O : Type} `{HasMem A O} (N : nat).
Lemma tame_slot_read i : tame (O := O) (slot_read N i) (slot_read N i).
Proof. apply mute_tame. intros o g. unfold slot_read. destruct (_ <? _); [|exact I]. destruct (getm o i); auto. Qed.
Lemma tame_slot_peek i : tame (O := O) (slot_peek N i) (slot_peek N i).
Proof. apply mute_tame. intros o g. unfold slot_peek. destruct (_ <? _); [|exact I]. destruct (getm o i); auto. Qed.
Lemma tame_slot_write i a : tame (O := O) (slot_write N i a) (slot_write N i a).
Proof. apply mute_tame. intros o g. unfold slot_write. destruct (_ <? _); [|exact I]. reflexivity. Qed.
Lemma tame_slots_move i j n : tame (O := O) (slots_move N i j n) (slots_move N i j n).
Proof. apply mute_tame. intros o g. unfold slots_move. destruct (_ && _); [|exact I]. reflexivity. Qed.
Lemma tame_slots_peek i n : tame (O := O) (slots_peek N i n) (slots_peek N i n).
Proof. apply mute_tame. intros o g. unfold slots_peek. destruct (_ <=? _); [|exact I]. destruct (mapM _ _); auto. Qed.
Lemma tame_slots_release : tame (O := O) (slots_release N) (slots_release N).
Proof. apply mute_tame. intros o g. reflexivity. Qed.
Lemma tame_slots_forget i n : tame (O := O) (slots_forget N i n) (slots_forget N i n).
Proof. apply mute_tame. intros o g. reflexivity. Qed.

Lemma filter_bombs (l : list A) : (List.filter (bomb e) l = []) <-> bombs l = false.
Proof.
  induction l as [|a l IH]; cbn; [tauto|]. destruct (bomb e a); cbn; [split; discriminate|exact IH].
Qed.
Lemma filter_calmed (l : list A) : List.filter (bomb e0) l = [].
Proof. induction l; auto. Qed.
Lemma brisk_drop_values (l : list A) : brisk (O := O) (drop_values e l) (drop_values e0 l).
Proof.
  intros o g. unfold drop_values at 1. rewrite filter_calmed. exists l. split; [reflexivity|].
  pose proof (filter_bombs l) as P. unfold drop_values. rewrite filter_calmed.
  destruct (List.filter (bomb e) l) as [|x [|y z]]; destruct (bombs l); auto.
  - destruct P as [P _]. discriminate P. reflexivity.
  - right. eauto.
  - destruct P as [_ P]. discriminate P. reflexivity.
  - destruct P as [_ P]. discriminate P. reflexivity.
Qed.
Lemma brisk_bind {R T} (m m0 : M A O R) (k k0 : R -> M A O T) :
  brisk m m0 -> (forall r, brisk (k r) (k0 r)) -> brisk (bind m k) (bind m0 k0).
Proof.
  intros Hm Hk o g. specialize (Hm o g). unfold bind at 1.
  destruct (m0 o g) as [o1 g1 r1|o1 g1|u| |] eqn:E0.
  - destruct Hm as (d & D & E). specialize (Hk r1 o1 g1). unfold bind. rewrite E0.
    destruct (bombs d) eqn:B.
    + assert (E' : forall f : R -> M A O T, match m o g with
         | Ret o g r => f r o g | Panic o g => Panic o g | UB u => UB u | Hang => Hang | Abort => Abort end = Abort \/
         exists o2 g2, match m o g with
         | Ret o g r => f r o g | Panic o g => Panic o g | UB u => UB u | Hang => Hang | Abort => Abort end = Panic o2 g2).
      { intros f. destruct E as [-> | (o2 & g2 & ->)]; eauto. }
      destruct (k0 r1 o1 g1) as [o2 g2 r2|o2 g2|u| |]; auto.
      all: destruct Hk as (d2 & D2 & E2); exists (d ++ d2); rewrite D2, D, app_assoc; split; [reflexivity|];
        rewrite existsb_app, B; apply E'.
    + rewrite E. destruct (k0 r1 o1 g1) as [o2 g2 r2|o2 g2|u| |]; auto.
      all: destruct Hk as (d2 & D2 & E2); exists (d ++ d2); rewrite D2, D, app_assoc; split; [reflexivity|];
        rewrite existsb_app, B; exact E2.
  - destruct Hm as (d & D & E). exists d. split; [exact D|]. unfold bind. rewrite E0.
    destruct (bombs d); [destruct E as [-> | (o2 & g2 & ->)]|rewrite E]; eauto.
  - unfold bind. rewrite E0. destruct Hm as [-> | [-> | (o2 & g2 & ->)]]; eauto.
  - unfold bind. rewrite E0. destruct Hm as [-> | [-> | (o2 & g2 & ->)]]; eauto.
  - unfold bind. rewrite E0. destruct Hm as [-> | [-> | (o2 & g2 & ->)]]; eauto.
Qed.
Lemma brisk_slots_drop i n : brisk (O := O) (slots_drop e N i n) (slots_drop e0 N i n).
Proof.
  apply brisk_bind; [apply tame_brisk, tame_slots_peek|]. intros vs. apply brisk_bind.
  - apply tame_brisk, mute_tame. intros o g. reflexivity.
  - intros _. apply brisk_drop_values.
Qed.
Lemma brisk_destroying (m m0 : M A O unit) : brisk m m0 -> brisk (destroying N m) (destroying N m0).
Proof.
  intros Hm o g. specialize (Hm o g). unfold destroying. destruct (m0 o g) as [o1 g1 r1|o1 g1|u| |].
  - destruct Hm as (d & D & E). cbn [slots_release]. exists d. split; [exact D|]. destruct (bombs d).
    + destruct E as [-> | (o2 & g2 & ->)]; cbn; eauto.
    + rewrite E. reflexivity.
  - destruct Hm as (d & D & E). cbn. exists d. split; [exact D|].
    destruct (bombs d); [destruct E as [-> | (o2 & g2 & ->)]|rewrite E]; cbn; eauto.
  - destruct Hm as [-> | [-> | (o2 & g2 & ->)]]; cbn; eauto.
  - destruct Hm as [-> | [-> | (o2 & g2 & ->)]]; cbn; eauto.
  - destruct Hm as [-> | [-> | (o2 & g2 & ->)]]; cbn; eauto.
Qed.
End mem.
Lemma tame_slots_transfer {O1 O2} `{HasMem A O1} `{HasMem A O2} Nd Ns i j n :
  tame (O := O1 * O2) (slots_transfer Nd Ns i j n) (slots_transfer Nd Ns i j n).
Proof. apply mute_tame. intros o g. unfold slots_transfer. destruct (_ && _); [|exact I]. reflexivity. Qed.

(** ** Specifications with panicking destructors. *)
(** [BAbort]: the process aborts.  [BOpen]: a normal drop panics inside the method; not described here. *)
Inductive bres (S R : Type) :=
  | BRet (s : S) (r : R) (d : list A)
  | BPanic (s : S) (d k : list A)
  | BAbort
  | BOpen.
Definition with_bombs {S R} (s : sres A S R) : bres S R :=
  match s with
  | SRet s r d => if bombs d then BOpen S R else BRet S R s r d
  | SPanic s d k => if bombs d then BAbort S R else BPanic S R s d k
  end.
Definition agreesb {O S R R'} (H : O -> S -> Prop) (RR : R -> R' -> Prop)
    (g : log A) (x : outcome A O R) (s : bres S R') : Prop :=
  match s with
  | BRet _ _ s r d => agrees H RR g x (SRet s r d)
  | BPanic _ _ s d k => agrees H RR g x (SPanic s d k)
  | BAbort _ _ => x = Abort
  | BOpen _ _ => True
  end.
Lemma tame_agrees {O S R R'} (H : O -> S -> Prop) (RR : R -> R' -> Prop) (m m0 : M A O R) o g (s : sres A S R') :
  tame m m0 -> agrees H RR g (m0 o g) s -> agreesb H RR g (m o g) (with_bombs s).
Proof.
  intros Ht. specialize (Ht o g). destruct s as [s r d|s d k]; cbn.
  - intros (o' & g' & r0 & E & Ho & Hr & D & L). rewrite E in Ht. destruct Ht as (d2 & D2 & E2).
    rewrite D in D2. apply app_inv_head in D2. subst d2. destruct (bombs d); [exact I|]. rewrite E2.
    exists o', g', r0. auto.
  - intros (o' & g' & k' & E & Ho & D & L & P). rewrite E in Ht. destruct Ht as (d2 & D2 & E2).
    rewrite D in D2. apply app_inv_head in D2. subst d2. destruct (bombs d); [exact E2|]. rewrite E2.
    exists o', g', k'. auto.
Qed.
(** Code that drops values on its normal path and then goes on: nothing is said once a destructor has panicked. *)
Definition mild {O R} (m m0 : M A O R) : Prop := forall o g,
  match m0 o g with
  | Ret _ g' _ | Panic _ g' => exists d, dropped g' = dropped g ++ d /\ (bombs d = false -> m o g = m0 o g)
  | _ => True
  end.
Lemma tame_mild {O R} (m m0 : M A O R) : tame m m0 -> mild m m0.
Proof.
  intros H o g. specialize (H o g). unfold tamed in H. destruct (m0 o g); auto.
  all: destruct H as (d & D & E); exists d; split; [exact D|]; intros B; rewrite B in E; exact E.
Qed.
Lemma brisk_mild {O R} (m m0 : M A O R) : brisk m m0 -> mild m m0.
Proof.
  intros H o g. specialize (H o g). destruct (m0 o g); auto.
  all: destruct H as (d & D & E); exists d; split; [exact D|]; intros B; rewrite B in E; exact E.
Qed.
Lemma mild_bind {O R T} (m m0 : M A O R) (k k0 : R -> M A O T) :
  mild m m0 -> (forall r, mild (k r) (k0 r)) -> mild (bind m k) (bind m0 k0).
Proof.
  intros Hm Hk o g. specialize (Hm o g). unfold bind. destruct (m0 o g) as [o1 g1 r1|o1 g1|u| |]; auto.
  - destruct Hm as (d & D & E). specialize (Hk r1 o1 g1). destruct (k0 r1 o1 g1) as [o2 g2 r2|o2 g2|u| |]; auto.
    all: destruct Hk as (d2 & D2 & E2); exists (d ++ d2); rewrite D2, D, app_assoc; split; [reflexivity|];
      intros B; rewrite existsb_app, orb_false_iff in B; rewrite E by apply B; apply E2, B.
  - destruct Hm as (d & D & E). exists d. split; [exact D|]. intros B. rewrite E by exact B. reflexivity.
Qed.
Lemma mild_agrees {O S R R'} (H : O -> S -> Prop) (RR : R -> R' -> Prop) (m m0 : M A O R) o g (s : sres A S R') :
  mild m m0 -> match s with SPanic _ d _ => bombs d = false | _ => True end ->
  agrees H RR g (m0 o g) s -> agreesb H RR g (m o g) (with_bombs s).
Proof.
  intros Ht. specialize (Ht o g). destruct s as [s r d|s d k]; cbn.
  - intros _ (o' & g' & r0 & E & Ho & Hr & D & L). rewrite E in Ht. destruct Ht as (d2 & D2 & E2).
    rewrite D in D2. apply app_inv_head in D2. subst d2. destruct (bombs d); [exact I|]. rewrite E2 by reflexivity.
    exists o', g', r0. auto.
  - intros B (o' & g' & k' & E & Ho & D & L & P). rewrite E in Ht. destruct Ht as (d2 & D2 & E2).
    rewrite D in D2. apply app_inv_head in D2. subst d2. rewrite B, E2 by exact B.
    exists o', g', k'. auto.
Qed.
End tame.
