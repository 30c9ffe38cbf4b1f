(** * Proofs about LiveModel.v. *)
From Verif Require Import Machine Spec Prims LiveModel LiveSpec ChunkModel ChunkProofs ChunkProofs2 ChunkLaws RingModel RingProofs
  RingProofs2 RingProofs3 RingLaws.

Section live.
Context {A S X : Type} (F : S -> list X -> Prop) (next : M A S (option X)) (hint : M A S (nat * option nat)).
Hypothesis Hfeeds : feeds F next hint.
Implicit Types (g gs : log A) (s : S).

Definition same g g' := dropped g' = dropped g /\ leaked g' = leaked g.
Lemma same_refl g : same g g. Proof. split; reflexivity. Qed.
Lemma same_trans g1 g2 g3 : same g1 g2 -> same g2 g3 -> same g1 g3.
Proof. intros [H1 H2] [H3 H4]. split; congruence. Qed.

Lemma live_next {O} (o : O) s l gs g : F s l -> exists s' gs',
  on_iter next (o, (s, gs)) g = Ret (o, (s', gs')) g (head l) /\ F s' (tail l) /\ same gs gs'.
Proof.
  intros Hs. destruct (proj1 (Hfeeds s l gs Hs)) as (s' & gs' & E & H' & D & L).
  exists s', gs'. unfold on_iter. cbn [fst snd]. rewrite E. split; [reflexivity|]. split; [exact H'|split; assumption].
Qed.
Lemma live_len {O} (o : O) s l gs g : F s l -> exists s' gs',
  on_iter (exact_len hint) (o, (s, gs)) g = Ret (o, (s', gs')) g (length l) /\ F s' l /\ same gs gs'.
Proof.
  intros Hs. destruct (proj2 (Hfeeds s l gs Hs)) as (s' & gs' & E & H' & D & L). exists s', gs'. unfold on_iter. cbn [fst snd].
  unfold exact_len. erewrite bind_Ret by exact E. cbn [fst snd]. rewrite if_true by lia. split; [reflexivity|]. split; [exact H'|split; assumption].
Qed.

(** Whenever [m], which sees a script, returns, so does [ml], which sees the live iterator, and ends in the same state;
    the iterator goes from having [l] to having [l']. *)
Definition follows {O R} (l l' : list X) (ml : M A (O * (S * log A)) R) (m : M A O R) : Prop :=
  forall o s gs g o' g' r, F s l -> m o g = Ret o' g' r ->
  exists s' gs', ml (o, (s, gs)) g = Ret (o', (s', gs')) g' r /\ F s' l' /\ same gs gs'.
Lemma follows_bind {O R R'} l l1 l2 (ml : M A (O * (S * log A)) R) m (kl : R -> M A (O * (S * log A)) R') k :
  follows l l1 ml m -> (forall r, follows l1 l2 (kl r) (k r)) -> follows l l2 (bind ml kl) (bind m k).
Proof.
  intros H1 H2 o s gs g o' g' r Hs E. unfold bind in E. destruct (m o g) as [o1 g1 r1| | | |] eqn:E1; try discriminate.
  destruct (H1 o s gs g o1 g1 r1 Hs E1) as (s1 & gs1 & E1' & Hs1 & S1).
  destruct (H2 r1 o1 s1 gs1 g1 o' g' r Hs1 E) as (s2 & gs2 & E2' & Hs2 & S2).
  exists s2, gs2. erewrite bind_Ret by exact E1'. split; [exact E2'|]. split; [exact Hs2|eapply same_trans; eassumption].
Qed.
Lemma follows_fst {O R} l (m : M A O R) : follows l l (on_fst m) m.
Proof.
  intros o s gs g o' g' r Hs E. exists s, gs. split; [apply on_fst_Ret; exact E|]. split; [exact Hs|apply same_refl].
Qed.
Lemma follows_ret {O R} l (r : R) : follows (O := O) l l (ret r) (ret r).
Proof. intros o s gs g o' g' r' Hs E. injection E as <- <- <-. exists s, gs. split; [reflexivity|]. split; [exact Hs|apply same_refl]. Qed.
Lemma follows_panic {O R} l l' (ml : M A (O * (S * log A)) R) : follows l l' ml panic.
Proof. intros o s gs g o' g' r Hs E. discriminate. Qed.
Lemma follows_uadd {O} l e x y : follows (O := O) l l (uadd e x y) (uadd e x y).
Proof.
  intros o s gs g o' g' r Hs E. exists s, gs. unfold uadd, ret, panic in *. destruct (x + y <? word e).
  - injection E as <- <- <-. split; [reflexivity|]. split; [exact Hs|apply same_refl].
  - destruct (debug e); [discriminate|]. injection E as <- <- <-. split; [reflexivity|]. split; [exact Hs|apply same_refl].
Qed.
Lemma follows_usub {O} l e x y : follows (O := O) l l (usub e x y) (usub e x y).
Proof.
  intros o s gs g o' g' r Hs E. exists s, gs. unfold usub, ret, panic in *. destruct (y <=? x).
  - injection E as <- <- <-. split; [reflexivity|]. split; [exact Hs|apply same_refl].
  - destruct (debug e); [discriminate|]. injection E as <- <- <-. split; [reflexivity|]. split; [exact Hs|apply same_refl].
Qed.
Lemma follows_if {O R} l l' (b : bool) (ml1 ml2 : M A (O * (S * log A)) R) m1 m2 :
  (b = true -> follows l l' ml1 m1) -> (b = false -> follows l l' ml2 m2) ->
  follows l l' (if b then ml1 else ml2) (if b then m1 else m2).
Proof. destruct b; auto. Qed.
(** The length of the iterator is the announced one. *)
Lemma follows_len {O R} l l' (kl : nat -> M A (O * (S * log A)) R) (m : M A O R) :
  follows l l' (kl (length l)) m -> follows l l' (let! n := on_iter (exact_len hint) in kl n) m.
Proof.
  intros H o s gs g o' g' r Hs E. destruct (live_len o s l gs g Hs) as (s1 & gs1 & E1 & Hs1 & S1).
  erewrite bind_Ret by exact E1. destruct (H o s1 gs1 g o' g' r Hs1 E) as (s' & gs' & E' & Hs' & S').
  exists s', gs'. split; [exact E'|]. split; [exact Hs'|eapply same_trans; eassumption].
Qed.
Lemma follows_len_forget {O R} l l' (f : M A O unit) (kl : nat -> M A (O * (S * log A)) R) (m : M A O R) :
  follows l l' (kl (length l)) m ->
  follows l l' (let! n := (fun o g => match on_iter (exact_len hint) o g with Panic o g => (on_fst f ;;; panic) o g | x => x end) in
                kl n) m.
Proof.
  intros H o s gs g o' g' r Hs E. destruct (live_len o s l gs g Hs) as (s1 & gs1 & E1 & H1 & S1).
  destruct (H o s1 gs1 g o' g' r H1 E) as (s2 & gs2 & E2 & H2 & S2). exists s2, gs2.
  split; [erewrite bind_Ret by (rewrite E1; reflexivity); exact E2|]. split; [exact H2|eapply same_trans; eassumption].
Qed.
End live.
