(** * Proofs about LiveModel.v: iterators that panic, stop early or lie behave like the scripts of the other models. *)
From Verif Require Import Machine Spec Prims LiveModel LiveSpec ChunkModel RingModel InlineModel.
From Verif Require ChunkProofs ChunkProofs2 RingProofs3 RingProofs4 InlineSpec InlineProofs2 InlineProofs3.

(** [x] ends like [y], which runs on other objects: same value, same log; the objects are related by [Q], by [K] after a
    panic. *)
Definition mirrors {A L O R} (Q K : L -> O -> Prop) (x : outcome A L R) (y : outcome A O R) : Prop :=
  match y with
  | Ret o g r => exists l, x = Ret l g r /\ Q l o
  | Panic o g => exists l, x = Panic l g /\ K l o
  | UB u => x = UB u | Hang => x = Hang | Abort => x = Abort
  end.
Definition sim {A L O R} (P Q K : L -> O -> Prop) (ml : M A L R) (m : M A O R) : Prop :=
  forall l o g, P l o -> mirrors Q K (ml l g) (m o g).

Section sim.
Context {A L O : Type} (K : L -> O -> Prop).
Implicit Types P Q : L -> O -> Prop.
Lemma sim_bind {R R'} P P1 Q (ml : M A L R) (m : M A O R) (kl : R -> M A L R') (k : R -> M A O R') :
  sim P P1 K ml m -> (forall r, sim P1 Q K (kl r) (k r)) -> sim P Q K (bind ml kl) (bind m k).
Proof.
  intros H1 H2 l o g HP. specialize (H1 l o g HP). unfold bind.
  destruct (m o g) as [o1 g1 r|o1 g1|u| |]; cbn in H1.
  - destruct H1 as (l1 & -> & HQ). exact (H2 r l1 o1 g1 HQ).
  - destruct H1 as (l1 & -> & HK). exists l1. auto.
  - rewrite H1. reflexivity.
  - rewrite H1. reflexivity.
  - rewrite H1. reflexivity.
Qed.
Lemma sim_ret {R} P (r : R) : sim (A:=A) P P K (ret r) (ret r).
Proof. intros l o g HP. exists l. auto. Qed.
Lemma sim_panic {R} P Q : (forall l o, P l o -> K l o) -> sim P Q K (@panic A L R) panic.
Proof. intros HK l o g HP. exists l. auto. Qed.
Lemma sim_uadd P e x y : (forall l o, P l o -> K l o) -> sim (A:=A) P P K (uadd e x y) (uadd e x y).
Proof. intros HK. unfold uadd. destruct (_ <? _); [apply sim_ret|]. destruct (debug e); [apply sim_panic, HK|apply sim_ret]. Qed.
Lemma sim_usub P e x y : (forall l o, P l o -> K l o) -> sim (A:=A) P P K (usub e x y) (usub e x y).
Proof. intros HK. unfold usub. destruct (_ <=? _); [apply sim_ret|]. destruct (debug e); [apply sim_panic, HK|apply sim_ret]. Qed.
Lemma sim_if {R} P Q (b : bool) (ml1 ml2 : M A L R) m1 m2 : sim P Q K ml1 m1 -> sim P Q K ml2 m2 ->
  sim P Q K (if b then ml1 else ml2) (if b then m1 else m2).
Proof. destruct b; auto. Qed.
Lemma sim_weaken {R} P P' Q Q' (K' : L -> O -> Prop) (ml : M A L R) m :
  (forall l o, P' l o -> P l o) -> (forall l o, Q l o -> Q' l o) -> (forall l o, K' l o -> K l o) ->
  sim P Q K' ml m -> sim P' Q' K ml m.
Proof.
  intros H1 H2 H3 H l o g HP. specialize (H l o g (H1 _ _ HP)). destruct (m o g); cbn in *; auto.
  - destruct H as (l' & E & H). exists l'. auto.
  - destruct H as (l' & E & H). exists l'. auto.
Qed.
End sim.
(** From the scripts' theorems to the live ones. *)
Lemma mirrors_agrees {A L O S R R'} (Q : L -> O -> Prop) (H : O -> S -> Prop) (H' : L -> S -> Prop) (RR : R -> R' -> Prop) g x y z :
  mirrors Q Q x y -> (forall l o s, Q l o -> H o s -> H' l s) -> @agrees A O S R R' H RR g y z -> agrees H' RR g x z.
Proof.
  intros M HH. destruct z as [s r d|s d k]; cbn.
  - intros (o & g' & r' & -> & Ho & Hr & D & E). destruct M as (l & -> & HQ). exists l, g', r'. eauto 10.
  - intros (o & g' & k' & -> & Ho & D & E & P). destruct M as (l & -> & HQ). exists l, g', k'. eauto 10.
Qed.

Section iter.
Context {A S X : Type} (F : S -> log A -> list (option (nat * option nat)) -> list (ev X) -> Prop) (E : S -> log A -> Prop)
  (next : M A S (option X)) (hint : M A S (nat * option nat)).
Hypothesis Hs : scripted F E next hint.
Implicit Types (hs : list (option (nat * option nat))) (it : list (ev X)).
(** The live call has the container of the scripted one; the iterator satisfies [P]. *)
Definition beside {C} (P : S * log A -> Prop) (l : C * (S * log A)) (o : C) : Prop := fst l = o /\ P (snd l).
Definition at_ hs it (o : S * log A) : Prop := F (fst o) (snd o) hs it.
Definition over (o : S * log A) : Prop := E (fst o) (snd o).
Lemma at_later hs hs' it it' o : hs' `suffix_of` hs -> it' `suffix_of` it -> at_ hs' it' o -> later F E hs it o.
Proof. intros. left. exists hs', it'. auto. Qed.
Lemma over_later hs it o : over o -> later F E hs it o.
Proof. intros. right. auto. Qed.
Lemma later_cons_it hs x it o : later F E hs it o -> later F E hs (x :: it) o.
Proof. intros [(hs' & it' & H & H1 & H2)|H]; [left; exists hs', it'; split; [|split]; auto using suffix_cons_r|right; auto]. Qed.
Lemma later_cons_hs hs x it o : later F E hs it o -> later F E (x :: hs) it o.
Proof. intros [(hs' & it' & H & H1 & H2)|H]; [left; exists hs', it'; split; [|split]; auto using suffix_cons_r|right; auto]. Qed.

Lemma sim_fst {C R} (P : S * log A -> Prop) (K : S * log A -> Prop) (m : M A C R) : (forall o, P o -> K o) ->
  sim (beside P) (beside P) (beside K) (on_fst m) m.
Proof.
  intros HK [c x] o g [E1 HP]. cbn [fst snd] in *. subst c. unfold on_fst. cbn [fst snd].
  destruct (m o g) as [o1 g1 r|o1 g1|u| |]; cbn; try reflexivity; eexists; (split; [reflexivity|]); split; cbn; auto.
Qed.

(** A call of [next] in [extend] and [collect_from]; with scripts, the call is resolved. *)
Lemma sim_next {C R} hs it (Q K : S * log A -> Prop) (kl : option X -> M A (C * (S * log A)) R) (m : M A C R) :
  match it with
  | Yield x :: it' => sim (beside (at_ hs it')) (beside Q) (beside K) (kl (Some x)) m
  | Boom :: it' => (forall o, at_ hs it' o -> K o) /\ m = panic
  | [] => sim (beside over) (beside Q) (beside K) (kl None) m
  end ->
  sim (beside (at_ hs it)) (beside Q) (beside K) (let! x := on_iter next in kl x) m.
Proof.
  intros H [c [s gs]] o g [E1 HP]. cbn [fst snd] in E1, HP. subst c. unfold at_ in HP. cbn [fst snd] in HP.
  destruct (Hs s gs hs it HP) as [Hn _]. unfold bind, on_iter. cbn [fst snd].
  destruct it as [|[x|] it']; destruct Hn as (s' & gs' & -> & H').
  - apply H. split; [reflexivity|exact H'].
  - apply H. split; [reflexivity|exact H'].
  - destruct H as [H ->]. exists (o, (s', gs')). split; [reflexivity|]. split; [reflexivity|]. apply H. exact H'.
Qed.
(** The same in the loops of [insert_from]. *)
Lemma sim_next_forget {C R} hs it (Q K : S * log A -> Prop) (f : M A C unit) (kl : option X -> M A (C * (S * log A)) R) (m : M A C R) :
  match it with
  | Yield x :: it' => sim (beside (at_ hs it')) (beside Q) (beside K) (kl (Some x)) m
  | Boom :: it' => (forall o, at_ hs it' o -> K o) /\ m = (f ;;; panic)
  | [] => sim (beside over) (beside Q) (beside K) (kl None) m
  end ->
  sim (beside (at_ hs it)) (beside Q) (beside K)
    (let! x := (fun o g => match on_iter next o g with Panic o g => (on_fst f ;;; panic) o g | x => x end) in kl x) m.
Proof.
  intros H [c [s gs]] o g [E1 HP]. cbn [fst snd] in E1, HP. subst c. unfold at_ in HP. cbn [fst snd] in HP.
  destruct (Hs s gs hs it HP) as [Hn _]. unfold bind at 1. unfold on_iter. cbn [fst snd].
  destruct it as [|[x|] it']; destruct Hn as (s' & gs' & -> & H').
  - apply H. split; [reflexivity|exact H'].
  - apply H. split; [reflexivity|exact H'].
  - destruct H as [H ->]. unfold bind, on_fst. cbn [fst snd].
    destruct (f o g) as [o1 g1 r|o1 g1|u| |]; try reflexivity.
    + exists (o1, (s', gs')). split; [reflexivity|]. split; [reflexivity|]. apply H. exact H'.
    + exists (o1, (s', gs')). split; [reflexivity|]. split; [reflexivity|]. apply H. exact H'.
Qed.
(** [len()] *)
Lemma exact_len_answer s gs h hs it : F s gs (h :: hs) it -> exists s' gs', F s' gs' hs it /\
  exact_len hint s gs = match len_of h with Some n => Ret s' gs' n | None => Panic s' gs' end.
Proof.
  intros H. destruct (Hs s gs _ it H) as [_ Hh]. unfold exact_len, bind.
  destruct h as [[n [m|]]|]; destruct Hh as (s' & gs' & -> & H'); exists s', gs'; (split; [exact H'|]); cbn [fst snd len_of]; try reflexivity.
  destruct (n =? m) eqn:En; [|reflexivity]. apply Nat.eqb_eq in En. subst. reflexivity.
Qed.
Lemma sim_len {C R} h hs it n (Q K : S * log A -> Prop) (kl : nat -> M A (C * (S * log A)) R) (m : M A C R) : len_of h = Some n ->
  sim (beside (at_ hs it)) (beside Q) (beside K) (kl n) m ->
  sim (beside (at_ (h :: hs) it)) (beside Q) (beside K) (let! x := on_iter (exact_len hint) in kl x) m.
Proof.
  intros Hh H [c [s gs]] o g [E1 HP]. cbn [fst snd] in E1, HP. subst c. unfold at_ in HP. cbn [fst snd] in HP.
  destruct (exact_len_answer s gs h hs it HP) as (s' & gs' & H' & E1). rewrite Hh in E1.
  unfold bind, on_iter. cbn [fst snd]. rewrite E1. apply H. split; [reflexivity|exact H'].
Qed.
Lemma sim_len_forget {C R} h hs it n (Q K : S * log A -> Prop) (f : M A C unit) (kl : nat -> M A (C * (S * log A)) R) (m : M A C R) :
  len_of h = Some n -> sim (beside (at_ hs it)) (beside Q) (beside K) (kl n) m ->
  sim (beside (at_ (h :: hs) it)) (beside Q) (beside K)
    (let! x := (fun o g => match on_iter (exact_len hint) o g with Panic o g => (on_fst f ;;; panic) o g | x => x end) in kl x) m.
Proof.
  intros Hh H [c [s gs]] o g [E1 HP]. cbn [fst snd] in E1, HP. subst c. unfold at_ in HP. cbn [fst snd] in HP.
  destruct (exact_len_answer s gs h hs it HP) as (s' & gs' & H' & E1). rewrite Hh in E1.
  unfold bind, on_iter. cbn [fst snd]. rewrite E1. apply H. split; [reflexivity|exact H'].
Qed.
(** ** Appending *)
Section push.
Context {C : Type} (push : X -> M A C unit) (extend : list (ev X) -> M A C unit).
Hypothesis extend_nil : extend [] = ret tt.
Hypothesis extend_yield : forall x it, extend (Yield x :: it) = (push x ;;; extend it).
Hypothesis extend_boom : forall it, extend (Boom :: it) = panic.
Lemma sim_extend hs it0 it : forall fuel, it `suffix_of` it0 -> length it < fuel ->
  sim (beside (at_ hs it)) (beside over) (beside (later F E hs it0)) (extend_live next push fuel) (extend it).
Proof.
  induction it as [|[x|] it IH]; intros [|fuel] Hit Hf; cbn [length] in Hf; try lia; cbn [extend_live]; apply sim_next.
  - rewrite extend_nil. apply sim_ret.
  - assert (Hit' : it `suffix_of` it0) by (eapply suffix_cons_l; exact Hit).
    rewrite extend_yield. eapply sim_bind; [|intros []; apply IH; [exact Hit'|lia]].
    apply sim_fst. intros o. apply at_later; [reflexivity|exact Hit'].
  - split; [|apply extend_boom]. intros o. apply at_later; [reflexivity|eapply suffix_cons_l; exact Hit].
Qed.
End push.
End iter.

(** Building a container: the scripts run over nothing, or over the rest of the script. *)
Lemma sim_with_local {A C L O R} (P Q K : L -> O -> Prop) (init : C) (destroy : M A C unit)
    (ml : M A (C * L) R) (m : M A (C * O) R) :
  sim (fun l o => fst l = fst o /\ P (snd l) (snd o)) (fun l o => fst l = fst o /\ Q (snd l) (snd o))
    (fun l o => fst l = fst o /\ K (snd l) (snd o)) ml m ->
  sim P Q K (with_local init destroy ml) (with_local init destroy m).
Proof.
  intros H l o g HP. specialize (H (init, l) (init, o) g (conj eq_refl HP)). unfold with_local.
  destruct (m (init, o) g) as [[c o1] g1 r|[c o1] g1|u| |]; cbn in H.
  - destruct H as ([c1 l1] & -> & E1 & HQ). cbn in *. subst c1. exists l1. auto.
  - destruct H as ([c1 l1] & -> & E1 & HQ). cbn in *. subst c1. destruct (destroy c g1); cbn; try reflexivity. exists l1. auto.
  - rewrite H. reflexivity.
  - rewrite H. reflexivity.
  - rewrite H. reflexivity.
Qed.
Lemma sim_on_fst {A S C R} {O : Type} (P Q K : S * log A -> Prop) (ml : M A (C * (S * log A)) R) (m : M A C R) :
  sim (beside P) (beside Q) (beside K) ml m ->
  sim (fun l (o : C * O) => fst l = fst o /\ P (snd l)) (fun l o => fst l = fst o /\ Q (snd l)) (fun l o => fst l = fst o /\ K (snd l)) ml (on_fst m).
Proof.
  intros H l [c o] g [E1 HP]. specialize (H l c g (conj E1 HP)). unfold on_fst. cbn [fst snd].
  destruct (m c g) as [c1 g1 r|c1 g1|u| |]; cbn in H; try exact H; destruct H as (l1 & -> & E2 & HQ); exists l1; auto.
Qed.

(** ** [collect_from] *)
Section collect.
Context {A S : Type} (F : S -> log A -> list (option (nat * option nat)) -> list (ev A) -> Prop) (E : S -> log A -> Prop)
  (next : M A S (option A)) (hint : M A S (nat * option nat)).
Hypothesis Hs : scripted F E next hint.
Context {C : Type} (push : A -> M A C unit) (strict : bool).
Definition rests hs (l : C * (S * log A)) (o : C * list (ev A)) : Prop := fst l = fst o /\ rest_of F E hs (snd l) (snd o).
Fixpoint take_scr (count : nat) : M A (C * list (ev A)) unit :=
  match count with
  | 0 => ret tt
  | Datatypes.S count' =>
      let! s := get in
      match snd s with
      | [] => if strict then panic else ret tt
      | Boom :: it' => on_snd (put it') ;;; panic
      | Yield a :: it' => on_snd (put it') ;;; on_fst (push a) ;;; take_scr count'
      end
  end.
Fixpoint take_lv (count : nat) : M A (C * (S * log A)) unit :=
  match count with
  | 0 => ret tt
  | Datatypes.S count' =>
      let! x := on_iter next in
      match x with
      | None => if strict then panic else ret tt
      | Some a => on_fst (push a) ;;; take_lv count'
      end
  end.
Definition fresh hs (l : C * (S * log A)) (o : C * list (ev A)) : Prop := fst l = fst o /\ F (fst (snd l)) (snd (snd l)) hs (snd o).
Lemma sim_take hs count : sim (fresh hs) (rests hs) (rests hs) (take_lv count) (take_scr count).
Proof.
  induction count as [|count IH]; intros [c [s gs]] [c1 it] g [E1 HF]; cbn [fst snd] in *; subst c1; cbn [take_lv take_scr].
  - exists (c, (s, gs)). split; [reflexivity|]. split; [reflexivity|left; exact HF].
  - destruct (Hs s gs hs it HF) as [Hn _]. unfold bind, on_iter, get. cbn [fst snd].
    destruct it as [|[x|] it']; destruct Hn as (s' & gs' & -> & H'); cbn [fst snd].
    + destruct strict; (exists (c, (s', gs')); split; [reflexivity|]; split; [reflexivity|right; auto]).
    + unfold on_snd, put, on_fst. cbn [fst snd]. destruct (push x c g) as [c2 g2 r|c2 g2|u| |]; try reflexivity.
      * apply (IH (c2, (s', gs')) (c2, it') g2). split; [reflexivity|exact H'].
      * exists (c2, (s', gs')). split; [reflexivity|]. split; [reflexivity|left; exact H'].
    + exists (c, (s', gs')). split; [reflexivity|]. split; [reflexivity|left; exact H'].
Qed.
End collect.
