(** * Proofs about client closures called on the elements of a mutable iterator. *)
From stdpp Require Import list_numbers.
From Verif Require Import Machine Spec Prims IterSpec VisitModel VisitSpec.

Section generic.
Context {A X : Type} (e : env A) (pull : side -> M A X (option (nat * A))) (replace : nat -> A -> M A X A).
Context (act : nat -> A -> use A) (ok : side -> Prop).
(** [P x df mid db]: in state [x] the container holds [df ++ mid ++ db], of which the iterator still has [mid]. *)
Context (P : X -> list A -> list A -> list A -> Prop).
Definition gives (x : X) (s : side) (v : A) (R : X -> A -> Prop) : Prop :=
  exists x' p, (forall g, pull s x g = Ret x' g (Some (p, v))) /\ R x' v /\
    forall b g, exists x'' g', replace p b x' g = Ret x'' g' v /\ R x'' b /\ dropped g' = dropped g /\ leaked g' = leaked g.
Hypothesis pull_none : forall x s df db, ok s -> P x df [] db ->
  exists x', (forall g, pull s x g = Ret x' g None) /\ P x' df [] db.
Hypothesis pull_front : forall x v df mid db, ok Front -> P x df (v :: mid) db ->
  gives x Front v (fun x' b => P x' (df ++ [b]) mid db).
Hypothesis pull_back : forall x v df mid db, ok Back -> P x df (mid ++ [v]) db ->
  gives x Back v (fun x' b => P x' df mid (b :: db)).
Definition state (x : X) (l : list A) : Prop := exists df mid db, P x df mid db /\ l = df ++ mid ++ db.

Definition turn (k : nat) (p : nat) (a : A) : M A X unit :=
  match act k a with
  | Leaves => ret tt
  | Replaces b => let! _ := replace p b in ret tt
  | Assigns b => let! old := replace p b in drop_values e [old]
  | Panics => panic
  end.
Lemma turn_ok k p v (R : X -> A -> Prop) x' g :
  R x' v -> (forall b g, exists x'' g', replace p b x' g = Ret x'' g' v /\ R x'' b /\ dropped g' = dropped g /\ leaked g' = leaked g) ->
  match react (bomb e) (act k v) v with
  | Goes b out => exists x'' g', turn k p v x' g = Ret x'' g' tt /\ R x'' b /\ dropped g' = dropped g ++ out /\ leaked g' = leaked g
  | Stops b out => exists x'' g', turn k p v x' g = Panic x'' g' /\ R x'' b /\ dropped g' = dropped g ++ out /\ leaked g' = leaked g
  end.
Proof.
  intros H0 H1. unfold turn. destruct (act k v) as [|b|b|]; cbn [react].
  - exists x', g. rewrite app_nil_r. auto.
  - destruct (H1 b g) as (x'' & g' & E & H & D & L). exists x'', g'. erewrite bind_Ret by exact E. rewrite app_nil_r. auto.
  - destruct (H1 b g) as (x'' & g' & E & H & D & L). destruct (bomb e v) eqn:Eb.
    + exists x'', (log_drop [v] g'). erewrite bind_Ret by exact E. unfold drop_values. cbn [List.filter]. rewrite Eb.
      cbn [log_drop dropped leaked]. rewrite D. auto.
    + exists x'', (log_drop [v] g'). erewrite bind_Ret by exact E. unfold drop_values. cbn [List.filter]. rewrite Eb.
      cbn [log_drop dropped leaked]. rewrite D. auto.
  - exists x', g. rewrite app_nil_r. auto.
Qed.
Lemma ends_none script : forall k x df db g, Forall ok script -> P x df [] db ->
  exists x', visit e pull replace act k script x g = Ret x' g tt /\ P x' df [] db.
Proof.
  induction script as [|s script IH]; intros k x df db g F H; cbn [visit]; [exists x; auto|].
  inversion F as [|? ? F1 F2]; subst. destruct (pull_none x s df db F1 H) as (x' & E & H'). erewrite bind_Ret by apply E.
  exact (IH k x' df db g F2 H').
Qed.
Lemma visit_ok script : forall k x df mid db g, Forall ok script -> P x df mid db ->
  ends_as (fun x l => state x (df ++ l ++ db)) g (visited (bomb e) act k script mid)
    (visit e pull replace act k script x g).
Proof.
  induction script as [|s script IH]; intros k x df mid db g F H.
  { cbn. split; [reflexivity|]. split; [exists df, mid, db; auto|]. rewrite app_nil_r. auto. }
  pose proof F as F0. inversion F as [|? ? F1 F2]; subst. destruct s; cbn [visited].
  - destruct mid as [|v mid].
    + destruct (ends_none _ k x df db g F0 H) as (x' & -> & H'). cbn. split; [reflexivity|].
      split; [exists df, [], db; auto|]. rewrite app_nil_r. auto.
    + destruct (pull_front _ _ _ _ _ F1 H) as (x' & p & E & H1 & H2).
      pose proof (turn_ok k p v _ x' g H1 H2) as T. cbn [visit]. erewrite bind_Ret by apply E. cbv beta iota.
      fold (turn k p v).
      destruct (react (bomb e) (act k v) v) as [b out|b out].
      * destruct T as (x'' & g' & ET & HT & D & L). erewrite bind_Ret by exact ET.
        pose proof (IH (S k) x'' (df ++ [b]) mid db g' F2 HT) as I.
        destruct (visited (bomb e) act (S k) script mid) as [[m d] q]. cbn [ends_as] in *.
        destruct (visit _ _ _ _ _ _ x'' g') as [y h ?|y h| | |]; try contradiction;
          destruct I as (-> & I2 & I3 & I4); rewrite <- app_assoc in I2; rewrite I3, I4, D, L, <- app_assoc; auto.
      * destruct T as (x'' & g' & ET & HT & D & L). erewrite bind_Panic by exact ET. cbn [ends_as].
        split; [reflexivity|]. split; [|auto]. exists (df ++ [b]), mid, db. split; [exact HT|]. rewrite <- app_assoc. reflexivity.
  - destruct (rev mid) as [|v mid'] eqn:Em.
    + assert (mid = []) as -> by (rewrite <- (rev_involutive mid), Em; reflexivity).
      destruct (ends_none _ k x df db g F0 H) as (x' & -> & H'). cbn. split; [reflexivity|].
      split; [exists df, [], db; auto|]. rewrite app_nil_r. auto.
    + assert (mid = rev mid' ++ [v]) as -> by (rewrite <- (rev_involutive mid), Em; reflexivity).
      destruct (pull_back _ _ _ _ _ F1 H) as (x' & p & E & H1 & H2).
      pose proof (turn_ok k p v _ x' g H1 H2) as T. cbn [visit]. erewrite bind_Ret by apply E. cbv beta iota.
      fold (turn k p v).
      destruct (react (bomb e) (act k v) v) as [b out|b out].
      * destruct T as (x'' & g' & ET & HT & D & L). erewrite bind_Ret by exact ET.
        pose proof (IH (S k) x'' df (rev mid') (b :: db) g' F2 HT) as I.
        destruct (visited (bomb e) act (S k) script (rev mid')) as [[m d] q]. cbn [ends_as] in *.
        destruct (visit _ _ _ _ _ _ x'' g') as [y h ?|y h| | |]; try contradiction;
          destruct I as (-> & I2 & I3 & I4); rewrite I3, I4, D, L, <- !app_assoc; auto.
      * destruct T as (x'' & g' & ET & HT & D & L). erewrite bind_Panic by exact ET. cbn [ends_as].
        split; [reflexivity|]. split; [|auto]. exists df, (rev mid'), (b :: db). split; [exact HT|]. rewrite <- app_assoc. reflexivity.
Qed.
End generic.
Lemma ends_mono {A C R} (h1 h2 : C -> list A -> Prop) g v (o : outcome A C R) :
  (forall c l, h1 c l -> h2 c l) -> ends_as h1 g v o -> ends_as h2 g v o.
Proof.
  intros I. destruct v as [[m d] p], o; cbn; intuition.
Qed.
Lemma scoped_ends {A I C R} (h : C -> list A -> Prop) g v (i : I) (m : M A (I * C) R) c :
  ends_as (fun x l => h (snd x) l) g v (m (i, c) g) -> ends_as h g v (scoped i m c g).
Proof. unfold scoped. destruct v as [[? ?] ?], (m (i, c) g); exact id. Qed.
Lemma scoped_fst_ends {A I C R} (h : C -> list A -> Prop) g v (i : I) (m : M A (C * I) R) c :
  ends_as (fun x l => h (fst x) l) g v (m (c, i) g) -> ends_as h g v (scoped_fst i m c g).
Proof. unfold scoped_fst. destruct v as [[? ?] ?], (m (c, i) g); exact id. Qed.
