(** * Which values may cross threads, and which types stand for which. *)
From stdpp Require Import base list.
From Verif Require Import TypesModel.

(** The values of the type share their elements with others that look at them at the same time. *)
Definition shares (p : public) : Prop := made p = FromRef.
(** Somebody else owns the storage. *)
Definition borrows (p : public) : Prop := made p = FromRef \/ made p = FromMut.
(** Types with a host type. *)
Definition hosted (p : public) : Prop := p = PInline \/ p = PInlineIter \/ p = PInlineDrain.

(** C79.  Threads.  [send] and [sync] say which types are [Send] and [Sync].
    (1) Soundness.  If a value can be sent to another thread, then whatever its methods give there is allowed there: where
        elements are shared by reference they are [Sync]; where the holder has them to itself (by value or by [&mut]) they are
        [Send].  If a value can be shared with another thread, then what its methods with [&self] give there is [&A] with
        [A: Sync], never an element or a [&mut A].
    (2) Exactly.  Containers, owning iterators and mutable borrows are [Send] whenever the elements (and the host) are, and
        [Sync] whenever these are; shared borrows are [Send] and [Sync] whenever the elements are [Sync]; only the mutable
        iterator of [RingBuffer] is never either. *)
Theorem C79_send_sync :
  forall (L X : Type) (send sync : X -> Prop) (p : public) (a : L) (A T : X),
  (is_send send sync (fields p a A T) ->
     forall n x, In (n, x) (methods p) -> (shares p -> x = ARef /\ sync A) /\ (~ shares p -> send A)) /\
  (is_sync sync (fields p a A T) ->
     forall x, In (ItsRef, x) (methods p) -> x = ARef /\ sync A) /\
  (is_send send sync (fields p a A T) <->
     p <> PRingIterMut /\ (shares p -> sync A) /\ (~ shares p -> send A) /\ (hosted p -> send T)) /\
  (is_sync sync (fields p a A T) <-> p <> PRingIterMut /\ sync A /\ (hosted p -> sync T)).
Proof.
  intros L X send sync p a A T.
  destruct p; unfold shares, hosted; cbn; (split; [|split; [|split]]);
    try (intros H n x; repeat match goal with |- _ \/ _ -> _ => intros [[= <- <-]|] end; [..|done]; naive_solver);
    try (intros H x; repeat match goal with |- _ \/ _ -> _ => intros [[=]|] end; try done; naive_solver);
    naive_solver.
Qed.

(** C79.  Subtyping.  [le A B]: an [A] is a [B].  A value of a type for elements [A] and lifetime ['a] stands for one with [B]
    and ['b] exactly if [A] is [B], for borrows also ['a] outlives ['b], and for values that can change somebody else's
    elements also [B] is [A]: no client can put an element of another type, or one that lives too short, into a container it
    has only borrowed. *)
Theorem C79_variance :
  forall (L X : Type) (outlives : L -> L -> Prop) (le : X -> X -> Prop) (p : public) (a b : L) (A B T U : X),
  sub outlives le (fields p a A T) (fields p b B U) <->
  le A B /\ (borrows p -> outlives a b) /\ (made p = FromMut -> le B A) /\
  (hosted p -> le T U) /\ (hosted p /\ made p = FromMut -> le U T).
Proof.
  intros L X outlives le p a b A B T U.
  assert (C : forall V W, sub outlives le (t_chunk (L:=L) V) (t_chunk W) <-> le V W).
  { intros V W. unfold t_chunk. split.
    - intros H. repeat match goal with H : sub _ _ _ _ |- _ => inversion H; subst; clear H end. done.
    - intros H. repeat constructor. done. }
  assert (R : forall V W, sub outlives le (t_ring (L:=L) V) (t_ring W) <-> le V W) by exact C.
  assert (S : forall V W, sub outlives le (t_sparse (L:=L) V) (t_sparse W) <-> le V W).
  { intros V W. unfold t_sparse. split.
    - intros H. repeat match goal with H : sub _ _ _ _ |- _ => inversion H; subst; clear H end. done.
    - intros H. repeat constructor. done. }
  assert (I : forall V W Y Z, sub outlives le (t_inline (L:=L) V Y) (t_inline W Z) <-> le V W /\ le Y Z).
  { intros V W Y Z. unfold t_inline. split.
    - intros H. repeat match goal with H : sub _ _ _ _ |- _ => inversion H; subst; clear H end. done.
    - intros [H1 H2]. repeat constructor; done. }
  assert (inv2 : forall t t' u u', sub outlives le (Both (L:=L) t t') (Both u u') <-> sub outlives le t u /\ sub outlives le t' u').
  { intros. split; [inversion 1; subst; done|intros []; constructor; done]. }
  assert (invr : forall a b t u, sub outlives le (Ref a t) (Ref b u) <-> outlives a b /\ sub outlives le t u).
  { intros. split; [inversion 1; subst; done|intros []; constructor; done]. }
  assert (invm : forall a b t u, sub outlives le (RefMut a t) (RefMut b u) <->
            outlives a b /\ sub outlives le t u /\ sub outlives le u t).
  { intros. split; [inversion 1; subst; done|intros (? & ? & ?); constructor; done]. }
  assert (invw : forall t u, sub outlives le (RawMut (L:=L) t) (RawMut u) <-> sub outlives le t u /\ sub outlives le u t).
  { intros. split; [inversion 1; subst; done|intros []; constructor; done]. }
  assert (invp : forall V W, sub outlives le (Param (L:=L) V) (Param W) <-> le V W).
  { intros. split; [inversion 1; subst; done|intros; constructor; done]. }
  assert (inv0 : sub outlives le (Plain (L:=L)) Plain <-> True) by (split; [done|constructor]).
  assert (invh : forall t u, sub outlives le (Phantom (L:=L) t) (Phantom u) <-> sub outlives le t u).
  { intros. split; [inversion 1; subst; done|constructor; done]. }
  unfold borrows, hosted.
  destruct p; cbn [fields made]; rewrite ?inv2, ?invr, ?invm, ?invw, ?invh, ?C, ?R, ?S, ?I, ?invp, ?inv0, ?invr, ?inv0; naive_solver.
Qed.

(** Two element types, [Rc<i32>] (neither [Send] nor [Sync]) and [i32]; [&'static str] and [&'short str] for the variance. *)
Inductive ex_ty := Rc | Int | StaticStr | ShortStr.
Inductive ex_lt := Static | Short.
Example C79_example :
  let send x := x <> Rc in
  let outlives a b := ~ (a = Short /\ b = Static) in
  let le x y := x = y \/ (x = StaticStr /\ y = ShortStr) in
  is_send send send (fields PChunk Short Int Int) /\ ~ is_send send send (fields PInline Short Rc Int) /\
  ~ is_send send send (fields PSlice Short Rc Int) /\
  sub outlives le (fields PChunk Static StaticStr Int) (fields PChunk Short ShortStr Int) /\
  sub outlives le (fields PRingIter Static StaticStr Int) (fields PRingIter Short ShortStr Int) /\
  ~ sub outlives le (fields PRingIterMut Static StaticStr Int) (fields PRingIterMut Short ShortStr Int) /\
  ~ sub outlives le (fields PRingIter Short StaticStr Int) (fields PRingIter Static StaticStr Int).
Proof.
  cbv zeta. repeat split; try (cbn; naive_solver).
  - apply C79_variance. cbn. unfold borrows, hosted. naive_solver.
  - apply C79_variance. cbn. unfold borrows, hosted. naive_solver.
  - rewrite C79_variance. cbn. naive_solver.
  - rewrite C79_variance. cbn. unfold borrows. naive_solver.
Qed.

Print Assumptions C79_send_sync.
Print Assumptions C79_variance.
