(** * Programs over containers of values whose destructors may panic. *)
From Verif Require Import Machine Spec Prims Program Bombs.
Arguments BRet {A S R}. Arguments BPanic {A S R}. Arguments BAbort {A S R}. Arguments BOpen {A S R}.

(** How a program ends.  [Broken]: undefined behaviour, or it does not terminate. *)
Inductive ending (A res obj : Type) :=
  | Finished (s : list (option obj)) (g : log A) (evs : list (event res))
  | Aborted
  | Broken.
Arguments Finished {A res obj}. Arguments Aborted {A res obj}. Arguments Broken {A res obj}.

Section concrete.
Context {A op0 op1 opn op2 res obj : Type} (K : kit A op0 op1 opn op2 res obj).
Notation store := (list (option obj)).
Definition stop {O R} (x : outcome A O R) : ending A res obj := match x with Abort => Aborted | _ => Broken end.
(** As [step] in Program.v, but telling an abort from the rest. *)
Definition stepx (c : cmd op0 op1 opn op2) (s : store) (g : log A) : ending A res obj :=
  match c with
  | Make o =>
      match run0 K o tt g with
      | Ret _ g' x => Finished (s ++ [Some x]) g' [Done]
      | Panic _ g' => Finished (s ++ [None]) g' [Panicked]
      | x => stop x
      end
  | Call i o =>
      match s !! i with
      | Some (Some x) =>
          match run1 K o x g with
          | Ret x' g' r => Finished (<[i := Some x']> s) g' [Returned r]
          | Panic x' g' => Finished (<[i := Some x']> s) g' [Panicked]
          | x => stop x
          end
      | _ => Finished s g [Skip]
      end
  | Spawn i o =>
      match s !! i with
      | Some (Some x) =>
          match runn K o x g with
          | Ret x' g' y => Finished (<[i := Some x']> s ++ [Some y]) g' [Done]
          | Panic x' g' => Finished (<[i := Some x']> s ++ [None]) g' [Panicked]
          | x => stop x
          end
      | _ => Finished (s ++ [None]) g [Skip]
      end
  | Call2 i j o =>
      if i =? j then Finished s g [Skip] else
      match s !! i, s !! j with
      | Some (Some x), Some (Some y) =>
          match run2 K o (x, y) g with
          | Ret (x', y') g' r => Finished (<[j := Some y']> (<[i := Some x']> s)) g' [Returned r]
          | Panic (x', y') g' => Finished (<[j := Some y']> (<[i := Some x']> s)) g' [Panicked]
          | x => stop x
          end
      | _, _ => Finished s g [Skip]
      end
  | Kill i =>
      match s !! i with
      | Some (Some x) =>
          match kill K x g with
          | Ret _ g' _ => Finished (<[i := None]> s) g' [Done]
          | Panic _ g' => Finished (<[i := None]> s) g' [Panicked]
          | x => stop x
          end
      | _ => Finished s g [Skip]
      end
  end.
Fixpoint runx (p : list (cmd op0 op1 opn op2)) (s : store) (g : log A) : ending A res obj :=
  match p with
  | [] => Finished s g []
  | c :: p' =>
      match stepx c s g with
      | Finished s' g' ev =>
          match runx p' s' g' with
          | Finished s'' g'' evs => Finished s'' g'' (ev ++ evs)
          | x => x
          end
      | x => x
      end
  end.
(** It is the [run] of Program.v. *)
Lemma runx_run p : forall s g,
  run K p s g = match runx p s g with Finished s' g' evs => Some (s', g', evs) | _ => None end.
Proof.
  assert (Hs : forall c s g, stepx c s g = match step K c s g with
     | Some (s', g', ev) => Finished s' g' [ev] | None => stepx c s g end /\
     (step K c s g = None -> stepx c s g = Aborted \/ stepx c s g = Broken)).
  { intros [o|i o|i o|i j o|i] s g; cbn [stepx step].
    - destruct (run0 K o tt g); cbn; auto; split; auto; discriminate.
    - destruct (s !! i) as [[x|]|]; [|split; auto; discriminate..].
      destruct (run1 K o x g); cbn; auto; split; auto; discriminate.
    - destruct (s !! i) as [[x|]|]; [|split; auto; discriminate..].
      destruct (runn K o x g); cbn; auto; split; auto; discriminate.
    - destruct (i =? j); [split; auto; discriminate|].
      destruct (s !! i) as [[x|]|]; [|split; auto; discriminate..].
      destruct (s !! j) as [[y|]|]; [|split; auto; discriminate..].
      destruct (run2 K o (x, y) g) as [[x' y'] ? ?|[x' y'] ?| | |]; cbn; auto; split; auto; discriminate.
    - destruct (s !! i) as [[x|]|]; [|split; auto; discriminate..].
      destruct (kill K x g); cbn; auto; split; auto; discriminate. }
  induction p as [|c p IH]; intros s g; cbn [run runx]; [reflexivity|].
  destruct (Hs c s g) as [E1 E2]. destruct (step K c s g) as [[[s' g'] ev]|].
  - rewrite E1, IH. destruct (runx p s' g'); reflexivity.
  - destruct (E2 eq_refl) as [-> | ->]; reflexivity.
Qed.
End concrete.

(** The specification of a container of values whose destructors may panic: [bs*] say what the methods do, [bg*]
    which values are handed over. *)
Record bkit (A op0 op1 opn op2 res st : Type) := BKit {
  bs0 : op0 -> bres (A := A) unit st;
  bs1 : op1 -> st -> bres (A := A) st res;
  bsn : opn -> st -> bres (A := A) st st;
  bs2 : op2 -> st * st -> bres (A := A) (st * st) res;
  bsk : st -> bres (A := A) unit unit;
  bg0 : op0 -> list A;
  bg1 : op1 -> st -> list A;
  bgn : opn -> st -> list A }.
Arguments BKit {A op0 op1 opn op2 res st}.
Arguments bs0 {A op0 op1 opn op2 res st}. Arguments bs1 {A op0 op1 opn op2 res st}. Arguments bsn {A op0 op1 opn op2 res st}.
Arguments bs2 {A op0 op1 opn op2 res st}. Arguments bsk {A op0 op1 opn op2 res st}. Arguments bg0 {A op0 op1 opn op2 res st}.
Arguments bg1 {A op0 op1 opn op2 res st}. Arguments bgn {A op0 op1 opn op2 res st}.
(** The one derived from the specification without panicking destructors: a destructor that panics while another
    panic unwinds aborts the process; what happens if it panics on the normal path is left open. *)
Definition bombed_spec {A op0 op1 opn op2 res st} (e : env A) (S : skit A op0 op1 opn op2 res st)
    (killb : st -> bres (A := A) unit unit) : bkit A op0 op1 opn op2 res st := {|
  bs0 := fun o => with_bombs e (spec0 S o);
  bs1 := fun o s => with_bombs e (spec1 S o s);
  bsn := fun o s => with_bombs e (specn S o s);
  bs2 := fun o s => with_bombs e (spec2 S o s);
  bsk := killb;
  bg0 := given0 S; bg1 := given1 S; bgn := givenn S |}.

Section abstract.
Context {A op0 op1 opn op2 res st : Type} (S : skit A op0 op1 opn op2 res st) (B : bkit A op0 op1 opn op2 res st).
Notation store := (list (option st)).

(** The end of a program, according to the specification: the containers, what was dropped, leaked, observed and
    handed over.  [BUnknown]: some method ran into a case left open. *)
Inductive bending :=
  | BFinished (s : store) (d k : list A) (evs : list (event res)) (gv : list A)
  | BAborted
  | BUnknown.
Definition bstep (c : cmd op0 op1 opn op2) (s : store) : bending :=
  match c with
  | Make o =>
      match bs0 B o with
      | BRet _ x d => BFinished (s ++ [Some x]) d [] [Done] (bg0 B o)
      | BPanic _ d k => BFinished (s ++ [None]) d k [Panicked] (bg0 B o)
      | BAbort => BAborted
      | BOpen => BUnknown
      end
  | Call i o =>
      match s !! i with
      | Some (Some x) =>
          match bs1 B o x with
          | BRet x' r d => BFinished (<[i := Some x']> s) d [] [Returned r] (bg1 B o x)
          | BPanic x' d k => BFinished (<[i := Some x']> s) d k [Panicked] (bg1 B o x)
          | BAbort => BAborted
          | BOpen => BUnknown
          end
      | _ => BFinished s [] [] [Skip] []
      end
  | Spawn i o =>
      match s !! i with
      | Some (Some x) =>
          match bsn B o x with
          | BRet x' y d => BFinished (<[i := Some x']> s ++ [Some y]) d [] [Done] (bgn B o x)
          | BPanic x' d k => BFinished (<[i := Some x']> s ++ [None]) d k [Panicked] (bgn B o x)
          | BAbort => BAborted
          | BOpen => BUnknown
          end
      | _ => BFinished (s ++ [None]) [] [] [Skip] []
      end
  | Call2 i j o =>
      if i =? j then BFinished s [] [] [Skip] [] else
      match s !! i, s !! j with
      | Some (Some x), Some (Some y) =>
          match bs2 B o (x, y) with
          | BRet (x', y') r d => BFinished (<[j := Some y']> (<[i := Some x']> s)) d [] [Returned r] []
          | BPanic (x', y') d k => BFinished (<[j := Some y']> (<[i := Some x']> s)) d k [Panicked] []
          | BAbort => BAborted
          | BOpen => BUnknown
          end
      | _, _ => BFinished s [] [] [Skip] []
      end
  | Kill i =>
      match s !! i with
      | Some (Some x) =>
          match bsk B x with
          | BRet _ _ d => BFinished (<[i := None]> s) d [] [Done] []
          | BPanic _ d k => BFinished (<[i := None]> s) d k [Panicked] []
          | BAbort => BAborted
          | BOpen => BUnknown
          end
      | _ => BFinished s [] [] [Skip] []
      end
  end.
Fixpoint brun (p : list (cmd op0 op1 opn op2)) (s : store) : bending :=
  match p with
  | [] => BFinished s [] [] [] []
  | c :: p' =>
      match bstep c s with
      | BFinished s' d k ev gv =>
          match brun p' s' with
          | BFinished s'' d' k' evs gv' => BFinished s'' (d ++ d') (k ++ k') (ev ++ evs) (gv ++ gv')
          | x => x
          end
      | x => x
      end
  end.
(** The calls made up to the end satisfy the side conditions of [S]. *)
Fixpoint ball_legal (p : list (cmd op0 op1 opn op2)) (s : store) : Prop :=
  match p with
  | [] => True
  | c :: p' => legal S c s /\ match bstep c s with BFinished s' _ _ _ _ => ball_legal p' s' | _ => True end
  end.

(** Every method conserves the values. *)
Record balancedb : Prop := {
  bbal0 : forall o, match bs0 B o with
    | BRet _ x d => Permutation (bg0 B o) (items S x ++ d)
    | BPanic _ d k => Permutation (bg0 B o) (d ++ k)
    | _ => True end;
  bbal1 : forall o x, legal1 S o x -> match bs1 B o x with
    | BRet x' r d => Permutation (items S x ++ bg1 B o x) (items S x' ++ outs S r ++ d)
    | BPanic x' d k => Permutation (items S x ++ bg1 B o x) (items S x' ++ d ++ k)
    | _ => True end;
  bbaln : forall o x, legaln S o x -> match bsn B o x with
    | BRet x' y d => Permutation (items S x ++ bgn B o x) (items S x' ++ items S y ++ d)
    | BPanic x' d k => Permutation (items S x ++ bgn B o x) (items S x' ++ d ++ k)
    | _ => True end;
  bbal2 : forall o x, legal2 S o x -> match bs2 B o x with
    | BRet x' r d => Permutation (items S x.1 ++ items S x.2) (items S x'.1 ++ items S x'.2 ++ outs S r ++ d)
    | BPanic x' d k => Permutation (items S x.1 ++ items S x.2) (items S x'.1 ++ items S x'.2 ++ d ++ k)
    | _ => True end;
  bbalk : forall x, match bsk B x with
    | BRet _ _ d => Permutation (items S x) d
    | BPanic _ d k => Permutation (items S x) (d ++ k)
    | _ => True end }.
Lemma bstep_balanced (HB : balancedb) c s : legal S c s ->
  match bstep c s with
  | BFinished s' d k evs gv => Permutation (live S s ++ gv) (live S s' ++ returned S evs ++ d ++ k)
  | _ => True
  end.
Proof.
  intros HL. destruct c as [o|i o|i o|i j o|i]; cbn [bstep legal] in *.
  - pose proof (bbal0 HB o) as P. destruct (bs0 B o) as [u y d|u d k| |]; auto; rewrite live_app; cbn; perm_use P.
  - destruct (s !! i) as [[x|]|] eqn:Hi; try (cbn; perm; fail).
    pose proof (bbal1 HB o x HL) as P. destruct (bs1 B o x) as [x' r d|x' d k| |]; auto;
      pose proof (live_insert S s i x (Some x') Hi) as P2; cbn in *; perm_use P; perm_use (Permutation_sym P2).
  - destruct (s !! i) as [[x|]|] eqn:Hi; try (rewrite live_app; cbn; perm; fail).
    pose proof (bbaln HB o x HL) as P. destruct (bsn B o x) as [x' r d|x' d k| |]; auto;
      pose proof (live_insert S s i x (Some x') Hi) as P2; rewrite live_app; cbn in *; perm_use P; perm_use (Permutation_sym P2).
  - destruct (i =? j) eqn:Eij; [cbn; perm|].
    destruct (s !! i) as [[x|]|] eqn:Hi; try (cbn; perm; fail).
    destruct (s !! j) as [[y|]|] eqn:Hj; try (cbn; perm; fail).
    pose proof (bbal2 HB o (x, y) HL) as P. cbn [fst snd] in P.
    assert (Hj' : forall x', <[i := Some x']> s !! j = Some (Some y)).
    { intros x'. rewrite list_lookup_insert_ne; [exact Hj|]. apply Nat.eqb_neq in Eij. exact Eij. }
    destruct (bs2 B o (x, y)) as [[x' y'] r d|[x' y'] d k| |]; auto;
      pose proof (live_insert S s i x (Some x') Hi) as P2;
      pose proof (live_insert S _ j y (Some y') (Hj' x')) as P3; cbn in *.
    all: perm_use (Permutation_sym P3); perm_use (Permutation_sym P2); perm_use P.
  - destruct (s !! i) as [[x|]|] eqn:Hi; try (cbn; perm; fail).
    pose proof (bbalk HB x) as P. pose proof (live_insert S s i x None Hi) as P2. cbn in P2.
    destruct (bsk B x); auto; cbn in *; perm_use (Permutation_sym P2); perm_use P.
Qed.
Theorem brun_balanced (HB : balancedb) p : forall s, ball_legal p s ->
  match brun p s with
  | BFinished s' d k evs gv => Permutation (live S s ++ gv) (live S s' ++ returned S evs ++ d ++ k)
  | _ => True
  end.
Proof.
  induction p as [|c p IH]; intros s HL; cbn [brun ball_legal] in *.
  - cbn. perm.
  - destruct HL as [HL1 HL2]. pose proof (bstep_balanced HB c s HL1) as P.
    destruct (bstep c s) as [s' d k ev gv| |]; auto. specialize (IH s' HL2).
    destruct (brun p s') as [s2 d2 k2 ev2 gv2| |]; auto.
    assert (returned S (ev ++ ev2) = returned S ev ++ returned S ev2) as -> by apply flat_map_app.
    perm_use P. perm_use IH.
Qed.
End abstract.
Arguments BFinished {A res st}. Arguments BAborted {A res st}. Arguments BUnknown {A res st}.

Section simulation.
Context {A op0 op1 opn op2 res obj st : Type}.
Context (K : kit A op0 op1 opn op2 res obj) (S : skit A op0 op1 opn op2 res st)
  (B : bkit A op0 op1 opn op2 res st).
Context (H : obj -> st -> Prop).
Record refinesb : Prop := {
  rfb0 : forall o g, agreesb (fun _ _ => True) H g (run0 K o tt g) (bs0 B o);
  rfb1 : forall o x s g, H x s -> legal1 S o s -> agreesb H eq g (run1 K o x g) (bs1 B o s);
  rfbn : forall o x s g, H x s -> legaln S o s -> agreesb H H g (runn K o x g) (bsn B o s);
  rfb2 : forall o x s g, both H H x s -> legal2 S o s ->
    agreesb (both H H) eq g (run2 K o x g) (bs2 B o s);
  rfbk : forall x s g, H x s -> agreesb (fun _ _ => True) eq g (kill K x g) (bsk B s) }.
Notation srel := (Forall2 (orel H)).

Lemma bstep_sim (R : refinesb) c X Y g : srel X Y -> legal S c Y ->
  match bstep B c Y with
  | BFinished Y' d k evs _ => exists X' g' k', stepx K c X g = Finished X' g' evs /\ srel X' Y' /\
      dropped g' = dropped g ++ d /\ leaked g' = leaked g ++ k' /\ Permutation k k'
  | BAborted => stepx K c X g = Aborted
  | BUnknown => True
  end.
Proof.
  intros HR HL. destruct c as [o|i o|i o|i j o|i]; cbn [bstep stepx legal] in *.
  - pose proof (rfb0 R o g) as P. destruct (bs0 B o) as [u y d|u d k| |]; cbn in P.
    + destruct P as (u' & g' & x & E & _ & Hx & D & L). rewrite E.
      exists (X ++ [Some x]), g', []. rewrite app_nil_r. repeat split; auto. apply srel_snoc; auto.
    + destruct P as (u' & g' & k' & E & _ & D & L & Pk). rewrite E.
      exists (X ++ [None]), g', k'. repeat split; auto. apply srel_snoc; [auto|exact I].
    + rewrite P. reflexivity.
    + exact I.
  - pose proof (srel_lookup _ X Y i HR) as Hi.
    destruct (X !! i) as [[x|]|], (Y !! i) as [[y|]|]; try contradiction;
      try (exists X, g, []; rewrite !app_nil_r; auto; fail).
    pose proof (rfb1 R o x y g Hi HL) as P. destruct (bs1 B o y) as [y' r d|y' d k| |]; cbn in P.
    + destruct P as (x' & g' & r' & E & Hx & -> & D & L). rewrite E.
      exists (<[i:=Some x']> X), g', []. rewrite app_nil_r. repeat split; auto. apply srel_insert; auto.
    + destruct P as (x' & g' & k' & E & Hx & D & L & Pk). rewrite E.
      exists (<[i:=Some x']> X), g', k'. repeat split; auto. apply srel_insert; auto.
    + rewrite P. reflexivity.
    + exact I.
  - pose proof (srel_lookup _ X Y i HR) as Hi.
    destruct (X !! i) as [[x|]|], (Y !! i) as [[y|]|]; try contradiction;
      try (exists (X ++ [None]), g, []; rewrite !app_nil_r; repeat split; auto; apply srel_snoc; [auto|exact I]; fail).
    pose proof (rfbn R o x y g Hi HL) as P. destruct ((bsn B o y)) as [y' r d|y' d k| |]; cbn in P.
    + destruct P as (x' & g' & r' & E & Hx & Hr & D & L). rewrite E.
      exists (<[i:=Some x']> X ++ [Some r']), g', []. rewrite app_nil_r.
      repeat split; auto. apply srel_snoc; [apply srel_insert|]; auto.
    + destruct P as (x' & g' & k' & E & Hx & D & L & Pk). rewrite E.
      exists (<[i:=Some x']> X ++ [None]), g', k'. repeat split; auto.
      apply srel_snoc; [apply srel_insert; auto | exact I].
    + rewrite P. reflexivity.
    + exact I.
  - destruct (i =? j); [exists X, g, []; rewrite !app_nil_r; auto|].
    pose proof (srel_lookup _ X Y i HR) as Hi. pose proof (srel_lookup _ X Y j HR) as Hj.
    destruct (X !! i) as [[x|]|], (Y !! i) as [[y|]|]; try contradiction;
      try (exists X, g, []; rewrite !app_nil_r; auto; fail).
    destruct (X !! j) as [[x2|]|], (Y !! j) as [[y2|]|]; try contradiction;
      try (exists X, g, []; rewrite !app_nil_r; auto; fail).
    pose proof (rfb2 R o (x, x2) (y, y2) g (conj Hi Hj) HL) as P.
    destruct ((bs2 B o (y, y2))) as [[y' y2'] r d|[y' y2'] d k| |]; cbn in P.
    + destruct P as ([x' x2'] & g' & r' & E & [Hx Hx2] & -> & D & L). rewrite E. cbn in Hx, Hx2.
      exists (<[j:=Some x2']> (<[i:=Some x']> X)), g', []. rewrite app_nil_r.
      repeat split; auto. apply srel_insert; [apply srel_insert|]; auto.
    + destruct P as ([x' x2'] & g' & k' & E & [Hx Hx2] & D & L & Pk). rewrite E. cbn in Hx, Hx2.
      exists (<[j:=Some x2']> (<[i:=Some x']> X)), g', k'.
      repeat split; auto. apply srel_insert; [apply srel_insert|]; auto.
    + rewrite P. reflexivity.
    + exact I.
  - pose proof (srel_lookup _ X Y i HR) as Hi.
    destruct (X !! i) as [[x|]|], (Y !! i) as [[y|]|]; try contradiction;
      try (exists X, g, []; rewrite !app_nil_r; auto; fail).
    pose proof (rfbk R x y g Hi) as P. destruct (bsk B y) as [u r d|u d k| |]; cbn in P.
    + destruct P as (x' & g' & r' & E & _ & _ & D & L). rewrite E.
      exists (<[i:=None]> X), g', []. rewrite app_nil_r. repeat split; auto. apply srel_insert; [auto|exact I].
    + destruct P as (x' & g' & k' & E & _ & D & L & Pk). rewrite E.
      exists (<[i:=None]> X), g', k'. repeat split; auto. apply srel_insert; [auto|exact I].
    + rewrite P. reflexivity.
    + exact I.
Qed.

Theorem brun_sim (R : refinesb) p : forall X Y g, srel X Y -> ball_legal S B p Y ->
  match brun B p Y with
  | BFinished Y' d k evs _ => exists X' g' k', runx K p X g = Finished X' g' evs /\ srel X' Y' /\
      dropped g' = dropped g ++ d /\ leaked g' = leaked g ++ k' /\ Permutation k k'
  | BAborted => runx K p X g = Aborted
  | BUnknown => True
  end.
Proof.
  induction p as [|c p IH]; intros X Y g HR HL; cbn [brun runx ball_legal] in *.
  - exists X, g, []. rewrite !app_nil_r. auto.
  - destruct HL as [HL1 HL2]. pose proof (bstep_sim R c X Y g HR HL1) as P.
    destruct (bstep B c Y) as [Y' d k ev gv| |]; auto.
    + destruct P as (X' & g' & k' & E & HR' & D & L & Pk). rewrite E. specialize (IH X' Y' g' HR' HL2).
      destruct (brun B p Y') as [Y2 d2 k2 ev2 gv2| |]; auto.
      * destruct IH as (X2 & g2 & k3 & E2 & HR2 & D2 & L2 & Pk2). rewrite E2.
        exists X2, g2, (k' ++ k3). rewrite D2, L2, D, L, !app_assoc. repeat split; auto.
        apply Permutation_app; assumption.
      * rewrite IH. reflexivity.
    + rewrite P. reflexivity.
Qed.
End simulation.

(** ** From the calm refinement to the real one. *)
Section lifting.
Context {A op0 op1 opn op2 res obj st : Type} (e : env A).
Context (K K0 : kit A op0 op1 opn op2 res obj) (S : skit A op0 op1 opn op2 res st).
Context (B : bkit A op0 op1 opn op2 res st) (H : obj -> st -> Prop).
(** For each method: it is tame, or mild and without drops when it panics, or a direct proof is given. *)
Lemma refines_lift : refines K0 S H ->
  (forall o, (tame e (run0 K o) (run0 K0 o) /\ bs0 B o = with_bombs e (spec0 S o)) \/
     forall g, agreesb (fun _ _ => True) H g (run0 K o tt g) (bs0 B o)) ->
  (forall o, ((tame e (run1 K o) (run1 K0 o) \/
      (mild e (run1 K o) (run1 K0 o) /\
       forall s, match spec1 S o s with SPanic _ d _ => List.existsb (bomb e) d = false | _ => True end)) /\
      forall s, bs1 B o s = with_bombs e (spec1 S o s)) \/
     forall x s g, H x s -> legal1 S o s -> agreesb H eq g (run1 K o x g) (bs1 B o s)) ->
  (forall o, tame e (runn K o) (runn K0 o) /\ forall s, bsn B o s = with_bombs e (specn S o s)) ->
  (forall o, tame e (run2 K o) (run2 K0 o) /\ forall s, bs2 B o s = with_bombs e (spec2 S o s)) ->
  (forall x s g, H x s -> agreesb (fun _ _ => True) eq g (kill K x g) (bsk B s)) ->
  refinesb K S B H.
Proof.
  intros R T0 T1 Tn T2 Tk. split.
  - intros o g. destruct (T0 o) as [[T E]|T]; [|apply T]. rewrite E. eapply tame_agrees; [exact T|]. apply (ref0 _ _ _ R).
  - intros o x s g Hx HL. destruct (T1 o) as [[T E]|T]; [|apply T; assumption]. rewrite E.
    pose proof (ref1 _ _ _ R o x s g Hx HL) as P. destruct T as [T|[T T']].
    + eapply tame_agrees; eassumption.
    + eapply mild_agrees; [exact T|exact (T' s)|exact P].
  - intros o x s g Hx HL. destruct (Tn o) as [T E]. rewrite E. eapply tame_agrees; [exact T|]. apply (refn _ _ _ R); assumption.
  - intros o x s g Hx HL. destruct (T2 o) as [T E]. rewrite E. eapply tame_agrees; [exact T|]. apply (ref2 _ _ _ R); assumption.
  - exact Tk.
Qed.
End lifting.

Lemma bombed_balanced {A op0 op1 opn op2 res st} (e : env A) (S : skit A op0 op1 opn op2 res st) killb :
  balanced S ->
  (forall x, match killb x with
    | BRet _ _ d => Permutation (items S x) d
    | BPanic _ d k => Permutation (items S x) (d ++ k)
    | _ => True end) -> balancedb S (bombed_spec e S killb).
Proof.
  intros HB HK. split; cbn [bs0 bs1 bsn bs2 bsk bg0 bg1 bgn bombed_spec].
  - intros o. pose proof (bal0 S HB o) as P. destruct (spec0 S o); cbn; destruct (existsb _ _); auto.
  - intros o x HL. pose proof (bal1 S HB o x HL) as P. destruct (spec1 S o x); cbn; destruct (existsb _ _); auto.
  - intros o x HL. pose proof (baln S HB o x HL) as P. destruct (specn S o x); cbn; destruct (existsb _ _); auto.
  - intros o x HL. pose proof (bal2 S HB o x HL) as P. destruct (spec2 S o x); cbn; destruct (existsb _ _); auto.
  - exact HK.
Qed.

(** No call [o] on contents [x] with [D o x] is made. *)
Fixpoint spares {A op0 op1 opn op2 res st : Type} (B : bkit A op0 op1 opn op2 res st) (D : op1 -> st -> Prop)
    (p : list (cmd op0 op1 opn op2)) (s : list (option st)) : Prop :=
  match p with
  | [] => True
  | c :: p' =>
      match c with
      | Call i o => match s !! i with Some (Some x) => ~ D o x | _ => True end
      | _ => True
      end /\
      match bstep B c s with BFinished s' _ _ _ _ => spares B D p' s' | _ => True end
  end.
Lemma spares_known_weak {A op0 op1 opn op2 res st} (B : bkit A op0 op1 opn op2 res st) (D : op1 -> st -> Prop) :
  (forall o, bs0 B o <> BOpen) -> (forall o x, ~ D o x -> bs1 B o x <> BOpen) -> (forall o x, bsn B o x <> BOpen) ->
  (forall o x, bs2 B o x <> BOpen) -> (forall x, bsk B x <> BOpen) ->
  forall p s, spares B D p s -> brun B p s <> BUnknown.
Proof.
  intros H0 H1 Hn H2 HK. induction p as [|c p IH]; intros s HS; cbn [brun spares] in *; [discriminate|].
  destruct HS as [HS HS'].
  assert (Hc : bstep B c s <> BUnknown).
  { destruct c as [o|i o|i o|i j o|i]; cbn [bstep].
    - specialize (H0 o). destruct (bs0 B o); congruence.
    - destruct (s !! i) as [[x|]|]; try discriminate. specialize (H1 o x). destruct (bs1 B o x); try discriminate.
      destruct (H1 HS eq_refl).
    - destruct (s !! i) as [[x|]|]; try discriminate. specialize (Hn o x). destruct (bsn B o x); congruence.
    - destruct (i =? j); [discriminate|]. destruct (s !! i) as [[x|]|]; try discriminate.
      destruct (s !! j) as [[y|]|]; try discriminate. specialize (H2 o (x, y)).
      destruct (bs2 B o (x, y)) as [[? ?] ? ?|[? ?] ? ?| |]; congruence.
    - destruct (s !! i) as [[x|]|]; try discriminate. specialize (HK x). destruct (bsk B x); congruence. }
  destruct (bstep B c s) as [s' d k ev gv| |]; try congruence.
  specialize (IH s' HS'). destruct (brun B p s'); congruence.
Qed.
Lemma spares_known {A op0 op1 opn op2 res st} (B : bkit A op0 op1 opn op2 res st) (D : op1 -> st -> Prop) :
  (forall o, bs0 B o <> BOpen) -> (forall o x, bs1 B o x = BOpen -> D o x) -> (forall o x, bsn B o x <> BOpen) ->
  (forall o x, bs2 B o x <> BOpen) -> (forall x, bsk B x <> BOpen) ->
  forall p s, spares B D p s -> brun B p s <> BUnknown.
Proof. intros H0 H1 Hn H2 HK. apply spares_known_weak; auto. Qed.
(** Conversely, if every program that spares the calls in [D] is described then so is every single call. *)
Lemma known_calls {A op0 op1 opn op2 res st} (B : bkit A op0 op1 opn op2 res st) (D : op1 -> st -> Prop) :
  (forall p s, spares B D p s -> brun B p s <> BUnknown) ->
  (forall o, bs0 B o <> BOpen) /\ (forall o x, ~ D o x -> bs1 B o x <> BOpen) /\ (forall o x, bsn B o x <> BOpen) /\
  (forall o x, bs2 B o x <> BOpen) /\ (forall x, bsk B x <> BOpen).
Proof.
  intros H. split; [|split; [|split; [|split]]].
  - intros o E. apply (H [Make o] []); cbn; rewrite E; auto.
  - intros o x HD E. apply (H [Call 0 o] [Some x]); cbn; rewrite E; auto.
  - intros o x E. apply (H [Spawn 0 o] [Some x]); cbn; rewrite E; auto.
  - intros o [x y] E. apply (H [Call2 0 1 o] [Some x; Some y]); cbn; rewrite E; auto.
  - intros x E. apply (H [Kill 0] [Some x]); cbn; rewrite E; auto.
Qed.
Lemma with_bombs_open {A S R} (e : env A) (x : sres A S R) :
  with_bombs e x = BOpen <-> match x with SRet _ _ d => List.existsb (bomb e) d = true | _ => False end.
Proof.
  destruct x as [s r d|s d k]; cbn [with_bombs]; destruct (existsb _ d); split; auto; try discriminate; try contradiction.
Qed.

(** ** What a whole program does. *)
Theorem bomb_program {A op0 op1 opn op2 res obj st : Type}
    (K : kit A op0 op1 opn op2 res obj) (S : skit A op0 op1 opn op2 res st)
    (B : bkit A op0 op1 opn op2 res st) (H : obj -> st -> Prop) :
  refinesb K S B H -> balancedb S B ->
  forall p, ball_legal S B p [] ->
  match brun B p [] with
  | BFinished Y d k evs gv => exists X g, runx K p [] log0 = Finished X g evs /\
      Forall2 (orel H) X Y /\ dropped g = d /\ Permutation (leaked g) k /\
      Permutation gv (live S Y ++ returned S evs ++ dropped g ++ leaked g)
  | BAborted => runx K p [] log0 = Aborted
  | BUnknown => True
  end.
Proof.
  intros HR HB p HL. pose proof (brun_sim _ _ _ _ HR p [] [] log0 (Forall2_nil _) HL) as P.
  pose proof (brun_balanced S B HB p [] HL) as Q.
  destruct (brun B p []) as [Y d k evs gv| |]; auto.
  destruct P as (X & g & k' & E & HX & D & L & Pk). exists X, g. cbn in D, L.
  split; [exact E|]. split; [exact HX|]. split; [exact D|]. rewrite L, D. split; [symmetry; exact Pk|].
  rewrite <- Pk. exact Q.
Qed.
