(** * Programs over any number of containers.

    A program is a finite list of commands.  Containers are named by their position in the store.  Every
    panic is caught and the program carries on with the objects as the panic left them.  The same program
    is run on the model of the code ([run]) and on the specification ([srun]). *)
From Verif Require Import Machine Spec Prims.

(** The operations of one kind of container, as the code implements them.
    [op0]: constructors.  [op1]: methods.  [opn]: methods that also return a new container.
    [op2]: methods on two different containers.  [kill]: the container goes out of scope. *)
Record kit (A op0 op1 opn op2 res obj : Type) := Kit {
  run0 : op0 -> M A unit obj;
  run1 : op1 -> M A obj res;
  runn : opn -> M A obj obj;
  run2 : op2 -> M A (obj * obj) res;
  kill : M A obj unit }.
Arguments Kit {_ _ _ _ _ _ _}.
Arguments run0 {_ _ _ _ _ _ _}. Arguments run1 {_ _ _ _ _ _ _}. Arguments runn {_ _ _ _ _ _ _}.
Arguments run2 {_ _ _ _ _ _ _}. Arguments kill {_ _ _ _ _ _ _}.

(** The same operations as specified, on abstract contents [st].  [legal*]: restrictions on the
    arguments.  [given*]: the values handed over to the container by the call.  [items]: the values in a
    container, [outs]: the values handed back in a result. *)
Record skit (A op0 op1 opn op2 res st : Type) := SKit {
  spec0 : op0 -> sres A unit st;
  spec1 : op1 -> st -> sres A st res;
  specn : opn -> st -> sres A st st;
  spec2 : op2 -> st * st -> sres A (st * st) res;
  legal1 : op1 -> st -> Prop;
  legaln : opn -> st -> Prop;
  legal2 : op2 -> st * st -> Prop;
  given0 : op0 -> list A;
  given1 : op1 -> st -> list A;
  givenn : opn -> st -> list A;
  items : st -> list A;
  outs : res -> list A }.
Arguments SKit {_ _ _ _ _ _ _}.
Arguments spec0 {_ _ _ _ _ _ _}. Arguments spec1 {_ _ _ _ _ _ _}. Arguments specn {_ _ _ _ _ _ _}.
Arguments spec2 {_ _ _ _ _ _ _}. Arguments legal1 {_ _ _ _ _ _ _}. Arguments legaln {_ _ _ _ _ _ _}.
Arguments legal2 {_ _ _ _ _ _ _}. Arguments given0 {_ _ _ _ _ _ _}. Arguments given1 {_ _ _ _ _ _ _}.
Arguments givenn {_ _ _ _ _ _ _}. Arguments items {_ _ _ _ _ _ _}. Arguments outs {_ _ _ _ _ _ _}.

Inductive cmd (op0 op1 opn op2 : Type) :=
  | Make (o : op0)                  (* the new container gets the next name *)
  | Call (i : nat) (o : op1)
  | Spawn (i : nat) (o : opn)       (* the container returned gets the next name *)
  | Call2 (i j : nat) (o : op2)
  | Kill (i : nat).
Arguments Make {_ _ _ _}. Arguments Call {_ _ _ _}. Arguments Spawn {_ _ _ _}.
Arguments Call2 {_ _ _ _}. Arguments Kill {_ _ _ _}.

(** What the program observes at each command.  [Skip]: the command names a container that does not
    exist (any more), or the same container twice; Rust rejects such programs. *)
Inductive event (res : Type) := Returned (r : res) | Done | Panicked | Skip.
Arguments Returned {_}. Arguments Done {_}. Arguments Panicked {_}. Arguments Skip {_}.

Section concrete.
Context {A op0 op1 opn op2 res obj : Type} (K : kit A op0 op1 opn op2 res obj).
Notation store := (list (option obj)).

(** [None]: undefined behaviour, non-termination or abort. *)
Definition step (c : cmd op0 op1 opn op2) (s : store) (g : log A) : option (store * log A * event res) :=
  match c with
  | Make o =>
      match run0 K o tt g with
      | Ret _ g' x => Some (s ++ [Some x], g', Done)
      | Panic _ g' => Some (s ++ [None], g', Panicked)
      | _ => None
      end
  | Call i o =>
      match s !! i with
      | Some (Some x) =>
          match run1 K o x g with
          | Ret x' g' r => Some (<[i := Some x']> s, g', Returned r)
          | Panic x' g' => Some (<[i := Some x']> s, g', Panicked)
          | _ => None
          end
      | _ => Some (s, g, Skip)
      end
  | Spawn i o =>
      match s !! i with
      | Some (Some x) =>
          match runn K o x g with
          | Ret x' g' y => Some (<[i := Some x']> s ++ [Some y], g', Done)
          | Panic x' g' => Some (<[i := Some x']> s ++ [None], g', Panicked)
          | _ => None
          end
      | _ => Some (s ++ [None], g, Skip)
      end
  | Call2 i j o =>
      if i =? j then Some (s, g, Skip) else
      match s !! i, s !! j with
      | Some (Some x), Some (Some y) =>
          match run2 K o (x, y) g with
          | Ret (x', y') g' r => Some (<[j := Some y']> (<[i := Some x']> s), g', Returned r)
          | Panic (x', y') g' => Some (<[j := Some y']> (<[i := Some x']> s), g', Panicked)
          | _ => None
          end
      | _, _ => Some (s, g, Skip)
      end
  | Kill i =>
      match s !! i with
      | Some (Some x) =>
          match kill K x g with
          | Ret _ g' _ => Some (<[i := None]> s, g', Done)
          | Panic _ g' => Some (<[i := None]> s, g', Panicked)
          | _ => None
          end
      | _ => Some (s, g, Skip)
      end
  end.
Fixpoint run (p : list (cmd op0 op1 opn op2)) (s : store) (g : log A)
  : option (store * log A * list (event res)) :=
  match p with
  | [] => Some (s, g, [])
  | c :: p' =>
      match step c s g with
      | None => None
      | Some (s', g', ev) =>
          match run p' s' g' with
          | None => None
          | Some (s'', g'', evs) => Some (s'', g'', ev :: evs)
          end
      end
  end.
End concrete.

Section abstract.
Context {A op0 op1 opn op2 res st : Type} (S : skit A op0 op1 opn op2 res st).
Notation store := (list (option st)).

(** New store, values dropped (in order), values leaked, event. *)
Definition sstep (c : cmd op0 op1 opn op2) (s : store) : store * list A * list A * event res :=
  match c with
  | Make o =>
      match spec0 S o with
      | SRet _ x d => (s ++ [Some x], d, [], Done)
      | SPanic _ d k => (s ++ [None], d, k, Panicked)
      end
  | Call i o =>
      match s !! i with
      | Some (Some x) =>
          match spec1 S o x with
          | SRet x' r d => (<[i := Some x']> s, d, [], Returned r)
          | SPanic x' d k => (<[i := Some x']> s, d, k, Panicked)
          end
      | _ => (s, [], [], Skip)
      end
  | Spawn i o =>
      match s !! i with
      | Some (Some x) =>
          match specn S o x with
          | SRet x' y d => (<[i := Some x']> s ++ [Some y], d, [], Done)
          | SPanic x' d k => (<[i := Some x']> s ++ [None], d, k, Panicked)
          end
      | _ => (s ++ [None], [], [], Skip)
      end
  | Call2 i j o =>
      if i =? j then (s, [], [], Skip) else
      match s !! i, s !! j with
      | Some (Some x), Some (Some y) =>
          match spec2 S o (x, y) with
          | SRet (x', y') r d => (<[j := Some y']> (<[i := Some x']> s), d, [], Returned r)
          | SPanic (x', y') d k => (<[j := Some y']> (<[i := Some x']> s), d, k, Panicked)
          end
      | _, _ => (s, [], [], Skip)
      end
  | Kill i =>
      match s !! i with
      | Some (Some x) => (<[i := None]> s, items S x, [], Done)
      | _ => (s, [], [], Skip)
      end
  end.
(** Restrictions on the command in this state. *)
Definition legal (c : cmd op0 op1 opn op2) (s : store) : Prop :=
  match c with
  | Call i o => match s !! i with Some (Some x) => legal1 S o x | _ => True end
  | Spawn i o => match s !! i with Some (Some x) => legaln S o x | _ => True end
  | Call2 i j o =>
      match s !! i, s !! j with Some (Some x), Some (Some y) => legal2 S o (x, y) | _, _ => True end
  | _ => True
  end.
(** Values the command hands over. *)
Definition given (c : cmd op0 op1 opn op2) (s : store) : list A :=
  match c with
  | Make o => given0 S o
  | Call i o => match s !! i with Some (Some x) => given1 S o x | _ => [] end
  | Spawn i o => match s !! i with Some (Some x) => givenn S o x | _ => [] end
  | _ => []
  end.

Record sout := SOut { s_store : store; s_dropped : list A; s_leaked : list A;
                      s_events : list (event res); s_given : list A }.
Fixpoint srun (p : list (cmd op0 op1 opn op2)) (s : store) : sout :=
  match p with
  | [] => SOut s [] [] [] []
  | c :: p' =>
      let '(s', d, k, ev) := sstep c s in
      let o := srun p' s' in
      SOut (s_store o) (d ++ s_dropped o) (k ++ s_leaked o) (ev :: s_events o)
           (given c s ++ s_given o)
  end.
Fixpoint all_legal (p : list (cmd op0 op1 opn op2)) (s : store) : Prop :=
  match p with
  | [] => True
  | c :: p' => legal c s /\ let '(s', _, _, _) := sstep c s in all_legal p' s'
  end.
(** Values in all live containers, and values handed back by a sequence of events. *)
Definition live (s : store) : list A := flat_map (fun x => match x with Some x => items S x | None => [] end) s.
Definition returned (evs : list (event res)) : list A :=
  flat_map (fun ev => match ev with Returned r => outs S r | _ => [] end) evs.
End abstract.

(** ** The code refines the specification, if every operation does. *)
Section simulation.
Context {A op0 op1 opn op2 res obj st : Type}.
Context (K : kit A op0 op1 opn op2 res obj) (S : skit A op0 op1 opn op2 res st).
Context (H : obj -> st -> Prop).

Record refines : Prop := {
  ref0 : forall o g, agrees (fun _ _ => True) H g (run0 K o tt g) (spec0 S o);
  ref1 : forall o x s g, H x s -> legal1 S o s -> agrees H eq g (run1 K o x g) (spec1 S o s);
  refn : forall o x s g, H x s -> legaln S o s -> agrees H H g (runn K o x g) (specn S o s);
  ref2 : forall o x s g, both H H x s -> legal2 S o s -> agrees (both H H) eq g (run2 K o x g) (spec2 S o s);
  refk : forall x s g, H x s -> agrees (fun _ _ => True) eq g (kill K x g) (SRet tt tt (items S s)) }.

Definition orel (x : option obj) (s : option st) : Prop :=
  match x, s with Some x, Some s => H x s | None, None => True | _, _ => False end.
Definition srel := Forall2 orel.

Lemma srel_lookup X Y i : srel X Y ->
  match X !! i, Y !! i with
  | Some (Some x), Some (Some y) => H x y
  | Some None, Some None => True
  | None, None => True
  | _, _ => False
  end.
Proof.
  intros HR. revert i. induction HR as [|[x|] [y|] X Y Hxy HR IH]; intros [|i]; cbn; auto.
  all: apply IH.
Qed.
Lemma srel_insert X Y i x y : srel X Y -> orel x y -> srel (<[i := x]> X) (<[i := y]> Y).
Proof. intros. apply Forall2_insert; assumption. Qed.
Lemma srel_snoc X Y x y : srel X Y -> orel x y -> srel (X ++ [x]) (Y ++ [y]).
Proof. intros. apply Forall2_app; [assumption|]. repeat constructor; assumption. Qed.

Lemma step_sim (R : refines) c X Y g : srel X Y -> legal S c Y ->
  let '(Y', d, k, ev) := sstep S c Y in
  exists X' g' k', step K c X g = Some (X', g', ev) /\ srel X' Y' /\
    dropped g' = dropped g ++ d /\ leaked g' = leaked g ++ k' /\ Permutation k k'.
Proof.
  intros HR HL. destruct c as [o|i o|i o|i j o|i]; cbn [sstep step legal] in *.
  - pose proof (ref0 R o g) as P. destruct (spec0 S o) as [u y d|u d k].
    + destruct P as (u' & g' & x & E & _ & Hx & D & L). rewrite E.
      exists (X ++ [Some x]), g', []. rewrite app_nil_r. repeat split; auto. apply srel_snoc; auto.
    + destruct P as (u' & g' & k' & E & _ & D & L & Pk). rewrite E.
      exists (X ++ [None]), g', k'. repeat split; auto. apply srel_snoc; [auto|exact I].
  - pose proof (srel_lookup X Y i HR) as Hi.
    destruct (X !! i) as [[x|]|], (Y !! i) as [[y|]|]; try contradiction;
      try (exists X, g, []; rewrite !app_nil_r; auto; fail).
    pose proof (ref1 R o x y g Hi HL) as P. destruct (spec1 S o y) as [y' r d|y' d k].
    + destruct P as (x' & g' & r' & E & Hx & -> & D & L). rewrite E.
      exists (<[i:=Some x']> X), g', []. rewrite app_nil_r. repeat split; auto. apply srel_insert; auto.
    + destruct P as (x' & g' & k' & E & Hx & D & L & Pk). rewrite E.
      exists (<[i:=Some x']> X), g', k'. repeat split; auto. apply srel_insert; auto.
  - pose proof (srel_lookup X Y i HR) as Hi.
    destruct (X !! i) as [[x|]|], (Y !! i) as [[y|]|]; try contradiction;
      try (exists (X ++ [None]), g, []; rewrite !app_nil_r; repeat split; auto; apply srel_snoc; [auto|exact I]; fail).
    pose proof (refn R o x y g Hi HL) as P. destruct (specn S o y) as [y' r d|y' d k].
    + destruct P as (x' & g' & r' & E & Hx & Hr & D & L). rewrite E.
      exists (<[i:=Some x']> X ++ [Some r']), g', []. rewrite app_nil_r.
      repeat split; auto. apply srel_snoc; [apply srel_insert|]; auto.
    + destruct P as (x' & g' & k' & E & Hx & D & L & Pk). rewrite E.
      exists (<[i:=Some x']> X ++ [None]), g', k'. repeat split; auto.
      apply srel_snoc; [apply srel_insert; auto | exact I].
  - destruct (i =? j); [exists X, g, []; rewrite !app_nil_r; auto|].
    pose proof (srel_lookup X Y i HR) as Hi. pose proof (srel_lookup X Y j HR) as Hj.
    destruct (X !! i) as [[x|]|], (Y !! i) as [[y|]|]; try contradiction;
      try (exists X, g, []; rewrite !app_nil_r; auto; fail).
    destruct (X !! j) as [[x2|]|], (Y !! j) as [[y2|]|]; try contradiction;
      try (exists X, g, []; rewrite !app_nil_r; auto; fail).
    pose proof (ref2 R o (x, x2) (y, y2) g (conj Hi Hj) HL) as P.
    destruct (spec2 S o (y, y2)) as [[y' y2'] r d|[y' y2'] d k].
    + destruct P as ([x' x2'] & g' & r' & E & [Hx Hx2] & -> & D & L). rewrite E. cbn in Hx, Hx2.
      exists (<[j:=Some x2']> (<[i:=Some x']> X)), g', []. rewrite app_nil_r.
      repeat split; auto. apply srel_insert; [apply srel_insert|]; auto.
    + destruct P as ([x' x2'] & g' & k' & E & [Hx Hx2] & D & L & Pk). rewrite E. cbn in Hx, Hx2.
      exists (<[j:=Some x2']> (<[i:=Some x']> X)), g', k'.
      repeat split; auto. apply srel_insert; [apply srel_insert|]; auto.
  - pose proof (srel_lookup X Y i HR) as Hi.
    destruct (X !! i) as [[x|]|], (Y !! i) as [[y|]|]; try contradiction;
      try (exists X, g, []; rewrite !app_nil_r; auto; fail).
    destruct (refk R x y g Hi) as (x' & g' & r' & E & _ & _ & D & L). rewrite E.
    exists (<[i:=None]> X), g', []. rewrite app_nil_r. repeat split; auto. apply srel_insert; [auto|exact I].
Qed.

Theorem run_sim (R : refines) p : forall X Y g, srel X Y -> all_legal S p Y ->
  exists X' g' k', run K p X g = Some (X', g', s_events (srun S p Y)) /\
    srel X' (s_store (srun S p Y)) /\
    dropped g' = dropped g ++ s_dropped (srun S p Y) /\
    leaked g' = leaked g ++ k' /\ Permutation (s_leaked (srun S p Y)) k'.
Proof.
  induction p as [|c p IH]; intros X Y g HR HL; cbn [run srun all_legal] in *.
  - exists X, g, []. cbn. rewrite !app_nil_r. auto.
  - destruct HL as [HL1 HL2]. pose proof (step_sim R c X Y g HR HL1) as P.
    destruct (sstep S c Y) as [[[Y' d] k] ev].
    destruct P as (X' & g' & k' & E & HR' & D & L & Pk). rewrite E.
    destruct (IH X' Y' g' HR' HL2) as (X2 & g2 & k2 & E2 & HR2 & D2 & L2 & Pk2). rewrite E2.
    exists X2, g2, (k' ++ k2). cbn. rewrite D2, L2, D, L, !app_assoc. repeat split; auto.
    apply Permutation_app; assumption.
Qed.
End simulation.

(** ** Conservation of values in the specification, if every operation conserves them. *)
Section conservation.
Context {A op0 op1 opn op2 res st : Type} (S : skit A op0 op1 opn op2 res st).

Record balanced : Prop := {
  bal0 : forall o, match spec0 S o with
    | SRet _ x d => Permutation (given0 S o) (items S x ++ d)
    | SPanic _ d k => Permutation (given0 S o) (d ++ k) end;
  bal1 : forall o x, legal1 S o x -> match spec1 S o x with
    | SRet x' r d => Permutation (items S x ++ given1 S o x) (items S x' ++ outs S r ++ d)
    | SPanic x' d k => Permutation (items S x ++ given1 S o x) (items S x' ++ d ++ k) end;
  baln : forall o x, legaln S o x -> match specn S o x with
    | SRet x' y d => Permutation (items S x ++ givenn S o x) (items S x' ++ items S y ++ d)
    | SPanic x' d k => Permutation (items S x ++ givenn S o x) (items S x' ++ d ++ k) end;
  bal2 : forall o x, legal2 S o x -> match spec2 S o x with
    | SRet x' r d => Permutation (items S x.1 ++ items S x.2) (items S x'.1 ++ items S x'.2 ++ outs S r ++ d)
    | SPanic x' d k => Permutation (items S x.1 ++ items S x.2) (items S x'.1 ++ items S x'.2 ++ d ++ k) end }.

Lemma live_app s1 s2 : live S (s1 ++ s2) = live S s1 ++ live S s2.
Proof. apply flat_map_app. Qed.
Lemma live_lookup (s : list (option st)) i (x : st) : s !! i = Some (Some x) ->
  exists s1 s2, s = s1 ++ Some x :: s2 /\ (forall y, <[i := y]> s = s1 ++ y :: s2) /\ length s1 = i.
Proof.
  intros Hi. exists (take i s), (drop (Datatypes.S i) s).
  assert (Hl : length (take i s) = i).
  { rewrite take_length. apply lookup_lt_Some in Hi. lia. }
  split; [symmetry; apply take_drop_middle; exact Hi|]. split; [|exact Hl].
  intros y. rewrite <- (take_drop_middle s i (Some x) Hi) at 1.
  rewrite insert_app_r_alt by lia. rewrite Hl, Nat.sub_diag. reflexivity.
Qed.
Definition oitems (x : option st) : list A := match x with Some x => items S x | None => [] end.
Lemma live_insert (s : list (option st)) i (x : st) y : s !! i = Some (Some x) ->
  Permutation (live S (<[i := y]> s) ++ items S x) (live S s ++ oitems y).
Proof.
  intros Hi. destruct (live_lookup s i x Hi) as (s1 & s2 & E1 & E2 & _).
  rewrite E2. rewrite E1 at 1. rewrite !live_app.
  change (live S (y :: s2)) with (oitems y ++ live S s2).
  change (live S (Some x :: s2)) with (items S x ++ live S s2).
  perm.
Qed.

Lemma step_balanced (B : balanced) c s : legal S c s ->
  let '(s', d, k, ev) := sstep S c s in
  Permutation (live S s ++ given S c s) (live S s' ++ returned S [ev] ++ d ++ k).
Proof.
  intros HL. destruct c as [o|i o|i o|i j o|i]; cbn [sstep given legal] in *.
  - pose proof (bal0 B o) as P. destruct (spec0 S o) as [u y d|u d k]; rewrite live_app; cbn; perm_use P.
  - destruct (s !! i) as [[x|]|] eqn:Hi; try (cbn; perm; fail).
    pose proof (bal1 B o x HL) as P. destruct (spec1 S o x) as [x' r d|x' d k];
      pose proof (live_insert s i x (Some x') Hi) as P2; cbn in *; perm_use P; perm_use (Permutation_sym P2).
  - destruct (s !! i) as [[x|]|] eqn:Hi; try (rewrite live_app; cbn; perm; fail).
    pose proof (baln B o x HL) as P. destruct (specn S o x) as [x' r d|x' d k];
      pose proof (live_insert s i x (Some x') Hi) as P2; rewrite live_app; cbn in *; perm_use P; perm_use (Permutation_sym P2).
  - destruct (i =? j) eqn:Eij; [cbn; perm|].
    destruct (s !! i) as [[x|]|] eqn:Hi; try (cbn; perm; fail).
    destruct (s !! j) as [[y|]|] eqn:Hj; try (cbn; perm; fail).
    pose proof (bal2 B o (x, y) HL) as P. cbn [fst snd] in P.
    assert (Hj' : forall z, <[i := z]> s !! j = Some (Some y)).
    { intros z. rewrite list_lookup_insert_ne by lia. exact Hj. }
    destruct (spec2 S o (x, y)) as [[x' y'] r d|[x' y'] d k];
      pose proof (live_insert s i x (Some x') Hi) as P2;
      pose proof (live_insert _ j y (Some y') (Hj' (Some x'))) as P3; cbn in *;
      perm_use P; perm_use (Permutation_sym P2); perm_use (Permutation_sym P3).
  - destruct (s !! i) as [[x|]|] eqn:Hi; try (cbn; perm; fail).
    pose proof (live_insert s i x None Hi) as P2. cbn in *. perm_use (Permutation_sym P2).
Qed.

(** Every value handed over is in a live container, has been handed back, dropped or leaked - once. *)
Theorem srun_balanced (B : balanced) p : forall s, all_legal S p s ->
  let o := srun S p s in
  Permutation (live S s ++ s_given o)
              (live S (s_store o) ++ returned S (s_events o) ++ s_dropped o ++ s_leaked o).
Proof.
  induction p as [|c p IH]; intros s HL; cbn [srun all_legal] in *.
  - cbn. perm.
  - destruct HL as [HL1 HL2]. pose proof (step_balanced B c s HL1) as P.
    destruct (sstep S c s) as [[[s' d] k] ev]. specialize (IH s' HL2). cbn zeta in *.
    destruct (srun S p s') as [s2 d2 k2 ev2 gv2]. cbn [s_store s_dropped s_leaked s_events s_given] in *.
    change (returned S (ev :: ev2)) with (returned S ([ev] ++ ev2)).
    assert (returned S ([ev] ++ ev2) = returned S [ev] ++ returned S ev2) as -> by apply flat_map_app.
    perm_use P. perm_use IH.
Qed.
End conservation.

(** ** Programs that cannot leak, if none of their commands can. *)
Section tightness.
Context {A op0 op1 opn op2 res st : Type} (S : skit A op0 op1 opn op2 res st).
Definition tight (c : cmd op0 op1 opn op2) : Prop :=
  forall s, legal S c s -> let '(_, _, k, _) := sstep S c s in k = [].
Lemma srun_tight p : Forall tight p -> forall s, all_legal S p s -> s_leaked (srun S p s) = [].
Proof.
  induction 1 as [|c p Hc Hp IH]; intros s HL; cbn [srun all_legal] in *; [reflexivity|].
  destruct HL as [HL1 HL2]. specialize (Hc s HL1).
  destruct (sstep S c s) as [[[s' d] k] ev]. cbn. subst k. apply IH. exact HL2.
Qed.
End tightness.

(** ** Changing the type of results and hiding a private object. *)
Definition mapR {A O R T} (f : R -> T) (m : M A O R) : M A O T := let! r := m in ret (f r).
Definition smapR {A S R T} (f : R -> T) (s : sres A S R) : sres A S T :=
  match s with SRet s r d => SRet s (f r) d | SPanic s d k => SPanic s d k end.
Lemma mapR_agrees {A O S R R' T T'} (H : O -> S -> Prop) (RR : R -> R' -> Prop) (TT : T -> T' -> Prop)
    (f : R -> T) (f' : R' -> T') (g0 : log A) (m : M A O R) o g s :
  (forall r r', RR r r' -> TT (f r) (f' r')) ->
  agrees H RR g0 (m o g) s -> agrees H TT g0 (mapR f m o g) (smapR f' s).
Proof.
  intros Hf. unfold mapR. destruct s as [s r d|s d k]; cbn.
  - intros (o' & g' & r0 & E & Ho & Hr & D & L). exists o', g', (f r0).
    unfold bind. rewrite E. repeat split; auto.
  - intros (o' & g' & k' & E & Ho & D & L & P). exists o', g', k'.
    unfold bind. rewrite E. repeat split; auto.
Qed.
Lemma mapR_agrees_eq {A O S R T} (H : O -> S -> Prop) (f : R -> T) (g0 : log A) (m : M A O R) o g s :
  agrees H eq g0 (m o g) s -> agrees H eq g0 (mapR f m o g) (smapR f s).
Proof. apply mapR_agrees. intros r r' ->. reflexivity. Qed.

(** [m] runs on an object [o] that nobody else sees (e.g. the caller's iterator). *)
Definition sealed {A O R} (o : O) (m : M A O R) : M A unit R := fun _ g =>
  match m o g with
  | Ret _ g' r => Ret tt g' r
  | Panic _ g' => Panic tt g'
  | UB u => UB u
  | Hang => Hang
  | Abort => Abort
  end.
Definition ssealed {A S R} (s : sres A S R) : sres A unit R :=
  match s with SRet _ r d => SRet tt r d | SPanic _ d k => SPanic tt d k end.
Lemma sealed_agrees {A O S R R'} (H : O -> S -> Prop) (RR : R -> R' -> Prop) (g0 : log A)
    (m : M A O R) o g s :
  agrees H RR g0 (m o g) s -> agrees (fun _ _ => True) RR g0 (sealed o m tt g) (ssealed s).
Proof.
  unfold sealed. destruct s as [s r d|s d k]; cbn.
  - intros (o' & g' & r0 & E & Ho & Hr & D & L). exists tt, g', r0. rewrite E. repeat split; auto.
  - intros (o' & g' & k' & E & Ho & D & L & P). exists tt, g', k'. rewrite E. repeat split; auto.
Qed.

(** Results of calls on sequences.  [RVal]/[ROpt]: an element moved out.  [RRef]/[RRefs]: borrowed. *)
Inductive res (A : Type) :=
  | RUnit | RNat (n : nat) | RBool (b : bool) | RVal (a : A) | ROpt (a : option A)
  | RRef (a : A) | RORef (a : option A) | RRefs (l : list A) | ROCmp (c : option comparison).
Arguments RUnit {A}. Arguments RNat {A}. Arguments RBool {A}. Arguments RVal {A}. Arguments ROpt {A}.
Arguments RRef {A}. Arguments RORef {A}. Arguments RRefs {A}. Arguments ROCmp {A}.
Definition moved_out {A} (r : res A) : list A :=
  match r with RVal a => [a] | ROpt (Some a) => [a] | _ => [] end.
Definition unit_res {A} (_ : unit) : res A := RUnit.
