(** * The standard methods of iterators (C84). *)
From Verif Require Import Machine Spec Program ProgramEnd InlineModel InlineSpec IterSpec ChunkProgram RingProgram SparseProgram
  InlineProgram MixModel MixSpec MixProofs MixProgram MixBalance Bombs BombProgram MixBombSpec MixBombs TempModel TempSpec TempMix
  OwnModel OwnSpec OwnProofs OwnMix WalkModel WalkSpec WalkProofs WalkMix.
From Verif Require PropertiesMix PropertiesMixBomb.

Notation prog e A := (list (cmd (mop0 e) (mop1 A + walk_op A) (own_op e) (passed (mop2 A)))).

(** C84.  The programs of C83, which may also call [nth(n)], [find], [position], [any], [all], [count],
    [by_ref().take(n).collect()] and [collect()] into a [Vec] on the draining iterator of any container, from the front or, with
    [rev()], from the back.  The elements are taken in order; [find] returns the first that the predicate accepts, [position] says
    where it is, and so on; the elements that were passed over have been dropped, in order; those after it are still in the
    container.  The predicates may do anything, and may panic: then the element they were looking at is dropped as well. *)
Theorem C84_iterator_methods :
  forall (A : Type) (e : env A) (p : prog e A),
  calm e -> all_legal (walk_spec e) p [] ->
  let s := srun (walk_spec e) p [] in
  exists X g, run (walk_kit e) p [] log0 = Some (X, g, s_events s) /\
    Forall2 (orel (MHolds e)) X (s_store s) /\ dropped g = s_dropped s /\ Permutation (leaked g) (s_leaked s).
Proof.
  intros A e p Hc HL. destruct (run_sim _ _ _ (walk_refines e Hc) p [] [] log0 (Forall2_nil _) HL) as (X & g & k & E & H & D & L & P).
  exists X, g. split; [exact E|]. split; [exact H|]. split; [exact D|]. rewrite L. symmetry. exact P.
Qed.
Print Assumptions C84_iterator_methods.
(** When all containers have gone out of scope, every element was handed back or dropped, exactly once. *)
Theorem C84_scope_end :
  forall (A : Type) (e : env A) (p : prog e A),
  calm e -> all_legal (walk_spec e) p [] -> Forall (wtruthful e) p ->
  exists X g evs, run (walk_kit e) (to_the_end p) [] log0 = Some (X, g, evs) /\ Forall (eq None) X /\ leaked g = [] /\
    Permutation (s_given (srun (walk_spec e) p [])) (returned (walk_spec e) evs ++ dropped g).
Proof.
  intros A e p Hc HL HT.
  destruct (run_to_the_end _ _ (MHolds e) p (walk_refines e Hc) (walk_balanced e) HL) as (X & g & evs & E & HX & P & PL).
  assert (leaked g = []) as EL.
  { rewrite (srun_tight _ p) in PL; [|eapply List.Forall_impl; [apply wtruthful_tight|exact HT]|exact HL].
    apply Permutation_nil. symmetry. exact PL. }
  exists X, g, evs. rewrite EL, app_nil_r in P. auto.
Qed.
Print Assumptions C84_scope_end.
(** The same when dropping any of the values may panic.  If the destructor of an element that is passed over panics, the call
    panics; that element and those before it have been dropped, the others are still in the container.  If a predicate panics and
    then the destructor of the element it was looking at, the process aborts. *)
Theorem C84_iterator_methods_panicking_destructors :
  forall (A : Type) (e : env A) (p : prog e A),
  ball_legal (walk_spec e) (walk_bspec e) p [] -> spares (walk_bspec e) (walk_discards e) p [] ->
  match brun (walk_bspec e) p [] with
  | BFinished Y d k evs gv => exists X g, runx (walk_kit e) p [] log0 = Finished X g evs /\
      Forall2 (orel (MHolds e)) X Y /\ dropped g = d /\ Permutation (leaked g) k /\
      Permutation gv (live (walk_spec e) Y ++ returned (walk_spec e) evs ++ dropped g ++ leaked g)
  | BAborted => runx (walk_kit e) p [] log0 = Aborted
  | BUnknown => False
  end.
Proof.
  intros A e p HL HS. pose proof (bomb_program _ _ _ _ (walk_refinesb e) (walk_balancedb e) p HL) as P.
  pose proof (walk_known e p [] HS) as Q. destruct (brun _ p []); auto.
Qed.
Print Assumptions C84_iterator_methods_panicking_destructors.

(** What each of these calls does, by itself, to a container which holds [s]; [l]: its elements, in the order of the iterator;
    [taken y' n]: the container [y'] has lost the first [n] of them, and has the others. *)
Section one_call.
Context {A : Type} (e : env A) (Hc : calm e) (y : mobj e) (s : mst e) (g : log A) (sd : side).
Hypothesis Hy : MHolds e y s.
Hypothesis Hs : iterates e sd s.
Notation l := (queue e sd s).
Notation taken y' n := (MHolds e y' (after e sd n s)).
Notation only g' d := (dropped g' = dropped g ++ d /\ leaked g' = leaked g).
(** The rejected elements. *)
Definition rejects (p : nat -> A -> option bool) (m : list A) : Prop := forall i a, m !! i = Some a -> p i a = Some false.
Lemma calm_walk o : walk_side o = sd -> agrees (MHolds e) eq g (run_walk e o y g) (spec_walk e o s).
Proof. intros E. apply walk_agrees; [exact Hc|exact Hy|]. unfold legal_walk. rewrite E. exact Hs. Qed.
Theorem C84_find : forall (p : nat -> A -> option bool),
  (rejects p l /\ exists y' g', run_walk e (WFind sd p) y g = Ret y' g' (WItem None) /\ taken y' (length l) /\ only g' l) \/
  (exists k a, l !! k = Some a /\ rejects p (take k l) /\ exists y' g', taken y' (S k) /\
    match p k a with
    | Some true => run_walk e (WFind sd p) y g = Ret y' g' (WItem (Some a)) /\ only g' (take k l)
    | None => run_walk e (WFind sd p) y g = Panic y' g' /\ only g' (take (S k) l)
    | Some false => False
    end).
Proof.
  intros p. pose proof (calm_walk (WFind sd p) eq_refl) as P. unfold spec_walk in P. cbv zeta in P. cbn [walk walk_side] in P.
  unfold walk_find in P. destruct (first_at _ l) as [[k a]|] eqn:Ef.
  - right. exists k, a. destruct (first_at_some _ _ _ _ Ef) as (El & Eq & Hk & Et). split; [exact El|]. split.
    { intros i x Hi. pose proof (first_rejects_before _ _ _ _ _ Ef i x) as R. cbn in R. pose proof (lookup_lt_Some _ _ _ Hi) as Hl.
      rewrite take_length in Hl. rewrite lookup_take in Hi by lia. specialize (R ltac:(lia) Hi). destruct (p i x) as [[]|]; congruence. }
    destruct (p k a) as [[]|] eqn:Ep; [| |]; cbn in P.
    + destruct P as (y' & g' & v & E & H & -> & D & L). exists y', g'. auto.
    + cbn in Eq. try rewrite Ep in Eq. discriminate.
    + destruct P as (y' & g' & k' & E & H & D & L & P). apply Permutation_nil in P. subst k'. rewrite app_nil_r in L. exists y', g'. auto.
  - left. split.
    { intros i x Hi. pose proof (first_rejects _ _ _ Ef i x Hi) as R. cbn in R. destruct (p i x) as [[]|]; congruence. }
    destruct P as (y' & g' & v & E & H & -> & D & L). exists y', g'. auto.
Qed.
Theorem C84_position : forall (p : nat -> A -> option bool),
  (rejects p l /\ exists y' g', run_walk e (WPosition sd p) y g = Ret y' g' (WIndex None) /\ taken y' (length l) /\ only g' l) \/
  (exists k a, l !! k = Some a /\ rejects p (take k l) /\ exists y' g', taken y' (S k) /\ only g' (take (S k) l) /\
    match p k a with
    | Some true => run_walk e (WPosition sd p) y g = Ret y' g' (WIndex (Some k))
    | None => run_walk e (WPosition sd p) y g = Panic y' g'
    | Some false => False
    end).
Proof.
  intros p. pose proof (calm_walk (WPosition sd p) eq_refl) as P. unfold spec_walk in P. cbv zeta in P. cbn [walk walk_side] in P.
  unfold walk_test in P. destruct (first_at _ l) as [[k a]|] eqn:Ef.
  - right. exists k, a. destruct (first_at_some _ _ _ _ Ef) as (El & Eq & Hk & Et). split; [exact El|]. split.
    { intros i x Hi. pose proof (first_rejects_before _ _ _ _ _ Ef i x) as R. cbn in R. pose proof (lookup_lt_Some _ _ _ Hi) as Hl.
      rewrite take_length in Hl. rewrite lookup_take in Hi by lia. specialize (R ltac:(lia) Hi). destruct (p i x) as [[]|]; cbn in R; congruence. }
    destruct (p k a) as [[]|] eqn:Ep; [| |]; cbn in P.
    + destruct P as (y' & g' & v & E & H & -> & D & L). exists y', g'. auto.
    + cbn in Eq. try rewrite Ep in Eq. discriminate.
    + destruct P as (y' & g' & k' & E & H & D & L & P). apply Permutation_nil in P. subst k'. rewrite app_nil_r in L. exists y', g'. auto.
  - left. split.
    { intros i x Hi. pose proof (first_rejects _ _ _ Ef i x Hi) as R. cbn in R. destruct (p i x) as [[]|]; cbn in R; congruence. }
    destruct P as (y' & g' & v & E & H & -> & D & L). exists y', g'. auto.
Qed.
Theorem C84_nth : forall n, exists y' g', run_walk e (WNth sd n) y g = Ret y' g' (WItem (l !! n)) /\
  taken y' (S n `min` length l) /\ only g' (take n l).
Proof.
  intros n. pose proof (calm_walk (WNth sd n) eq_refl) as P. unfold spec_walk in P. cbv zeta in P. cbn [walk walk_side] in P.
  unfold walk_nth in P. destruct (first_at (fun _ _ => false) (take n l)) as [[k a]|] eqn:Ef.
  { destruct (first_at_some _ _ _ _ Ef) as (_ & [=] & _). }
  destruct P as (y' & g' & v & E & H & -> & D & L). exists y', g'. auto.
Qed.
Theorem C84_take : forall n, exists y' g', run_walk e (WTake sd n) y g = Ret y' g' (WVals (take n l)) /\
  taken y' (n `min` length l) /\ only g' [].
Proof.
  intros n. destruct (calm_walk (WTake sd n) eq_refl) as (y' & g' & v & E & H & -> & D & L). exists y', g'. auto.
Qed.
End one_call.
Print Assumptions C84_find. Print Assumptions C84_position. Print Assumptions C84_nth. Print Assumptions C84_take.

Section calm_example.
Import PropertiesMix.
Definition over (n : nat) (_ : nat) (a : nat) : option bool := Some (n <? a).
Definition fails_at (n : nat) (k a : nat) : option bool := if k =? n then None else Some false.
Definition ex_walk : prog dbg nat :=
  [ Make (OfRing r4 (BFromIter [Yield 3; Yield 4; Yield 5; Yield 6]));
    Call 0 (inr (WFind Front (over 3)));                       (* 3 is dropped, 4 is returned *)
    Call 0 (inl (M1Ring BContents));
    Call 0 (inl (M1Ring (BPushBack 7)));
    Call 0 (inr (WPosition Back (over 8)));                    (* 7, 6, 5 are dropped; none *)
    Make (OfChunk c4 (CFromIter [Yield 1; Yield 2; Yield 8; Yield 9]));
    Call 1 (inr (WNth Back 1));                                (* 9 is dropped, 8 is returned *)
    Call 1 (inr (WNth Back 5));
    Call 1 (inl (M1Chunk CAsSlice));
    Make (OfInline i2 (IFromIter 1 [Yield 20; Yield 21; Yield 22]));
    Call 2 (inr (WFind Front (fails_at 1)));                   (* panics at 21; 20 and 21 are dropped *)
    Call 2 (inl (M1Inline IAsSlice));
    Call 2 (inr (WAll Front (over 21)));
    Make (OfSparse s8 (PPair 5 11 1 10));
    Call 3 (inr (WTake Front 1));
    Call 3 (inr (WAny Front (over 10)));
    Call 3 (inl (M1Sparse PLen)) ].
Example C84_example :
  calm dbg /\ all_legal (walk_spec dbg) ex_walk [] /\ Forall (wtruthful dbg) ex_walk /\
  match run (walk_kit dbg) (to_the_end ex_walk) [] log0 with
  | Some (X, g, evs) => evs = [ Done; Returned (WItem (Some 4)); Returned (WRes (MRes (RRefs [5; 6]))); Returned (WRes (MRes RUnit));
        Returned (WIndex None); Done; Returned (WItem (Some 8)); Returned (WItem None); Returned (WRes (MRes (RRefs []))); Done; Panicked;
        Returned (WRes (MRes (RRefs [22]))); Returned (WBool true); Done; Returned (WVals [10]); Returned (WBool true);
        Returned (WRes (MSp (PNat 0))); Done; Done; Done; Done ] /\
      dropped g = [3; 7; 6; 5; 9; 2; 1; 20; 21; 22; 11] /\ leaked g = []
  | None => False
  end.
Proof.
  split; [|split; [|split]].
  - intros a. reflexivity.
  - vm_compute. repeat split; lia.
  - repeat constructor.
  - vm_compute. auto.
Qed.
End calm_example.
Section bomb_example.
Import PropertiesMixBomb.
(** Dropping 13 panics. *)
Definition ex_walk_finishes : prog bombed nat :=
  [ Make (OfRing r4 (BFromIter [Yield 1; Yield 13; Yield 2; Yield 13]));
    Call 0 (inr (WCount Front));                               (* 1 and 13 are dropped; panics *)
    Call 0 (inl (M1Ring BContents));
    Call 0 (inr (WFind Back (fun _ a => Some (a =? 13))));     (* 13 is returned *)
    Call 0 (inr (WPosition Front (fun _ _ => None)));          (* the predicate panics; 2 is dropped *)
    Make (OfChunk c4 (CFromIter [Yield 13; Yield 3]));
    Call 1 (inr (WAny Front (fun _ _ => Some true)));          (* panics when 13 is dropped *)
    Call 1 (inl (M1Chunk CAsSlice)) ].
Definition ex_walk_aborts : prog bombed nat :=
  ex_walk_finishes ++
  [ Call 1 (inl (M1Chunk (CPushBack 13)));
    Call 1 (inr (WFind Back (fun _ _ => None))) ].             (* 13 is dropped by unwinding *)
Example C84_bomb_example :
  (ball_legal (walk_spec bombed) (walk_bspec bombed) ex_walk_finishes [] /\ spares (walk_bspec bombed) (walk_discards bombed) ex_walk_finishes [] /\
   match runx (walk_kit bombed) ex_walk_finishes [] log0 with
   | Finished X g evs => evs = [ Done; Panicked; Returned (WRes (MRes (RRefs [2; 13]))); Returned (WItem (Some 13)); Panicked;
                                 Done; Panicked; Returned (WRes (MRes (RRefs [3]))) ] /\
       dropped g = [1; 13; 2; 13] /\ leaked g = []
   | _ => False
   end) /\
  (ball_legal (walk_spec bombed) (walk_bspec bombed) ex_walk_aborts [] /\ spares (walk_bspec bombed) (walk_discards bombed) ex_walk_aborts [] /\
   runx (walk_kit bombed) ex_walk_aborts [] log0 = Aborted).
Proof. split; (split; [vm_compute; repeat split; lia|split; [vm_compute; repeat split; tauto|vm_compute; auto]]). Qed.
End bomb_example.
