(** * Containers consumed by value (C83). *)
From Verif Require Import Machine Spec Program ProgramEnd InlineModel InlineSpec IterSpec ChunkProgram RingProgram SparseProgram
  InlineProgram MixModel MixSpec MixProofs MixProgram MixBalance Bombs BombProgram MixBombSpec MixBombs TempModel TempSpec TempMix
  OwnModel OwnSpec OwnProofs OwnMix.
From Verif Require PropertiesMix PropertiesMixBomb.

(** C83.  The programs of C82, where a new container may also be made by consuming another, by value: [y.into_iter().collect()],
    [y.into_iter().rev().collect()], [y.into_iter().map(Some).collect()], [y.option_drain().collect()].  If everything fits,
    the new container has it, in that order, and [y] is used up; otherwise the call panics, and all of [y] is dropped: first the
    element that did not fit, then the rest of [y], in the order of [y], and then what had been moved. *)
Theorem C83_by_value :
  forall (A : Type) (e : env A) (p : list (cmd (mop0 e) (mop1 A) (own_op e) (passed (mop2 A)))),
  calm e -> all_legal (own_spec e) p [] ->
  let s := srun (own_spec e) p [] in
  exists X g, run (own_kit e) p [] log0 = Some (X, g, s_events s) /\
    Forall2 (orel (MHolds e)) X (s_store s) /\ dropped g = s_dropped s /\ Permutation (leaked g) (s_leaked s).
Proof.
  intros A e p Hc HL. destruct (run_sim _ _ _ (own_refines e Hc) p [] [] log0 (Forall2_nil _) HL) as (X & g & k & E & H & D & L & P).
  exists X, g. split; [exact E|]. split; [exact H|]. split; [exact D|]. rewrite L. symmetry. exact P.
Qed.
Print Assumptions C83_by_value.
(** When all containers have gone out of scope, every element was handed back or dropped, exactly once. *)
Theorem C83_scope_end :
  forall (A : Type) (e : env A) (p : list (cmd (mop0 e) (mop1 A) (own_op e) (passed (mop2 A)))),
  calm e -> all_legal (own_spec e) p [] -> Forall (otruthful e) p ->
  exists X g evs, run (own_kit e) (to_the_end p) [] log0 = Some (X, g, evs) /\ Forall (eq None) X /\ leaked g = [] /\
    Permutation (s_given (srun (own_spec e) p [])) (returned (mix_spec e) evs ++ dropped g).
Proof.
  intros A e p Hc HL HT.
  destruct (run_to_the_end _ _ (MHolds e) p (own_refines e Hc) (own_balanced e) HL) as (X & g & evs & E & HX & P & PL).
  assert (leaked g = []) as EL.
  { rewrite (srun_tight _ p) in PL; [|eapply List.Forall_impl; [apply otruthful_tight|exact HT]|exact HL].
    apply Permutation_nil. symmetry. exact PL. }
  exists X, g, evs. rewrite EL, app_nil_r in P. auto.
Qed.
Print Assumptions C83_scope_end.
(** The same when dropping any of the values may panic.  These calls drop values only after the panic of a container that is too
    small; if then any destructor panics -- of the element that did not fit, of the rest of [y] or of what had been moved -- the process aborts. *)
Theorem C83_by_value_panicking_destructors :
  forall (A : Type) (e : env A) (p : list (cmd (mop0 e) (mop1 A) (own_op e) (passed (mop2 A)))),
  ball_legal (own_spec e) (own_bspec e) p [] -> spares (own_bspec e) (mix_discards e) p [] ->
  match brun (own_bspec e) p [] with
  | BFinished Y d k evs gv => exists X g, runx (own_kit e) p [] log0 = Finished X g evs /\
      Forall2 (orel (MHolds e)) X Y /\ dropped g = d /\ Permutation (leaked g) k /\
      Permutation gv (live (mix_spec e) Y ++ returned (mix_spec e) evs ++ dropped g ++ leaked g)
  | BAborted => runx (own_kit e) p [] log0 = Aborted
  | BUnknown => False
  end.
Proof.
  intros A e p HL HS. pose proof (bomb_program _ _ _ _ (own_refinesb e) (own_balancedb e) p HL) as P.
  pose proof (own_known e p [] HS) as Q. destruct (brun _ p []); auto.
Qed.
Print Assumptions C83_by_value_panicking_destructors.

Section calm_example.
Import PropertiesMix.
Definition ex_by_value : list (cmd (mop0 dbg) (mop1 nat) (own_op dbg) (passed (mop2 nat))) :=
  [ Make (OfRing r4 (BFromIter [Yield 3; Yield 4]));
    Spawn 0 (inr (Into Back (ToChunk c4)));                    (* 1: the chunk 4, 3 *)
    Call 0 (M1Ring BContents);
    Call 1 (M1Chunk CAsSlice);
    Call 1 (M1Chunk (CPushBack 8)); Call 1 (M1Chunk (CPushBack 9));
    Spawn 1 (inr (IntoSparse Back s2));                        (* 9, 8, and then 3 does not fit: panic; 3 is dropped, 4, then 9 and 8 *)
    Call 1 (M1Chunk CAsSlice);
    Call 0 (M1Ring (BPushBack 5)); Call 0 (M1Ring (BPushBack 6));
    Spawn 0 (inr (IntoSparse Front s8));                       (* 3: a sparse chunk: 5, 6 in the cells 0 and 1 *)
    Call 3 (M1Sparse (PInsert 7 1));
    Spawn 3 (inr (IntoCells s2));                              (* panics at 1 in cell 7; 1 is dropped, 5, 6 *)
    Call 3 (M1Sparse PLen);
    Call 0 (M1Ring (BPushBack 2));
    Spawn 0 (inr (Into Front (ToInline i2 1)));
    Call 5 (M1Inline IAsSlice) ].
Example C83_example :
  calm dbg /\ all_legal (own_spec dbg) ex_by_value [] /\ Forall (otruthful dbg) ex_by_value /\
  match run (own_kit dbg) (to_the_end ex_by_value) [] log0 with
  | Some (X, g, evs) => evs = [ Done; Done; Returned (MRes (RRefs [])); Returned (MRes (RRefs [4; 3]));
        Returned (MRes RUnit); Returned (MRes RUnit); Panicked; Returned (MRes (RRefs [])); Returned (MRes RUnit);
        Returned (MRes RUnit); Done; Returned (MSp (POpt None)); Panicked;
        Returned (MSp (PNat 0)); Returned (MRes RUnit); Done; Returned (MRes (RRefs [2])); Done; Done; Skip; Done; Skip; Done ] /\
      dropped g = [3; 4; 9; 8; 1; 5; 6; 2] /\ leaked g = []
  | None => False
  end.
Proof.
  split; [|split; [|split]].
  - intros a. reflexivity.
  - vm_compute. repeat split; lia.
  - repeat constructor.
  - vm_compute. auto.
Qed.
End calm_example.
Section bomb_example.
Import PropertiesMixBomb.
(** Dropping 13 panics. *)
Definition ex_own_finishes : list (cmd (mop0 bombed) (mop1 nat) (own_op bombed) (passed (mop2 nat))) :=
  [ Make (OfRing r4 (BFromIter [Yield 1; Yield 13; Yield 2]));
    Spawn 0 (inr (Into Front (ToChunk c4)));                   (* nothing is dropped *)
    Call 1 (M1Chunk CAsSlice);
    Call 0 (M1Ring BContents) ].
Definition ex_own_aborts : list (cmd (mop0 bombed) (mop1 nat) (own_op bombed) (passed (mop2 nat))) :=
  ex_own_finishes ++
  [ Spawn 1 (inr (IntoSparse Front s2)) ].                     (* 2 does not fit; 13 is dropped by unwinding *)
Example C83_bomb_example :
  (ball_legal (own_spec bombed) (own_bspec bombed) ex_own_finishes [] /\ spares (own_bspec bombed) (mix_discards bombed) ex_own_finishes [] /\
   match runx (own_kit bombed) ex_own_finishes [] log0 with
   | Finished X g evs => evs = [ Done; Done; Returned (MRes (RRefs [1; 13; 2])); Returned (MRes (RRefs [])) ] /\ dropped g = [] /\ leaked g = []
   | _ => False
   end) /\
  (ball_legal (own_spec bombed) (own_bspec bombed) ex_own_aborts [] /\ spares (own_bspec bombed) (mix_discards bombed) ex_own_aborts [] /\
   runx (own_kit bombed) ex_own_aborts [] log0 = Aborted).
Proof. split; (split; [vm_compute; repeat split; lia|split; [vm_compute; repeat split; tauto|vm_compute; auto]]). Qed.
End bomb_example.
