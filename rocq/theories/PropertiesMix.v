(** * Programs that use several kinds of container at once (C78). *)
From Verif Require Import Machine Spec Program ProgramEnd InlineModel InlineSpec IterSpec ChunkProgram RingProgram SparseProgram
  InlineProgram MixModel MixSpec MixProofs MixProgram MixBalance.
From Verif Require ChunkExamples PropertiesInline.

(** C78.  Any program over any number of [Chunk]s, [RingBuffer]s, [SparseChunk]s and [InlineArray]s of any capacities and
    layouts, that calls their methods, moves elements between them with [extend], [insert_from], [collect], [collect_from]
    over each other's [drain()] or [drain().rev()], collects them into [SparseChunk]s ([map(Some)], [option_drain()]), converts and compares them, and carries on after panics, does what
    MixSpec.v says: it never reaches undefined behaviour, hangs or aborts; every call returns or panics as specified and
    returns what is specified; the contents of every container, and the elements dropped, in that order, are as specified. *)
Theorem C78_mixed_programs :
  forall (A : Type) (e : env A) (p : list (cmd (mop0 e) (mop1 A) (mopn e) (mop2 A))),
  calm e -> all_legal (mix_spec e) p [] ->
  exists X g, run (mix_kit e) p [] log0 = Some (X, g, s_events (srun (mix_spec e) p [])) /\
    Forall2 (orel (MHolds e)) X (s_store (srun (mix_spec e) p [])) /\
    dropped g = s_dropped (srun (mix_spec e) p []) /\
    Permutation (leaked g) (s_leaked (srun (mix_spec e) p [])).
Proof. intros A e p. exact (mix_program e p). Qed.
Print Assumptions C78_mixed_programs.

(** Every element handed to any of the containers is afterwards in exactly one place: in one container, handed back, dropped, or
    leaked; and none is leaked if iterators deliver what they announce and cloning does not panic. *)
Theorem C78_mixed_programs_conserve :
  forall (A : Type) (e : env A) (p : list (cmd (mop0 e) (mop1 A) (mopn e) (mop2 A))),
  calm e -> all_legal (mix_spec e) p [] ->
  exists X g evs, run (mix_kit e) p [] log0 = Some (X, g, evs) /\
    Permutation (s_given (srun (mix_spec e) p []))
      (live (mix_spec e) (s_store (srun (mix_spec e) p [])) ++ returned (mix_spec e) evs ++ dropped g ++ leaked g) /\
    (Forall (mtruthful e) p -> leaked g = []).
Proof. intros A e p. exact (mix_conservation e p). Qed.
Print Assumptions C78_mixed_programs_conserve.

(** When all containers have gone out of scope, every element was handed back or dropped, exactly once. *)
Theorem C78_scope_end :
  forall (A : Type) (e : env A) (p : list (cmd (mop0 e) (mop1 A) (mopn e) (mop2 A))),
  calm e -> all_legal (mix_spec e) p [] -> Forall (mtruthful e) p ->
  exists X g evs, run (mix_kit e) (to_the_end p) [] log0 = Some (X, g, evs) /\ Forall (eq None) X /\ leaked g = [] /\
    Permutation (s_given (srun (mix_spec e) p [])) (returned (mix_spec e) evs ++ dropped g).
Proof.
  intros A e p Hc HL HT.
  destruct (run_to_the_end (mix_kit e) (mix_spec e) (MHolds e) p (mix_refines e Hc) (mix_balanced e) HL) as (X & g & evs & E & HX & P & PL).
  assert (leaked g = []) as EL.
  { rewrite (srun_tight (mix_spec e) p) in PL; [|eapply List.Forall_impl; [apply mtruthful_tight|exact HT]|exact HL].
    apply Permutation_nil. symmetry. exact PL. }
  exists X, g, evs. rewrite EL, app_nil_r in P. auto.
Qed.
Print Assumptions C78_scope_end.

Definition dbg := ChunkExamples.dbg.
Definition c4 : ccap dbg := exist _ 4 (proj1 (Nat.ltb_lt (4 + 4) (word dbg)) eq_refl).
Definition r4 : rcap dbg := exist _ 4 (conj (proj1 (Nat.ltb_lt (4 + 4) (word dbg)) eq_refl) (proj1 (Nat.ltb_lt 0 4) eq_refl)).
Definition s8 : scap dbg := exist _ 8 (proj1 (Nat.ltb_lt 8 (word dbg)) eq_refl).
Lemma i2_host : host_ok dbg PropertiesInline.ex_last.
Proof. split; [cbn; lia|discriminate]. Qed.
Definition i2 : ilay dbg := exist _ PropertiesInline.ex_last
  (conj (PropertiesInline.ex_last_wf dbg eq_refl) i2_host).
Definition s2 : scap dbg := exist _ 2 (proj1 (Nat.ltb_lt 2 (word dbg)) eq_refl).
Definition ex_mixed : list (cmd (mop0 dbg) (mop1 nat) (mopn dbg) (mop2 nat)) :=
  [ Make (OfChunk c4 (CFromIter [Yield 1; Yield 2]));
    Make (OfRing r4 (BFromIter [Yield 3; Yield 4; Yield 5]));
    Call2 0 1 (M2Extend Back);                         (* room for two of three: 5, 4 move, 3 is dropped, panic *)
    Make (OfSparse s8 (PPair 5 11 1 10));
    Spawn 2 (MnCollect Front (ToInline i2 1));         (* 3: the array 10, 11 *)
    Spawn 3 (MnFromInline c4);                         (* 4: the chunk 10, 11 *)
    Call2 1 4 (M2InsertFrom Back 0);                   (* the ring buffer 11, 10 *)
    Spawn 0 (MnCollectFrom Back (ToRing r4) 3);        (* 5: the ring buffer 4, 5, 2 *)
    Call 5 (M1Ring BContents);
    Call 0 (M1Chunk CAsSlice);
    Call 4 (M1Chunk (CPushBack 11)); Call 4 (M1Chunk (CPushBack 10));
    Call2 1 4 (M2EqSlice Nat.eqb);
    Call2 1 3 (M2EqSlice Nat.eqb);
    Call 2 (M1Sparse PLen);
    Kill 5;
    Call 1 (M1Ring BPopFront);
    Make (OfRing r4 (BFromIter [Yield 6; Yield 7; Yield 8]));    (* 6 *)
    Spawn 6 (MnCollectSparse Back s8);                 (* 7: the cells 8, 7, 6 *)
    Call 7 (M1Sparse (PRemove 0));
    Spawn 7 (MnCollectCells s2) ].                     (* no cell for 6: 6 and 7 are dropped, panic *)
Example C78_example :
  calm dbg /\ all_legal (mix_spec dbg) ex_mixed [] /\ Forall (mtruthful dbg) ex_mixed /\
  match run (mix_kit dbg) (to_the_end ex_mixed) [] log0 with
  | Some (X, g, evs) =>
      evs = [ Done; Done; Panicked; Done; Done; Done; Returned (MRes RUnit); Done;
              Returned (MRes (RRefs [4; 5; 2])); Returned (MRes (RRefs [1]));
              Returned (MRes RUnit); Returned (MRes RUnit);
              Returned (MRes (RBool true)); Returned (MRes (RBool false)); Returned (MSp (PNat 0));
              Done; Returned (MRes (ROpt (Some 11))); Done; Done; Returned (MSp (POpt (Some 8))); Panicked;
              Done; Done; Done; Done; Done; Skip; Done; Done; Skip ] /\
      dropped g = [3; 4; 5; 2; 6; 7; 1; 10; 11; 10] /\ leaked g = []
  | None => False
  end.
Proof.
  split; [|split; [|split]].
  - intros a. reflexivity.
  - vm_compute. repeat split; lia.
  - repeat constructor.
  - vm_compute. auto.
Qed.
