(** * Containers that are given away to a call (C82). *)
From Verif Require Import Machine Spec Program ProgramEnd InlineModel InlineSpec IterSpec ChunkProgram RingProgram SparseProgram
  InlineProgram MixModel MixSpec MixProofs MixProgram MixBalance Bombs BombProgram MixBombSpec MixBombs TempModel TempSpec TempProofs TempMix.
From Verif Require PropertiesMix PropertiesMixBomb.

(** C82.  The programs of C78, where any call that takes a second container, or that makes a new container out of one, may also be
    given a temporary -- [x.append(&mut mem::take(&mut y))], [x.extend(mem::take(&mut y))], [mem::take(&mut y).split_off(3)].  The call does
    what it does otherwise (returns or panics, with the same result and the same contents of [x]); [y] is then empty; and what the
    call leaves in the temporary is dropped after all that the call itself drops, also when it panics. *)
Theorem C82_temporaries :
  forall (A : Type) (e : env A) (p : list (cmd (mop0 e) (mop1 A) (passed (mopn e)) (passed (mop2 A)))),
  calm e -> all_legal (temp_spec (mix_spec e) (m_empty e)) p [] ->
  let s := srun (temp_spec (mix_spec e) (m_empty e)) p [] in
  exists X g, run (temp_kit (mix_kit e) (m_fresh e)) p [] log0 = Some (X, g, s_events s) /\
    Forall2 (orel (MHolds e)) X (s_store s) /\ dropped g = s_dropped s /\ Permutation (leaked g) (s_leaked s).
Proof.
  intros A e p Hc HL. destruct (run_sim _ _ _ (mix_temp_refines e Hc) p [] [] log0 (Forall2_nil _) HL) as (X & g & k & E & H & D & L & P).
  exists X, g. split; [exact E|]. split; [exact H|]. split; [exact D|]. rewrite L. symmetry. exact P.
Qed.
Print Assumptions C82_temporaries.
(** When all containers have gone out of scope, every element was handed back or dropped, exactly once. *)
Theorem C82_scope_end :
  forall (A : Type) (e : env A) (p : list (cmd (mop0 e) (mop1 A) (passed (mopn e)) (passed (mop2 A)))),
  calm e -> all_legal (temp_spec (mix_spec e) (m_empty e)) p [] -> Forall (ttruthful e) p ->
  exists X g evs, run (temp_kit (mix_kit e) (m_fresh e)) (to_the_end p) [] log0 = Some (X, g, evs) /\ Forall (eq None) X /\ leaked g = [] /\
    Permutation (s_given (srun (temp_spec (mix_spec e) (m_empty e)) p [])) (returned (mix_spec e) evs ++ dropped g).
Proof.
  intros A e p Hc HL HT.
  destruct (run_to_the_end _ _ (MHolds e) p (mix_temp_refines e Hc) (mix_temp_balanced e) HL) as (X & g & evs & E & HX & P & PL).
  assert (leaked g = []) as EL.
  { rewrite (srun_tight _ p) in PL; [|eapply List.Forall_impl; [apply ttruthful_tight|exact HT]|exact HL].
    apply Permutation_nil. symmetry. exact PL. }
  exists X, g, evs. rewrite EL, app_nil_r in P. auto.
Qed.
Print Assumptions C82_scope_end.
(** The same when dropping any of the values may panic: C81 with temporaries.  If the destructor of the temporary panics at the end
    of the statement, the call panics, and the new container, if there is one, is dropped; if it panics when the call has
    panicked already, the process aborts. *)
Theorem C82_temporaries_panicking_destructors :
  forall (A : Type) (e : env A) (p : list (cmd (mop0 e) (mop1 A) (passed (mopn e)) (passed (mop2 A)))),
  let B := temp_bspec (mix_bspec e) (m_empty e) in
  ball_legal (temp_spec (mix_spec e) (m_empty e)) B p [] -> spares B (mix_discards e) p [] ->
  match brun B p [] with
  | BFinished Y d k evs gv => exists X g, runx (temp_kit (mix_kit e) (m_fresh e)) p [] log0 = Finished X g evs /\
      Forall2 (orel (MHolds e)) X Y /\ dropped g = d /\ Permutation (leaked g) k /\
      Permutation gv (live (mix_spec e) Y ++ returned (mix_spec e) evs ++ dropped g ++ leaked g)
  | BAborted => runx (temp_kit (mix_kit e) (m_fresh e)) p [] log0 = Aborted
  | BUnknown => False
  end.
Proof.
  intros A e p B HL HS. pose proof (bomb_program _ _ _ _ (mix_temp_refinesb e) (mix_temp_balancedb e) p HL) as P.
  pose proof (temp_known (m_empty e) (mix_bspec e) (mix_discards e) (mix_known e) p [] HS) as Q.
  unfold B in *. destruct (brun _ p []); auto.
Qed.
Print Assumptions C82_temporaries_panicking_destructors.

Section calm_example.
Import PropertiesMix.
Definition ex_temps : list (cmd (mop0 dbg) (mop1 nat) (passed (mopn dbg)) (passed (mop2 nat))) :=
  [ Make (OfChunk c4 (CFromIter [Yield 1; Yield 2]));
    Make (OfRing r4 (BFromIter [Yield 3; Yield 4; Yield 5; Yield 6]));
    Call2 0 1 (Temp (M2Extend Front));                 (* room for two of four: 5, without room, and then 6 are dropped, panic *)
    Call 1 (M1Ring BContents);                         (* empty *)
    Spawn 0 (Temp (MnChunk (CSplitOff 3)));            (* 2: the chunk 4; 1, 2 and 3 are dropped *)
    Call 0 (M1Chunk CAsSlice);
    Call 2 (M1Chunk CAsSlice);
    Call 0 (M1Chunk (CPushBack 7));
    Call2 0 2 (Temp (M2Chunk CAppend));
    Call 0 (M1Chunk CAsSlice) ].
Example C82_example :
  calm dbg /\ all_legal (temp_spec (mix_spec dbg) (m_empty dbg)) ex_temps [] /\ Forall (ttruthful dbg) ex_temps /\
  match run (temp_kit (mix_kit dbg) (m_fresh dbg)) (to_the_end ex_temps) [] log0 with
  | Some (X, g, evs) =>
      evs = [ Done; Done; Panicked; Returned (MRes (RRefs [])); Done; Returned (MRes (RRefs [])); Returned (MRes (RRefs [4]));
              Returned (MRes RUnit); Returned (MRes RUnit); Returned (MRes (RRefs [7; 4])); Done; Done; Done ] /\
      dropped g = [5; 6; 1; 2; 3; 7; 4] /\ leaked g = []
  | None => False
  end.
Proof.
  split; [|split; [|split]].
  - intros a. reflexivity.
  - vm_compute. repeat split; lia.
  - repeat constructor.
  - vm_compute. auto.
Qed.
End calm_example.
Section bomb_example.
Import PropertiesMixBomb.
(** Dropping 13 panics. *)
Definition ex_temp_panics : list (cmd (mop0 bombed) (mop1 nat) (passed (mopn bombed)) (passed (mop2 nat))) :=
  [ Make (OfChunk c4 (CFromIter [Yield 1; Yield 13; Yield 2]));
    Spawn 0 (Temp (MnChunk (CSplitOff 2)));            (* 1 and 13 are dropped: panic, which drops the new chunk with 2 *)
    Call 0 (M1Chunk (CPushBack 8)) ].
Definition ex_temp_aborts : list (cmd (mop0 bombed) (mop1 nat) (passed (mopn bombed)) (passed (mop2 nat))) :=
  ex_temp_panics ++
  [ Make (OfRing r4 (BFromIter [Yield 3; Yield 4; Yield 5; Yield 13]));
    Call2 0 2 (Temp (M2InsertFrom Front 0)) ].         (* no room: panic; the iterator, with 13, is dropped by unwinding *)
Example C82_bomb_example :
  let B := temp_bspec (mix_bspec bombed) (m_empty bombed) in
  (ball_legal (temp_spec (mix_spec bombed) (m_empty bombed)) B ex_temp_panics [] /\ spares B (mix_discards bombed) ex_temp_panics [] /\
   match runx (temp_kit (mix_kit bombed) (m_fresh bombed)) ex_temp_panics [] log0 with
   | Finished X g evs => evs = [ Done; Panicked; Returned (MRes RUnit) ] /\ dropped g = [1; 13; 2] /\ leaked g = []
   | _ => False
   end) /\
  (ball_legal (temp_spec (mix_spec bombed) (m_empty bombed)) B ex_temp_aborts [] /\ spares B (mix_discards bombed) ex_temp_aborts [] /\
   runx (temp_kit (mix_kit bombed) (m_fresh bombed)) ex_temp_aborts [] log0 = Aborted).
Proof. split; (split; [vm_compute; repeat split; lia|split; [vm_compute; repeat split; tauto|vm_compute; auto]]). Qed.
End bomb_example.
