(** * Programs that use several kinds of container at once, of values whose destructors may panic (C81). *)
From Verif Require Import Machine Spec Program InlineModel InlineSpec IterSpec ChunkProgram RingProgram SparseProgram
  InlineProgram MixModel MixSpec MixProofs Bombs BombProgram MixBombSpec MixBombs.
From Verif Require ChunkExamples PropertiesInline.

(** C81.  Any program over any number of [Chunk]s, [RingBuffer]s, [SparseChunk]s and [InlineArray]s that calls their methods and
    moves, collects, converts and compares elements between them, where dropping any of the values may panic, and which carries on after panics,
    as long as it does not let [clear], [drop_left] or [drop_right] drop a value whose destructor panics (those are C14, C32 and C47): either the
    process aborts exactly where MixBombSpec.v says that it does (a destructor panics while unwinding), or every call returns or
    panics as specified; the contents of every container and the elements dropped, in that order, are as specified; and every
    value handed to a container is in exactly one place: a container, handed back, dropped or leaked.  It never reaches
    undefined behaviour and never hangs.
    The iterators are used by reference ([other.drain()] borrows [other]; the owning iterator of a [SparseChunk] is passed
    [by_ref()]), so that unwinding out of a call does not drop what the iterator has not yielded. *)
Theorem C81_mixed_panicking_destructors :
  forall (A : Type) (e : env A) (p : list (cmd (mop0 e) (mop1 A) (mopn e) (mop2 A))),
  ball_legal (mix_spec e) (mix_bspec e) p [] -> spares (mix_bspec e) (mix_discards e) p [] ->
  match brun (mix_bspec e) p [] with
  | BFinished Y d k evs gv => exists X g, runx (mix_kit e) p [] log0 = Finished X g evs /\
      Forall2 (orel (MHolds e)) X Y /\ dropped g = d /\ Permutation (leaked g) k /\
      Permutation gv (live (mix_spec e) Y ++ returned (mix_spec e) evs ++ dropped g ++ leaked g)
  | BAborted => runx (mix_kit e) p [] log0 = Aborted
  | BUnknown => False
  end.
Proof. intros A e p. exact (mix_bomb_safe e p). Qed.
Print Assumptions C81_mixed_panicking_destructors.

Definition bombed := ChunkExamples.bombed.
Definition c4 : ccap bombed := exist _ 4 (proj1 (Nat.ltb_lt (4 + 4) (word bombed)) eq_refl).
Definition r4 : rcap bombed := exist _ 4 (conj (proj1 (Nat.ltb_lt (4 + 4) (word bombed)) eq_refl) (proj1 (Nat.ltb_lt 0 4) eq_refl)).
Definition s4 : scap bombed := exist _ 4 (proj1 (Nat.ltb_lt 4 (word bombed)) eq_refl).
Definition s2 : scap bombed := exist _ 2 (proj1 (Nat.ltb_lt 2 (word bombed)) eq_refl).
Lemma i2_host : host_ok bombed PropertiesInline.ex_last.
Proof. split; [cbn; lia|discriminate]. Qed.
Definition i2 : ilay bombed := exist _ PropertiesInline.ex_last (conj (PropertiesInline.ex_last_wf bombed eq_refl) i2_host).
(** Dropping 13 panics. *)
Definition ex_finishes : list (cmd (mop0 bombed) (mop1 nat) (mopn bombed) (mop2 nat)) :=
  [ Make (OfChunk c4 (CFromIter [Yield 1; Yield 2]));
    Make (OfRing r4 (BFromIter [Yield 13; Yield 4; Yield 5]));
    Call2 0 1 (M2Extend Front);                        (* room for 13 and 4; 5 is dropped, panic *)
    Spawn 0 (MnCollectFrom Back (ToRing r4) 3);        (* 2: the ring buffer 4, 13, 2 *)
    Spawn 2 (MnCollectSparse Front s4);                (* 3: the cells 4, 13, 2 *)
    Call 3 (M1Sparse (PRemove 2));
    Call 0 (M1Chunk CAsSlice);
    Kill 3 ].                                          (* drops 4 and 13: panic *)
Definition ex_aborts : list (cmd (mop0 bombed) (mop1 nat) (mopn bombed) (mop2 nat)) :=
  ex_finishes ++
  [ Make (OfSparse s4 (PPair 0 13 3 7));
    Spawn 4 (MnCollectCells s2) ].                     (* no cell for 7: the unwinding drops 13, whose destructor panics *)
Example C81_example :
  (ball_legal (mix_spec bombed) (mix_bspec bombed) ex_finishes [] /\ spares (mix_bspec bombed) (mix_discards bombed) ex_finishes [] /\
   match runx (mix_kit bombed) ex_finishes [] log0 with
   | Finished X g ev =>
       ev = [ Done; Done; Panicked; Done; Done; Returned (MSp (POpt (Some 2))); Returned (MRes (RRefs [1])); Panicked ] /\
       dropped g = [5; 4; 13] /\ leaked g = []
   | _ => False
   end) /\
  (ball_legal (mix_spec bombed) (mix_bspec bombed) ex_aborts [] /\ spares (mix_bspec bombed) (mix_discards bombed) ex_aborts [] /\
   runx (mix_kit bombed) ex_aborts [] log0 = Aborted).
Proof. split; (split; [vm_compute; repeat split; lia|split; [vm_compute; repeat split; tauto|vm_compute; auto]]). Qed.
