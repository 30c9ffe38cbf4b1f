(** * Containers of containers of values whose destructors may panic (C86). *)
From Verif Require Import Machine Spec Prims Program InlineModel InlineSpec SparseSpec IterSpec ChunkProgram RingProgram SparseProgram
  InlineProgram MixModel MixSpec MixProofs MixProgram Bombs BombProgram ChunkBombs RingBombs SparseBombs MixBombSpec MixBombs TempModel TempSpec TempMix OwnModel OwnSpec OwnMix
  WalkModel WalkSpec WalkMix NestModel NestSpec NestNature NestProofs NestBalance NestBombSpec NestBombs NestBombBalance.
From Verif Require PropertiesMix PropertiesMixBomb PropertiesInline.

Notation prog e A := (list (cmd (nop0 e) (nop1 A) (nopn e) (nop2 A))).
(** C86.  The programs of C85 when dropping any of the values may panic, as long as no [clear], [drop_left] or [drop_right] drops
    such a value, or a container that has one: either the process aborts exactly where NestBombSpec.v says that it does, or every call
    returns or panics as specified there; the contents of every container, at both depths, and the elements dropped, in that order,
    are as specified; and every element handed to a container is in exactly one place: in a container, handed back, dropped or leaked. *)
Theorem C86_nested_panicking_destructors :
  forall (A : Type) (e : env A) (p : prog e A),
  ball_legal (nest_spec e) (nest_bspec e) p [] -> spares (nest_bspec e) (nest_discards e) p [] ->
  match brun (nest_bspec e) p [] with
  | BFinished Y d k evs gv => exists X g, runx (nest_kit e) p [] log0 = Finished X g evs /\
      Forall2 (orel (NHolds e)) X Y /\ dropped g = d /\ Permutation (leaked g) k /\
      Permutation gv (live (nest_spec e) Y ++ returned (nest_spec e) evs ++ dropped g ++ leaked g)
  | BAborted => runx (nest_kit e) p [] log0 = Aborted
  | BUnknown => False
  end.
Proof.
  intros A e p HL HS. pose proof (bomb_program _ _ _ _ (nest_refinesb e) (nest_balancedb e) p HL) as P.
  pose proof (nest_known e p [] HS) as Q. destruct (brun _ p []); auto.
Qed.
Print Assumptions C86_nested_panicking_destructors.

(** Single calls, without NestBombSpec.v. *)
Section one_call.
Context {A : Type} (e : env A).
Notation Es := (outer_senv e).
Notation holds := (NHolds e).
Notation its := (flat_map (m_items e)).
(** The number of elements whose destructor panics. *)
Definition bombs_in (l : list A) : nat := length (List.filter (bomb e) l).
Notation slices ll := (Forall (fun c : mst e => match c with OfChunk _ _ | OfInline _ _ => True | _ => False end) ll).

Lemma slice_sbomb (c : mst e) : sbomb e c = negb (bombs_in (m_items e c) =? 0).
Proof.
  unfold sbomb, bombs_in. induction (m_items e c) as [|a l IH]; [reflexivity|]. cbn. destruct (bomb e a); [reflexivity|exact IH].
Qed.
Lemma slices_settle ll : slices ll ->
  match bsettle e ll with
  | Some (d, k) => d = its ll /\ k = [] /\ bombs_in (its ll) = length (List.filter (sbomb e) ll)
  | None => bombs_in (its ll) >= 2 /\ length (List.filter (sbomb e) ll) >= 1
  end /\ length (List.filter (sbomb e) ll) <= bombs_in (its ll).
Proof.
  induction 1 as [|c ll Hc _ [IH IH2]]; [cbn; auto|]. cbn [bsettle flat_map List.filter]. rewrite slice_sbomb.
  assert (Ha : bombs_in (m_items e c ++ its ll) = bombs_in (m_items e c) + bombs_in (its ll)).
  { unfold bombs_in. rewrite filter_app, app_length. reflexivity. }
  rewrite Ha.
  assert (Hk : bsk (mix_bspec e) c = chunk_killb e (m_items e c)) by (destruct c; try contradiction; reflexivity). rewrite Hk.
  unfold chunk_killb. fold (bombs_in (m_items e c)).
  destruct (bombs_in (m_items e c)) as [|[|n]]; cbn [Nat.eqb negb length]; destruct (bsettle e ll) as [[d k]|];
    repeat match goal with H : _ /\ _ |- _ => destruct H end; subst; cbn [app]; repeat split; try lia.
Qed.
(** Dropping a [Chunk] or [InlineArray] of those: it does not matter how the elements are distributed.  If the destructor of one of them
    panics the others are dropped nevertheless and the panic goes on; if a second one panics the process aborts. *)
Theorem C86_drop_slices : forall x (s : mst Es) g, holds x (inr s) ->
  match s with OfChunk _ _ | OfInline _ _ => True | _ => False end -> slices (m_items Es s) ->
  let l := its (m_items Es s) in
  match bombs_in l with
  | 0 => exists x' g', kill (nest_kit e) x g = Ret x' g' tt /\ dropped g' = dropped g ++ l /\ leaked g' = leaked g
  | 1 => exists x' g', kill (nest_kit e) x g = Panic x' g' /\ dropped g' = dropped g ++ l /\ leaked g' = leaked g
  | _ => kill (nest_kit e) x g = Abort
  end.
Proof.
  intros x s g Hx Hs HF l.
  pose proof (rfbk _ _ _ _ (nest_refinesb e) x (inr s) g Hx) as P. cbn [bsk nest_bspec] in P.
  assert (Hk : bsk (mix_bspec Es) s = chunk_killb Es (m_items Es s)) by (destruct s; try contradiction; reflexivity). rewrite Hk in P.
  destruct (slices_settle _ HF) as [Q Q2]. unfold chunk_killb in P. change (bomb Es) with (sbomb e) in P. change (its (m_items Es s)) with l in Q, Q2.
  destruct (length (List.filter (sbomb e) (m_items Es s))) as [|[|n]] eqn:En; cbn [bflat] in P.
  - destruct (bsettle e (m_items Es s)) as [[d k]|]; [|lia]. destruct Q as (_ & _ & ->).
    destruct P as (x' & g' & [] & E & _ & _ & D & L). exists x', g'. auto.
  - destruct (bsettle e (m_items Es s)) as [[d k]|].
    + destruct Q as (-> & -> & ->). destruct P as (x' & g' & r & E & _ & D & L & PK). apply Permutation_nil in PK. subst r. rewrite app_nil_r in L.
      exists x', g'. auto.
    + destruct (bombs_in l) as [|[|m]]; [lia|lia|exact P].
  - destruct (bombs_in l) as [|[|m]]; [lia|lia|exact P].
Qed.
(** Replacing a container in a [SparseChunk]: the new one is in its place, also if dropping the old one panics. *)
Theorem C86_replace : forall x k (c : list (option (mst e))) i old y t g, holds x (inr (OfSparse k c)) -> holds y (inl t) ->
  c !! i = Some (Some old) -> bombs_in (m_items e old) = 1 ->
  exists x' y' g' d r, run2 (nest_kit e) (NPut (PutAt i)) (x, y) g = Panic (x', y') g' /\
    holds x' (inr (OfSparse k (<[i := Some t]> c))) /\ holds y' (inl (m_empty e t)) /\
    dropped g' = dropped g ++ d /\ leaked g' = leaked g ++ r /\ Permutation (m_items e old) (d ++ r) /\
    existsb (bomb e) d = true /\ match old with OfChunk _ _ | OfInline _ _ => r = [] | _ => True end.
Proof.
  intros x k c i old y t g Hx Hy Ec Hb.
  assert (HL : legal2 (nest_spec e) (NPut (PutAt i)) (inr (OfSparse k c), inl t)) by exact I.
  pose proof (rfb2 _ _ _ _ (nest_refinesb e) (NPut (PutAt i)) (x, y) (inr (OfSparse k c), inl t) g (conj Hx Hy) HL) as P.
  assert (Hs : sbomb e old = true) by (rewrite slice_sbomb, Hb; reflexivity).
  assert (B : bs1 (mix_bspec Es) (M1Sparse (PInsert i t)) (OfSparse k c) = BRet (OfSparse k (<[i := Some t]> c)) (MSp (POpt (Some old))) []).
  { cbn. unfold ar_insert. rewrite Ec. reflexivity. }
  cbn [bs2 nest_bspec fst snd] in P. unfold bspec_put in P. cbn [o_put] in P. rewrite B in P. cbn [bdiscard m_outs sp_moved_out List.filter] in P.
  rewrite Hs in P. cbn [app length bflat bsettle flat_map] in P.
  pose proof (bbalk _ _ (mix_bbalanced e) old) as K. change (items (mix_spec e) old) with (m_items e old) in K.
  assert (Q : match bsk (mix_bspec e) old with
    | BPanic _ d k0 => existsb (bomb e) d = true /\ match old with OfChunk _ _ | OfInline _ _ => k0 = [] | _ => True end
    | _ => False end).
  { clear -Hs Hb. unfold sbomb in Hs.
    assert (S : chunk_killb e (m_items e old) = BPanic tt (m_items e old) []).
    { unfold chunk_killb. unfold bombs_in in Hb. rewrite Hb. reflexivity. }
    assert (T : exists d q, ring_killb e (m_items e old) = BPanic tt d q /\ existsb (bomb e) d = true).
    { unfold ring_killb. rewrite no_bomb_none', Hs. cbn [negb]. eexists _, _. split; [reflexivity|]. clear -Hs.
      induction (m_items e old) as [|a l IH]; [discriminate|]. cbn in *. destruct (bomb e a) eqn:Ea; cbn; [rewrite Ea; reflexivity|].
      rewrite Ea. apply IH. exact Hs. }
    destruct old as [k0 l|k0 l|k0 l|k0 l].
    - change (bsk (mix_bspec e) (OfChunk k0 l)) with (chunk_killb e l). change (m_items e (OfChunk k0 l)) with l in *. rewrite S. auto.
    - change (bsk (mix_bspec e) (OfRing k0 l)) with (ring_killb e l). change (m_items e (OfRing k0 l)) with l in *.
      destruct T as (d & q & -> & T). auto.
    - change (bsk (mix_bspec e) (OfSparse k0 l)) with (ring_killb e (values l)). change (m_items e (OfSparse k0 l)) with (values l) in *.
      destruct T as (d & q & -> & T). auto.
    - change (bsk (mix_bspec e) (OfInline k0 l)) with (chunk_killb e l). change (m_items e (OfInline k0 l)) with l in *. rewrite S. auto. }
  destruct (bsk (mix_bspec e) old) as [| u d q| |]; try contradiction. destruct Q as [Q1 Q2]. rewrite !app_nil_r in P.
  destruct P as ([x' y'] & g' & r & E & [H1 H2] & D & L & PK). exists x', y', g', d, r.
  split; [exact E|]. split; [exact H1|]. split; [exact H2|]. split; [exact D|]. split; [exact L|]. split; [rewrite <- PK; exact K|].
  split; [exact Q1|]. destruct old; auto; subst q; apply Permutation_nil; exact PK.
Qed.
End one_call.
Print Assumptions C86_drop_slices. Print Assumptions C86_replace.

Import PropertiesMixBomb.
(** Dropping 13 panics. *)
Definition ex_finishes : prog bombed nat :=
  [ Make (NNewOuter (ONewSparse s4));                                                  (* 0: a sparse chunk of containers *)
    Make (NNew (OfRing r4 (BFromIter [Yield 1; Yield 13; Yield 2])));                  (* 1 *)
    Call2 0 1 (NPut (PutAt 2));
    Make (NNew (OfChunk c4 (CFromIter [Yield 3; Yield 13; Yield 4])));                 (* 2 *)
    Call2 0 2 (NPut (PutAt 2));                                                        (* the ring buffer is dropped: 1 and 13; panic; 2 leaks *)
    Call 0 (NAt 2 (inl (M1Chunk CAsSlice)));
    Call2 0 1 (NPut (PutAt 4));                                                        (* no such cell: panic *)
    Spawn 0 (NAtSpawn 2 (inl (ByRef (MnChunk (CSplitOff 2)))));                        (* 3: [4] *)
    Call2 0 3 (NPut (PutAt 0));
    Call 0 (NOuterMethod OLen);
    Spawn 0 (NOuterSpawn (OCollect Front (OToChunk c4)));                              (* 4: a chunk of containers [4] [3 13] *)
    Call 4 (NAt 1 (inr (WPosition Front (fun _ a => Some (a =? 13)))));                (* looks at 3, drops it, and at 13: dropped, panic *)
    Make (NNew (OfChunk c4 (CFromIter [Yield 13])));                                   (* 5 *)
    Call2 4 5 (NPut PutBack);                                                          (* [4] [] [13] *)
    Kill 4 ].                                                                          (* drops 4 and 13: panic *)
Definition ex_aborts : prog bombed nat :=
  ex_finishes ++
  [ Make (NNewOuter (ONewChunk c4));
    Make (NNew (OfRing r4 (BFromIter [Yield 13])));
    Make (NNew (OfChunk c4 (CFromIter [Yield 5; Yield 13])));
    Call2 6 7 (NPut PutBack); Call2 6 8 (NPut PutBack);
    Kill 6 ].                                                                          (* 13 panics; unwinding drops 5 and 13: abort *)
Example C86_example :
  (ball_legal (nest_spec bombed) (nest_bspec bombed) ex_finishes [] /\ spares (nest_bspec bombed) (nest_discards bombed) ex_finishes [] /\
   match runx (nest_kit bombed) ex_finishes [] log0 with
   | Finished X g ev => ev = [ Done; Done; Returned (NOuter None); Done; Panicked; Returned (NInner (WRes (MRes (RRefs [3; 13; 4])))); Panicked;
           Done; Returned (NOuter None); Returned (NOuter (Some 2)); Done; Panicked; Done; Returned (NOuter None); Panicked ] /\
       dropped g = [1; 13; 3; 13; 4; 13] /\ leaked g = [2]
   | _ => False
   end) /\
  (ball_legal (nest_spec bombed) (nest_bspec bombed) ex_aborts [] /\ spares (nest_bspec bombed) (nest_discards bombed) ex_aborts [] /\
   runx (nest_kit bombed) ex_aborts [] log0 = Aborted).
Proof. split; (split; [vm_compute; repeat split; lia|split; [vm_compute; repeat split; tauto|vm_compute; auto]]). Qed.
