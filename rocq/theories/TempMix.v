(** * Temporaries in programs that use several kinds of container. *)
From Verif Require Import Machine Spec Prims Program ProgramEnd InlineModel InlineSpec IterSpec ChunkProgram RingProgram SparseSpec SparseProgram InlineProgram
  MixModel MixSpec MixProofs MixProgram MixBalance Bombs BombProgram ChunkBombs RingBombs SparseBombs InlineBombs MixBombSpec MixBombs
  TempModel TempSpec TempProofs.
From Verif Require SparseProofs.

Section mix.
Context {A : Type} (e : env A).
(** src/sized_chunk/mod.rs 128-135, src/ring_buffer/mod.rs 223-231, src/sparse_chunk/mod.rs 115-121, src/inline_array/mod.rs 260-291 [new]. *)
Definition m_fresh (x : mobj e) : mop0 e :=
  match x with
  | OfChunk k _ => OfChunk k CNew | OfRing k _ => OfRing k BNew | OfSparse k _ => OfSparse k PNew
  | OfInline k c => OfInline k (INew (fst c))
  end.
Definition m_empty (x : mst e) : mst e :=
  match x with
  | OfChunk k _ => OfChunk k [] | OfRing k _ => OfRing k [] | OfSparse k _ => OfSparse k (no_cells (`k))
  | OfInline k _ => OfInline k []
  end.
Lemma m_empty_items x : items (mix_spec e) (m_empty x) = [].
Proof. destruct x as [k l|k l|k l|k l]; cbn [m_empty items mix_spec m_items]; auto. apply SparseProofs.values_no_cells. Qed.
Lemma m_fresh_ok x s g : MHolds e x s ->
  agrees (fun _ _ => True) (MHolds e) g (run0 (mix_kit e) (m_fresh x) tt g) (SRet tt (m_empty s) []).
Proof.
  intros Hx. pose proof (rfb0 _ _ _ _ (mix_refinesb e) (m_fresh x) g) as P.
  destruct x as [k c|k c|k c|k c], s as [k2 l|k2 l|k2 l|k2 l]; cbn [MixProofs.MHolds] in Hx; try contradiction; destruct Hx as [<- Hx]; exact P.
Qed.
Lemma m_outs o x x' r d : bs2 (mix_bspec e) o x = BRet x' r d -> outs (mix_spec e) r = [].
Proof.
  destruct x as [x y]. intros E.
  assert (W : forall S R (b : bres (A := A) S R) (f : R -> mres A) x2 d2 r2, bmap f b = BRet x2 r2 d2 -> exists r1, b = BRet x2 r1 d2 /\ r2 = f r1).
  { intros S R [] f x2 d2 r2 E2; try discriminate. injection E2 as <- <- <-. eauto. }
  assert (W1 : forall S R (s : sres A S R) x2 d2 r2, with_bombs e s = BRet x2 r2 d2 -> s = SRet x2 r2 d2).
  { intros S R [] x2 d2 r2 E2; cbn in E2; destruct (existsb _ _); congruence. }
  assert (W2 : forall S R (f f2 : S -> mst e) (b : bres (A := A) (S * S) R) x2 d2 r2, bas_kind2 e f f2 b = BRet x2 r2 d2 -> exists x3, b = BRet x3 r2 d2).
  { intros S R f f2 [] x2 d2 r2 E2; try discriminate. injection E2 as <- <- <-. eauto. }
  destruct o as [o|o|o|o|sd|sd i|eqA].
  5: { cbn [bs2 mix_bspec fst snd] in E. apply W1 in E. destruct (mix_extend _ _ _ _); [|discriminate]. injection E as <- <- <-. reflexivity. }
  5: { cbn [bs2 mix_bspec fst snd] in E. apply W1 in E. destruct (mix_insert_from _ _ _ _ _); [|discriminate]. injection E as <- <- <-. reflexivity. }
  5: { cbn [bs2 mix_bspec fst snd] in E. injection E as <- <- <-. reflexivity. }
  all: destruct x as [k l|k l|k l|k l], y as [k2 l2|k2 l2|k2 l2|k2 l2]; cbn [bs2 mix_bspec fst snd] in E; try discriminate E.
  all: apply W2 in E; destruct E as (x3 & E); apply W in E; destruct E as (r1 & E & ->); cbn [outs mix_spec].
  1: change (with_bombs e (spec2 (chunk_spec e (`k)) o (l, l2)) = BRet x3 r1 d) in E.
  2: change (with_bombs e (spec2 (ring_spec e (`k)) o (l, l2)) = BRet x3 r1 d) in E.
  3: change (with_bombs e (spec2 (array_spec (`k)) o (l, l2)) = BRet x3 r1 d) in E.
  4: change (with_bombs e (spec2 (ia_spec (capacity e (`k))) o (l, l2)) = BRet x3 r1 d) in E.
  all: apply W1 in E; destruct o; cbn [spec2 chunk_spec ring_spec array_spec ia_spec] in E;
    try (injection E as <- <- <-; reflexivity);
    match type of E with smapR _ ?s = _ => destruct s; [|discriminate] end; injection E as <- <- <-; reflexivity.
Qed.

Theorem mix_temp_refines : calm e -> refines (temp_kit (mix_kit e) m_fresh) (temp_spec (mix_spec e) m_empty) (MHolds e).
Proof. intros Hc. apply temp_refines; [exact m_fresh_ok|exact (mix_refines e Hc)]. Qed.
Theorem mix_temp_balanced : balanced (temp_spec (mix_spec e) m_empty).
Proof. apply temp_balanced; [exact m_empty_items|exact (mix_balanced e)]. Qed.
Theorem mix_temp_refinesb :
  refinesb (temp_kit (mix_kit e) m_fresh) (temp_spec (mix_spec e) m_empty) (temp_bspec (mix_bspec e) m_empty) (MHolds e).
Proof. apply temp_refinesb; [exact m_fresh_ok|exact (mix_refinesb e)]. Qed.
Theorem mix_temp_balancedb : balancedb (temp_spec (mix_spec e) m_empty) (temp_bspec (mix_bspec e) m_empty).
Proof. apply temp_balancedb; [exact m_empty_items|exact m_outs|exact (mix_bbalanced e)]. Qed.
(** Iterators deliver what they announce and cloning does not panic. *)
Definition ttruthful (c : cmd (mop0 e) (mop1 A) (passed (mopn e)) (passed (mop2 A))) : Prop :=
  match c with
  | Call _ (M1Chunk (CInsertFrom _ n it)) | Call _ (M1Ring (BInsertFrom _ n it)) => length (yields n it) = n
  | Spawn _ (ByRef (MnInline (IClone _ cl))) | Spawn _ (Temp (MnInline (IClone _ cl))) => forall k a, cl k a <> None
  | _ => True
  end.
Lemma ttruthful_tight c : ttruthful c -> tight (temp_spec (mix_spec e) m_empty) c.
Proof.
  intros HT. apply temp_tight. destruct c as [o|i o|i [o|o]|i j [o|o]|i]; try exact I; apply mtruthful_tight; try exact HT; exact I.
Qed.
End mix.
