(** * The standard methods of iterators in programs that use several kinds of container. *)
From Verif Require Import Machine Spec Prims Program InlineModel InlineSpec ChunkProgram RingProgram SparseProgram InlineProgram IterSpec
  MixModel MixSpec MixProofs MixProgram MixBalance Bombs BombProgram SparseBombs MixBombSpec MixBombs TempModel TempSpec TempMix
  OwnModel OwnSpec OwnProofs OwnMix WalkModel WalkSpec WalkProofs.

(** ** Kits with more methods *)
Section more.
Context {A op0 op1 opn op2 res obj st opx resx : Type}.
Context (K : kit A op0 op1 opn op2 res obj) (S : skit A op0 op1 opn op2 res st) (H : obj -> st -> Prop).
Context (old : res -> resx) (more : opx -> M A obj resx) (smore : opx -> st -> sres A st resx) (lg : opx -> st -> Prop).
Context (os : resx -> list A) (Hos : forall r, os (old r) = outs S r).
Notation K1 := (more1_kit K old more). Notation S1 := (more1_spec S old smore lg os).
Lemma more1_refines : (forall o y s g, H y s -> lg o s -> agrees H eq g (more o y g) (smore o s)) ->
  refines K S H -> refines K1 S1 H.
Proof.
  intros Hm R. constructor.
  - exact (ref0 _ _ _ R).
  - intros [o|o] y s g Hy HL; [|exact (Hm o y s g Hy HL)]. apply mapR_agrees_eq. exact (ref1 _ _ _ R o y s g Hy HL).
  - exact (refn _ _ _ R).
  - intros o y s g Hy HL. apply mapR_agrees_eq. exact (ref2 _ _ _ R o y s g Hy HL).
  - exact (refk _ _ _ R).
Qed.
Lemma more1_balanced : (forall o x, lg o x -> match smore o x with
    | SRet x' r d => Permutation (items S x) (items S x' ++ os r ++ d)
    | SPanic x' d k => Permutation (items S x) (items S x' ++ d ++ k) end) ->
  balanced S -> balanced S1.
Proof.
  intros Hm Hb. constructor.
  - exact (bal0 _ Hb).
  - intros [o|o] x HL; cbn; [|rewrite app_nil_r; exact (Hm o x HL)].
    pose proof (bal1 _ Hb o x HL) as P. destruct (spec1 S o x); cbn; rewrite ?Hos; exact P.
  - exact (baln _ Hb).
  - intros o x HL. cbn. pose proof (bal2 _ Hb o x HL) as P. destruct (spec2 S o x); cbn; rewrite ?Hos; exact P.
Qed.
Lemma more1_tight c : (forall o x x' d k, lg o x -> smore o x = SPanic x' d k -> k = []) ->
  match c with
  | Make o => tight S (Make o) | Call i (inl o) => tight S (Call i o) | Call _ (inr _) => True | Kill i => True
  | Spawn i o => tight S (Spawn i o) | Call2 i j o => tight S (Call2 i j o)
  end -> tight S1 c.
Proof.
  intros Hk HT s HL. destruct c as [o|i [o|o]|i o|i j o|i]; cbn [sstep legal] in *.
  - specialize (HT s HL). cbn [sstep] in HT. cbn. destruct (spec0 S o); exact HT.
  - specialize (HT s HL). cbn [sstep] in HT. destruct (s !! i) as [[x|]|]; auto. cbn. destruct (spec1 S o x); exact HT.
  - destruct (s !! i) as [[x|]|]; auto. cbn. specialize (Hk o x). destruct (smore o x); eauto.
  - specialize (HT s HL). cbn [sstep] in HT. destruct (s !! i) as [[x|]|]; auto. cbn. destruct (specn S o x); exact HT.
  - specialize (HT s HL). cbn [sstep] in HT. destruct (i =? j); auto. destruct (s !! i) as [[x|]|], (s !! j) as [[y|]|]; auto. cbn.
    destruct (spec2 S o (x, y)) as [[] ? ?|[] ? ?]; exact HT.
  - destruct (s !! i) as [[x|]|]; auto.
Qed.

Context (e : env A) (B : bkit A op0 op1 opn op2 res st) (bmore : opx -> st -> bres (A := A) st resx).
Notation B1 := (more1_bspec B old bmore).
Lemma more1_refinesb : (forall o y s g, H y s -> lg o s -> agreesb H eq g (more o y g) (bmore o s)) ->
  refinesb K S B H -> refinesb K1 S1 B1 H.
Proof.
  intros Hm R. constructor.
  - exact (rfb0 _ _ _ _ R).
  - intros [o|o] y s g Hy HL; [|exact (Hm o y s g Hy HL)]. apply mapR_agreesb_eq. exact (rfb1 _ _ _ _ R o y s g Hy HL).
  - exact (rfbn _ _ _ _ R).
  - intros o y s g Hy HL. apply mapR_agreesb_eq. exact (rfb2 _ _ _ _ R o y s g Hy HL).
  - exact (rfbk _ _ _ _ R).
Qed.
Lemma more1_balancedb : (forall o x, lg o x -> match bmore o x with
    | BRet x' r d => Permutation (items S x) (items S x' ++ os r ++ d)
    | BPanic x' d k => Permutation (items S x) (items S x' ++ d ++ k)
    | _ => True end) ->
  balancedb S B -> balancedb S1 B1.
Proof.
  intros Hm Hb. constructor.
  - exact (bbal0 _ _ Hb).
  - intros [o|o] x HL; cbn; [|rewrite app_nil_r; exact (Hm o x HL)].
    pose proof (bbal1 _ _ Hb o x HL) as P. destruct (bs1 B o x); cbn; rewrite ?Hos; exact P.
  - exact (bbaln _ _ Hb).
  - intros o x HL. cbn. pose proof (bbal2 _ _ Hb o x HL) as P. destruct (bs2 B o x); cbn; rewrite ?Hos; exact P.
  - exact (bbalk _ _ Hb).
Qed.
Definition more1_discards (D : op1 -> st -> Prop) (o : op1 + opx) : st -> Prop :=
  match o with inl o => D o | inr _ => fun _ => False end.
Lemma more1_known (D : op1 -> st -> Prop) : (forall o x, bmore o x <> BOpen) ->
  (forall p s, spares B D p s -> brun B p s <> BUnknown) ->
  forall p s, spares B1 (more1_discards D) p s -> brun B1 p s <> BUnknown.
Proof.
  intros Hm HK. destruct (known_calls B D HK) as (H0 & H1 & Hn & H2 & Hk).
  apply spares_known_weak; cbn [bs0 bs1 bsn bs2 bsk more1_bspec]; auto.
  - intros [o|o] x; cbn [more1_discards]; [|auto]. intros HD E. apply (H1 o x HD). destruct (bs1 B o x); cbn in E; congruence.
  - intros o x E. apply (H2 o x). destruct (bs2 B o x); cbn in E; congruence.
Qed.
End more.

(** ** The containers *)
Section mix.
Context {A : Type} (e : env A).
Notation obj := (mobj e).
Notation st := (mst e).
Notation MHolds := (MHolds e).
Notation mouts := (outs (mix_spec e)).
(** The programs of C83 with these calls. *)
Definition walk_kit : kit A (mop0 e) (mop1 A + walk_op A) (own_op e) (passed (mop2 A)) (wres A) obj :=
  more1_kit (own_kit e) WRes (run_walk e).
Definition walk_spec : skit A (mop0 e) (mop1 A + walk_op A) (own_op e) (passed (mop2 A)) (wres A) st :=
  more1_spec (own_spec e) WRes (spec_walk e) (legal_walk e) (wres_outs mouts).
Definition walk_bspec : bkit A (mop0 e) (mop1 A + walk_op A) (own_op e) (passed (mop2 A)) (wres A) st :=
  more1_bspec (own_bspec e) WRes (bspec_walk e).
Theorem walk_refines : calm e -> refines walk_kit walk_spec MHolds.
Proof. intros Hc. apply more1_refines; [intros; apply walk_agrees; assumption|exact (own_refines e Hc)]. Qed.
Theorem walk_balanced : balanced walk_spec.
Proof. apply more1_balanced; [reflexivity|intros; apply walk_balance; assumption|exact (own_balanced e)]. Qed.
Theorem walk_refinesb : refinesb walk_kit walk_spec walk_bspec MHolds.
Proof. apply more1_refinesb; [intros; apply walk_bombs; assumption|exact (own_refinesb e)]. Qed.
Theorem walk_balancedb : balancedb walk_spec walk_bspec.
Proof. apply more1_balancedb; [reflexivity|intros; apply walk_balanceb; assumption|exact (own_balancedb e)]. Qed.
Definition walk_discards : mop1 A + walk_op A -> st -> Prop := more1_discards (mix_discards e).
Theorem walk_known p s : spares walk_bspec walk_discards p s -> brun walk_bspec p s <> BUnknown.
Proof.
  apply more1_known; [|exact (own_known e)]. intros o x. unfold bspec_walk. cbv zeta. destruct (walk _ _ _); discriminate.
Qed.
(** Iterators deliver what they announce and cloning does not panic. *)
Definition wtruthful (c : cmd (mop0 e) (mop1 A + walk_op A) (own_op e) (passed (mop2 A))) : Prop :=
  match c with
  | Make o => otruthful e (Make o)
  | Call i (inl o) => otruthful e (Call i o)
  | Call _ (inr _) => True
  | Spawn i o => otruthful e (Spawn i o)
  | Call2 i j o => otruthful e (Call2 i j o)
  | Kill i => True
  end.
Lemma wtruthful_tight c : wtruthful c -> tight walk_spec c.
Proof.
  intros HT. apply more1_tight.
  - intros o x x' d k HL. unfold spec_walk. cbv zeta. destruct (walk _ _ _); congruence.
  - destruct c as [o|i [o|o]|i o|i j o|i]; try exact I; apply otruthful_tight; exact HT.
Qed.
End mix.
