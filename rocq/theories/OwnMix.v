(** * [y.into_iter().collect()] in programs that use several kinds of container. *)
From Verif Require Import Machine Spec Prims Program InlineModel InlineSpec ChunkProgram RingProgram SparseProgram InlineProgram SparseSpec SparseProofs SparseProofs2 SparseProofs3 LiveSparse IterSpec MixModel MixSpec MixProofs MixProgram MixBalance
  Bombs BombProgram MixBombSpec MixBombs TempModel TempSpec TempProofs TempMix OwnModel OwnSpec OwnProofs.

(** ** Kits with more operations *)
Section more.
Context {A op0 op1 opn op2 res obj st opx : Type}.
Context (K : kit A op0 op1 opn op2 res obj) (S : skit A op0 op1 opn op2 res st) (H : obj -> st -> Prop).
Context (more : opx -> M A obj obj) (smore : opx -> st -> sres A st st) (lg : opx -> st -> Prop).
Lemma more_refines : (forall o y s g, H y s -> lg o s -> agrees H H g (more o y g) (smore o s)) ->
  refines K S H -> refines (more_kit K more) (more_spec S smore lg) H.
Proof.
  intros Hm R. constructor.
  - exact (ref0 _ _ _ R).
  - exact (ref1 _ _ _ R).
  - intros [o|o] y s g Hy HL; [exact (refn _ _ _ R o y s g Hy HL)|exact (Hm o y s g Hy HL)].
  - exact (ref2 _ _ _ R).
  - exact (refk _ _ _ R).
Qed.
Lemma more_balanced : (forall o x, lg o x -> match smore o x with
    | SRet x' y d => Permutation (items S x) (items S x' ++ items S y ++ d)
    | SPanic x' d k => Permutation (items S x) (items S x' ++ d ++ k) end) ->
  balanced S -> balanced (more_spec S smore lg).
Proof.
  intros Hm Hb. constructor.
  - exact (bal0 _ Hb).
  - exact (bal1 _ Hb).
  - intros [o|o] x HL; [exact (baln _ Hb o x HL)|]. cbn. rewrite app_nil_r. exact (Hm o x HL).
  - exact (bal2 _ Hb).
Qed.
Lemma more_tight c : (forall o x x' d k, lg o x -> smore o x = SPanic x' d k -> k = []) ->
  match c with
  | Make o => tight S (Make o) | Call i o => tight S (Call i o) | Kill i => True
  | Spawn i (inl o) => tight S (Spawn i o) | Spawn _ (inr _) => True
  | Call2 i j o => tight S (Call2 i j o)
  end -> tight (more_spec S smore lg) c.
Proof.
  intros Hk HT s HL. destruct c as [o|i o|i [o|o]|i j o|i]; cbn [sstep legal] in *; try exact (HT s HL).
  - destruct (s !! i) as [[x|]|]; auto. cbn. specialize (Hk o x). destruct (smore o x); eauto.
  - destruct (s !! i) as [[x|]|]; auto.
Qed.

Context (e : env A) (B : bkit A op0 op1 opn op2 res st).
Lemma more_refinesb : (forall o y s g, H y s -> lg o s -> agreesb H H g (more o y g) (with_bombs e (smore o s))) ->
  refinesb K S B H -> refinesb (more_kit K more) (more_spec S smore lg) (more_bspec e B smore) H.
Proof.
  intros Hm R. constructor.
  - exact (rfb0 _ _ _ _ R).
  - exact (rfb1 _ _ _ _ R).
  - intros [o|o] y s g Hy HL; [exact (rfbn _ _ _ _ R o y s g Hy HL)|exact (Hm o y s g Hy HL)].
  - exact (rfb2 _ _ _ _ R).
  - exact (rfbk _ _ _ _ R).
Qed.
Lemma more_balancedb : (forall o x, lg o x -> match smore o x with
    | SRet x' y d => Permutation (items S x) (items S x' ++ items S y ++ d)
    | SPanic x' d k => Permutation (items S x) (items S x' ++ d ++ k) end) ->
  balancedb S B -> balancedb (more_spec S smore lg) (more_bspec e B smore).
Proof.
  intros Hm Hb. constructor.
  - exact (bbal0 _ _ Hb).
  - exact (bbal1 _ _ Hb).
  - intros [o|o] x HL; [exact (bbaln _ _ Hb o x HL)|]. cbn. specialize (Hm o x HL). rewrite app_nil_r.
    destruct (smore o x); cbn; destruct (existsb _ _); auto.
  - exact (bbal2 _ _ Hb).
  - exact (bbalk _ _ Hb).
Qed.
Lemma more_known (D : op1 -> st -> Prop) : (forall o x, with_bombs e (smore o x) <> BOpen) ->
  (forall p s, spares B D p s -> brun B p s <> BUnknown) ->
  forall p s, spares (more_bspec e B smore) D p s -> brun (more_bspec e B smore) p s <> BUnknown.
Proof.
  intros Hm HK. destruct (known_calls B D HK) as (H0 & H1 & Hn & H2 & Hk).
  apply spares_known_weak; cbn [bs0 bs1 bsn bs2 bsk more_bspec]; auto. intros [o|o] x; [apply Hn|apply Hm].
Qed.
End more.

(** ** The containers *)
Section mix.
Context {A : Type} (e : env A).
Notation obj := (mobj e).
Notation st := (mst e).
Notation MHolds := (MHolds e).
Notation empty := (m_empty e).
Lemma taking_agreesb m y s g (b : bres (A := A) st st) :
  MHolds y s -> match b with BRet s' _ _ | BPanic s' _ _ => s' = empty s | _ => True end ->
  (forall g, agreesb (fun _ _ => True) MHolds g (m y g) b) ->
  agreesb MHolds MHolds g (m_taking e (m_fresh e) m y g) b.
Proof.
  intros Hy Hb Hm. unfold m_taking. destruct (m_fresh_ok e y s g Hy) as (u & g0 & z & E0 & _ & Hz & D0 & L0). rewrite E0. rewrite app_nil_r in D0.
  specialize (Hm g0). destruct b as [s' n d|s' d k| |]; cbn in Hm |- *; auto.
  - subst s'. destruct Hm as (y' & g1 & n' & E & _ & Hn & D & L). rewrite E. exists z, g1, n'. repeat split; auto; congruence.
  - subst s'. destruct Hm as (y' & g1 & k' & E & _ & D & L & P). rewrite E. exists z, g1, k'. repeat split; auto; congruence.
  - rewrite Hm. reflexivity.
Qed.
Lemma into_empty o s : legal_into e o s ->
  match spec_into e empty o s with SRet s' _ d => s' = empty s /\ d = [] | SPanic s' _ k => s' = empty s /\ k = [] end.
Proof.
  destruct o as [sd t|sd k|k]; cbn [spec_into legal_into]; intros HL.
  - unfold mix_into. destruct (_ <=? _); auto.
  - unfold mix_into_sparse. destruct (_ <=? _); auto.
  - destruct s; cbn [mix_into_cells]; try contradiction. destruct (values _); auto.
Qed.
Lemma into_bombs o y s g : MHolds y s -> legal_into e o s ->
  agreesb MHolds MHolds g (run_into e (m_fresh e) o y g) (with_bombs e (spec_into e empty o s)).
Proof.
  intros Hy HL. unfold run_into. apply (taking_agreesb _ y s); [exact Hy| |].
  - pose proof (into_empty o s HL) as P. destruct (spec_into e empty o s); cbn; destruct (existsb _ _); tauto.
  - intros g1. destruct o as [sd t|sd k|k]; cbn [spec_into legal_into] in *.
    + apply m_into_bombs; assumption.
    + apply m_into_sparse_bombs; assumption.
    + apply m_into_cells_bombs; assumption.
Qed.
Lemma into_agrees o y s g : calm e -> MHolds y s -> legal_into e o s ->
  agrees MHolds MHolds g (run_into e (m_fresh e) o y g) (spec_into e empty o s).
Proof.
  intros Hc Hy HL. pose proof (into_bombs o y s g Hy HL) as P.
  assert (N : forall d, existsb (bomb e) d = false).
  { induction d as [|a d IH]; [reflexivity|]. cbn. rewrite Hc. exact IH. }
  destruct (spec_into e empty o s); cbn in P; rewrite N in P; exact P.
Qed.
Lemma queue_items sd (s : st) : Permutation (queue e sd s) (m_items e s).
Proof. destruct sd; cbn; [reflexivity|]. symmetry. apply Permutation_rev. Qed.
Lemma into_balance o s : legal_into e o s -> match spec_into e empty o s with
    | SRet s' n d => Permutation (m_items e s) (m_items e s' ++ m_items e n ++ d)
    | SPanic s' d k => Permutation (m_items e s) (m_items e s' ++ d ++ k) end.
Proof.
  assert (He : m_items e (empty s) = []) by exact (m_empty_items e s).
  assert (Hp : forall sd N, iterates e sd s -> Permutation (m_items e s)
    (take 1 (drop N (queue e sd s)) ++ m_items e (after e sd (Datatypes.S N) s) ++ take N (queue e sd s))).
  { intros sd N Hi. rewrite <- (queue_items sd s) at 1. rewrite <- (queue_items sd (after e sd _ s)), queue_after by exact Hi.
    rewrite <- (take_drop N (queue e sd s)) at 1. rewrite <- (take_drop 1 (drop N (queue e sd s))) at 1.
    rewrite drop_drop. replace (N + 1) with (Datatypes.S N) by lia. perm. }
  destruct o as [sd t|sd k|k]; cbn [spec_into legal_into]; intros HL.
  - unfold mix_into. destruct (_ <=? _) eqn:El; rewrite He; cbn [app]; rewrite app_nil_r.
    + rewrite <- (queue_items sd s). destruct t; cbn; reflexivity.
    + apply Hp. exact HL.
  - unfold mix_into_sparse. destruct (_ <=? _) eqn:El; rewrite He; cbn [app m_items]; rewrite app_nil_r.
    + rewrite values_app, values_no_cells, values_map_some, app_nil_r. symmetry. apply queue_items.
    + apply Hp. exact HL.
  - destruct s as [|k1 s|k2 s|]; cbn [mix_into_cells] in *; try contradiction.
    destruct (values (drop (`k) s)) as [|v late] eqn:Ev; rewrite He; cbn [app m_items]; rewrite app_nil_r.
    + rewrite take_padded, values_app, values_no_cells, app_nil_r. rewrite <- (take_drop (`k) s) at 1. rewrite values_app, Ev, app_nil_r. reflexivity.
    + rewrite <- (take_drop (`k) s) at 1. rewrite values_app, Ev. perm.
Qed.

Definition own_op := (passed (mopn e) + into_op e)%type.
(** The programs of C82 with these calls. *)
Definition own_kit : kit A (mop0 e) (mop1 A) own_op (passed (mop2 A)) (mres A) obj :=
  more_kit (temp_kit (mix_kit e) (m_fresh e)) (run_into e (m_fresh e)).
Definition own_spec : skit A (mop0 e) (mop1 A) own_op (passed (mop2 A)) (mres A) st :=
  more_spec (temp_spec (mix_spec e) empty) (spec_into e empty) (legal_into e).
Definition own_bspec : bkit A (mop0 e) (mop1 A) own_op (passed (mop2 A)) (mres A) st :=
  more_bspec e (temp_bspec (mix_bspec e) empty) (spec_into e empty).
Theorem own_refines : calm e -> refines own_kit own_spec MHolds.
Proof. intros Hc. apply more_refines; [intros; apply into_agrees; assumption|exact (mix_temp_refines e Hc)]. Qed.
Theorem own_balanced : balanced own_spec.
Proof. apply more_balanced; [intros; apply into_balance; assumption|exact (mix_temp_balanced e)]. Qed.
Theorem own_refinesb : refinesb own_kit own_spec own_bspec MHolds.
Proof. apply more_refinesb; [intros; apply into_bombs; assumption|exact (mix_temp_refinesb e)]. Qed.
Theorem own_balancedb : balancedb own_spec own_bspec.
Proof. apply more_balancedb; [intros; apply into_balance; assumption|exact (mix_temp_balancedb e)]. Qed.
Theorem own_known p s : spares own_bspec (mix_discards e) p s -> brun own_bspec p s <> BUnknown.
Proof.
  apply more_known; [|exact (temp_known (m_empty e) (mix_bspec e) (mix_discards e) (mix_known e))].
  intros o x. unfold spec_into, mix_into, mix_into_sparse, mix_into_cells. destruct o as [sd t|sd k|k]; [| |destruct x as [k0 l|k0 l|k0 l|k0 l]].
  all: repeat (match goal with |- context [if ?b then SRet _ _ _ else _] => destruct b end); cbn; try discriminate;
    try (destruct (existsb _ _); discriminate).
  destruct (values (drop (`k) l)); cbn; try discriminate. destruct (_ || _); discriminate.
Qed.
(** Iterators deliver what they announce and cloning does not panic. *)
Definition otruthful (c : cmd (mop0 e) (mop1 A) own_op (passed (mop2 A))) : Prop :=
  match c with
  | Call _ (M1Chunk (CInsertFrom _ n it)) | Call _ (M1Ring (BInsertFrom _ n it)) => length (yields n it) = n
  | Spawn _ (inl (ByRef (MnInline (IClone _ cl)))) | Spawn _ (inl (Temp (MnInline (IClone _ cl)))) => forall k a, cl k a <> None
  | _ => True
  end.
Lemma otruthful_tight c : otruthful c -> tight own_spec c.
Proof.
  intros HT. apply more_tight.
  - intros o x x' d k HL E. pose proof (into_empty o x HL) as P. rewrite E in P. tauto.
  - destruct c as [o|i o|i [o|o]|i j o|i]; try exact I; apply ttruthful_tight; exact HT.
Qed.
End mix.
