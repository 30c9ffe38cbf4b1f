(** * Programs that use several kinds of container at once: values are conserved. *)
From Verif Require Import Machine Spec Prims Program InlineModel InlineSpec SparseSpec SparseProofs SparseProofs3 LiveSparse
  IterSpec SpecProps ChunkProgram RingProgram SparseProgram InlineProgram MixModel MixSpec MixProofs MixProgram.

Section mix.
Context {A : Type} (e : env A).
Notation st := (mst e).

Lemma items_after sd n (x : st) : iterates e sd x -> Permutation (m_items e (after e sd n x)) (drop n (queue e sd x)).
Proof. intros Hi. rewrite <- (queue_perm e sd), queue_after by exact Hi. reflexivity. Qed.
Lemma items_split sd n (x : st) : iterates e sd x -> n <= length (queue e sd x) ->
  Permutation (m_items e x) (take n (queue e sd x) ++ m_items e (after e sd n x)).
Proof. intros Hi Hn. rewrite items_after by exact Hi. rewrite take_drop. symmetry. apply queue_perm. Qed.
Lemma items_fresh t (l : list A) : m_items e (fresh e t l) = l. Proof. destruct t; reflexivity. Qed.
Lemma items_with (x : st) l : is_list e x -> m_items e (with_items e x l) = l. Proof. destruct x; cbn; tauto. Qed.
Lemma values_app (s t : list (option A)) : values (s ++ t) = values s ++ values t.
Proof. induction s as [|x s IH]; cbn [app]; [reflexivity|]. rewrite !values_cons, IH. apply app_assoc. Qed.
Lemma take_more {X} n (l : list X) : take (S n) l = take n l ++ take 1 (drop n l).
Proof. rewrite <- (Nat.add_1_r n). rewrite firstn_skipn_comm, <- (take_drop n (take (n + 1) l)) at 1. rewrite take_take. f_equal. f_equal. lia. Qed.

Lemma extend_balanced sd (x y : st) : is_list e x -> iterates e sd y -> match mix_extend e sd x y with
  | SRet x' r d => Permutation (m_items e x ++ m_items e y) (m_items e x'.1 ++ m_items e x'.2 ++ d)
  | SPanic x' d k => Permutation (m_items e x ++ m_items e y) (m_items e x'.1 ++ m_items e x'.2 ++ d ++ k) end.
Proof.
  intros Hl Hi. unfold mix_extend. set (room := m_cap e x - length (m_items e x)). destruct (_ <=? room) eqn:El; cbn [fst snd].
  - rewrite items_with by exact Hl. rewrite (items_split sd (length (queue e sd y)) y Hi) by lia. rewrite take_ge by lia. perm.
  - rewrite items_with by exact Hl. rewrite (items_split sd (S room) y Hi) by lia. rewrite take_more. perm.
Qed.
Lemma insert_from_balanced sd i (x y : st) : is_list e x -> iterates e sd y -> match mix_insert_from e sd i x y with
  | SRet x' r d => Permutation (m_items e x ++ m_items e y) (m_items e x'.1 ++ m_items e x'.2 ++ d)
  | SPanic x' d k => Permutation (m_items e x ++ m_items e y) (m_items e x'.1 ++ m_items e x'.2 ++ d ++ k) end.
Proof.
  intros Hl Hi. unfold mix_insert_from. destruct (_ && _) eqn:El; cbn [fst snd]; [|perm].
  rewrite items_with by exact Hl. rewrite (items_split sd (length (queue e sd y)) y Hi) by lia. rewrite take_ge by lia.
  rewrite <- (take_drop i (m_items e x)) at 1. perm.
Qed.
Lemma collect_balanced sd t (y : st) : iterates e sd y -> match mix_collect e sd t y with
  | SRet x' r d => Permutation (m_items e y) (m_items e x' ++ m_items e r ++ d)
  | SPanic x' d k => Permutation (m_items e y) (m_items e x' ++ d ++ k) end.
Proof.
  intros Hi. unfold mix_collect. destruct (_ <=? _) eqn:El.
  - rewrite items_fresh. rewrite (items_split sd (length (queue e sd y)) y Hi) at 1 by lia. rewrite take_ge by lia. perm.
  - rewrite (items_split sd (S (target_cap e t)) y Hi) by lia. rewrite take_more. perm.
Qed.
Lemma collect_from_balanced sd t n (y : st) : iterates e sd y -> match mix_collect_from e sd t n y with
  | SRet x' r d => Permutation (m_items e y) (m_items e x' ++ m_items e r ++ d)
  | SPanic x' d k => Permutation (m_items e y) (m_items e x' ++ d ++ k) end.
Proof.
  intros Hi. unfold mix_collect_from. set (l := queue e sd y). set (N := target_cap e t). destruct (_ && _) eqn:El.
  - rewrite items_fresh. rewrite (items_split sd n y Hi) at 1 by (fold l; lia). fold l. perm.
  - rewrite (items_split sd (n `min` S N `min` length l) y Hi) by (fold l; lia). fold l.
    assert (E : take (n `min` S N `min` length l) l = take N (take n l) ++ take 1 (drop N (take n l))).
    { rewrite <- take_more, take_take. destruct (decide (n `min` S N <= length l)); [f_equal; lia|]. rewrite !take_ge by lia. reflexivity. }
    rewrite E. perm.
Qed.
Lemma collect_sparse_balanced sd k (y : st) : iterates e sd y -> match mix_collect_sparse e sd k y with
  | SRet x' r d => Permutation (m_items e y) (m_items e x' ++ m_items e r ++ d)
  | SPanic x' d k => Permutation (m_items e y) (m_items e x' ++ d ++ k) end.
Proof.
  intros Hi. unfold mix_collect_sparse. destruct (_ <=? _) eqn:El.
  - cbn [m_items]. rewrite values_app, values_map_some, values_no_cells.
    rewrite (items_split sd (length (queue e sd y)) y Hi) at 1 by lia. rewrite take_ge by lia. perm.
  - rewrite (items_split sd (S (`k)) y Hi) by lia. rewrite take_more. perm.
Qed.
Lemma collect_cells_balanced k (y : st) : match mix_collect_cells e k y with
  | SRet x' r d => Permutation (m_items e y) (m_items e x' ++ m_items e r ++ d)
  | SPanic x' d k => Permutation (m_items e y) (m_items e x' ++ d ++ k) end.
Proof.
  unfold mix_collect_cells. destruct y as [k2 s|k2 s|k2 s|k2 s]; try (cbn; perm).
  pose proof (entries_first (drop (`k) s) 0) as P. fold (entries (drop (`k) s)) in P.
  destruct (entries (drop (`k) s)) as [|[j v] es]; cbn [m_items].
  - rewrite take_padded, values_app, !values_no_cells. rewrite <- (take_drop (`k) s) at 1. rewrite values_app, P. perm.
  - destruct P as [_ P]. rewrite Nat.sub_0_r in P. rewrite values_app, values_no_cells.
    rewrite <- (take_drop (`k) s) at 1. rewrite values_app, P, values_app, values_no_cells, values_cons, drop_drop.
    replace (`k + S j) with (`k + j + 1) by lia. match goal with |- context [option_list (Some ?x)] => change (option_list (Some x)) with [x] end. perm.
Qed.
Lemma convert_balanced N (l : list A) : match bl_convert N l with
  | SRet x' r d => Permutation l (x' ++ r ++ d) | SPanic x' d k => Permutation l (x' ++ d ++ k) end.
Proof. unfold bl_convert. destruct (_ <=? _); cbn; perm. Qed.

Theorem mix_balanced : balanced (mix_spec e).
Proof.
  constructor.
  - intros [k o|k o|k o|k o]; cbn [spec0 given0 mix_spec items].
    + pose proof (bal0 _ (chunk_balanced e (`k)) o) as P. destruct (spec0 _ _); exact P.
    + pose proof (bal0 _ (ring_balanced e (`k)) o) as P. destruct (spec0 _ _); exact P.
    + pose proof (bal0 _ (array_balanced e (`k) (proj2_sig k)) o) as P. destruct (spec0 _ _); exact P.
    + pose proof (bal0 _ (ia_balanced (capacity e (`k))) o) as P. destruct (spec0 _ _); exact P.
  - intros o x Hl. destruct o as [o|o|o|o], x as [k l|k l|k l|k l]; cbn [legal1 mix_spec] in Hl; try contradiction;
      cbn [spec1 given1 mix_spec items outs].
    + pose proof (bal1 _ (chunk_balanced e (`k)) o l Hl) as P. destruct (spec1 _ _ _); exact P.
    + pose proof (bal1 _ (ring_balanced e (`k)) o l Hl) as P. destruct (spec1 _ _ _); exact P.
    + pose proof (bal1 _ (array_balanced e (`k) (proj2_sig k)) o l I) as P. destruct (spec1 _ _ _); exact P.
    + pose proof (bal1 _ (ia_balanced (capacity e (`k))) o l Hl) as P. destruct (spec1 _ _ _); exact P.
  - intros o x Hl. destruct o as [o|o|o|o|kc|sd t|sd t n|sd k|k].
    6: { pose proof (collect_balanced sd t x Hl) as P. cbn [specn givenn mix_spec items]. rewrite app_nil_r. exact P. }
    6: { destruct Hl as [Hl _]. pose proof (collect_from_balanced sd t n x Hl) as P. cbn [specn givenn mix_spec items]. rewrite app_nil_r. exact P. }
    6: { pose proof (collect_sparse_balanced sd k x Hl) as P. cbn [specn givenn mix_spec items]. rewrite app_nil_r. exact P. }
    6: { pose proof (collect_cells_balanced k x) as P. cbn [specn givenn mix_spec items]. rewrite app_nil_r. exact P. }
    all: destruct x as [k l|k l|k l|k l]; cbn [legaln mix_spec] in Hl; try contradiction;
      cbn [specn givenn mix_spec items outs].
    + pose proof (baln _ (chunk_balanced e (`k)) o l Hl) as P. destruct (specn _ _ _); exact P.
    + pose proof (baln _ (ring_balanced e (`k)) o l Hl) as P. destruct (specn _ _ _); exact P.
    + pose proof (baln _ (array_balanced e (`k) (proj2_sig k)) o l I) as P. destruct (specn _ _ _); exact P.
    + pose proof (baln _ (ia_balanced (capacity e (`k))) o l I) as P. destruct (specn _ _ _); exact P.
    + pose proof (convert_balanced (`kc) l) as P. rewrite app_nil_r. destruct (bl_convert _ _); exact P.
  - intros o [x y] Hl. destruct o as [o|o|o|o|sd|sd i|eqA].
    5: { destruct Hl as [H1 H2]. pose proof (extend_balanced sd x y H1 H2) as P. cbn [spec2 mix_spec items outs fst snd] in *.
         destruct (mix_extend _ _ _ _); exact P. }
    5: { destruct Hl as (H1 & H2 & _). assert (L1 : is_list e x) by (destruct x; cbn in *; tauto). assert (L2 : iterates e sd y) by (destruct y, sd; cbn in *; tauto).
         pose proof (insert_from_balanced sd i x y L1 L2) as P. cbn [spec2 mix_spec items outs fst snd] in *.
         destruct (mix_insert_from _ _ _ _ _); exact P. }
    5: { cbn [spec2 mix_spec items outs fst snd]. cbn. perm. }
    all: destruct x as [k l|k l|k l|k l], y as [k2 l2|k2 l2|k2 l2|k2 l2]; cbn [legal2 mix_spec fst snd same_kind] in Hl;
      try (exfalso; tauto); destruct Hl as [Ek Hl]; try contradiction; cbn [spec2 mix_spec items outs fst snd].
    + pose proof (bal2 _ (chunk_balanced e (`k)) o (l, l2) Hl) as P. cbn [fst snd] in P. destruct (spec2 _ _ _); exact P.
    + pose proof (bal2 _ (ring_balanced e (`k)) o (l, l2) Hl) as P. cbn [fst snd] in P. destruct (spec2 _ _ _); exact P.
    + pose proof (bal2 _ (array_balanced e (`k) (proj2_sig k)) o (l, l2) I) as P. cbn [fst snd] in P. destruct (spec2 _ _ _); exact P.
    + pose proof (bal2 _ (ia_balanced (capacity e (`k))) o (l, l2) I) as P. cbn [fst snd] in P. destruct (spec2 _ _ _); exact P.
Qed.

(** ** Programs that leak nothing: iterators given to [insert_from] deliver as many items as they announce, and cloning an
    element of an inline array does not panic. *)
Definition mtruthful (c : cmd (mop0 e) (mop1 A) (mopn e) (mop2 A)) : Prop :=
  match c with
  | Call _ (M1Chunk (CInsertFrom _ n it)) | Call _ (M1Ring (BInsertFrom _ n it)) => length (yields n it) = n
  | Spawn _ (MnInline (IClone _ cl)) => forall k a, cl k a <> None
  | _ => True
  end.
Definition no_leak {S R} (s : sres A S R) : Prop := match s with SRet _ _ _ => True | SPanic _ _ k => k = [] end.
Section from_tight.
Context {op0 op1 opn op2 res s0 : Type} (S : skit A op0 op1 opn op2 res s0).
Lemma tight_call0 o : tight S (Make o) -> no_leak (spec0 S o).
Proof. intros T. specialize (T [] I). cbn in T. unfold no_leak. destruct (spec0 S o); auto. Qed.
Lemma tight_call1 o l : tight S (Call 0 o) -> legal1 S o l -> no_leak (spec1 S o l).
Proof. intros T HL. specialize (T [Some l] HL). cbn in T. unfold no_leak. destruct (spec1 S o l); auto. Qed.
Lemma tight_calln o l : tight S (Spawn 0 o) -> legaln S o l -> no_leak (specn S o l).
Proof. intros T HL. specialize (T [Some l] HL). cbn in T. unfold no_leak. destruct (specn S o l); auto. Qed.
Lemma tight_call2 o l l2 : tight S (Call2 0 1 o) -> legal2 S o (l, l2) -> no_leak (spec2 S o (l, l2)).
Proof. intros T HL. specialize (T [Some l; Some l2] HL). cbn in T. unfold no_leak. destruct (spec2 S o (l, l2)) as [[]|[]]; auto. Qed.
Lemma tight_of (c : cmd op0 op1 opn op2) :
  match c with
  | Make o => no_leak (spec0 S o)
  | Call _ o => forall l, legal1 S o l -> no_leak (spec1 S o l)
  | Spawn _ o => forall l, legaln S o l -> no_leak (specn S o l)
  | Call2 _ _ o => forall l l2, legal2 S o (l, l2) -> no_leak (spec2 S o (l, l2))
  | Kill _ => True
  end -> tight S c.
Proof.
  intros T s HL. destruct c as [o|i o|i o|i j o|i]; cbn [sstep legal] in *.
  - unfold no_leak in T. destruct (spec0 S o); auto.
  - destruct (s !! i) as [[x|]|]; auto. specialize (T x HL). unfold no_leak in T. destruct (spec1 S o x); auto.
  - destruct (s !! i) as [[x|]|]; auto. specialize (T x HL). unfold no_leak in T. destruct (specn S o x); auto.
  - destruct (i =? j); auto. destruct (s !! i) as [[x|]|]; auto. destruct (s !! j) as [[y|]|]; auto.
    specialize (T x y HL). unfold no_leak in T. destruct (spec2 S o (x, y)) as [[]|[]]; auto.
  - destruct (s !! i) as [[x|]|]; auto.
Qed.
End from_tight.
Lemma no_leak_smap {S R T} (f : R -> T) (s : sres A S R) : no_leak s -> no_leak (smapR f s). Proof. destruct s; auto. Qed.
Lemma no_leak_kind {S R} (f : S -> st) (s : sres A S R) : no_leak s -> no_leak (sas_kind e f s). Proof. destruct s; auto. Qed.
Lemma no_leak_kind2 {S R} (f f2 : S -> st) (s : sres A (S * S) R) : no_leak s -> no_leak (sas_kind2 e f f2 s). Proof. destruct s; auto. Qed.
Lemma mtruthful_tight c : mtruthful c -> tight (mix_spec e) c.
Proof.
  intros HT. apply tight_of. destruct c as [o|i o|i o|i j o|i]; [| | | |exact I].
  - destruct o as [k o|k o|k o|k o]; cbn [spec0 mix_spec]; apply no_leak_smap, tight_call0.
    + apply truthful_tight. exact I.
    + apply rtruthful_tight. exact I.
    + apply (array_tight e (`k) (proj2_sig k)).
    + apply clones_all_tight. exact I.
  - intros x HL. destruct o as [o|o|o|o], x as [k l|k l|k l|k l]; cbn [legal1 mix_spec] in HL; try contradiction;
      cbn [spec1 mix_spec]; apply no_leak_kind, no_leak_smap, tight_call1; try exact HL.
    + apply truthful_tight. destruct o; exact HT || exact I.
    + apply rtruthful_tight. destruct o; exact HT || exact I.
    + apply (array_tight e (`k) (proj2_sig k)).
    + apply clones_all_tight. exact I.
  - intros x HL. destruct o as [o|o|o|o|kc|sd t|sd t n|sd k|k].
    6: { cbn. unfold mix_collect. destruct (_ <=? _); reflexivity || exact I. }
    6: { cbn. unfold mix_collect_from. destruct (_ && _); reflexivity || exact I. }
    6: { cbn. unfold mix_collect_sparse. destruct (_ <=? _); reflexivity || exact I. }
    6: { cbn. unfold mix_collect_cells. destruct x; try reflexivity. destruct (entries _) as [|[]]; reflexivity || exact I. }
    all: destruct x as [k l|k l|k l|k l]; cbn [legaln mix_spec] in HL; try contradiction; cbn [specn mix_spec]; apply no_leak_kind, no_leak_smap.
    + apply tight_calln; [|exact HL]. apply truthful_tight. exact I.
    + apply tight_calln; [|exact HL]. apply rtruthful_tight. exact I.
    + apply tight_calln; [|exact HL]. apply (array_tight e (`k) (proj2_sig k)).
    + apply tight_calln; [|exact HL]. apply clones_all_tight. destruct o; exact HT || exact I.
    + unfold bl_convert. destruct (_ <=? _); reflexivity || exact I.
  - intros x y HL. destruct o as [o|o|o|o|sd|sd i0|eqA].
    5: { cbn. apply no_leak_smap. unfold mix_extend. destruct (_ <=? _); reflexivity || exact I. }
    5: { cbn. apply no_leak_smap. unfold mix_insert_from. destruct (_ && _); reflexivity || exact I. }
    5: exact I.
    all: destruct x as [k l|k l|k l|k l], y as [k2 l2|k2 l2|k2 l2|k2 l2]; cbn [legal2 mix_spec fst snd same_kind] in HL;
      try (exfalso; tauto); destruct HL as [Ek HL]; try contradiction; cbn [spec2 mix_spec fst snd]; apply no_leak_kind2, no_leak_smap.
    + apply tight_call2; [|exact HL]. apply truthful_tight. exact I.
    + apply tight_call2; [|exact HL]. apply rtruthful_tight. exact I.
    + apply tight_call2; [|exact I]. apply (array_tight e (`k) (proj2_sig k)).
    + apply tight_call2; [|exact I]. apply clones_all_tight. exact I.
Qed.

(** ** All programs. *)
Notation prog := (list (cmd (mop0 e) (mop1 A) (mopn e) (mop2 A))).
Theorem mix_program (p : prog) : calm e -> all_legal (mix_spec e) p [] ->
  exists X g, run (mix_kit e) p [] log0 = Some (X, g, s_events (srun (mix_spec e) p [])) /\
    Forall2 (orel (MHolds e)) X (s_store (srun (mix_spec e) p [])) /\
    dropped g = s_dropped (srun (mix_spec e) p []) /\
    Permutation (leaked g) (s_leaked (srun (mix_spec e) p [])).
Proof.
  intros Hc HL. destruct (run_sim _ _ _ (mix_refines e Hc) p [] [] log0 (Forall2_nil _) HL) as (X & g & k & E & H & D & L & P).
  exists X, g. split; [exact E|]. split; [exact H|]. split; [exact D|]. rewrite L. symmetry. exact P.
Qed.
Theorem mix_conservation (p : prog) : calm e -> all_legal (mix_spec e) p [] ->
  exists X g evs, run (mix_kit e) p [] log0 = Some (X, g, evs) /\
    Permutation (s_given (srun (mix_spec e) p []))
      (live (mix_spec e) (s_store (srun (mix_spec e) p [])) ++ returned (mix_spec e) evs ++ dropped g ++ leaked g) /\
    (Forall mtruthful p -> leaked g = []).
Proof.
  intros Hc HL. destruct (mix_program p Hc HL) as (X & g & E & H & D & P). exists X, g, (s_events (srun (mix_spec e) p [])). split; [exact E|].
  split; [rewrite P, D; exact (srun_balanced _ mix_balanced p [] HL)|].
  intros HT. rewrite (srun_tight (mix_spec e) p) in P; [|eapply List.Forall_impl; [exact mtruthful_tight|exact HT]|exact HL].
  apply Permutation_nil. symmetry. exact P.
Qed.
End mix.
