(** * Containers of containers: nothing is lost and nothing is duplicated. *)
From Verif Require Import Machine Spec Prims Program InlineModel InlineSpec SparseSpec SparseProofs IterSpec MixModel MixSpec MixProofs MixProgram MixBalance ChunkProgram
  RingProgram SparseProgram InlineProgram TempModel TempSpec TempMix OwnModel OwnSpec OwnMix WalkModel WalkSpec WalkMix NestModel NestSpec.

Section nest.
Context {A : Type} (e : env A).
Notation st := (mst e).
Notation Es := (outer_senv e).
Notation its := (flat_map (m_items e)).

Lemma its_perm (l l2 : list st) : Permutation l l2 -> Permutation (its l) (its l2).
Proof. apply Permutation_flat_map. Qed.
Lemma list_elem (l : list st) i v : l !! i = Some v ->
  exists rest, Permutation l (v :: rest) /\ forall v', Permutation (<[i := v']> l) (v' :: rest).
Proof.
  intros E. exists (take i l ++ drop (S i) l). pose proof (lookup_lt_Some _ _ _ E) as Hi. split.
  - rewrite <- (take_drop_middle l i v E) at 1. symmetry. apply Permutation_middle.
  - intros v'. rewrite insert_take_drop by exact Hi. symmetry. apply Permutation_middle.
Qed.
Lemma cells_elem (s : list (option st)) i v : s !! i = Some (Some v) ->
  exists rest, Permutation (values s) (v :: rest) /\ forall v', Permutation (values (<[i := Some v']> s)) (v' :: rest).
Proof.
  intros E. pose proof (lookup_lt_Some _ _ _ E) as Hi.
  exists (values (take i s) ++ values (drop (S i) s)). split.
  - rewrite <- (take_drop_middle s i _ E) at 1. rewrite values_app. change (Some v :: drop (S i) s) with ([Some v] ++ drop (S i) s).
    rewrite values_app. symmetry. apply Permutation_middle.
  - intros v'. rewrite insert_take_drop by exact Hi. rewrite values_app.
    change (Some v' :: drop (S i) s) with ([Some v'] ++ drop (S i) s).
    rewrite values_app. symmetry. apply Permutation_middle.
Qed.
Lemma elem_items i (x : mst Es) v : elem e i x = Some v ->
  exists rest, Permutation (m_items Es x) (v :: rest) /\ forall v', Permutation (m_items Es (with_elem e i v' x)) (v' :: rest).
Proof.
  destruct x as [k l|k l|k l|k l]; cbn [elem with_elem m_items].
  1-2,4: apply list_elem.
  destruct (l !! i) as [[w|]|] eqn:E; cbn; try discriminate. intros E2. injection E2 as <-. exact (cells_elem l i w E).
Qed.
Lemma elem_its i (x : mst Es) v : elem e i x = Some v ->
  exists rest, Permutation (its (m_items Es x)) (m_items e v ++ rest) /\
    forall v', Permutation (its (m_items Es (with_elem e i v' x))) (m_items e v' ++ rest).
Proof.
  intros E. destruct (elem_items i x v E) as (rest & P & Q). exists (its rest). split.
  - rewrite (its_perm _ _ P). reflexivity.
  - intros v'. rewrite (its_perm _ _ (Q v')). reflexivity.
Qed.

(** The calls on outer containers are given no values, return at most one, and lose none. *)
Notation small r n := (length (m_outs r) <= n).
Ltac ops := cbn [spec1 spec2 specn mix_spec chunk_spec ring_spec array_spec ia_spec fst snd];
  unfold bl_push_front, bl_push_back, bl_insert, ar_insert, bl_pop_front, bl_pop_back, bl_try_pop_front, bl_try_pop_back, bl_remove,
    bl_try_remove, ar_pop, ar_remove, bl_clear, bl_drop_left, bl_drop_right, bl_split_off, bl_append;
  repeat (match goal with |- context [if ?b then _ else _] => destruct b
                     | |- context [match ?x with Some _ => _ | None => _ end] => destruct x
                     | |- context [match ?x with [] => _ | _ :: _ => _ end] => destruct x
                     | |- context [match ?x with (_, _) => _ end] => destruct x end); cbn; try (split; lia); try reflexivity; try exact I; try lia.
Lemma put_small o (x : mst Es) v : match spec1 (mix_spec Es) (o_put o x v) x with SRet _ r _ => True | SPanic _ _ k => k = [] end.
Proof. destruct x, o; cbn [o_put]; ops. Qed.
Lemma take_small o (x : mst Es) : match spec1 (mix_spec Es) (o_take o x) x with SRet _ r _ => small r 1 | SPanic _ _ k => k = [] end.
Proof.
  destruct x, o; cbn [o_take]; ops. destruct o; cbn; lia.
Qed.
Lemma method_small o (x : mst Es) : match spec1 (mix_spec Es) (o_method o x) x with SRet _ r _ => small r 0 | SPanic _ _ k => k = [] end.
Proof. destruct x, o; cbn [o_method]; ops. Qed.
Lemma spawn_small o (x : mst Es) : match specn (mix_spec Es) (o_spawn e o x) x with SRet _ _ _ => True | SPanic _ _ k => k = [] end.
Proof.
  destruct o as [q i| |sd t|sd k]; cbn [o_spawn].
  3: cbn [specn mix_spec]; unfold mix_collect; destruct (_ <=? _); auto.
  3: cbn [specn mix_spec]; unfold mix_collect_sparse; destruct (_ <=? _); auto.
  all: destruct x; ops.
Qed.
Lemma merge_small o (x y : mst Es) : match spec2 (mix_spec Es) (o_merge o x) (x, y) with SRet _ r _ => small r 0 | SPanic _ _ k => k = [] end.
Proof.
  destruct o as [|sd]; cbn [o_merge].
  2: cbn [spec2 mix_spec]; unfold mix_extend; destruct (_ <=? _); cbn; auto.
  destruct x, y; ops.
Qed.
Lemma put_given o (x : mst Es) v : legal1 (mix_spec Es) (o_put o x v) x -> given1 (mix_spec Es) (o_put o x v) x = [v].
Proof. destruct x, o; cbn; tauto. Qed.
Lemma take_given o (x : mst Es) : given1 (mix_spec Es) (o_take o x) x = [].
Proof. destruct x, o; reflexivity. Qed.
Lemma method_given o (x : mst Es) : given1 (mix_spec Es) (o_method o x) x = [].
Proof. destruct x, o; reflexivity. Qed.
Lemma spawn_given o (x : mst Es) : givenn (mix_spec Es) (o_spawn e o x) x = [].
Proof. destruct o, x; reflexivity. Qed.
Lemma new_given o : given0 (mix_spec Es) (o_new e (sbomb e) o) = [].
Proof. destruct o; reflexivity. Qed.

Notation wbal := (walk_balanced e).
Notation obal := (mix_balanced Es).
Lemma at1_balanced {T} i (f : st -> sres A st T) (x : mst Es) (given : st -> list A) (out : T -> list A) :
  at_elem e i x True (fun v => match f v with
    | SRet v' r d => Permutation (m_items e v ++ given v) (m_items e v' ++ out r ++ d)
    | SPanic v' d k => Permutation (m_items e v ++ given v) (m_items e v' ++ d ++ k) end) ->
  match spec_at1 e i f x with
  | SRet x' r d => Permutation (its (m_items Es x) ++ at_elem e i x [] given) (its (m_items Es x') ++ out r ++ d)
  | SPanic x' d k => Permutation (its (m_items Es x) ++ at_elem e i x [] given) (its (m_items Es x') ++ d ++ k) end.
Proof.
  unfold spec_at1, at_elem. destruct (elem e i x) as [v|] eqn:E; [|reflexivity].
  destruct (elem_its i x v E) as (rest & P & Q). destruct (f v) as [v' r d|v' d k]; intros H.
  - rewrite P, (Q v'). transitivity ((m_items e v ++ given v) ++ rest); [perm|]. rewrite H. perm.
  - rewrite P, (Q v'). transitivity ((m_items e v ++ given v) ++ rest); [perm|]. rewrite H. perm.
Qed.
Theorem nest_balanced : balanced (nest_spec e).
Proof.
  constructor.
  - intros [o|o]; cbn [spec0 given0 nest_spec items nest_items].
    + pose proof (bal0 _ wbal o) as P. destruct (spec0 (walk_spec e) o); exact P.
    + pose proof (bal0 _ obal (o_new e _ o)) as P. rewrite new_given in P.
      destruct (spec0 (mix_spec Es) _) as [u x d|u d k]; cbn [flat sas_one nest_items].
      * apply its_perm in P. rewrite flat_map_app in P. exact P.
      * apply its_perm in P. rewrite flat_map_app in P. exact P.
  - intros o x HL. destruct o as [o|i o|o], x as [y|x]; cbn [legal1 nest_spec] in HL; try contradiction; cbn [spec1 given1 nest_spec items].
    + pose proof (bal1 _ wbal o y HL) as P. destruct (spec1 (walk_spec e) o y); exact P.
    + pose proof (at1_balanced i (spec1 (walk_spec e) o) x (given1 (walk_spec e) o) (outs (walk_spec e))) as P.
      assert (P1 : at_elem e i x True (fun v => match spec1 (walk_spec e) o v with
        | SRet v' r d => Permutation (m_items e v ++ given1 (walk_spec e) o v) (m_items e v' ++ outs (walk_spec e) r ++ d)
        | SPanic v' d k => Permutation (m_items e v ++ given1 (walk_spec e) o v) (m_items e v' ++ d ++ k) end)).
      { unfold at_elem in *. destruct (elem e i x); [|exact I]. exact (bal1 _ wbal o _ HL). }
      specialize (P P1). destruct (spec_at1 e i (spec1 (walk_spec e) o) x); exact P.
    + pose proof (bal1 _ obal (o_method o x) x HL) as P. pose proof (method_small o x) as Q. rewrite method_given, app_nil_r in P.
      destruct (spec1 (mix_spec Es) (o_method o x) x) as [x' r d|x' d k]; cbn [flat sas_one nest_items outs]; rewrite app_nil_r.
      * change (outs (mix_spec Es) r) with (m_outs r) in P. destruct (m_outs r); [|cbn in Q; lia].
        apply its_perm in P. rewrite flat_map_app in P. exact P.
      * apply its_perm in P. rewrite !flat_map_app in P. exact P.
  - intros o x HL. destruct o as [o|i o|o|o], x as [y|x]; cbn [legaln nest_spec] in HL; try contradiction; cbn [specn givenn nest_spec items].
    + pose proof (baln _ wbal o y HL) as P. destruct (specn (walk_spec e) o y); exact P.
    + pose proof (at1_balanced i (specn (walk_spec e) o) x (givenn (walk_spec e) o) (m_items e)) as P.
      assert (P1 : at_elem e i x True (fun v => match specn (walk_spec e) o v with
        | SRet v' r d => Permutation (m_items e v ++ givenn (walk_spec e) o v) (m_items e v' ++ m_items e r ++ d)
        | SPanic v' d k => Permutation (m_items e v ++ givenn (walk_spec e) o v) (m_items e v' ++ d ++ k) end)).
      { unfold at_elem in *. destruct (elem e i x); [|exact I]. exact (baln _ wbal o _ HL). }
      specialize (P P1). destruct (spec_at1 e i (specn (walk_spec e) o) x); exact P.
    + unfold spec_take. pose proof (bal1 _ obal (o_take o x) x HL) as P. pose proof (take_small o x) as Q. rewrite take_given, app_nil_r in P.
      destruct (spec1 (mix_spec Es) (o_take o x) x) as [x' r d|x' d k]; rewrite app_nil_r.
      * change (outs (mix_spec Es) r) with (m_outs r) in *. destruct (m_outs r) as [|v [|v2 l]]; [| |cbn in Q; lia];
          cbn [sas_one nest_items]; apply its_perm in P; rewrite !flat_map_app in P; cbn [flat_map] in P; rewrite ?app_nil_r in *; exact P.
      * cbn [sas_one nest_items]. apply its_perm in P. rewrite !flat_map_app in P. exact P.
    + pose proof (baln _ obal (o_spawn e o x) x HL) as P. rewrite spawn_given, app_nil_r in P.
      destruct (specn (mix_spec Es) (o_spawn e o x) x) as [x' r d|x' d k]; cbn [flat sas_one nest_items]; rewrite app_nil_r;
        apply its_perm in P; rewrite !flat_map_app in P; exact P.
  - intros o [x y] HL. destruct o as [o|i o|o|o], x as [x|x], y as [y|y]; cbn [legal2 nest_spec fst snd] in HL; try contradiction;
      cbn [spec2 nest_spec items fst snd].
    + pose proof (bal2 _ wbal o (x, y) HL) as P. destruct (spec2 (walk_spec e) o (x, y)) as [[? ?] ? ?|[? ?] ? ?]; exact P.
    + unfold spec_at, at_elem in *. destruct (elem e i x) as [v|] eqn:E; cbn [sas_two nest_items fst snd]; [|rewrite !app_nil_r; reflexivity].
      destruct (elem_its i x v E) as (rest & P & Q). pose proof (bal2 _ wbal o (v, y) HL) as H.
      destruct (spec2 (walk_spec e) o (v, y)) as [[v' y'] r d|[v' y'] d k]; cbn [sas_two nest_items fst snd outs nest_spec].
      * rewrite P, (Q v'). transitivity ((m_items e v ++ m_items e y) ++ rest); [perm|]. change (items (walk_spec e)) with (m_items e) in H. cbn [fst snd] in H. rewrite H. perm.
      * rewrite P, (Q v'). transitivity ((m_items e v ++ m_items e y) ++ rest); [perm|]. change (items (walk_spec e)) with (m_items e) in H. cbn [fst snd] in H. rewrite H. perm.
    + unfold spec_put. pose proof (bal1 _ obal (o_put o x y) x HL) as P. rewrite (put_given o x y HL) in P.
      assert (He : m_items e (m_empty e y) = []) by exact (m_empty_items e y).
      destruct (spec1 (mix_spec Es) (o_put o x y) x) as [x' r d|x' d k]; cbn [sas_two nest_items fst snd outs nest_spec]; rewrite He;
        apply its_perm in P; rewrite !flat_map_app in P; cbn [flat_map] in P; rewrite ?app_nil_r in *; cbn [app]; cbn in P; rewrite P.
      * rewrite flat_map_app; cbn [outs mix_spec]. apply Permutation_app_head, Permutation_app_comm.
      * perm.
    + pose proof (bal2 _ obal (o_merge o x) (x, y) HL) as P. pose proof (merge_small o x y) as Q.
      destruct (spec2 (mix_spec Es) (o_merge o x) (x, y)) as [[x' y'] r d|[x' y'] d k]; cbn [flat sas_two nest_items fst snd outs nest_spec].
      * change (outs (mix_spec Es) r) with (m_outs r) in P. destruct (m_outs r); [|cbn in Q; lia].
        apply its_perm in P. cbn [fst snd] in P. cbn [app] in P. rewrite !flat_map_app in P. exact P.
      * apply its_perm in P. cbn [fst snd] in P. rewrite !flat_map_app in P. exact P.
Qed.

(** Iterators deliver what they announce and cloning does not panic. *)
Definition ntruthful (c : cmd (nop0 e) (nop1 A) (nopn e) (nop2 A)) : Prop :=
  match c with
  | Call i (NMethod o) | Call i (NAt _ o) => wtruthful e (Call i o)
  | Spawn i (NSpawn o) | Spawn i (NAtSpawn _ o) => wtruthful e (Spawn i o)
  | Call2 i j (NMethod2 o) | Call2 i j (NAt2 _ o) => wtruthful e (Call2 i j o)
  | _ => True
  end.
Definition loses_none {B S R} (s : sres B S R) : Prop := match s with SRet _ _ _ => True | SPanic _ _ k => k = [] end.
Lemma walk_one n o y : wtruthful e (Call n o) -> legal1 (walk_spec e) o y -> loses_none (spec1 (walk_spec e) o y).
Proof.
  intros HT HL. pose proof (wtruthful_tight e (Call 0 o) HT [Some y] HL) as Q. cbv delta [sstep] beta iota in Q. cbn [lookup list_lookup] in Q.
  destruct (spec1 (walk_spec e) o y); [exact I|exact Q].
Qed.
Lemma walk_new n o y : wtruthful e (Spawn n o) -> legaln (walk_spec e) o y -> loses_none (specn (walk_spec e) o y).
Proof.
  intros HT HL. pose proof (wtruthful_tight e (Spawn 0 o) HT [Some y] HL) as Q. cbv delta [sstep] beta iota in Q. cbn [lookup list_lookup] in Q.
  destruct (specn (walk_spec e) o y); [exact I|exact Q].
Qed.
Lemma walk_two n m o x y : wtruthful e (Call2 n m o) -> legal2 (walk_spec e) o (x, y) -> loses_none (spec2 (walk_spec e) o (x, y)).
Proof.
  intros HT HL. pose proof (wtruthful_tight e (Call2 0 1 o) HT [Some x; Some y] HL) as Q.
  change (sstep (walk_spec e) (Call2 0 1 o) [Some x; Some y]) with
    (match spec2 (walk_spec e) o (x, y) with
     | SRet (x', y') r d => (<[1 := Some y']> (<[0 := Some x']> [Some x; Some y]), d, [], Returned r)
     | SPanic (x', y') d k => (<[1 := Some y']> (<[0 := Some x']> [Some x; Some y]), d, k, Panicked) end) in Q.
  destruct (spec2 (walk_spec e) o (x, y)) as [[] ? ?|[] ? ?]; [exact I|exact Q].
Qed.
Lemma walk_make o : loses_none (spec0 (walk_spec e) o).
Proof.
  pose proof (wtruthful_tight e (Make o) I [] I) as Q. cbv delta [sstep] beta iota in Q.
  destruct (spec0 (walk_spec e) o); [exact I|exact Q].
Qed.
Lemma flat_none {S R} (s : sres st S R) : loses_none s -> loses_none (flat e s).
Proof. destruct s; cbn; intros H; [exact I|rewrite H; reflexivity]. Qed.
Lemma one_none {S R S2 R2} (f : S -> S2) (h : R -> R2) (s : sres A S R) : loses_none s -> loses_none (sas_one f h s).
Proof. destruct s; exact (fun H => H). Qed.
Lemma two_none {S1 S2 R R2} f1 f2 (h : R -> R2) (s : sres A (S1 * S2) R) : loses_none s -> loses_none (sas_two e f1 f2 h s).
Proof. destruct s as [[] ? ?|[] ? ?]; exact (fun H => H). Qed.
Lemma at1_none {R} i (f : st -> sres A st R) x : at_elem e i x True (fun v => loses_none (f v)) -> loses_none (spec_at1 e i f x).
Proof. unfold at_elem, spec_at1. destruct (elem e i x) as [v|]; [|reflexivity]. destruct (f v); exact (fun H => H). Qed.
Lemma at_none {Y R} i (f : st -> sres A (st * Y) R) x y : at_elem e i x True (fun v => loses_none (f v)) -> loses_none (spec_at e i f x y).
Proof. unfold at_elem, spec_at. destruct (elem e i x) as [v|]; [|reflexivity]. destruct (f v) as [[] ? ?|[] ? ?]; exact (fun H => H). Qed.
Lemma at_legal (P Q : st -> Prop) i x : (forall v, P v -> Q v) -> at_elem e i x True P -> at_elem e i x True Q.
Proof. unfold at_elem. destruct (elem e i x); auto. Qed.
Lemma one_small o (x : mst Es) n : match spec1 (mix_spec Es) o x with SRet _ r _ => small r n | SPanic _ _ k => k = [] end ->
  loses_none (spec1 (mix_spec Es) o x).
Proof. destruct (spec1 (mix_spec Es) o x); cbn; auto. Qed.

Lemma ntruthful_tight c : ntruthful c -> tight (nest_spec e) c.
Proof.
  intros HT s HL. destruct c as [o|n o|n o|n1 n2 o|n]; cbv delta [sstep] beta iota; cbn [legal] in HL; [| | | |destruct (s !! n) as [[]|]; reflexivity].
  - assert (H : loses_none (spec0 (nest_spec e) o)).
    { destruct o as [o|o]; [exact (one_none _ _ _ (walk_make o))|]. apply (one_none (fun u => u) inr). apply flat_none. destruct o; exact I. }
    destruct (spec0 (nest_spec e) o); [reflexivity|exact H].
  - destruct (s !! n) as [[x|]|]; [|reflexivity|reflexivity].
    assert (H : loses_none (spec1 (nest_spec e) o x)).
    { destruct o as [o|i o|o], x as [y|x]; cbn [legal1 nest_spec] in HL; try contradiction.
      - exact (one_none inl NInner _ (walk_one n o y HT HL)).
      - apply (one_none inr NInner). apply at1_none. revert HL. apply at_legal. intros v. exact (walk_one n o v HT).
      - apply (one_none inr (fun r => NOuter (info r))). apply flat_none. exact (one_small _ _ _ (method_small o x)). }
    destruct (spec1 (nest_spec e) o x); [reflexivity|exact H].
  - destruct (s !! n) as [[x|]|]; [|reflexivity|reflexivity].
    assert (H : loses_none (specn (nest_spec e) o x)).
    { destruct o as [o|i o|o|o], x as [y|x]; cbn [legaln nest_spec] in HL; try contradiction.
      - exact (one_none inl inl _ (walk_new n o y HT HL)).
      - apply (one_none inr inl). apply at1_none. revert HL. apply at_legal. intros v. exact (walk_new n o v HT).
      - apply (one_none inr inl). unfold spec_take. pose proof (take_small o x) as Q. destruct (spec1 (mix_spec Es) (o_take o x) x).
        + destruct (outs _ _) as [|? [|? ?]]; [reflexivity|exact I|reflexivity].
        + cbn. rewrite Q. reflexivity.
      - apply (one_none inr inr). apply flat_none. exact (spawn_small o x). }
    destruct (specn (nest_spec e) o x); [reflexivity|exact H].
  - destruct (n1 =? n2); [reflexivity|].
    destruct (s !! n1) as [[x|]|], (s !! n2) as [[y|]|]; try reflexivity.
    assert (H : loses_none (spec2 (nest_spec e) o (x, y))).
    { destruct o as [o|i o|o|o], x as [x|x], y as [y|y]; cbn [legal2 nest_spec fst snd] in HL; try contradiction.
      - exact (two_none inl inl NInner _ (walk_two n1 n2 o x y HT HL)).
      - apply (two_none inr inl NInner). apply at_none. revert HL. apply at_legal. intros v. exact (walk_two n1 n2 o v y HT).
      - apply (two_none inr inl (fun r => r)). unfold spec_put. pose proof (put_small o x y) as Q.
        destruct (spec1 (mix_spec Es) (o_put o x y) x); cbn; [exact I|rewrite Q; reflexivity].
      - apply (two_none inr inr (fun _ => NOuter None)). apply flat_none. pose proof (merge_small o x y) as Q.
        destruct (spec2 (mix_spec Es) (o_merge o x) (x, y)); cbn; [exact I|exact Q]. }
    destruct (spec2 (nest_spec e) o (x, y)) as [[] ? ?|[] ? ?]; [reflexivity|exact H].
Qed.
End nest.
