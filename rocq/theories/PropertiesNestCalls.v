(** * What each call on a container of containers does (C85), without NestSpec.v. *)
From Verif Require Import Machine Spec Prims Program InlineModel InlineSpec SparseSpec IterSpec ChunkProgram RingProgram SparseProgram
  InlineProgram MixModel MixSpec MixProofs MixProgram TempModel TempSpec TempMix OwnModel OwnSpec OwnMix WalkModel WalkSpec WalkMix
  NestModel NestSpec NestNature NestProofs.

Section calls.
Context {A : Type} (e : env A) (Hc : calm e).
Notation Es := (outer_senv e).
Notation holds := (NHolds e).
Notation its := (flat_map (m_items e)).
Notation only g g' d := (dropped g' = dropped g ++ d /\ leaked g' = leaked g).
Notation ref := (nest_refines e Hc).
(** The elements, which are the lists of the elements of containers; the kind does not change. *)
Notation lists s := (m_items Es s).
Notation holding s l := (inr (with_items Es s l)).

(** [push_front] of [Chunk] and [RingBuffer], [push_back] (of [InlineArray]: [push]), [insert]. *)
Definition can_put (o : put_op) (s : mst Es) : Prop :=
  match s, o with OfSparse _ _, _ => False | OfInline _ _, PutFront => False | _, _ => True end.
Definition put_place (o : put_op) (s : mst Es) : nat :=
  match o with PutFront => 0 | PutBack => length (lists s) | PutAt i => i end.
Ltac start P := cbn [spec0 spec1 specn spec2 nest_spec fst snd] in P; unfold spec_put, spec_take in P;
  cbn [o_put o_take o_method o_spawn o_merge o_new spec0 spec1 spec2 specn mix_spec chunk_spec ring_spec ia_spec array_spec] in P;
  unfold bl_push_front, bl_push_back, bl_insert, bl_pop_front, bl_pop_back, bl_try_pop_front, bl_try_pop_back, bl_remove, bl_try_remove,
    bl_clear, bl_drop_left, bl_drop_right, bl_split_off, bl_drain_all, bl_append, ar_insert, ar_remove in P.
Ltac fin2 P := let x' := fresh "x'" in let y' := fresh "y'" in let g' := fresh "g'" in let r := fresh "r" in let E := fresh "E" in
  let H1 := fresh in let H2 := fresh in let D := fresh "D" in let L := fresh "L" in let PK := fresh in
  first [ destruct P as ([x' y'] & g' & r & E & [H1 H2] & D & L & PK); apply Permutation_nil in PK; subst r; rewrite ?app_nil_r in *
        | destruct P as ([x' y'] & g' & r & E & [H1 H2] & <- & D & L) ];
  exists x', y', g'; cbn in H1, H2; rewrite ?app_nil_r in *; cbn [with_items]; auto 10.
Theorem C85_put : forall o x (s : mst Es) y t g, holds x (inr s) -> holds y (inl t) -> can_put o s ->
  let l := lists s in let i := put_place o s in
  exists x' y' g', holds y' (inl (m_empty e t)) /\
  if (length l <? m_cap Es s) && (i <=? length l)
  then run2 (nest_kit e) (NPut o) (x, y) g = Ret (x', y') g' (NOuter None) /\ holds x' (holding s (take i l ++ t :: drop i l)) /\ only g g' []
  else run2 (nest_kit e) (NPut o) (x, y) g = Panic (x', y') g' /\ holds x' (inr s) /\ only g g' (m_items e t).
Proof.
  intros o x s y t g Hx Hy Ho l i.
  assert (HL : legal2 (nest_spec e) (NPut o) (inr s, inl t)) by (destruct s, o; try contradiction; exact I).
  pose proof (ref2 _ _ _ ref (NPut o) (x, y) (inr s, inl t) g (conj Hx Hy) HL) as P.
  destruct s as [k q|k q|k q|k q], o as [| |j]; try contradiction; subst l i; start P; cbn [m_items m_cap put_place]; rewrite ?Nat.leb_refl, ?andb_true_r;
    try change (0 <=? length q) with true; rewrite ?andb_true_r;
    match goal with |- context [if ?b then _ else _] => destruct b end; cbn in P; rewrite ?firstn_all, ?skipn_all, ?drop_all, ?take_ge in * by lia; fin2 P.
Qed.

(** [pop_front], [pop_back], [remove], with what they return bound to a variable. *)
Definition can_take (o : take_op) (s : mst Es) : Prop :=
  match s, o with OfSparse _ _, _ => False | OfInline _ _, TakeFront => False | _, _ => True end.
Definition take_place (o : take_op) (s : mst Es) : nat :=
  match o with TakeFront => 0 | TakeBack => length (lists s) - 1 | TakeAt i => i end.
Ltac fin1 P := let x' := fresh "x'" in let y' := fresh "y'" in let g' := fresh "g'" in let r := fresh "r" in let E := fresh "E" in
  let H1 := fresh in let H2 := fresh in let D := fresh "D" in let L := fresh "L" in let PK := fresh in
  first [ destruct P as (x' & g' & r & E & H1 & D & L & PK); apply Permutation_nil in PK; subst r; rewrite ?app_nil_r in *
        | destruct P as (x' & g' & y' & E & H1 & H2 & D & L); try subst y' ];
  first [ exists x', y', g' | exists x', g' ]; rewrite ?app_nil_r in *; cbn [with_items]; repeat split; eauto 10.
Lemma take_last {X} (l : list X) : drop (S (length l - 1)) l = [].
Proof. apply drop_ge. lia. Qed.
Theorem C85_take : forall o x (s : mst Es) g, holds x (inr s) -> can_take o s ->
  let l := lists s in let i := take_place o s in
  match l !! i with
  | Some v => exists x' y g', runn (nest_kit e) (NTake o) x g = Ret x' g' y /\ holds y (inl v) /\
      holds x' (holding s (take i l ++ drop (S i) l)) /\ only g g' []
  | None => exists x' g', runn (nest_kit e) (NTake o) x g = Panic x' g' /\ holds x' (inr s) /\ only g g' []
  end.
Proof.
  intros o x s g Hx Ho l i.
  assert (HL : legaln (nest_spec e) (NTake o) (inr s)) by (destruct s, o; try contradiction; exact I).
  pose proof (refn _ _ _ ref (NTake o) x (inr s) g Hx HL) as P.
  destruct s as [k q|k q|k q|k q], o as [| |j]; try contradiction; subst l i; start P; cbn [m_items take_place].
  all: try (destruct q as [|v q]; cbn in P |- *; fin1 P; fail).
  all: match goal with |- context [?q !! ?i] => destruct (q !! i) as [v|] eqn:Ei end; rewrite ?take_last, ?app_nil_r; cbn in P; fin1 P.
Qed.

(** [clear]; [drop_left] and [drop_right] of [Chunk] and [RingBuffer]. *)
Notation deque s := (match s with OfChunk _ _ | OfRing _ _ => True | _ => False end).
Theorem C85_clear : forall x (s : mst Es) g, holds x (inr s) -> is_list Es s -> exists x' g',
  run1 (nest_kit e) (NOuterMethod OClear) x g = Ret x' g' (NOuter None) /\ holds x' (holding s []) /\ only g g' (its (lists s)).
Proof.
  intros x s g Hx Hs. assert (HL : legal1 (nest_spec e) (NOuterMethod OClear) (inr s)) by (destruct s; try contradiction; exact I).
  pose proof (ref1 _ _ _ ref _ x (inr s) g Hx HL) as P. destruct s; try contradiction; start P; cbn in P; fin1 P.
Qed.
Theorem C85_drop_left : forall x (s : mst Es) n g, holds x (inr s) -> deque s -> exists x' g',
  if n <=? length (lists s)
  then run1 (nest_kit e) (NOuterMethod (ODropLeft n)) x g = Ret x' g' (NOuter None) /\ holds x' (holding s (drop n (lists s))) /\
    only g g' (its (take n (lists s)))
  else run1 (nest_kit e) (NOuterMethod (ODropLeft n)) x g = Panic x' g' /\ holds x' (inr s) /\ only g g' [].
Proof.
  intros x s n g Hx Hs. assert (HL : legal1 (nest_spec e) (NOuterMethod (ODropLeft n)) (inr s)) by (destruct s; try contradiction; exact I).
  pose proof (ref1 _ _ _ ref _ x (inr s) g Hx HL) as P. destruct s; try contradiction; start P; cbn [m_items]; destruct (n <=? _); cbn in P; fin1 P.
Qed.
Theorem C85_drop_right : forall x (s : mst Es) n g, holds x (inr s) -> deque s -> exists x' g',
  if n <=? length (lists s)
  then run1 (nest_kit e) (NOuterMethod (ODropRight n)) x g = Ret x' g' (NOuter None) /\ holds x' (holding s (take n (lists s))) /\
    only g g' (its (drop n (lists s)))
  else run1 (nest_kit e) (NOuterMethod (ODropRight n)) x g = Panic x' g' /\ holds x' (inr s) /\ only g g' [].
Proof.
  intros x s n g Hx Hs. assert (HL : legal1 (nest_spec e) (NOuterMethod (ODropRight n)) (inr s)) by (destruct s; try contradiction; exact I).
  pose proof (ref1 _ _ _ ref _ x (inr s) g Hx HL) as P. destruct s; try contradiction; start P; cbn [m_items]; destruct (n <=? _); cbn in P; fin1 P.
Qed.
Theorem C85_len : forall x (s : mst Es) g, holds x (inr s) -> exists x' g',
  run1 (nest_kit e) (NOuterMethod OLen) x g = Ret x' g' (NOuter (Some (length (lists s)))) /\ holds x' (inr s) /\ only g g' [].
Proof.
  intros x s g Hx. assert (HL : legal1 (nest_spec e) (NOuterMethod OLen) (inr s)) by (destruct s; exact I).
  pose proof (ref1 _ _ _ ref _ x (inr s) g Hx HL) as P. destruct s; start P; cbn in P; fin1 P.
Qed.
(** Moving an [InlineArray]. *)
Theorem C85_move : forall x k (l : list (mst e)) q g, holds x (inr (OfInline k l)) -> exists x' g',
  run1 (nest_kit e) (NOuterMethod (OMove q)) x g = Ret x' g' (NOuter None) /\ holds x' (inr (OfInline k l)) /\ only g g' [].
Proof.
  intros x k l q g Hx. assert (HL : legal1 (nest_spec e) (NOuterMethod (OMove q)) (inr (OfInline k l))) by exact I.
  pose proof (ref1 _ _ _ ref _ x _ g Hx HL) as P. start P; cbn in P; fin1 P.
Qed.

(** [split_off]; [drain_from]. *)
Theorem C85_split_off : forall x (s : mst Es) q i g, holds x (inr s) -> is_list Es s ->
  if i <=? length (lists s)
  then exists x' y g', runn (nest_kit e) (NOuterSpawn (OSplitOff q i)) x g = Ret x' g' y /\
    holds x' (holding s (take i (lists s))) /\ holds y (holding s (drop i (lists s))) /\ only g g' []
  else exists x' g', runn (nest_kit e) (NOuterSpawn (OSplitOff q i)) x g = Panic x' g' /\ holds x' (inr s) /\ only g g' [].
Proof.
  intros x s q i g Hx Hs. assert (HL : legaln (nest_spec e) (NOuterSpawn (OSplitOff q i)) (inr s)) by (destruct s; try contradiction; exact I).
  pose proof (refn _ _ _ ref _ x (inr s) g Hx HL) as P. destruct s; try contradiction; start P; cbn [m_items]; destruct (i <=? _); cbn in P; fin1 P.
Qed.
Theorem C85_drain_from : forall x (s : mst Es) g, holds x (inr s) -> deque s ->
  exists x' y g', runn (nest_kit e) (NOuterSpawn ODrainFrom) x g = Ret x' g' y /\
    holds x' (holding s []) /\ holds y (holding s (lists s)) /\ only g g' [].
Proof.
  intros x s g Hx Hs. assert (HL : legaln (nest_spec e) (NOuterSpawn ODrainFrom) (inr s)) by (destruct s; try contradiction; exact I).
  pose proof (refn _ _ _ ref _ x (inr s) g Hx HL) as P. destruct s; try contradiction; start P; cbn in P; fin1 P.
Qed.
(** [x.append(&mut y)], of two [Chunk]s or two [RingBuffer]s of the same type. *)
Theorem C85_append : forall x y (s t : mst Es) g, holds x (inr s) -> holds y (inr t) -> deque s -> same_kind Es s t ->
  exists x' y' g',
  if length (lists s) + length (lists t) <=? m_cap Es s
  then run2 (nest_kit e) (NMerge OAppend) (x, y) g = Ret (x', y') g' (NOuter None) /\
    holds x' (holding s (lists s ++ lists t)) /\ holds y' (holding t []) /\ only g g' []
  else run2 (nest_kit e) (NMerge OAppend) (x, y) g = Panic (x', y') g' /\ holds x' (inr s) /\ holds y' (inr t) /\ only g g' [].
Proof.
  intros x y s t g Hx Hy Hs Hk.
  assert (HL : legal2 (nest_spec e) (NMerge OAppend) (inr s, inr t)) by (destruct s, t; try contradiction; exact (conj Hk I)).
  pose proof (ref2 _ _ _ ref _ (x, y) (inr s, inr t) g (conj Hx Hy) HL) as P.
  destruct s, t; try contradiction; start P; cbn [m_items m_cap fst snd] in *; destruct (_ <=? _); cbn in P; fin2 P.
Qed.

(** [x.extend(y.drain())], and from the other end, [.rev()]: what fits moves to the end of [x]; if there is more, the next one is
    dropped, the call panics and [y] keeps the rest. *)
Definition order (sd : side) (l : list (mst e)) : list (mst e) := match sd with Front => l | Back => rev l end.
Lemma order_order sd l : order sd (order sd l) = l.
Proof. destruct sd; cbn; [reflexivity|apply rev_involutive]. Qed.
Lemma shorten_order sd n (l : list (mst e)) : shorten sd n l = order sd (drop n (order sd l)).
Proof.
  destruct sd; cbn [shorten order]; [reflexivity|]. rewrite skipn_rev, rev_involutive. reflexivity.
Qed.
Lemma after_order sd n (s : mst Es) : is_list Es s -> after Es sd n s = with_items Es s (order sd (drop n (order sd (lists s)))).
Proof. intros H. rewrite <- shorten_order. destruct s; try contradiction; reflexivity. Qed.
Lemma queue_order sd (s : mst Es) : queue Es sd s = order sd (lists s).
Proof. destruct sd; reflexivity. Qed.
Theorem C85_extend : forall x y (s t : mst Es) sd g, holds x (inr s) -> holds y (inr t) -> is_list Es s -> is_list Es t ->
  let l := order sd (lists t) in let room := m_cap Es s - length (lists s) in
  exists x' y' g',
  if length l <=? room
  then run2 (nest_kit e) (NMerge (OExtend sd)) (x, y) g = Ret (x', y') g' (NOuter None) /\
    holds x' (holding s (lists s ++ l)) /\ holds y' (holding t []) /\ only g g' []
  else run2 (nest_kit e) (NMerge (OExtend sd)) (x, y) g = Panic (x', y') g' /\
    holds x' (holding s (lists s ++ take room l)) /\ holds y' (holding t (order sd (drop (S room) l))) /\
    only g g' (its (take 1 (drop room l))).
Proof.
  intros x y s t sd g Hx Hy Hs Ht l room.
  assert (HL : legal2 (nest_spec e) (NMerge (OExtend sd)) (inr s, inr t)) by (split; [exact Hs|destruct t; [exact I|exact I|contradiction|exact I]]).
  pose proof (ref2 _ _ _ ref _ (x, y) (inr s, inr t) g (conj Hx Hy) HL) as P. start P. unfold mix_extend in P.
  rewrite !after_order, queue_order in P by exact Ht.
  match type of P with context [if ?b then _ else _] => change b with (length l <=? room) in P end. destruct (length l <=? room).
  - rewrite drop_ge in P by lia. replace (order sd []) with (@nil (mst e)) in P by (destruct sd; reflexivity).
    destruct P as ([x' y'] & g' & r & E & [H1 H2] & -> & D & L). exists x', y', g'. repeat split; [exact E|exact H1|exact H2|exact D|exact L].
  - destruct P as ([x' y'] & g' & r & E & [H1 H2] & D & L & PK). apply Permutation_nil in PK. subst r. rewrite app_nil_r in L.
    exists x', y', g'. repeat split; [exact E|exact H1|exact H2|exact D|exact L].
Qed.
(** [x.drain().collect()] into a new container of any kind with a list. *)
Theorem C85_collect : forall x (s : mst Es) sd t g, holds x (inr s) -> is_list Es s ->
  let l := order sd (lists s) in let N := target_cap Es (o_target e _ t) in
  if length l <=? N
  then exists x' y g', runn (nest_kit e) (NOuterSpawn (OCollect sd t)) x g = Ret x' g' y /\
    holds x' (holding s []) /\ holds y (inr (fresh Es (o_target e _ t) l)) /\ only g g' []
  else exists x' g', runn (nest_kit e) (NOuterSpawn (OCollect sd t)) x g = Panic x' g' /\
    holds x' (holding s (order sd (drop (S N) l))) /\ only g g' (its (take 1 (drop N l) ++ take N l)).
Proof.
  intros x s sd t g Hx Hs l N.
  assert (HL : legaln (nest_spec e) (NOuterSpawn (OCollect sd t)) (inr s)) by (destruct s; [exact I|exact I|contradiction|exact I]).
  pose proof (refn _ _ _ ref _ x (inr s) g Hx HL) as P. start P. unfold mix_collect in P.
  rewrite !after_order, queue_order in P by exact Hs.
  match type of P with context [if ?b then _ else _] => change b with (length l <=? N) in P end. destruct (length l <=? N).
  - rewrite drop_ge in P by lia. replace (order sd []) with (@nil (mst e)) in P by (destruct sd; reflexivity).
    destruct P as (x' & g' & y & E & H1 & H2 & D & L). exists x', y, g'. repeat split; [exact E|exact H1|exact H2|exact D|exact L].
  - destruct P as (x' & g' & r & E & H1 & D & L & PK). apply Permutation_nil in PK. subst r. rewrite app_nil_r in L.
    exists x', g'. repeat split; [exact E|exact H1|exact D|exact L].
Qed.

(** [x.drain().map(Some).collect()] into a new [SparseChunk]: the containers go into the first cells. *)
Theorem C85_collect_sparse : forall x (s : mst Es) sd (k : scap e) g, holds x (inr s) -> is_list Es s ->
  let l := order sd (lists s) in
  if length l <=? (`k)
  then exists x' y g', runn (nest_kit e) (NOuterSpawn (OCollectSparse sd k)) x g = Ret x' g' y /\
    holds x' (holding s []) /\ holds y (inr (OfSparse (e := Es) k (map Some l ++ repeat None ((`k) - length l)))) /\ only g g' []
  else exists x' g', runn (nest_kit e) (NOuterSpawn (OCollectSparse sd k)) x g = Panic x' g' /\
    holds x' (holding s (order sd (drop (S (`k)) l))) /\ only g g' (its (take 1 (drop (`k) l) ++ take (`k) l)).
Proof.
  intros x s sd k g Hx Hs l.
  assert (R : forall n, repeat (@None (mst e)) n = no_cells n).
  { intro n. unfold no_cells. induction n; [reflexivity|]. cbn. now rewrite IHn. }
  rewrite R.
  assert (HL : legaln (nest_spec e) (NOuterSpawn (OCollectSparse sd k)) (inr s)) by (destruct s; [exact I|exact I|contradiction|exact I]).
  pose proof (refn _ _ _ ref _ x (inr s) g Hx HL) as P. start P. unfold mix_collect_sparse in P.
  rewrite !after_order, queue_order in P by exact Hs.
  match type of P with context [if ?b then _ else _] => change b with (length l <=? (`k)) in P end. destruct (length l <=? (`k)).
  - rewrite drop_ge in P by lia. replace (order sd []) with (@nil (mst e)) in P by (destruct sd; reflexivity).
    destruct P as (x' & g' & y & E & H1 & H2 & D & L). exists x', y, g'. repeat split; [exact E|exact H1|exact H2|exact D|exact L].
  - destruct P as (x' & g' & r & E & H1 & D & L & PK). apply Permutation_nil in PK. subst r. rewrite app_nil_r in L.
    exists x', g'. repeat split; [exact E|exact H1|exact D|exact L].
Qed.

(** [SparseChunk]s of containers: [insert], [remove], [pop]. *)
Theorem C85_sparse_put : forall x k (c : list (option (mst e))) i y t g, holds x (inr (OfSparse k c)) -> holds y (inl t) ->
  exists x' y' g', holds y' (inl (m_empty e t)) /\
  match c !! i with
  | Some old => run2 (nest_kit e) (NPut (PutAt i)) (x, y) g = Ret (x', y') g' (NOuter None) /\ holds x' (inr (OfSparse k (<[i := Some t]> c))) /\
      only g g' (match old with Some v => m_items e v | None => [] end)
  | None => run2 (nest_kit e) (NPut (PutAt i)) (x, y) g = Panic (x', y') g' /\ holds x' (inr (OfSparse k c)) /\ only g g' (m_items e t)
  end.
Proof.
  intros x k c i y t g Hx Hy.
  assert (HL : legal2 (nest_spec e) (NPut (PutAt i)) (inr (OfSparse k c), inl t)) by exact I.
  pose proof (ref2 _ _ _ ref _ (x, y) (inr (OfSparse k c), inl t) g (conj Hx Hy) HL) as P. start P.
  destruct (c !! i) as [[v|]|]; cbn in P; fin2 P.
Qed.
Theorem C85_sparse_remove : forall x k (c : list (option (mst e))) i g, holds x (inr (OfSparse k c)) ->
  match c !! i with
  | Some (Some v) => exists x' y g', runn (nest_kit e) (NTake (TakeAt i)) x g = Ret x' g' y /\ holds y (inl v) /\
      holds x' (inr (OfSparse k (<[i := None]> c))) /\ only g g' []
  | _ => exists x' g', runn (nest_kit e) (NTake (TakeAt i)) x g = Panic x' g' /\ holds x' (inr (OfSparse k c)) /\ only g g' []
  end.
Proof.
  intros x k c i g Hx. assert (HL : legaln (nest_spec e) (NTake (TakeAt i)) (inr (OfSparse k c))) by exact I.
  pose proof (refn _ _ _ ref _ x _ g Hx HL) as P. start P. destruct (c !! i) as [[v|]|] eqn:Ei; cbn in P; [fin1 P| |fin1 P].
  rewrite list_insert_id in P by exact Ei. fin1 P.
Qed.
(** The one with the lowest index. *)
Theorem C85_sparse_pop : forall x k (c : list (option (mst e))) g, holds x (inr (OfSparse k c)) ->
  match entries c with
  | (i, v) :: _ => exists x' y g', runn (nest_kit e) (NTake TakeFront) x g = Ret x' g' y /\ holds y (inl v) /\
      holds x' (inr (OfSparse k (<[i := None]> c))) /\ only g g' []
  | [] => exists x' g', runn (nest_kit e) (NTake TakeFront) x g = Panic x' g' /\ holds x' (inr (OfSparse k c)) /\ only g g' []
  end.
Proof.
  intros x k c g Hx. assert (HL : legaln (nest_spec e) (NTake TakeFront) (inr (OfSparse k c))) by exact I.
  pose proof (refn _ _ _ ref _ x _ g Hx HL) as P. start P. unfold ar_pop in P. destruct (entries c) as [|[i v] m]; cbn in P; fin1 P.
Qed.
(** New containers of containers are empty. *)
Theorem C85_new : forall (o : new_op e) g, exists x g', run0 (nest_kit e) (NNewOuter o) tt g = Ret tt g' x /\ only g g' [] /\
  holds x (inr (match o with
    | ONewChunk k => OfChunk (e := Es) k [] | ONewRing k => OfRing (e := Es) k [] | ONewInline k q => OfInline (at_size e _ k) []
    | ONewSparse k => OfSparse (e := Es) k (no_cells (`k)) end)).
Proof.
  intros o g. pose proof (ref0 _ _ _ ref (NNewOuter o) g) as P. destruct o; start P; cbn in P;
    destruct P as ([] & g' & x & E & _ & H & D & L); exists x, g'; auto.
Qed.
End calls.
Print Assumptions C85_put. Print Assumptions C85_take. Print Assumptions C85_clear. Print Assumptions C85_drop_left. Print Assumptions C85_drop_right.
Print Assumptions C85_len. Print Assumptions C85_move. Print Assumptions C85_split_off. Print Assumptions C85_drain_from. Print Assumptions C85_append.
Print Assumptions C85_extend. Print Assumptions C85_collect. Print Assumptions C85_collect_sparse. Print Assumptions C85_sparse_put. Print Assumptions C85_sparse_remove.
Print Assumptions C85_sparse_pop. Print Assumptions C85_new.
