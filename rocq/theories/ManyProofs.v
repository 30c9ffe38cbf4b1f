(** * Proofs about several shared iterators used at the same time. *)
From stdpp Require Import list_numbers.
From Verif Require Import Machine Spec Prims IterSpec ManyModel ManySpec.
From Verif Require RingModel RingProofs RingProofs2 RingProofs4 RingLaws SparseModel SparseSpec SparseProofs SparseProofs3.

Section generic.
Context {A X C I : Type} (next : side -> M A (X * C) (option I)) (ok : side -> Prop) (c : C) (R : X -> list I -> Prop).
Hypothesis next_ok : forall s x ls g, ok s -> R x ls -> exists x' g',
  next s (x, c) g = Ret (x', c) g' (fst (take_side s ls)) /\ R x' (snd (take_side s ls)) /\ dropped g' = dropped g /\ leaked g' = leaked g.
Lemma rounds_ok script : forall xs lists g, Forall ok (map snd script) -> Forall2 R xs lists -> exists xs' g' outs,
  rounds next script (xs, c) g = Ret (xs', c) g' outs /\ independent lists script outs /\ dropped g' = dropped g /\ leaked g' = leaked g.
Proof.
  induction script as [|[j s] script IH]; intros xs lists g F H; cbn [rounds].
  { exists xs, g, []. split; [reflexivity|]. split; [|auto]. split; [reflexivity|]. intros j l _. reflexivity. }
  inversion F as [|? ? F1 F2]; subst. cbn [snd] in F1. erewrite (bind_Ret get) by reflexivity. cbn [fst].
  pose proof (Forall2_length _ _ _ H) as HL.
  destruct (xs !! j) as [x|] eqn:Ex.
  - destruct (Forall2_lookup_l _ _ _ _ _ H Ex) as (ls & El & HR).
    destruct (next_ok s x ls g F1 HR) as (x' & g1 & E & HR' & D & L).
    erewrite (bind_Ret (in_one j x (next s))) by (unfold in_one; cbn [fst snd]; rewrite E; reflexivity). cbn [fst].
    assert (H' : Forall2 R (<[j := x']> xs) (<[j := snd (take_side s ls)]> lists)) by (apply Forall2_insert; assumption).
    destruct (IH _ _ g1 F2 H') as (xs' & g2 & outs & E2 & [I1 I2] & D2 & L2).
    erewrite bind_Ret by exact E2. eexists _, _, _. split; [reflexivity|]. rewrite D2, L2. split; [|auto].
    pose proof (lookup_lt_Some _ _ _ El) as Hlt. split.
    + cbn [map fst List.filter]. rewrite if_true by lia. rewrite I1, insert_length. reflexivity.
    + intros i l Hl. unfold answers_of, calls_of, alone in *. cbn [List.filter fst]. destruct (j =? i) eqn:Ej.
      * assert (i = j) as -> by lia. rewrite El in Hl. injection Hl as <-. cbn [map snd pulls].
        specialize (I2 j (snd (take_side s ls)) ltac:(apply list_lookup_insert; lia)).
        destruct (take_side s ls) as [y ls']. cbn [fst snd] in *.
        destruct (pulls (map snd (List.filter (fun d => fst d =? j) script)) ls') as [rest l'']. cbn [fst map snd] in *. rewrite I2. reflexivity.
      * apply I2. rewrite list_lookup_insert_ne by lia. exact Hl.
  - destruct (IH xs lists g F2 H) as (xs' & g2 & outs & E2 & [I1 I2] & D2).
    exists xs', g2, outs. split; [exact E2|]. split; [|exact D2]. apply lookup_ge_None in Ex. split.
    + cbn [map fst List.filter]. rewrite if_false by lia. exact I1.
    + intros i l Hl. pose proof (lookup_lt_Some _ _ _ Hl). rewrite (I2 i l Hl). unfold calls_of. cbn [List.filter fst].
      rewrite if_false by lia. reflexivity.
Qed.
Context {V : Type} (open : V -> M A C X) (view : V -> list I) (good : V -> Prop).
Hypothesis open_ok : forall v g, good v -> exists x, open v c g = Ret c g x /\ R x (view v).
Lemma each_ok vs g : Forall good vs -> exists xs, each open vs c g = Ret c g xs /\ Forall2 R xs (map view vs).
Proof.
  induction vs as [|v vs IH]; intros F; cbn [each map]; [exists []; split; [reflexivity|constructor]|].
  inversion F as [|? ? F1 F2]; subst. destruct (open_ok v g F1) as (x & E & HR). destruct (IH F2) as (xs & E2 & H).
  erewrite bind_Ret by exact E. erewrite bind_Ret by exact E2. eexists. split; [reflexivity|]. constructor; assumption.
Qed.
Lemma among_ok vs script g : Forall good vs -> Forall ok (map snd script) -> exists g' outs,
  among (each open vs) (rounds next script) c g = Ret c g' outs /\ independent (map view vs) script outs /\
  dropped g' = dropped g /\ leaked g' = leaked g.
Proof.
  intros F1 F2. destruct (each_ok vs g F1) as (xs & E & H). destruct (rounds_ok script xs _ g F2 H) as (xs' & g' & outs & E2 & Q).
  exists g', outs. unfold among. rewrite E, E2. auto.
Qed.
End generic.
Lemma take_side_map {I J} (f : I -> J) s l : take_side s (map f l) = (option_map f (fst (take_side s l)), map f (snd (take_side s l))).
Proof.
  destruct s; cbn [take_side]; [destruct l; reflexivity|]. rewrite map_length, list_lookup_fmap.
  destruct (l !! (length l - 1)); cbn; [rewrite firstn_map|]; reflexivity.
Qed.
Section ring.
Import RingModel RingProofs RingProofs2 RingProofs4 RingLaws.
Context {A : Type} (e : env A) (N : nat).
Hypothesis HW : N + N < word e.
Hypothesis HN : 0 < N.
Definition ring_view (l : list A) (v : option (nat * nat)) : list A :=
  match v with None => l | Some s => take (snd s - fst s) (drop (fst s) l) end.
Lemma ring_readers_ok vs script r l g : RHolds N r l -> Forall (fun v => forall s, v = Some s -> in_range s l) vs -> exists g' outs,
  ring_readers e N vs script r g = Ret r g' outs /\ independent (map (ring_view l) vs) script outs /\
  dropped g' = dropped g /\ leaked g' = leaked g.
Proof.
  intros H F. assert (Ho : origin r < N) by apply H.
  apply (among_ok (ring_pull e N) (fun _ => True) r (fun ix vals => exists ls, itH N (origin r) r (ix, r) ls /\ vals = map snd ls)) with
    (good := fun v => forall s, v = Some s -> in_range s l).
  - intros s x vals g0 _ (ls & I & ->).
    assert (Q : exists y g', (match s with Front => it_next e N | Back => it_next_back e N end) (x, r) g0 = Ret y g' (fst (take_side s ls)) /\
      itH N (origin r) r y (snd (take_side s ls)) /\ dropped g' = dropped g0 /\ leaked g' = leaked g0).
    { destruct s; [apply it_next_ok|apply it_next_back_ok]; assumption. }
    destruct Q as ([ix' r'] & g' & E & I' & D & L). pose proof I' as [Er _]. cbn [snd] in Er. subst r'.
    exists ix', g'. unfold ring_pull. erewrite bind_Ret by exact E. rewrite take_side_map. cbn [fst snd].
    split; [reflexivity|]. split; [|auto]. eexists. split; [exact I'|reflexivity].
  - intros [s|] g0 G; cbn [ring_open ring_view].
    + destruct (sl_iter_ok e N HW HN s l r g0 H (G s eq_refl)) as (ix & E & I). exists ix. split; [exact E|].
      eexists. split; [exact I|]. symmetry. apply slots_from_snd.
    + destruct (rb_iter_ok e N HW HN r l g0 H) as (ix & E & I). exists ix. split; [exact E|].
      eexists. split; [exact I|]. symmetry. apply slots_from_snd.
  - exact F.
  - apply Forall_forall. auto.
Qed.
End ring.
Section sparse.
Import SparseModel SparseSpec SparseProofs SparseProofs3.
Context {A : Type} (e : env A) (N : nat).
Hypothesis HW : N < word e.
Definition sparse_view (s : list (option A)) (v : sview) : list (sitem A) :=
  match v with Values => map Value (values s) | Entries => map Entry (entries s) | Options => map Option s end.
Definition sparse_rep (c : sparse A) (s : list (option A)) (x : sregs) (items : list (sitem A)) : Prop :=
  match x with
  | RValues k => exists ls, it_rep N s (c, k) ls /\ items = map (fun p => Value (snd p)) ls
  | REntries k => exists ls, en_rep N s (c, k) ls /\ items = map Entry ls
  | ROptions k => k <= N /\ items = map Option (drop k s)
  end.
Lemma front_head {I} (l : list I) : take_side Front l = (head l, tail l).
Proof. destruct l; reflexivity. Qed.
Lemma sparse_readers_ok vs script c s g : SHolds N c s -> exists g' outs,
  sparse_readers e N vs script c g = Ret c g' outs /\
  independent (map (sparse_view s) vs) (map (fun j => (j, Front)) script) outs /\
  dropped g' = dropped g /\ leaked g' = leaked g.
Proof.
  intros H. apply (among_ok (sparse_pull e N) (fun sd => sd = Front) c (sparse_rep c s)) with (good := fun _ => True).
  - intros sd x items g0 -> R. rewrite front_head. cbn [fst snd]. destruct x as [k|k|k]; cbn [sparse_rep] in R.
    + destruct R as (ls & R & ->). destruct (it_next_same e N HW s _ ls g0 R) as (k' & E & R').
      exists (RValues k'), g0. unfold sparse_pull, swapped. cbn [fst snd] in *. rewrite E.
      split; [destruct ls; reflexivity|]. split; [|auto]. exists (tail ls). split; [exact R'|destruct ls; reflexivity].
    + destruct R as (ls & R & ->). destruct (en_next_ok e N HW s _ ls g0 R) as (k' & E & R').
      exists (REntries k'), g0. unfold sparse_pull, swapped. cbn [fst snd] in *. rewrite E.
      split; [destruct ls; reflexivity|]. split; [|auto]. exists (tail ls). split; [exact R'|destruct ls; reflexivity].
    + destruct R as (Hk & ->). destruct (oi_next_ok e N HW s c k g0 H Hk) as (k' & E & Hk' & Ed).
      exists (ROptions k'), g0. unfold sparse_pull, swapped. cbn [fst snd] in *. rewrite E.
      split; [destruct (drop k s); reflexivity|]. split; [|auto]. split; [exact Hk'|]. rewrite Ed. destruct (drop k s); reflexivity.
  - intros v g0 _. assert (R0 : it_rep N s (c, 0) (entries s)) by (split; [exact H|]; cbn; split; [lia|]; rewrite drop_0; reflexivity).
    destruct v; eexists; (split; [reflexivity|]); cbn [sparse_rep sparse_view].
    + exists (entries s). split; [exact R0|]. unfold values. rewrite map_map. reflexivity.
    + exists (entries s). split; [|reflexivity]. split; exact R0.
    + split; [lia|]. rewrite drop_0. reflexivity.
  - apply Forall_forall. auto.
  - apply Forall_forall. intros x Hx. rewrite map_map in Hx. apply in_map_iff in Hx as (? & <- & _). reflexivity.
Qed.
End sparse.
