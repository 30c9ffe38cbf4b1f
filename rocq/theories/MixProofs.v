(** * Programs that use several kinds of container at once: proofs. *)
From Verif Require Import Machine Spec Prims Program ChunkModel ChunkProofs RingModel RingProofs SparseModel SparseSpec SparseProofs
  SparseProofs3 InlineModel InlineSpec InlineProofs InlineProofs2 InlineProofs3 LiveModel LiveSpec LiveProofs LiveProofs2 LiveProofs3 LiveLaws
  IterSpec SpecProps ChunkProgram RingProgram SparseProgram InlineProgram MixModel MixSpec.

(** ** Taking the first elements of a sparse array. *)
Section without_first.
Context {A : Type}.
Implicit Types (s : list (option A)) (n : nat).
Lemma without_first_0 s : without_first 0 s = s. Proof. destruct s as [|[]]; reflexivity. Qed.
Lemma without_first_values s : forall n k, map snd (entries_from k (without_first n s)) = drop n (map snd (entries_from k s)).
Proof.
  induction s as [|[a|] s IH]; intros [|n] k; cbn [without_first entries_from map drop]; try reflexivity.
  - rewrite IH. reflexivity.
  - rewrite IH. reflexivity.
Qed.
Lemma values_without_first n s : values (without_first n s) = drop n (values s).
Proof. apply without_first_values. Qed.
Lemma without_first_pop s : forall n k i a es, entries_from k (without_first n s) = (i, a) :: es ->
  k <= i /\ <[i - k := None]> (without_first n s) = without_first (Datatypes.S n) s.
Proof.
  induction s as [|[x|] s IH]; intros [|n] k i a es; cbn [without_first entries_from]; try discriminate.
  - intros E. injection E as <- <- _. rewrite Nat.sub_diag. cbn. rewrite without_first_0. split; [lia|reflexivity].
  - intros E. destruct (IH n (S k) i a es E) as [Hi E2]. split; [lia|]. replace (i - k) with (S (i - S k)) by lia.
    cbn [without_first]. rewrite <- E2. reflexivity.
  - intros E. rewrite <- (without_first_0 s) in E. destruct (IH 0 (S k) i a es E) as [Hi E2]. split; [lia|].
    replace (i - k) with (S (i - S k)) by lia. rewrite without_first_0 in E2. cbn [without_first]. rewrite <- E2. reflexivity.
  - intros E. destruct (IH (S n) (S k) i a es E) as [Hi E2]. split; [lia|]. replace (i - k) with (S (i - S k)) by lia.
    cbn [without_first]. rewrite <- E2. reflexivity.
Qed.
Lemma values_length s : length (values s) <= length s.
Proof.
  unfold values, entries. rewrite map_length. generalize 0. induction s as [|[a|] s IH]; intros k; cbn; [lia| |].
  - specialize (IH (S k)). lia.
  - specialize (IH (S k)). lia.
Qed.
Lemma pop_without_first n s i a es : entries (without_first n s) = (i, a) :: es ->
  <[i := None]> (without_first n s) = without_first (Datatypes.S n) s.
Proof. intros E. destruct (without_first_pop s n 0 i a es E) as [_ E2]. rewrite Nat.sub_0_r in E2. exact E2. Qed.
End without_first.

Section mix.
Context {A : Type} (e : env A).
Hypothesis Hcalm : calm e.
Notation obj := (mobj e).
Notation st := (mst e).

(** The container [x] is of the kind and has the contents that [s] says. *)
Definition MHolds (x : obj) (s : st) : Prop :=
  match x, s with
  | OfChunk k c, OfChunk k2 l => k = k2 /\ Holds (`k) c l
  | OfRing k c, OfRing k2 l => k = k2 /\ RHolds (`k) c l
  | OfSparse k c, OfSparse k2 l => k = k2 /\ SHolds (`k) c l
  | OfInline k c, OfInline k2 l => k = k2 /\ LHolds e (`k) c l
  | _, _ => False
  end.

Lemma shorten_0 sd (l : list A) : shorten sd 0 l = l.
Proof. destruct sd; cbn; [reflexivity|]. apply take_ge. lia. Qed.
Lemma after_0 sd (x : st) : after e sd 0 x = x.
Proof. destruct x; cbn; rewrite ?shorten_0, ?without_first_0; reflexivity. Qed.
Lemma queue_length sd (x : st) : length (queue e sd x) = length (m_items e x).
Proof. destruct sd; cbn; [reflexivity|apply rev_length]. Qed.
Lemma queue_perm sd (x : st) : Permutation (queue e sd x) (m_items e x).
Proof. destruct sd; cbn; [reflexivity|]. symmetry. apply Permutation_rev. Qed.
Lemma queue_after sd n (x : st) : iterates e sd x -> queue e sd (after e sd n x) = drop n (queue e sd x).
Proof.
  destruct sd, x; cbn; intros Hi; try reflexivity; try contradiction.
  all: try apply values_without_first.
  all: rewrite ?skipn_rev, ?firstn_skipn_rev; try reflexivity.
Qed.

Definition feeding sd (y0 : st) (y : obj) (l : list A) : Prop :=
  exists n, n <= length (queue e sd y0) /\ MHolds y (after e sd n y0) /\ l = drop n (queue e sd y0).
Lemma feeding_at sd y0 y n : feeding sd y0 y (drop n (queue e sd y0)) -> n <= length (queue e sd y0) -> MHolds y (after e sd n y0).
Proof.
  intros (m & Hm & H & E) Hn. assert (n = m) as ->; [|exact H].
  apply (f_equal length) in E. rewrite !drop_length in E. lia.
Qed.
Lemma feeding_0 sd y0 y : MHolds y y0 -> feeding sd y0 y (queue e sd y0).
Proof. intros H. exists 0. rewrite after_0, drop_0. repeat split; auto. lia. Qed.

(** ** Every container feeds. *)
Definition ord (sd : side) (l : list A) : list A := match sd with Front => l | Back => rev l end.
Lemma ord_ord sd l : ord sd (ord sd l) = l. Proof. destruct sd; cbn; [reflexivity|apply rev_involutive]. Qed.
Lemma ord_shorten sd n l : ord sd (drop n (ord sd l)) = shorten sd n l.
Proof.
  destruct sd; cbn; [reflexivity|]. rewrite <- (rev_involutive l) at 2. rewrite skipn_rev, rev_involutive.
  rewrite !rev_involutive. reflexivity.
Qed.
Lemma tail_drop {X} n (l : list X) : n < length l -> tail (drop n l) = drop (Datatypes.S n) l.
Proof. revert l. induction n as [|n IH]; intros [|x l] Hl; cbn in *; try lia; [reflexivity|]. apply IH. lia. Qed.
Lemma lift_feeds {O} (f : O -> obj) (f2 : list A -> st) (H : O -> list A -> Prop) nx hint sd l0 :
  (forall y l, MHolds y (f2 l) -> exists c, y = f c /\ H c l) -> (forall c l, H c l -> MHolds (f c) (f2 l)) ->
  feeds (fun c l => H c (ord sd l)) nx hint ->
  queue e sd (f2 l0) = ord sd l0 -> (forall n, after e sd n (f2 l0) = f2 (shorten sd n l0)) ->
  (forall c g, m_next e sd (f c) g = as_kind e f nx c g) -> (forall c g, m_hint e (f c) g = as_kind e f hint c g) ->
  feeds (feeding sd (f2 l0)) (m_next e sd) (m_hint e).
Proof.
  intros Hout Hin Hf Eq Ea En Eh y l g (n & Hn & Hy & ->). rewrite Ea in Hy. destruct (Hout y _ Hy) as (c & -> & Hc).
  rewrite Eq in Hn |- *. rewrite <- ord_shorten in Hc. destruct (Hf c _ g Hc) as [(c1 & g1 & E1 & H1 & D1 & L1) (c2 & g2 & E2 & H2 & D2 & L2)].
  split.
  - exists (f c1), g1. rewrite En. unfold as_kind. rewrite E1. split; [reflexivity|]. split; [|auto].
    destruct (decide (n < length (ord sd l0))) as [Hlt|Hge].
    + exists (Datatypes.S n). rewrite Eq, Ea, tail_drop by exact Hlt. split; [lia|]. split; [|reflexivity].
      apply Hin. rewrite <- ord_shorten, <- tail_drop by exact Hlt. exact H1.
    + exists n. rewrite Eq, Ea. rewrite (drop_ge (ord sd l0)) in H1 |- * by lia. split; [lia|]. split; [|reflexivity].
      apply Hin. rewrite <- ord_shorten, (drop_ge (ord sd l0)) by lia. exact H1.
  - exists (f c2), g2. rewrite Eh. unfold as_kind. rewrite E2. split; [reflexivity|]. split; [|auto].
    exists n. rewrite Eq, Ea. split; [lia|]. split; [|reflexivity]. apply Hin. rewrite <- ord_shorten. exact H2.
Qed.
Lemma m_feeds sd (y0 : st) : iterates e sd y0 -> feeds (feeding sd y0) (m_next e sd) (m_hint e).
Proof.
  destruct y0 as [k l0|k l0|k s0|k l0]; intros Hi.
  - destruct k as [N HW] eqn:Ek. rewrite <- Ek.
    eapply (lift_feeds (OfChunk k) (OfChunk k) (Holds (`k))) with (nx := match sd with Front => iter_next e (`k) | Back => iter_next_back e (`k) end).
    + intros [k2 c|k2 c|k2 c|k2 c] l; cbn; try contradiction. intros [<- Hc]. eauto.
    + intros c l Hc. split; [reflexivity|exact Hc].
    + subst k. cbn [proj1_sig]. destruct (chunk_feeds e N HW), sd; eassumption.
    + destruct sd; reflexivity.
    + reflexivity.
    + reflexivity.
    + reflexivity.
  - destruct k as [N [HW HN]] eqn:Ek. rewrite <- Ek.
    eapply (lift_feeds (OfRing k) (OfRing k) (RHolds (`k))) with (nx := match sd with Front => rb_pop_front e (`k) | Back => rb_pop_back e (`k) end).
    + intros [k2 c|k2 c|k2 c|k2 c] l; cbn; try contradiction. intros [<- Hc]. eauto.
    + intros c l Hc. split; [reflexivity|exact Hc].
    + subst k. cbn [proj1_sig]. destruct (ring_feeds e N HW HN), sd; eassumption.
    + destruct sd; reflexivity.
    + reflexivity.
    + reflexivity.
    + reflexivity.
  - destruct sd; [|contradiction]. destruct k as [N HW] eqn:Ek. rewrite <- Ek.
    intros y l g (n & Hn & Hy & ->). destruct y as [|?|k2 c|]; cbn in Hy; try contradiction. destruct Hy as [-> Hc].
    cbn [queue m_items] in *. cbn [m_next m_hint]. unfold as_kind. subst k. cbn [proj1_sig] in *. split.
    + pose proof (sp_pop_ok N c _ g Hc) as P. unfold ar_pop, dr_next in *.
      destruct (entries (without_first n s0)) as [|[i a] es] eqn:Es; destruct P as (c' & g' & r & E & Ho & -> & D & L);
        rewrite app_nil_r in D; rewrite E; eexists _, g'.
      * assert (Ed : drop n (values s0) = []) by (rewrite <- values_without_first; unfold values; rewrite Es; reflexivity).
        rewrite Ed. split; [reflexivity|]. split; [|auto]. exists n. cbn. rewrite Ed. auto.
      * assert (Ed : drop n (values s0) = a :: map snd es) by (rewrite <- values_without_first; unfold values; rewrite Es; reflexivity).
        rewrite Ed. cbn [head tail]. split; [reflexivity|]. split; [|auto].
        assert (Hlt : n < length (values s0)) by (apply (f_equal length) in Ed; rewrite drop_length in Ed; cbn in Ed; lia).
        exists (Datatypes.S n). cbn [queue m_items after MHolds]. split; [lia|]. split.
        -- split; [reflexivity|]. rewrite <- (pop_without_first n s0 i a es Es). exact Ho.
        -- rewrite <- tail_drop by exact Hlt. rewrite Ed. reflexivity.
    + unfold dr_size_hint, sp_len. rewrite bind_bind. erewrite (bind_Ret get) by reflexivity.
      rewrite bind_ret, (sholds_len N c _ Hc), values_without_first. eexists _, g. split; [reflexivity|]. split; [|auto].
      exists n. cbn. auto.
  - destruct k as [L [WF HO]] eqn:Ek. rewrite <- Ek.
    eapply (lift_feeds (OfInline k) (OfInline k) (LHolds e (`k)))
      with (nx := in_place (`k) (match sd with Front => ia_next e (`k) | Back => ia_pop e (`k) end)) (hint := in_place (`k) (ia_size_hint e (`k))).
    + intros [k2 c|k2 c|k2 c|k2 c] l; cbn; try contradiction. intros [<- Hc]. eauto.
    + intros c l Hc. split; [reflexivity|exact Hc].
    + subst k. cbn [proj1_sig]. intros [q c] l g Hc.
      destruct (inline_feeds e L (address L q) WF HO (address_placed L q)) as [F1 F2].
      assert (F3 : feeds (fun c l => IHolds e L c (ord sd l)) (match sd with Front => ia_next e L | Back => ia_pop e L end (address L q))
                    (ia_size_hint e L (address L q))) by (destruct sd; assumption).
      destruct (F3 c l g Hc) as [(c1 & g1 & E1 & H1) (c2 & g2 & E2 & H2)]. split.
      * exists (q, c1), g1. unfold in_place, on_snd. cbn [fst snd]. rewrite E1. split; [reflexivity|exact H1].
      * exists (q, c2), g2. unfold in_place, on_snd. cbn [fst snd]. rewrite E2. split; [reflexivity|exact H2].
    + destruct sd; reflexivity.
    + reflexivity.
    + reflexivity.
    + reflexivity.
Qed.
Lemma m_fuel_enough sd y (s : st) : MHolds y s -> length (queue e sd s) < m_fuel e y.
Proof.
  rewrite queue_length. destruct y as [k c|k c|k c|k c], s as [k2 l|k2 l|k2 l|k2 l]; cbn; try contradiction; intros [<- H].
  - pose proof (holds_length e (`k) (proj2_sig k) c l H). lia.
  - destruct H as (_ & _ & H & _). lia.
  - pose proof (values_length l). destruct H as [H _]. lia.
  - destruct H as [H _]. lia.
Qed.
End mix.
