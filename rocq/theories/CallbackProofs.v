(** * Proofs about comparing, hashing and printing with arbitrary element callbacks. *)
From Verif Require Import Machine Spec Prims ChunkModel ChunkProofs RingModel RingProofs RingProofs4 CallbackModel CallbackSpec.
From Verif Require SparseModel SparseSpec SparseProofs SparseProofs2 SparseProofs3 InlineModel InlineSpec InlineProofs2.

Section spec.
Context {X T R : Type} (stop : T -> option R) (final : R).
Lemma questions_nil (answer : nat -> X -> option T) : questions answer stop final [] [] (Some final).
Proof. left. split; [reflexivity|]. split; [intros i x Hx; discriminate|reflexivity]. Qed.
Lemma questions_stop (answer : nat -> X -> option T) x xs t r : answer 0 x = Some t -> stop t = Some r ->
  questions answer stop final (x :: xs) [x] (Some r).
Proof. intros Ha Hs. right. exists 0, x. repeat split; try (intros; lia). right. eauto. Qed.
Lemma questions_panic (answer : nat -> X -> option T) x xs : answer 0 x = None -> questions answer stop final (x :: xs) [x] None.
Proof. intros Ha. right. exists 0, x. repeat split; try (intros; lia). left. auto. Qed.
Lemma questions_cons (answer answer' : nat -> X -> option T) x xs t calls res :
  answer 0 x = Some t -> stop t = None -> (forall k y, answer' k y = answer (S k) y) ->
  questions answer' stop final xs calls res -> questions answer stop final (x :: xs) (x :: calls) res.
Proof.
  intros Ha Hs He [(-> & Hu & ->)|(i & y & Hi & -> & Hu & Hr)].
  - left. split; [reflexivity|]. split; [|reflexivity]. intros [|i] z Hz; cbn in Hz; [injection Hz as <-; eauto|].
    rewrite <- He. exact (Hu i z Hz).
  - right. exists (S i), y. split; [exact Hi|]. split; [reflexivity|]. split.
    + intros [|j] Hj z Hz; cbn in Hz; [injection Hz as <-; eauto|]. rewrite <- He. apply (Hu j); [lia|exact Hz].
    + rewrite <- He. exact Hr.
Qed.
Lemma questions_ext (answer answer' : nat -> X -> option T) xs calls res : (forall k y, answer' k y = answer k y) ->
  questions answer' stop final xs calls res -> questions answer stop final xs calls res.
Proof.
  intros He [(-> & Hu & ->)|(i & y & Hi & -> & Hu & Hr)].
  - left. split; [reflexivity|]. split; [|reflexivity]. intros i x Hx. rewrite <- He. eauto.
  - right. exists i, y. split; [exact Hi|]. split; [reflexivity|]. split.
    + intros j Hj z Hz. rewrite <- He. eapply Hu; eauto.
    + rewrite <- He. exact Hr.
Qed.
(** The specification determines the calls and the result. *)
Lemma questions_unique (answer : nat -> X -> option T) xs calls res calls' res' :
  questions answer stop final xs calls res -> questions answer stop final xs calls' res' -> calls = calls' /\ res = res'.
Proof.
  intros [(-> & Hu & ->)|(i & x & Hi & -> & Hu & Hr)] [(-> & Hu' & ->)|(i' & x' & Hi' & -> & Hu' & Hr')].
  - auto.
  - exfalso. destruct (Hu i' x' Hi') as (t & Ha & Hs). destruct Hr' as [[E _]|(t' & r & E & E' & _)]; congruence.
  - exfalso. destruct (Hu' i x Hi) as (t & Ha & Hs). destruct Hr as [[E _]|(t' & r & E & E' & _)]; congruence.
  - destruct (Nat.lt_trichotomy i i') as [L|[->|L]].
    + exfalso. destruct (Hu' i L x Hi) as (t & Ha & Hs). destruct Hr as [[E _]|(t' & r & E & E' & _)]; congruence.
    + replace x' with x in * by congruence. split; [reflexivity|].
      destruct Hr as [[E ->]|(t & r & E & E' & ->)], Hr' as [[F ->]|(u & v & F & F' & ->)]; congruence.
    + exfalso. destruct (Hu i' L x' Hi') as (t & Ha & Hs). destruct Hr' as [[E _]|(t' & r & E & E' & _)]; congruence.
Qed.
End spec.
(** With answers that are a function of the elements the result is that of [slice_eq], [iter_cmp], [iter_partial_cmp]. *)
Lemma questions_pure_eq {A} (eqA : A -> A -> bool) l1 : forall l2, length l1 = length l2 ->
  exists calls, questions (fun _ p => Some (eqA (fst p) (snd p))) eq_stop true (zip l1 l2) calls (Some (slice_eq eqA l1 l2)).
Proof.
  induction l1 as [|a l1 IH]; intros [|b l2] Hl; try discriminate; cbn [zip zip_with slice_eq].
  - eexists. apply questions_nil.
  - destruct (IH l2 ltac:(cbn in Hl; lia)) as (calls & Q). destruct (eqA a b) eqn:E; cbn [andb].
    + eexists. eapply (questions_cons _ _ _ _ (a, b) _ true); [cbn [fst snd]; congruence|reflexivity| |exact Q]. reflexivity.
    + eexists. eapply (questions_stop _ _ _ (a, b) _ false); [cbn [fst snd]; congruence|reflexivity].
Qed.
Lemma questions_pure_cmp {A} (cmp : A -> A -> comparison) l1 : forall l2,
  exists calls, questions (fun _ p => Some (cmp (fst p) (snd p))) cmp_stop (length l1 ?= length l2) (zip l1 l2) calls (Some (iter_cmp cmp l1 l2)).
Proof.
  induction l1 as [|a l1 IH]; intros [|b l2]; cbn [zip zip_with iter_cmp length Nat.compare].
  1-3: eexists; apply questions_nil.
  destruct (IH l2) as (calls & Q). destruct (cmp a b) eqn:E.
  - eexists. eapply (questions_cons _ _ _ _ (a, b) _ Eq); [cbn [fst snd]; congruence|reflexivity| |exact Q]. reflexivity.
  - eexists. eapply (questions_stop _ _ _ (a, b) _ Lt); [cbn [fst snd]; congruence|reflexivity].
  - eexists. eapply (questions_stop _ _ _ (a, b) _ Gt); [cbn [fst snd]; congruence|reflexivity].
Qed.

Lemma questions_pure {A} (eqA : A -> A -> bool) (cmp : A -> A -> comparison) (l1 l2 : list A) (cs cs' : list (A * A)) res res' :
  (length l1 = length l2 -> questions (fun _ p => Some (eqA (fst p) (snd p))) eq_stop true (zip l1 l2) cs res ->
   res = Some (slice_eq eqA l1 l2)) /\
  (questions (fun _ p => Some (cmp (fst p) (snd p))) cmp_stop (length l1 ?= length l2) (zip l1 l2) cs' res' ->
   res' = Some (iter_cmp cmp l1 l2)).
Proof.
  split.
  - intros Hl Q. destruct (questions_pure_eq eqA l1 l2 Hl) as (calls & Q'). exact (proj2 (questions_unique _ _ _ _ _ _ _ _ Q Q')).
  - intros Q. destruct (questions_pure_cmp cmp l1 l2) as (calls & Q'). exact (proj2 (questions_unique _ _ _ _ _ _ _ _ Q Q')).
Qed.

(** ** Iterators: [next] serves the list that [P] relates to the state, and writes nothing to the log. *)
Definition streams {A O X} (P : O -> list X -> Prop) (next : M A O (option X)) : Prop := forall o l g, P o l ->
  exists o', next o g = Ret o' g (head l) /\ P o' (tail l).

Section walks.
Context {A O1 O2 T R : Type} (P1 : O1 -> list A -> Prop) (P2 : O2 -> list A -> Prop).
Context (next1 : M A O1 (option A)) (next2 : M A O2 (option A)).
Context (S1 : streams P1 next1) (S2 : streams P2 next2).
Lemma compare_iters_ok answer (stop : T -> option R) both left_ends right_ends fuel : forall done o1 o2 l1 l2 g,
  P1 o1 l1 -> P2 o2 l2 -> length l1 < fuel ->
  exists calls res o1' o2' m1 m2, P1 o1' m1 /\ P2 o2' m2 /\
    questions (fun k => answer (length done + k)) stop
      (match length l1 ?= length l2 with Eq => both | Lt => left_ends | Gt => right_ends end) (zip l1 l2) calls res /\
    compare_iters next1 next2 answer stop both left_ends right_ends fuel (done, (o1, o2)) g =
      tells (done ++ calls) (o1', o2') g res.
Proof.
  induction fuel as [|fuel IH]; intros done o1 o2 l1 l2 g H1 H2 Hf; [lia|]. cbn [compare_iters].
  destruct (S1 o1 l1 g H1) as (o1' & E1 & H1'). destruct (S2 o2 l2 g H2) as (o2' & E2 & H2').
  erewrite bind_Ret by (apply on_snd_Ret, on_fst_Ret; exact E1).
  erewrite bind_Ret by (apply on_snd_Ret, on_snd_Ret; exact E2).
  destruct l1 as [|a l1], l2 as [|b l2]; cbn [head tail length zip Nat.compare] in *.
  1-3: eexists [], (Some _), o1', o2', _, _; split; [exact H1'|]; split; [exact H2'|]; split; [apply questions_nil|];
       rewrite app_nil_r; reflexivity.
  unfold bind, ask. cbn [fst snd]. destruct (answer (length done) (a, b)) as [t|] eqn:Ea.
  - destruct (stop t) as [r|] eqn:Es.
    + eexists [(a, b)], (Some r), o1', o2', _, _. split; [exact H1'|]. split; [exact H2'|].
      split; [eapply questions_stop; rewrite ?Nat.add_0_r; eauto|]. reflexivity.
    + destruct (IH (done ++ [(a, b)]) o1' o2' l1 l2 g H1' H2' ltac:(lia)) as (calls & res & p1 & p2 & m1 & m2 & Q1 & Q2 & Q & E).
      exists ((a, b) :: calls), res, p1, p2, m1, m2. split; [exact Q1|]. split; [exact Q2|]. split.
      * eapply questions_cons; [rewrite Nat.add_0_r; exact Ea|exact Es| |exact Q].
        intros k y. cbn beta. rewrite app_length. cbn [length]. f_equal. lia.
      * rewrite E, <- app_assoc. reflexivity.
  - eexists [(a, b)], None, o1', o2', _, _. split; [exact H1'|]. split; [exact H2'|].
    split; [eapply questions_panic; rewrite Nat.add_0_r; exact Ea|]. reflexivity.
Qed.
Lemma hash_iter_ok answer fuel : forall done o1 l1 g, P1 o1 l1 -> length l1 < fuel ->
  exists calls res o1' m1, P1 o1' m1 /\ questions (fun k => answer (length done + k)) (fun _ : unit => None) tt l1 calls res /\
    hash_iter next1 answer fuel (done, o1) g = tells (done ++ calls) o1' g res.
Proof.
  induction fuel as [|fuel IH]; intros done o1 l1 g H1 Hf; [lia|]. cbn [hash_iter].
  destruct (S1 o1 l1 g H1) as (o1' & E1 & H1').
  erewrite bind_Ret by (apply on_snd_Ret; exact E1).
  destruct l1 as [|a l1]; cbn [head tail length] in *.
  { exists [], (Some tt), o1', []. split; [exact H1'|]. split; [apply questions_nil|]. rewrite app_nil_r. reflexivity. }
  unfold bind, ask. cbn [fst snd]. destruct (answer (length done) a) as [[]|] eqn:Ea.
  - destruct (IH (done ++ [a]) o1' l1 g H1' ltac:(lia)) as (calls & res & p1 & m1 & Q1 & Q & E).
    exists (a :: calls), res, p1, m1. split; [exact Q1|]. split.
    + eapply (questions_cons _ _ _ _ a l1 tt); [rewrite Nat.add_0_r; exact Ea|reflexivity| |exact Q].
      intros k y. cbn beta. rewrite app_length. cbn [length]. f_equal. lia.
    + rewrite E, <- app_assoc. reflexivity.
  - eexists [a], None, o1', _. split; [exact H1'|].
    split; [eapply questions_panic; rewrite Nat.add_0_r; exact Ea|]. reflexivity.
Qed.
End walks.

Section debug.
Context {A O X : Type} (P : O -> list X -> Prop) (next : M A O (option X)) (S1 : streams P next).
Lemma debug_silent answer fuel : forall done o l g, P o l -> length l < fuel ->
  exists o' m, P o' m /\ debug_iter next answer fuel false (done, o) g = Ret (done, o') g false.
Proof.
  induction fuel as [|fuel IH]; intros done o l g H Hf; [lia|]. cbn [debug_iter].
  destruct (S1 o l g H) as (o' & E & H'). erewrite bind_Ret by (apply on_snd_Ret; exact E).
  destruct l as [|a l]; cbn [head tail length] in *; [eauto|]. rewrite bind_ret. apply (IH done o' l g H'). lia.
Qed.
Lemma debug_iter_ok answer fuel : forall done o l g, P o l -> length l < fuel ->
  exists calls res o' m, P o' m /\ questions (fun k => answer (length done + k)) eq_stop true l calls res /\
    debug_iter next answer fuel true (done, o) g = tells (done ++ calls) o' g res.
Proof.
  induction fuel as [|fuel IH]; intros done o l g H Hf; [lia|]. cbn [debug_iter].
  destruct (S1 o l g H) as (o' & E & H'). erewrite bind_Ret by (apply on_snd_Ret; exact E).
  destruct l as [|a l]; cbn [head tail length] in *.
  { exists [], (Some true), o', []. split; [exact H'|]. split; [apply questions_nil|]. rewrite app_nil_r. reflexivity. }
  unfold bind, ask. cbn [fst snd]. destruct (answer (length done) a) as [[]|] eqn:Ea.
  - destruct (IH (done ++ [a]) o' l g H' ltac:(lia)) as (calls & res & p & m & Q1 & Q & E').
    exists (a :: calls), res, p, m. split; [exact Q1|]. split.
    + eapply (questions_cons _ _ _ _ a l true); [rewrite Nat.add_0_r; exact Ea|reflexivity| |exact Q].
      intros k y. cbn beta. rewrite app_length. cbn [length]. f_equal. lia.
    + rewrite E', <- app_assoc. reflexivity.
  - destruct (debug_silent answer fuel (done ++ [a]) o' l g H' ltac:(lia)) as (p & m & Q & E').
    exists [a], (Some false), p, m. split; [exact Q|]. split; [|exact E'].
    eapply (questions_stop _ _ _ a l false); [rewrite Nat.add_0_r; exact Ea|reflexivity].
  - eexists [a], None, o', _. split; [exact H'|].
    split; [eapply questions_panic; rewrite Nat.add_0_r; exact Ea|]. reflexivity.
Qed.
End debug.

(** ** Slices of any container *)
Lemma slice_next_streams {A O} (o : O) : streams (fun (s : list A * O) l => s = (l, o)) slice_next.
Proof. intros s l g ->. destruct l; eexists; split; reflexivity. Qed.
Section slices.
Context {A O1 O2 : Type} (as1 : M A O1 (list A)) (as2 : M A O2 (list A)).
Context (o1 : O1) (o2 : O2) (l1 l2 : list A) (g : log A).
Context (E1 : as1 o1 g = Ret o1 g l1) (E2 : as2 o2 g = Ret o2 g l2).
Lemma slices_walk_ok {T R} answer (stop : T -> option R) both le re :
  exists calls res,
    questions answer stop (match length l1 ?= length l2 with Eq => both | Lt => le | Gt => re end) (zip l1 l2) calls res /\
    slices_walk answer stop both le re l1 l2 ([], (o1, o2)) g = tells calls (o1, o2) g res.
Proof.
  destruct (compare_iters_ok _ _ _ _ (slice_next_streams o1) (slice_next_streams o2) answer stop both le re (S (length l1))
    [] (l1, o1) (l2, o2) l1 l2 g eq_refl eq_refl ltac:(lia)) as (calls & res & p1 & p2 & m1 & m2 & -> & -> & Q & E).
  exists calls, res. split; [exact Q|]. unfold slices_walk, with_iters. cbn [fst snd]. rewrite E. destruct res; reflexivity.
Qed.
Lemma slices_eq_ok answer :
  (length l1 <> length l2 -> slices_eq as1 as2 answer ([], (o1, o2)) g = Ret ([], (o1, o2)) g false) /\
  (length l1 = length l2 -> exists calls res, questions answer eq_stop true (zip l1 l2) calls res /\
    slices_eq as1 as2 answer ([], (o1, o2)) g = tells calls (o1, o2) g res).
Proof.
  unfold slices_eq. erewrite bind_Ret by (apply on_snd_Ret, on_fst_Ret; exact E1).
  erewrite bind_Ret by (apply on_snd_Ret, on_snd_Ret; exact E2). split; intros Hl.
  - replace (_ =? _) with false by lia. reflexivity.
  - replace (_ =? _) with true by lia. destruct (slices_walk_ok answer eq_stop true false false) as (calls & res & Q & E).
    exists calls, res. split; [|exact E]. rewrite Hl, Nat.compare_refl in Q. exact Q.
Qed.
Lemma slices_cmp_ok answer : exists calls res, questions answer cmp_stop (length l1 ?= length l2) (zip l1 l2) calls res /\
    slices_cmp as1 as2 answer ([], (o1, o2)) g = tells calls (o1, o2) g res.
Proof.
  unfold slices_cmp. erewrite bind_Ret by (apply on_snd_Ret, on_fst_Ret; exact E1).
  erewrite bind_Ret by (apply on_snd_Ret, on_snd_Ret; exact E2).
  destruct (slices_walk_ok answer cmp_stop Eq Lt Gt) as (calls & res & Q & E). exists calls, res. split; [|exact E].
  destruct (length l1 ?= length l2); exact Q.
Qed.
Lemma slices_partial_cmp_ok answer : exists calls res, questions answer pcmp_stop (Some (length l1 ?= length l2)) (zip l1 l2) calls res /\
    slices_partial_cmp as1 as2 answer ([], (o1, o2)) g = tells calls (o1, o2) g res.
Proof.
  unfold slices_partial_cmp. erewrite bind_Ret by (apply on_snd_Ret, on_fst_Ret; exact E1).
  erewrite bind_Ret by (apply on_snd_Ret, on_snd_Ret; exact E2).
  destruct (slices_walk_ok answer pcmp_stop (Some Eq) (Some Lt) (Some Gt)) as (calls & res & Q & E). exists calls, res. split; [|exact E].
  destruct (length l1 ?= length l2); exact Q.
Qed.
Lemma slices_hash_ok answer : exists calls res, questions answer (fun _ : unit => None) tt l1 calls res /\
    slices_hash as1 answer ([], o1) g = tells calls o1 g res.
Proof.
  unfold slices_hash. erewrite bind_Ret by (apply on_snd_Ret; exact E1).
  destruct (hash_iter_ok _ _ (slice_next_streams o1) answer (S (length l1)) [] (l1, o1) l1 g eq_refl ltac:(lia))
    as (calls & res & p1 & m1 & -> & Q & E).
  exists calls, res. split; [exact Q|]. unfold with_iter. cbn [fst snd]. rewrite E. destruct res; reflexivity.
Qed.
Lemma slices_fmt_ok (header : bool) answer : exists calls res,
    (if header then questions answer eq_stop true l1 calls res else calls = [] /\ res = Some false) /\
    slices_fmt as1 header answer ([], o1) g = tells calls o1 g res.
Proof.
  unfold slices_fmt. destruct header; [|exists [], (Some false); split; [auto|reflexivity]].
  erewrite bind_Ret by (apply on_snd_Ret; exact E1).
  destruct (debug_iter_ok _ _ (slice_next_streams o1) answer (S (length l1)) [] (l1, o1) l1 g eq_refl ltac:(lia))
    as (calls & res & p1 & m1 & -> & Q & E).
  exists calls, res. split; [exact Q|]. unfold with_iter. cbn [fst snd]. rewrite E. destruct res; reflexivity.
Qed.
End slices.

(** ** RingBuffer *)
Section ring.
Context {A : Type} (e : env A) (N : nat) (HW : N + N < word e) (HN : 0 < N).
Notation itH := (itH N).
Lemma ring_it_next_ok o (r0 : ring A) x ls g : o < N -> itH o r0 x ls ->
  exists x', it_next e N x g = Ret x' g (head ls) /\ itH o r0 x' (tail ls).
Proof.
  intros Ho. destruct x as [[il ir rem] r]. intros (Hr & a & H1 & H2 & H3 & H4 & H5).
  cbn [fst snd ileft iright iremaining] in *. subst r il ir rem.
  unfold it_next. erewrite (bind_Ret get) by reflexivity. cbn [fst snd ileft iright iremaining].
  destruct ls as [|[s v] ls]; cbn [length head tail fst snd] in *.
  - rewrite if_true by lia. eexists. split; [reflexivity|].
    split; [reflexivity|]. exists a. cbn. auto.
  - rewrite if_false by lia. erewrite bind_Ret by (apply usub_ok; lia).
    pose proof (wr_lt N (o + a) ltac:(lia)).
    erewrite bind_Ret by (apply raw_inc_ok; assumption). rewrite wr_add by lia.
    erewrite bind_Ret by reflexivity. cbn [fst snd]. erewrite bind_Ret by (apply ptr_ok; lia).
    destruct (H5 0 ltac:(lia)) as (v' & Hv1 & Hv2). rewrite !Nat.add_0_r in *. cbn in Hv1. injection Hv1 as -> ->.
    erewrite bind_Ret by (apply on_snd_Ret; apply slot_peek_ok; [lia|exact Hv2]).
    eexists. split; [reflexivity|].
    split; [reflexivity|]. exists (a + 1). cbn [fst snd ileft iright iremaining].
    split; [lia|]. split; [lia|]. split; [reflexivity|]. split; [do 2 f_equal; lia|].
    intros t Ht. destruct (H5 (S t) ltac:(lia)) as (w & Hw1 & Hw2). cbn in Hw1.
    replace (a + 1 + t) with (a + S t) by lia. eauto.
Qed.
Definition ring_at (r0 : ring A) (x : idx * ring A) (l : list A) : Prop :=
  exists ls, itH (origin r0) r0 x ls /\ l = map snd ls.
Lemma ring_next_streams r0 : origin r0 < N -> streams (ring_at r0) (ring_next e N).
Proof.
  intros Ho x l g (ls & H & ->). destruct (ring_it_next_ok _ r0 x ls g Ho H) as (x' & E & H').
  exists x'. unfold ring_next. erewrite bind_Ret by exact E. split; [destruct ls; reflexivity|].
  exists (tail ls). split; [exact H'|]. destruct ls; reflexivity.
Qed.
Lemma ring_at_ring r0 x l : ring_at r0 x l -> snd x = r0. Proof. intros (ls & (E & _) & _). exact E. Qed.
Lemma ring_at_remaining r0 x l : ring_at r0 x l -> iremaining (fst x) = length l.
Proof. intros (ls & (_ & a & E & _) & ->). rewrite map_length. exact E. Qed.

(** Two views: [it] makes an iterator over [l] of the buffer [r]. *)
Definition views (it : M A (ring A) idx) (r : ring A) (l : list A) : Prop :=
  origin r < N /\ forall g, exists ix, it r g = Ret r g ix /\ ring_at r (ix, r) l.
Section rings.
Context (n1 n2 : M A (ring A) nat) (it1 it2 : M A (ring A) idx) (r1 r2 : ring A) (l1 l2 : list A) (g : log A).
Context (V1 : views it1 r1 l1) (V2 : views it2 r2 l2).
Lemma rings_walk_ok {T R} answer (stop : T -> option R) both le re :
  exists calls res,
    questions answer stop (match length l1 ?= length l2 with Eq => both | Lt => le | Gt => re end) (zip l1 l2) calls res /\
    rings_walk e N it1 it2 answer stop both le re ([], (r1, r2)) g = tells calls (r1, r2) g res.
Proof.
  destruct V1 as [O1 W1], V2 as [O2 W2]. destruct (W1 g) as (i1 & E1 & A1). destruct (W2 g) as (i2 & E2 & A2).
  unfold rings_walk. erewrite bind_Ret by (apply on_snd_Ret, on_fst_Ret; exact E1).
  erewrite bind_Ret by (apply on_snd_Ret, on_snd_Ret; exact E2).
  pose proof (ring_at_remaining _ _ _ A1) as Hr. cbn [fst] in Hr.
  destruct (compare_iters_ok _ _ _ _ (ring_next_streams r1 O1) (ring_next_streams r2 O2) answer stop both le re (S (iremaining i1))
    [] (i1, r1) (i2, r2) l1 l2 g A1 A2 ltac:(lia)) as (calls & res & p1 & p2 & m1 & m2 & F1 & F2 & Q & E).
  exists calls, res. split; [exact Q|]. unfold with_iters. cbn [fst snd]. rewrite E.
  apply ring_at_ring in F1, F2. destruct res; cbn [tells fst snd]; rewrite F1, F2; reflexivity.
Qed.
Lemma rings_eq_list_ok other answer (L1 : forall g, n1 r1 g = Ret r1 g (length l1)) :
  (length l1 <> length other -> rings_eq_list e N n1 it1 other answer ([], (r1, tt)) g = Ret ([], (r1, tt)) g false) /\
  (length l1 = length other -> exists calls res, questions answer eq_stop true (zip l1 other) calls res /\
    rings_eq_list e N n1 it1 other answer ([], (r1, tt)) g = tells calls (r1, tt) g res).
Proof.
  destruct V1 as [O1 W1]. destruct (W1 g) as (i1 & E1 & A1).
  unfold rings_eq_list. erewrite bind_Ret by (apply on_snd_Ret, on_fst_Ret; apply L1). split; intros Hl.
  - replace (_ =? _) with false by lia. reflexivity.
  - replace (_ =? _) with true by lia. erewrite bind_Ret by (apply on_snd_Ret, on_fst_Ret; exact E1).
    pose proof (ring_at_remaining _ _ _ A1) as Hr. cbn [fst] in Hr.
    destruct (compare_iters_ok _ _ _ _ (ring_next_streams r1 O1) (slice_next_streams tt) answer eq_stop true false false (S (iremaining i1))
      [] (i1, r1) (other, tt) l1 other g A1 eq_refl ltac:(lia)) as (calls & res & p1 & p2 & m1 & m2 & F1 & F2 & Q & E).
    exists calls, res. rewrite Hl, Nat.compare_refl in Q. split; [exact Q|]. unfold with_iters. cbn [fst snd]. unfold eq_stop in E; rewrite E.
    apply ring_at_ring in F1. subst p2. destruct res; cbn [tells fst snd]; rewrite F1; reflexivity.
Qed.
Lemma rings_eq_ok answer (L1 : forall g, n1 r1 g = Ret r1 g (length l1)) (L2 : forall g, n2 r2 g = Ret r2 g (length l2)) :
  (length l1 <> length l2 -> rings_eq e N n1 n2 it1 it2 answer ([], (r1, r2)) g = Ret ([], (r1, r2)) g false) /\
  (length l1 = length l2 -> exists calls res, questions answer eq_stop true (zip l1 l2) calls res /\
    rings_eq e N n1 n2 it1 it2 answer ([], (r1, r2)) g = tells calls (r1, r2) g res).
Proof.
  unfold rings_eq. erewrite bind_Ret by (apply on_snd_Ret, on_fst_Ret; apply L1).
  erewrite bind_Ret by (apply on_snd_Ret, on_snd_Ret; apply L2). split; intros Hl.
  - replace (_ =? _) with false by lia. reflexivity.
  - replace (_ =? _) with true by lia. destruct (rings_walk_ok answer eq_stop true false false) as (calls & res & Q & E).
    exists calls, res. split; [|exact E]. rewrite Hl, Nat.compare_refl in Q. exact Q.
Qed.
Lemma rings_hash_ok answer : exists calls res, questions answer (fun _ : unit => None) tt l1 calls res /\
    rings_hash e N it1 answer ([], r1) g = tells calls r1 g res.
Proof.
  destruct V1 as [O1 W1]. destruct (W1 g) as (i1 & E1 & A1). unfold rings_hash. erewrite bind_Ret by (apply on_snd_Ret; exact E1).
  pose proof (ring_at_remaining _ _ _ A1) as Hr. cbn [fst] in Hr.
  destruct (hash_iter_ok _ _ (ring_next_streams r1 O1) answer (S (iremaining i1)) [] (i1, r1) l1 g A1 ltac:(lia))
    as (calls & res & p1 & m1 & F1 & Q & E).
  exists calls, res. split; [exact Q|]. unfold with_iter. cbn [fst snd]. rewrite E. apply ring_at_ring in F1.
  destruct res; cbn [tells fst snd]; rewrite F1; reflexivity.
Qed.
Lemma rings_fmt_ok (header : bool) answer : exists calls res,
    (if header then questions answer eq_stop true l1 calls res else calls = [] /\ res = Some false) /\
    rings_fmt e N it1 header answer ([], r1) g = tells calls r1 g res.
Proof.
  unfold rings_fmt. destruct header; [|exists [], (Some false); split; [auto|reflexivity]].
  destruct V1 as [O1 W1]. destruct (W1 g) as (i1 & E1 & A1). erewrite bind_Ret by (apply on_snd_Ret; exact E1).
  pose proof (ring_at_remaining _ _ _ A1) as Hr. cbn [fst] in Hr.
  destruct (debug_iter_ok _ _ (ring_next_streams r1 O1) answer (S (iremaining i1)) [] (i1, r1) l1 g A1 ltac:(lia))
    as (calls & res & p1 & m1 & F1 & Q & E).
  exists calls, res. split; [exact Q|]. unfold with_iter. cbn [fst snd]. rewrite E. apply ring_at_ring in F1.
  destruct res; cbn [tells fst snd]; rewrite F1; reflexivity.
Qed.
End rings.
Lemma slots_snd o (l : list A) : forall a, map snd (slots_from N o a l) = l.
Proof. induction l as [|x l IH]; intros a; cbn; [reflexivity|]. f_equal. apply IH. Qed.
Lemma views_ring r l : RHolds N r l -> views (rb_iter e N) r l.
Proof.
  intros H. split; [apply H|]. intros g. destruct (rb_iter_ok e N HW HN r l g H) as (ix & E & I). exists ix. split; [exact E|].
  eexists. split; [exact I|]. symmetry. apply slots_snd.
Qed.
Lemma views_slice s r l : RHolds N r l -> in_range s l -> views (sl_iter e N s) r (sub_list s l).
Proof.
  intros H Hs. split; [apply H|]. intros g. destruct (sl_iter_ok e N HW HN s l r g H Hs) as (ix & E & I). exists ix. split; [exact E|].
  eexists. split; [exact I|]. symmetry. apply slots_snd.
Qed.
End ring.

(** ** SparseChunk *)
Import SparseModel SparseSpec SparseProofs SparseProofs2 SparseProofs3.
Section sparse.
Context {A : Type} (e : env A) (N : nat) (HW : N < word e).
Notation SHolds := (SHolds (A := A) N).
(** The entries paired with the other map's values, up to the first key it does not have. *)
Fixpoint met (other : nat -> option A) (es : list (nat * A)) : list (A * A) :=
  match es with
  | [] => []
  | (i, a) :: es' => match other i with Some b => (a, b) :: met other es' | None => [] end
  end.
Definition has_keys (other : nat -> option A) (es : list (nat * A)) : bool :=
  forallb (fun ia => match other (fst ia) with Some _ => true | None => false end) es.
Lemma sparse_eq_map_loop_ok other answer es : forall done c s g, SHolds c s ->
  (forall ia, In ia es -> s !! fst ia = Some (Some (snd ia))) ->
  exists calls res, questions (fun k => answer (length done + k)) eq_stop (has_keys other es) (met other es) calls res /\
    sparse_eq_map_loop_by N other answer (map fst es) (done, c) g = tells (done ++ calls) c g res.
Proof.
  induction es as [|[i a] es IH]; intros done c s g H Hb; cbn [map sparse_eq_map_loop_by met has_keys forallb fst snd].
  { exists [], (Some true). split; [apply questions_nil|]. rewrite app_nil_r. reflexivity. }
  erewrite bind_Ret by (apply on_snd_Ret; apply (sp_get_eq N c s); exact H).
  pose proof (Hb (i, a) (or_introl eq_refl)) as Ha. cbn [fst snd] in Ha. rewrite Ha. cbn [mjoin option_join].
  destruct (other i) as [b|]; cbn [ask_options andb].
  2:{ rewrite bind_ret. exists [], (Some false). split; [apply questions_nil|]. rewrite app_nil_r. reflexivity. }
  unfold bind, ask. cbn [fst snd]. destruct (answer (length done) (a, b)) as [[]|] eqn:Ea; cbn [negb].
  - destruct (IH (done ++ [(a, b)]) c s g H) as (calls & res & Q & E); [intros j Hj; apply Hb; right; exact Hj|].
    exists ((a, b) :: calls), res. split.
    + eapply (questions_cons _ _ _ _ (a, b) _ true); [rewrite Nat.add_0_r; exact Ea|reflexivity| |exact Q].
      intros k y. cbn beta. rewrite app_length. cbn [length]. f_equal. lia.
    + rewrite E, <- app_assoc. reflexivity.
  - exists [(a, b)], (Some false). split; [|reflexivity].
    eapply (questions_stop _ _ _ (a, b) _ false); [rewrite Nat.add_0_r; exact Ea|reflexivity].
  - exists [(a, b)], None. split; [|reflexivity]. eapply questions_panic. rewrite Nat.add_0_r. exact Ea.
Qed.
Lemma sparse_eq_map_ok len other answer c s g : SHolds c s ->
  (length (entries s) <> len -> sparse_eq_map_by N len other answer ([], c) g = Ret ([], c) g false) /\
  (length (entries s) = len -> exists calls res,
    questions answer eq_stop (has_keys other (entries s)) (met other (entries s)) calls res /\
    sparse_eq_map_by N len other answer ([], c) g = tells calls c g res).
Proof.
  intros H. unfold sparse_eq_map_by, sp_len.
  erewrite bind_Ret by (apply on_snd_Ret; erewrite (bind_Ret get) by reflexivity; reflexivity).
  rewrite (sholds_len N c s H). unfold values. rewrite map_length. split; intros Hl.
  - replace (_ =? _) with false by lia. reflexivity.
  - replace (_ =? _) with true by lia. cbn [negb]. unfold sp_indices.
    erewrite bind_Ret by (apply on_snd_Ret; erewrite (bind_Ret get) by reflexivity; reflexivity).
    rewrite (sholds_indices N c s H). unfold occupied.
    apply (sparse_eq_map_loop_ok other answer (entries s) [] c s g H).
    intros [i a] Hi. apply entries_in. exact Hi.
Qed.
Lemma sparse_eq_loop_ok answer es1 : forall es2 done c1 c2 s1 s2 g, SHolds c1 s1 -> SHolds c2 s2 -> map fst es1 = map fst es2 ->
  (forall ia, In ia es1 -> s1 !! fst ia = Some (Some (snd ia))) -> (forall ia, In ia es2 -> s2 !! fst ia = Some (Some (snd ia))) ->
  exists calls res, questions (fun k => answer (length done + k)) eq_stop true (zip (map snd es1) (map snd es2)) calls res /\
    sparse_eq_loop_by N answer (map fst es1) (done, (c1, c2)) g = tells (done ++ calls) (c1, c2) g res.
Proof.
  induction es1 as [|[i a] es1 IH]; intros [|[i2 b] es2] done c1 c2 s1 s2 g H1 H2 Hk Hb1 Hb2; try discriminate;
    cbn [map sparse_eq_loop_by zip zip_with fst snd].
  { exists [], (Some true). split; [apply questions_nil|]. rewrite app_nil_r. reflexivity. }
  cbn [map fst] in Hk. injection Hk as <- Hk.
  erewrite bind_Ret by (apply on_snd_Ret, on_fst_Ret; apply (sp_get_eq N c1 s1); exact H1).
  erewrite bind_Ret by (apply on_snd_Ret, on_snd_Ret; apply (sp_get_eq N c2 s2); exact H2).
  pose proof (Hb1 (i, a) (or_introl eq_refl)) as Ha. pose proof (Hb2 (i, b) (or_introl eq_refl)) as Hb.
  cbn [fst snd] in Ha, Hb. rewrite Ha, Hb. cbn [mjoin option_join ask_options].
  unfold bind, ask. cbn [fst snd]. destruct (answer (length done) (a, b)) as [[]|] eqn:Ea; cbn [negb].
  - destruct (IH es2 (done ++ [(a, b)]) c1 c2 s1 s2 g H1 H2 Hk) as (calls & res & Q & E);
      [intros j Hj; apply Hb1; right; exact Hj|intros j Hj; apply Hb2; right; exact Hj|].
    exists ((a, b) :: calls), res. split.
    + eapply (questions_cons _ _ _ _ (a, b) _ true); [rewrite Nat.add_0_r; exact Ea|reflexivity| |exact Q].
      intros k y. cbn beta. rewrite app_length. cbn [length]. f_equal. lia.
    + rewrite E, <- app_assoc. reflexivity.
  - exists [(a, b)], (Some false). split; [|reflexivity].
    eapply (questions_stop _ _ _ (a, b) _ false); [rewrite Nat.add_0_r; exact Ea|reflexivity].
  - exists [(a, b)], None. split; [|reflexivity]. eapply questions_panic. rewrite Nat.add_0_r. exact Ea.
Qed.
Lemma bm_eq_occupied c1 c2 s1 s2 : SHolds c1 s1 -> SHolds c2 s2 ->
  (bm_eq N (smap c1) (smap c2) = true <-> occupied s1 = occupied s2).
Proof.
  intros H1 H2. rewrite <- (sholds_indices N c1 s1 H1), <- (sholds_indices N c2 s2 H2). unfold bm_eq, bm_indices.
  rewrite forallb_forall. split.
  - intros H. apply List.filter_ext_in. intros i Hi. apply Bool.eqb_prop, H, Hi.
  - intros H i Hi. pose proof (filter_In (smap c1) i (seq 0 N)) as F1. pose proof (filter_In (smap c2) i (seq 0 N)) as F2.
    rewrite H in F1. destruct (smap c1 i), (smap c2 i); try reflexivity; exfalso; intuition discriminate.
Qed.
Lemma sparse_eq_ok answer c1 c2 s1 s2 g : SHolds c1 s1 -> SHolds c2 s2 ->
  (occupied s1 <> occupied s2 -> sparse_eq_by N answer ([], (c1, c2)) g = Ret ([], (c1, c2)) g false) /\
  (occupied s1 = occupied s2 -> exists calls res, questions answer eq_stop true (zip (values s1) (values s2)) calls res /\
    sparse_eq_by N answer ([], (c1, c2)) g = tells calls (c1, c2) g res).
Proof.
  intros H1 H2. unfold sparse_eq_by. erewrite bind_Ret by (apply on_snd_Ret; reflexivity). cbn [fst snd].
  pose proof (bm_eq_occupied c1 c2 s1 s2 H1 H2) as B. split; intros Ho.
  - destruct (bm_eq N _ _); [exfalso; tauto|reflexivity].
  - destruct (bm_eq N _ _); [cbn [negb]|intuition discriminate]. unfold sp_indices.
    erewrite bind_Ret by (apply on_snd_Ret, on_fst_Ret; erewrite (bind_Ret get) by reflexivity; reflexivity).
    rewrite (sholds_indices N c1 s1 H1).
    apply (sparse_eq_loop_ok answer (entries s1) (entries s2) [] c1 c2 s1 s2 g H1 H2 Ho).
    all: intros [i a] Hi; apply entries_in; exact Hi.
Qed.
Lemma sparse_fmt_ok (header : bool) answer c s g : SHolds c s -> exists calls res,
    (if header then questions answer eq_stop true (entries s) calls res else calls = [] /\ res = Some false) /\
    sparse_fmt_by N header answer ([], c) g = tells calls c g res.
Proof.
  intros H. unfold sparse_fmt_by. destruct header; [|exists [], (Some false); split; [auto|reflexivity]].
  pose (P := fun (o : (nat * nat) * sparse A) l => en_rep N s (snd o, fst o) l /\ snd o = c).
  assert (S1 : streams P (sparse_entry_next N)).
  { intros [k c'] l g0 [R Ec]. cbn [fst snd] in *. subst c'. destruct (en_next_ok e N ltac:(lia) s (c, k) l g0 R) as (ks & E & R').
    cbn [fst] in *. exists (ks, c). unfold sparse_entry_next. cbn [fst snd]. rewrite E. split; [reflexivity|]. split; [exact R'|reflexivity]. }
  assert (R0 : P ((0, 0), c) (entries s)).
  { split; [|reflexivity]. assert (R : it_rep N s (c, 0) (entries s)) by (split; [exact H|]; cbn; split; [lia|]; rewrite drop_0; reflexivity).
    split; exact R. }
  assert (Hl : length (entries s) < S N).
  { pose proof (values_length s) as V. unfold values in V. rewrite map_length in V. destruct H as [<- _]. lia. }
  destruct (debug_iter_ok P _ S1 answer (S N) [] ((0, 0), c) (entries s) g R0 Hl) as (calls & res & p & m & [_ F] & Q & E).
  exists calls, res. split; [exact Q|]. unfold with_iter. cbn [fst snd]. rewrite E.
  destruct res; cbn [tells fst snd]; rewrite F; reflexivity.
Qed.
End sparse.

(** ** The statements of PropertiesCallback.v *)
Lemma fmt_by {A X O} (m : M A (list X * O) bool) (o : O) g (header : bool) (answer : nat -> X -> option bool) xs :
  (exists calls res, (if header then questions answer eq_stop true xs calls res else calls = [] /\ res = Some false) /\
    m ([], o) g = tells calls o g res) ->
  if header then asked m o g answer eq_stop true xs else unasked m o g false.
Proof. intros (calls & res & Q & E). destruct header; [exists calls, res; auto|]. destruct Q as [-> ->]. exact E. Qed.
Lemma eq_by {A X O} (m : M A (list X * O) bool) (o : O) g (answer : nat -> X -> option bool) xs (n1 n2 : nat) :
  (n1 <> n2 -> m ([], o) g = Ret ([], o) g false) /\
  (n1 = n2 -> exists calls res, questions answer eq_stop true xs calls res /\ m ([], o) g = tells calls o g res) ->
  if n1 =? n2 then asked m o g answer eq_stop true xs else unasked m o g false.
Proof. intros [Hn He]. destruct (n1 =? n2) eqn:E; [apply He|apply Hn]; lia. Qed.
Section all.
Context {A : Type} (e : env A).
Lemma chunk_callbacks N (HW : N + N < word e) (c1 c2 : chunk A) (l1 l2 other : list A) (g : log A) (header : bool)
         (eqs : nat -> A * A -> option bool) (cmps : nat -> A * A -> option comparison)
         (pcmps : nat -> A * A -> option (option comparison)) (hashes : nat -> A -> option unit) (prints : nat -> A -> option bool) :
  Holds N c1 l1 -> Holds N c2 l2 ->
  (if length l1 =? length l2 then asked (chunk_eq_by e N eqs) (c1, c2) g eqs eq_stop true (zip l1 l2)
   else unasked (chunk_eq_by e N eqs) (c1, c2) g false) /\
  (if length l1 =? length other then asked (chunk_eq_slice_by e N other eqs) (c1, tt) g eqs eq_stop true (zip l1 other)
   else unasked (chunk_eq_slice_by e N other eqs) (c1, tt) g false) /\
  asked (chunk_cmp_by e N cmps) (c1, c2) g cmps cmp_stop (length l1 ?= length l2) (zip l1 l2) /\
  asked (chunk_partial_cmp_by e N pcmps) (c1, c2) g pcmps pcmp_stop (Some (length l1 ?= length l2)) (zip l1 l2) /\
  asked (chunk_hash_by e N hashes) c1 g hashes (fun _ => None) tt l1 /\
  (if header then asked (chunk_fmt_by e N header prints) c1 g prints eq_stop true l1
   else unasked (chunk_fmt_by e N header prints) c1 g false).
Proof.
  intros H1 H2. pose proof (as_slice_eq e N HW c1 l1 g H1) as E1. pose proof (as_slice_eq e N HW c2 l2 g H2) as E2.
  split; [apply eq_by, slices_eq_ok; assumption|]. split; [apply eq_by, slices_eq_ok; [assumption|reflexivity]|].
  split; [apply slices_cmp_ok; assumption|]. split; [apply slices_partial_cmp_ok; assumption|].
  split; [apply slices_hash_ok; assumption|]. apply fmt_by, slices_fmt_ok; assumption.
Qed.
Lemma inline_callbacks L (WF : InlineSpec.wf_layout (A:=A) e L) (HOST : InlineSpec.host_ok e L) b b2 (c1 c2 : InlineModel.inline A) (l1 l2 : list A) (g : log A) (header : bool)
         (eqs : nat -> A * A -> option bool) (cmps : nat -> A * A -> option comparison)
         (pcmps : nat -> A * A -> option (option comparison)) (hashes : nat -> A -> option unit) (prints : nat -> A -> option bool) :
  InlineSpec.placed L b -> InlineSpec.placed L b2 -> InlineProofs2.IHolds e L c1 l1 -> InlineProofs2.IHolds e L c2 l2 ->
  (if length l1 =? length l2 then asked (inline_eq_by e L b b2 eqs) (c1, c2) g eqs eq_stop true (zip l1 l2)
   else unasked (inline_eq_by e L b b2 eqs) (c1, c2) g false) /\
  asked (inline_cmp_by e L b b2 cmps) (c1, c2) g cmps cmp_stop (length l1 ?= length l2) (zip l1 l2) /\
  asked (inline_partial_cmp_by e L b b2 pcmps) (c1, c2) g pcmps pcmp_stop (Some (length l1 ?= length l2)) (zip l1 l2) /\
  asked (inline_hash_by e L b hashes) c1 g hashes (fun _ => None) tt l1 /\
  (if header then asked (inline_fmt_by e L b header prints) c1 g prints eq_stop true l1
   else unasked (inline_fmt_by e L b header prints) c1 g false).
Proof.
  intros Hb Hb2 H1 H2. pose proof (InlineProofs2.deref_ok e L WF HOST b c1 l1 g Hb H1) as E1. pose proof (InlineProofs2.deref_ok e L WF HOST b2 c2 l2 g Hb2 H2) as E2.
  split; [apply eq_by, slices_eq_ok; assumption|].
  split; [apply slices_cmp_ok; assumption|]. split; [apply slices_partial_cmp_ok; assumption|].
  split; [apply slices_hash_ok; assumption|]. apply fmt_by, slices_fmt_ok; assumption.
Qed.
Section rings.
Context (N : nat) (HW : N + N < word e) (HN : 0 < N).
Lemma cmp_by it1 it2 (r1 r2 : ring A) (l1 l2 : list A) g cmps : views N it1 r1 l1 -> views N it2 r2 l2 ->
  asked (rings_walk e N it1 it2 cmps cmp_stop Eq Lt Gt) (r1, r2) g cmps cmp_stop (length l1 ?= length l2) (zip l1 l2).
Proof.
  intros V1 V2. destruct (rings_walk_ok e N HW HN it1 it2 r1 r2 l1 l2 g V1 V2 cmps cmp_stop Eq Lt Gt) as (calls & res & Q & E).
  exists calls, res. split; [|exact E]. destruct (length l1 ?= length l2); exact Q.
Qed.
Lemma partial_cmp_by it1 it2 (r1 r2 : ring A) (l1 l2 : list A) g pcmps : views N it1 r1 l1 -> views N it2 r2 l2 ->
  asked (rings_walk e N it1 it2 pcmps pcmp_stop (Some Eq) (Some Lt) (Some Gt)) (r1, r2) g pcmps pcmp_stop (Some (length l1 ?= length l2)) (zip l1 l2).
Proof.
  intros V1 V2. destruct (rings_walk_ok e N HW HN it1 it2 r1 r2 l1 l2 g V1 V2 pcmps pcmp_stop (Some Eq) (Some Lt) (Some Gt)) as (calls & res & Q & E).
  exists calls, res. split; [|exact E]. destruct (length l1 ?= length l2); exact Q.
Qed.
Lemma ring_callbacks (r1 r2 : ring A) (l1 l2 other : list A) (g : log A) (header : bool)
         (eqs : nat -> A * A -> option bool) (cmps : nat -> A * A -> option comparison)
         (pcmps : nat -> A * A -> option (option comparison)) (hashes : nat -> A -> option unit) (prints : nat -> A -> option bool) :
  RHolds N r1 l1 -> RHolds N r2 l2 ->
  (if length l1 =? length l2 then asked (ring_eq_by e N eqs) (r1, r2) g eqs eq_stop true (zip l1 l2)
   else unasked (ring_eq_by e N eqs) (r1, r2) g false) /\
  (if length l1 =? length other then asked (ring_eq_list_by e N other eqs) (r1, tt) g eqs eq_stop true (zip l1 other)
   else unasked (ring_eq_list_by e N other eqs) (r1, tt) g false) /\
  asked (ring_cmp_by e N cmps) (r1, r2) g cmps cmp_stop (length l1 ?= length l2) (zip l1 l2) /\
  asked (ring_partial_cmp_by e N pcmps) (r1, r2) g pcmps pcmp_stop (Some (length l1 ?= length l2)) (zip l1 l2) /\
  asked (ring_hash_by e N hashes) r1 g hashes (fun _ => None) tt l1 /\
  (if header then asked (ring_fmt_by e N header prints) r1 g prints eq_stop true l1
   else unasked (ring_fmt_by e N header prints) r1 g false).
Proof.
  intros H1 H2. pose proof (views_ring e N HW HN r1 l1 H1) as V1. pose proof (views_ring e N HW HN r2 l2 H2) as V2.
  assert (L1 : forall g, rb_len r1 g = Ret r1 g (length l1)) by (intros; unfold rb_len; erewrite (bind_Ret get) by reflexivity; destruct H1 as (_ & -> & _); reflexivity).
  assert (L2 : forall g, rb_len r2 g = Ret r2 g (length l2)) by (intros; unfold rb_len; erewrite (bind_Ret get) by reflexivity; destruct H2 as (_ & -> & _); reflexivity).
  split; [apply eq_by, rings_eq_ok; assumption|]. split; [apply eq_by, rings_eq_list_ok; assumption|].
  split; [apply cmp_by; assumption|]. split; [apply partial_cmp_by; assumption|].
  split; [apply rings_hash_ok; assumption|]. apply fmt_by, rings_fmt_ok; assumption.
Qed.
Lemma rslice_callbacks (s1 s2 : nat * nat) (r1 r2 : ring A) (l1 l2 other : list A) (g : log A) (header : bool)
         (eqs : nat -> A * A -> option bool) (cmps : nat -> A * A -> option comparison)
         (pcmps : nat -> A * A -> option (option comparison)) (hashes : nat -> A -> option unit) (prints : nat -> A -> option bool) :
  RHolds N r1 l1 -> RHolds N r2 l2 -> in_range s1 l1 -> in_range s2 l2 ->
  let v1 := sub_list s1 l1 in
  let v2 := sub_list s2 l2 in
  (if length v1 =? length v2 then asked (rslice_eq_by e N s1 s2 eqs) (r1, r2) g eqs eq_stop true (zip v1 v2)
   else unasked (rslice_eq_by e N s1 s2 eqs) (r1, r2) g false) /\
  (if length v1 =? length other then asked (rslice_eq_list_by e N s1 other eqs) (r1, tt) g eqs eq_stop true (zip v1 other)
   else unasked (rslice_eq_list_by e N s1 other eqs) (r1, tt) g false) /\
  asked (rslice_cmp_by e N s1 s2 cmps) (r1, r2) g cmps cmp_stop (length v1 ?= length v2) (zip v1 v2) /\
  asked (rslice_partial_cmp_by e N s1 s2 pcmps) (r1, r2) g pcmps pcmp_stop (Some (length v1 ?= length v2)) (zip v1 v2) /\
  asked (rslice_hash_by e N s1 hashes) r1 g hashes (fun _ => None) tt v1 /\
  (if header then asked (rslice_fmt_by e N s1 header prints) r1 g prints eq_stop true v1
   else unasked (rslice_fmt_by e N s1 header prints) r1 g false).
Proof.
  intros H1 H2 I1 I2 v1 v2. pose proof (views_slice e N HW HN s1 r1 l1 H1 I1) as V1. pose proof (views_slice e N HW HN s2 r2 l2 H2 I2) as V2.
  pose proof (fun g => sl_len_ok e N HW HN s1 l1 r1 g H1 I1) as L1. pose proof (fun g => sl_len_ok e N HW HN s2 l2 r2 g H2 I2) as L2.
  fold v1 in V1, L1. fold v2 in V2, L2.
  split; [apply eq_by, rings_eq_ok; assumption|]. split; [apply eq_by, rings_eq_list_ok; assumption|].
  split; [apply cmp_by; assumption|]. split; [apply partial_cmp_by; assumption|].
  split; [apply rings_hash_ok; assumption|]. apply fmt_by, rings_fmt_ok; assumption.
Qed.
End rings.
Lemma sparse_callbacks N (HW : N < word e) (c1 c2 : sparse A) (s1 s2 : list (option A)) (g : log A) (header : bool) (len : nat)
         (other : nat -> option A) (eqs : nat -> A * A -> option bool) (prints : nat -> nat * A -> option bool) :
  SHolds N c1 s1 -> SHolds N c2 s2 ->
  (occupied s1 = occupied s2 -> asked (sparse_eq_by N eqs) (c1, c2) g eqs eq_stop true (zip (values s1) (values s2))) /\
  (occupied s1 <> occupied s2 -> unasked (sparse_eq_by N eqs) (c1, c2) g false) /\
  (length (entries s1) = len ->
   asked (sparse_eq_map_by N len other eqs) c1 g eqs eq_stop (has_keys other (entries s1)) (met other (entries s1))) /\
  (length (entries s1) <> len -> unasked (sparse_eq_map_by N len other eqs) c1 g false) /\
  (if header then asked (sparse_fmt_by N header prints) c1 g prints eq_stop true (entries s1)
   else unasked (sparse_fmt_by N header prints) c1 g false).
Proof.
  intros H1 H2. destruct (sparse_eq_ok e N HW eqs c1 c2 s1 s2 g H1 H2) as [P1 P2]. destruct (sparse_eq_map_ok e N HW len other eqs c1 s1 g H1) as [P3 P4].
  split; [exact P2|]. split; [exact P1|]. split; [exact P4|]. split; [exact P3|]. apply fmt_by, (sparse_fmt_ok e N HW), H1.
Qed.
End all.
