(** * The mutable iterators of the containers satisfy what VisitProofs.v asks of an iterator. *)
From stdpp Require Import list_numbers.
From Verif Require Import Machine Spec Prims IterSpec VisitModel VisitSpec VisitProofs.
From Verif Require RingModel RingProofs RingProofs2 RingProofs3 RingProofs4 RingLaws RefModel RefProofs RefProofs2 ChunkModel ChunkProofs SparseModel SparseSpec SparseProofs SparseProofs3 InlineModel InlineSpec InlineProofs InlineProofs2.

Lemma modify_const {A O} `{HasMem A O} N p f (o : O) g o' g' v : getm o p = Some v -> p < N ->
  (let! v := slot_read N p in slot_write N p (f v)) o g = Ret o' g' tt -> swap_slot N p (f v) o g = Ret o' g' v.
Proof.
  intros Hv Hp E. unfold swap_slot. pose proof (slot_read_ok N p v o g Hp Hv) as R.
  erewrite bind_Ret in E by exact R. erewrite bind_Ret by exact R.
  erewrite bind_Ret by exact E. reflexivity.
Qed.
Section ring.
Import RingModel RingProofs RingProofs2 RingProofs4 RingLaws RefModel RefProofs.
Context {A : Type} (e : env A) (N : nat) (act : nat -> A -> use A).
Hypothesis HW : N + N < word e.
Hypothesis HN : 0 < N.
Implicit Types (r : ring A) (l : list A) (g : log A) (v : A) (i k : nat).
Definition ring_at (x : idx * ring A) (df mid db : list A) : Prop :=
  RHolds N (snd x) (df ++ mid ++ db) /\ regs N (origin (snd x)) (fst x) (length df) (length mid).
Lemma ring_swap r l g i v b : RHolds N r l -> l !! i = Some v -> exists r' g',
  swap_slot N (wr N (origin r + i)) b r g = Ret r' g' v /\ RHolds N r' (<[i := b]> l) /\ origin r' = origin r /\
  dropped g' = dropped g /\ leaked g' = leaked g.
Proof.
  intros H Hv. destruct (modify_slot_ok e N HW HN r l g i v (fun _ => b) H Hv) as (r' & g' & E & Q).
  assert (Hi : i < length l) by (eapply lookup_lt_Some; exact Hv).
  exists r', g'. split; [|exact Q]. apply (modify_const N _ (fun _ => b)); [|exact (slot_of_lt e N HW HN r l i H Hi)|exact E].
  rewrite <- Hv. exact (slot_of_holds e N HW HN r l i H Hi).
Qed.
Lemma ring_none x s df db : ring_at x df [] db -> exists x', (forall g, rm_pull e N s x g = Ret x' g None) /\ ring_at x' df [] db.
Proof.
  intros H. exists x. split; [|exact H]. intros g. destruct x as [[il ir rem] r], H as (H & R1 & R2 & R3).
  cbn [length iremaining fst snd] in *. subst rem. destruct s; reflexivity.
Qed.
Lemma ring_front x v df mid db : ring_at x df (v :: mid) db ->
  gives (rm_pull e N) (fun p b => on_snd (swap_slot N p b)) x Front v (fun x' b => ring_at x' (df ++ [b]) mid db).
Proof.
  destruct x as [[il ir rem] r]. intros (H & R1 & R2 & R3). cbn [fst snd ileft iright iremaining length] in *. subst.
  pose proof H as (Ho & Hl & Hc & _). rewrite !app_length in Hc. cbn [length] in Hc.
  assert (Hv : (df ++ (v :: mid) ++ db) !! length df = Some v)
    by (rewrite lookup_app_r by lia; rewrite Nat.sub_diag; reflexivity).
  assert (Hlt : length df < length (df ++ (v :: mid) ++ db)) by (eapply lookup_lt_Some; exact Hv).
  pose proof (slot_of_lt e N HW HN _ _ _ H Hlt) as Hp. pose proof (slot_of_holds e N HW HN _ _ _ H Hlt) as Hm. rewrite Hv in Hm.
  assert (Q : forall r' b, origin r' = origin r -> RHolds N r' ((df ++ [b]) ++ mid ++ db) ->
    ring_at (Idx (wr N (wr N (origin r + length df) + 1)) (wr N (origin r + (length df + S (length mid)))) (S (length mid) - 1), r') (df ++ [b]) mid db).
  { intros r' b Eo H'. split; [exact H'|]. cbn [fst snd]. rewrite Eo, app_length. cbn [length].
    split; [cbn; lia|]. cbn [ileft iright]. split; [rewrite wr_add by lia; reflexivity|]. do 2 f_equal. lia. }
  eexists _, _. split; [|split].
  - intros g. unfold rm_pull, it_next. erewrite (bind_Ret get) by reflexivity. cbn [fst snd ileft iright iremaining].
    rewrite if_false by lia. erewrite bind_Ret by (apply usub_ok; lia).
    erewrite bind_Ret by (apply raw_inc_ok; assumption). erewrite bind_Ret by reflexivity. cbn [fst snd].
    erewrite bind_Ret by (apply ptr_ok; lia).
    erewrite bind_Ret by (apply on_snd_Ret; apply slot_peek_ok; [lia|exact Hm]). reflexivity.
  - apply (Q r v eq_refl). rewrite <- app_assoc. exact H.
  - intros b g. destruct (ring_swap r _ g _ _ b H Hv) as (r' & g' & E & H' & Eo & D & L).
    eexists _, g'. split; [apply on_snd_Ret; exact E|]. split; [|auto]. apply (Q r' b Eo).
    rewrite insert_app_r_alt in H' by lia. rewrite Nat.sub_diag in H'. rewrite <- app_assoc. exact H'.
Qed.
Lemma ring_back x v df mid db : ring_at x df (mid ++ [v]) db ->
  gives (rm_pull e N) (fun p b => on_snd (swap_slot N p b)) x Back v (fun x' b => ring_at x' df mid (b :: db)).
Proof.
  destruct x as [[il ir rem] r]. intros (H & R1 & R2 & R3). cbn [fst snd ileft iright iremaining] in *. subst.
  rewrite app_length in *. cbn [length] in *. pose proof H as (Ho & Hl & Hc & _). rewrite !app_length in Hc. cbn [length] in Hc.
  assert (Hv : (df ++ (mid ++ [v]) ++ db) !! (length df + length mid) = Some v).
  { rewrite lookup_app_r by lia. rewrite <- app_assoc. rewrite lookup_app_r by lia.
    replace (length df + length mid - length df - length mid) with 0 by lia. reflexivity. }
  assert (Hlt : length df + length mid < length (df ++ (mid ++ [v]) ++ db)) by (eapply lookup_lt_Some; exact Hv).
  pose proof (slot_of_lt e N HW HN _ _ _ H Hlt) as Hp. pose proof (slot_of_holds e N HW HN _ _ _ H Hlt) as Hm. rewrite Hv in Hm.
  assert (Q : forall r' b, origin r' = origin r -> RHolds N r' (df ++ mid ++ b :: db) ->
    ring_at (Idx (wr N (origin r + length df)) (wr N (origin r + (length df + length mid))) (length mid + 1 - 1), r') df mid (b :: db)).
  { intros r' b Eo H'. split; [exact H'|]. cbn [fst snd]. rewrite Eo.
    split; [cbn; lia|]. split; reflexivity. }
  eexists _, _. split; [|split].
  - intros g. unfold rm_pull, it_next_back. erewrite (bind_Ret get) by reflexivity. cbn [fst snd ileft iright iremaining].
    rewrite if_false by lia. erewrite bind_Ret by (apply usub_ok; lia).
    erewrite bind_Ret by (apply raw_dec_ok; [assumption|apply wr_lt; lia]).
    replace (lg N 1 (wr N (origin r + (length df + (length mid + 1))))) with (wr N (origin r + (length df + length mid))) by ring_lia.
    erewrite bind_Ret by reflexivity. cbn [fst snd].
    erewrite bind_Ret by (apply ptr_ok; lia).
    erewrite bind_Ret by (apply on_snd_Ret; apply slot_peek_ok; [lia|exact Hm]). reflexivity.
  - apply (Q r v eq_refl). rewrite <- app_assoc in H. exact H.
  - intros b g. destruct (ring_swap r _ g _ _ b H Hv) as (r' & g' & E & H' & Eo & D & L).
    eexists _, g'. split; [apply on_snd_Ret; exact E|]. split; [|auto]. apply (Q r' b Eo).
    rewrite insert_app_r_alt in H' by lia. rewrite <- app_assoc in H'. rewrite insert_app_r_alt in H' by lia.
    replace (length df + length mid - length df - length mid) with 0 in H' by lia. exact H'.
Qed.
Lemma ring_walk script x df mid db g : ring_at x df mid db ->
  ends_as (fun x l => RHolds N (snd x) (df ++ l ++ db)) g (visited (bomb e) act 0 script mid)
    (visit e (rm_pull e N) (fun p b => on_snd (swap_slot N p b)) act 0 script x g).
Proof.
  intros H. eapply ends_mono.
  2:{ apply (visit_ok e (rm_pull e N) (fun p b => on_snd (swap_slot N p b)) act (fun _ => True) ring_at).
      - intros. apply ring_none. assumption.
      - intros. apply ring_front. assumption.
      - intros. apply ring_back. assumption.
      - apply Forall_forall. auto.
      - exact H. }
  intros c l (df' & mid' & db' & Q & ->). exact (proj1 Q).
Qed.
Lemma rb_visit_ok script r l g : RHolds N r l ->
  ends_as (RHolds N) g (visited (bomb e) act 0 script l) (rb_visit e N act script r g).
Proof.
  intros H. destruct (rb_iter_regs e N HW HN r l g H) as (ix & E & R). unfold rb_visit. erewrite bind_Ret by exact E.
  apply scoped_ends. eapply ends_mono.
  2:{ apply ring_walk with (df := []) (db := []). split; [rewrite app_nil_r; exact H|exact R]. }
  intros c m Q. cbn [app] in Q. rewrite app_nil_r in Q. exact Q.
Qed.
Lemma sl_visit_ok s script r l g : RHolds N r l -> in_range s l ->
  ends_as (fun r' m => RHolds N r' (take (fst s) l ++ m ++ drop (snd s) l)) g
    (visited (bomb e) act 0 script (sub_list s l)) (sl_visit e N act s script r g).
Proof.
  intros H Hs. destruct (sl_iter_regs e N HW HN s r l g H Hs) as (ix & E & R). unfold sl_visit. erewrite bind_Ret by exact E.
  apply scoped_ends. apply ring_walk. split; cbn [fst snd].
  - rewrite <- (sub_list_split e N HW HN) by assumption. exact H.
  - rewrite (sub_list_length e N HW HN) by assumption. rewrite take_length, Nat.min_l by (destruct Hs; lia). exact R.
Qed.
End ring.
Section chunk.
Import ChunkModel ChunkProofs.
Context {A : Type} (e : env A) (N : nat) (act : nat -> A -> use A).
Implicit Types (c : chunk A) (l : list A) (g : log A) (v : A) (i k : nat).
Definition chunk_at (x : (nat * nat) * chunk A) (df mid db : list A) : Prop :=
  Holds N (snd x) (df ++ mid ++ db) /\ fst (fst x) = left (snd x) + length df /\ snd (fst x) = fst (fst x) + length mid.
Lemma chunk_swap c l g i v b : Holds N c l -> l !! i = Some v -> exists c' g',
  swap_slot N (left c + i) b c g = Ret c' g' v /\ Holds N c' (<[i := b]> l) /\ left c' = left c /\
  dropped g' = dropped g /\ leaked g' = leaked g.
Proof.
  intros (H1 & H2 & H3) Hv. pose proof (lookup_lt_Some _ _ _ Hv) as Hi.
  assert (Hp : left c + i < N) by lia.
  assert (Hm : cdata c (left c + i) = Some v).
  { rewrite H3, if_true by lia. replace (left c + i - left c) with i by lia. exact Hv. }
  unfold swap_slot. erewrite bind_Ret by (apply slot_read_ok; [exact Hp|exact Hm]).
  erewrite bind_Ret by (apply slot_write_ok; [exact Hp|]; cbn [getm setm chunk_mem cdata]; unfold upd; rewrite Nat.eqb_refl; reflexivity).
  eexists _, _. split; [reflexivity|]. cbn [getm setm chunk_mem cdata left right]. split; [|auto].
  split; [|split]; cbn [left right cdata]; [rewrite insert_length; exact H1|exact H2|].
  intros p. unfold upd. destruct (p =? left c + i) eqn:E.
  - rewrite if_true by lia. replace (p - left c) with i by lia. rewrite list_lookup_insert by lia. reflexivity.
  - rewrite H3. destruct (left c <=? p) eqn:El; [|reflexivity]. rewrite list_lookup_insert_ne by lia. reflexivity.
Qed.
Lemma chunk_none x s df db : chunk_at x df [] db -> exists x', (forall g, sm_pull N s x g = Ret x' g None) /\ chunk_at x' df [] db.
Proof.
  intros H. exists x. split; [|exact H]. intros g. destruct x as [[i j] c], H as (H & R1 & R2).
  cbn [length fst snd] in *. unfold sm_pull. erewrite (bind_Ret get) by reflexivity. cbn [fst snd]. rewrite if_false by lia. reflexivity.
Qed.
Lemma chunk_front x v df mid db : chunk_at x df (v :: mid) db ->
  gives (sm_pull N) (fun p b => on_snd (swap_slot N p b)) x Front v (fun x' b => chunk_at x' (df ++ [b]) mid db).
Proof.
  destruct x as [[a j] c]. intros (H & R1 & R2). cbn [fst snd length] in *. subst.
  assert (Hv : (df ++ (v :: mid) ++ db) !! length df = Some v)
    by (rewrite lookup_app_r by lia; rewrite Nat.sub_diag; reflexivity).
  pose proof H as (H1 & H2 & H3). rewrite !app_length in H1. cbn [length] in H1.
  assert (Hm : cdata c (left c + length df) = Some v).
  { rewrite H3, if_true by lia. replace (left c + length df - left c) with (length df) by lia. exact Hv. }
  assert (Q : forall c' b, left c' = left c -> Holds N c' ((df ++ [b]) ++ mid ++ db) ->
    chunk_at ((S (left c + length df), left c + length df + S (length mid)), c') (df ++ [b]) mid db).
  { intros c' b El H'. split; [exact H'|]. cbn [fst snd]. rewrite El, app_length. cbn [length]. lia. }
  eexists _, _. split; [|split].
  - intros g. unfold sm_pull. erewrite (bind_Ret get) by reflexivity. cbn [fst snd]. rewrite if_true by lia.
    erewrite bind_Ret by reflexivity. cbn [fst snd].
    erewrite bind_Ret by (apply on_snd_Ret; apply slot_peek_ok; [lia|exact Hm]). reflexivity.
  - apply (Q c v eq_refl). rewrite <- app_assoc. exact H.
  - intros b g. destruct (chunk_swap c _ g _ _ b H Hv) as (c' & g' & E & H' & El & D & L).
    eexists _, g'. split; [apply on_snd_Ret; exact E|]. split; [|auto]. apply (Q c' b El).
    rewrite insert_app_r_alt in H' by lia. rewrite Nat.sub_diag in H'. rewrite <- app_assoc. exact H'.
Qed.
Lemma chunk_back x v df mid db : chunk_at x df (mid ++ [v]) db ->
  gives (sm_pull N) (fun p b => on_snd (swap_slot N p b)) x Back v (fun x' b => chunk_at x' df mid (b :: db)).
Proof.
  destruct x as [[a j] c]. intros (H & R1 & R2). cbn [fst snd] in *. rewrite app_length in *. cbn [length] in *. subst.
  assert (Hv : (df ++ (mid ++ [v]) ++ db) !! (length df + length mid) = Some v).
  { rewrite lookup_app_r by lia. rewrite <- app_assoc. rewrite lookup_app_r by lia.
    replace (length df + length mid - length df - length mid) with 0 by lia. reflexivity. }
  pose proof H as (H1 & H2 & H3). rewrite !app_length in H1. cbn [length] in H1.
  replace (left c + length df + (length mid + 1)) with (S (left c + (length df + length mid))) by lia.
  assert (Hm : cdata c (left c + (length df + length mid)) = Some v).
  { rewrite H3, if_true by lia. replace (left c + (length df + length mid) - left c) with (length df + length mid) by lia. exact Hv. }
  assert (Q : forall c' b, left c' = left c -> Holds N c' (df ++ mid ++ b :: db) ->
    chunk_at ((left c + length df, left c + (length df + length mid)), c') df mid (b :: db)).
  { intros c' b El H'. split; [exact H'|]. cbn [fst snd]. rewrite El. cbn [length]. lia. }
  eexists _, _. split; [|split].
  - intros g. unfold sm_pull. erewrite (bind_Ret get) by reflexivity. cbn [fst snd]. rewrite if_true by lia.
    erewrite bind_Ret by reflexivity. cbn [fst snd].
    replace (S (left c + (length df + length mid)) - 1) with (left c + (length df + length mid)) by lia.
    erewrite bind_Ret by (apply on_snd_Ret; apply slot_peek_ok; [lia|exact Hm]). reflexivity.
  - apply (Q c v eq_refl). rewrite <- app_assoc in H. exact H.
  - intros b g. destruct (chunk_swap c _ g _ _ b H Hv) as (c' & g' & E & H' & El & D & L).
    eexists _, g'. split; [apply on_snd_Ret; exact E|]. split; [|auto]. apply (Q c' b El).
    rewrite insert_app_r_alt in H' by lia. rewrite <- app_assoc in H'. rewrite insert_app_r_alt in H' by lia.
    replace (length df + length mid - length df - length mid) with 0 in H' by lia. exact H'.
Qed.
Lemma ch_visit_ok script c l g : Holds N c l ->
  ends_as (Holds N) g (visited (bomb e) act 0 script l) (ch_visit e N act script c g).
Proof.
  intros H. pose proof H as (H1 & H2 & H3). unfold ch_visit. erewrite (bind_Ret get) by reflexivity.
  erewrite (bind_Ret (len e)).
  2:{ unfold len. erewrite (bind_Ret get) by reflexivity. apply usub_ok. lia. }
  apply scoped_ends. eapply ends_mono.
  2:{ apply (visit_ok e (sm_pull N) (fun p b => on_snd (swap_slot N p b)) act (fun _ => True) chunk_at) with (df := []) (db := []) (mid := l).
      - intros. apply chunk_none. assumption.
      - intros. apply chunk_front. assumption.
      - intros. apply chunk_back. assumption.
      - apply Forall_forall. auto.
      - split; [rewrite app_nil_r; exact H|]. cbn [fst snd length]. lia. }
  intros x m (df' & mid' & db' & Q & E). cbn [app] in E. rewrite app_nil_r in E. rewrite E. exact (proj1 Q).
Qed.
End chunk.
Section sparse.
Import SparseModel SparseSpec SparseProofs SparseProofs3 RefProofs2.
Context {A : Type} (e : env A) (N : nat) (act : nat -> A -> use A).
Hypothesis HW : N < word e.
Implicit Types (c : sparse A) (s : list (option A)) (l : list A) (g : log A) (v : A) (i k : nat).
Notation SHolds := (SHolds (A:=A) N).
Definition shape s : list bool := map is_some s.
Lemma shape_refill s : forall s0, shape s = shape s0 -> s = refill s0 (omap (fun x => x) s).
Proof.
  induction s as [|[x|] s IH]; intros [|[y|] s0]; cbn; try discriminate; [reflexivity| |];
    intros [= E]; f_equal; apply IH; exact E.
Qed.
Lemma shape_insert s i x y : s !! i = Some (Some x) -> shape (<[i := Some y]> s) = shape s.
Proof.
  revert i. induction s as [|z s IH]; intros [|i]; cbn; try discriminate.
  - intros [= ->]. reflexivity.
  - intros E. f_equal. exact (IH i E).
Qed.
Lemma omap_vacant s : (forall j, j < length s -> s !! j = Some None) -> omap (fun x : option A => x) s = [].
Proof.
  induction s as [|z s IH]; intros H; [reflexivity|]. pose proof (H 0 ltac:(cbn; lia)) as [= ->].
  cbn. apply IH. intros j Hj. exact (H (S j) ltac:(cbn; lia)).
Qed.
Definition sparse_at (s0 : list (option A)) (x : sparse A * bitmap) (df mid db : list A) : Prop :=
  exists s a, SHolds (fst x) s /\ shape s = shape s0 /\ a <= N /\ (forall p, p < N -> snd x p = (a <=? p) && smap (fst x) p) /\
    omap (fun y => y) (take a s) = df /\ omap (fun y => y) (drop a s) = mid /\ db = [].
Lemma from_omap s a : map snd (entries_from a s) = omap (fun x => x) s.
Proof. rewrite (values_shift s a 0). exact (values_omap s). Qed.
Lemma sparse_none s0 x df db : sparse_at s0 x df [] db ->
  exists x', (forall g, im_next N x g = Ret x' g None) /\ sparse_at s0 x' df [] db.
Proof.
  intros H. exists x. split; [|exact H]. destruct H as (s & a & H & Sh & Ha & Hb & E1 & E2 & E3). intros g.
  assert (R : im_rep N s x (entries_from a (drop a s))) by (split; [exact H|]; exists a; auto).
  rewrite <- (from_omap _ a) in E2. apply map_eq_nil in E2. rewrite E2 in R.
  unfold im_next. erewrite (bind_Ret get) by reflexivity. rewrite (im_first e N HW s x [] R). reflexivity.
Qed.
Lemma sparse_front s0 x v df mid db : sparse_at s0 x df (v :: mid) db ->
  gives (fun _ => im_next N) (fun p b => on_fst (swap_slot N p b)) x Front v (fun x' b => sparse_at s0 x' (df ++ [b]) mid db).
Proof.
  destruct x as [c b]. intros (s & a & H & Sh & Ha & Hb & E1 & E2 & E3). cbn [fst snd] in *.
  assert (R : im_rep N s (c, b) (entries_from a (drop a s))) by (split; [exact H|]; exists a; auto).
  rewrite <- (from_omap _ a) in E2. pose proof (first_entry e N HW (drop a s) a) as F.
  destruct (entries_from a (drop a s)) as [|[i w] es] eqn:Es; [discriminate|]. cbn [map snd] in E2. injection E2 as -> Em.
  destruct F as (F1 & F2 & F3 & F4 & F5). rewrite drop_length in F2. pose proof H as (H1 & H2 & H3).
  assert (Hi : s !! i = Some (Some v)). { rewrite lookup_drop in F3. replace (a + (i - a)) with i in F3 by lia. exact F3. }
  assert (E : forall g, im_next N (c, b) g = Ret (c, bm_put b i false) g (Some (i, v))).
  { intros g. unfold im_next. erewrite (bind_Ret get) by reflexivity. rewrite (im_first e N HW s (c, b) _ R).
    cbn [fst snd head fmap option_fmap option_map].
    erewrite (bind_Ret (on_snd _)) by reflexivity. cbn [fst snd].
    erewrite bind_Ret by (apply on_fst_Ret; apply (sp_value_ref_ok e N HW _ s); [exact H|exact Hi]). reflexivity. }
  assert (Q : forall c' s' y, smap c' = smap c -> SHolds c' s' -> s' = <[i := Some y]> s ->
     sparse_at s0 (c', bm_put b i false) (df ++ [y]) mid db).
  { intros c' s' y Sm H' ->. exists (<[i := Some y]> s), (S i). split; [exact H'|]. split; [|split; [lia|split; [|split; [|split]]]].
    - rewrite (shape_insert s i v y Hi). exact Sh.
    - intros p Hp. cbn [fst snd]. rewrite Sm. unfold bm_put. destruct (p =? i) eqn:Ep.
      * replace (S i <=? p) with false by lia. reflexivity.
      * rewrite Hb by exact Hp. destruct (decide (p < i)) as [Hlt|Hge].
        -- replace (S i <=? p) with false by lia. cbn [andb]. destruct (a <=? p) eqn:Eap; [|reflexivity].
           specialize (F4 p ltac:(lia) Hlt). rewrite lookup_drop in F4. replace (a + (p - a)) with p in F4 by lia.
           rewrite H2, F4 by exact Hp. reflexivity.
        -- replace (S i <=? p) with true by lia. replace (a <=? p) with true by lia. reflexivity.
    - rewrite (take_S_r _ i (Some y)) by (apply list_lookup_insert; lia). rewrite take_insert by lia.
      rewrite omap_app. f_equal. rewrite <- E1.
      rewrite <- (take_drop a s) at 1. rewrite take_app_ge by (rewrite take_length; lia).
      rewrite take_length, Nat.min_l by lia. rewrite omap_app.
      rewrite (omap_vacant (take (i - a) (drop a s))); [rewrite app_nil_r; reflexivity|].
      intros j Hj. rewrite take_length, drop_length in Hj. rewrite lookup_take by lia.
      specialize (F4 (a + j) ltac:(lia) ltac:(lia)). replace (a + j - a) with j in F4 by lia. exact F4.
    - rewrite drop_insert_gt by lia. rewrite F5, drop_drop in Em. replace (a + (S i - a)) with (S i) in Em by lia.
      rewrite from_omap in Em. exact Em.
    - exact E3. }
  exists (c, bm_put b i false), i. split; [exact E|]. split.
  - apply (Q c s v eq_refl H). symmetry. apply list_insert_id. exact Hi.
  - intros y g. destruct (modify_cell e N HW c s g i v (fun _ => y) H Hi) as (c' & g' & Em' & Sm & Hc' & D & L).
    exists (c', bm_put b i false), g'. split.
    + apply on_fst_Ret. apply (modify_const N i (fun _ => y)); [|lia|exact Em']. cbn. rewrite H3, Hi. reflexivity.
    + split; [|auto]. exact (Q c' _ y Sm Hc' eq_refl).
Qed.
Lemma sp_visit_ok n c s g : SHolds c s ->
  ends_as (fun c' m => SHolds c' (refill s m)) g (visited (bomb e) act 0 (repeat Front n) (values s)) (sp_visit e N act n c g).
Proof.
  intros H. unfold sp_visit. erewrite (bind_Ret get) by reflexivity. apply scoped_fst_ends. eapply ends_mono.
  2:{ apply (visit_ok e (fun _ => im_next N) (fun p b => on_fst (swap_slot N p b)) act (fun sd => sd = Front) (sparse_at s)) with (df := []) (db := []) (mid := values s).
      - intros. eapply sparse_none. eassumption.
      - intros. apply sparse_front. assumption.
      - intros ? ? ? ? ? E. discriminate E.
      - apply Forall_forall. intros x Hx. exact (repeat_spec _ _ _ Hx).
      - exists s, 0. split; [exact H|]. split; [reflexivity|]. split; [lia|]. split; [reflexivity|]. cbn [take drop].
        split; [reflexivity|]. split; [|reflexivity]. rewrite drop_0. symmetry. exact (values_omap s). }
  intros x m (df & mid & db & (s' & a & Q1 & Q2 & Q3 & Q4 & Q5 & Q6 & Q7) & E). cbn [app] in E. rewrite app_nil_r in E.
  subst db. rewrite app_nil_r in E. assert (m = omap (fun x => x) s') as ->.
  { rewrite E, <- Q5, <- Q6, <- omap_app, take_drop. reflexivity. }
  rewrite <- (shape_refill s' s Q2). exact Q1.
Qed.
(** [option_iter_mut] with the vacant entries skipped. *)
Lemma om_flat_ok c s g : SHolds c s -> forall fuel a, a <= N -> N - a < fuel ->
  om_flat e N fuel (c, a) g = match entries_from a (drop a s) with
                              | [] => Ret (c, N) g None
                              | (i, v) :: _ => Ret (c, S i) g (Some (i, v))
                              end.
Proof.
  intros H. pose proof H as (H1 & H2 & H3). induction fuel as [|fuel IH]; intros a Ha Hf; [lia|]. cbn [om_flat].
  destruct (decide (a < N)) as [Hlt|Hge].
  - destruct (lookup_lt_is_Some_2 s a ltac:(lia)) as [x Hx].
    assert (E : om_next e N (c, a) g = Ret (c, S a) g (Some ((fun y => (a, y)) <$> x))).
    { unfold om_next. erewrite (bind_Ret get) by reflexivity. cbn [fst snd]. rewrite if_true by lia.
      assert (Em : map_get N a c g = Ret c g (is_some x)).
      { unfold map_get. erewrite (bind_Ret get) by reflexivity. rewrite if_true by lia. rewrite H2, Hx by lia. reflexivity. }
      erewrite bind_Ret by (apply on_fst_Ret; exact Em). destruct x as [x|]; cbn [is_some].
      - rewrite bind_bind. erewrite bind_Ret by (apply on_fst_Ret; apply (sp_value_ref_ok e N HW _ s); [exact H|exact Hx]).
        erewrite bind_Ret by reflexivity. erewrite bind_Ret by (apply uadd_ok; lia). rewrite Nat.add_1_r. reflexivity.
      - erewrite bind_Ret by reflexivity. erewrite bind_Ret by (apply uadd_ok; lia). rewrite Nat.add_1_r. reflexivity. }
    erewrite bind_Ret by exact E. rewrite (drop_S _ _ _ Hx). cbn [entries_from].
    destruct x as [x|]; cbn [fmap option_fmap option_map]; [reflexivity|].
    apply IH; lia.
  - assert (a = N) as -> by lia. rewrite drop_ge by lia. cbn [entries_from].
    assert (E : om_next e N (c, N) g = Ret (c, N) g None).
    { unfold om_next. erewrite (bind_Ret get) by reflexivity. cbn [fst snd]. rewrite if_false by lia. reflexivity. }
    erewrite bind_Ret by exact E. reflexivity.
Qed.
Definition option_at (s0 : list (option A)) (x : sparse A * nat) (df mid db : list A) : Prop :=
  exists s, SHolds (fst x) s /\ shape s = shape s0 /\ snd x <= N /\
    omap (fun y => y) (take (snd x) s) = df /\ omap (fun y => y) (drop (snd x) s) = mid /\ db = [].
Lemma option_none s0 x df db : option_at s0 x df [] db ->
  exists x', (forall g, om_flat e N (S N) x g = Ret x' g None) /\ option_at s0 x' df [] db.
Proof.
  destruct x as [c a]. intros (s & H & Sh & Ha & E1 & E2 & E3). cbn [fst snd] in *. exists (c, N). split.
  - intros g. rewrite (om_flat_ok c s g H (S N) a) by lia.
    rewrite <- (from_omap _ a) in E2. apply map_eq_nil in E2. rewrite E2. reflexivity.
  - exists s. cbn [fst snd]. destruct H as (H1 & H2). split; [split; auto|]. split; [exact Sh|]. split; [lia|].
    rewrite take_ge, drop_ge by lia. split; [|auto]. rewrite <- E1.
    rewrite <- (app_nil_r (omap _ (take a s))), <- E2, <- omap_app, take_drop. reflexivity.
Qed.
Lemma option_front s0 x v df mid db : option_at s0 x df (v :: mid) db ->
  gives (fun _ => om_flat e N (S N)) (fun p b => on_fst (swap_slot N p b)) x Front v (fun x' b => option_at s0 x' (df ++ [b]) mid db).
Proof.
  destruct x as [c a]. intros (s & H & Sh & Ha & E1 & E2 & E3). cbn [fst snd] in *.
  rewrite <- (from_omap _ a) in E2. pose proof (first_entry e N HW (drop a s) a) as F.
  pose proof (fun g => om_flat_ok c s g H (S N) a Ha ltac:(lia)) as E.
  destruct (entries_from a (drop a s)) as [|[i w] es] eqn:Es; [discriminate|]. cbn [map snd] in E2. injection E2 as -> Em.
  destruct F as (F1 & F2 & F3 & F4 & F5). rewrite drop_length in F2. pose proof H as (H1 & H2 & H3).
  assert (Hi : s !! i = Some (Some v)). { rewrite lookup_drop in F3. replace (a + (i - a)) with i in F3 by lia. exact F3. }
  assert (Q : forall c' s' y, SHolds c' s' -> s' = <[i := Some y]> s -> option_at s0 (c', S i) (df ++ [y]) mid db).
  { intros c' s' y H' ->. exists (<[i := Some y]> s). cbn [fst snd]. split; [exact H'|]. split; [|split; [lia|split; [|split]]].
    - rewrite (shape_insert s i v y Hi). exact Sh.
    - rewrite (take_S_r _ i (Some y)) by (apply list_lookup_insert; lia). rewrite take_insert by lia.
      rewrite omap_app. f_equal. rewrite <- E1.
      rewrite <- (take_drop a s) at 1. rewrite take_app_ge by (rewrite take_length; lia).
      rewrite take_length, Nat.min_l by lia. rewrite omap_app.
      rewrite (omap_vacant (take (i - a) (drop a s))); [rewrite app_nil_r; reflexivity|].
      intros j Hj. rewrite take_length, drop_length in Hj. rewrite lookup_take by lia.
      specialize (F4 (a + j) ltac:(lia) ltac:(lia)). replace (a + j - a) with j in F4 by lia. exact F4.
    - rewrite drop_insert_gt by lia. rewrite F5, drop_drop in Em. replace (a + (S i - a)) with (S i) in Em by lia.
      rewrite from_omap in Em. exact Em.
    - exact E3. }
  exists (c, S i), i. split; [exact E|]. split.
  - apply (Q c s v H). symmetry. apply list_insert_id. exact Hi.
  - intros y g. destruct (modify_cell e N HW c s g i v (fun _ => y) H Hi) as (c' & g' & Em' & Sm & Hc' & D & L).
    exists (c', S i), g'. split.
    + apply on_fst_Ret. apply (modify_const N i (fun _ => y)); [|lia|exact Em']. cbn. rewrite H3, Hi. reflexivity.
    + split; [|auto]. exact (Q c' _ y Hc' eq_refl).
Qed.
Lemma om_visit_ok n c s g : SHolds c s ->
  ends_as (fun c' m => SHolds c' (refill s m)) g (visited (bomb e) act 0 (repeat Front n) (values s)) (om_visit e N act n c g).
Proof.
  intros H. unfold om_visit. apply scoped_fst_ends. eapply ends_mono.
  2:{ apply (visit_ok e (fun _ => om_flat e N (S N)) (fun p b => on_fst (swap_slot N p b)) act (fun sd => sd = Front) (option_at s)) with (df := []) (db := []) (mid := values s).
      - intros. eapply option_none. eassumption.
      - intros. apply option_front. assumption.
      - intros ? ? ? ? ? E. discriminate E.
      - apply Forall_forall. intros x Hx. exact (repeat_spec _ _ _ Hx).
      - exists s. cbn [fst snd]. split; [exact H|]. split; [reflexivity|]. split; [lia|].
        split; [reflexivity|]. split; [|reflexivity]. rewrite drop_0. symmetry. exact (values_omap s). }
  intros x m (df & mid & db & (s' & Q1 & Q2 & Q4 & Q5 & Q6 & Q7) & E). cbn [app] in E. rewrite app_nil_r in E.
  subst db. rewrite app_nil_r in E. assert (m = omap (fun x => x) s') as ->.
  { rewrite E, <- Q5, <- Q6, <- omap_app, take_drop. reflexivity. }
  rewrite <- (shape_refill s' s Q2). exact Q1.
Qed.
End sparse.
Section inline.
Import InlineModel InlineSpec InlineProofs InlineProofs2.
Context {A : Type} (e : env A) (L : layout) (act : nat -> A -> use A).
Hypothesis WF : wf_layout e L.
Hypothesis HOST : host_ok e L.
Notation cap := (capacity e L).
Notation pdata := (if cap =? 0 then Dangling else At (doff L)).
Implicit Types (c : inline A) (l : list A) (g : log A) (v : A) (b i k : nat).
Definition inline_at (x : (nat * nat) * inline A) (df mid db : list A) : Prop :=
  IHolds e L (snd x) (df ++ mid ++ db) /\ fst (fst x) = length df /\ snd (fst x) = length df + length mid.
Lemma inline_peek b c l g i v : placed L b -> IHolds e L c l -> l !! i = Some v -> ia_at L b pdata i c g = Ret c g v.
Proof.
  intros Hb [Hl H] Hv. pose proof (lookup_lt_Some _ _ _ Hv) as Hi. unfold ia_at.
  erewrite bind_Ret by (apply (ptr_add_data_ok _ _ HOST); lia).
  erewrite (bind_Ret (elems_peek _ _ _ _)).
  2:{ apply (elems_peek_ok _ _ WF HOST b i [v] c _ _ _ g Hb H); cbn [length]; [lia|lia| |lia].
      intros [|j] Hj; [rewrite Nat.add_0_r; exact Hv|lia]. }
  reflexivity.
Qed.
Lemma inline_swap b c l g i v y : placed L b -> IHolds e L c l -> l !! i = Some v -> exists c' g',
  ia_swap L b pdata i y c g = Ret c' g' v /\ IHolds e L c' (<[i := y]> l) /\ dropped g' = dropped g /\ leaked g' = leaked g.
Proof.
  intros Hb [Hl H] Hv. pose proof (lookup_lt_Some _ _ _ Hv) as Hi. unfold ia_swap.
  erewrite bind_Ret by (apply (ptr_add_data_ok _ _ HOST); lia).
  destruct (elem_read_ok _ _ WF HOST b i v c _ _ _ g Hb H ltac:(lia) Hv ltac:(lia)) as (c1 & E1 & H1).
  erewrite bind_Ret by exact E1.
  destruct (elem_write_ok _ _ WF HOST b i y c1 _ _ _ g Hb H1 ltac:(lia)) as (c2 & E2 & H2).
  { unfold upd. rewrite Nat.eqb_refl. reflexivity. }
  erewrite bind_Ret by exact E2. eexists _, _. split; [reflexivity|]. split; [|auto].
  eapply (IHolds_intro e L); [exact H2|rewrite insert_length; reflexivity| |rewrite insert_length; lia|rewrite insert_length; lia].
  intros j Hj. unfold upd. destruct (j =? i) eqn:Ej.
  - replace j with i by lia. rewrite list_lookup_insert by lia. reflexivity.
  - rewrite list_lookup_insert_ne by lia. reflexivity.
Qed.
Lemma inline_none b x s df db : inline_at x df [] db -> exists x', (forall g, ai_pull L b pdata s x g = Ret x' g None) /\ inline_at x' df [] db.
Proof.
  intros H. exists x. split; [|exact H]. intros g. destruct x as [[i j] c], H as (H & R1 & R2).
  cbn [length fst snd] in *. unfold ai_pull. erewrite (bind_Ret get) by reflexivity. cbn [fst snd]. rewrite if_false by lia. reflexivity.
Qed.
Lemma inline_front b x v df mid db : placed L b -> inline_at x df (v :: mid) db ->
  gives (ai_pull L b pdata) (fun i y => on_snd (ia_swap L b pdata i y)) x Front v (fun x' y => inline_at x' (df ++ [y]) mid db).
Proof.
  intros Hb. destruct x as [[a j] c]. intros (H & R1 & R2). cbn [fst snd length] in *. subst.
  assert (Hv : (df ++ (v :: mid) ++ db) !! length df = Some v)
    by (rewrite lookup_app_r by lia; rewrite Nat.sub_diag; reflexivity).
  assert (Q : forall c' y, IHolds e L c' ((df ++ [y]) ++ mid ++ db) ->
    inline_at ((S (length df), length df + S (length mid)), c') (df ++ [y]) mid db).
  { intros c' y H'. split; [exact H'|]. cbn [fst snd]. rewrite app_length. cbn [length]. lia. }
  eexists _, _. split; [|split].
  - intros g. unfold ai_pull. erewrite (bind_Ret get) by reflexivity. cbn [fst snd]. rewrite if_true by lia.
    erewrite bind_Ret by reflexivity. cbn [fst snd].
    erewrite bind_Ret by (apply on_snd_Ret; eapply inline_peek; [exact Hb|exact H|exact Hv]). reflexivity.
  - apply (Q c v). rewrite <- app_assoc. exact H.
  - intros y g. destruct (inline_swap b c _ g _ _ y Hb H Hv) as (c' & g' & E & H' & D & L').
    eexists _, g'. split; [apply on_snd_Ret; exact E|]. split; [|auto]. apply (Q c' y).
    rewrite insert_app_r_alt in H' by lia. rewrite Nat.sub_diag in H'. rewrite <- app_assoc. exact H'.
Qed.
Lemma inline_back b x v df mid db : placed L b -> inline_at x df (mid ++ [v]) db ->
  gives (ai_pull L b pdata) (fun i y => on_snd (ia_swap L b pdata i y)) x Back v (fun x' y => inline_at x' df mid (y :: db)).
Proof.
  intros Hb. destruct x as [[a j] c]. intros (H & R1 & R2). cbn [fst snd] in *. rewrite app_length in *. cbn [length] in *. subst.
  assert (Hv : (df ++ (mid ++ [v]) ++ db) !! (length df + length mid) = Some v).
  { rewrite lookup_app_r by lia. rewrite <- app_assoc. rewrite lookup_app_r by lia.
    replace (length df + length mid - length df - length mid) with 0 by lia. reflexivity. }
  replace (length df + (length mid + 1)) with (S (length df + length mid)) by lia.
  assert (Q : forall c' y, IHolds e L c' (df ++ mid ++ y :: db) ->
    inline_at ((length df, length df + length mid), c') df mid (y :: db)).
  { intros c' y H'. split; [exact H'|]. cbn [fst snd]. auto. }
  eexists _, _. split; [|split].
  - intros g. unfold ai_pull. erewrite (bind_Ret get) by reflexivity. cbn [fst snd]. rewrite if_true by lia.
    erewrite bind_Ret by reflexivity. cbn [fst snd].
    replace (S (length df + length mid) - 1) with (length df + length mid) by lia.
    erewrite bind_Ret by (apply on_snd_Ret; eapply inline_peek; [exact Hb|exact H|exact Hv]). reflexivity.
  - apply (Q c v). rewrite <- app_assoc in H. exact H.
  - intros y g. destruct (inline_swap b c _ g _ _ y Hb H Hv) as (c' & g' & E & H' & D & L').
    eexists _, g'. split; [apply on_snd_Ret; exact E|]. split; [|auto]. apply (Q c' y).
    rewrite insert_app_r_alt in H' by lia. rewrite <- app_assoc in H'. rewrite insert_app_r_alt in H' by lia.
    replace (length df + length mid - length df - length mid) with 0 in H' by lia. exact H'.
Qed.
Lemma ia_visit_ok b script c l g : placed L b -> IHolds e L c l ->
  ends_as (IHolds e L) g (visited (bomb e) act 0 script l) (ia_visit e L b act script c g).
Proof.
  intros Hb H. pose proof H as [Hl H0]. unfold ia_visit.
  erewrite (bind_Ret (ia_data e L b)) by (apply (data_ok e L WF HOST); assumption).
  erewrite (bind_Ret (ia_len e L b)) by (eapply (len_ok e L WF HOST); eassumption).
  apply scoped_ends. eapply ends_mono.
  2:{ apply (visit_ok e (ai_pull L b pdata) (fun i v => on_snd (ia_swap L b pdata i v)) act (fun _ => True) inline_at) with (df := []) (db := []) (mid := l).
      - intros. apply inline_none. assumption.
      - intros. apply inline_front; assumption.
      - intros. apply inline_back; assumption.
      - apply Forall_forall. auto.
      - split; [rewrite app_nil_r; exact H|]. cbn [fst snd length]. lia. }
  intros x m (df' & mid' & db' & Q & E). cbn [app] in E. rewrite app_nil_r in E. rewrite E. exact (proj1 Q).
Qed.
End inline.
