(** * Mutation through the iterators of [SparseChunk]; [Debug] of the sparse and inline containers. *)
From Verif Require Import Machine Spec Prims IterSpec2 SparseModel SparseSpec SparseProofs SparseProofs2 SparseProofs3 RefModel RefSpec.

Section sparse.
Context {A : Type} (e : env A) (N : nat).
Hypothesis HW : N < word e.
Implicit Types (c : sparse A) (s t : list (option A)) (g : log A) (v : A) (i k : nat).
Notation SHolds := (SHolds (A:=A) N).
Lemma on_fst_bind {O1 O2 R1 R2} (m : M A O1 R1) (k : R1 -> M A O1 R2) (o : O1) (x : O2) g o' g' r :
  (let! v := m in k v) o g = Ret o' g' r -> (let! v := on_fst m in on_fst (k v)) (o, x) g = Ret (o', x) g' r.
Proof.
  unfold bind, on_fst. cbn [fst snd]. destruct (m o g) as [o1 g1 v| | | |]; try discriminate. cbn [fst snd]. intros ->. reflexivity.
Qed.
Lemma map_first_entry f n t : forall a i x es, entries_from a t = (i, x) :: es ->
  map_first f (S n) t = take (i - a) t ++ Some (f x) :: map_first f n (drop (S i - a) t).
Proof.
  induction t as [|[y|] t IH]; intros a i x es E; cbn [entries_from] in E; [discriminate| |].
  - injection E as -> -> <-. rewrite Nat.sub_diag. replace (S i - i) with 1 by lia. cbn [map_first take drop app].
    rewrite drop_0. reflexivity.
  - pose proof (first_entry e N HW t (S a)) as F. rewrite E in F. destruct F as (F1 & _).
    replace (i - a) with (S (i - S a)) by lia. replace (S i - a) with (S (S i - S a)) by lia.
    cbn [map_first take drop app]. f_equal. eapply IH. exact E.
Qed.
Lemma map_first_none f n t : forall a, entries_from a t = [] -> map_first f n t = t.
Proof.
  destruct n as [|n]; [intros; destruct t; reflexivity|].
  induction t as [|[y|] t IH]; intros a E; cbn [entries_from] in E; [reflexivity|discriminate|].
  cbn [map_first]. f_equal. eapply IH. exact E.
Qed.
(** Overwriting the value of an occupied cell. *)
Lemma modify_cell c s g i x f : SHolds c s -> s !! i = Some (Some x) -> exists c' g',
  (let! v := slot_read N i in slot_write N i (f v)) c g = Ret c' g' tt /\ smap c' = smap c /\
  SHolds c' (<[i := Some (f x)]> s) /\ dropped g' = dropped g /\ leaked g' = leaked g.
Proof.
  intros H Hi. pose proof H as (H1 & H2 & H3). pose proof (lookup_lt_Some _ _ _ Hi) as Hlt.
  erewrite bind_Ret by (apply slot_read_ok; [lia|cbn; rewrite H3, Hi; reflexivity]).
  eexists _, _. split; [apply slot_write_ok; [lia|cbn; unfold upd; rewrite Nat.eqb_refl; reflexivity]|].
  split; [reflexivity|]. split; [|auto]. split; [rewrite insert_length; exact H1|].
  split; intros j; [intros Hj|]; cbn; rewrite insert_if.
  - rewrite H2 by exact Hj. destruct (j =? i) eqn:Ej; cbn [andb]; [|reflexivity].
    rewrite if_true by lia. replace j with i by lia. rewrite Hi. reflexivity.
  - unfold upd. destruct (j =? i) eqn:Ej; cbn [andb]; [|apply H3]. rewrite if_true by lia. reflexivity.
Qed.
Lemma im_modify_ok f n : forall c s b a g, SHolds c s -> a <= N ->
  (forall p, p < N -> b p = (a <=? p) && smap c p) ->
  exists o g', im_modify N f n (c, b) g = Ret o g' tt /\ SHolds (fst o) (take a s ++ map_first f n (drop a s)) /\
    dropped g' = dropped g /\ leaked g' = leaked g.
Proof.
  induction n as [|n IH]; intros c s b a g H Ha Hb; cbn [im_modify].
  { eexists _, _. split; [reflexivity|]. cbn [map_first]. split; [|auto].
    replace (map_first f 0 (drop a s)) with (drop a s) by (destruct (drop a s); reflexivity). rewrite take_drop. exact H. }
  assert (R : im_rep N s (c, b) (entries_from a (drop a s))) by (split; [exact H|]; exists a; auto).
  destruct (im_next_ok e N HW s (c, b) _ g R) as (b' & E & (H' & a' & Ha' & El' & Hb')). cbn [fst snd] in *.
  pose proof (first_entry e N HW (drop a s) a) as F.
  erewrite bind_Ret by exact E.
  destruct (entries_from a (drop a s)) as [|[i x] es] eqn:Es; cbn [head tail] in *.
  - erewrite bind_Ret by reflexivity. assert (Eb : b' = b).
    { unfold im_next in E. erewrite (bind_Ret get) in E by reflexivity.
      rewrite (im_first e N HW s (c, b) [] R) in E. cbn in E. injection E as E. congruence. }
    subst b'. destruct (IH c s b a g H Ha Hb) as (o & g' & E2 & H2 & D). exists o, g'. split; [exact E2|]. split; [|exact D].
    rewrite (map_first_none f n _ _ Es) in H2. rewrite (map_first_none f (S n) _ _ Es). exact H2.
  - destruct F as (F1 & F2 & F3 & F4 & F5). rewrite drop_length in F2.
    assert (Hi : s !! i = Some (Some x)). { rewrite lookup_drop in F3. replace (a + (i - a)) with i in F3 by lia. exact F3. }
    pose proof H as (H1 & H2 & H3).
    destruct (modify_cell c s g i x f H Hi) as (c' & g' & Em & Sm & Hc' & D & L).
    assert (Eb : forall p, p < N -> b' p = (S i <=? p) && smap c' p).
    { intros p Hp. rewrite Sm. unfold im_next in E. erewrite (bind_Ret get) in E by reflexivity.
      rewrite (im_first e N HW s (c, b) _ R) in E. cbn [fst snd head fmap option_fmap option_map] in E.
      erewrite (bind_Ret (on_snd _)) in E by reflexivity. cbn [fst snd] in E.
      erewrite bind_Ret in E by (apply on_fst_Ret; apply (sp_value_ref_ok e N HW _ s); [exact H|exact Hi]).
      injection E as <-. unfold bm_put. destruct (p =? i) eqn:Ep.
      * replace (S i <=? p) with false by lia. reflexivity.
      * rewrite Hb by exact Hp. destruct (decide (p < i)) as [Hlt|Hge].
        -- replace (S i <=? p) with false by lia. cbn [andb]. destruct (a <=? p) eqn:Eap; [|reflexivity].
           specialize (F4 p ltac:(lia) Hlt). rewrite lookup_drop in F4. replace (a + (p - a)) with p in F4 by lia.
           rewrite H2, F4 by exact Hp. reflexivity.
        -- replace (S i <=? p) with true by lia. replace (a <=? p) with true by lia. reflexivity. }
    erewrite (bind_Ret (let! v := on_fst (slot_read N i) in on_fst (slot_write N i (f v)))).
      2:{ apply on_fst_bind. exact Em. }
    destruct (IH c' _ b' (S i) g' Hc' ltac:(lia) Eb) as (o & g'' & E2 & H2' & D2 & L2).
    exists o, g''. split; [exact E2|]. rewrite D2, L2. split; [|auto].
    rewrite (map_first_entry f n _ _ _ _ _ Es). 
    rewrite drop_insert_gt in H2' by lia. rewrite drop_drop. replace (a + (S i - a)) with (S i) by lia.
    replace (take a s ++ take (i - a) (drop a s) ++ Some (f x) :: map_first f n (drop (S i) s))
      with (take (S i) (<[i := Some (f x)]> s) ++ map_first f n (drop (S i) s)); [exact H2'|].
    rewrite (take_S_r _ i (Some (f x))) by (apply list_lookup_insert; lia). rewrite take_insert by lia.
    rewrite <- app_assoc. cbn [app]. rewrite (app_assoc (take a s)). f_equal.
    rewrite <- (take_drop a s) at 1. rewrite take_app_ge by (rewrite take_length; lia). f_equal. f_equal. rewrite take_length. lia.
Qed.
Lemma om_modify_ok f n : forall c s k g, SHolds c s -> k <= N ->
  exists o g', om_modify e N f n (c, k) g = Ret o g' tt /\
    SHolds (fst o) (take k s ++ map (fmap f) (take n (drop k s)) ++ drop (k + n) s) /\
    dropped g' = dropped g /\ leaked g' = leaked g.
Proof.
  induction n as [|n IH]; intros c s k g H Hk; cbn [om_modify].
  { eexists _, _. split; [reflexivity|]. rewrite take_0, Nat.add_0_r. cbn [map app]. rewrite take_drop. auto. }
  pose proof H as (H1 & H2 & H3).
  destruct (decide (k < N)) as [Hlt|Hge].
  - destruct (lookup_lt_is_Some_2 s k ltac:(lia)) as [x Hx].
    assert (E : om_next e N (c, k) g = Ret (c, S k) g (Some ((fun a => (k, a)) <$> x))).
    { unfold om_next. erewrite (bind_Ret get) by reflexivity. cbn [fst snd]. rewrite if_true by lia.
      assert (Em : map_get N k c g = Ret c g (is_some x)).
      { unfold map_get. erewrite (bind_Ret get) by reflexivity. rewrite if_true by lia. rewrite H2, Hx by lia. reflexivity. }
      erewrite bind_Ret by (apply on_fst_Ret; exact Em). destruct x as [x|]; cbn [is_some].
      - rewrite bind_bind. erewrite bind_Ret by (apply on_fst_Ret; apply (sp_value_ref_ok e N HW _ s); [exact H|exact Hx]).
        erewrite bind_Ret by reflexivity. erewrite bind_Ret by (apply uadd_ok; lia). rewrite Nat.add_1_r. reflexivity.
      - erewrite bind_Ret by reflexivity. erewrite bind_Ret by (apply uadd_ok; lia). rewrite Nat.add_1_r. reflexivity. }
    erewrite bind_Ret by exact E. rewrite (drop_S _ _ _ Hx). cbn [take map app].
    destruct x as [x|]; cbn [fmap option_fmap option_map].
    + destruct (modify_cell c s g k x f H Hx) as (c' & g' & Em & Sm & Hc' & D & L).
      erewrite (bind_Ret (let! v := on_fst (slot_read N k) in on_fst (slot_write N k (f v)))).
      2:{ apply on_fst_bind. exact Em. }
      destruct (IH c' _ (S k) g' Hc' ltac:(lia)) as (o & g'' & E2 & H2' & D2 & L2).
      exists o, g''. split; [exact E2|]. rewrite D2, L2. split; [|auto].
      rewrite !drop_insert_gt in H2' by lia. rewrite (take_S_r _ k (Some (f x))) in H2' by (apply list_lookup_insert; lia).
      rewrite take_insert in H2' by lia. rewrite <- app_assoc in H2'. replace (k + S n) with (S k + n) by lia. exact H2'.
    + erewrite bind_Ret by reflexivity.
      destruct (IH c s (S k) g H ltac:(lia)) as (o & g'' & E2 & H2' & D2 & L2).
      exists o, g''. split; [exact E2|]. split; [|auto].
      rewrite (take_S_r _ k None) in H2' by exact Hx. rewrite <- app_assoc in H2'. replace (k + S n) with (S k + n) by lia. exact H2'.
  - erewrite bind_Ret.
    2:{ unfold om_next. erewrite (bind_Ret get) by reflexivity. cbn [fst snd]. rewrite if_false by lia. reflexivity. }
    erewrite bind_Ret by reflexivity. destruct (IH c s k g H Hk) as (o & g'' & E2 & H2' & D). exists o, g''.
    split; [exact E2|]. split; [|exact D]. rewrite !(drop_ge s) in * by lia. rewrite !take_nil in *. exact H2'.
Qed.
(** [Debug]. *)
Lemma en_all_ok s fuel : forall o l g, en_rep N s o l -> length l < fuel -> exists ks,
  en_all N fuel o g = Ret (fst o, ks) g l.
Proof.
  induction fuel as [|fuel IH]; intros o l g R Hf; [lia|]. cbn [en_all].
  destruct (en_next_ok e N HW s o l g R) as (ks & E & R'). erewrite bind_Ret by exact E.
  destruct l as [|p l]; cbn [head tail length] in *; [eexists; reflexivity|].
  destruct (IH _ _ g R' ltac:(lia)) as (ks' & E'). cbn [fst] in E'. erewrite bind_Ret by exact E'. eexists. reflexivity.
Qed.
Lemma sp_fmt_ok c s g : SHolds c s -> sp_fmt N c g = Ret c g (ShowMap NSparseChunk (entries s)).
Proof.
  intros H. assert (R0 : it_rep N s (c, 0) (entries s)). { split; [exact H|]. cbn. split; [lia|]. rewrite drop_0. reflexivity. }
  destruct (en_all_ok s (S N) (c, (0, 0)) (entries s) g) as (ks & E).
  - split; exact R0.
  - pose proof (values_length s) as P. unfold values in P. rewrite map_length in P. destruct H as [<- _]. lia.
  - unfold sp_fmt. rewrite E. reflexivity.
Qed.
End sparse.
