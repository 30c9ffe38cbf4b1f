(** * Proofs about references: what a mutable reference points to, that references do not alias, and what
    mutating through them does to the container. *)
From stdpp Require Import list_numbers.
From Verif Require Import Machine Spec Prims IterSpec RingModel RingProofs RingProofs2 RingProofs3 RingProofs4 RingLaws RefModel RefSpec.

Section ring.
Context {A : Type} (e : env A) (N : nat).
Hypothesis HW : N + N < word e.
Hypothesis HN : 0 < N.
Implicit Types (r : ring A) (l : list A) (g : log A) (v : A) (i k index count : nat).
Lemma raw_ok r l g i : RHolds N r l -> i < length l -> raw e N i r g = Ret r g (wr N (origin r + i)).
Proof.
  intros (Ho & Hl & Hc & Hm) Hi. unfold raw. erewrite (bind_Ret get) by reflexivity. apply raw_add_ok; lia.
Qed.
Lemma slot_of_lt r l i : RHolds N r l -> i < length l -> wr N (origin r + i) < N.
Proof. intros (Ho & Hl & Hc & Hm) Hi. apply wr_lt. lia. Qed.
Lemma slot_of_holds r l i : RHolds N r l -> i < length l -> rdata r (wr N (origin r + i)) = l !! i.
Proof.
  intros H Hi. pose proof (rep_of_holds N r l H) as R. destruct H as (Ho & Hl & Hc & Hm).
  rewrite (Rep_at N _ _ _ _ R) by lia. reflexivity.
Qed.
Lemma rb_get_unchecked_mut_ok r l g i : RHolds N r l -> i < length l ->
  rb_get_unchecked_mut e N i r g = Ret r g (wr N (origin r + i)).
Proof.
  intros H Hi. unfold rb_get_unchecked_mut. erewrite bind_Ret by (eapply raw_ok; eassumption).
  erewrite bind_Ret by (apply ptr_ok; eapply slot_of_lt; eassumption). reflexivity.
Qed.
Lemma rb_get_mut_ok r l g i : RHolds N r l ->
  rb_get_mut e N i r g = Ret r g (if i <? length l then Some (wr N (origin r + i)) else None).
Proof.
  intros H. unfold rb_get_mut. erewrite (bind_Ret get) by reflexivity. pose proof H as (_ & Hl & _).
  rewrite Hl. destruct (i <? length l) eqn:E.
  - rewrite if_false by lia. erewrite bind_Ret by (eapply rb_get_unchecked_mut_ok; [eassumption|lia]). reflexivity.
  - rewrite if_true by lia. reflexivity.
Qed.
Lemma rb_index_mut_ok r l g i : RHolds N r l ->
  rb_index_mut e N i r g = if i <? length l then Ret r g (wr N (origin r + i)) else Panic r g.
Proof.
  intros H. unfold rb_index_mut. erewrite (bind_Ret get) by reflexivity. pose proof H as (_ & Hl & _).
  rewrite Hl. destruct (i <? length l) eqn:E.
  - rewrite if_false by lia. eapply rb_get_unchecked_mut_ok; [eassumption|lia].
  - rewrite if_true by lia. reflexivity.
Qed.
Lemma sl_get_mut_ok s r l g i : RHolds N r l -> in_range s l ->
  sl_get_mut e N s i r g = Ret r g (if i <? snd s - fst s then Some (wr N (origin r + (fst s + i))) else None).
Proof.
  intros H Hs. pose proof H as (_ & _ & Hc & _). unfold sl_get_mut.
  erewrite bind_Ret by (eapply sl_len_ok; eassumption).
  rewrite (sub_list_length e N HW HN) by assumption. destruct Hs as [Hs1 Hs2].
  destruct (i <? snd s - fst s) eqn:E.
  - rewrite if_false by lia. unfold sl_get_unchecked_mut. rewrite bind_bind.
    erewrite bind_Ret by (apply uadd_ok; lia).
    erewrite bind_Ret by (eapply rb_get_unchecked_mut_ok; [eassumption|lia]). reflexivity.
  - rewrite if_true by lia. reflexivity.
Qed.
Lemma sl_index_mut_ok s r l g i : RHolds N r l -> in_range s l -> fst s + i < word e ->
  sl_index_mut e N s i r g = if fst s + i <? length l then Ret r g (wr N (origin r + (fst s + i))) else Panic r g.
Proof.
  intros H Hs Hi. unfold sl_index_mut. erewrite bind_Ret by (apply uadd_ok; lia). eapply rb_index_mut_ok; eassumption.
Qed.
Lemma modify_slot_ok r l g i v f : RHolds N r l -> l !! i = Some v -> exists r' g',
  modify_slot N (wr N (origin r + i)) f r g = Ret r' g' tt /\ RHolds N r' (<[i := f v]> l) /\ origin r' = origin r /\
  dropped g' = dropped g /\ leaked g' = leaked g.
Proof.
  intros H Hv. assert (Hi : i < length l) by (eapply lookup_lt_Some; exact Hv).
  pose proof (slot_of_lt r l i H Hi) as Hlt. pose proof (slot_of_holds r l i H Hi) as Hm.
  unfold modify_slot. erewrite bind_Ret by (apply slot_read_ok; [exact Hlt|]; rewrite <- Hv; exact Hm).
  eexists _, _. split; [apply slot_write_ok; [exact Hlt|]|]; cbn [getm setm ring_mem rdata origin rlen].
  { unfold upd. rewrite if_true by lia. reflexivity. }
  split; [|auto]. destruct H as (Ho & Hl & Hc & Hd). split; [exact Ho|]. cbn [rlen origin rdata].
  rewrite insert_length. split; [exact Hl|]. split; [exact Hc|].
  intros p. unfold upd. destruct (p =? wr N (origin r + i)) eqn:E.
  - replace p with (wr N (origin r + i)) by lia. rewrite if_true by lia. rewrite lg_wr by lia.
    rewrite list_lookup_insert by lia. reflexivity.
  - rewrite Hd. destruct (p <? N) eqn:Ep; [|reflexivity]. rewrite list_lookup_insert_ne; [reflexivity|].
    intros ->. rewrite wr_lg in E by lia. lia.
Qed.
(** The registers of an iterator standing for the positions [a .. a + n). *)
Definition regs (o : nat) (ix : idx) (a n : nat) : Prop :=
  iremaining ix = n /\ ileft ix = wr N (o + a) /\ iright ix = wr N (o + (a + n)).
Lemma mutate_all_ok f script : forall r df mid db ix g,
  RHolds N r (df ++ mid ++ db) -> regs (origin r) ix (length df) (length mid) ->
  exists x g', mutate_all e N f script (ix, r) g = Ret x g' tt /\ RHolds N (snd x) (df ++ mutated f script mid ++ db) /\
    dropped g' = dropped g /\ leaked g' = leaked g.
Proof.
  induction script as [|s script IH]; intros r df mid db ix g H (R1 & R2 & R3).
  { cbn [mutate_all mutated]. eexists _, _. split; [reflexivity|]. auto. }
  pose proof H as (Ho & Hl & Hc & _). rewrite !app_length in Hc. destruct ix as [il ir rem].
  cbn [ileft iright iremaining] in *. subst il ir rem.
  cbn [mutate_all mutated]. destruct s.
  - destruct mid as [|v mid].
    + erewrite bind_Ret by reflexivity. erewrite bind_Ret by reflexivity.
      destruct (IH r df [] db (Idx (wr N (origin r + length df)) (wr N (origin r + (length df + 0))) 0) g H) as (x & g' & E & H' & D);
        [split; [reflexivity|split; reflexivity]|]. exists x, g'. split; [exact E|].
      split; [|exact D]. destruct script as [|[] ?]; exact H'.
    + cbn [length] in *.
      assert (Hv : (df ++ (v :: mid) ++ db) !! length df = Some v)
        by (rewrite lookup_app_r by lia; rewrite Nat.sub_diag; reflexivity).
      assert (Hlt : length df < length (df ++ (v :: mid) ++ db)) by (eapply lookup_lt_Some; exact Hv).
      pose proof (slot_of_lt _ _ _ H Hlt) as Hp. pose proof (slot_of_holds _ _ _ H Hlt) as Hm. rewrite Hv in Hm.
      erewrite bind_Ret.
      2:{ unfold it_next. erewrite (bind_Ret get) by reflexivity. cbn [fst snd ileft iright iremaining].
          rewrite if_false by lia. erewrite bind_Ret by (apply usub_ok; lia).
          erewrite bind_Ret by (apply raw_inc_ok; assumption). erewrite bind_Ret by reflexivity. cbn [fst snd].
          erewrite bind_Ret by (apply ptr_ok; lia).
          erewrite bind_Ret by (apply on_snd_Ret; apply slot_peek_ok; [lia|exact Hm]). reflexivity. }
      cbv beta iota.
      destruct (modify_slot_ok r _ g _ _ f H Hv) as (r' & g' & E & H' & Eo & D & L).
      erewrite bind_Ret by (apply on_snd_Ret; exact E).
      rewrite insert_app_r_alt in H' by lia. rewrite Nat.sub_diag in H'. cbn in H'.
      destruct (IH r' (df ++ [f v]) mid db (Idx (wr N (wr N (origin r + length df) + 1)) (wr N (origin r + (length df + S (length mid)))) (S (length mid) - 1)) g')
        as (x & g'' & E'' & H'' & D'' & L'').
      * rewrite <- app_assoc. exact H'.
      * rewrite Eo, app_length. cbn [length regs ileft iright iremaining]. split; [cbn; lia|]. split; cbn [ileft iright].
        -- rewrite wr_add by lia. reflexivity.
        -- do 2 f_equal. lia.
      * exists x, g''. split; [exact E''|]. rewrite <- app_assoc in H''. rewrite D'', L''. auto.
  - destruct (rev mid) as [|v mid'] eqn:El; [|].
    2:{ assert (Em : mid = rev mid' ++ [v]) by (rewrite <- (rev_involutive mid), El; reflexivity).
      clear El. revert Em. generalize (rev mid'). clear mid'. intros mid' ->. rewrite app_length in *. cbn [length] in *.
      assert (Hv : (df ++ (mid' ++ [v]) ++ db) !! (length df + length mid') = Some v).
      { rewrite lookup_app_r by lia. rewrite <- app_assoc. rewrite lookup_app_r by lia. 
        replace (length df + length mid' - length df - length mid') with 0 by lia. reflexivity. }
      assert (Hlt : length df + length mid' < length (df ++ (mid' ++ [v]) ++ db)) by (eapply lookup_lt_Some; exact Hv).
      pose proof (slot_of_lt _ _ _ H Hlt) as Hp. pose proof (slot_of_holds _ _ _ H Hlt) as Hm. rewrite Hv in Hm.
      erewrite bind_Ret.
      2:{ unfold it_next_back. erewrite (bind_Ret get) by reflexivity. cbn [fst snd ileft iright iremaining].
          rewrite if_false by lia. erewrite bind_Ret by (apply usub_ok; lia).
          erewrite bind_Ret by (apply raw_dec_ok; [assumption|apply wr_lt; lia]).
          replace (lg N 1 (wr N (origin r + (length df + (length mid' + 1))))) with (wr N (origin r + (length df + length mid'))) by ring_lia.
          erewrite bind_Ret by reflexivity. cbn [fst snd].
          erewrite bind_Ret by (apply ptr_ok; lia).
          erewrite bind_Ret by (apply on_snd_Ret; apply slot_peek_ok; [lia|exact Hm]). reflexivity. }
      cbv beta iota.
      destruct (modify_slot_ok r _ g _ _ f H Hv) as (r' & g' & E & H' & Eo & D & L).
      erewrite bind_Ret by (apply on_snd_Ret; exact E).
      destruct (IH r' df mid' ([f v] ++ db) (Idx (wr N (origin r + length df)) (wr N (origin r + (length df + length mid'))) (length mid' + 1 - 1)) g')
        as (x & g'' & E'' & H'' & D'' & L'').
      * rewrite insert_app_r_alt in H' by lia. rewrite <- app_assoc in H'. rewrite insert_app_r_alt in H' by lia.
        replace (length df + length mid' - length df - length mid') with 0 in H' by lia. exact H'.
      * rewrite Eo. split; [cbn; lia|]. split; reflexivity.
      * exists x, g''. split; [exact E''|]. rewrite D'', L''. rewrite <- app_assoc. auto. }
    + assert (mid = []) as -> by (rewrite <- (rev_involutive mid), El; reflexivity). cbn [length] in *.
      erewrite bind_Ret by reflexivity. erewrite bind_Ret by reflexivity.
      destruct (IH r df [] db (Idx (wr N (origin r + length df)) (wr N (origin r + (length df + 0))) 0) g H) as (x & g' & E & H' & D);
        [split; [reflexivity|split; reflexivity]|]. exists x, g'. split; [exact E|].
      split; [|exact D]. destruct script as [|[] ?]; exact H'.
Qed.
Lemma rb_iter_regs r l g : RHolds N r l -> exists ix, rb_iter e N r g = Ret r g ix /\ regs (origin r) ix 0 (length l).
Proof.
  intros (Ho & Hl & Hc & Hm). unfold rb_iter. erewrite (bind_Ret get) by reflexivity.
  erewrite bind_Ret by (apply raw_add_ok; lia). eexists. split; [reflexivity|].
  split; [exact Hl|]. cbn [ileft iright]. split; [ring_lia|]. do 2 f_equal. lia.
Qed.
Lemma sl_iter_regs s r l g : RHolds N r l -> in_range s l -> exists ix, sl_iter e N s r g = Ret r g ix /\
  regs (origin r) ix (fst s) (snd s - fst s).
Proof.
  intros H Hr. assert (Hn := fun g => sl_len_ok e N HW HN s l r g H Hr).
  rewrite (sub_list_length e N HW HN) in Hn by assumption.
  unfold sl_iter. erewrite (bind_Ret get) by reflexivity.
  destruct H as (Ho & Hl & Hc & Hm). destruct Hr as [Hr1 Hr2].
  erewrite bind_Ret by (apply raw_add_ok; lia). erewrite bind_Ret by (apply raw_add_ok; lia).
  erewrite bind_Ret by apply Hn.
  erewrite bind_Ret by (apply raw_add_ok; [lia|]; ring_lia).
  erewrite bind_Ret by apply Hn. eexists. split; [reflexivity|].
  split; [reflexivity|]. cbn [ileft iright]. split; [reflexivity|]. ring_lia.
Qed.
Lemma rb_mutate_ok f script r l g : RHolds N r l -> exists r' g', rb_mutate e N f script r g = Ret r' g' tt /\
  RHolds N r' (mutated f script l) /\ dropped g' = dropped g /\ leaked g' = leaked g.
Proof.
  intros H. destruct (rb_iter_regs r l g H) as (ix & E & R). unfold rb_mutate. rewrite E.
  destruct (mutate_all_ok f script r [] l [] ix g) as (x & g' & E2 & H2 & D & L).
  - rewrite app_nil_r. exact H.
  - exact R.
  - rewrite E2. rewrite app_nil_r in H2. exists (snd x), g'. auto.
Qed.
Lemma sub_list_split s l : in_range s l -> l = take (fst s) l ++ sub_list s l ++ drop (snd s) l.
Proof.
  intros [H1 H2]. unfold sub_list. replace (drop (snd s) l) with (drop (snd s - fst s) (drop (fst s) l))
    by (rewrite drop_drop; f_equal; lia). rewrite take_drop, take_drop. reflexivity.
Qed.
Lemma sl_mutate_ok s f script r l g : RHolds N r l -> in_range s l ->
  exists r' g', sl_mutate e N s f script r g = Ret r' g' tt /\
  RHolds N r' (take (fst s) l ++ mutated f script (sub_list s l) ++ drop (snd s) l) /\
  dropped g' = dropped g /\ leaked g' = leaked g.
Proof.
  intros H Hs. destruct (sl_iter_regs s r l g H Hs) as (ix & E & R). unfold sl_mutate. rewrite E.
  destruct (mutate_all_ok f script r (take (fst s) l) (sub_list s l) (drop (snd s) l) ix g) as (x & g' & E2 & H2 & D & L).
  - rewrite <- sub_list_split by assumption. exact H.
  - rewrite (sub_list_length e N HW HN) by assumption. rewrite take_length, Nat.min_l by (destruct Hs; lia). exact R.
  - rewrite E2. exists (snd x), g'. auto.
Qed.
(** Cutting a slice up never leaves the range. *)
Lemma uadd_ret x y r g r' g' z : uadd e x y r g = Ret r' g' z -> r' = r /\ g' = g.
Proof. unfold uadd. destruct (_ <? _); [|destruct (debug e)]; intros E; inversion E; auto. Qed.
Lemma sl_slice_within s lo hi r l g r' g' t : RHolds N r l -> in_range s l ->
  sl_slice e s lo hi r g = Ret r' g' t -> r' = r /\ g' = g /\ fst s <= fst t <= snd t /\ snd t <= snd s.
Proof.
  intros H Hs E. unfold sl_slice in E.
  unfold bind at 1 in E.
  destruct (_ r g) as [r1 g1 x| | | |] eqn:E1 in E; try discriminate.
  assert (r1 = r /\ g1 = g) as [-> ->].
  { destruct lo; [inversion E1; auto|exact (uadd_ret _ _ _ _ _ _ _ E1)|discriminate]. }
  unfold bind at 1 in E.
  destruct (_ r g) as [r2 g2 y| | | |] eqn:E2 in E; try discriminate.
  assert (r2 = r /\ g2 = g) as [-> ->].
  { destruct hi; [inversion E2; auto| |exact (uadd_ret _ _ _ _ _ _ _ E2)]. unfold bind in E2.
    destruct (uadd e (fst s) i r g) as [r3 g3 z| | | |] eqn:E3; try discriminate.
    destruct (uadd_ret _ _ _ _ _ _ _ E3) as [-> ->]. exact (uadd_ret _ _ _ _ _ _ _ E2). }
  destruct ((x <? fst s) || (snd s <? y) || (y <? x)) eqn:E3; [discriminate|]. inversion E; subst. cbn [fst snd].
  repeat split; lia.
Qed.
Lemma sl_follow_within path : forall s r l g r' g' t, RHolds N r l -> in_range s l ->
  sl_follow e path s r g = Ret r' g' t -> r' = r /\ g' = g /\ fst s <= fst t <= snd t /\ snd t <= snd s.
Proof.
  induction path as [|c path IH]; intros s r l g r' g' t H Hs E; cbn [sl_follow] in E.
  { inversion E; subst. destruct Hs. auto. }
  destruct c as [lo hi|k|k].
  - unfold bind in E. destruct (sl_slice e s lo hi r g) as [r1 g1 s1| | | |] eqn:E1; try discriminate.
    destruct (sl_slice_within _ _ _ _ _ _ _ _ _ H Hs E1) as (-> & -> & Hs1 & Hs2).
    assert (in_range s1 l) by (destruct Hs; split; lia).
    destruct (IH _ _ _ _ _ _ _ H H0 E) as (-> & -> & ? & ?). repeat split; lia.
  - unfold bind in E. rewrite (sl_split_at_ok e N HW HN s k r l g H Hs) in E.
    rewrite (sub_list_length e N HW HN) in E by assumption. destruct (k <=? snd s - fst s) eqn:Ek; [|discriminate]. cbn [fst snd] in E.
    assert (in_range (fst s, fst s + k) l) by (destruct Hs; split; cbn; lia).
    destruct (IH _ _ _ _ _ _ _ H H0 E) as (-> & -> & ? & ?). destruct Hs. cbn in *. repeat split; lia.
  - unfold bind in E. rewrite (sl_split_at_ok e N HW HN s k r l g H Hs) in E.
    rewrite (sub_list_length e N HW HN) in E by assumption. destruct (k <=? snd s - fst s) eqn:Ek; [|discriminate]. cbn [fst snd] in E.
    assert (in_range (fst s + k, snd s) l) by (destruct Hs; split; cbn; lia).
    destruct (IH _ _ _ _ _ _ _ H H0 E) as (-> & -> & ? & ?). destruct Hs. cbn in *. repeat split; lia.
Qed.
Lemma pulls_in {I} script : forall (l : list I) h a, In (h, Some a) (fst (pulls script l)) -> In a l.
Proof.
  induction script as [|s script IH]; intros l h a Hin; cbn [pulls fst] in Hin; [destruct Hin|].
  destruct (take_side s l) as [x l'] eqn:E. specialize (IH l'). destruct (pulls script l') as [rest l'']. cbn [fst] in *.
  assert (Sub : (x = Some a -> In a l) /\ (In a l' -> In a l)).
  { destruct s; cbn [take_side] in E.
    - destruct l as [|b l]; inversion E; subst; split; try discriminate; try tauto.
      + intros [= ->]. apply in_eq.
      + intros Hi. apply in_cons. exact Hi.
    - destruct (l !! (length l - 1)) as [b|] eqn:Eb; inversion E; subst; split; try discriminate; try tauto.
      + intros [= ->]. apply elem_of_list_In. eapply elem_of_list_lookup_2. exact Eb.
      + intros Hi. apply elem_of_list_In in Hi. apply elem_of_list_In. eapply elem_of_take in Hi as (j & Hj & _).
        eapply elem_of_list_lookup_2; exact Hj. }
  destruct Hin as [Hin|Hin]; [injection Hin as _ Hin; exact (proj1 Sub Hin)|]. apply (proj2 Sub). eapply IH. exact Hin.
Qed.
Lemma ref_of_range s r l g p : RHolds N r l -> in_range s l -> ref_of e N s r g p ->
  exists i, fst s <= i < snd s /\ p = wr N (origin r + i).
Proof.
  intros H Hs [(i & E)|(script & ix & x & g' & outs & E1 & E2 & h & v & Hin)].
  - rewrite (sl_get_mut_ok s r l g i H Hs) in E. destruct (i <? snd s - fst s) eqn:Ei; [|discriminate].
    injection E as <-. exists (fst s + i). split; [lia|reflexivity].
  - destruct (sl_iter_ok e N HW HN s l r g H Hs) as (ix' & E1' & I). rewrite E1 in E1'. injection E1' as <-.
    assert (Ho : origin r < N) by apply H.
    assert (P : forall x ls g0, itH N (origin r) r x ls -> exists x' g', pull_all (it_next e N) (it_next_back e N)
     it_size_hint script x g0 = Ret x' g' (fst (pulls script ls)) /\ itH N (origin r) r x' (snd (pulls script ls)) /\
     dropped g' = dropped g0 /\ leaked g' = leaked g0).
    { apply pull_all_ok.
      - intros. apply it_next_ok; assumption.
      - intros. apply it_next_back_ok; assumption.
      - intros. eapply it_size_hint_ok; eassumption. }
    destruct (P _ _ g I) as (x' & g'' & E2' & _). rewrite E2 in E2'. injection E2' as -> -> ->.
    apply pulls_in in Hin. apply elem_of_list_In, elem_of_list_lookup in Hin as (t & Ht).
    assert (Hlt : t < length (slots_from N (origin r) (fst s) (sub_list s l))) by (eapply lookup_lt_Some; exact Ht).
    rewrite slots_from_length, (sub_list_length e N HW HN) in Hlt by assumption.
    destruct (sub_list s l !! t) as [w|] eqn:Ew; [|apply lookup_ge_None in Ew; rewrite (sub_list_length e N HW HN) in Ew by assumption; lia].
    rewrite (slots_from_lookup e N HW HN (origin r) (sub_list s l) _ _ _ Ew) in Ht. injection Ht as <- <-.
    exists (fst s + t). split; [lia|reflexivity].
Qed.
Theorem split_disjoint s k path1 path2 r l g s1 s2 t1 t2 r' g' r1 g1 r2 g2 p q : RHolds N r l -> in_range s l ->
  sl_split_at e s k r g = Ret r' g' (s1, s2) ->
  sl_follow e path1 s1 r g = Ret r1 g1 t1 -> sl_follow e path2 s2 r g = Ret r2 g2 t2 ->
  ref_of e N t1 r g p -> ref_of e N t2 r g q -> p <> q.
Proof.
  intros H Hs E E1 E2 P Q. rewrite (sl_split_at_ok e N HW HN s k r l g H Hs) in E.
  rewrite (sub_list_length e N HW HN) in E by assumption. destruct (k <=? snd s - fst s) eqn:Ek; [|discriminate].
  inversion E; subst s1 s2 r' g'. 
  assert (R1 : in_range (fst s, fst s + k) l) by (destruct Hs; split; cbn; lia).
  assert (R2 : in_range (fst s + k, snd s) l) by (destruct Hs; split; cbn; lia).
  destruct (sl_follow_within _ _ _ _ _ _ _ _ H R1 E1) as (_ & _ & A1 & A2).
  destruct (sl_follow_within _ _ _ _ _ _ _ _ H R2 E2) as (_ & _ & B1 & B2). cbn [fst snd] in *.
  destruct Hs as [Hs1 Hs2].
  assert (T1 : in_range t1 l) by (split; lia). assert (T2 : in_range t2 l) by (split; lia).
  destruct (ref_of_range _ _ _ _ _ H T1 P) as (i & Hi & ->).
  destruct (ref_of_range _ _ _ _ _ H T2 Q) as (j & Hj & ->).
  destruct H as (Ho & Hl & Hc & _). intros Eq. apply wr_inj in Eq; lia.
Qed.
(** [split_at]: the first element of the right half can also be reached through [index_mut] of the left half. *)
Lemma split_index_mut_alias s k r l g : RHolds N r l -> in_range s l -> k < snd s - fst s ->
  exists s1 s2 p, sl_split_at e s k r g = Ret r g (s1, s2) /\ sl_len e s1 r g = Ret r g k /\
    sl_index_mut e N s1 k r g = Ret r g p /\ sl_get_mut e N s2 0 r g = Ret r g (Some p).
Proof.
  intros H Hs Hk. exists (fst s, fst s + k), (fst s + k, snd s), (wr N (origin r + (fst s + k))).
  rewrite (sl_split_at_ok e N HW HN s k r l g H Hs). rewrite (sub_list_length e N HW HN) by assumption.
  rewrite if_true by lia. split; [reflexivity|].
  pose proof H as (_ & _ & Hc & _). pose proof Hs as [Hs1 Hs2].
  assert (R1 : in_range (fst s, fst s + k) l) by (split; cbn; lia).
  assert (R2 : in_range (fst s + k, snd s) l) by (split; cbn; lia).
  rewrite (sl_len_ok e N HW HN _ _ _ _ H R1), (sub_list_length e N HW HN) by assumption. cbn [fst snd].
  split; [f_equal; lia|].
  rewrite (sl_index_mut_ok _ _ _ _ _ H R1) by (cbn [fst]; lia). cbn [fst]. rewrite if_true by lia.
  split; [reflexivity|]. rewrite (sl_get_mut_ok _ _ _ _ _ H R2). cbn [fst snd]. rewrite if_true by lia.
  rewrite Nat.add_0_r. reflexivity.
Qed.
(** [IndexIter] over the raw indices. *)
Definition iiH (o : nat) (ix : idx) (ls : list nat) : Prop :=
  exists a, a + length ls <= N /\ regs o ix a (length ls) /\
    forall t, t < length ls -> ls !! t = Some (wr N (o + (a + t))).
Lemma ii_next_ok o ix ls g : o < N -> iiH o ix ls ->
  exists x' g', ii_next e N ix g = Ret x' g' (fst (take_side Front ls)) /\
    iiH o x' (snd (take_side Front ls)) /\ dropped g' = dropped g /\ leaked g' = leaked g.
Proof.
  intros Ho. destruct ix as [il ir rem]. intros (a & H2 & (H1 & H3 & H4) & H5).
  cbn [ileft iright iremaining] in *. subst.
  unfold ii_next. erewrite (bind_Ret get) by reflexivity. cbn [ileft iright iremaining].
  destruct ls as [|p ls]; cbn [length take_side fst snd] in *.
  - rewrite if_false by lia. eexists _, _. split; [reflexivity|]. split; [|auto].
    exists a. cbn. split; [exact H2|]. split; [split; auto|]. intros; lia.
  - rewrite if_true by lia. erewrite bind_Ret by (apply usub_ok; lia).
    pose proof (wr_lt N (o + a) ltac:(lia)).
    erewrite bind_Ret by (apply raw_inc_ok; assumption). rewrite wr_add by lia.
    erewrite bind_Ret by reflexivity.
    pose proof (H5 0 ltac:(lia)) as Hv1. rewrite !Nat.add_0_r in *. cbn in Hv1. injection Hv1 as ->.
    eexists _, _. split; [reflexivity|]. split; [|auto].
    exists (a + 1). cbn [ileft iright iremaining].
    split; [lia|]. split; [split; cbn; [lia|]; split; [reflexivity|do 2 f_equal; lia]|].
    intros t Ht. specialize (H5 (S t) ltac:(lia)). cbn in H5.
    replace (a + 1 + t) with (a + S t) by lia. exact H5.
Qed.
Lemma ii_next_back_ok o ix ls g : o < N -> iiH o ix ls ->
  exists x' g', ii_next_back e N ix g = Ret x' g' (fst (take_side Back ls)) /\
    iiH o x' (snd (take_side Back ls)) /\ dropped g' = dropped g /\ leaked g' = leaked g.
Proof.
  intros Ho. destruct ix as [il ir rem]. intros (a & H2 & (H1 & H3 & H4) & H5).
  cbn [ileft iright iremaining] in *. subst.
  unfold ii_next_back. erewrite (bind_Ret get) by reflexivity. cbn [ileft iright iremaining take_side].
  destruct (0 <? length ls) eqn:E.
  - erewrite bind_Ret by (apply usub_ok; lia).
    erewrite bind_Ret by (apply raw_dec_ok; [assumption|apply wr_lt; lia]).
    rewrite (H5 (length ls - 1) ltac:(lia)). cbn [fst snd].
    replace (lg N 1 (wr N (o + (a + length ls)))) with (wr N (o + (a + (length ls - 1)))) by ring_lia.
    erewrite bind_Ret by reflexivity.
    eexists _, _. split; [reflexivity|]. split; [|auto].
    exists a. rewrite take_length. replace ((length ls - 1) `min` length ls) with (length ls - 1) by lia.
    split; [lia|]. split; [split; [reflexivity|]; split; reflexivity|].
    intros t Ht. rewrite lookup_take by lia. apply H5. lia.
  - destruct ls; [|cbn in E; lia]. cbn. eexists _, _. split; [reflexivity|]. split; [|auto].
    exists a. cbn. split; [exact H2|]. split; [split; auto|]. intros; lia.
Qed.
Lemma rb_index_range_ok script r l g : RHolds N r l -> exists ix slots,
  rb_index_range e N r g = Ret r g ix /\ length slots = length l /\
  (forall i p, slots !! i = Some p -> p = (origin r + i) mod N /\ rdata r p = l !! i) /\
  exists x g', pull_all (ii_next e N) (ii_next_back e N) ii_size_hint script ix g =
      Ret x g' (fst (pulls script slots)) /\ dropped g' = dropped g /\ leaked g' = leaked g.
Proof.
  intros H. pose proof H as (Ho & Hl & Hc & _). destruct (rb_iter_regs r l g H) as (ix & E & R).
  exists ix, (map (fun i => wr N (origin r + i)) (seq 0 (length l))). split; [exact E|].
  rewrite map_length, seq_length. split; [reflexivity|]. split.
  { intros i p Hp. change (((fun i => wr N (origin r + i)) <$> seq 0 (length l)) !! i = Some p) in Hp.
    rewrite list_lookup_fmap in Hp. destruct (seq 0 (length l) !! i) as [j|] eqn:Hj; [|discriminate].
    injection Hp as <-. apply lookup_seq in Hj as [-> Hj]. cbn [plus].
    split; [apply wr_mod; lia|]. eapply slot_of_holds; [eassumption|lia]. }
  assert (P : forall x ls g0, iiH (origin r) x ls -> exists x' g', pull_all (ii_next e N) (ii_next_back e N)
     ii_size_hint script x g0 = Ret x' g' (fst (pulls script ls)) /\ iiH (origin r) x' (snd (pulls script ls)) /\
     dropped g' = dropped g0 /\ leaked g' = leaked g0).
  { apply pull_all_ok.
    - intros. apply ii_next_ok; assumption.
    - intros. apply ii_next_back_ok; assumption.
    - intros o l0 g0 (a & _ & (H1 & _) & _). unfold ii_size_hint, bind, get, ret. rewrite H1. reflexivity. }
  destruct (P ix (map (fun i => wr N (origin r + i)) (seq 0 (length l))) g) as (x & g' & E2 & _ & D & L).
  { exists 0. rewrite map_length, seq_length. split; [lia|]. split; [exact R|].
    intros t Ht. change (((fun i => wr N (origin r + i)) <$> seq 0 (length l)) !! t = Some (wr N (origin r + t))).
    rewrite list_lookup_fmap, lookup_seq_lt by lia. reflexivity. }
  eauto.
Qed.
(** [Debug]. *)
Lemma rb_fmt_ok r l g : RHolds N r l -> rb_fmt e N r g = Ret r g (ShowList NRingBuffer l).
Proof. intros H. unfold rb_fmt. erewrite bind_Ret by (apply rb_contents_eq; eassumption). reflexivity. Qed.
Lemma sl_fmt_ok s r l g : RHolds N r l -> in_range s l -> sl_fmt e N s r g = Ret r g (ShowList NRingBuffer (sub_list s l)).
Proof. intros H Hs. unfold sl_fmt. erewrite bind_Ret by (apply sl_contents_ok; eassumption). reflexivity. Qed.
(** [insert_from] comes to an end whenever the sum of the lengths does not wrap, or the index is not before the end. *)
Lemma rb_insert_from_ends r l g i n it : calm e -> RHolds N r l ->
  length l + n < word e \/ debug e = true \/ length l <= i ->
  exists r' g' l', (rb_insert_from e N i n it r g = Ret r' g' tt \/ rb_insert_from e N i n it r g = Panic r' g') /\ RHolds N r' l'.
Proof.
  intros Hcalm H Hd.
  assert (P : forall (x : outcome A (ring A) unit) s, agrees (RHolds N) eq g x s -> exists r' g' l',
     (x = Ret r' g' tt \/ x = Panic r' g') /\ RHolds N r' l').
  { intros x [l' [] d|l' d k]; cbn [agrees].
    - intros (r' & g' & [] & E & H' & _). exists r', g', l'. auto.
    - intros (r' & g' & k' & E & H' & _). exists r', g', l'. auto. }
  destruct (decide (length l + n < word e \/ debug e = true)) as [Hd'|Hd'].
  { exact (P _ _ (rb_insert_from_ok e N HW HN Hcalm r l g i n it H Hd')). }
  assert (Hi : length l <= i) by tauto. assert (Hdb : debug e = false) by (destruct (debug e); [tauto|reflexivity]).
  pose proof (rb_extend_ok e N HW HN Hcalm it r l g H) as He.
  pose proof H as (_ & Hl & _).
  unfold rb_insert_from. erewrite (bind_Ret get) by reflexivity. rewrite Hl.
  assert (~ length l + n < word e) by tauto. erewrite (bind_Ret (uadd e (length l) n)) by (unfold uadd; rewrite Hdb, if_false by lia; reflexivity).
  destruct (N <? length l + n - word e); [exists r, g, l; split; [right; reflexivity|exact H]|].
  destruct (length l <? i) eqn:E1; [exists r, g, l; split; [right; reflexivity|exact H]|]. rewrite if_true by lia.
  exact (P _ _ He).
Qed.
End ring.
(** What [mutated] means. *)
Lemma mutated_length {A} (f : A -> A) script : forall l, length (mutated f script l) = length l.
Proof.
  induction script as [|[] script IH]; intros l; cbn [mutated]; [reflexivity| |].
  - destruct l as [|a l]; cbn; [reflexivity|]. rewrite IH. reflexivity.
  - destruct (rev l) as [|a l'] eqn:E; [rewrite <- (rev_involutive l), E; reflexivity|].
    rewrite app_length, IH, rev_length. cbn [length]. rewrite <- (rev_length l), E. cbn. lia.
Qed.
Lemma mutated_all {A} (f : A -> A) script : forall l, length l <= length script -> mutated f script l = map f l.
Proof.
  induction script as [|[] script IH]; intros l H; cbn [mutated length] in *; [destruct l; [reflexivity|cbn in H; lia]| |].
  - destruct l as [|a l]; cbn in *; [reflexivity|]. rewrite IH by lia. reflexivity.
  - destruct (rev l) as [|a l'] eqn:E; [rewrite <- (rev_involutive l), E; reflexivity|].
    assert (El : l = rev l' ++ [a]) by (rewrite <- (rev_involutive l), E; reflexivity).
    rewrite IH by (rewrite El, app_length in H; cbn in H; lia). rewrite El, map_app. reflexivity.
Qed.
Lemma mutated_pulls {A} (f : A -> A) script : forall l,
  mutated f script l = map f (delivered Front script (fst (pulls script l))) ++ snd (pulls script l) ++
    rev (map f (delivered Back script (fst (pulls script l)))).
Proof.
  induction script as [|s script IH]; intros l; [cbn; rewrite app_nil_r; reflexivity|].
  destruct s; cbn [mutated pulls].
  - destruct l as [|a l]; cbn [take_side].
    + specialize (IH []). destruct (pulls script []) as [rest l'']. cbn. cbn in IH. rewrite <- IH.
      destruct script as [|[] ?]; reflexivity.
    + specialize (IH l). destruct (pulls script l) as [rest l'']. cbn. cbn in IH. rewrite IH. reflexivity.
  - destruct (rev l) as [|a l'] eqn:E.
    + assert (l = []) as -> by (rewrite <- (rev_involutive l), E; reflexivity). cbn [take_side lookup list_lookup length].
      specialize (IH []). cbn. destruct (pulls script []) as [rest l'']. cbn. cbn in IH. rewrite <- IH.
      destruct script as [|[] ?]; reflexivity.
    + assert (El : l = rev l' ++ [a]) by (rewrite <- (rev_involutive l), E; reflexivity).
      assert (T : take_side Back l = (Some a, rev l')).
      { rewrite El. unfold take_side. rewrite app_length. cbn [length].
        replace (length (rev l') + 1 - 1) with (length (rev l')) by lia. rewrite take_app.
        rewrite lookup_app_r by lia. rewrite Nat.sub_diag. reflexivity. }
      rewrite T. specialize (IH (rev l')). destruct (pulls script (rev l')) as [rest l'']. cbn. cbn in IH. rewrite IH.
      rewrite <- !app_assoc. reflexivity.
Qed.
