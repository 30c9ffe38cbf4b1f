(** * Proofs about the aliasing traces of BorrowModel.v: the halves of a split mutable slice *)
From Verif Require Import Machine IterSpec BorrowModel BorrowSpec BorrowProofs BorrowProofs2 BorrowProofs4 BorrowProofs5.

Section split.
Context (N o k : nat).
Hypothesis Hk : o < k.

(** ** Stacked Borrows: making the second half invalidates the first. *)
Definition halves : stack := [(PUniq, 2 + k); (PRaw, k); (PUniq, o)].
Lemma split_sb x : x <= N -> at_place (sb_step (o, x)) (b_split_at N o o) k (stack0 (o, x)) = Some (halves, 3 + k, (1 + k, 2 + k)).
Proof. intros Hx. unfold b_split_at, stack0. cbn [fst]. code. sb. reflexivity. Qed.
Definition on_halves (st : stack) : Prop := exists ab, st = ab ++ halves /\ Forall (fun y => 3 + k <= snd y) ab.
Lemma on_top y st : 3 + k <= snd y -> on_halves st -> on_halves (y :: st).
Proof. intros Hy (ab & -> & HF). exists (y :: ab). split; [reflexivity|constructor; assumption]. Qed.
Lemma use_right x u b st : x <= N -> use_slot u < N -> right_half u = true -> on_halves st -> 2 + k < b ->
  exists st' b', at_place (sb_step (o, x)) (b_use N o (1 + k) (2 + k) u) b st = Some (st', b', tt) /\ b <= b' /\ on_halves st'.
Proof.
  intros Hx Hu Hr (ab & -> & HF) Hb. unfold b_use. rewrite Hr.
  assert (HD : Forall (fun y : perm * nat => 3 + k <= snd y) (map disable ab)) by (clear -HF; induction HF as [|[[] ?] ? ? ? IH]; constructor; assumption).
  destruct (writes_ u).
  - unfold b_ring_get_mut. code.
    erewrite sb_do; [|inreg|].
    2:{ unfold sb_act, sb_step, sb_write. rewrite (grant_above o k Hk _ _ _ (3 + k)) by (first [exact HF|lia]). unfold halves. cbn [grant].
        rewrite Nat.eqb_refl. cbn [andb writable block app]. reflexivity. }
    repeat sb1; cbn [follow]; eexists _, _; (split; [reflexivity|]; split; [lia|]);
      repeat (apply on_top; [cbn [snd]; lia|]); exists []; (split; [reflexivity|constructor]).
  - unfold b_ring_get. code.
    erewrite sb_do; [|inreg|].
    2:{ unfold sb_act, sb_step, sb_read. rewrite (grant_above o k Hk _ _ _ (3 + k)) by (first [exact HF|lia]). unfold halves. cbn [grant].
        rewrite Nat.eqb_refl. cbn [andb readable app]. reflexivity. }
    rewrite app_nil_r.
    repeat sb1; cbn [follow]; eexists _, _; (split; [reflexivity|]; split; [lia|]);
      repeat (apply on_top; [cbn [snd]; lia|]); exists (map disable ab); (split; [reflexivity|exact HD]).
Qed.
Lemma use_left u b st : right_half u = false -> on_halves st -> at_place (sb_step (o, 0)) (b_use N o (1 + k) (2 + k) u) b st = None.
Proof.
  intros Hr (ab & -> & HF). unfold b_use. rewrite Hr. destruct (writes_ u); [unfold b_ring_get_mut|unfold b_ring_get]; code.
  - rewrite sb_fail; [reflexivity|inreg|]. unfold sb_act, sb_step, sb_write. rewrite (grant_above o k Hk _ _ _ (3 + k)) by (first [exact HF|lia]).
    unfold halves. cbn [grant]. eqbs. reflexivity.
  - rewrite sb_fail; [reflexivity|inreg|]. unfold sb_act, sb_step, sb_read. rewrite (grant_above o k Hk _ _ _ (3 + k)) by (first [exact HF|lia]).
    unfold halves. cbn [grant]. eqbs. reflexivity.
Qed.
Lemma use_elsewhere l u b st : whole o N l = false -> use_slot u < N -> exists st' b', at_place (sb_step l) (b_use N o (1 + k) (2 + k) u) b st = Some (st', b', tt).
Proof.
  intros Hl Hu. destruct l as [ob y].
  assert (slots o 0 N (ob, y) = false) as H1 by (unfold whole, slots in *; cbn [fst snd] in *; lia).
  assert (slots o (use_slot u) 1 (ob, y) = false) as H2 by (unfold whole, slots in *; cbn [fst snd] in *; lia).
  unfold b_use. destruct (writes_ u); [unfold b_ring_get_mut|unfold b_ring_get]; code; cbn [follow sb_step]; rewrite ?Hl, ?H1, ?H2; eauto.
Qed.
Lemma split_sb_exact us : Forall (fun u => use_slot u < N) us ->
  sb_accepts (trace k (b_split_client N o us)) <-> Forall (fun u => right_half u = true) us.
Proof.
  intros HU. split.
  - intros HA. specialize (HA (o, 0)). apply at_trace in HA. unfold b_split_client in HA. rewrite at_bind, split_sb in HA by lia. cbn [fst snd] in HA.
    assert (HS : on_halves halves) by (exists []; split; [reflexivity|constructor]). revert HA HS.
    assert (Hb : 2 + k < 3 + k) by lia. revert Hb. generalize (3 + k) as b, halves as st.
    induction HU as [|u us Hu _ IH]; intros b st Hb HA HS; constructor.
    + destruct (right_half u) eqn:E; [reflexivity|]. exfalso. apply HA. cbn [b_uses]. rewrite at_bind, use_left by assumption. reflexivity.
    + destruct (right_half u) eqn:E; [|exfalso; apply HA; cbn [b_uses]; rewrite at_bind, use_left by assumption; reflexivity].
      destruct (use_right 0 u b st ltac:(lia) Hu E HS Hb) as (st' & b' & E' & Hle & HS'). cbn [b_uses] in HA. rewrite at_bind, E' in HA.
      apply (IH b' st'); [lia|exact HA|exact HS'].
  - intros HR [ob x]. apply at_trace. unfold b_split_client. rewrite at_bind. destruct (whole o N (ob, x)) eqn:W.
    + assert (ob = o /\ x <= N) as [-> Hx] by (unfold whole in W; cbn [fst snd] in W; lia). rewrite split_sb by exact Hx. cbn [fst snd].
      assert (HS : on_halves halves) by (exists []; split; [reflexivity|constructor]). revert HS.
      assert (Hb : 2 + k < 3 + k) by lia. revert Hb. generalize (3 + k) as b, halves as st.
      induction us as [|u us IH]; intros b st Hb HS; [cbn; discriminate|]. inversion_clear HU as [|? ? Hu HU']. inversion_clear HR as [|? ? Hr HR'].
      destruct (use_right x u b st Hx Hu Hr HS Hb) as (st' & b' & E' & Hle & HS'). cbn [b_uses]. rewrite at_bind, E'. apply IH; [assumption..|lia|exact HS'].
    + assert (exists st, at_place (sb_step (ob, x)) (b_split_at N o o) k (stack0 (ob, x)) = Some (st, 3 + k, (1 + k, 2 + k))) as (st & ->).
      { unfold b_split_at. code. cbn [follow sb_step]. rewrite !W. eauto. }
      cbn [fst snd]. revert st. generalize (3 + k) as b. induction us as [|u us IH]; intros b st; [cbn; discriminate|].
      inversion_clear HU as [|? ? Hu HU']. inversion_clear HR as [|? ? Hr HR']. cbn [b_uses]. rewrite at_bind.
      destruct (use_elsewhere (ob, x) u b st W Hu) as (st' & b' & ->). apply IH; assumption.
Qed.

(** ** Tree Borrows: a half written through invalidates the other one. *)
Definition rs (b t : nat) : nat := match t with 0 => o | 1 => 1 + k | 2 => 2 + k | S (S (S i)) => i + b end.
Lemma rs_inj b : 2 + k < b -> inj (rs b).
Proof. intros H [|[|[|t]]] [|[|[|u]]]; cbn [rs]; lia. Qed.
(** [w]: the half this place has been written through. *)
Definition KH (w : option bool) : known :=
  [(0, ([0], Some TActive));
   (1, ([1; 0], Some (match w with None => TReserved | Some true => TDisabled | Some false => TActive end)));
   (2, ([2; 0], Some (match w with None => TReserved | Some true => TActive | Some false => TDisabled end)))].
Definition tbh (w : option bool) (s : tree) : Prop := knows (rs 0) s (KH w).
Lemma knows_rs b b' s w : knows (rs b) s (KH w) -> knows (rs b') s (KH w).
Proof. intros H. unfold knows, KH in *. repeat match goal with H : Forall (knows1 _ _) (_ :: _) |- _ => inversion_clear H end. repeat (constructor; [assumption|]). constructor. Qed.
Definition written (w : option bool) (x : nat) (u : use) : option bool :=
  if writes_ u && (x =? S (use_slot u)) then Some (right_half u) else w.
Lemma use_canon x u w : x <= N -> use_slot u < N -> w <> Some (negb (right_half u)) ->
  kfollow (o, x) (snd (fst (b_use N o 1 2 u 3))) (KH w) (fun K' => Forall (fun y => In y K') (KH (written w x u))).
Proof.
  intros Hx Hu Hw. unfold b_use, written. destruct u as [h wr i]; cbn [writes_ right_half use_slot] in *.
  destruct wr, h, w as [[]|]; cbn [negb] in *; try congruence; cbn [andb]; try (unfold b_ring_get_mut); try (unfold b_ring_get); code; cbn [fst snd];
    destruct (x =? S i) eqn:Ex; repeat kf1; apply kf_nil; repeat (constructor; [cbn; tauto|]); constructor.
Qed.
Lemma use_trace u b : snd (fst (b_use N o (1 + k) (2 + k) u b)) = map (ren (rs b)) (snd (fst (b_use N o 1 2 u 3))) /\
  b <= fst (fst (b_use N o (1 + k) (2 + k) u b)).
Proof. destruct u as [[] [] i]; (split; [reflexivity|]); unfold b_use; cbn [writes_ right_half use_slot]; code; cbn [fst snd]; lia. Qed.
Lemma use_tb x u w b s : x <= N -> use_slot u < N -> w <> Some (negb (right_half u)) -> 2 + k < b -> tbh w s ->
  exists s' b', at_place (tb_step (o, x)) (b_use N o (1 + k) (2 + k) u) b s = Some (s', b', tt) /\ b <= b' /\ tbh (written w x u) s'.
Proof.
  intros Hx Hu Hw Hb HS. destruct (use_canon x u w Hx Hu Hw (rs b) s (rs_inj b Hb)) as (s' & K' & E & HK & HF); [apply (knows_rs 0), HS|].
  destruct (use_trace u b) as [Et Hle]. rewrite <- Et in E. unfold at_place. destruct (b_use N o (1 + k) (2 + k) u b) as [[b' tr] []]. cbn [fst snd] in *.
  rewrite E. exists s', b'. split; [reflexivity|]. split; [exact Hle|]. apply (knows_rs b). unfold knows in *. rewrite Forall_forall in *. auto.
Qed.
Lemma tbh_path (h : bool) s w : tbh w s -> tpath s (if h then 2 + k else 1 + k) = [if h then 2 + k else 1 + k; o] /\
  (w = Some (negb h) -> tprm s (if h then 2 + k else 1 + k) = TDisabled).
Proof.
  intros H. unfold tbh, knows, KH in H. repeat match goal with H : Forall (knows1 _ _) (_ :: _) |- _ => inversion_clear H end.
  repeat match goal with H : knows1 _ _ _ |- _ => destruct H; cbn [fst snd rs map] in * end. destruct h; split; try assumption; intros ->; assumption.
Qed.
Lemma use_dead x u b s : x <= N -> tbh (Some (negb (right_half u))) s -> 2 + k < b ->
  at_place (tb_step (o, x)) (b_use N o (1 + k) (2 + k) u) b s = None.
Proof.
  intros Hx HS Hb. destruct (tbh_path (right_half u) s _ HS) as [E1 E2]. specialize (E2 eq_refl).
  unfold b_use. set (h := if right_half u then 2 + k else 1 + k) in *. assert (h < b) by (subst h; destruct (right_half u); lia).
  assert (HH : forall (kd : kind) (rest : list act), kd <> RawPtr -> follow (tb_step (o, x)) (Reb kd h b (whole o N) :: rest) s = None).
  { intros kd rest Hkd. cbn [follow]. replace (tb_step (o, x) (Reb kd h b (whole o N)) s) with (@None tree); [reflexivity|]. symmetry.
    assert (whole o N (o, x) = true) as W by inreg.
    destruct kd; [| |congruence]; cbn [tb_step]; rewrite W; unfold tb_access; cbn [tpath tprm];
      replace (BorrowModel.set (tpath s) b (b :: tpath s h) b) with [b; h; o] by (unfold BorrowModel.set; rewrite Nat.eqb_refl, E1; reflexivity);
      cbn [forallb]; rewrite (set_other _ _ _ h) by lia; rewrite E2; cbn [child]; rewrite andb_false_r; reflexivity. }
  destruct (writes_ u); [unfold b_ring_get_mut|unfold b_ring_get]; code; rewrite HH by discriminate; reflexivity.
Qed.
Definition clash (w : option bool) (us : list use) : Prop :=
  conflict us \/ exists h us2 u' us3, w = Some h /\ us = us2 ++ u' :: us3 /\ right_half u' <> h.
Lemma split_tb x : x <= N -> exists s, at_place (tb_step (o, x)) (b_split_at N o o) k tree0 = Some (s, 3 + k, (1 + k, 2 + k)) /\ tbh None s.
Proof.
  intros Hx. assert (kfollow (o, x) (snd (fst (b_split_at N o 0 1))) [(0, ([0], Some TActive))] (fun K' =>
    Forall (fun y => In y K') [(0, ([0], Some TActive)); (2, ([2; 0], Some TReserved)); (3, ([3; 0], Some TReserved))])) as HC.
  { unfold b_split_at. code. cbn [fst snd]. repeat kf1; apply kf_nil; repeat (constructor; [cbn; tauto|]); constructor. }
  destruct (HC (r1 o k) tree0 (r1_inj o k Hk)) as (s & K' & E & HK & HF); [constructor; [|constructor]; split; reflexivity|].
  change (map (ren (r1 o k)) (snd (fst (b_split_at N o 0 1)))) with (snd (fst (b_split_at N o o k))) in E.
  exists s. split.
  - unfold at_place. destruct (b_split_at N o o k) as [[b' tr] v] eqn:Eb. cbn [fst snd] in E. rewrite E. unfold b_split_at in Eb. revert Eb. code. intros [= <- <- <-]. reflexivity.
  - assert (HF' : knows (r1 o k) s [(0, ([0], Some TActive)); (2, ([2; 0], Some TReserved)); (3, ([3; 0], Some TReserved))])
      by (unfold knows in *; rewrite Forall_forall in *; auto).
    unfold tbh, knows, KH in *. repeat match goal with H : Forall (knows1 _ _) (_ :: _) |- _ => inversion_clear H end.
    repeat (constructor; [assumption|]). constructor.
Qed.
Lemma uses_ok x us : x <= N -> Forall (fun u => use_slot u < N) us -> forall w b s, ~ clash w us -> 2 + k < b -> tbh w s ->
  at_place (tb_step (o, x)) (b_uses N o (1 + k) (2 + k) us) b s <> None.
Proof.
  intros Hx HU. induction HU as [|u us Hu _ IH]; intros w b s HC Hb HS; [cbn; discriminate|]. cbn [b_uses]. rewrite at_bind.
  destruct (use_tb x u w b s Hx Hu) as (s' & b' & -> & Hle & HS'); [|exact Hb|exact HS|].
  { intros ->. apply HC. right. exists (negb (right_half u)), [], u, us. split; [reflexivity|]. split; [reflexivity|]. destruct (right_half u); discriminate. }
  apply (IH (written w x u)); [|lia|exact HS']. intros [(us1 & v & us2 & v' & us3 & -> & H)|(h & us2 & u' & us3 & Ew & -> & H)]; apply HC.
  - left. exists (u :: us1), v, us2, v', us3. auto.
  - unfold written in Ew. destruct (writes_ u && (x =? S (use_slot u))) eqn:E.
    + injection Ew as <-. left. exists [], u, us2, u', us3. split; [reflexivity|]. split; [|exact H]. destruct (writes_ u); [reflexivity|discriminate].
    + right. exists h, (u :: us2), u', us3. auto.
Qed.
Lemma uses_dead x us : x <= N -> Forall (fun u => use_slot u < N) us -> forall h b s, (exists us2 u' us3, us = us2 ++ u' :: us3 /\ right_half u' <> h) ->
  2 + k < b -> tbh (Some h) s -> at_place (tb_step (o, x)) (b_uses N o (1 + k) (2 + k) us) b s = None.
Proof.
  intros Hx HU. induction HU as [|u us Hu HU' IH]; intros h b s (us2 & u' & us3 & E & H) Hb HS; [destruct us2; discriminate|]. cbn [b_uses]. rewrite at_bind.
  destruct (bool_decide (right_half u = h)) eqn:Eh.
  - apply bool_decide_eq_true in Eh. destruct (use_tb x u (Some h) b s Hx Hu) as (s' & b' & -> & Hle & HS'); [|exact Hb|exact HS|].
    { intros [= E']. rewrite Eh in E'. destruct h; discriminate. }
    apply (IH h); [|lia|].
    + destruct us2 as [|v us2]; cbn in E; injection E as -> E; [contradiction|]. eauto.
    + unfold written in HS'. destruct (writes_ u && _); [rewrite Eh in HS'|]; exact HS'.
  - apply bool_decide_eq_false in Eh. rewrite use_dead; [reflexivity|exact Hx| |exact Hb]. replace (negb (right_half u)) with h; [exact HS|].
    destruct h, (right_half u); try reflexivity; congruence.
Qed.
Lemma uses_bad us : Forall (fun u => use_slot u < N) us -> forall us1 u us2 u' us3, us = us1 ++ u :: us2 ++ u' :: us3 -> writes_ u = true -> right_half u' <> right_half u ->
  forall w b s, 2 + k < b -> tbh w s -> at_place (tb_step (o, S (use_slot u))) (b_uses N o (1 + k) (2 + k) us) b s = None.
Proof.
  intros HU us1 u us2 u' us3 E Hw Hh. assert (HuN : use_slot u < N).
  { rewrite Forall_forall in HU. apply HU. rewrite E. apply in_or_app. right. left. reflexivity. }
  revert us1 E. induction HU as [|v us Hv HU' IH]; intros us1 E w b s Hb HS; [destruct us1; discriminate|]. cbn [b_uses]. rewrite at_bind.
  destruct (bool_decide (w = Some (negb (right_half v)))) eqn:Ew.
  - apply bool_decide_eq_true in Ew as ->. rewrite use_dead by (try assumption; lia). reflexivity.
  - apply bool_decide_eq_false in Ew. destruct (use_tb (S (use_slot u)) v w b s ltac:(lia) Hv Ew Hb HS) as (s' & b' & -> & Hle & HS').
    destruct us1 as [|v' us1]; cbn in E; injection E as -> E.
    + apply (uses_dead (S (use_slot u)) us HuN HU' (right_half u)); [eauto|lia|]. unfold written in HS'. rewrite Hw, Nat.eqb_refl in HS'. exact HS'.
    + apply (IH us1 E (written w (S (use_slot u)) v')); [lia|exact HS'].
Qed.
Lemma split_tb_exact us : Forall (fun u => use_slot u < N) us -> tb_accepts (trace k (b_split_client N o us)) <-> ~ conflict us.
Proof.
  intros HU. split.
  - intros HA (us1 & u & us2 & u' & us3 & E & Hw & Hh). assert (HuN : use_slot u < N).
    { rewrite Forall_forall in HU. apply HU. rewrite E. apply in_or_app. right. left. reflexivity. }
    specialize (HA (o, S (use_slot u))). apply at_trace in HA. unfold b_split_client in HA. rewrite at_bind in HA.
    destruct (split_tb (S (use_slot u)) HuN) as (s & E' & HS). rewrite E' in HA. cbn [fst snd] in HA. apply HA.
    apply (uses_bad us HU us1 u us2 u' us3 E Hw Hh None); [lia|exact HS].
  - intros HC [ob x]. apply at_trace. unfold b_split_client. rewrite at_bind. destruct (whole o N (ob, x)) eqn:W.
    + assert (ob = o /\ x <= N) as [-> Hx] by (unfold whole in W; cbn [fst snd] in W; lia).
      destruct (split_tb x Hx) as (s & -> & HS). cbn [fst snd]. apply (uses_ok x us Hx HU None); [|lia|exact HS].
      intros [H|(h & ? & ? & ? & H & _)]; [exact (HC H)|discriminate].
    + assert (exists s, at_place (tb_step (ob, x)) (b_split_at N o o) k tree0 = Some (s, 3 + k, (1 + k, 2 + k))) as (s & ->).
      { unfold b_split_at. code. cbn [follow tb_step]. rewrite !W. eauto. }
      cbn [fst snd]. clear HC. revert s. generalize (3 + k) as b. induction HU as [|u us Hu _ IH]; intros b s; [cbn; discriminate|]. cbn [b_uses]. rewrite at_bind.
      assert (exists s' b', at_place (tb_step (ob, x)) (b_use N o (1 + k) (2 + k) u) b s = Some (s', b', tt)) as (s' & b' & ->); [|apply IH].
      assert (slots o 0 N (ob, x) = false) as H1 by (unfold whole, slots in *; cbn [fst snd] in *; lia).
      assert (slots o (use_slot u) 1 (ob, x) = false) as H2 by (unfold whole, slots in *; cbn [fst snd] in *; lia).
      unfold b_use. destruct (writes_ u); [unfold b_ring_get_mut|unfold b_ring_get]; code; cbn [follow tb_step]; rewrite ?W, ?H1, ?H2; eauto.
Qed.
End split.
