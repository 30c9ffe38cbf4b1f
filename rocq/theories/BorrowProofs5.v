(** * Proofs about the aliasing traces of BorrowModel.v: the mutable iterators of [SparseChunk] *)
From Verif Require Import Machine IterSpec BorrowModel BorrowSpec BorrowProofs BorrowProofs2 BorrowProofs4.

(** ** Stacked Borrows *)
Section sb.
Context (N o k : nat).
(** Only the latest of [n] references is used. *)
Fixpoint latest_only (n : nat) (script : list iact) (ys : list (option nat)) : Prop :=
  match script with
  | [] => True
  | Next :: script' =>
      match ys with
      | Some _ :: ys' => latest_only (S n) script' ys'
      | None :: ys' => latest_only n script' ys'
      | [] => latest_only n script' []
      end
  | Touch _ j :: script' => (j < n -> S j = n) /\ latest_only n script' ys
  end.
Lemma got_cons_touch w j s ys : got (Touch w j :: s) ys = got s ys.
Proof. reflexivity. Qed.
Lemma got_next_some i s ys : got (Next :: s) (Some i :: ys) = S (got s ys).
Proof. reflexivity. Qed.
Lemma got_next_none s ys : got (Next :: s) (None :: ys) = got s ys.
Proof. reflexivity. Qed.
Lemma got_empty s : got s [] = 0.
Proof. unfold got. rewrite take_nil. reflexivity. Qed.
Lemma latest_only_spec script : forall n ys, latest_only n script ys <->
  forall s1 w j s2, script = s1 ++ Touch w j :: s2 -> j < n + got s1 ys -> S j = n + got s1 ys.
Proof.
  assert (HN : forall (P : list iact -> nat -> Prop) sc, (forall s1 w j s2, Next :: sc = s1 ++ Touch w j :: s2 -> P s1 j) <->
    (forall s1 w j s2, sc = s1 ++ Touch w j :: s2 -> P (Next :: s1) j)).
  { intros P sc. split.
    - intros H s1 w j s2 ->. apply (H _ w j s2). reflexivity.
    - intros H [|a s1] w j s2 E; [discriminate|]. cbn in E. injection E as <- E. apply (H _ _ _ _ E). }
  induction script as [|[|w0 j0] script IH]; intros n ys; cbn [latest_only].
  - split; [|auto]. intros _ [|] ? ? ? E; discriminate.
  - rewrite (HN (fun s1 j => j < n + got s1 ys -> S j = n + got s1 ys)). destruct ys as [|[i|] ys].
    + rewrite IH. split; intros H s1 w j s2 E; specialize (H s1 w j s2 E); rewrite !got_empty in *; exact H.
    + rewrite IH. split; intros H s1 w j s2 E; specialize (H s1 w j s2 E); rewrite got_next_some in *; rewrite ?Nat.add_succ_r in *; cbn [Nat.add] in *; exact H.
    + rewrite IH. split; intros H s1 w j s2 E; specialize (H s1 w j s2 E); rewrite got_next_none in *; exact H.
  - rewrite IH. split.
    + intros [H0 H] [|a s1] w j s2 E.
      * cbn in E. injection E as <- <- <-. unfold got. cbn. rewrite Nat.add_0_r. exact H0.
      * cbn in E. injection E as <- E. rewrite got_cons_touch. apply (H s1 w j s2 E).
    + intros H. split.
      * intros Hj. specialize (H [] w0 j0 script eq_refl). unfold got in H. cbn in H. rewrite Nat.add_0_r in H. auto.
      * intros s1 w j s2 ->. specialize (H (Touch w0 j0 :: s1) w j s2 eq_refl). rewrite got_cons_touch in H. exact H.
Qed.

Definition base : stack := [(PUniq, k); (PUniq, o)].
(** At slot [m]: above the iterator's item only what the latest [next] made (tags from [b0] on). *)
Definition sb_sp_inv (m : nat) (refs : list (nat * nat)) (st : stack) (b : nat) : Prop :=
  exists ab b0, st = ab ++ base /\ k < b0 <= b /\ Forall (fun x => b0 <= snd x) ab /\
  (forall j x i, refs !! j = Some (x, i) -> k < x < b /\ i < N /\
    if S j =? length refs then i = m -> exists ab', ab = (PUniq, x) :: ab' else x < b0).
Hypothesis Hk : o < k.
Lemma grant_above ok t ab b0 st : Forall (fun x => b0 <= snd x) ab -> t < b0 -> grant ok t (ab ++ st) =
  match grant ok t st with Some (ab', p, be) => Some (ab ++ ab', p, be) | None => None end.
Proof.
  intros H Ht. induction H as [|[p u] ab Hu _ IH]; cbn.
  - destruct (grant ok t st) as [[[]]|]; reflexivity.
  - cbn in Hu. replace (u =? t) with false by lia. cbn [andb]. rewrite IH. destruct (grant ok t st) as [[[]]|]; reflexivity.
Qed.
Lemma sp_next_sb m i b st ab b0 : m < N -> i < N -> st = ab ++ base -> k < b0 <= b -> Forall (fun x => b0 <= snd x) ab ->
  at_place (sb_step (o, S m)) (b_sp_next N o k i) b st =
  Some ((if i =? m then [(PUniq, 6 + b); (PRaw, 5 + b); (PUniq, 4 + b)] else []) ++
        [(PUniq, 3 + b); (PRaw, 2 + b); (PUniq, 1 + b); (PUniq, b)] ++ base, 7 + b, 6 + b).
Proof.
  intros Hm Hi -> Hb HF. unfold b_sp_next. code.
  erewrite sb_do; [|inreg|].
  2:{ unfold sb_act, sb_step, sb_write. rewrite (grant_above _ _ _ b0) by (first [exact HF|lia]). unfold base. cbn [grant]. eqbs. cbn [andb writable block app]. reflexivity. }
  destruct (i =? m) eqn:E; repeat sb1; cbn [follow app]; reflexivity.
Qed.
Lemma sp_next_inv m i b st refs : m < N -> i < N -> sb_sp_inv m refs st b -> exists st',
  at_place (sb_step (o, S m)) (b_sp_next N o k i) b st = Some (st', 7 + b, 6 + b) /\ sb_sp_inv m (refs ++ [(6 + b, i)]) st' (7 + b).
Proof.
  intros Hm Hi (ab & b0 & Hst & Hb & HF & HR). rewrite (sp_next_sb m i b st ab b0) by assumption.
  eexists. split; [reflexivity|].
  eexists (_ ++ [(PUniq, 3 + b); (PRaw, 2 + b); (PUniq, 1 + b); (PUniq, b)]), b. split; [rewrite <- app_assoc; reflexivity|].
  split; [lia|]. split.
  - apply Forall_app. split; [destruct (i =? m)|]; repeat (constructor; [cbn; lia|]); constructor.
  - intros j x i' E. rewrite app_length. cbn [length]. apply refs_app in E as [E|[-> [= <- <-]]].
    + pose proof (lookup_lt_Some _ _ _ E) as Hj. destruct (HR j x i' E) as (Hx & Hi' & _). split; [lia|]. split; [exact Hi'|].
      replace (S j =? length refs + 1) with false by lia. lia.
    + split; [lia|]. split; [exact Hi|]. replace (S (length refs) =? length refs + 1) with true by lia. intros ->.
      rewrite Nat.eqb_refl. eexists. reflexivity.
Qed.
Lemma sp_touch_latest m w j x i refs st b : sb_sp_inv m refs st b -> refs !! j = Some (x, i) -> S j = length refs ->
  sb_step (o, S m) (Acc w x (slots o i 1)) st = Some st.
Proof.
  intros (ab & b0 & Hst & Hb & HF & HR) E Ej. destruct (HR j x i E) as (_ & _ & H). rewrite Ej, Nat.eqb_refl in H. cbn [sb_step].
  destruct (slots o i 1 (o, S m)) eqn:Es; [|reflexivity].
  destruct H as (ab' & ->); [unfold slots in Es; cbn [fst snd] in Es; lia|]. rewrite Hst.
  unfold sb_read, sb_write. cbn [app grant writable readable andb]. rewrite Nat.eqb_refl. destruct w; reflexivity.
Qed.
Lemma sp_touch_old w j x i refs st b : sb_sp_inv i refs st b -> refs !! j = Some (x, i) -> S j <> length refs ->
  sb_step (o, S i) (Acc w x (slots o i 1)) st = None.
Proof.
  intros (ab & b0 & -> & Hb & HF & HR) E Ej. destruct (HR j x i E) as (Hx & _ & H). replace (S j =? length refs) with false in H by lia.
  cbn [sb_step]. replace (slots o i 1 (o, S i)) with true by (unfold slots; cbn [fst snd]; lia).
  unfold sb_read, sb_write. rewrite !(grant_above _ _ _ b0) by assumption. unfold base. cbn [grant].
  replace (k =? x) with false by lia. replace (o =? x) with false by lia. destruct w; reflexivity.
Qed.
Lemma sp_client_sb m script : m < N -> forall ys refs st b, Forall (fun i => i < N) (somes ys) -> sb_sp_inv m refs st b ->
  latest_only (length refs) script ys -> at_place (sb_step (o, S m)) (b_client (b_sp_next N o k) o script ys refs) b st <> None.
Proof.
  intros Hm. induction script as [|[|w j] script IH]; intros ys refs st b HN HI HL; [cbn; discriminate| |]; cbn [b_client latest_only] in *.
  - destruct ys as [|[i|] ys]; [apply IH; assumption| |apply IH; assumption]. inversion_clear HN as [|? ? Hi HN'].
    destruct (sp_next_inv m i b st refs Hm Hi HI) as (st' & E & HI'). rewrite at_bind, E. apply IH; [exact HN'|exact HI'|].
    rewrite app_length. cbn [length]. rewrite Nat.add_1_r. exact HL.
  - destruct HL as [HL1 HL2]. destruct (refs !! j) as [[x i]|] eqn:E; [|apply IH; assumption].
    rewrite at_bind, at_acc, (sp_touch_latest m w j x i refs st b HI E (HL1 (lookup_lt_Some _ _ _ E))). apply IH; assumption.
Qed.
Lemma sp_client_sb_bad script : forall ys refs b, Forall (fun i => i < N) (somes ys) -> ~ latest_only (length refs) script ys ->
  (forall j x i, refs !! j = Some (x, i) -> i < N) ->
  exists m, m < N /\ forall st, sb_sp_inv m refs st b -> at_place (sb_step (o, S m)) (b_client (b_sp_next N o k) o script ys refs) b st = None.
Proof.
  induction script as [|[|w j] script IH]; intros ys refs b HN HL HR; cbn [b_client latest_only] in *; [tauto| |].
  - destruct ys as [|[i|] ys]; [apply IH; assumption| |apply IH; assumption]. inversion_clear HN as [|? ? Hi HN'].
    destruct (IH ys (refs ++ [(6 + b, i)]) (7 + b) HN') as (m & Hm & H).
    + rewrite app_length. cbn [length]. rewrite Nat.add_1_r. exact HL.
    + intros j x i' E. apply refs_app in E as [E|[-> [= <- <-]]]; [apply (HR _ _ _ E)|exact Hi].
    + exists m. split; [exact Hm|]. intros st HI. destruct (sp_next_inv m i b st refs Hm Hi HI) as (st' & E & HI').
      rewrite at_bind, E. apply H, HI'.
  - destruct (refs !! j) as [[x i]|] eqn:E.
    + pose proof (lookup_lt_Some _ _ _ E) as Hj. destruct (decide (S j = length refs)) as [Ej|Ej].
      * destruct (IH ys refs b HN) as (m & Hm & H); [intros HL'; apply HL; auto|exact HR|]. exists m. split; [exact Hm|]. intros st HI.
        rewrite at_bind, at_acc, (sp_touch_latest m w j x i refs st b HI E Ej). apply H, HI.
      * exists i. split; [apply (HR _ _ _ E)|]. intros st HI. rewrite at_bind, at_acc, (sp_touch_old w j x i refs st b HI E Ej). reflexivity.
    + apply lookup_ge_None in E. destruct (IH ys refs b HN) as (m & Hm & H); [intros HL'; apply HL; split; [lia|exact HL']|exact HR|].
      exists m. auto.
Qed.
Lemma sp_iter_sb m : m < N -> at_place (sb_step (o, S m)) (b_sp_iter_mut N o o) k (stack0 (o, S m)) = Some (base, 1 + k, k).
Proof. intros Hm. unfold stack0, b_sp_iter_mut. cbn [fst]. code. sb. reflexivity. Qed.
Lemma sp_inv0 m : sb_sp_inv m [] base (1 + k).
Proof. exists [], (1 + k). split; [reflexivity|]. split; [lia|]. split; [constructor|]. intros j x i E. discriminate. Qed.
(** A place outside the slots. *)
Lemma sp_client_out ob y script : ~ (ob = o /\ 0 < y <= N) -> forall ys refs st b, Forall (fun i => i < N) (somes ys) ->
  (forall j x i, refs !! j = Some (x, i) -> i < N) -> k < b ->
  (ob = o /\ y = 0 -> exists ab, st = ab ++ base /\ Forall (fun x => k < snd x) ab) ->
  at_place (sb_step (ob, y)) (b_client (b_sp_next N o k) o script ys refs) b st <> None.
Proof.
  intros Hout. induction script as [|[|w j] script IH]; intros ys refs st b HN HR Hb Hst; [cbn; discriminate| |]; cbn [b_client].
  - destruct ys as [|[i|] ys]; [apply IH; assumption| |apply IH; assumption]. inversion_clear HN as [|? ? Hi HN'].
    assert (exists st', at_place (sb_step (ob, y)) (b_sp_next N o k i) b st = Some (st', 7 + b, 6 + b) /\
      (ob = o /\ y = 0 -> exists ab, st' = ab ++ base /\ Forall (fun x => k < snd x) ab)) as (st' & E & Hst').
    { unfold b_sp_next. code. destruct (decide (ob = o /\ y = 0)) as [[-> ->]|Hne].
      - destruct (Hst (conj eq_refl eq_refl)) as (ab & -> & HF). erewrite sb_do; [|inreg|].
        2:{ unfold sb_act, sb_step, sb_write. rewrite (grant_above _ _ _ (1 + k)) by (first [exact HF|lia]). unfold base. cbn [grant].
            rewrite Nat.eqb_refl. cbn [andb writable block app]. reflexivity. }
        do 6 (rewrite sb_skip by inreg). cbn [follow]. eexists. split; [reflexivity|]. intros _. exists [(PUniq, b)].
        split; [reflexivity|]. constructor; [cbn; lia|constructor].
      - do 7 (rewrite sb_skip by inreg). cbn [follow]. eexists. split; [reflexivity|]. intros H. contradiction. }
    rewrite at_bind, E. apply IH; [exact HN'| |lia|exact Hst'].
    intros j x i' E'. apply refs_app in E' as [E'|[-> [= <- <-]]]; [apply (HR _ _ _ E')|exact Hi].
  - destruct (refs !! j) as [[x i]|] eqn:E; [|apply IH; assumption]. pose proof (HR _ _ _ E) as Hi.
    rewrite at_bind, at_acc. cbn [sb_step]. replace (slots o i 1 (ob, y)) with false by (unfold slots; cbn [fst snd]; lia).
    apply IH; assumption.
Qed.
Lemma sp_sb_exact script ys : Forall (fun i => i < N) (somes ys) ->
  sb_accepts (trace k (b_sp_client N o script ys)) <-> latest_only 0 script ys.
Proof.
  intros HN. split.
  - intros HA. assert (Decision (latest_only 0 script ys)) as D.
    { clear. generalize 0. revert ys. induction script as [|[|w j] script IH]; intros ys n; cbn [latest_only]; [left; exact I| |].
      - destruct ys as [|[i|] ys]; apply IH.
      - apply and_dec; [|apply IH]. destruct (decide (j < n)) as [H|H]; [|left; contradiction].
        destruct (decide (S j = n)) as [H'|H']; [left; auto|right; auto]. }
    destruct D as [|HB]; [assumption|]. exfalso.
    destruct (sp_client_sb_bad script ys [] (1 + k) HN HB) as (m & Hm & H); [discriminate|].
    specialize (HA (o, S m)). apply at_trace in HA. apply HA. unfold b_sp_client. rewrite at_bind, sp_iter_sb by exact Hm.
    apply H, sp_inv0.
  - intros HL [ob y]. apply at_trace. unfold b_sp_client. rewrite at_bind. destruct (decide (ob = o /\ 0 < y <= N)) as [[-> Hy]|Hout].
    + destruct y as [|m]; [lia|]. rewrite sp_iter_sb by lia. apply sp_client_sb; [lia|exact HN|apply sp_inv0|exact HL].
    + assert (exists st, at_place (sb_step (ob, y)) (b_sp_iter_mut N o o) k (stack0 (ob, y)) = Some (st, 1 + k, k) /\
        (ob = o /\ y = 0 -> st = base)) as (st & -> & Hst).
      { unfold stack0, b_sp_iter_mut. cbn [fst]. code. destruct (decide (ob = o /\ y = 0)) as [[-> ->]|Hne].
        - sb. eexists. split; [reflexivity|]. reflexivity.
        - rewrite sb_skip by inreg. eexists. split; [reflexivity|]. intros H. contradiction. }
      apply (sp_client_out ob y script Hout); [exact HN|discriminate|lia|]. intros H. rewrite (Hst H). exists []. split; [reflexivity|constructor].
Qed.
End sb.
