(** * Proofs about LiveSparseModel.v. *)
From Verif Require Import Machine Spec Prims IterSpec2 SparseModel SparseSpec SparseProofs SparseProofs2 SparseProofs3
  LiveModel LiveSpec LiveProofs LiveProofs4 LiveSparseModel.

(** ** Iterators that deliver a list of options *)
Section feeds.
Context {A S : Type} (e : env A) (N : nat) (F : S -> list (option A) -> Prop) (next : M A S (option (option A)))
  (hint : M A S (nat * option nat)).
Hypothesis Hc : calm e.
Hypothesis Hf : feeds F next hint.
Lemma values_cons (x : option A) l : values (x :: l) = option_list x ++ values l.
Proof. rewrite !values_omap. destruct x; reflexivity. Qed.
(** What the loop does from index [i] on, [pre] being what it has put into the cells below. *)
Lemma sp_fill_live_ok l : forall fuel i pre c s gs g,
  length pre = i `min` N -> SHolds N c (pre ++ no_cells (N - i)) -> F s l -> length l < fuel -> i + length l < word e ->
  (values (drop (N - i) l) = [] ->
    exists c' s' gs' g', sp_fill_live e N next fuel i (c, (s, gs)) g = Ret (c', (s', gs')) g' tt /\
      SHolds N c' (pre ++ take (N - i) l ++ no_cells (N - i - length l)) /\ F s' [] /\ same g g' /\ same gs gs') /\
  (forall l1 v l2, drop (N - i) l = l1 ++ Some v :: l2 -> values l1 = [] ->
    exists c' s' gs' g', sp_fill_live e N next fuel i (c, (s, gs)) g = Panic (c', (s', gs')) g' /\
      SHolds N c' (pre ++ take (N - i) l) /\ F s' l2 /\ dropped g' = dropped g ++ [v] /\ leaked g' = leaked g /\ same gs gs').
Proof.
  induction l as [|x l IH]; intros [|fuel] i pre c s gs g Hp H Hs Hl Hw; cbn [length] in Hl, Hw; try lia; cbn [sp_fill_live].
  - destruct (live_next F next hint Hf c s [] gs g Hs) as (s1 & gs1 & E1 & H1 & S1).
    erewrite !(bind_Ret (on_iter next)) by exact E1. cbn [head hd_error]. split.
    + intros _. exists c, s1, gs1, g. rewrite take_nil. cbn [length app]. rewrite Nat.sub_0_r.
      split; [reflexivity|]. split; [exact H|]. split; [exact H1|]. split; [apply same_refl|exact S1].
    + intros l1 v l2 Hd. rewrite drop_nil in Hd. destruct l1; discriminate Hd.
  - destruct (live_next F next hint Hf c s (x :: l) gs g Hs) as (s1 & gs1 & E1 & H1 & S1).
    erewrite !(bind_Ret (on_iter next)) by exact E1. cbn [head hd_error tail tl] in H1 |- *.
    destruct (decide (i < N)) as [Hi|Hi].
    + replace (N - i) with (Datatypes.S (N - Datatypes.S i)) in H |- * by lia.
      cbn [no_cells replicate] in H. change (replicate ?n None) with (no_cells (A:=A) n) in H.
      set (rest := N - Datatypes.S i) in *.
      assert (HX : exists c' g', SHolds N c' ((pre ++ [x]) ++ no_cells rest) /\ same g g' /\
        forall (k : M A (sparse A * (S * log A)) unit),
        match x with
        | None => let! index' := uadd e i 1 in k
        | Some value => let! old := on_fst (sp_insert e N i value) in
            on_fst (drop_values e (option_list old)) ;;; let! index' := uadd e i 1 in k
        end (c, (s1, gs1)) g = k (c', (s1, gs1)) g').
      { rewrite <- app_assoc. cbn [app]. destruct x as [v|].
        - destruct (put_empty e N Hc (s1, gs1) c _ g i v H) as (c' & g' & Q & Hc' & D & L).
          { rewrite lookup_app_r by lia. replace (i - length pre) with 0 by lia. reflexivity. }
          rewrite insert_middle in Hc' by lia.
          exists c', g'. split; [exact Hc'|]. split; [split; assumption|]. intros k. rewrite put_then.
          erewrite bind_Ret by exact Q. erewrite bind_Ret by (apply uadd_ok; lia). reflexivity.
        - exists c, g. split; [exact H|]. split; [apply same_refl|]. intros k.
          erewrite bind_Ret by (apply uadd_ok; lia). reflexivity. }
      destruct HX as (c' & g' & H' & Sg & Hk).
      replace (i + 1) with (Datatypes.S i) in * by lia.
      assert (EQ : match x with
        | None => let! index' := uadd e i 1 in sp_fill_live e N next fuel index'
        | Some value => let! old := on_fst (sp_insert e N i value) in
            on_fst (drop_values e (option_list old)) ;;; let! index' := uadd e i 1 in sp_fill_live e N next fuel index'
        end (c, (s1, gs1)) g = sp_fill_live e N next fuel (Datatypes.S i) (c', (s1, gs1)) g').
      { rewrite <- (Hk (sp_fill_live e N next fuel (Datatypes.S i))).
        assert (EU : forall o g, (let! index' := uadd e i 1 in sp_fill_live e N next fuel index') o g =
          (let! index' := uadd e i 1 in sp_fill_live e N next fuel (Datatypes.S i)) o g).
        { intros o g0. erewrite !(bind_Ret (uadd _ _ _)) by (apply uadd_ok; lia). rewrite Nat.add_1_r. reflexivity. }
        destruct x as [v|]; [|apply EU]. unfold bind at 1. unfold bind at 3. destruct (on_fst _ _ _); try reflexivity.
        unfold bind at 1. unfold bind at 2. destruct (on_fst _ _ _); try reflexivity. apply EU. }
      destruct (IH fuel (Datatypes.S i) (pre ++ [x]) c' s1 gs1 g' ltac:(rewrite app_length; cbn [length]; lia) H' H1 ltac:(lia) ltac:(lia)) as [IA IB].
      fold rest in IA, IB. cbn [drop take length].
      split.
      * intros Hv. destruct (IA Hv) as (c2 & s2 & gs2 & g2 & E2 & H2 & F2 & S2 & S2').
        exists c2, s2, gs2, g2. split; [destruct x; rewrite EQ; exact E2|].
        replace (Datatypes.S rest - Datatypes.S (length l)) with (rest - length l) by lia.
        rewrite <- app_assoc in H2. split; [exact H2|]. split; [exact F2|].
        split; [eapply same_trans; eassumption|eapply same_trans; eassumption].
      * intros l1 v l2 Hd Hv. destruct (IB l1 v l2 Hd Hv) as (c2 & s2 & gs2 & g2 & E2 & H2 & F2 & D2 & L2 & S2').
        exists c2, s2, gs2, g2. split; [destruct x; rewrite EQ; exact E2|].
        rewrite <- app_assoc in H2. split; [exact H2|]. split; [exact F2|]. destruct Sg as [D L].
        rewrite D2, L2, D, L. split; [reflexivity|]. split; [reflexivity|eapply same_trans; eassumption].
    + replace (N - i) with 0 in H |- * by lia. cbn [no_cells replicate drop take] in H |- *.
      destruct x as [v|].
      * split; [intros Hv; rewrite values_cons in Hv; discriminate Hv|].
        intros l1 v' l2 Hd Hv. destruct l1 as [|[y|] l1]; cbn [app] in Hd; [|rewrite values_cons in Hv; discriminate Hv|discriminate Hd].
        injection Hd as -> ->.
        destruct (put_beyond e N Hc (s1, gs1) c _ g i v' H) as (c' & g' & Q & Hc' & D & L).
        { apply lookup_ge_None_2. rewrite app_nil_r. lia. }
        exists c', s1, gs1, g'. rewrite put_then. erewrite bind_Panic by exact Q.
        split; [reflexivity|]. split; [exact Hc'|]. split; [exact H1|]. split; [exact D|]. split; [exact L|exact S1].
      * erewrite !(bind_Ret (uadd _ _ _)) by (apply uadd_ok; lia).
        destruct (IH fuel (i + 1) pre c s1 gs1 g ltac:(lia) ltac:(replace (N - (i + 1)) with 0 by lia; exact H) H1 ltac:(lia) ltac:(lia)) as [IA IB].
        replace (N - (i + 1)) with 0 in IA, IB by lia. cbn [drop take] in IA, IB.
        split.
        -- intros Hv. rewrite values_cons in Hv. destruct (IA Hv) as (c2 & s2 & gs2 & g2 & E2 & H2 & F2 & S2 & S2').
           exists c2, s2, gs2, g2. split; [exact E2|]. split; [exact H2|]. split; [exact F2|].
           split; [exact S2|eapply same_trans; eassumption].
        -- intros l1 v l2 Hd Hv. destruct l1 as [|y l1]; cbn [app] in Hd; [discriminate Hd|]. injection Hd as <- Hd.
           rewrite values_cons in Hv. destruct (IB l1 v l2 Hd Hv) as (c2 & s2 & gs2 & g2 & E2 & H2 & F2 & D2 & L2 & S2').
           exists c2, s2, gs2, g2. split; [exact E2|]. split; [exact H2|]. split; [exact F2|]. split; [exact D2|]. split; [exact L2|].
           eapply same_trans; eassumption.
Qed.
End feeds.

(** ** The statements *)
(** [collect] ([FromIterator<Option<A>>]): item number [i] goes into cell [i].  Empty items beyond the capacity are passed
    over.  At the first other item beyond the capacity the call panics: that item and then the values collected are dropped,
    and the iterator keeps the rest. *)
Definition sp_collects {A S} (N W : nat) (F : S -> list (option A) -> Prop)
    (from_iter : nat -> M A (S * log A) (sparse A * unit)) : Prop :=
  forall (fuel : nat) (s : S) (l : list (option A)) (gs g : log A), F s l -> length l < fuel -> length l < W ->
  (values (drop N l) = [] ->
    exists s' gs' g' c, from_iter fuel (s, gs) g = Ret (s', gs') g' (c, tt) /\
      SHolds N c (take N (l ++ no_cells N)) /\ F s' [] /\
      dropped g' = dropped g /\ leaked g' = leaked g /\ dropped gs' = dropped gs /\ leaked gs' = leaked gs) /\
  (forall l1 v l2, drop N l = l1 ++ Some v :: l2 -> values l1 = [] ->
    exists s' gs' g', from_iter fuel (s, gs) g = Panic (s', gs') g' /\ F s' l2 /\
      dropped g' = dropped g ++ v :: values (take N l) /\ leaked g' = leaked g /\ dropped gs' = dropped gs /\ leaked gs' = leaked gs).
Lemma take_padded {A} N (l : list (option A)) : take N (l ++ no_cells N) = take N l ++ no_cells (N - length l).
Proof. rewrite firstn_app. f_equal. unfold no_cells. rewrite take_replicate. f_equal. lia. Qed.
Lemma sparse_collects {A S} (e : env A) N (F : S -> list (option A) -> Prop) next hint : calm e -> feeds F next hint ->
  sp_collects N (word e) F (sp_from_iter_live e N next).
Proof.
  intros Hc Hf fuel s l gs g Hs Hl Hw.
  destruct (sp_fill_live_ok e N F next hint Hc Hf l fuel 0 [] sparse0 s gs g eq_refl
    ltac:(rewrite Nat.sub_0_r; apply sparse0_holds) Hs Hl ltac:(lia)) as [IA IB].
  rewrite Nat.sub_0_r in IA, IB. cbn [app] in IA, IB. unfold sp_from_iter_live, sp_new. rewrite bind_ret. unfold with_local. split.
  - intros Hv. destruct (IA Hv) as (c' & s' & gs' & g' & E & H & F' & [D L] & [D' L']). rewrite E.
    exists s', gs', g', c'. rewrite take_padded. split; [reflexivity|]. split; [exact H|]. split; [exact F'|]. auto.
  - intros l1 v l2 Hd Hv. destruct (IB l1 v l2 Hd Hv) as (c' & s' & gs' & g' & E & H & F' & D & L & [D' L']). rewrite E.
    destruct (sp_destroy_eq e N c' _ g' Hc H) as (c2 & E2). cbn [fst snd]. rewrite E2. exists s', gs', (log_drop (values (take N l)) g').
    split; [reflexivity|]. split; [exact F'|]. cbn [dropped leaked log_drop]. rewrite D, <- app_assoc. auto.
Qed.
(** [OptionDrain]: delivers the cells, one after the other. *)
Lemma option_drain_feeds {A} (e : env A) N : N < word e ->
  feeds (fun o l => exists s, length s = N /\ snd o <= N /\ l = drop (snd o) s /\ SHolds N (fst o) (no_cells (snd o) ++ drop (snd o) s))
    (od_next (A:=A) e N) (oi_size_hint e N).
Proof.
  intros HW [c k] l g (s & EN & Hk & -> & H). cbn [fst snd] in *. split.
  - destruct (od_next_ok e N HW s c k g H EN Hk) as (c' & k' & g' & E & Hk' & Ed & Hc' & D & L).
    exists (c', k'), g'. split; [exact E|]. split; [|auto]. exists s. cbn [fst snd]. rewrite Ed in *. auto.
  - exists (c, k), g. split; [apply (oi_hint_ok e N HW); [exact Hk|rewrite drop_length; lia]|]. split; [|auto]. exists s. auto.
Qed.

(** ** Iterators that do anything *)
Section any.
Context {A S : Type} (e : env A) (N : nat)
  (F : S -> log A -> list (option (nat * option nat)) -> list (ev (option A)) -> Prop) (E : S -> log A -> Prop)
  (next : M A S (option (option A))) (hint : M A S (nat * option nat)).
Hypothesis Hs : scripted F E next hint.
Fixpoint fill_scr (it : list (ev (option A))) (index : nat) : M A (sparse A) unit :=
  match it with
  | [] => ret tt
  | Boom :: _ => panic
  | Yield None :: it' => let! index' := uadd e index 1 in fill_scr it' index'
  | Yield (Some value) :: it' =>
      let! old := sp_insert e N index value in
      drop_values e (option_list old) ;;;
      let! index' := uadd e index 1 in
      fill_scr it' index'
  end.
Lemma fill_scr_eq it : forall i o g, i + length it < word e -> on_fst (fill_scr it i) o g = sp_from_iter_loop e N it i o g.
Proof.
  assert (OB : forall R R' (m : M A (sparse A) R) (k : R -> M A (sparse A) R') (o : sparse A * unit) g,
    on_fst (bind m k) o g = bind (on_fst m) (fun r => on_fst (k r)) o g).
  { intros R R' m k [c u] g. unfold on_fst, bind. cbn [fst snd]. destruct (m c g); reflexivity. }
  assert (BE : forall R R' (m : M A (sparse A * unit) R) (k k' : R -> M A (sparse A * unit) R') o g, (forall r o g, k r o g = k' r o g) ->
    bind m k o g = bind m k' o g).
  { intros R R' m k k' o g H. unfold bind. destruct (m o g); auto. }
  induction it as [|[[v|]|] it IH]; intros i [c u] g Hw; cbn [fill_scr sp_from_iter_loop length] in *; try reflexivity.
  - rewrite OB. apply BE. intros old o g0. rewrite OB. apply BE. intros [] [c1 u1] g1. rewrite OB.
    rewrite <- (IH (Datatypes.S i) (c1, u1) g1) by lia. unfold bind, on_fst at 1. cbn [fst snd]. rewrite uadd_ok by lia.
    rewrite Nat.add_1_r. reflexivity.
  - rewrite OB, <- (IH (Datatypes.S i) (c, u) g) by lia. unfold bind, on_fst at 1. cbn [fst snd]. rewrite uadd_ok by lia.
    rewrite Nat.add_1_r. reflexivity.
Qed.
Lemma sim_fill hs it0 it : forall fuel i, it `suffix_of` it0 -> length it < fuel ->
  sim (beside (at_ F hs it)) (beside (over E)) (beside (later F E hs it0)) (sp_fill_live e N next fuel i) (fill_scr it i).
Proof.
  induction it as [|[x|] it IH]; intros [|fuel] i Hit Hf; cbn [length] in Hf; try lia; cbn [sp_fill_live]; apply (sim_next F E next hint Hs).
  - apply sim_ret.
  - assert (Hit' : it `suffix_of` it0) by (eapply suffix_cons_l; exact Hit).
    assert (HK : forall o, at_ F hs it o -> later F E hs it0 o) by (intros o; apply at_later; [reflexivity|exact Hit']).
    assert (HU : sim (beside (at_ F hs it)) (beside (over E)) (beside (later F E hs it0))
      (let! index' := uadd e i 1 in sp_fill_live e N next fuel index') (let! index' := uadd e i 1 in fill_scr it index')).
    { eapply sim_bind; [apply sim_uadd; intros l o [Q1 Q2]; split; [exact Q1|apply HK; exact Q2]|].
      intros i'. apply IH; [exact Hit'|lia]. }
    destruct x as [v|]; cbn [fill_scr]; [|exact HU].
    eapply sim_bind; [apply sim_fst; exact HK|]. intros old. eapply sim_bind; [apply sim_fst; exact HK|]. intros []. exact HU.
  - split; [|reflexivity]. intros o. apply at_later; [reflexivity|eapply suffix_cons_l; exact Hit].
Qed.
Lemma sparse_from_iter_any hs it s gs g fuel : calm e -> F s gs hs it -> length it < fuel -> length it < word e ->
  agrees (fun o (_ : unit) => later F E hs it o) (SMade N) g (sp_from_iter_live e N next fuel (s, gs) g) (ar_from_iter N it).
Proof.
  intros Hc HF Hf Hw.
  pose proof (sim_on_fst (O := unit) _ _ _ _ _ (sim_fill hs it it fuel 0 ltac:(reflexivity) Hf)) as P0.
  pose proof (sim_with_local (fun x (_ : unit) => at_ F hs it x) (fun x _ => over E x) (fun x _ => later F E hs it x) sparse0 (sp_destroy e N) _ _ P0
      (s, gs) tt g HF) as P.
  pose proof (sp_from_iter_ok e N Hc it g) as Ha. unfold sp_from_iter, sp_new in Ha. rewrite bind_ret in Ha.
  unfold sp_from_iter_live, sp_new. rewrite bind_ret.
  assert (EQ : with_local sparse0 (sp_destroy e N) (on_fst (fill_scr it 0)) tt g =
               with_local sparse0 (sp_destroy e N) (sp_from_iter_loop e N it 0) tt g).
  { unfold with_local. rewrite fill_scr_eq by lia. reflexivity. }
  rewrite EQ in P. eapply (mirrors_agrees (fun x (_ : unit) => later F E hs it x)); [|auto|exact Ha].
  destruct (with_local sparse0 (sp_destroy e N) (sp_from_iter_loop e N it 0) tt g); cbn in P |- *; try exact P.
  destruct P as (l & -> & Q2). exists l. split; [reflexivity|right; exact Q2].
Qed.
End any.
(** An iterator of empty items that never ends. *)
Section endless.
Context {A S : Type} (e : env A) (N : nat) (I : S -> log A -> Prop) (next : M A S (option (option A))).
Hypothesis Hn : forall s gs, I s gs -> exists s' gs', next s gs = Ret s' gs' (Some None) /\ I s' gs'.
Lemma fill_endless fuel : forall i o s gs g, I s gs -> debug e = false ->
  sp_fill_live e N next fuel i (o, (s, gs)) g = Hang.
Proof.
  induction fuel as [|fuel IH]; intros i o s gs g HI Hd; cbn [sp_fill_live]; [reflexivity|].
  destruct (Hn s gs HI) as (s' & gs' & E1 & HI'). erewrite bind_Ret by (unfold on_iter; cbn [fst snd]; rewrite E1; reflexivity).
  unfold bind, uadd. cbn [fst snd]. destruct (_ <? _); [apply IH; assumption|]. rewrite Hd. apply IH; assumption.
Qed.
Lemma fill_overflows fuel : forall i o s gs g, I s gs -> debug e = true -> i < word e -> word e - i <= fuel ->
  exists s' gs', sp_fill_live e N next fuel i (o, (s, gs)) g = Panic (o, (s', gs')) g /\ I s' gs'.
Proof.
  induction fuel as [|fuel IH]; intros i o s gs g HI Hd Hi Hf; cbn [sp_fill_live]; [lia|].
  destruct (Hn s gs HI) as (s' & gs' & E1 & HI'). erewrite bind_Ret by (unfold on_iter; cbn [fst snd]; rewrite E1; reflexivity).
  unfold bind, uadd. cbn [fst snd]. destruct (i + 1 <? word e) eqn:Ew; [apply IH; try assumption; lia|]. rewrite Hd. eauto.
Qed.
End endless.
