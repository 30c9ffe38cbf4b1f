(** * The standard methods of an iterator: proofs. *)
From Verif Require Import Machine Spec Prims Program LiveModel LiveSpec IterSpec MixModel MixSpec MixProofs MixProgram MixBalance
  Bombs BombProgram SparseBombs MixBombSpec MixBombs WalkModel WalkSpec.

(** ** Lists *)
Section first.
Context {A : Type}.
Implicit Types (q : nat -> A -> bool) (l : list A).
Lemma first_from_nil q k : first_from q k [] = None. Proof. reflexivity. Qed.
Lemma first_from_cons q k a l : first_from q k (a :: l) = if q k a then Some (k, a) else first_from q (S k) l.
Proof. reflexivity. Qed.
Lemma first_from_ext q q' l : (forall k a, q k a = q' k a) -> forall k, first_from q k l = first_from q' k l.
Proof. intros E. induction l as [|a l IH]; intros k; [reflexivity|]. rewrite !first_from_cons, E, IH. reflexivity. Qed.
Lemma first_from_some q l : forall k j a, first_from q k l = Some (j, a) -> k <= j /\ l !! (j - k) = Some a /\ q j a = true.
Proof.
  induction l as [|x l IH]; intros k j a; [discriminate|]. rewrite first_from_cons. destruct (q k x) eqn:Eq.
  - intros E. injection E as <- <-. rewrite Nat.sub_diag. auto.
  - intros E. destruct (IH _ _ _ E) as (H1 & H2 & H3). split; [lia|]. split; [|exact H3].
    replace (j - k) with (S (j - S k)) by lia. exact H2.
Qed.
Lemma first_from_shift (q : A -> bool) l : forall k, first_from (fun _ => q) k l =
  match first_from (fun _ => q) 0 l with Some (j, a) => Some (k + j, a) | None => None end.
Proof.
  induction l as [|x l IH]; intros k; [reflexivity|]. rewrite !first_from_cons. destruct (q x); [f_equal; f_equal; lia|].
  rewrite (IH (S k)), (IH 1). destruct (first_from _ 0 l) as [[j a]|]; [|reflexivity]. f_equal. f_equal. lia.
Qed.
Lemma first_rejects q l : forall k, first_from q k l = None -> forall i a, l !! i = Some a -> q (k + i) a = false.
Proof.
  induction l as [|x l IH]; intros k; [discriminate|]. rewrite first_from_cons. destruct (q k x) eqn:Eq; [discriminate|].
  intros E [|i] a; cbn.
  - intros [= <-]. rewrite Nat.add_0_r. exact Eq.
  - rewrite <- Nat.add_succ_comm. apply IH. exact E.
Qed.
Lemma first_rejects_before q l : forall k j a, first_from q k l = Some (j, a) ->
  forall i x, i < j - k -> l !! i = Some x -> q (k + i) x = false.
Proof.
  induction l as [|y0 l IH]; intros k j a; [discriminate|]. rewrite first_from_cons. destruct (q k y0) eqn:Eq.
  - intros [= <- <-] i x. lia.
  - intros E [|i] x Hi; cbn.
    + intros [= <-]. rewrite Nat.add_0_r. exact Eq.
    + rewrite <- Nat.add_succ_comm. apply (IH _ _ _ E). lia.
Qed.
End first.

(** ** The loops, on any iterator *)
Section loops.
Context {A S : Type} (e : env A) (F : S -> list A -> Prop) (next : M A S (option A)) (hint : M A S (nat * option nat)).
Hypothesis HF : feeds F next hint.
Notation b := (bomb e).
Lemma next_nil s g : F s [] -> exists s' g', next s g = Ret s' g' None /\ F s' [] /\ dropped g' = dropped g /\ leaked g' = leaked g.
Proof. intros H. destruct (HF s [] g H) as [(s' & g' & E & H' & D & L) _]. exists s', g'. auto. Qed.
Lemma next_cons s a l g : F s (a :: l) ->
  exists s' g', next s g = Ret s' g' (Some a) /\ F s' l /\ dropped g' = dropped g /\ leaked g' = leaked g.
Proof. intros H. destruct (HF s _ g H) as [(s' & g' & E & H' & D & L) _]. exists s', g'. auto. Qed.

(** How a call on [s], which has [l] left, ends. *)
Definition walks {R} (f : R -> wres A) (l : list A) (g : log A) (x : outcome A S R) (w : walked A) : Prop :=
  match w with
  | Walked n r d => exists s' g' v, x = Ret s' g' v /\ f v = r /\ F s' (drop n l) /\ n <= length l /\ dropped g' = dropped g ++ d /\ leaked g' = leaked g
  | Broke n d => exists s' g', x = Panic s' g' /\ F s' (drop n l) /\ n <= length l /\ dropped g' = dropped g ++ d /\ leaked g' = leaked g
  | Died => x = Abort
  end.
Lemma it_loop_first {R} (q : nat -> A -> bool) (body : nat -> A -> M A S (option R)) (fin : nat -> R) :
  (forall k a s g, q k a = false -> body k a s g = Ret s (log_drop [a] g) None) ->
  forall l fuel k s g, F s l -> length l < fuel ->
  match first_from q k l with
  | None => exists s' g', it_loop next body fin fuel k s g = Ret s' g' (fin (k + length l)) /\ F s' [] /\
      dropped g' = dropped g ++ l /\ leaked g' = leaked g
  | Some (j, a) => exists s' g' fuel', it_loop next body fin fuel k s g =
        bind (body j a) (fun r => match r with Some r => ret r | None => it_loop next body fin fuel' (Datatypes.S j) end) s' g' /\
      F s' (drop (Datatypes.S (j - k)) l) /\ dropped g' = dropped g ++ take (j - k) l /\ leaked g' = leaked g
  end.
Proof.
  intros Hb. induction l as [|a l IH]; intros fuel k s g Hs Hf; destruct fuel as [|fuel]; try (cbn in Hf; lia); cbn [it_loop].
  - destruct (next_nil s g Hs) as (s' & g' & E & H' & D & L). rewrite (bind_Ret next _ _ _ _ _ _ E).
    exists s', g'. rewrite app_nil_r. cbn. rewrite Nat.add_0_r. auto.
  - destruct (next_cons s a l g Hs) as (s' & g' & E & H' & D & L). rewrite (bind_Ret next _ _ _ _ _ _ E). rewrite first_from_cons.
    destruct (q k a) eqn:Eq.
    + exists s', g', fuel. rewrite Nat.sub_diag, app_nil_r. cbn. auto.
    + rewrite (bind_Ret (body k a) _ _ _ _ _ _ (Hb k a s' g' Eq)).
      specialize (IH fuel (Datatypes.S k) s' (log_drop [a] g') H' ltac:(cbn in Hf; lia)).
      destruct (first_from q (Datatypes.S k) l) as [[j x]|] eqn:Ef.
      * destruct IH as (s2 & g2 & fuel' & -> & H2 & D2 & L2). apply first_from_some in Ef. destruct Ef as (Hj & _ & _).
        exists s2, g2, fuel'. replace (j - k) with (Datatypes.S (j - Datatypes.S k)) by lia.
        split; [reflexivity|]. split; [exact H2|]. rewrite D2, L2. cbn. rewrite D, <- app_assoc. auto.
      * destruct IH as (s2 & g2 & -> & H2 & D2 & L2). exists s2, g2. rewrite D2, L2. cbn. rewrite D, <- app_assoc.
        replace (k + Datatypes.S (length l)) with (Datatypes.S (k + length l)) by lia. auto.
Qed.
Lemma drop_one (a : A) s g : drop_values (O := S) e [a] s g = if b a then Panic s (log_drop [a] g) else Ret s (log_drop [a] g) tt.
Proof. unfold drop_values. cbn. destruct (b a); reflexivity. Qed.
Lemma first_at_some q (l : list A) j a : first_at q l = Some (j, a) ->
  l !! j = Some a /\ q j a = true /\ Datatypes.S j <= length l /\ take (Datatypes.S j) l = take j l ++ [a].
Proof.
  intros E. destruct (first_from_some _ _ _ _ _ E) as (_ & El & Eq). rewrite Nat.sub_0_r in El.
  pose proof (lookup_lt_Some _ _ _ El). repeat split; auto. apply take_S_r. exact El.
Qed.
Lemma find_walks p l fuel s g : F s l -> length l < fuel ->
  walks WItem l g (it_loop next (finding e p) (fun _ => None) fuel 0 s g) (walk_find b p l).
Proof.
  intros Hs Hf. unfold walk_find. set (q := fun k a => match p k a with Some false => b a | _ => true end).
  assert (Hb : forall k a s g, q k a = false -> finding (S := S) e p k a s g = Ret s (log_drop [a] g) None).
  { intros k a s0 g0. unfold q, finding. destruct (p k a) as [[]|]; try discriminate. intros E.
    unfold bind. rewrite drop_one, E. reflexivity. }
  pose proof (it_loop_first q (finding e p) (fun _ => None) Hb l fuel 0 s g Hs Hf) as P. fold (first_at q l) in P.
  destruct (first_at q l) as [[j a]|] eqn:Ef.
  - destruct P as (s' & g' & fuel' & -> & H' & D & L). rewrite Nat.sub_0_r in H', D.
    destruct (first_at_some _ _ _ _ Ef) as (El & Eq & Hj & Et).
    unfold finding. destruct (p j a) as [[]|] eqn:Ep.
    + cbn. exists s', g', (Some a). auto 10.
    + unfold q in Eq. rewrite Ep in Eq. unfold bind. rewrite drop_one, Eq. cbn [walks broke]. exists s', (log_drop [a] g').
      cbn [dropped leaked log_drop]. rewrite D, Et, <- app_assoc. auto.
    + unfold unwound, bind, panic_dropping. destruct (b a); cbn [walks broke]; [reflexivity|]. exists s', (log_drop [a] g').
      cbn [dropped leaked log_drop]. rewrite D, Et, <- app_assoc. auto.
  - destruct P as (s' & g' & -> & H' & D & L). cbn. exists s', g', None. rewrite drop_all. auto 10.
Qed.
Lemma test_walks {R} p stop (r : nat -> R) (r0 : R) (f : R -> wres A) l fuel s g : F s l -> length l < fuel ->
  walks f l g (it_loop next (testing e p stop r) (fun _ => r0) fuel 0 s g) (walk_test b p stop (fun k => f (r k)) (f r0) l).
Proof.
  intros Hs Hf. unfold walk_test. set (q := fun k a => match p k a with Some x => Bool.eqb x stop || b a | None => true end).
  assert (Hb : forall k a s g, q k a = false -> testing (S := S) e p stop r k a s g = Ret s (log_drop [a] g) None).
  { intros k a s0 g0. unfold q, testing. destruct (p k a) as [x|]; [|discriminate]. intros E. apply orb_false_iff in E. destruct E as [E1 E2].
    unfold bind. rewrite drop_one, E1, E2. reflexivity. }
  pose proof (it_loop_first q (testing e p stop r) (fun _ => r0) Hb l fuel 0 s g Hs Hf) as P. fold (first_at q l) in P.
  destruct (first_at q l) as [[j a]|] eqn:Ef.
  - destruct P as (s' & g' & fuel' & -> & H' & D & L). rewrite Nat.sub_0_r in H', D.
    destruct (first_at_some _ _ _ _ Ef) as (El & Eq & Hj & Et).
    unfold testing. destruct (p j a) as [x|] eqn:Ep.
    + unfold q in Eq. rewrite Ep in Eq. unfold bind. rewrite drop_one. destruct (b a).
      * cbn [walks broke]. exists s', (log_drop [a] g'). cbn [dropped leaked log_drop]. rewrite D, Et, <- app_assoc. auto.
      * rewrite orb_false_r in Eq. rewrite Eq. cbn [walks ret]. exists s', (log_drop [a] g'), (r j).
        cbn [dropped leaked log_drop]. rewrite D, Et, <- app_assoc. auto 10.
    + unfold unwound, bind, panic_dropping. destruct (b a); cbn [walks broke]; [reflexivity|]. exists s', (log_drop [a] g').
      cbn [dropped leaked log_drop]. rewrite D, Et, <- app_assoc. auto.
  - destruct P as (s' & g' & -> & H' & D & L). cbn. exists s', g', r0. rewrite drop_all. auto 10.
Qed.
Lemma count_walks l fuel s g : F s l -> length l < fuel ->
  walks WNat l g (it_loop next (counting e) id fuel 0 s g) (walk_count b l).
Proof.
  intros Hs Hf. unfold walk_count. set (q := fun _ : nat => b).
  assert (Hb : forall k a s g, q k a = false -> counting (S := S) e k a s g = Ret s (log_drop [a] g) None).
  { intros k a s0 g0 E. unfold q in E. unfold counting, bind. rewrite drop_one, E. reflexivity. }
  pose proof (it_loop_first q (counting e) id Hb l fuel 0 s g Hs Hf) as P. fold (first_at q l) in P.
  destruct (first_at q l) as [[j a]|] eqn:Ef.
  - destruct P as (s' & g' & fuel' & -> & H' & D & L). rewrite Nat.sub_0_r in H', D.
    destruct (first_at_some _ _ _ _ Ef) as (El & Eq & Hj & Et). unfold q in Eq.
    unfold counting, bind. rewrite drop_one, Eq. cbn [walks broke]. exists s', (log_drop [a] g').
    cbn [dropped leaked log_drop]. rewrite D, Et, <- app_assoc. auto.
  - destruct P as (s' & g' & -> & H' & D & L). cbn. exists s', g', (length l). rewrite drop_all. auto 10.
Qed.
Lemma nth_walks n : forall l s g, F s l -> walks WItem l g (it_nth e next n s g) (walk_nth b n l).
Proof.
  induction n as [|n IH]; intros l s g Hs; cbn [it_nth].
  - unfold walk_nth. cbn. destruct l as [|a l].
    + destruct (next_nil s g Hs) as (s' & g' & E & H' & D & L). exists s', g', None. rewrite app_nil_r. auto 10.
    + destruct (next_cons s a l g Hs) as (s' & g' & E & H' & D & L). exists s', g', (Some a). rewrite app_nil_r. cbn. auto 10 with lia.
  - destruct l as [|a l].
    + destruct (next_nil s g Hs) as (s' & g' & E & H' & D & L). rewrite (bind_Ret next _ _ _ _ _ _ E).
      unfold walk_nth. cbn. exists s', g', None. rewrite app_nil_r. auto 10.
    + destruct (next_cons s a l g Hs) as (s' & g' & E & H' & D & L). rewrite (bind_Ret next _ _ _ _ _ _ E).
      unfold walk_nth, first_at. cbn [take firstn]. rewrite first_from_cons. unfold bind. rewrite drop_one. destruct (b a) eqn:Eb.
      * cbn [walks broke]. exists s', (log_drop [a] g'). cbn. rewrite D, firstn_O, drop_0. auto with lia.
      * specialize (IH l s' (log_drop [a] g') H'). unfold walk_nth, first_at in IH. rewrite first_from_shift.
        destruct (first_from (fun _ => b) 0 (take n l)) as [[j x]|]; cbn [walks broke] in IH |- *.
        -- destruct IH as (s2 & g2 & -> & H2 & Hn & D2 & L2). exists s2, g2. cbn in D2, L2, Hn |- *. rewrite D2, D, <- app_assoc. split; [reflexivity|]. split; [exact H2|]. split; [lia|]. split; [reflexivity|congruence].
        -- destruct IH as (s2 & g2 & v & -> & Ev & H2 & Hn & D2 & L2). exists s2, g2, v. cbn in D2, L2, H2, Hn |- *.
           rewrite D2, D, <- app_assoc. split; [reflexivity|]. split; [exact Ev|]. split; [exact H2|]. split; [lia|]. split; [reflexivity|congruence].
Qed.
Lemma holding_ret acc s g s' g' r : next s g = Ret s' g' r -> next_holding e next acc s g = Ret s' g' r.
Proof. intros E. unfold next_holding. rewrite E. reflexivity. Qed.
Lemma take_walks n : forall l s g acc, F s l -> exists s' g', it_take e next n acc s g = Ret s' g' (acc ++ take n l) /\
  F s' (drop n l) /\ dropped g' = dropped g /\ leaked g' = leaked g.
Proof.
  induction n as [|n IH]; intros l s g acc Hs; cbn [it_take].
  - exists s, g. rewrite app_nil_r, drop_0. auto.
  - destruct l as [|a l].
    + destruct (next_nil s g Hs) as (s' & g' & E & H' & D & L). rewrite (bind_Ret _ _ _ _ _ _ _ (holding_ret acc _ _ _ _ _ E)).
      exists s', g'. rewrite take_nil, app_nil_r, drop_nil. auto.
    + destruct (next_cons s a l g Hs) as (s' & g' & E & H' & D & L). rewrite (bind_Ret _ _ _ _ _ _ _ (holding_ret acc _ _ _ _ _ E)).
      destruct (IH l s' g' (acc ++ [a]) H') as (s2 & g2 & -> & H2 & D2 & L2). exists s2, g2. rewrite <- app_assoc, D2, L2. auto.
Qed.
Lemma collect_walks l : forall fuel s g acc, F s l -> length l < fuel -> exists s' g', it_collect e next fuel acc s g = Ret s' g' (acc ++ l) /\
  F s' [] /\ dropped g' = dropped g /\ leaked g' = leaked g.
Proof.
  induction l as [|a l IH]; intros [|fuel] s g acc Hs Hf; cbn [it_collect length] in *; try lia.
  - destruct (next_nil s g Hs) as (s' & g' & E & H' & D & L). rewrite (bind_Ret _ _ _ _ _ _ _ (holding_ret acc _ _ _ _ _ E)).
    exists s', g'. rewrite app_nil_r. auto.
  - destruct (next_cons s a l g Hs) as (s' & g' & E & H' & D & L). rewrite (bind_Ret _ _ _ _ _ _ _ (holding_ret acc _ _ _ _ _ E)).
    destruct (IH fuel s' g' (acc ++ [a]) H' ltac:(lia)) as (s2 & g2 & -> & H2 & D2 & L2). exists s2, g2. rewrite <- app_assoc, D2, L2. auto.
Qed.
Lemma map_walks {R} (f : R -> wres A) l g (m : M A S R) s w : walks f l g (m s g) w -> walks id l g (mapR f m s g) w.
Proof.
  unfold mapR, bind. destruct w as [n r d|n d|]; cbn [walks].
  - intros (s' & g' & v & -> & Ev & H). exists s', g', (f v). auto.
  - intros (s' & g' & -> & H). exists s', g'. auto.
  - intros ->. reflexivity.
Qed.
End loops.

(** ** What is taken *)
Section walk.
Context {A : Type}.
Lemma walk_ext (b b' : A -> bool) o l : (forall a, b a = b' a) -> walk b o l = walk b' o l.
Proof.
  intros E.
  assert (E1 : forall l k, first_from (fun _ => b) k l = first_from (fun _ => b') k l) by (intros; apply first_from_ext; auto).
  assert (E2 : forall p l k, first_from (fun k a => match p k a with Some false => b a | _ => true end) k l =
    first_from (fun k a => match p k a with Some false => b' a | _ => true end) k l).
  { intros. apply first_from_ext. intros j a. rewrite E. reflexivity. }
  assert (E3 : forall (p : nat -> A -> option bool) stop l k,
    first_from (fun k a => match p k a with Some x => Bool.eqb x stop || b a | None => true end) k l =
    first_from (fun k a => match p k a with Some x => Bool.eqb x stop || b' a | None => true end) k l).
  { intros. apply first_from_ext. intros j a. rewrite E. reflexivity. }
  destruct o; cbn [walk]; unfold walk_nth, walk_find, walk_test, walk_count, first_at, unwound; rewrite ?E1, ?E2, ?E3; try reflexivity.
  all: match goal with |- context [match ?x with _ => _ end] => destruct x as [[k a]|] end; rewrite ?E; reflexivity.
Qed.
Lemma walk_calm (o : walk_op A) l : walk (fun _ => false) o l <> Died.
Proof.
  destruct o; cbn [walk]; unfold walk_nth, walk_find, walk_test, walk_count, walk_take, walk_collect, unwound, broke.
  all: try match goal with |- context [first_at ?q ?l] => destruct (first_at q l) as [[k a]|] end; try discriminate.
  all: destruct (p k a) as [[]|]; discriminate.
Qed.
(** What has been taken was dropped or is in the result. *)
Lemma walk_conserves (b : A -> bool) outs o l : match walk b o l with
  | Walked n r d => Permutation (take n l) (wres_outs outs r ++ d)
  | Broke n d => Permutation (take n l) d
  | Died => True
  end.
Proof.
  destruct o; cbn [walk]; unfold walk_nth, walk_find, walk_test, walk_count, walk_take, walk_collect, unwound, broke.
  all: try match goal with |- context [first_at ?q ?l] => destruct (first_at q l) as [[k a]|] eqn:Ef end.
  all: cbn [wres_outs app]; try rewrite firstn_all; try reflexivity.
  - destruct (l !! n) as [x|] eqn:El; cbn [wres_outs app].
    + pose proof (lookup_lt_Some _ _ _ El). rewrite Nat.min_l by lia. rewrite (take_S_r _ _ _ El). perm.
    + apply lookup_ge_None in El. rewrite !take_ge by lia. reflexivity.
  - destruct (first_at_some _ _ _ _ Ef) as (El & _ & _ & Et). destruct (p k a) as [[]|]; cbn [wres_outs app]; try reflexivity.
    + rewrite Et. perm.
    + destruct (b a); reflexivity.
  - destruct (first_at_some _ _ _ _ Ef) as (El & _ & _ & Et). destruct (p k a) as [[]|]; destruct (b a); reflexivity.
  - destruct (first_at_some _ _ _ _ Ef) as (El & _ & _ & Et). destruct (p k a) as [[]|]; destruct (b a); reflexivity.
  - destruct (first_at_some _ _ _ _ Ef) as (El & _ & _ & Et). destruct (p k a) as [[]|]; destruct (b a); reflexivity.
  - rewrite app_nil_r. destruct (Nat.min_spec n (length l)) as [[H ->]|[H ->]]; [reflexivity|]. rewrite firstn_all, take_ge by lia. reflexivity.
  - rewrite app_nil_r. reflexivity.
Qed.
End walk.

(** ** The containers *)
Section mix.
Context {A : Type} (e : env A).
Notation obj := (mobj e).
Notation st := (mst e).
Notation MHolds := (MHolds e).
Lemma run_walk_walks o y (s : st) g : MHolds y s -> iterates e (walk_side o) s ->
  walks (feeding e (walk_side o) s) id (queue e (walk_side o) s) g (run_walk e o y g) (walk (bomb e) o (queue e (walk_side o) s)).
Proof.
  intros Hy Hi. pose proof (m_feeds e _ s Hi) as HF. pose proof (feeding_0 e (walk_side o) s y Hy) as H0.
  pose proof (m_fuel_enough e (walk_side o) y s Hy) as Hf.
  destruct o as [sd n|sd p|sd p|sd p|sd p|sd|sd n|sd]; cbn [walk_side walk] in *; unfold run_walk; apply map_walks.
  - eapply nth_walks; eauto.
  - eapply find_walks; eauto.
  - eapply (test_walks e _ _ _ HF p true Some None WIndex); eauto.
  - eapply (test_walks e _ _ _ HF p true (fun _ => true) false WBool); eauto.
  - eapply (test_walks e _ _ _ HF p false (fun _ => false) true WBool); eauto.
  - eapply count_walks; eauto.
  - destruct (take_walks e _ _ _ HF n _ y g [] H0) as (s' & g' & -> & H' & D & L). cbn [walk_take walks]. exists s', g', (take n (queue e sd s)).
    rewrite app_nil_r. split; [reflexivity|]. split; [reflexivity|]. split; [|split; [lia|auto]].
    destruct (Nat.min_spec n (length (queue e sd s))) as [[H ->]|[H ->]]; [exact H'|]. rewrite drop_all. rewrite drop_ge in H' by lia. exact H'.
  - destruct (collect_walks e _ _ _ HF _ _ y g [] H0 Hf) as (s' & g' & -> & H' & D & L). cbn [walk_collect walks].
    exists s', g', (queue e sd s). rewrite app_nil_r, drop_all. auto 10.
Qed.
Lemma walk_bombs o y (s : st) g : MHolds y s -> legal_walk e o s -> agreesb MHolds eq g (run_walk e o y g) (bspec_walk e o s).
Proof.
  intros Hy Hi. pose proof (run_walk_walks o y s g Hy Hi) as P. unfold bspec_walk. cbv zeta.
  destruct (walk (bomb e) o (queue e (walk_side o) s)) as [n r d|n d|]; cbn [walks agreesb agrees] in *.
  - destruct P as (y' & g' & v & E & Ev & H & Hn & D & L). exists y', g', v. split; [exact E|]. split; [|auto].
    apply feeding_at; assumption.
  - destruct P as (y' & g' & E & H & Hn & D & L). exists y', g', []. split; [exact E|]. split; [apply feeding_at; assumption|].
    rewrite app_nil_r. auto.
  - exact P.
Qed.
Lemma walk_agrees o y (s : st) g : calm e -> MHolds y s -> legal_walk e o s -> agrees MHolds eq g (run_walk e o y g) (spec_walk e o s).
Proof.
  intros Hc Hy Hi. pose proof (walk_bombs o y s g Hy Hi) as P. unfold bspec_walk, spec_walk in *. cbv zeta in *.
  rewrite (walk_ext (bomb e) (fun _ => false)) in P by exact Hc.
  pose proof (walk_calm o (queue e (walk_side o) s)) as Q. destruct (walk _ _ _); [exact P|exact P|congruence].
Qed.
Lemma taken_items sd n (s : st) : iterates e sd s -> Permutation (m_items e s) (m_items e (after e sd n s) ++ take n (queue e sd s)).
Proof.
  intros Hi. rewrite <- (queue_perm e sd s) at 1. rewrite <- (queue_perm e sd (after e sd n s)), queue_after by exact Hi.
  rewrite <- (take_drop n (queue e sd s)) at 1. apply Permutation_app_comm.
Qed.
Lemma walk_balance outs o (s : st) : legal_walk e o s -> match spec_walk e o s with
    | SRet s' r d => Permutation (m_items e s) (m_items e s' ++ wres_outs outs r ++ d)
    | SPanic s' d k => Permutation (m_items e s) (m_items e s' ++ d ++ k) end.
Proof.
  intros Hi. unfold spec_walk. cbv zeta. pose proof (walk_conserves (fun _ => false) outs o (queue e (walk_side o) s)) as P.
  pose proof (walk_calm o (queue e (walk_side o) s)) as Q. destruct (walk _ _ _) as [n r d|n d|]; [| |congruence].
  - rewrite <- P. apply taken_items. exact Hi.
  - rewrite app_nil_r, <- P. apply taken_items. exact Hi.
Qed.
Lemma walk_balanceb outs o (s : st) : legal_walk e o s -> match bspec_walk e o s with
    | BRet s' r d => Permutation (m_items e s) (m_items e s' ++ wres_outs outs r ++ d)
    | BPanic s' d k => Permutation (m_items e s) (m_items e s' ++ d ++ k)
    | _ => True end.
Proof.
  intros Hi. unfold bspec_walk. cbv zeta. pose proof (walk_conserves (bomb e) outs o (queue e (walk_side o) s)) as P.
  destruct (walk _ _ _) as [n r d|n d|]; [| |exact I].
  - rewrite <- P. apply taken_items. exact Hi.
  - rewrite app_nil_r, <- P. apply taken_items. exact Hi.
Qed.
End mix.
