(** * The slots the mutable iterators of [RingBuffer] and [SparseChunk] deliver, and the aliasing rules *)
From Verif Require Import Machine Spec IterSpec IterSpec2 Prims RingModel RingProofs RingProofs4 RefProofs.
From Verif Require Import BorrowModel BorrowSpec BorrowProofs4 BorrowProofs5 BorrowProofs6.
From Coq Require Sorting.Sorted.
From Verif Require SparseSpec SparseModel SparseProofs SparseProofs3 SparseLaws2.

(** The slots of what a client got. *)
Definition slots_got {A H} (outs : list (H * option (nat * A))) : list (option nat) :=
  map (fun x => match snd x with Some (p, _) => Some p | None => None end) outs.
Definition cells_got {A H} (outs : list (H * option (option (nat * A)))) : list (option nat) :=
  map (fun x => match snd x with Some (Some (p, _)) => Some p | _ => None end) outs.

Lemma take_side_perm {I} s (l l' : list I) x : take_side s l = (x, l') -> option_list x ++ l' ≡ₚ l.
Proof.
  destruct s; cbn.
  - destruct l as [|a l]; intros [= <- <-]; reflexivity.
  - destruct (l !! (length l - 1)) as [a|] eqn:Ea; intros [= <- <-]; [|reflexivity].
    cbn. etransitivity; [apply Permutation_cons_append|]. rewrite (take_last_app l a Ea). reflexivity.
Qed.
Lemma pulls_got {A} script : forall (ls : list (nat * A)),
  somes (slots_got (fst (pulls script ls))) ++ map fst (snd (pulls script ls)) ≡ₚ map fst ls.
Proof.
  induction script as [|s script IH]; intros ls; [reflexivity|]. cbn [pulls].
  destruct (take_side s ls) as [x ls'] eqn:E. specialize (IH ls'). destruct (pulls script ls') as [rest l'']. cbn [fst snd] in *.
  apply take_side_perm in E. unfold slots_got in *. cbn [map snd fst] in *. rewrite <- E.
  destruct x as [[p v]|]; cbn [option_list app map somes fst]; rewrite IH; reflexivity.
Qed.
Lemma pulls_got_ok {A} script (ls : list (nat * A)) N : NoDup (map fst ls) -> (forall p v, In (p, v) ls -> p < N) ->
  NoDup (somes (slots_got (fst (pulls script ls)))) /\ Forall (fun i => i < N) (somes (slots_got (fst (pulls script ls)))).
Proof.
  intros H1 H2. pose proof (pulls_got script ls) as P. split.
  - rewrite <- P in H1. apply NoDup_app in H1. tauto.
  - assert (F : Forall (fun i => i < N) (map fst ls)).
    { apply Forall_forall. intros p Hp. apply in_map_iff in Hp as ([q v] & <- & Hp). eapply H2. exact Hp. }
    rewrite <- P in F. apply Forall_app in F. tauto.
Qed.

Section ring.
Context {A : Type} (e : env A) (N : nat).
Hypothesis HW : N + N < word e.
Hypothesis HN : 0 < N.
Lemma slots_from_in o (l : list A) : o < N -> forall t p v, In (p, v) (slots_from N o t l) -> t + length l <= N -> p < N.
Proof.
  intros Ho t p v H Ht. apply elem_of_list_In, elem_of_list_lookup in H as (u & Hu).
  pose proof (lookup_lt_Some _ _ _ Hu) as Hlt. rewrite slots_from_length in Hlt.
  destruct (l !! u) as [x|] eqn:Ex; [|apply lookup_ge_None in Ex; lia].
  rewrite (slots_from_lookup e N HW HN o l _ _ _ Ex) in Hu. injection Hu as <- _. unfold wr. destruct (_ <? _) eqn:E; lia.
Qed.
Lemma served r ls ix script g x g' outs : origin r < N -> itH N (origin r) r (ix, r) ls ->
  pull_all (it_next e N) (it_next_back e N) it_size_hint script (ix, r) g = Ret x g' outs -> outs = fst (pulls script ls).
Proof.
  intros Ho I E2.
  assert (P : forall x ls g0, itH N (origin r) r x ls -> exists x' g', pull_all (it_next e N) (it_next_back e N)
   it_size_hint script x g0 = Ret x' g' (fst (pulls script ls)) /\ itH N (origin r) r x' (snd (pulls script ls)) /\
   dropped g' = dropped g0 /\ leaked g' = leaked g0).
  { apply pull_all_ok.
    - intros. apply it_next_ok; assumption.
    - intros. apply it_next_back_ok; assumption.
    - intros. eapply it_size_hint_ok; eassumption. }
  destruct (P _ _ g I) as (x' & g'' & E2' & _). rewrite E2 in E2'. injection E2' as _ _ ->. reflexivity.
Qed.
Theorem ring_iter_mut r l g ix sides x g' outs o k script : RHolds N r l -> o < k ->
  rb_iter e N r g = Ret r g ix ->
  pull_all (it_next e N) (it_next_back e N) it_size_hint sides (ix, r) g = Ret x g' outs ->
  sb_accepts (trace k (b_ring_client N o script (slots_got outs))) /\
  tb_accepts (trace k (b_ring_client N o script (slots_got outs))).
Proof.
  intros H Hk E1 E2. destruct (rb_iter_ok e N HW HN r l g H) as (ix' & E1' & I). rewrite E1 in E1'. injection E1' as <-.
  pose proof H as (Ho & Hl & Hc & _).
  rewrite (served r _ ix sides g x g' outs Ho I E2).
  destruct (pulls_got_ok sides (slots_from N (origin r) 0 l) N) as (D & F).
  - apply (slots_from_fst e N HW HN); lia.
  - intros p v Hp. eapply (slots_from_in (origin r) l Ho 0); [exact Hp|lia].
  - split; [apply sb_ring_ok|apply tb_ring_ok]; assumption.
Qed.
Theorem ring_slice_iter_mut s r l g ix sides x g' outs o k script : RHolds N r l -> in_range s l -> o < k ->
  sl_iter e N s r g = Ret r g ix ->
  pull_all (it_next e N) (it_next_back e N) it_size_hint sides (ix, r) g = Ret x g' outs ->
  sb_accepts (trace k (b_ring_client N o script (slots_got outs))) /\
  tb_accepts (trace k (b_ring_client N o script (slots_got outs))).
Proof.
  intros H Hs Hk E1 E2. destruct (sl_iter_ok e N HW HN s l r g H Hs) as (ix' & E1' & I). rewrite E1 in E1'. injection E1' as <-.
  pose proof H as (Ho & Hl & Hc & _). pose proof (sub_list_length e N HW HN s l Hs) as Hsl.
  rewrite (served r _ ix sides g x g' outs Ho I E2). destruct Hs as [Hs1 Hs2].
  destruct (pulls_got_ok sides (slots_from N (origin r) (fst s) (sub_list s l)) N) as (D & F).
  - apply (slots_from_fst e N HW HN); lia.
  - intros p v Hp. eapply (slots_from_in (origin r) _ Ho (fst s)); [exact Hp|lia].
  - split; [apply sb_ring_ok|apply tb_ring_ok]; assumption.
Qed.
End ring.

(** ** Sparse chunks *)
Import SparseSpec SparseModel SparseProofs.
Section sparse.
Context {A : Type} (e : env A) (N : nat).
Hypothesis HW : N < word e.
Implicit Types (s : list (option A)).
Lemma somes_app a b : somes (a ++ b) = somes a ++ somes b.
Proof. induction a as [|[i|] a IH]; cbn; [reflexivity| |exact IH]. rewrite IH. reflexivity. Qed.
Lemma somes_none n : somes (replicate n None) = [].
Proof. induction n; cbn; auto. Qed.
Lemma somes_Some (l : list nat) : somes (map Some l) = l.
Proof. induction l as [|a l IH]; cbn; [reflexivity|]. rewrite IH. reflexivity. Qed.
Lemma slots_serves hint n (l : list (nat * A)) :
  slots_got (serves hint n l) = map Some (take n (map fst l)) ++ replicate (n - length l) None.
Proof.
  revert l. induction n as [|n IH]; intros l; [reflexivity|]. cbn [serves]. unfold slots_got in *. cbn [map snd].
  destruct l as [|[p v] l]; cbn [head tail]; rewrite IH; cbn; [|reflexivity]. rewrite firstn_nil, Nat.sub_0_r. reflexivity.
Qed.
Lemma cells_serves hint n k s : 
  somes (cells_got (serves hint n (SparseProofs3.om_items k s))) = map fst (entries_from k (take n s)).
Proof.
  revert k s. induction n as [|n IH]; intros k s; [reflexivity|]. cbn [serves]. unfold cells_got in *. cbn [map snd].
  destruct s as [|[a|] s].
  - cbn. clear IH. induction n; cbn; auto.
  - rewrite (SparseProofs3.om_items_cons e N HW). cbn [head tail fmap option_fmap option_map]. cbn [somes take entries_from map fst]. rewrite IH. reflexivity.
  - rewrite (SparseProofs3.om_items_cons e N HW). cbn [head tail fmap option_fmap option_map]. cbn [somes take entries_from map fst]. rewrite IH. reflexivity.
Qed.
Lemma sorted_nodup (l : list nat) : Sorted.StronglySorted lt l -> NoDup l.
Proof.
  induction 1 as [|a l _ IH H]; constructor; [|exact IH]. intros Hi. apply elem_of_list_In in Hi.
  rewrite List.Forall_forall in H. specialize (H a Hi). lia.
Qed.
Lemma cells_ok k s : k + length s <= N ->
  NoDup (map fst (entries_from k s)) /\ Forall (fun i => i < N) (map fst (entries_from k s)).
Proof.
  intros H. destruct (entries_from_sorted s k) as [H1 H2]. split; [apply sorted_nodup, H1|].
  eapply List.Forall_impl; [|exact H2]. cbn. lia.
Qed.
Lemma im_slots c s n g x g' outs : SHolds N c s -> pull_n (im_next N) (it_size_hint N) n (c, smap c) g = Ret x g' outs ->
  slots_got outs = map Some (take n (occupied s)) ++ replicate (n - length (occupied s)) None /\
  NoDup (somes (slots_got outs)) /\ Forall (fun i => i < N) (somes (slots_got outs)).
Proof.
  intros H E. destruct (SparseLaws2.sparse_iterators A e N n c s g HW H) as (_ & _ & (b & g1 & E' & _) & _).
  rewrite E in E'. injection E' as _ _ ->.
  assert (EN : length s = N) by apply H. destruct (cells_ok 0 s ltac:(lia)) as (D & F).
  assert (ES : slots_got (serves (fun _ => (0, Some N)) n (entries s)) =
    map Some (take n (occupied s)) ++ replicate (n - length (occupied s)) None).
  { rewrite slots_serves. unfold occupied. rewrite map_length. reflexivity. }
  split; [exact ES|]. rewrite ES, somes_app, somes_none, somes_Some, app_nil_r.
  fold (entries s) in D, F. fold (occupied s) in D, F. rewrite <- (take_drop n (occupied s)) in D, F.
  apply NoDup_app in D. apply Forall_app in F. tauto.
Qed.
Lemma om_slots c s n g x g' outs : SHolds N c s -> pull_n (om_next e N) (oi_size_hint e N) n (c, 0) g = Ret x g' outs ->
  NoDup (somes (cells_got outs)) /\ Forall (fun i => i < N) (somes (cells_got outs)).
Proof.
  intros H E. destruct (SparseLaws2.sparse_draining A e N n c s g HW H) as (_ & _ & _ & (b & g1 & E' & _)).
  rewrite E in E'. injection E' as _ _ ->.
  assert (EN : length s = N) by apply H.
  change (imap (fun j x => (fun a => (j, a)) <$> x) s) with (SparseProofs3.om_items 0 s). rewrite cells_serves.
  apply cells_ok. rewrite take_length. lia.
Qed.
End sparse.
