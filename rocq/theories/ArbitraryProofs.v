(** * Generated containers. *)
From Verif Require Import Machine Spec Prims ChunkModel ChunkProofs ChunkProofs2 RingModel RingProofs RingProofs2 RingProofs4
  SparseModel SparseSpec SparseProofs SparseProofs2 SparseLaws InlineModel InlineSpec InlineProofs InlineProofs2 InlineProofs3
  InlineLaws ArbitraryModel ArbitrarySpec.

(** What [shunt] makes of the source. *)
Lemma shunt_made {B} (src : list (gen B)) :
  shunt src = map Yield (made src) ++ (match trouble src with Some Crash => [Boom] | _ => [] end).
Proof. induction src as [|[b| |] src IH]; cbn; [reflexivity| |reflexivity|reflexivity]. rewrite IH. reflexivity. Qed.
Lemma failed_trouble {B} (src : list (gen B)) :
  failed src = match trouble src with Some Fail => true | _ => false end.
Proof. induction src as [|[b| |] src IH]; cbn; auto. Qed.
Lemma made_length {B} (src : list (gen B)) : length (made src) <= length src.
Proof. induction src as [|[b| |] src IH]; cbn; lia. Qed.

Section generic.
Context {A B C : Type} (N : nat) (H : C -> list B -> Prop) (vals : list B -> list A)
  (from_iter : list (ev B) -> M A unit (C * unit)) (destroy : M A C unit).
Hypothesis Hok : forall xs g, length xs <= N ->
  exists c g', from_iter (map Yield xs) tt g = Ret tt g' (c, tt) /\ H c xs /\
    dropped g' = dropped g /\ leaked g' = leaked g.
Hypothesis Hboom : forall xs g, length xs <= N ->
  exists g', from_iter (map Yield xs ++ [Boom]) tt g = Panic tt g' /\
    dropped g' = dropped g ++ vals xs /\ leaked g' = leaked g.
Hypothesis Hdrop : forall c xs g, length xs <= N -> H c xs ->
  exists c', destroy c g = Ret c' (log_drop (vals xs) g) tt.

Lemma arbitrary_ok u g :
  agrees (fun _ _ => True) (option_Forall2 H) g (arbitrary N from_iter destroy u tt g) (gen_container vals N u).
Proof.
  destruct u as [src|]; cbn [arbitrary gen_container].
  2:{ exists tt, g, None. rewrite app_nil_r. repeat split. constructor. }
  assert (Hl : length (made (take N src)) <= N).
  { pose proof (made_length (take N src)). rewrite take_length in *. lia. }
  rewrite shunt_made, failed_trouble. set (xs := made (take N src)) in *.
  destruct (trouble (take N src)) as [[b| |]|] eqn:E.
  - exfalso. clear -E. induction (take N src) as [|[x| |] l IH]; cbn in E; try discriminate. auto.
  - rewrite app_nil_r. destruct (Hok xs g Hl) as (c & g' & E1 & Hc & D & L). erewrite bind_Ret by exact E1.
    destruct (Hdrop c xs g' Hl Hc) as (c' & E2). cbn [fst]. rewrite E2. eexists tt, _, None.
    split; [reflexivity|]. cbn. rewrite D, L. repeat split. constructor.
  - destruct (Hboom xs g Hl) as (g' & E1 & D & L). unfold bind. rewrite E1. exists tt, g', [].
    rewrite app_nil_r. auto.
  - rewrite app_nil_r. destruct (Hok xs g Hl) as (c & g' & E1 & Hc & D & L). erewrite bind_Ret by exact E1.
    exists tt, g', (Some c). rewrite app_nil_r. repeat split; auto. constructor. exact Hc.
Qed.
End generic.

(** The list containers. *)
Lemma bl_extend_boom {A} N (xs : list A) : forall l, length l + length xs <= N ->
  bl_extend N (map Yield xs ++ [Boom]) l = SPanic (l ++ xs) [] [].
Proof.
  induction xs as [|x xs IH]; intros l H; cbn [map bl_extend app].
  - rewrite app_nil_r. reflexivity.
  - cbn in H. replace (length l <? N) with true by lia.
    rewrite IH by (rewrite app_length; cbn; lia). rewrite <- app_assoc. reflexivity.
Qed.
Section lists.
Context {A C : Type} (N : nat) (H : C -> list A -> Prop)
  (from_iter : list (ev A) -> M A unit (C * unit)) (destroy : M A C unit).
Hypothesis Hfrom : forall it g,
  agrees (fun _ _ => True) (fun r => H (fst r)) g (from_iter it tt g) (bl_from_iter N it).
Hypothesis Hdrop : forall c l g, H c l -> exists c', destroy c g = Ret c' (log_drop l g) tt.
Lemma arbitrary_list u g :
  agrees (fun _ _ => True) (option_Forall2 H) g (arbitrary N from_iter destroy u tt g) (gen_container (fun l => l) N u).
Proof.
  apply arbitrary_ok.
  - intros xs g0 Hl. pose proof (Hfrom (map Yield xs) g0) as P. unfold bl_from_iter in P.
    rewrite bl_extend_all in P by (cbn; lia). destruct P as (u' & g' & [c v] & E & _ & Hc & D & L).
    destruct u', v. exists c, g'. rewrite app_nil_r in D. auto.
  - intros xs g0 Hl. pose proof (Hfrom (map Yield xs ++ [Boom]) g0) as P. unfold bl_from_iter in P.
    rewrite bl_extend_boom in P by (cbn; lia). destruct P as (u' & g' & k & E & _ & D & L & Pk).
    apply Permutation_nil in Pk. subst k. destruct u'. exists g'. rewrite app_nil_r in L. auto.
  - intros c xs g0 _. apply Hdrop.
Qed.
End lists.

Section containers.
Context {A : Type} (e : env A).
Hypothesis Hcalm : calm e.
Lemma arbitrary_chunk N u g : N + N < word e ->
  agrees (fun _ _ => True) (option_Forall2 (Holds N)) g
    (arbitrary N (from_iter e N) (destroy e N) u tt g) (gen_container (fun l => l) N u).
Proof.
  intros HW. apply arbitrary_list.
  - intros it g0. apply (ChunkProofs2.from_iter_ok e N HW Hcalm).
  - intros c l g0. apply (destroy_ret e N HW Hcalm).
Qed.
Lemma arbitrary_ring N u g : N + N < word e -> 0 < N ->
  agrees (fun _ _ => True) (option_Forall2 (RHolds N)) g
    (arbitrary N (rb_from_iter e N) (rb_destroy e N) u tt g) (gen_container (fun l => l) N u).
Proof.
  intros HW HN. apply arbitrary_list.
  - intros it g0. apply (rb_from_iter_unit e N HW HN Hcalm).
  - intros c l g0. apply (rb_destroy_ret e N HW HN Hcalm).
Qed.
Lemma arbitrary_inline L b u g : wf_layout e L -> host_ok e L -> placed L b ->
  agrees (fun _ _ => True) (option_Forall2 (IHolds e L)) g
    (arbitrary (capacity e L) (ia_from_iter e L b) (ia_destroy e L b) u tt g)
    (gen_container (fun l => l) (capacity e L) u).
Proof.
  intros WF HOST Hb. apply arbitrary_list.
  - intros it g0. apply (InlineProofs3.from_iter_ok e L WF HOST Hcalm). exact Hb.
  - intros c l g0. apply (InlineProofs2.destroy_ok e L WF HOST Hcalm). exact Hb.
Qed.
Lemma arbitrary_sparse N u g :
  agrees (fun _ _ => True) (option_Forall2 (fun c xs => SHolds N c (xs ++ replicate (N - length xs) None))) g
    (arbitrary N (sp_from_iter e N) (sp_destroy e N) u tt g) (gen_container (omap (fun x => x)) N u).
Proof.
  assert (Hp : forall xs : list (option A), length xs <= N -> padded N xs = xs ++ replicate (N - length xs) None).
  { intros xs Hl. unfold padded. rewrite take_ge by lia. reflexivity. }
  assert (Hf : forall xs : list (option A), length xs <= N -> fits N xs).
  { intros xs Hl i v Hi. apply lookup_lt_Some in Hi. lia. }
  apply arbitrary_ok.
  - intros xs g0 Hl. pose proof (sp_from_iter_ok e N Hcalm (map Yield xs) g0) as P.
    rewrite ar_from_iter_fits in P by auto. rewrite Hp in P by exact Hl.
    destruct P as (u' & g' & [c v] & E & _ & Hc & D & L). destruct u', v. exists c, g'. rewrite app_nil_r in D. auto.
  - intros xs g0 Hl. pose proof (sp_from_iter_ok e N Hcalm (map Yield xs ++ [Boom]) g0) as P.
    rewrite ar_from_iter_boom in P by auto. destruct P as (u' & g' & k & E & _ & D & L & Pk).
    apply Permutation_nil in Pk. subst k. destruct u'. exists g'. rewrite app_nil_r in L. auto.
  - intros c xs g0 Hl Hc. destruct (sp_destroy_eq e N c _ g0 Hcalm Hc) as (c' & E). exists c'. rewrite E.
    rewrite <- Hp by exact Hl. rewrite fits_values by auto. reflexivity.
Qed.
End containers.

Lemma arb_size_hint_ok {A O} (e : env A) cap u (o : O) g :
  arb_size_hint e cap (Some u) o g =
    (if u * cap <? word e then Ret o g (0, Some (u * cap))
     else if debug e then Panic o g else Ret o g (0, Some ((u * cap) mod word e))).
Proof. unfold arb_size_hint, umul. destruct (u * cap <? word e); [reflexivity|]. destruct (debug e); reflexivity. Qed.
