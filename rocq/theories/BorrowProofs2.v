(** * Proofs about the aliasing traces of BorrowModel.v: Tree Borrows *)
From Verif Require Import Machine IterSpec BorrowModel BorrowProofs.

(** ** What is known of some pointers (of a raw pointer: only where it comes from).  The proofs use small numbers for
    tags; [r] says which tags they stand for. *)
Definition known := list (nat * (list nat * option tperm)).
Definition knows1 (r : nat -> nat) (s : tree) (x : nat * (list nat * option tperm)) : Prop :=
  tpath s (r (fst x)) = map r (fst (snd x)) /\ match snd (snd x) with Some p => tprm s (r (fst x)) = p | None => True end.
Definition knows (r : nat -> nat) (s : tree) (K : known) : Prop := Forall (knows1 r s) K.
Definition inj (r : nat -> nat) : Prop := forall t u, r t = r u -> t = u.
Fixpoint look (K : known) (t : nat) : option (list nat * option tperm) :=
  match K with [] => None | (u, v) :: K' => if u =? t then Some v else look K' t end.
Lemma look_ok r s K t v : knows r s K -> look K t = Some v -> knows1 r s (t, v).
Proof.
  induction 1 as [|[u w] K H _ IH]; cbn; [discriminate|]. destruct (u =? t) eqn:E; [|exact IH].
  intros [= <-]. apply Nat.eqb_eq in E as <-. exact H.
Qed.
Definition kpass (w : bool) (K : known) (u : nat) : bool :=
  match look K u with Some (_, Some p) => match child w p with Some _ => true | None => false end | _ => false end.
Definition kshift (w : bool) (path : list nat) (x : nat * (list nat * option tperm)) : nat * (list nat * option tperm) :=
  (fst x, (fst (snd x), match snd (snd x) with
    | Some p => Some (if mem (fst x) path then match child w p with Some p => p | None => TDisabled end else foreign w p)
    | None => None end)).
Definition kaccess (w : bool) (t : nat) (K : known) : option known :=
  match look K t with
  | Some (path, _) => if forallb (kpass w K) path then Some (map (kshift w path) K) else None
  | None => None
  end.
Lemma mem_map r u path : inj r -> mem (r u) (map r path) = mem u path.
Proof.
  intros Hr. induction path as [|v path IH]; [reflexivity|]. cbn. unfold mem in IH. rewrite IH. f_equal.
  destruct (u =? v) eqn:E; [apply Nat.eqb_eq in E as ->; apply Nat.eqb_refl|].
  apply Nat.eqb_neq. intros H. apply Hr in H. lia.
Qed.
Lemma kaccess_ok r w t s K K' : inj r -> knows r s K -> kaccess w t K = Some K' ->
  exists s', tb_access w (r t) s = Some s' /\ knows r s' K'.
Proof.
  intros Hr HK. unfold kaccess. destruct (look K t) as [[path p]|] eqn:E; [|discriminate].
  destruct (forallb _ path) eqn:F; [|discriminate]. intros [= <-].
  destruct (look_ok r s K t _ HK E) as [Ep _]. cbn in Ep. unfold tb_access. rewrite Ep.
  replace (forallb _ (map r path)) with true.
  - eexists. split; [reflexivity|]. clear F E. induction HK as [|[u [pu qu]] K [H1 H2] _ IH]; constructor; [|exact IH].
    cbn in *. split; [exact H1|]. cbn. destruct qu as [qu|]; cbn; [rewrite H2, mem_map by assumption; reflexivity|exact I].
  - symmetry. rewrite forallb_forall in F |- *. intros u' Hu. apply in_map_iff in Hu as (u & <- & Hu).
    specialize (F u Hu). unfold kpass in F.
    destruct (look K u) as [[pu [qu|]]|] eqn:Eu; try discriminate. destruct (look_ok r s K u _ HK Eu) as [_ H]. cbn in H. rewrite H. exact F.
Qed.
Definition knew (q : nat) (K : known) : bool := match look K q with Some _ => false | None => true end.
Definition kact (a : act) (here : bool) (K : known) : option known :=
  match a with
  | Reb k p q _ =>
      match look K p with
      | Some (path, _) => if knew q K then
          match k with
          | RawPtr => Some ((q, (path, None)) :: K)
          | _ => let K' := (q, (q :: path, Some (match k with RefMut => TReserved | _ => TFrozen end))) :: K in
                 if here then kaccess false q K' else Some K'
          end else None
      | None => None
      end
  | Acc w p _ => if here then kaccess w p K else Some K
  end.
Definition ren (r : nat -> nat) (a : act) : act :=
  match a with Reb k p q rg => Reb k (r p) (r q) rg | Acc w p rg => Acc w (r p) rg end.
Lemma knows_other r s s' K q : inj r -> knew q K = true ->
  (forall u, u <> r q -> tpath s' u = tpath s u /\ tprm s' u = tprm s u) -> knows r s K -> knows r s' K.
Proof.
  unfold knew. intros Hr Hq Hs. destruct (look K q) eqn:E; [discriminate|]. clear Hq.
  induction 1 as [|[u [pu qu]] K [H1 H2] _ IH]; constructor.
  - cbn in E. destruct (u =? q) eqn:Eu; [discriminate|]. destruct (Hs (r u)) as [E1 E2]; [intros H; apply Hr in H; lia|].
    split; cbn in *; [congruence|]. destruct qu; congruence.
  - apply IH. cbn in E. destruct (u =? q); [discriminate|exact E].
Qed.
Lemma kact_ok r l a s K K' : inj r -> knows r s K -> kact a (region_of a l) K = Some K' ->
  exists s', tb_step l (ren r a) s = Some s' /\ knows r s' K'.
Proof.
  intros Hr HK. destruct a as [k p q rg|w p rg]; cbn [kact region_of tb_step ren].
  - destruct (look K p) as [[path pp]|] eqn:E; [|discriminate]. destruct (knew q K) eqn:Eq; [|discriminate].
    destruct (look_ok r s K p _ HK E) as [Ep _]. cbn in Ep.
    assert (HQ : forall x y, knows r (Tree (set (tpath s) (r q) (map r x)) (set (tprm s) (r q) y)) ((q, (x, Some y)) :: K)).
    { intros x y. constructor.
      - split; cbn; unfold set; rewrite Nat.eqb_refl; reflexivity.
      - apply (knows_other r s _ K q Hr Eq); [|exact HK]. intros u Hu. cbn. unfold set. replace (u =? r q) with false by lia. auto. }
    destruct k; rewrite ?Ep; change (r q :: map r path) with (map r (q :: path)).
    + destruct (rg l); [intros H; apply (kaccess_ok _ _ _ _ _ _ Hr (HQ _ _) H)|]. intros [= <-]. eexists. split; [reflexivity|apply HQ].
    + destruct (rg l); [intros H; apply (kaccess_ok _ _ _ _ _ _ Hr (HQ _ _) H)|]. intros [= <-]. eexists. split; [reflexivity|apply HQ].
    + intros [= <-]. eexists. split; [reflexivity|]. constructor.
      * split; cbn; [unfold set; rewrite Nat.eqb_refl; reflexivity|exact I].
      * apply (knows_other r s _ K q Hr Eq); [|exact HK]. intros u Hu. cbn. unfold set. replace (u =? r q) with false by lia. auto.
  - destruct (rg l); [apply kaccess_ok; assumption|]. intros [= <-]. eauto.
Qed.
(** What is known after the trace [tr] at place [l] satisfies [P]. *)
Definition kfollow (l : place) (tr : list act) (K : known) (P : known -> Prop) : Prop :=
  forall r s, inj r -> knows r s K -> exists s' K', follow (tb_step l) (map (ren r) tr) s = Some s' /\ knows r s' K' /\ P K'.
Lemma kf_nil l K (P : known -> Prop) : P K -> kfollow l [] K P.
Proof. intros H r s _ Hs. exists s, K. auto. Qed.
Lemma kf_cons l a tr here K K1 P : region_of a l = here -> kact a here K = Some K1 -> kfollow l tr K1 P -> kfollow l (a :: tr) K P.
Proof.
  intros Eh E H r s Hr HK. rewrite <- Eh in E. destruct (kact_ok r l a s K K1 Hr HK E) as (s1 & E1 & HK1).
  cbn [map follow]. rewrite E1. exact (H r s1 Hr HK1).
Qed.
Lemma kf_mono l tr K (P Q : known -> Prop) : (forall K', P K' -> Q K') -> kfollow l tr K P -> kfollow l tr K Q.
Proof. intros HPQ H r s Hr HK. destruct (H r s Hr HK) as (s' & K' & E & H1 & H2). exists s', K'. auto. Qed.
Ltac kf1 :=
  match goal with |- kfollow ?l (?a :: ?tr) ?K ?P =>
    tryif (let H := fresh in assert (H : region_of a l = false) by inreg; clear H)
    then (eapply (kf_cons l a tr false K); [inreg|vm_compute; reflexivity|])
    else tryif (let H := fresh in assert (H : region_of a l = true) by inreg; clear H)
      then (eapply (kf_cons l a tr true K); [inreg|vm_compute; reflexivity|])
      else (let E := fresh "E" in destruct (region_of a l) eqn:E; cbn [region_of] in E; unfold whole, slots, fields in E; cbn [fst snd] in E)
  end.

(** ** Old pointers: new pointers change nothing about where they come from, and nothing else at other places. *)
Definition fresh_from (b : nat) (tr : list act) : Prop :=
  Forall (fun a => match a with Reb _ _ q _ => b <= q | Acc _ _ _ => True end) tr.
Lemma set_other {X} (f : nat -> X) q x u : u <> q -> set f q x u = f u.
Proof. intros H. unfold set. replace (u =? q) with false by lia. reflexivity. Qed.
Lemma tb_access_path w t s s' : tb_access w t s = Some s' -> tpath s' = tpath s.
Proof. unfold tb_access. destruct (forallb _ _); [|discriminate]. intros [= <-]. reflexivity. Qed.
Lemma tb_step_path l a s s' u : tb_step l a s = Some s' ->
  match a with Reb _ _ q _ => u <> q | Acc _ _ _ => True end -> tpath s' u = tpath s u.
Proof.
  destruct a as [[] p q rg|w p rg]; cbn; intros E Hu.
  - destruct (rg l); [apply tb_access_path in E; rewrite E; cbn|injection E as <-; cbn]; apply set_other, Hu.
  - destruct (rg l); [apply tb_access_path in E; rewrite E; cbn|injection E as <-; cbn]; apply set_other, Hu.
  - injection E as <-. cbn. apply set_other, Hu.
  - destruct (rg l); [apply tb_access_path in E; rewrite E; reflexivity|injection E as <-; reflexivity].
Qed.
Lemma follow_path l b tr : fresh_from b tr -> forall s s' u, follow (tb_step l) tr s = Some s' -> u < b -> tpath s' u = tpath s u.
Proof.
  induction 1 as [|a tr Ha _ IH]; intros s s' u E Hu; cbn in E; [congruence|].
  destruct (tb_step l a s) as [s1|] eqn:E1; [|discriminate]. rewrite (IH _ _ _ E Hu). apply (tb_step_path l a s s1 u E1).
  destruct a; [lia|exact I].
Qed.
Lemma follow_outside l b tr : fresh_from b tr -> Forall (fun a => region_of a l = false) tr ->
  forall s, exists s', follow (tb_step l) tr s = Some s' /\ (forall u, u < b -> tprm s' u = tprm s u).
Proof.
  induction 1 as [|a tr Ha _ IH]; intros HF s; [exists s; split; [reflexivity|auto]|]. inversion_clear HF as [|? ? H1 H2].
  assert (exists s1, tb_step l a s = Some s1 /\ forall u, u < b -> tprm s1 u = tprm s u) as (s1 & E1 & E2).
  { destruct a as [[] p q rg|w p rg]; cbn in *; rewrite ?H1; eexists; (split; [reflexivity|]); intros u Hu; cbn;
      rewrite ?set_other by lia; reflexivity. }
  cbn. rewrite E1. destruct (IH H2 s1) as (s' & E & Hp). exists s'. split; [exact E|]. intros u Hu. rewrite Hp, E2 by exact Hu. reflexivity.
Qed.

(** ** Calls.  At a place of object [ob] the trees know where the owners come from, and [ob]'s owner is active. *)
Definition town (k ob : nat) (s : tree) : Prop := (forall o, o < k -> tpath s o = [o]) /\ (ob < k -> tprm s ob = TActive).
(** A call on the objects [os] that is accepted at every place and leaves all objects owned. *)
Definition tb_good {X} (os : list nat) (m : T X) : Prop := forall k ob x b s,
  (forall o, In o os -> o < k) -> k <= b -> town k ob s -> exists s' b' v,
  at_place (tb_step (ob, x)) m b s = Some (s', b', v) /\ b <= b' /\ town k ob s'.
Definition r1 (o b t : nat) : nat := match t with 0 => o | S i => i + b end.
Definition r2 (o o' b t : nat) : nat := match t with 0 => o | 1 => o' | S (S i) => i + b end.
Lemma r1_inj o b : o < b -> inj (r1 o b).
Proof. intros H [|t] [|u]; cbn; lia. Qed.
Lemma r2_inj o o' b : o < b -> o' < b -> o <> o' -> inj (r2 o o' b).
Proof. intros H1 H2 H3 [|[|t]] [|[|u]]; cbn; lia. Qed.
(** [m self]: the code with the reference passed. *)
Lemma tb_good1 {X} o (m : nat -> T X) :
  (forall b, b <= fst (fst (m o b)) /\ fresh_from b (snd (fst (m o b)))) ->
  (forall ob x b, ob <> o -> Forall (fun a => region_of a (ob, x) = false) (snd (fst (m o b)))) ->
  (forall b, snd (fst (m o b)) = map (ren (r1 o b)) (snd (fst (m 0 1)))) ->
  (forall x, kfollow (o, x) (snd (fst (m 0 1))) [(0, ([0], Some TActive))] (In (0, ([0], Some TActive)))) ->
  tb_good [o] (m o).
Proof.
  intros Hf Hout Hren Hin k ob x b s Hb Hk [Hp Ha]. specialize (Hb o (or_introl eq_refl)). destruct (Hf b) as [Hle Hfr].
  assert (exists s', follow (tb_step (ob, x)) (snd (fst (m o b))) s = Some s' /\ (ob < k -> tprm s' ob = TActive)) as (s' & E & Ha').
  { destruct (Nat.eq_dec ob o) as [->|Hne].
    - rewrite Hren. destruct (Hin x (r1 o b) s) as (s' & K' & E & HK & HP); [apply r1_inj; lia| |].
      + constructor; [|constructor]. split; cbn; auto.
      + exists s'. split; [exact E|]. intros _. unfold knows in HK. rewrite Forall_forall in HK. apply (HK _ HP).
    - destruct (follow_outside (ob, x) b _ Hfr (Hout ob x b Hne) s) as (s' & E & Hs). exists s'. split; [exact E|].
      intros Hlt. rewrite Hs by lia. auto. }
  unfold at_place. destruct (m o b) as [[b' tr] v]. cbn [fst snd] in *. rewrite E. exists s', b', v.
  split; [reflexivity|]. split; [exact Hle|]. split; [|exact Ha'].
  intros u Hu. rewrite (follow_path _ b tr Hfr _ _ _ E) by lia. auto.
Qed.
Lemma tb_good2 {X} o o' (m : nat -> nat -> T X) : o <> o' ->
  (forall b, b <= fst (fst (m o o' b)) /\ fresh_from b (snd (fst (m o o' b)))) ->
  (forall ob x b, ob <> o -> ob <> o' -> Forall (fun a => region_of a (ob, x) = false) (snd (fst (m o o' b)))) ->
  (forall b, snd (fst (m o o' b)) = map (ren (r2 o o' b)) (snd (fst (m 0 1 2)))) ->
  (forall x, kfollow (o, x) (snd (fst (m 0 1 2))) [(0, ([0], Some TActive)); (1, ([1], None))] (In (0, ([0], Some TActive)))) ->
  (forall x, kfollow (o', x) (snd (fst (m 0 1 2))) [(0, ([0], None)); (1, ([1], Some TActive))] (In (1, ([1], Some TActive)))) ->
  tb_good [o; o'] (m o o').
Proof.
  intros Hne0 Hf Hout Hren Hin Hin' k ob x b s Hb Hk [Hp Ha]. pose proof (Hb o (or_introl eq_refl)) as Ho.
  pose proof (Hb o' (or_intror (or_introl eq_refl))) as Ho'. destruct (Hf b) as [Hle Hfr].
  assert (exists s', follow (tb_step (ob, x)) (snd (fst (m o o' b))) s = Some s' /\ (ob < k -> tprm s' ob = TActive)) as (s' & E & Ha').
  { destruct (Nat.eq_dec ob o) as [->|Hne]; [|destruct (Nat.eq_dec ob o') as [->|Hne']].
    - rewrite Hren. destruct (Hin x (r2 o o' b) s) as (s' & K' & E & HK & HP); [apply r2_inj; lia| |].
      + constructor; [|constructor; [|constructor]]; split; cbn; auto.
      + exists s'. split; [exact E|]. intros _. unfold knows in HK. rewrite Forall_forall in HK. apply (HK _ HP).
    - rewrite Hren. destruct (Hin' x (r2 o o' b) s) as (s' & K' & E & HK & HP); [apply r2_inj; lia| |].
      + constructor; [|constructor; [|constructor]]; split; cbn; auto.
      + exists s'. split; [exact E|]. intros _. unfold knows in HK. rewrite Forall_forall in HK. apply (HK _ HP).
    - destruct (follow_outside (ob, x) b _ Hfr (Hout ob x b Hne Hne') s) as (s' & E & Hs). exists s'. split; [exact E|].
      intros Hlt. rewrite Hs by lia. auto. }
  unfold at_place. destruct (m o o' b) as [[b' tr] v]. cbn [fst snd] in *. rewrite E. exists s', b', v.
  split; [reflexivity|]. split; [exact Hle|]. split; [|exact Ha'].
  intros u Hu. rewrite (follow_path _ b tr Hfr _ _ _ E) by lia. auto.
Qed.
Ltac tcode := code; repeat match goal with H : (0 <? ?n) = _ |- context [0 <? ?n] => rewrite !H end; code; cbn [fst snd].
Ltac tdone := cbn [In]; repeat (first [left; reflexivity | right]).
Ltac tfresh := intros b; tcode; split; [lia|repeat (constructor; [first [exact I|lia]|]); constructor].
Ltac tout := intros; tcode; repeat (constructor; [inreg|]); constructor.
Ltac tren := intros b; code; repeat match goal with H : (0 <? ?n) = _ |- context [0 <? ?n] => rewrite !H end; reflexivity.
Ltac tin := intros x; tcode; repeat kf1; apply kf_nil; tdone.
Ltac tone o m := apply (tb_good1 o m); [tfresh|tout|tren|tin].
Ltac ttwo o o' m := apply (tb_good2 o o' m); [assumption|tfresh|tout|tren|tin|tin].
Section tb.
Context (N : nat).
Lemma tb_fields o : tb_good [o] (b_fields N o o).
Proof. tone o (fun s => b_fields N o s). Qed.
Lemma tb_set_fields o : tb_good [o] (b_set_fields o o).
Proof. tone o (fun s => b_set_fields o s). Qed.
Lemma tb_force_read o i : i < N -> tb_good [o] (b_force_read N o o i).
Proof. intros Hi. tone o (fun s => b_force_read N o s i). Qed.
Lemma tb_force_write o i : i < N -> tb_good [o] (b_force_write N o o i).
Proof. intros Hi. tone o (fun s => b_force_write N o s i). Qed.
Lemma tb_force_copy o from to n : from + n <= N -> to + n <= N -> tb_good [o] (b_force_copy N o o from to n).
Proof. intros Hf Ht. destruct (0 <? n) eqn:En; tone o (fun s => b_force_copy N o s from to n). Qed.
Lemma tb_force_copy_to o o' from to n : o <> o' -> from + n <= N -> to + n <= N ->
  tb_good [o; o'] (b_force_copy_to N o o o' o' from to n).
Proof. intros Ho Hf Ht. destruct (0 <? n) eqn:En; ttwo o o' (fun s t => b_force_copy_to N o s o' t from to n). Qed.
Lemma tb_slice_read o a n : a + n <= N -> tb_good [o] (b_slice_read N o o a n).
Proof. intros Hn. tone o (fun s => b_slice_read N o s a n). Qed.
Lemma tb_slice_write o a n : a + n <= N -> tb_good [o] (b_slice_write N o o a n).
Proof. intros Hn. tone o (fun s => b_slice_write N o s a n). Qed.
Lemma tb_ring_read o i : i < N -> tb_good [o] (b_ring_read N o o i).
Proof. intros Hi. tone o (fun s => b_ring_read N o s i). Qed.
Lemma tb_ring_write o i : i < N -> tb_good [o] (b_ring_write N o o i).
Proof. intros Hi. tone o (fun s => b_ring_write N o s i). Qed.
Lemma tb_ring_copy_to o o' from to n : o <> o' -> from + n <= N -> to + n <= N ->
  tb_good [o; o'] (b_ring_copy_to N o o o' o' from to n).
Proof. intros Ho Hf Ht. destruct (0 <? n) eqn:En; ttwo o o' (fun s t => b_ring_copy_to N o s o' t from to n). Qed.
Lemma tb_ring_get o i : i < N -> tb_good [o] (do! x := b_ring_get N o o i in acc false x (slots o i 1)).
Proof. intros Hi. tone o (fun s => do! x := b_ring_get N o s i in acc false x (slots o i 1)). Qed.
Lemma tb_ring_get_mut o i : i < N -> tb_good [o] (do! x := b_ring_get_mut N o o i in acc true x (slots o i 1)).
Proof. intros Hi. tone o (fun s => do! x := b_ring_get_mut N o s i in acc true x (slots o i 1)). Qed.
Lemma tb_ia_len o : tb_good [o] (b_ia_len N o o).
Proof. tone o (fun s => b_ia_len N o s). Qed.
Lemma tb_ia_set_len o : tb_good [o] (b_ia_set_len N o o).
Proof. tone o (fun s => b_ia_set_len N o s). Qed.
Lemma tb_ia_push o len : len < N -> tb_good [o] (b_ia_push N o o len).
Proof. intros Hl. tone o (fun s => b_ia_push N o s len). Qed.
Lemma tb_ia_pop o len : 0 < len <= N -> tb_good [o] (b_ia_pop N o o len).
Proof. intros Hl. tone o (fun s => b_ia_pop N o s len). Qed.
Lemma tb_ia_insert o len i : i <= len -> len < N -> tb_good [o] (b_ia_insert N o o len i).
Proof.
  intros Hi Hl. destruct (0 <? len - i) eqn:En; tone o (fun s => b_ia_insert N o s len i).
Qed.
Lemma tb_ia_remove o len i : i < len -> len <= N -> tb_good [o] (b_ia_remove N o o len i).
Proof. intros Hi Hl. destruct (0 <? len - 1 - i) eqn:En; tone o (fun s => b_ia_remove N o s len i). Qed.
Lemma tb_ia_split_off o o' len i : o <> o' -> i <= len <= N -> tb_good [o; o'] (b_ia_split_off N o o o' o' len i).
Proof.
  intros Ho Hl. destruct (0 <? len - i) eqn:En; ttwo o o' (fun s t => b_ia_split_off N o s o' t len i).
Qed.
Lemma tb_ia_slice_read o len : len <= N -> tb_good [o] (b_ia_slice_read N o o len).
Proof. intros Hl. tone o (fun s => b_ia_slice_read N o s len). Qed.
Lemma tb_ia_slice_write o len : len <= N -> tb_good [o] (b_ia_slice_write N o o len).
Proof. intros Hl. tone o (fun s => b_ia_slice_write N o s len). Qed.
Lemma tb_ia_clear o len : len <= N -> tb_good [o] (b_ia_clear N o o len).
Proof. intros Hl. tone o (fun s => b_ia_clear N o s len). Qed.
Lemma tb_chunk_from_inline o o' len : o <> o' -> len <= N -> tb_good [o; o'] (b_chunk_from_inline N o o o' o' len).
Proof.
  intros Ho Hl. destruct (0 <? len) eqn:En; ttwo o o' (fun s t => b_chunk_from_inline N o s o' t len).
Qed.
Lemma tb_sp_read o i : i < N -> tb_good [o] (b_sp_read N o o i).
Proof. intros Hi. tone o (fun s => b_sp_read N o s i). Qed.
Lemma tb_sp_write o i : i < N -> tb_good [o] (b_sp_write N o o i).
Proof. intros Hi. tone o (fun s => b_sp_write N o s i). Qed.
End tb.
