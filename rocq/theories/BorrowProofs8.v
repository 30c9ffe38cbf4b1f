(** * What the calls of BorrowModel.v access *)
From Verif Require Import Machine BorrowModel BorrowSpec.

Lemma accesses_alt (w : bool) (l : place) (tr : list act) :
  (exists p rg, In (Acc w p rg) tr /\ rg l = true) <->
  existsb (fun a => match a with Acc w' _ rg => eqb w w' && rg l | _ => false end) tr = true.
Proof.
  rewrite existsb_exists. split.
  - intros (p & rg & H & E). exists (Acc w p rg). rewrite eqb_reflx, E. auto.
  - intros ([k p q rg|w' p rg] & H & E); [discriminate|]. apply andb_prop in E. destruct E as [E1 E2].
    apply eqb_prop in E1. subst w'. eauto.
Qed.
Lemma fields_alt o l : fields o l = true <-> header o l.
Proof. destruct l as [a b]. unfold fields, header. cbn [fst snd]. rewrite andb_true_iff, !Nat.eqb_eq. reflexivity. Qed.
Lemma slots_alt o a n l : slots o a n l = true <-> elements o a n l.
Proof. destruct l. unfold slots, elements. cbn [fst snd]. lia. Qed.
Lemma calls_accesses N k c w l : valid_call N k c ->
  (exists p rg, In (Acc w p rg) (trace k (b_call N c)) /\ rg l = true) <-> (if w then call_writes c l else call_reads c l).
Proof.
  intros V. rewrite accesses_alt.
  destruct c, w; cbn [b_call call_reads call_writes valid_call] in *;
  unfold b_force_copy, b_force_copy_to, b_ring_copy_to, b_ia_insert, b_ia_remove, b_ia_split_off, b_chunk_from_inline, b_copy;
  repeat match goal with |- context[0 <? ?b] => destruct (0 <? b) eqn:? end; cbn -[slots fields whole Nat.sub Nat.add];
  repeat rewrite ?orb_false_r, ?orb_true_iff, ?fields_alt, ?slots_alt; unfold header, elements; destruct l as [x y]; cbn [fst snd];
  lia.
Qed.

(** ** Clients *)
Definition accd (w : bool) (l : place) (tr : list act) : bool :=
  existsb (fun a => match a with Acc w' _ rg => eqb w w' && rg l | _ => false end) tr.
Lemma accd_bind {X Y} w l (m : T X) (f : X -> T Y) k :
  accd w l (trace k (tbind m f)) = accd w l (trace k m) || accd w l (trace (fst (fst (m k))) (f (snd (m k)))).
Proof.
  unfold trace, tbind, accd. destruct (m k) as [[b t] x]. cbn [fst snd]. destruct (f x b) as [[b2 t2] y]. cbn [fst snd].
  apply existsb_app.
Qed.
Lemma accd_touch w l w' p rg k : accd w l (trace k (acc w' p rg)) = eqb w w' && rg l.
Proof. unfold accd. cbn. apply orb_false_r. Qed.
Lemma client_accesses (next : nat -> T nat) w o x i :
  (forall k j, accd w (x, i) (trace k (next j)) = false) ->
  forall script ys refs k, accd w (x, i) (trace k (b_client next o script ys refs)) = true <->
  x = o /\ exists s1 j s2, script = s1 ++ Touch w j :: s2 /\ 0 < i /\ (map snd refs ++ somes (take (nexts s1) ys)) !! j = Some (i - 1).
Proof.
  intros Hn. induction script as [|[|w' j'] script IH]; intros ys refs k.
  - cbn. split; [discriminate|]. intros (_ & s1 & j & s2 & E & _). destruct s1; discriminate.
  - cbn [b_client].
    assert (G : forall k ys' refs', map snd refs' ++ somes ys' = map snd refs ++ somes ys ->
      (forall n, map snd refs' ++ somes (take n ys') = map snd refs ++ somes (take (S n) ys)) ->
      accd w (x, i) (trace k (b_client next o script ys' refs')) = true <->
      x = o /\ exists s1 j s2, Next :: script = s1 ++ Touch w j :: s2 /\ 0 < i /\
        (map snd refs ++ somes (take (nexts s1) ys)) !! j = Some (i - 1)).
    { intros k' ys' refs' _ Hg. rewrite IH. split; intros (E0 & s1 & j & s2 & E & E1 & E2); (split; [exact E0|]).
      - exists (Next :: s1), j, s2. rewrite E. cbn [nexts]. rewrite <- Hg. auto.
      - destruct s1 as [|a s1]; [discriminate|]. injection E as <- E. exists s1, j, s2. cbn [nexts] in E2. rewrite Hg. auto. }
    destruct ys as [|[y|] ys].
    + apply G; [reflexivity|]. intros n. rewrite !take_nil. reflexivity.
    + rewrite accd_bind, Hn. cbn [orb]. apply G; [|intros n]; rewrite map_app, <- app_assoc; reflexivity.
    + apply G; reflexivity.
  - cbn [b_client].
    assert (G : accd w (x, i) (trace k (b_client next o script ys refs)) = true <->
      x = o /\ exists s1 j s2, Touch w' j' :: script = s1 ++ Touch w j :: s2 /\ s1 <> [] /\ 0 < i /\
        (map snd refs ++ somes (take (nexts s1) ys)) !! j = Some (i - 1)).
    { rewrite IH. split; intros (E0 & s1 & j & s2 & E & E1); (split; [exact E0|]).
      - exists (Touch w' j' :: s1), j, s2. rewrite E. cbn [nexts]. auto.
      - destruct E1 as (E1 & E2). destruct s1 as [|a s1]; [contradiction|]. injection E as <- E. exists s1, j, s2. auto. }
    destruct (refs !! j') as [[y z]|] eqn:Er.
    + rewrite accd_bind, accd_touch, orb_true_iff.
      change (fst (fst (acc w' y (slots o z 1) k))) with k. rewrite G. clear G IH.
      rewrite andb_true_iff, slots_alt. unfold elements. cbn [fst snd]. split.
      * intros [[E1 (E2 & E3)]|(E0 & s1 & j & s2 & E & _ & E1)]; [|split; [exact E0|]; exists s1, j, s2; auto].
        split; [exact E2|]. exists [], j', script. apply eqb_prop in E1. subst w'. split; [reflexivity|]. split; [lia|].
        rewrite lookup_app_l by (rewrite map_length; apply lookup_lt_Some in Er; exact Er).
        rewrite list_lookup_fmap, Er. cbn. f_equal. lia.
      * intros (E0 & s1 & j & s2 & E & E1 & E2). destruct s1 as [|a s1]; [left|right].
        -- injection E as <- <- <-. rewrite eqb_reflx. split; [reflexivity|]. split; [exact E0|].
           rewrite lookup_app_l in E2 by (rewrite map_length; apply lookup_lt_Some in Er; exact Er).
           rewrite list_lookup_fmap, Er in E2. cbn in E2. injection E2 as E2. lia.
        -- split; [exact E0|]. exists (a :: s1), j, s2. auto.
    + rewrite G. split; intros (E0 & s1 & j & s2 & E & E1); (split; [exact E0|]); exists s1, j, s2.
      * destruct E1. auto.
      * split; [exact E|]. split; [|exact E1]. intros ->. injection E as <- <- <-. destruct E1 as [_ E1].
        rewrite take_0, app_nil_r, list_lookup_fmap, Er in E1. discriminate.
Qed.
Lemma ring_client_accesses N o k script ys w l :
  (exists p rg, In (Acc w p rg) (trace k (b_ring_client N o script ys)) /\ rg l = true) <->
  exists s1 j s2 i, script = s1 ++ Touch w j :: s2 /\ somes (take (nexts s1) ys) !! j = Some i /\ l = (o, 1 + i).
Proof.
  rewrite accesses_alt. fold (accd w l (trace k (b_ring_client N o script ys))). destruct l as [x i]. unfold b_ring_client.
  rewrite accd_bind. replace (accd w (x, i) (trace k (b_ring_iter_mut N o o))) with false by reflexivity. cbn [orb].
  rewrite client_accesses by reflexivity. cbn [map app]. split.
  - intros (-> & s1 & j & s2 & E & E1 & E2). exists s1, j, s2, (i - 1). split; [exact E|]. split; [exact E2|]. f_equal. lia.
  - intros (s1 & j & s2 & i' & E & E1 & E2). injection E2 as -> ->. split; [reflexivity|]. exists s1, j, s2.
    split; [exact E|]. split; [lia|]. rewrite E1. f_equal. lia.
Qed.
Lemma sp_client_accesses N o k script ys w l :
  (exists p rg, In (Acc w p rg) (trace k (b_sp_client N o script ys)) /\ rg l = true) <->
  exists s1 j s2 i, script = s1 ++ Touch w j :: s2 /\ somes (take (nexts s1) ys) !! j = Some i /\ l = (o, 1 + i).
Proof.
  rewrite accesses_alt. fold (accd w l (trace k (b_sp_client N o script ys))). destruct l as [x i]. unfold b_sp_client.
  rewrite accd_bind. replace (accd w (x, i) (trace k (b_sp_iter_mut N o o))) with false by reflexivity. cbn [orb].
  rewrite client_accesses by reflexivity. cbn [map app]. split.
  - intros (-> & s1 & j & s2 & E & E1 & E2). exists s1, j, s2, (i - 1). split; [exact E|]. split; [exact E2|]. f_equal. lia.
  - intros (s1 & j & s2 & i' & E & E1 & E2). injection E2 as -> ->. split; [reflexivity|]. exists s1, j, s2.
    split; [exact E|]. split; [lia|]. rewrite E1. f_equal. lia.
Qed.
Lemma split_client_accesses N o k us w l :
  (exists p rg, In (Acc w p rg) (trace k (b_split_client N o us)) /\ rg l = true) <->
  exists u, In u us /\ writes_ u = w /\ l = (o, 1 + use_slot u).
Proof.
  rewrite accesses_alt. fold (accd w l (trace k (b_split_client N o us))). unfold b_split_client.
  rewrite accd_bind. replace (accd w l (trace k (b_split_at N o o))) with false by reflexivity. cbn [orb].
  generalize (fst (snd (b_split_at N o o k))), (snd (snd (b_split_at N o o k))), (fst (fst (b_split_at N o o k))).
  induction us as [|u us IH]; intros h1 h2 k'; cbn [b_uses].
  - cbn. split; [discriminate|]. intros (u & [] & _).
  - rewrite accd_bind, orb_true_iff, IH.
    assert (E : accd w l (trace k' (b_use N o h1 h2 u)) = true <-> writes_ u = w /\ l = (o, 1 + use_slot u)).
    { destruct l as [x i]. unfold b_use. destruct (writes_ u), w; cbn -[slots]; rewrite ?orb_false_r, ?slots_alt; unfold elements; cbn [fst snd];
        split; try (intros [? ?]; discriminate); try discriminate; [intros [-> H]|intros [_ [= -> ->]]|intros [-> H]|intros [_ [= -> ->]]];
        (split; [reflexivity|]); try lia; f_equal; lia. }
    rewrite E. cbn [In]. split.
    + intros [H|(u' & H & H')]; [exists u|exists u']; auto.
    + intros (u' & [<-|H] & H'); [left; exact H'|right; exists u'; auto].
Qed.
