(** * Proofs about the aliasing traces of BorrowModel.v *)
From Verif Require Import Machine IterSpec BorrowModel.

(** ** Generalities *)
Lemma follow_app {S} (step : act -> S -> option S) t1 : forall t2 s,
  follow step (t1 ++ t2) s = match follow step t1 s with Some s' => follow step t2 s' | None => None end.
Proof. induction t1 as [|a t1 IH]; intros t2 s; [reflexivity|]. cbn. destruct (step a s); [apply IH|reflexivity]. Qed.
(** Code run at one place, from fresh tag [b] on. *)
Definition at_place {S X} (step : act -> S -> option S) (m : T X) (b : nat) (s : S) : option (S * nat * X) :=
  let '(b', tr, x) := m b in match follow step tr s with Some s' => Some (s', b', x) | None => None end.
Lemma at_bind {S X Y} (step : act -> S -> option S) (m : T X) (k : X -> T Y) b s :
  at_place step (tbind m k) b s =
  match at_place step m b s with Some (s', b', x) => at_place step (k x) b' s' | None => None end.
Proof.
  unfold at_place, tbind. destruct (m b) as [[b1 t1] x]. destruct (k x b1) as [[b2 t2] y] eqn:E.
  rewrite follow_app. destruct (follow step t1 s); [rewrite E|]; reflexivity.
Qed.
Lemma at_ret {S X} (step : act -> S -> option S) (x : X) b s : at_place step (tret x) b s = Some (s, b, x).
Proof. reflexivity. Qed.
Lemma at_reb {S} (step : act -> S -> option S) k p rg b s :
  at_place step (reb k p rg) b s = match step (Reb k p b rg) s with Some s' => Some (s', 1 + b, b) | None => None end.
Proof. unfold at_place, reb. cbn. destruct (step _ s); reflexivity. Qed.
Lemma at_acc {S} (step : act -> S -> option S) w p rg b s :
  at_place step (acc w p rg) b s = match step (Acc w p rg) s with Some s' => Some (s', b, tt) | None => None end.
Proof. unfold at_place, acc. cbn. destruct (step _ s); reflexivity. Qed.
Lemma at_trace {S X} (step : act -> S -> option S) (m : T X) k s :
  follow step (trace k m) s <> None <-> at_place step m k s <> None.
Proof. unfold trace, at_place. destruct (m k) as [[b tr] x]. cbn. destruct (follow step tr s); split; congruence. Qed.

(** ** Stacked Borrows *)
Definition own (o : nat) (st : stack) : Prop := exists ab, st = ab ++ [(PUniq, o)] /\ Forall (fun x => snd x <> o) ab.
Lemma grant_own ok o ab : ok PUniq = true -> Forall (fun x => snd x <> o) ab ->
  grant ok o (ab ++ [(PUniq, o)]) = Some (ab, PUniq, []).
Proof.
  intros Hok. induction 1 as [|[p u] ab Hu _ IH]; cbn.
  - rewrite Nat.eqb_refl, Hok. reflexivity.
  - cbn in Hu. replace (u =? o) with false by lia. cbn. rewrite IH. reflexivity.
Qed.
Lemma disable_tags o ab : Forall (fun x : perm * nat => snd x <> o) ab -> Forall (fun x => snd x <> o) (map disable ab).
Proof. induction 1 as [|[[] u] ab Hu _ IH]; constructor; assumption. Qed.
Lemma own_read o st : own o st -> exists st', sb_read o st = Some st' /\ own o st'.
Proof.
  intros (ab & -> & H). unfold sb_read. rewrite grant_own by auto. eexists. split; [reflexivity|].
  eexists. split; [reflexivity|apply disable_tags, H].
Qed.
Lemma own_write o st : own o st -> sb_write o st = Some [(PUniq, o)].
Proof. intros (ab & -> & H). unfold sb_write. rewrite grant_own by auto. reflexivity. Qed.
Lemma own_top o x st : own o st -> snd x <> o -> own o (x :: st).
Proof. intros (ab & -> & H) Hx. exists (x :: ab). split; [reflexivity|]. constructor; assumption. Qed.
Lemma own_bottom o : own o [(PUniq, o)].
Proof. exists []. split; [reflexivity|constructor]. Qed.

(** Stepping through a trace at the place [(ob, x)]. *)
Definition region_of (a : act) : region := match a with Reb _ _ _ rg => rg | Acc _ _ rg => rg end.
Lemma sb_skip l a tr s : region_of a l = false -> follow (sb_step l) (a :: tr) s = follow (sb_step l) tr s.
Proof. intros H. destruct a; cbn in *; rewrite H; reflexivity. Qed.
Definition sb_act (a : act) (st : stack) : option stack := sb_step (0, 0) (match a with
  | Reb k p q _ => Reb k p q (fun _ => true) | Acc w p _ => Acc w p (fun _ => true) end) st.
Lemma sb_do l a tr s s' : region_of a l = true -> sb_act a s = Some s' ->
  follow (sb_step l) (a :: tr) s = follow (sb_step l) tr s'.
Proof. intros H E. destruct a; cbn in *; rewrite H, E; reflexivity. Qed.
Lemma sb_fail l a tr s : region_of a l = true -> sb_act a s = None -> follow (sb_step l) (a :: tr) s = None.
Proof. intros H E. destruct a; cbn in *; rewrite H, E; reflexivity. Qed.
Ltac inreg := cbn [region_of]; unfold whole, slots, fields; cbn [fst snd]; lia.
Ltac eqbs :=
  repeat match goal with
  | |- context [?x =? ?y] => first [replace (x =? y) with true by lia | replace (x =? y) with false by lia]
  end.
Ltac tags := first [assumption | apply disable_tags; tags].
Ltac sbgo := unfold sb_act; cbn [sb_step];
  unfold sb_read, sb_write, sb_raw;
  cbn [grant andb writable readable]; eqbs; cbn [andb]; rewrite ?grant_own by (first [reflexivity | tags]);
  cbn [map disable block raw_block forallb is_raw app fst snd length take Nat.sub andb]; reflexivity.
Ltac sb1 :=
  match goal with |- context [follow (sb_step ?l) (?a :: ?tr) ?s] =>
    tryif (let H := fresh in assert (H : region_of a l = false) by inreg; rewrite (sb_skip l a tr s H); clear H) then idtac
    else tryif (let H := fresh in assert (H : region_of a l = true) by inreg; clear H)
      then (erewrite (sb_do l a tr s) by (first [inreg | sbgo]))
      else (let E := fresh "E" in destruct (region_of a l) eqn:E; cbn [region_of] in E; unfold whole, slots, fields in E; cbn [fst snd] in E)
  end.
Ltac sb := repeat sb1; cbn [follow].
(** A call that is accepted at every place and leaves its objects owned. *)
Definition sb_good {X} (os : list nat) (m : T X) : Prop := forall ob x b st,
  (forall o, In o os -> o < b) -> (In ob os -> own ob st) -> exists st' b' v,
  at_place (sb_step (ob, x)) m b st = Some (st', b', v) /\ b <= b' /\ (In ob os -> own ob st') /\ (~ In ob os -> st' = st).
Ltac owned := repeat (apply own_top; [|cbn [snd]; lia]);
  first [apply own_bottom | assumption | eexists; split; [reflexivity|tags]].
Ltac finish := eexists _, _, _; split; [reflexivity|]; split; [lia|].
Ltac code := unfold at_place; cbv [tbind tret reb acc b_fields b_set_fields b_ptr b_mut_ptr b_force_read b_force_write b_force_copy b_force_copy_to
  b_slice_read b_slice_write b_ring_read b_ring_write b_ring_copy_to b_ring_get b_ring_get_mut b_ia_len b_ia_set_len b_ia_data b_ia_data_mut
  b_ia_push b_ia_pop b_copy b_ia_insert b_ia_remove b_ia_split_off b_ia_slice_read b_ia_slice_write b_ia_clear b_chunk_from_inline b_values b_values_mut
  b_sp_read b_sp_write app].
(** One object; two different objects. *)
Ltac one o := let ob := fresh "ob" in let x := fresh "x" in let Hb := fresh "Hb" in let Ho := fresh "Ho" in
  intros ob x b st Hb Ho; assert (o < b) by (apply Hb; left; reflexivity); clear Hb;
  destruct (Nat.eq_dec ob o) as [->|Hne];
  [destruct (Ho (or_introl eq_refl)) as (ab & -> & Hab); clear Ho; code; sb; finish; (split; [intros _; owned|intros HH; exfalso; apply HH; cbn; auto])
  |code; sb; finish; (split; [intros [->|[]]; contradiction|reflexivity])].
Ltac two o o' := let ob := fresh "ob" in let x := fresh "x" in let Hb := fresh "Hb" in let Ho := fresh "Ho" in
  intros ob x b st Hb Ho; assert (o < b) by (apply Hb; left; reflexivity);
  assert (o' < b) by (apply Hb; right; left; reflexivity); clear Hb;
  destruct (Nat.eq_dec ob o) as [->|Hne];
  [destruct (Ho (or_introl eq_refl)) as (ab & -> & Hab); clear Ho; code; sb; finish; (split; [intros _; owned|intros HH; exfalso; apply HH; cbn; auto])
  |destruct (Nat.eq_dec ob o') as [->|Hne'];
   [destruct (Ho (or_intror (or_introl eq_refl))) as (ab & -> & Hab); clear Ho; code; sb; finish; (split; [intros _; owned|intros HH; exfalso; apply HH; cbn; auto])
   |code; sb; finish; (split; [intros [->|[->|[]]]; contradiction|reflexivity])]].
Section sb.
Context (N : nat).
Lemma b_fields_ok o : sb_good [o] (b_fields N o o).
Proof. one o. Qed.
Lemma b_set_fields_ok o : sb_good [o] (b_set_fields o o).
Proof. one o. Qed.
Lemma b_force_read_ok o i : i < N -> sb_good [o] (b_force_read N o o i).
Proof. intros Hi. one o. Qed.
Lemma b_force_write_ok o i : i < N -> sb_good [o] (b_force_write N o o i).
Proof. intros Hi. one o. Qed.
Lemma b_force_copy_0 o from to : sb_good [o] (b_force_copy N o o from to 0).
Proof. unfold b_force_copy. cbn [Nat.ltb Nat.leb]. one o. Qed.
Lemma b_force_copy_to_ok o o' from to n : o <> o' -> from + n <= N -> to + n <= N ->
  sb_good [o; o'] (b_force_copy_to N o o o' o' from to n).
Proof. intros Ho Hf Ht. unfold b_force_copy_to. destruct (0 <? n) eqn:En; two o o'. Qed.
Lemma b_slice_read_ok o a n : a + n <= N -> sb_good [o] (b_slice_read N o o a n).
Proof. intros Hn. one o. Qed.
Lemma b_slice_write_ok o a n : a + n <= N -> sb_good [o] (b_slice_write N o o a n).
Proof. intros Hn. one o. Qed.
Lemma b_ring_read_ok o i : i < N -> sb_good [o] (b_ring_read N o o i).
Proof. intros Hi. one o. Qed.
Lemma b_ring_write_ok o i : i < N -> sb_good [o] (b_ring_write N o o i).
Proof. intros Hi. one o. Qed.
Lemma b_ring_copy_to_ok o o' from to n : o <> o' -> from + n <= N -> to + n <= N ->
  sb_good [o; o'] (b_ring_copy_to N o o o' o' from to n).
Proof. intros Ho Hf Ht. unfold b_ring_copy_to. destruct (0 <? n) eqn:En; two o o'. Qed.
Lemma b_ring_get_ok o i : i < N -> sb_good [o] (do! x := b_ring_get N o o i in acc false x (slots o i 1)).
Proof. intros Hi. one o. Qed.
Lemma b_ring_get_mut_ok o i : i < N -> sb_good [o] (do! x := b_ring_get_mut N o o i in acc true x (slots o i 1)).
Proof. intros Hi. one o. Qed.
Lemma b_ia_len_ok o : sb_good [o] (b_ia_len N o o).
Proof. one o. Qed.
Lemma b_ia_set_len_ok o : sb_good [o] (b_ia_set_len N o o).
Proof. one o. Qed.
Lemma b_ia_push_ok o len : len < N -> sb_good [o] (b_ia_push N o o len).
Proof. intros Hl. one o. Qed.
Lemma b_ia_pop_ok o len : 0 < len <= N -> sb_good [o] (b_ia_pop N o o len).
Proof. intros Hl. one o. Qed.
Lemma b_ia_insert_ok o len i : i <= len -> len < N -> sb_good [o] (b_ia_insert N o o len i).
Proof.
  intros Hi Hl. unfold b_ia_insert, b_copy. destruct (0 <? len - i) eqn:En; one o.
Qed.
Lemma b_ia_remove_last o len i : i + 1 = len -> len <= N -> sb_good [o] (b_ia_remove N o o len i).
Proof.
  intros Hi Hl. unfold b_ia_remove, b_copy. replace (0 <? len - 1 - i) with false by lia. one o.
Qed.
Lemma b_ia_split_off_ok o o' len i : o <> o' -> i <= len <= N -> sb_good [o; o'] (b_ia_split_off N o o o' o' len i).
Proof.
  intros Ho Hl. unfold b_ia_split_off, b_copy. destruct (0 <? len - i) eqn:En; two o o'.
Qed.
Lemma b_ia_slice_read_ok o len : len <= N -> sb_good [o] (b_ia_slice_read N o o len).
Proof. intros Hl. one o. Qed.
Lemma b_ia_slice_write_ok o len : len <= N -> sb_good [o] (b_ia_slice_write N o o len).
Proof. intros Hl. one o. Qed.
Lemma b_ia_clear_ok o len : len <= N -> sb_good [o] (b_ia_clear N o o len).
Proof. intros Hl. one o. Qed.
Lemma b_chunk_from_inline_ok o o' len : o <> o' -> len <= N -> sb_good [o; o'] (b_chunk_from_inline N o o o' o' len).
Proof.
  intros Ho Hl. unfold b_chunk_from_inline, b_copy. destruct (0 <? len) eqn:En; two o o'.
Qed.
Lemma b_sp_read_ok o i : i < N -> sb_good [o] (b_sp_read N o o i).
Proof. intros Hi. one o. Qed.
Lemma b_sp_write_ok o i : i < N -> sb_good [o] (b_sp_write N o o i).
Proof. intros Hi. one o. Qed.
End sb.
(** The two calls that are rejected: at the first slot read. *)
Section bad.
Context (N : nat).
Lemma b_force_copy_bad o from to n b st : 0 < n -> from + n <= N -> o < b -> own o st ->
  at_place (sb_step (o, S from)) (b_force_copy N o o from to n) b st = None.
Proof.
  intros Hn Hf Ho (ab & -> & Hab). unfold b_force_copy. replace (0 <? n) with true by lia. code. do 6 sb1.
  rewrite sb_fail by (first [inreg | sbgo]). reflexivity.
Qed.
Lemma b_ia_remove_bad o len i b st : i + 1 < len -> len <= N -> o < b -> own o st ->
  at_place (sb_step (o, S (i + 1))) (b_ia_remove N o o len i) b st = None.
Proof.
  intros Hi Hl Ho (ab & -> & Hab). unfold b_ia_remove, b_copy. replace (0 <? len - 1 - i) with true by lia. code. do 15 sb1.
  rewrite sb_fail by (first [inreg | sbgo]). reflexivity.
Qed.
End bad.
