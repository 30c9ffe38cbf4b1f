(** * [InlineArray] does what the list specification says. *)
From Verif Require Import Machine Spec Prims ChunkModel InlineModel InlineSpec InlineProofs.

(** The array [c] holds exactly the list [l]: the header contains its length, the slots [0 .. length l) its
    elements, and nothing else is alive. *)
Definition IHolds {A} (e : env A) (L : layout) (c : inline A) (l : list A) : Prop :=
  length l <= capacity e L /\ IRep e L c (length l) (fun i => l !! i) (length l).
Definition IMade {A} (e : env A) (L : layout) (cu : inline A * unit) (l : list A) : Prop := IHolds e L (fst cu) l.

Ltac mem_unfold := unfold upd, mmove, mrecv, mclear, mem0, mput.
Ltac find_elem :=
  match goal with
  | H : ?l !! ?i = Some ?a |- ?l !! ?j = Some _ => replace j with i by lia; exact H
  | H : ?l !! ?i = Some ?a |- Some _ = ?l !! ?j => replace j with i by lia; symmetry; exact H
  end.
Ltac imem := intros; mem_unfold; cbn beta; pw; try find_elem; try lia.
Ltac log_eq := cbn [dropped leaked log_drop log_leak log_write];
  solve [reflexivity | rewrite ?app_nil_r, <- ?app_assoc; reflexivity | congruence].
Ltac side := first [eassumption | lookups; lia | imem].

Section proofs.
Context {A : Type} (e : env A) (L : layout).
Hypothesis WF : wf_layout e L.
Hypothesis HOST : host_ok e L.
Hypothesis Hcalm : calm e.
Notation cap := (capacity e L).
Notation s := (size_a L).
Notation slot i := (At (doff L + i * s)).
Notation pdata := (if cap =? 0 then Dangling else At (doff L)).
Implicit Types (c : inline A) (f : mem A) (g : log A) (v : A) (l : list A) (b i n k : nat).
Notation agr := (agrees (IHolds e L) eq).

Lemma IHolds_intro c n f k l : IRep e L c n f k -> n = length l -> (forall j, j < cap -> f j = l !! j) ->
  k = length l -> length l <= cap -> IHolds e L c l.
Proof. intros H -> Hf -> Hl. split; [assumption|]. eapply IRep_ext; eassumption. Qed.
Lemma iholds_length c l : IHolds e L c l -> length l <= cap.
Proof. intros [H _]. exact H. Qed.
Lemma iholds_inj c l1 l2 : IHolds e L c l1 -> IHolds e L c l2 -> l1 = l2.
Proof.
  intros [H1 (Ha & Hb & _ & Hc)] [H2 (Ha' & Hb' & _)].
  pose proof (wf_us_pos _ _ WF) as Hpos.
  assert (E : length l1 = length l2).
  { specialize (Ha 0 Hpos). rewrite Ha' in Ha by assumption. congruence. }
  destruct (Nat.eq_dec s 0) as [E0|E0]; [apply (zst_lists e L WF); assumption|].
  apply list_eq. intros i. destruct (Nat.lt_ge_cases i cap) as [Hi|Hi].
  - specialize (Hb i 0 Hi ltac:(lia)). rewrite Hb' in Hb by lia.
    destruct (l1 !! i), (l2 !! i); cbn in *; congruence.
  - rewrite !lookup_none by lia. reflexivity.
Qed.
End proofs.

Ltac iholds := eapply IHolds_intro; [eassumption | lookups; try lia | imem | lookups; try lia | lookups; try lia].
(** One access, in the object, the first or the second of two objects. *)
Ltac by_len WF HOST :=
  first [ eapply (len_ok _ _ WF HOST); eassumption
        | eapply on_fst_Ret; eapply (len_ok _ _ WF HOST); eassumption
        | eapply on_snd_Ret; eapply (len_ok _ _ WF HOST); eassumption ].
Ltac by_data WF HOST :=
  first [ eapply (data_ok _ _ WF HOST); eassumption
        | eapply on_fst_Ret; eapply (data_ok _ _ WF HOST); eassumption
        | eapply on_snd_Ret; eapply (data_ok _ _ WF HOST); eassumption ].
Ltac by_ptr WF HOST :=
  first [ eapply (ptr_at_ok _ _ WF HOST); [eassumption|lia]
        | eapply on_fst_Ret; eapply (ptr_at_ok _ _ WF HOST); [eassumption|lia]
        | eapply on_snd_Ret; eapply (ptr_at_ok _ _ WF HOST); [eassumption|lia] ].
Ltac finish_step E :=
  first [ erewrite bind_Ret by exact E | erewrite bind_Ret by (apply on_fst_Ret; exact E)
        | erewrite bind_Ret by (apply on_snd_Ret; exact E)
        | rewrite E | erewrite on_fst_Ret by exact E | erewrite on_snd_Ret by exact E ]; clear E; cbn beta.
(** [m] is the access (without [on_fst]), [c] the object. *)
Ltac access WF HOST m c g :=
  let c' := fresh "c" in let g' := fresh "g" in let E := fresh "E" in let H' := fresh "H" in
  let E1 := fresh "Ed" in let E2 := fresh "El" in
  lazymatch m with
  | ia_set_len _ _ ?b ?n =>
      edestruct (set_len_ok _ _ WF HOST b n c) as (c' & E & H'); [eassumption|eassumption|]; finish_step E
  | elem_read _ ?b (At (_ + ?i * _)) =>
      edestruct (fun a => elem_read_ok _ _ WF HOST b i a c) as (c' & E & H'); [side|side|lia|first [eassumption|cbn beta; find_elem|imem]|lookups; lia|]; finish_step E
  | elem_write _ ?b (At (_ + ?i * _)) ?a =>
      edestruct (elem_write_ok _ _ WF HOST b i a c) as (c' & E & H'); [side|side|lia|imem|]; finish_step E
  | elems_move _ ?b (At (_ + ?i * _)) (At (_ + ?j * _)) ?d =>
      edestruct (elems_move_ok _ _ WF HOST b i j d c) as (c' & E & H'); [side|side|lia|lia|lia|imem|]; finish_step E
  end.
Ltac istep WF HOST :=
  match goal with
  | |- context [@bind ?A ?O ?R ?T ?m ?k ?o ?g] =>
      lazymatch m with
      | bind _ _ => rewrite (bind_bind (A:=A) (O:=O))
      | panic => rewrite (bind_panic (A:=A) (O:=O))
      | ret ?r => rewrite (bind_ret (A:=A) (O:=O) r)
      | on_fst (bind _ _) => rewrite on_fst_bind'
      | on_snd (bind _ _) => rewrite on_snd_bind'
      | (if ?b then ?x else ?y) => head_if b x y
      | usub _ _ _ => erewrite bind_Ret by (apply usub_ok; lia); cbn beta
      | uadd _ _ _ => erewrite bind_Ret by (apply uadd_ok; lia); cbn beta
      | ia_len _ _ _ => erewrite bind_Ret by by_len WF HOST; cbn beta
      | on_fst (ia_len _ _ _) => erewrite bind_Ret by by_len WF HOST; cbn beta
      | on_snd (ia_len _ _ _) => erewrite bind_Ret by by_len WF HOST; cbn beta
      | ia_data _ _ _ => erewrite bind_Ret by by_data WF HOST; cbn beta
      | on_fst (ia_data _ _ _) => erewrite bind_Ret by by_data WF HOST; cbn beta
      | on_snd (ia_data _ _ _) => erewrite bind_Ret by by_data WF HOST; cbn beta
      | ia_ptr_at _ _ _ _ => erewrite bind_Ret by by_ptr WF HOST; cbn beta
      | on_fst (ia_ptr_at _ _ _ _) => erewrite bind_Ret by by_ptr WF HOST; cbn beta
      | on_snd (ia_ptr_at _ _ _ _) => erewrite bind_Ret by by_ptr WF HOST; cbn beta
      | ptr_add _ (At (_ + _ * _)) _ _ => erewrite bind_Ret by (apply (ptr_add_ok _ _ HOST); lia); cbn beta
      | ia_write_at _ _ _ _ _ => unfold ia_write_at
      | on_fst (ia_write_at _ _ _ _ _) => unfold ia_write_at
      | ia_read_at _ _ _ _ => unfold ia_read_at
      | ia_is_full _ _ _ => unfold ia_is_full
      | ia_is_empty _ _ _ => unfold ia_is_empty
      | on_fst ?m' => access WF HOST m' constr:(fst o) g
      | on_snd ?m' => access WF HOST m' constr:(snd o) g
      | _ => access WF HOST m o g
      end
  | |- agrees _ _ _ ((if ?b then ?x else ?y) _ _) _ => head_if b x y
  | |- agrees _ _ _ (panic_dropping _ _ _ _) _ => apply agrees_panic_dropping; [assumption|]
  | |- agrees _ _ _ (panic ?o ?g) _ => change (panic o g) with (Panic o g)
  | |- agrees _ _ _ (ret ?r ?o ?g) _ => change (ret r o g) with (Ret o g r)
  | |- agrees _ _ _ (ia_set_len ?e ?L ?b ?n ?o ?g) _ => access WF HOST constr:(ia_set_len e L b n) o g
  end.
Ltac iexec WF HOST := repeat istep WF HOST.
Ltac iret := lazymatch goal with |- agrees _ _ _ _ (SRet _ _ _) => idtac end;
  eexists _, _, _; split; [reflexivity|]; split; [try iholds|];
  split; [try reflexivity; try iholds | split; [try log_eq | try log_eq]].
Ltac ipanic := lazymatch goal with |- agrees _ _ _ _ (SPanic _ _ _) => idtac end;
  eexists _, _, []; split; [reflexivity|]; split; [try iholds|];
  split; [try log_eq | split; [try log_eq | try reflexivity]].
Ltac irun WF HOST := iexec WF HOST; repeat split_if; try lia; first [iret | ipanic].

Section ops.
Context {A : Type} (e : env A) (L : layout).
Hypothesis WF : wf_layout e L.
Hypothesis HOST : host_ok e L.
Hypothesis Hcalm : calm e.
Notation cap := (capacity e L).
Notation s := (size_a L).
Notation slot i := (At (doff L + i * s)).
Notation pdata := (if cap =? 0 then Dangling else At (doff L)).
Implicit Types (c : inline A) (f : mem A) (g : log A) (v : A) (l : list A) (b i n k : nat).
Notation agr := (agrees (IHolds e L) eq).
Lemma push_ok b c l g v : placed L b -> IHolds e L c l -> agr g (ia_push e L b v c g) (bl_push_back cap v l).
Proof.
  intros Hb [Hl H]. pose proof (cap_word e L WF). unfold ia_push, bl_push_back. irun WF HOST.
Qed.
Lemma ia_len_ok b c l g : placed L b -> IHolds e L c l -> agr g (ia_len e L b c g) (bl_len l).
Proof.
  intros Hb [Hl H]. unfold bl_len. rewrite (len_ok e L WF HOST b c (length l) _ (length l)) by eassumption. iret.
Qed.
Lemma is_empty_ok b c l g : placed L b -> IHolds e L c l -> agr g (ia_is_empty e L b c g) (SRet l (length l =? 0) []).
Proof. intros Hb [Hl H]. unfold ia_is_empty. irun WF HOST. Qed.
Lemma is_full_ok b c l g : placed L b -> IHolds e L c l -> agr g (ia_is_full e L b c g) (SRet l (length l =? cap) []).
Proof. intros Hb [Hl H]. unfold ia_is_full. irun WF HOST. lia. Qed.

Lemma pop_ok b c l g : placed L b -> IHolds e L c l -> agr g (ia_pop e L b c g) (bl_try_pop_back l).
Proof.
  intros Hb [Hl H]. pose proof (cap_word e L WF). unfold ia_pop, bl_try_pop_back.
  destruct (l !! (length l - 1)) as [a|] eqn:Ea.
  - pose proof (lookup_lt_Some _ _ _ Ea). irun WF HOST.
  - apply lookup_ge_None in Ea. irun WF HOST.
Qed.
Lemma insert_ok b c l g i v : placed L b -> IHolds e L c l -> agr g (ia_insert e L b i v c g) (bl_insert cap i v l).
Proof.
  intros Hb [Hl H]. pose proof (cap_word e L WF). unfold ia_insert, bl_insert. irun WF HOST.
Qed.
Lemma remove_ok b c l g i : placed L b -> IHolds e L c l -> agr g (ia_remove e L b i c g) (bl_try_remove i l).
Proof.
  intros Hb [Hl H]. pose proof (cap_word e L WF). unfold ia_remove, bl_try_remove.
  destruct (l !! i) as [a|] eqn:Ea.
  - pose proof (lookup_lt_Some _ _ _ Ea). irun WF HOST.
  - apply lookup_ge_None in Ea. irun WF HOST.
Qed.
Lemma deref_ok b c l g : placed L b -> IHolds e L c l -> ia_deref e L b c g = Ret c g l.
Proof.
  intros Hb [Hl H]. unfold ia_deref. iexec WF HOST.
  eapply (data_peek_ok _ _ WF HOST); [eassumption|exact H|assumption|reflexivity|lia].
Qed.
Lemma slice_ok b c l g : placed L b -> IHolds e L c l -> agr g (ia_deref e L b c g) (bl_slice l).
Proof.
  intros Hb H. rewrite (deref_ok b c l g Hb H). eexists _, _, _. split; [reflexivity|]. split; [exact H|].
  split; [reflexivity|]. split; [cbn [dropped leaked]; rewrite ?app_nil_r; reflexivity|reflexivity].
Qed.
(** After [drop_in_place] nothing is alive, but the header is as before. *)
Lemma drop_contents_any b c l g : placed L b -> IHolds e L c l ->
  exists c', ia_drop_contents e L b c g = drop_values e l c' g /\ IRep e L c' (length l) mem0 0.
Proof.
  intros Hb [Hl H].
  edestruct (data_take_ok _ _ WF HOST b l c) as (c' & E & H'); [assumption|exact H|assumption|reflexivity|lia|].
  exists c'. split.
  - unfold ia_drop_contents. iexec WF HOST. unfold elems_drop. erewrite bind_Ret by exact E. reflexivity.
  - eapply IRep_count; [|eapply IRep_ext; [|exact H']]; [lia|]. imem.
Qed.
Lemma drop_contents_ok b c l g : placed L b -> IHolds e L c l ->
  exists c', ia_drop_contents e L b c g = Ret c' (log_drop l g) tt /\ IRep e L c' (length l) mem0 0.
Proof.
  intros Hb H. destruct (drop_contents_any b c l g Hb H) as (c' & E & H'). exists c'.
  rewrite E, drop_values_calm by assumption. auto.
Qed.
Lemma destroy_ok b c l g : placed L b -> IHolds e L c l ->
  exists c', ia_destroy e L b c g = Ret c' (log_drop l g) tt.
Proof.
  intros Hb H. destruct (drop_contents_ok b c l g Hb H) as (c' & E & H').
  unfold ia_destroy, inline_release. rewrite E.
  rewrite (leftover_none _ _ _ _ _ _ H') by reflexivity. rewrite log_leak_nil. eauto.
Qed.
Lemma clear_ok b c l g : placed L b -> IHolds e L c l -> agr g (ia_clear e L b c g) (bl_clear l).
Proof.
  intros Hb H. destruct (drop_contents_ok b c l g Hb H) as (c' & E & H'). destruct H as [Hl H].
  unfold ia_clear, bl_clear. erewrite bind_Ret by exact E. iexec WF HOST. iret.
Qed.
Lemma extend_ok b it : placed L b -> forall c l g, IHolds e L c l -> agr g (ia_extend e L b it c g) (bl_extend cap it l).
Proof.
  intros Hb. induction it as [|[a|] it IH]; intros c l g H; cbn [ia_extend bl_extend].
  - destruct H as [Hl H]. iexec WF HOST. iret.
  - pose proof (push_ok b c l g a Hb H) as Hp. unfold bl_push_back in Hp. destruct (length l <? cap) eqn:El; cbn in Hp.
    + destruct Hp as (c1 & g1 & [] & E & H1 & _ & E1 & E2). erewrite bind_Ret by exact E.
      apply agrees_same with g1; [rewrite E1; apply app_nil_r|assumption|]. apply IH. assumption.
    + destruct Hp as (c1 & g1 & k' & E & H1 & E1 & E2 & E3). erewrite bind_Panic by exact E.
      exists c1, g1, k'. repeat (split; [solve [reflexivity|assumption]|]). assumption.
  - destruct H as [Hl H]. iexec WF HOST. ipanic.
Qed.
Lemma assign_ok b c l g i v : placed L b -> IHolds e L c l -> agr g (ia_assign e L b i v c g) (bl_assign i v l).
Proof.
  intros Hb [Hl H]. unfold ia_assign, bl_assign. iexec WF HOST.
  erewrite bind_Ret by (eapply (data_peek_ok _ _ WF HOST); [eassumption|exact H|assumption|reflexivity|lia]).
  destruct (l !! i) as [a|] eqn:Ea.
  - pose proof (lookup_lt_Some _ _ _ Ea). iexec WF HOST.
    erewrite bind_Ret by (apply (ptr_add_data_ok _ _ HOST); lia). iexec WF HOST.
    rewrite drop_values_calm by assumption. iret.
  - apply lookup_ge_None in Ea. iexec WF HOST. ipanic.
Qed.
Lemma index_ok b c l g i : placed L b -> IHolds e L c l -> agr g (ia_index e L b i c g) (bl_index i l).
Proof.
  intros Hb H. unfold ia_index, bl_index. erewrite bind_Ret by (eapply deref_ok; eassumption). destruct H as [Hl H].
  destruct (l !! i) as [a|] eqn:Ea; iexec WF HOST; [iret|ipanic].
Qed.
Lemma update_slice_ok b h c l g : placed L b -> IHolds e L c l -> length (h l) = length l ->
  agr g (ia_update_slice e L b h c g) (SRet (h l) tt []).
Proof.
  intros Hb [Hl H] Hh. unfold ia_update_slice. iexec WF HOST.
  edestruct (data_take_ok _ _ WF HOST b l c) as (c1 & E & H1); [assumption|exact H|assumption|reflexivity|lia|].
  erewrite bind_Ret by exact E.
  edestruct (data_put_ok _ _ WF HOST b (h l) c1) as (c2 & g2 & E2 & H2 & E3 & E4); [assumption|exact H1|lia|imem|].
  rewrite E2. iret. rewrite app_nil_r. assumption.
Qed.
Lemma eq_ok b eqA o c l g : placed L b -> IHolds e L c l -> agr g (ia_eq e L b eqA o c g) (SRet l (slice_eq eqA l o) []).
Proof.
  intros Hb H. unfold ia_eq. erewrite bind_Ret by (eapply deref_ok; eassumption). destruct H as [Hl H]. iexec WF HOST. iret.
Qed.
Lemma hash_ok b c l g : placed L b -> IHolds e L c l -> agr g (ia_hash e L b c g) (SRet l (map HItem l) []).
Proof.
  intros Hb H. unfold ia_hash. erewrite bind_Ret by (eapply deref_ok; eassumption). destruct H as [Hl H]. iexec WF HOST. iret.
Qed.
Lemma next_ok b c l g : placed L b -> IHolds e L c l -> agr g (ia_next e L b c g) (bl_try_pop_front l).
Proof.
  intros Hb H. pose proof (remove_ok b c l g 0 Hb H) as Hr. unfold ia_next, bl_try_pop_front.
  destruct l as [|a l]; exact Hr.
Qed.
Lemma size_hint_ok b c l g : placed L b -> IHolds e L c l ->
  agr g (ia_size_hint e L b c g) (SRet l (length l, Some (length l)) []).
Proof. intros Hb [Hl H]. unfold ia_size_hint. irun WF HOST. Qed.

(** ** Construction. *)
Lemma size_self_ok : (size_self L =? size_t L) || (align_t L <? align_self L) = true.
Proof.
  destruct (align_t L <? align_self L) eqn:E; [apply orb_true_r|]. rewrite orb_false_r.
  assert (Ea : align_self L = align_t L).
  { assert (align_t L <= align_self L) by (unfold align_self; lia). lia. }
  unfold size_self. rewrite Ea. pose proof (pow2_pos _ (wf_t _ _ WF)) as Hp.
  destruct (wf_size_t _ _ WF) as [q Hq]. rewrite Hq.
  replace (q * align_t L + align_t L - 1) with ((align_t L - 1) + q * align_t L) by lia.
  rewrite Nat.div_add by lia. rewrite Nat.div_small by lia. cbn [plus]. apply Nat.eqb_refl.
Qed.
Lemma new_ok b (u : unit) g : placed L b -> exists c, ia_new e L b u g = Ret u g c /\ IHolds e L c [].
Proof.
  intros Hb. pose proof (host_size e L HOST) as Hs. pose proof (element_aligned e L WF b 0 HOST) as Hal.
  rewrite Nat.mul_0_l, Nat.add_0_r in Hal.
  eexists. split.
  - unfold ia_new. erewrite bind_Ret by (apply assert_ok; lia).
    erewrite bind_Ret.
    2:{ apply assert_ok. destruct (cap =? 0) eqn:E; [reflexivity|]. cbn [orb].
        rewrite (divide_mod _ _ (pos_a e L WF)); [reflexivity|]. apply (data_align e L WF HOST). lia. }
    erewrite bind_Ret; [reflexivity|]. apply with_local_Ret.
    erewrite bind_Ret.
    2:{ apply assert_ok. rewrite (divide_mod _ _ (pos_us e L WF)); [reflexivity|].
        etransitivity; [apply (self_us e L WF)|exact Hb]. }
    erewrite bind_Ret by (apply assert_ok; apply size_self_ok).
    assert (Ha : aligned_at b (align_a L) pdata = true).
    { destruct (cap =? 0) eqn:E; [reflexivity|]. cbn. rewrite Hal; [reflexivity|lia|assumption]. }
    erewrite bind_Ret by (eapply on_fst_Ret; eapply (data_ok _ _ WF HOST); eassumption).
    erewrite bind_Ret by (apply assert_ok; exact Ha).
    erewrite bind_Ret by (eapply on_fst_Ret; eapply (data_ok _ _ WF HOST); eassumption).
    erewrite bind_Ret by (apply assert_ok; exact Ha).
    erewrite bind_Ret.
    2:{ apply assert_ok. unfold header_skip, element_skip. destruct (header_first L); [|reflexivity].
        rewrite Nat.mul_0_r. reflexivity. }
    eapply on_fst_Ret. unfold ia_set_len.
    erewrite bind_Ret by (eapply (len_ptr_ok _ _ WF HOST); eassumption).
    apply (usize_write_fresh _ _ WF HOST); [assumption|]. reflexivity.
  - split; [cbn; lia|]. split; [|split; [|split]]; cbn [fst bytes zst inline_uninit].
    + intros i Hi. rewrite if_true by lia. cbn [length]. do 2 f_equal. lia.
    + intros j m Hj Hm. pose proof (not_header e L j m Hj Hm). rewrite if_false by lia. reflexivity.
    + intros p Hp Hq. rewrite if_false by lia. reflexivity.
    + destruct (s =? 0); reflexivity.
Qed.

(** A partially filled array whose header still says 0: its destruction leaks the values. *)
Lemma destroy_unset b c vs g : placed L b -> length vs <= cap -> IRep e L c 0 (fun i => vs !! i) (length vs) ->
  exists c', ia_destroy e L b c g = Ret c' (log_leak vs g) tt.
Proof.
  intros Hb Hl H. unfold ia_destroy, ia_drop_contents.
  edestruct (data_take_ok _ _ WF HOST b [] c) as (c1 & E & H1); [assumption|exact H|cbn;lia|cbn; lia|cbn; lia|].
  assert (Ed : (let! d := ia_data e L b in let! n := ia_len e L b in elems_drop e L b d n) c g = Ret c1 g tt).
  { iexec WF HOST. unfold elems_drop. erewrite bind_Ret by exact E. unfold drop_values. cbn.
    rewrite log_drop_nil. reflexivity. }
  rewrite Ed. unfold inline_release. erewrite (leftover_live _ _ WF HOST c1); [eauto|exact H1| |cbn; lia|assumption].
  intros j Hj. imem.
Qed.
End ops.
