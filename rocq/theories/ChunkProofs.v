(** * [Chunk] does what the list specification says. *)
From Verif Require Import Machine Spec Prims ChunkModel.

(** The chunk [c] (capacity [N]) holds exactly the list [l]: its elements occupy the slots
    [left c .. right c) in order and no other slot is live. *)
Definition Holds {A} (N : nat) (c : chunk A) (l : list A) : Prop :=
  right c = left c + length l /\ right c <= N /\
  forall p, cdata c p = if left c <=? p then l !! (p - left c) else None.

(** A call that returns a new chunk holding [l]. *)
Definition Made {A} (N : nat) (cu : chunk A * unit) (l : list A) : Prop := Holds N (fst cu) l.

Ltac expand ::= cbn [left right cdata getm setm chunk_mem fst snd]; unfold is_full, is_empty; cbn [left right].
Ltac mem_unfold := unfold new; cbn [getm setm chunk_mem cdata left right fst snd]; unfold upd, mmove, mrecv, mclear, mem0;
  repeat match goal with H : forall p, ?m p = if _ <=? p then _ else _ |- context [?m _] => rewrite H end.
Ltac find_elem :=
  match goal with
  | H : ?l !! ?i = Some ?a |- ?l !! ?j = Some _ => replace j with i by lia; exact H
  | H : ?l !! ?i = Some ?a |- Some _ = ?l !! ?j => replace j with i by lia; symmetry; exact H
  end.
Ltac mem_side ::= mem_unfold; pw; try find_elem.
Ltac unfold_method m ::=
  let rec head t := lazymatch t with ?f _ => head f | _ => t end in
  let h := head m in
  lazymatch h with
  | @len => unfold len
  | @force_read => unfold force_read
  | @force_write => unfold force_write
  | @force_copy => unfold force_copy
  | @force_copy_to => unfold force_copy_to
  | @as_slice => unfold as_slice
  end.

Ltac start :=
  match goal with
  | H : Holds ?N ?c ?l |- _ =>
      let lf := fresh "lf" in let rt := fresh "rt" in let m := fresh "m" in
      let H1 := fresh "Hlen" in let H2 := fresh "Hcap" in let H3 := fresh "Hm" in
      destruct c as [lf rt m]; destruct H as (H1 & H2 & H3); cbn [left right cdata] in H1, H2, H3
  end.
Ltac holds1 :=
  unfold Holds, new; cbn [left right cdata getm setm chunk_mem fst snd];
  split; [|split]; [lookups; lia | lookups; lia | intros p; mem_unfold; pw; try find_elem].
Ltac holds :=
  lazymatch goal with
  | |- both _ _ _ _ => split; holds1
  | |- Made _ _ _ => unfold Made; holds1
  | |- _ => holds1
  end.
Ltac log_eq := cbn [dropped leaked log_drop log_leak log_write];
  solve [reflexivity | rewrite ?app_nil_r, <- ?app_assoc; reflexivity].
Ltac done_ret := lazymatch goal with |- agrees _ _ _ _ (SRet _ _ _) => idtac end; eexists _, _, _; split; [reflexivity|]; split; [holds|];
  split; [try reflexivity; try holds | split; [try log_eq | try log_eq]].
Ltac done_panic := lazymatch goal with |- agrees _ _ _ _ (SPanic _ _ _) => idtac end; eexists _, _, []; split; [reflexivity|]; split; [holds|];
  split; [try log_eq | split; [try log_eq | try reflexivity]].

Ltac run := exec; repeat split_if; try lia; first [done_ret | done_panic].
Ltac dropping L :=
  erewrite bind_Ret by (eapply (slots_drop_ok _ _ _ _ L);
    [assumption | lookups; lia | lookups; lia | intros ? ?; mem_side]); expand.
Ltac dropping_tail L :=
  erewrite (slots_drop_ok _ _ _ _ L);
    [ | assumption | lookups; lia | lookups; lia | intros ? ?; mem_side]; expand.
Ltac peeking L :=
  erewrite bind_Ret by (eapply (slots_peek_ok _ _ _ L);
    [lookups; lia | lookups; lia | intros ? ?; mem_side]); expand.
Ltac start2 :=
  match goal with
  | H : both _ _ ?c ?l |- _ =>
      let c1 := fresh "c1" in let c2 := fresh "c2" in
      let l1 := fresh "l1" in let l2 := fresh "l2" in
      let H1 := fresh "H1" in let H2 := fresh "H2" in
      destruct c as [c1 c2]; destruct l as [l1 l2]; destruct H as [H1 H2];
      cbn [fst snd] in H1, H2; start; start
  end.

Section proofs.
Context {A : Type} (e : env A) (N : nat).
Hypothesis HW : N + N < word e.
Hypothesis Hcalm : calm e.
Implicit Types (c : chunk A) (l : list A) (g : log A) (v : A) (i k index count : nat).
Notation agr := (agrees (Holds N) eq).
Notation Holds2 := (both (Holds N) (Holds N)).


Lemma new_holds : Holds N (@new A) [].
Proof. unfold new. holds. Qed.
Lemma holds_intro lf (l : list A) : lf + length l <= N ->
  Holds N (Chunk lf (lf + length l) (fun p => if lf <=? p then l !! (p - lf) else None)) l.
Proof. intros H. holds. Qed.
Lemma holds_inj c l1 l2 : Holds N c l1 -> Holds N c l2 -> l1 = l2.
Proof.
  intros (H1 & _ & H2) (H3 & _ & H4). apply list_eq. intros i.
  specialize (H2 (left c + i)). rewrite H4 in H2.
  replace (left c <=? left c + i) with true in H2 by lia.
  replace (left c + i - left c) with i in H2 by lia. congruence.
Qed.
Lemma holds_length c l : Holds N c l -> length l <= N.
Proof. intros (H1 & H2 & _). lia. Qed.


Lemma len_ok c l g : Holds N c l -> agr g (len e c g) (bl_len l).
Proof. intros H. start. unfold bl_len. run. lia. Qed.
Lemma is_empty_ok c l : Holds N c l -> is_empty c = (length l =? 0).
Proof. intros H. start. expand. lia. Qed.
Lemma is_full_ok c l : Holds N c l -> is_full N c = (length l =? N).
Proof. intros H. start. expand. lia. Qed.

Lemma push_back_ok c l g v : Holds N c l -> agr g (push_back e N v c g) (bl_push_back N v l).
Proof. intros H. start. unfold push_back, bl_push_back. run. Qed.
Lemma push_front_ok c l g v : Holds N c l -> agr g (push_front e N v c g) (bl_push_front N v l).
Proof. intros H. start. unfold push_front, bl_push_front. run. Qed.


Lemma pop_front_ok c l g : Holds N c l -> agr g (pop_front e N c g) (bl_pop_front l).
Proof.
  intros H. start. unfold pop_front, bl_pop_front. destruct l as [|a l]; cbn [length] in *.
  - run.
  - assert (Ha : (a :: l) !! 0 = Some a) by reflexivity. run.
Qed.
Lemma pop_back_ok c l g : Holds N c l -> agr g (pop_back e N c g) (bl_pop_back l).
Proof.
  intros H. start. unfold pop_back, bl_pop_back.
  destruct (l !! (length l - 1)) as [a|] eqn:Ha.
  - pose proof (lookup_lt_Some _ _ _ Ha). run.
  - apply lookup_ge_None in Ha. run.
Qed.
Lemma drop_left_ok c l g i : Holds N c l -> agr g (drop_left e N i c g) (bl_drop_left i l).
Proof.
  intros H. start. unfold drop_left, bl_drop_left. destruct (i =? 0) eqn:E0.
  - assert (i = 0) by lia; subst i. run.
  - exec; split_if; try lia; [dropping (take i l)|]; run.
Qed.
Lemma drop_right_ok c l g i : Holds N c l -> agr g (drop_right e N i c g) (bl_drop_right i l).
Proof.
  intros H. start. unfold drop_right, bl_drop_right. destruct (i =? length l) eqn:E0.
  - assert (i = length l) by lia; subst i.
    rewrite firstn_all, drop_all. run.
  - exec; split_if; try lia; [dropping (drop i l)|]; run.
Qed.
Lemma clear_ok c l g : Holds N c l -> agr g (clear e N c g) (bl_clear l).
Proof. intros H. start. unfold clear, bl_clear. exec. dropping l. run. Qed.
Lemma as_slice_ok c l g : Holds N c l -> agr g (as_slice e N c g) (bl_slice l).
Proof.
  intros H. start. unfold as_slice, bl_slice. exec.
  erewrite (slots_peek_ok N _ _ l); [run | lia | lia | intros; mem_side].
Qed.
Lemma as_slice_eq c l g : Holds N c l -> as_slice e N c g = Ret c g l.
Proof.
  intros H. start. unfold as_slice. exec. apply slots_peek_ok; [lia | lia | intros; mem_side].
Qed.
Lemma drop_ok c l g : Holds N c l -> 
  exists c', drop_ e N c g = Ret c' (log_drop l g) tt /\ forall p, cdata c' p = None.
Proof.
  intros H. start. unfold drop_. exec. dropping_tail l. eexists; split; [reflexivity|].
  intros p. mem_unfold. pw.
Qed.
Lemma slots_release_clean (c : chunk A) g : (forall p, p < N -> cdata c p = None) ->
  slots_release N c g = Ret (Chunk (left c) (right c) mem0) g tt.
Proof.
  intros H. unfold slots_release. cbn. rewrite omap_seq_nil, log_leak_nil by (intros; apply H; lia).
  reflexivity.
Qed.
Lemma destroy_ret c l g : Holds N c l -> exists c', destroy e N c g = Ret c' (log_drop l g) tt.
Proof.
  intros H. destruct (drop_ok c l g H) as (c' & E & Hc). unfold destroy, destroying.
  rewrite E, slots_release_clean by auto. eauto.
Qed.
Lemma destroy_ok c l g : Holds N c l ->
  agrees (fun _ _ => True) eq g (destroy e N c g) (bl_destroy l).
Proof.
  intros H. destruct (destroy_ret c l g H) as (c' & E). rewrite E. eexists _, _, _. 
  split; [reflexivity|]. repeat split. 
Qed.

Lemma split_off_ok c l g i : Holds N c l ->
  agrees (Holds N) (Made N) g (split_off e N i c g) (bl_split_off i l).
Proof. intros H. start. unfold split_off, bl_split_off. run. Qed.

(** Two consecutive assertions [a + k <= N] and [k <= n] after a possibly overflowing sum. *)
Lemma checked_sum {O T} a k n (K : M A O T) (o : O) g : a <= N -> n <= N -> k < word e ->
  (let! total := uadd e a k in assert (total <=? N) ;;; assert (k <=? n) ;;; K) o g =
  if (a + k <=? N) && (k <=? n) then K o g else Panic o g.
Proof.
  intros Ha Hn Hk. unfold uadd, bind, assert. 
  destruct (a + k <? word e) eqn:E1; cbn.
  - destruct (a + k <=? N), (k <=? n); reflexivity.
  - replace ((a + k <=? N) && (k <=? n)) with false by lia. destruct (debug e); [reflexivity|]. cbn.
    replace (k <=? n) with false by lia. destruct (_ <=? _); reflexivity.
Qed.
Lemma drain_from_front_ok cc ll g k : Holds2 cc ll -> k < word e ->
  agrees Holds2 eq g (drain_from_front e N k cc g) (bl_drain_from_front N k ll).
Proof.
  intros H Hk. start2. unfold drain_from_front, bl_drain_from_front. do 7 step1.
  rewrite checked_sum by lia. split_if; run.
Qed.
Lemma drain_from_back_ok cc ll g k : Holds2 cc ll -> k < word e ->
  agrees Holds2 eq g (drain_from_back e N k cc g) (bl_drain_from_back N k ll).
Proof.
  intros H Hk. start2. unfold drain_from_back, bl_drain_from_back. do 7 step1.
  rewrite checked_sum by lia. split_if; run.
Qed.
Lemma append_ok cc ll g : Holds2 cc ll -> agrees Holds2 eq g (append e N cc g) (bl_append N ll).
Proof. intros H. start2. unfold append, bl_append. run. Qed.
Lemma len_eq c l g : Holds N c l -> len e c g = Ret c g (length l).
Proof. intros H. start. exec. erewrite usub_ok by lia. f_equal. lia. Qed.
Lemma from_front_ok c l g k : Holds N c l -> k <= length l ->
  agrees (Holds N) (Made N) g (from_front e N k c g) (bl_from_front k l).
Proof. intros H Hk. start. unfold from_front, bl_from_front. destruct (0 <? k) eqn:E; run. Qed.
Lemma from_back_ok c l g k : Holds N c l -> k <= length l ->
  agrees (Holds N) (Made N) g (from_back e N k c g) (bl_from_back k l).
Proof. intros H Hk. start. unfold from_back, bl_from_back. destruct (0 <? k) eqn:E; run. Qed.
Lemma from_front_debug c l g k : Holds N c l -> debug e = true ->
  agrees (Holds N) (Made N) g (from_front e N k c g) (bl_from_front k l).
Proof.
  intros H Hd. destruct (k <=? length l) eqn:E; [apply from_front_ok; [assumption|lia]|].
  start. unfold from_front, bl_from_front, debug_assert. do 4 step1.
  replace (k <=? rt - lf) with false by lia.
  rewrite Hd, E. cbn [andb negb]. rewrite bind_panic. done_panic.
Qed.
Lemma from_back_debug c l g k : Holds N c l -> debug e = true ->
  agrees (Holds N) (Made N) g (from_back e N k c g) (bl_from_back k l).
Proof.
  intros H Hd. destruct (k <=? length l) eqn:E; [apply from_back_ok; [assumption|lia]|].
  start. unfold from_back, bl_from_back, debug_assert. do 4 step1.
  replace (k <=? rt - lf) with false by lia.
  rewrite Hd, E. cbn [andb negb]. rewrite bind_panic. done_panic.
Qed.
Lemma drain_from_ok c l g : Holds N c l ->
  agrees (Holds N) (Made N) g (drain_from e N c g) (bl_drain_all l).
Proof.
  intros H. pose proof (from_front_ok c l g (length l) H (le_n _)) as Hf.
  unfold bl_from_front in Hf. rewrite Nat.leb_refl, firstn_all, drop_all in Hf.
  unfold drain_from. erewrite bind_Ret by (apply len_eq; eassumption). exact Hf.
Qed.
Lemma set_ok c l g i v : Holds N c l -> agr g (set e N i v c g) (bl_set i v l).
Proof.
  intros H. start. unfold set, bl_set. destruct (l !! i) as [a|] eqn:Ha.
  - pose proof (lookup_lt_Some _ _ _ Ha). run.
  - apply lookup_ge_None in Ha. run.
Qed.
Lemma assign_ok c l g i v : Holds N c l -> agr g (assign e N i v c g) (bl_assign i v l).
Proof.
  intros H. start. unfold assign, bl_assign. destruct (l !! i) as [a|] eqn:Ha.
  - pose proof (lookup_lt_Some _ _ _ Ha). exec. rewrite drop_values_calm by assumption. done_ret.
  - apply lookup_ge_None in Ha. run.
Qed.
Lemma index_ok c l g i : Holds N c l -> agr g (index e N i c g) (bl_index i l).
Proof.
  intros H. start. unfold index, bl_index. destruct (l !! i) as [a|] eqn:Ha.
  - pose proof (lookup_lt_Some _ _ _ Ha). run.
  - apply lookup_ge_None in Ha. run.
Qed.
Lemma remove_ok c l g i : Holds N c l -> agr g (remove e N i c g) (bl_remove i l).
Proof.
  intros H. start. unfold remove, bl_remove. destruct (l !! i) as [a|] eqn:Ha.
  - pose proof (lookup_lt_Some _ _ _ Ha). run.
  - apply lookup_ge_None in Ha. run.
Qed.
Lemma insert_ok c l g i v : Holds N c l -> agr g (insert e N i v c g) (bl_insert N i v l).
Proof. intros H. start. unfold insert, bl_insert. run. Qed.
End proofs.
