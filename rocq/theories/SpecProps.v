(** * Properties of the list specifications alone. *)
From Verif Require Import Machine Spec Prims Program.
(** ** The list specifications neither lose nor invent values. *)
Definition conserves {A R} (out : R -> list A) (before : list A) (s : sres A (list A) R) : Prop :=
  match s with
  | SRet l' r d => Permutation before (l' ++ out r ++ d)
  | SPanic l' d k => Permutation before (l' ++ d ++ k)
  end.
Section conservation.
Context {A : Type}.
Implicit Types (l : list A) (v : A) (i n k N : nat).
Notation none := (fun _ => @nil A).

Lemma split_at i l : l = take i l ++ drop i l.
Proof. symmetry. apply take_drop. Qed.
Lemma split_mid i l a : l !! i = Some a -> l = take i l ++ [a] ++ drop (S i) l.
Proof. intros H. symmetry. apply (take_drop_middle l i a H). Qed.

Lemma cons_push_front N v l : conserves (fun _ : unit => []) (l ++ [v]) (bl_push_front N v l).
Proof. unfold bl_push_front. split_if; cbn [conserves]; perm. Qed.
Lemma cons_push_back N v l : conserves (fun _ : unit => []) (l ++ [v]) (bl_push_back N v l).
Proof. unfold bl_push_back. split_if; cbn [conserves]; perm. Qed.
Lemma cons_pop_front l : conserves (fun a => [a]) l (bl_pop_front l).
Proof. destruct l; cbn [conserves bl_pop_front]; perm. Qed.
Lemma cons_pop_back l : conserves (fun a => [a]) l (bl_pop_back l).
Proof.
  unfold bl_pop_back. destruct (l !! (length l - 1)) as [a|] eqn:Ha; cbn [conserves]; [|perm].
  pose proof (lookup_lt_Some _ _ _ Ha).
  rewrite (split_mid _ _ _ Ha) at 1. rewrite drop_ge by lia. perm.
Qed.
Lemma cons_try_pop_front l : conserves option_list l (bl_try_pop_front l).
Proof. destruct l; cbn [conserves bl_try_pop_front option_list option_rect]; perm. Qed.
Lemma cons_try_pop_back l : conserves option_list l (bl_try_pop_back l).
Proof.
  unfold bl_try_pop_back. destruct (l !! (length l - 1)) as [a|] eqn:Ha; cbn [conserves option_list option_rect]; [|perm].
  pose proof (lookup_lt_Some _ _ _ Ha).
  rewrite (split_mid _ _ _ Ha) at 1. rewrite drop_ge by lia. perm.
Qed.
Lemma cons_insert N i v l : conserves (fun _ : unit => []) (l ++ [v]) (bl_insert N i v l).
Proof. unfold bl_insert. split_if; cbn [conserves]; [rewrite (split_at i l) at 1|]; perm. Qed.
Lemma cons_insert_from_any N i n it l :
  conserves (fun _ : unit => [])
    (l ++ (if (length l + n <=? N) && (i <=? length l) then yields n it else [])) (bl_insert_from_any N i n it l).
Proof.
  unfold bl_insert_from_any. destruct ((length l + n <=? N) && (i <=? length l)); [split_if|]; cbn [conserves].
  - rewrite (split_at i l) at 1. perm.
  - perm.
  - perm.
Qed.
Lemma cons_remove i l : conserves (fun a => [a]) l (bl_remove i l).
Proof.
  unfold bl_remove. destruct (l !! i) as [a|] eqn:Ha; cbn [conserves]; [|perm].
  rewrite (split_mid _ _ _ Ha) at 1. perm.
Qed.
Lemma cons_try_remove i l : conserves option_list l (bl_try_remove i l).
Proof.
  unfold bl_try_remove. destruct (l !! i) as [a|] eqn:Ha; cbn [conserves option_list option_rect]; [|perm].
  rewrite (split_mid _ _ _ Ha) at 1. perm.
Qed.
Lemma cons_set i v l : conserves (fun a => [a]) (l ++ [v]) (bl_set i v l).
Proof.
  unfold bl_set. destruct (l !! i) as [a|] eqn:Ha; cbn [conserves]; [|perm].
  rewrite (split_mid _ _ _ Ha) at 1. perm.
Qed.
Lemma cons_index i l : conserves (fun _ => []) l (bl_index i l).
Proof. unfold bl_index. destruct (l !! i); cbn [conserves]; perm. Qed.
Lemma cons_drop_left i l : conserves (fun _ : unit => []) l (bl_drop_left i l).
Proof. unfold bl_drop_left. split_if; cbn [conserves]; [rewrite (split_at i l) at 1|]; perm. Qed.
Lemma cons_drop_right i l : conserves (fun _ : unit => []) l (bl_drop_right i l).
Proof. unfold bl_drop_right. split_if; cbn [conserves]; [rewrite (split_at i l) at 1|]; perm. Qed.
Lemma cons_clear l : conserves (fun _ : unit => []) l (bl_clear l).
Proof. cbn. perm. Qed.
Lemma cons_extend N it : forall l,
  conserves (fun _ : unit => []) (l ++ yields (S (N - length l)) it) (bl_extend N it l).
Proof.
  induction it as [|[a|] it IH]; intros l; cbn [bl_extend yields].
  - cbn [conserves]. perm.
  - split_if.
    + specialize (IH (l ++ [a])). rewrite app_length in IH. cbn [length] in IH.
      replace (S (N - (length l + 1))) with (N - length l) in IH by lia.
      rewrite <- app_assoc in IH. exact IH.
    + replace (N - length l) with 0 by lia. cbn [conserves yields]. perm.
  - cbn [conserves]. perm.
Qed.
Lemma extend_bound N it : forall l, length l <= N ->
  match bl_extend N it l with SRet l' _ _ => length l' <= N | SPanic l' _ _ => length l' <= N end.
Proof.
  induction it as [|[a|] it IH]; intros l Hl; cbn [bl_extend]; auto.
  split_if; auto. apply IH. rewrite app_length. cbn. lia.
Qed.
Lemma cons_assign i v l : conserves (fun _ : unit => []) (l ++ [v]) (bl_assign i v l).
Proof.
  unfold bl_assign. destruct (l !! i) as [a|] eqn:Ha; cbn [conserves]; [|perm].
  rewrite (split_mid _ _ _ Ha) at 1. perm.
Qed.
(** What an iterator hands over to [bl_insert_from_tail]. *)
Definition taken_from_tail N i n (it : list (ev A)) l : list A :=
  if (length l + n <=? N) && (i <=? length l)
  then if i =? length l then yields (S (N - length l)) it else yields n it else [].
Lemma cons_insert_from_tail N i n it l :
  conserves (fun _ : unit => []) (l ++ taken_from_tail N i n it l) (bl_insert_from_tail N i n it l).
Proof.
  unfold bl_insert_from_tail, taken_from_tail.
  destruct (i =? length l) eqn:E.
  - destruct (length l + n <=? N) eqn:E2; cbn [andb].
    + replace (i <=? length l) with true by lia. apply cons_extend.
    + pose proof (cons_insert_from_any N i n it l) as P. rewrite E2 in P. exact P.
  - rewrite andb_false_r. apply cons_insert_from_any.
Qed.
Lemma cons_split_off i l : conserves (fun x => x) l (bl_split_off i l).
Proof. unfold bl_split_off. split_if; cbn [conserves]; [rewrite (split_at i l) at 1|]; perm. Qed.
Lemma cons_from_front k l : conserves (fun x => x) l (bl_from_front k l).
Proof. unfold bl_from_front. split_if; cbn [conserves]; [rewrite (split_at k l) at 1|]; perm. Qed.
Lemma cons_from_back k l : conserves (fun x => x) l (bl_from_back k l).
Proof. unfold bl_from_back. split_if; cbn [conserves]; [rewrite (split_at (length l - k) l) at 1|]; perm. Qed.
Lemma cons_clone cl l : conserves (fun x => x) (l ++ clones cl 0 l) (bl_clone cl l).
Proof. unfold bl_clone. split_if; cbn [conserves]; perm. Qed.

Definition conserves2 {R} (out : R -> list A) (before : list A) (s : sres A (list A * list A) R) : Prop :=
  match s with
  | SRet l' r d => Permutation before (l'.1 ++ l'.2 ++ out r ++ d)
  | SPanic l' d k => Permutation before (l'.1 ++ l'.2 ++ d ++ k)
  end.
Lemma cons_append N ll : conserves2 (fun _ => []) (ll.1 ++ ll.2) (bl_append N ll).
Proof. unfold bl_append. split_if; cbn [conserves2 fst snd]; perm. Qed.
Lemma cons_drain_from_front N k ll : conserves2 (fun _ => []) (ll.1 ++ ll.2) (bl_drain_from_front N k ll).
Proof.
  unfold bl_drain_from_front. split_if; cbn [conserves2 fst snd]; [rewrite (split_at k ll.2) at 1|]; perm.
Qed.
Lemma cons_drain_from_back N k ll : conserves2 (fun _ => []) (ll.1 ++ ll.2) (bl_drain_from_back N k ll).
Proof.
  unfold bl_drain_from_back. split_if; cbn [conserves2 fst snd];
    [rewrite (split_at (length ll.2 - k) ll.2) at 1|]; perm.
Qed.

(** Constructors. *)
Definition conserves0 {S} (before : list A) (s : sres A S (list A)) : Prop :=
  match s with
  | SRet _ l d => Permutation before (l ++ d)
  | SPanic _ d k => Permutation before (d ++ k)
  end.
Lemma cons_unit N v : conserves0 [v] (bl_unit N v).
Proof. unfold bl_unit. split_if; cbn [conserves0]; perm. Qed.
Lemma cons_pair N v1 v2 : conserves0 [v1; v2] (bl_pair N v1 v2).
Proof. unfold bl_pair. split_if; cbn [conserves0]; perm. Qed.
Lemma cons_from_iter N it : conserves0 (yields (S N) it) (bl_from_iter N it).
Proof.
  unfold bl_from_iter. pose proof (cons_extend N it []) as P. cbn [length] in P.
  rewrite Nat.sub_0_r in P.
  destruct (bl_extend N it []) as [l [] d|l d k]; cbn [conserves conserves0] in *; perm_use P.
Qed.
Lemma cons_collect N k : forall it l,
  conserves0 (l ++ yields (k `min` S (N - length l)) it) (bl_collect N k it l).
Proof.
  induction k as [|k IH]; intros it l; cbn [bl_collect].
  - cbn [Nat.min yields conserves0]. perm.
  - destruct it as [|[a|] it].
    + cbn [conserves0 Nat.min yields]. perm.
    + split_if.
      * specialize (IH it (l ++ [a])). rewrite app_length in IH. cbn [length] in IH.
        replace (S k `min` S (N - length l)) with (S (k `min` S (N - (length l + 1)))) by lia.
        cbn [yields]. rewrite <- app_assoc in IH. exact IH.
      * replace (S k `min` S (N - length l)) with 1 by lia. cbn [yields conserves0]. destruct it; perm.
    + cbn [conserves0 Nat.min yields]. perm.
Qed.
End conservation.
