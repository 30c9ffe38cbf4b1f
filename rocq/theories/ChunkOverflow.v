(** * [insert_from] when the sum of the lengths overflows *)
From Verif Require Import Machine Spec Prims ChunkModel ChunkProofs ChunkProofs2.

Section overflow.
Context {A : Type} (e : env A) (N : nat).
Hypothesis HW : N + N < word e.
Hypothesis HD : debug e = false.
(** Out of bounds, or a panic that leaves the chunk empty. *)
Definition spoilt {X} (g : log A) (x : outcome A (chunk A) X) : Prop :=
  x = UB OutOfBounds \/ exists c' g', x = Panic c' g' /\ Holds N c' [] /\ dropped g' = dropped g.
Lemma spoilt_bind {X Y} g (m : M A (chunk A) X) (k : X -> M A (chunk A) Y) c g0 : spoilt g (m c g0) -> spoilt g (bind m k c g0).
Proof. unfold bind. intros [->|(c' & g' & -> & H)]; [left; reflexivity|right; eauto]. Qed.
Lemma forgotten {X} l r m g g0 : dropped g0 = dropped g -> l = r -> r <= N -> spoilt g ((slots_forget N 0 0 ;;; panic (R := X)) (Chunk l r m) g0).
Proof.
  intros HD0 -> Hr. right. unfold bind, slots_forget, panic. cbn [getm setm chunk_mem cdata left right].
  eexists _, _. split; [reflexivity|]. split; [|exact HD0]. unfold Holds. cbn [left right cdata length].
  split; [lia|]. split; [lia|]. intros p. repeat match goal with |- context [if ?b then _ else _] => destruct b eqn:? end; try lia; reflexivity.
Qed.
Lemma write_loop_outcome k : forall it wi m g0 g, dropped g0 = dropped g ->
  spoilt g (write_loop e N k it wi (Chunk 0 0 m) g0) \/
  exists m' g' wi', write_loop e N k it wi (Chunk 0 0 m) g0 = Ret (Chunk 0 0 m') g' wi' /\ wi <= wi' /\ dropped g' = dropped g.
Proof.
  induction k as [|k IH]; intros [|[v|] it] wi m g0 g HD0; cbn [write_loop]; try (right; exists m, g0, wi; repeat split; auto; fail).
  - assert (EE : forall (k0 : unit -> M A (chunk A) nat), bind (force_write N wi v) k0 (Chunk 0 0 m) g0 =
      if wi <? N then k0 tt (Chunk 0 0 (upd m wi (Some v))) (log_write 1 (log_leak (option_list (m wi)) g0)) else UB OutOfBounds).
    { intros k0. unfold force_write, slot_write, bind. destruct (wi <? N); reflexivity. }
    rewrite EE. destruct (wi <? N) eqn:E; [|left; left; reflexivity].
    erewrite bind_Ret by (apply uadd_ok; lia).
    destruct (IH it (wi + 1) (upd m wi (Some v)) (log_write 1 (log_leak (option_list (m wi)) g0)) g)
      as [H|(m' & g' & wi' & E1 & Hw & Hd)]; [cbn; exact HD0|left; exact H|right].
    exists m', g', wi'. split; [exact E1|]. split; [lia|exact Hd].
  - left. apply forgotten; [exact HD0|reflexivity|lia].
Qed.
Lemma write_from_iter_wraps n it wi c g0 g : dropped g0 = dropped g -> n < word e -> word e <= wi + n ->
  spoilt g (write_from_iter e N wi n it c g0).
Proof.
  intros HD0 Hn Hw. unfold write_from_iter. erewrite (bind_Ret get) by reflexivity.
  erewrite (bind_Ret (set_left 0)) by reflexivity. erewrite (bind_Ret (set_right 0)) by reflexivity.
  assert (EU : forall (o : chunk A) g, uadd e wi n o g = Ret o g (wi + n - word e)).
  { intros o g1. unfold uadd. rewrite HD. destruct (_ <? _) eqn:E; [lia|reflexivity]. }
  erewrite bind_Ret by apply EU. cbn [left right cdata].
  destruct (write_loop_outcome n it wi (cdata c) g0 g HD0) as [H|(m' & g' & wi' & E & Hle & Hd)]; [apply spoilt_bind, H|].
  rewrite (bind_Ret _ _ _ _ _ _ _ E). replace (_ =? _) with false by lia.
  apply spoilt_bind. apply forgotten; [exact Hd|reflexivity|lia].
Qed.
Lemma copy_outcome {X} from to n (k : unit -> M A (chunk A) X) c g0 g : dropped g0 = dropped g ->
  (forall m g1, dropped g1 = dropped g -> spoilt g (k tt (Chunk (left c) (right c) m) g1)) ->
  spoilt g (bind (force_copy N from to n) k c g0).
Proof.
  intros HD0 H. unfold force_copy. destruct (0 <? n).
  - unfold bind, slots_move. destruct (_ && _); [|left; reflexivity]. cbn [setm getm chunk_mem cdata left right]. apply H. exact HD0.
  - unfold bind, ret. destruct c as [l r m]. apply H. exact HD0.
Qed.
(** In a release build, when the chunk's length and the length announced (the same at both calls) overflow. *)
Theorem insert_from_overflow c l g i n it : Holds N c l -> n < word e -> word e <= length l + n ->
  (length l < i -> insert_from e N i n n it c g = Panic c g) /\ (i <= length l -> spoilt g (insert_from e N i n n it c g)).
Proof.
  intros H Hn Hov. pose proof H as (H1 & H2 & _). unfold insert_from.
  assert (EU : forall x (o : chunk A) g, x < word e -> word e <= x + n -> uadd e x n o g = Ret o g (x + n - word e)).
  { intros x o g1 Hx Hx2. unfold uadd. rewrite HD. destruct (_ <? _) eqn:E; [lia|reflexivity]. }
  assert (ES : forall x (o : chunk A) g, x < n -> usub e x n o g = Ret o g (x + word e - n)).
  { intros x o g1 Hx. unfold usub. rewrite HD. destruct (_ <=? _) eqn:E; [lia|reflexivity]. }
  erewrite !bind_Ret by (apply (len_eq e N HW); eassumption). erewrite !bind_Ret by (apply EU; lia).
  replace (N <? length l + n - word e) with false by lia.
  split; intros Hi; [replace (length l <? i) with true by lia; reflexivity|]. replace (length l <? i) with false by lia.
  erewrite (bind_Ret get) by reflexivity. erewrite bind_Ret by (apply uadd_ok; lia). erewrite bind_Ret by (apply usub_ok; lia).
  replace (n <=? left c) with false by lia. cbn [andb]. rewrite orb_false_r.
  destruct (right c =? N) eqn:ER.
  - erewrite bind_Ret by (apply ES; lia). apply copy_outcome; [reflexivity|]. intros m g1 HD1.
    erewrite bind_Ret by (apply ES; lia). apply spoilt_bind. apply write_from_iter_wraps; [exact HD1|exact Hn|lia].
  - erewrite bind_Ret by (apply EU; lia). replace (right c + n - word e <=? N) with true by lia. rewrite orb_true_r.
    destruct (decide (word e <= i + left c + n)) as [Hr|Hr].
    + erewrite bind_Ret by (apply EU; lia). apply copy_outcome; [reflexivity|]. intros m g1 HD1.
      apply spoilt_bind. apply write_from_iter_wraps; [exact HD1|exact Hn|lia].
    + erewrite bind_Ret by (apply uadd_ok; lia). left. unfold bind, force_copy, slots_move.
      replace (0 <? right c - (i + left c)) with true by lia.
      replace ((i + left c + (right c - (i + left c)) <=? N) && (i + left c + n + (right c - (i + left c)) <=? N)) with false; [reflexivity|].
      symmetry. apply andb_false_iff. right. lia.
Qed.
End overflow.
