(** * Proofs about the aliasing traces of BorrowModel.v: histories of calls *)
From Verif Require Import Machine IterSpec BorrowModel BorrowSpec BorrowProofs BorrowProofs2.

Section calls.
Context (N k : nat).
Notation valid_call := (valid_call N k).
Global Instance stale_dec c : Decision (stale c).
Proof. destruct c; cbn; apply _. Defined.
Definition objects (c : call) : list nat :=
  match c with
  | Fields o | SetFields o | ArrayLen o | ChunkRead o _ | ChunkWrite o _ | RingRead o _ | RingWrite o _ | RingGet o _
  | RingGetMut o _ | SparseRead o _ | SparseWrite o _ | ChunkCopy o _ _ _ | SliceRead o _ _ | SliceWrite o _ _
  | ArrayPush o _ | ArrayPop o _ | ArrayInsert o _ _ | ArrayRemove o _ _ | ArrayRead o _ | ArrayWrite o _ | ArrayClear o _ => [o]
  | ChunkCopyTo o o' _ _ _ | RingCopyTo o o' _ _ _ | ArraySplitOff o o' _ _ | ChunkFromArray o o' _ => [o; o']
  end.
Lemma call_tb c : valid_call c -> tb_good (objects c) (b_call N c).
Proof.
  destruct c; cbn [valid_call objects b_call]; intros H; repeat match goal with H : _ /\ _ |- _ => destruct H end;
    first [apply tb_fields | apply tb_set_fields | apply tb_force_read | apply tb_force_write | apply tb_force_copy | apply tb_force_copy_to
    | apply tb_slice_read | apply tb_slice_write | apply tb_ring_read | apply tb_ring_write | apply tb_ring_copy_to | apply tb_ring_get
    | apply tb_ring_get_mut | apply tb_ia_len | apply tb_ia_push | apply tb_ia_pop | apply tb_ia_insert | apply tb_ia_remove
    | apply tb_ia_split_off | apply tb_ia_slice_read | apply tb_ia_slice_write | apply tb_ia_clear | apply tb_chunk_from_inline | apply tb_sp_read | apply tb_sp_write];
    lia.
Qed.
Lemma call_sb c : valid_call c -> ~ stale c -> sb_good (objects c) (b_call N c).
Proof.
  destruct c; cbn [valid_call objects b_call stale]; intros H S; repeat match goal with H : _ /\ _ |- _ => destruct H end;
    try (replace n with 0 by lia);
    first [apply b_fields_ok | apply b_set_fields_ok | apply b_force_read_ok | apply b_force_write_ok | apply b_force_copy_0 | apply b_force_copy_to_ok
    | apply b_slice_read_ok | apply b_slice_write_ok | apply b_ring_read_ok | apply b_ring_write_ok | apply b_ring_copy_to_ok | apply b_ring_get_ok
    | apply b_ring_get_mut_ok | apply b_ia_len_ok | apply b_ia_push_ok | apply b_ia_pop_ok | apply b_ia_insert_ok | apply b_ia_remove_last
    | apply b_ia_split_off_ok | apply b_ia_slice_read_ok | apply b_ia_slice_write_ok | apply b_ia_clear_ok | apply b_chunk_from_inline_ok | apply b_sp_read_ok | apply b_sp_write_ok];
    lia.
Qed.
Lemma call_objects c : valid_call c -> forall o, In o (objects c) -> o < k.
Proof. destruct c; cbn; intros H o1 Ho; repeat match goal with H : _ /\ _ |- _ => destruct H end; lia. Qed.
Lemma stale_sb c : valid_call c -> stale c -> exists l, fst l < k /\ forall b st, k <= b -> own (fst l) st ->
  at_place (sb_step l) (b_call N c) b st = None.
Proof.
  destruct c; cbn [valid_call stale b_call]; try contradiction; intros H HS; repeat match goal with H : _ /\ _ |- _ => destruct H end.
  - exists (o, S from). split; [assumption|]. intros b st Hb Ho. apply b_force_copy_bad; [lia..|exact Ho].
  - exists (o, S (i + 1)). split; [assumption|]. intros b st Hb Ho. apply b_ia_remove_bad; [lia..|exact Ho].
Qed.

Lemma calls_tb cs : Forall valid_call cs -> forall ob x b s, k <= b -> town k ob s ->
  at_place (tb_step (ob, x)) (b_calls N cs) b s <> None.
Proof.
  induction 1 as [|c cs Hc _ IH]; intros ob x b s Hb Ho; [cbn; discriminate|].
  cbn [b_calls]. rewrite at_bind. destruct (call_tb c Hc k ob x b s (call_objects c Hc) Hb Ho) as (s' & b' & v & -> & Hle & Ho').
  apply IH; [lia|exact Ho'].
Qed.
Lemma calls_sb cs : Forall valid_call cs -> Forall (fun c => ~ stale c) cs -> forall ob x b st, k <= b -> (ob < k -> own ob st) ->
  at_place (sb_step (ob, x)) (b_calls N cs) b st <> None.
Proof.
  induction 1 as [|c cs Hc _ IH]; intros HS ob x b st Hb Ho; [cbn; discriminate|]. inversion_clear HS as [|? ? S1 S2].
  cbn [b_calls]. rewrite at_bind.
  destruct (call_sb c Hc S1 ob x b st) as (s' & b' & v & -> & Hle & H1 & H2).
  - intros o Hi. apply (call_objects c Hc) in Hi. lia.
  - intros Hi. apply Ho, (call_objects c Hc _ Hi).
  - apply IH; [exact S2|lia|]. intros Hk. destruct (in_dec Nat.eq_dec ob (objects c)) as [Hi|Hi]; [auto|]. rewrite (H2 Hi). auto.
Qed.
Lemma calls_sb_bad cs : Forall valid_call cs -> Exists stale cs -> exists l, forall b st, k <= b -> own (fst l) st ->
  at_place (sb_step l) (b_calls N cs) b st = None.
Proof.
  induction cs as [|c cs IH]; intros HV HE; [inversion HE|]. inversion_clear HV as [|? ? Hc HV'].
  destruct (decide (stale c)) as [S1|S1].
  - destruct (stale_sb c Hc S1) as (l & _ & Hl). exists l. intros b st Hb Ho. cbn [b_calls]. rewrite at_bind, Hl by assumption. reflexivity.
  - destruct IH as (l & Hl); [exact HV'|inversion_clear HE; [contradiction|assumption]|]. exists l. intros b st Hb Ho.
    cbn [b_calls]. rewrite at_bind. destruct l as [ob x].
    assert (own ob st -> exists s' b' v, at_place (sb_step (ob, x)) (b_call N c) b st = Some (s', b', v) /\ b <= b' /\ own ob s') as HX.
    { intros Ho'. destruct (call_sb c Hc S1 ob x b st) as (s' & b' & v & E & Hle & H1 & H2); [|auto|].
      - intros o Hi. apply (call_objects c Hc) in Hi. lia.
      - exists s', b', v. split; [exact E|]. split; [exact Hle|].
        destruct (in_dec Nat.eq_dec ob (objects c)) as [Hi|Hi]; [auto|rewrite (H2 Hi); exact Ho]. }
    destruct (HX Ho) as (s' & b' & v & -> & Hle & H1). apply Hl; [lia|exact H1].
Qed.
Lemma own0 l : own (fst l) (stack0 l).
Proof. apply own_bottom. Qed.
Theorem tb_calls_ok cs : Forall valid_call cs -> tb_accepts (trace k (b_calls N cs)).
Proof. intros H [ob x]. apply at_trace, calls_tb; [exact H|lia|]. split; reflexivity. Qed.
Theorem sb_calls_exact cs : Forall valid_call cs -> sb_accepts (trace k (b_calls N cs)) <-> ~ Exists stale cs.
Proof.
  intros H. split.
  - intros HA HE. destruct (calls_sb_bad cs H HE) as (l & Hl). specialize (HA l). apply at_trace in HA. apply HA, Hl; [lia|apply own0].
  - intros HE [ob x]. apply at_trace, calls_sb; [exact H|apply Forall_Exists_neg, HE|lia|]. intros _. apply own0.
Qed.
End calls.
