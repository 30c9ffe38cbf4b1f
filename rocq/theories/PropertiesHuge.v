(** * Capacities above half of the range of [usize] (possible for zero-sized elements only). *)
From Verif Require Import Machine Spec Prims Program ChunkModel ChunkProofs ChunkExamples ChunkProgram RingModel RingProofs RingProgram PropertiesChunk PropertiesRing.

(** C66, full statement: whatever the capacity, a call that has room for its values does not panic.  False of the code
    for capacities close to [usize::MAX], which only arrays of zero-sized elements can have: in a debug build
    [append] computes [right + other.len()] although the contents would fit after shifting them, and every access of a
    ring buffer computes [origin + index]. *)
Ltac huge Hw :=
  repeat first [ rewrite Hw
    | match goal with
      | |- context [?a <? ?b] => first [ replace (a <? b) with true by (symmetry; apply Nat.ltb_lt; lia) | replace (a <? b) with false by (symmetry; apply Nat.ltb_ge; lia) ]
      | |- context [?a <=? ?b] => first [ replace (a <=? b) with true by (symmetry; apply Nat.leb_le; lia) | replace (a <=? b) with false by (symmetry; apply Nat.leb_gt; lia) ]
      | |- context [?a =? ?b] => first [ replace (a =? b) with true by (symmetry; apply Nat.eqb_eq; lia) | replace (a =? b) with false by (symmetry; apply Nat.eqb_neq; lia) ]
      end
    | progress cbn -[Nat.sub Nat.ltb Nat.leb Nat.eqb Nat.add ] ].
Theorem C66_chunk_huge_capacity_refuted :
  forall (A : Type) (e : env A) (N : nat) (a b : A), 2 <= N -> word e = S N -> debug e = true ->
  exists c1 c2,
    push_front e N a new log0 = Ret c1 (log_write 1 log0) tt /\
    unit_ e N b tt (log_write 1 log0) = Ret tt (log_write 2 log0) (c2, tt) /\
    append e N (c1, c2) (log_write 2 log0) = Panic (c1, c2) (log_write 2 log0).
Proof.
  intros A e N a b HN Hw Hd.
  exists (Chunk (N - 1) N (upd mem0 (N - 1) (Some a))), (Chunk 0 1 (upd mem0 0 (Some b))).
  split; [|split].
  - unfold push_front, bind, get, new, is_full, is_empty, set_left, set_right, usub, force_write, slot_write. huge Hw. reflexivity.
  - unfold unit_, with_local, on_fst, force_write, slot_write. huge Hw. reflexivity.
  - unfold append, bind, on_fst, on_snd, len, get, usub, uadd. huge Hw. 
    rewrite Hd. reflexivity.
Qed.
Print Assumptions C66_chunk_huge_capacity_refuted.
Lemma two_slots {A} (N : nat) (a b : A) : 2 <= N ->
  omap (upd (upd mem0 (N - 1) (Some a)) 0 (Some b)) (seq 0 N) = [b; a].
Proof.
  intros HN. replace N with (S (N - 2 + 1)) at 2 by lia. cbn [seq]. rewrite seq_app. cbn [omap list_omap]. unfold upd at 1. cbn [Nat.eqb].
  rewrite omap_app. replace (omap _ (seq 1 (N - 2))) with (@nil A).
  - cbn [seq omap list_omap]. unfold upd. replace (1 + (N - 2) =? 0) with false by (symmetry; apply Nat.eqb_neq; lia).
    replace (1 + (N - 2) =? N - 1) with true by (symmetry; apply Nat.eqb_eq; lia). reflexivity.
  - symmetry. assert (H : forall k n i, 1 <= i -> i + k < n -> omap (upd (upd mem0 (n - 1) (Some a)) 0 (Some b)) (seq i k) = []).
    { induction k as [|k IH]; intros n i Hi Hk; [reflexivity|]. cbn [seq omap list_omap]. unfold upd at 1 2, mem0 at 1.
      replace (i =? 0) with false by (symmetry; apply Nat.eqb_neq; lia). replace (i =? n - 1) with false by (symmetry; apply Nat.eqb_neq; lia).
      apply IH; lia. }
    apply H; lia.
Qed.
Theorem C66_ring_huge_capacity_refuted :
  forall (A : Type) (e : env A) (N : nat) (a b : A), 2 <= N -> word e = S N -> debug e = true ->
  exists r1 r2,
    rb_push_front e N a ring0 log0 = Ret r1 (log_write 1 log0) tt /\
    rb_push_back e N b r1 (log_write 1 log0) = Ret r2 (log_write 2 log0) tt /\
    rb_iter e N r2 (log_write 2 log0) = Panic r2 (log_write 2 log0) /\
    exists r3, rb_destroy e N r2 (log_write 2 log0) = Panic r3 (Log [] [b; a] 2).
Proof.
  intros A e N a b HN Hw Hd.
  exists (Ring (N - 1) 1 (upd mem0 (N - 1) (Some a))), (Ring (N - 1) 2 (upd (upd mem0 (N - 1) (Some a)) 0 (Some b))).
  split; [|split; [|split]].
  - unfold rb_push_front, bind, get, ring0, rb_is_full, raw_dec, set_origin, set_length, usub, uadd, rb_force_write, slot_write, ptr, debug_assert.
    huge Hw. rewrite Hd. huge Hw. reflexivity.
  - unfold rb_push_back, bind, get, rb_is_full, raw, raw_add, uadd. huge Hw.
    replace (N - 1 + 1) with N by lia. cbn [wrap_down]. huge Hw. unfold bind, usub. huge Hw. 
    replace (N - N) with 0 by lia. destruct N as [|N]; [lia|]. cbn [wrap_down]. huge Hw.
    unfold raw_from, bind, debug_assert, rb_force_write, ptr, debug_assert, slot_write, set_length. huge Hw. rewrite Hd. huge Hw.
    unfold bind, upd. huge Hw. reflexivity.
  - unfold rb_iter. unfold bind, get. huge Hw. unfold raw_add, bind, uadd. huge Hw. rewrite Hd. reflexivity.
  - unfold rb_destroy, destroying, rb_drop, rb_range. unfold bind, get. huge Hw. unfold raw_add, bind, uadd. huge Hw. rewrite Hd. cbn.
    eexists. unfold log_leak. cbn [dropped leaked writes log_write log0]. f_equal. cbn [app]. f_equal. rewrite two_slots by assumption. reflexivity.
Qed.
Print Assumptions C66_ring_huge_capacity_refuted.
Example C66_example : exists e : env nat, word e = 256 /\ debug e = true. Proof. exists (Env 256 true (fun _ => false)). auto. Qed.
(** What holds: every capacity that elements of a non-zero size can have.  (An object has at most [isize::MAX] bytes, so
    twice its size is below the number of values of [usize].) *)
Theorem C66_sized_elements_partial :
  forall (A : Type) (e : env A) (N size : nat), 0 < size -> 2 * (size * N) < word e -> calm e ->
  (forall p : list (cmd (chunk_op0 A) (chunk_op1 A) (chunk_opn A) (chunk_op2 A)), all_legal (chunk_spec e N) p [] ->
   exists X g, run (chunk_kit e N) p [] log0 = Some (X, g, s_events (srun (chunk_spec e N) p []))) /\
  (forall p : list (cmd (ring_op0 A) (ring_op1 A) (ring_opn A) (ring_op2 A)), 0 < N -> all_legal (ring_spec e N) p [] ->
   exists X g, run (ring_kit e N) p [] log0 = Some (X, g, s_events (srun (ring_spec e N) p []))).
Proof.
  intros A e N size Hs HW Hc. assert (N + N < word e) by nia. split; intros p.
  - intros HL. destruct (C01_chunk_programs_are_list_programs A e N p) as (X & g & E & _); auto. exists X, g. exact E.
  - intros HN HL. destruct (C23_ring_programs_are_list_programs A e N p) as (X & g & E & _); auto. exists X, g. exact E.
Qed.
Print Assumptions C66_sized_elements_partial.
Example C66_sized_example : 0 < 8 /\ 2 * (8 * 4) < word rel /\ calm rel /\ all_legal (chunk_spec rel 4) ex_program [].
Proof. split; [lia|]. split; [vm_compute; lia|]. split; [apply rel_calm|]. apply C01_example. Qed.
