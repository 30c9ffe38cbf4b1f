(** * The unsafe accessors [get_unchecked] and [get_unchecked_mut]: what their documented precondition buys, and what
    happens without it.  A reference is the number of the slot it points to (RefModel.v). *)
From Verif Require Import Machine Spec Prims ChunkExamples RingModel RingProofs RingProofs4 RingProofs6 RingLaws
  RefModel RefProofs SparseModel SparseProofs.

Lemma wrap_mod N o i : o < N -> (o + i) mod N = wr N (o + i mod N).
Proof.
  intros Ho. assert (i mod N < N) by (apply Nat.mod_upper_bound; lia).
  rewrite <- Nat.add_mod_idemp_r by lia. unfold wr. destruct (o + i mod N <? N) eqn:E.
  - apply Nat.mod_small. lia.
  - symmetry. apply (Nat.mod_unique _ _ 1); lia.
Qed.
Lemma rb_get_unchecked_exact {A} (e : env A) N r (l : list A) g i : N + N < word e -> 0 < N -> RHolds N r l -> i + N <= word e ->
  rb_get_unchecked e N i r g = match l !! (i mod N) with Some a => Ret r g a | None => UB DeadSlot end /\
  rb_get_unchecked_mut e N i r g = Ret r g (wr N (origin r + i mod N)).
Proof.
  intros HW HN H Hi. pose proof H as (Ho & Hl & Hc & Hm).
  assert (Hb : i mod N < N) by (apply Nat.mod_upper_bound; lia).
  assert (Hw : wr N (origin r + i mod N) < N) by (apply wr_lt; lia).
  split.
  - unfold rb_get_unchecked, raw. rewrite bind_bind. erewrite (bind_Ret get) by reflexivity.
    erewrite bind_Ret by (apply (raw_add_mod e N); lia). rewrite wrap_mod by lia.
    erewrite bind_Ret by (apply ptr_ok; lia). unfold slot_peek. rewrite if_true by lia. cbn [getm ring_mem].
    rewrite Hm, if_true by lia. rewrite lg_wr by lia. reflexivity.
  - unfold rb_get_unchecked_mut, raw. rewrite bind_bind. erewrite (bind_Ret get) by reflexivity.
    erewrite bind_Ret by (apply (raw_add_mod e N); lia). rewrite wrap_mod by lia.
    erewrite bind_Ret by (apply ptr_ok; lia). reflexivity.
Qed.

(** C74.  For an index in bounds, [get_unchecked] of a ring buffer returns the element [get] returns, and
    [get_unchecked_mut] the reference [get_mut] returns: replacing the value behind it changes that element and nothing
    else.  Neither changes the buffer or drops anything. *)
Theorem C74_ring_unchecked_in_bounds :
  forall (A : Type) (e : env A) (N i : nat) (r : ring A) (l : list A) (v : A) (g : log A),
  N + N < word e -> RHolds N r l -> l !! i = Some v ->
  rb_get_unchecked e N i r g = Ret r g v /\
  rb_get e N i r g = Ret r g (Some v) /\
  exists p, rb_get_unchecked_mut e N i r g = Ret r g p /\
    rb_get_mut e N i r g = Ret r g (Some p) /\ slot_peek N p r g = Ret r g v /\
    forall f, exists r' g', modify_slot N p f r g = Ret r' g' tt /\ RHolds N r' (<[i := f v]> l) /\
      dropped g' = dropped g /\ leaked g' = leaked g.
Proof.
  intros A e N i r l v g HW H Hv. assert (Hi : i < length l) by (eapply lookup_lt_Some; exact Hv).
  assert (HN : 0 < N) by (destruct H as (? & _); lia).
  split; [eapply rb_get_unchecked_ok; eassumption|]. split.
  { unfold rb_get. erewrite (bind_Ret get) by reflexivity. pose proof H as (_ & Hl & _). rewrite Hl, if_false by lia.
    erewrite bind_Ret by (eapply rb_get_unchecked_ok; eassumption). reflexivity. }
  exists (wr N (origin r + i)). split; [eapply rb_get_unchecked_mut_ok; eassumption|]. split.
  { erewrite rb_get_mut_ok by eassumption. rewrite if_true by lia. reflexivity. }
  split.
  { apply slot_peek_ok; [eapply slot_of_lt; eassumption|]. cbn [getm ring_mem]. rewrite <- Hv. eapply slot_of_holds; eassumption. }
  intros f. edestruct (modify_slot_ok e N) as (r' & g' & E & H' & _ & D); [eassumption..|]. eauto.
Qed.
Print Assumptions C74_ring_unchecked_in_bounds.

(** Out of bounds the index is taken modulo the capacity: [get_unchecked] reads the element at [i mod N] if there is one,
    and otherwise a slot that holds no value, which is undefined behaviour.  So the precondition cannot be weakened for
    indices below the capacity, and no index reaches outside the buffer's memory.  ([get] returns [None] for all of these.) *)
Theorem C74_ring_unchecked_everywhere :
  forall (A : Type) (e : env A) (N i : nat) (r : ring A) (l : list A) (g : log A),
  N + N < word e -> RHolds N r l -> i + N <= word e ->
  rb_get_unchecked e N i r g = (match l !! (i mod N) with Some a => Ret r g a | None => UB DeadSlot end) /\
  (forall p, rb_get_unchecked_mut e N i r g = Ret r g p ->
     p < N /\ rb_get_unchecked_mut e N (i mod N) r g = Ret r g p).
Proof.
  intros A e N i r l g HW H Hi. assert (HN : 0 < N) by (destruct H as (? & _); lia).
  pose proof (rb_get_unchecked_exact e N r l g i HW HN H Hi) as [E1 E2]. split; [exact E1|].
  intros p E. rewrite E2 in E. injection E as <-. destruct H as (Ho & H).
  pose proof (Nat.mod_upper_bound i N). split; [apply wr_lt; lia|].
  pose proof (rb_get_unchecked_exact e N r l g (i mod N) HW HN (conj Ho H) ltac:(lia)) as [_ ->].
  rewrite Nat.mod_mod by lia. reflexivity.
Qed.
Print Assumptions C74_ring_unchecked_everywhere.

(** A slice [lo..hi] of the buffer: in bounds the element (or reference) is the one [get] ([get_mut]) of the slice
    returns, at [lo + i] of the buffer; out of its bounds, the buffer's own unchecked access at [lo + i] - no check against
    the slice's end. *)
Theorem C74_slice_unchecked :
  forall (A : Type) (e : env A) (N lo hi i : nat) (r : ring A) (l : list A) (g : log A),
  N + N < word e -> RHolds N r l -> lo <= hi <= length l -> lo + i < word e ->
  (i < hi - lo -> exists v p, l !! (lo + i) = Some v /\
     sl_get_unchecked e N (lo, hi) i r g = Ret r g v /\ sl_get e N (lo, hi) i r g = Ret r g (Some v) /\
     sl_get_unchecked_mut e N (lo, hi) i r g = Ret r g p /\ sl_get_mut e N (lo, hi) i r g = Ret r g (Some p) /\
     rb_get_mut e N (lo + i) r g = Ret r g (Some p)) /\
  sl_get_unchecked e N (lo, hi) i r g = rb_get_unchecked e N (lo + i) r g /\
  sl_get_unchecked_mut e N (lo, hi) i r g = rb_get_unchecked_mut e N (lo + i) r g.
Proof.
  intros A e N lo hi i r l g HW H Hr Hw. assert (HN : 0 < N) by (destruct H as (? & _); lia).
  assert (E1 : sl_get_unchecked e N (lo, hi) i r g = rb_get_unchecked e N (lo + i) r g).
  { unfold sl_get_unchecked. cbn [fst]. erewrite bind_Ret by (apply uadd_ok; lia). reflexivity. }
  assert (E2 : sl_get_unchecked_mut e N (lo, hi) i r g = rb_get_unchecked_mut e N (lo + i) r g).
  { unfold sl_get_unchecked_mut. cbn [fst]. erewrite bind_Ret by (apply uadd_ok; lia). reflexivity. }
  split; [|auto]. intros Hi. destruct (l !! (lo + i)) as [v|] eqn:Hv; [|apply lookup_ge_None in Hv; lia].
  exists v, (wr N (origin r + (lo + i))). split; [reflexivity|]. rewrite E1, E2.
  split; [eapply rb_get_unchecked_ok; eassumption|]. split.
  { erewrite sl_get_ok by eassumption. erewrite sub_list_lookup by (eassumption || (cbn; lia)). cbn [fst]. rewrite Hv. reflexivity. }
  split; [eapply rb_get_unchecked_mut_ok; eauto; lia|]. split.
  - erewrite sl_get_mut_ok by eassumption. cbn [fst snd]. rewrite if_true by lia. reflexivity.
  - erewrite rb_get_mut_ok by eassumption. rewrite if_true by lia. reflexivity.
Qed.
Print Assumptions C74_slice_unchecked.

(** [SparseChunk::get_unchecked]: the value of an occupied cell, as [get]; an empty cell is an uninitialised read, an index
    past the capacity a read outside the array - the two ways to break the precondition. *)
Theorem C74_sparse_unchecked :
  forall (A : Type) (N i : nat) (c : sparse A) (s : list (option A)) (g : log A),
  SHolds N c s ->
  sp_get_unchecked N i c g =
    (match s !! i with Some (Some v) => Ret c g v | Some None => UB DeadSlot | None => UB OutOfBounds end) /\
  (forall v, s !! i = Some (Some v) -> sp_get N i c g = Ret c g (Some v)).
Proof.
  intros A N i c s g H. split.
  - destruct H as (HL & _ & H3). unfold sp_get_unchecked, slot_peek. cbn [getm sparse_mem].
    destruct (s !! i) as [o|] eqn:E.
    + assert (i < length s) by (eapply lookup_lt_Some; exact E). rewrite if_true by lia. rewrite H3, E. destruct o; reflexivity.
    + apply lookup_ge_None in E. rewrite if_false by lia. reflexivity.
  - intros v Hv. rewrite (sp_get_eq N c s g i H), Hv. reflexivity.
Qed.
Print Assumptions C74_sparse_unchecked.

(** A ring of capacity 4 holding 3, 1, 2 from slot 3 on: in bounds, in the gap, and past the capacity. *)
Example C74_example :
  rb_get_unchecked dbg 4 1 ex_ring log0 = Ret ex_ring log0 1 /\
  rb_get_unchecked dbg 4 3 ex_ring log0 = UB DeadSlot /\
  rb_get_unchecked dbg 4 6 ex_ring log0 = Ret ex_ring log0 2 /\
  sl_get_unchecked dbg 4 (0, 1) 1 ex_ring log0 = Ret ex_ring log0 1 /\
  sl_get dbg 4 (0, 1) 1 ex_ring log0 = Ret ex_ring log0 None.
Proof.
  assert (W : 4 + 4 < word dbg) by (cbn; lia). assert (W' : forall k, k <= 7 -> k + 4 <= word dbg) by (cbn; lia).
  pose proof (proj1 ex_ring_holds) as H.
  split; [exact (proj1 (C74_ring_unchecked_in_bounds _ dbg 4 1 _ _ 1 log0 W H eq_refl))|].
  split; [exact (proj1 (C74_ring_unchecked_everywhere _ dbg 4 3 _ _ log0 W H (W' 3 ltac:(lia))))|].
  split; [exact (proj1 (C74_ring_unchecked_everywhere _ dbg 4 6 _ _ log0 W H (W' 6 ltac:(lia))))|].
  split; vm_compute; reflexivity.
Qed.
