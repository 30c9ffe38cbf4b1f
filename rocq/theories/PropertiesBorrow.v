(** * The aliasing rules (C70) *)
From Verif Require Import Machine Spec IterSpec IterSpec2 BorrowModel BorrowSpec BorrowProofs3 BorrowProofs4 BorrowProofs5 BorrowProofs6
  BorrowProofs7 BorrowProofs8 BorrowLink BorrowLink2 BorrowLink3.
From Verif Require RingLaws ChunkModel ChunkProofs ChunkExamples RingModel RingProofs RingProofs4 SparseSpec SparseModel SparseProofs.

(** C70, full statement: no call of the crate, and no client that uses the references it got as long as the borrow checker
    lets it, uses a pointer or reference after the aliasing rules (Stacked Borrows, Tree Borrows) have invalidated it.

    Tree Borrows, histories of calls on any number of objects: true. *)
Theorem C70_calls_follow_tree_borrows :
  forall (N k : nat) (cs : list call),
  Forall (valid_call N k) cs -> tb_accepts (trace k (b_calls N cs)).
Proof. exact tb_calls_ok. Qed.
Print Assumptions C70_calls_follow_tree_borrows.
(** That is not for want of accesses: the calls read and write the places they should, and no other. *)
Theorem C70_calls_accesses :
  forall (N k : nat) (c : call) (w : bool) (l : place), valid_call N k c ->
  (exists p rg, In (Acc w p rg) (trace k (b_call N c)) /\ rg l = true) <-> (if w then call_writes c l else call_reads c l).
Proof. exact calls_accesses. Qed.
Print Assumptions C70_calls_accesses.
(** Stacked Borrows: exactly the histories in which no elements are moved inside a [Chunk], and no element but the last is
    removed from an [InlineArray]. *)
Theorem C70_calls_stacked_borrows_partial :
  forall (N k : nat) (cs : list call),
  Forall (valid_call N k) cs ->
  sb_accepts (trace k (b_calls N cs)) <->
  forall c, In c cs -> match c with ChunkCopy _ _ _ n => n = 0 | ArrayRemove _ len i => i + 1 = len | _ => True end.
Proof.
  intros N k cs H. rewrite (sb_calls_exact N k cs H). rewrite List.Exists_exists. rewrite List.Forall_forall in H. split.
  - intros HE c Hc. specialize (H c Hc). destruct c; cbn [valid_call] in H; try exact I;
      match goal with |- ?x = ?y => destruct (decide (x = y)); [assumption|exfalso; apply HE; eexists; split; [exact Hc|cbn; lia]] end.
  - intros HA (c & Hc & HS). specialize (HA c Hc). destruct c; cbn in HS, HA; try contradiction; lia.
Qed.
Print Assumptions C70_calls_stacked_borrows_partial.

(** Programs on one [Chunk]: the same, with the calls and the places of the elements as the methods compute them. *)
Theorem C70_chunk_programs_partial :
  forall (A : Type) (e : env A) (N o k : nat) (c : ChunkModel.chunk A) (l : list A) (g : log A) (ops : list (chunk_op * A)),
  N + N < word e -> calm e -> o < k -> ChunkProofs.Holds N c l ->
  tb_accepts (trace k (b_calls N (chunk_program N o (ChunkModel.left c) (ChunkModel.right c) (map fst ops)))) /\
  (sb_accepts (trace k (b_calls N (chunk_program N o (ChunkModel.left c) (ChunkModel.right c) (map fst ops)))) <->
   forall c' op, In (c', op) (performed e N ops c g) -> ~ moves N (ChunkModel.left c') (ChunkModel.right c') op).
Proof.
  intros A e N o k c l g ops HW HC Ho H. destruct (chunk_program_ok e N HW HC o k ops Ho c l g H) as (V & S).
  split; [apply tb_calls_ok, V|]. rewrite (sb_calls_exact N k _ V), S, List.Exists_exists. split.
  - intros HE c' op Hin HM. apply HE. exists (c', op). auto.
  - intros HA ([c' op] & Hin & HM). exact (HA c' op Hin HM).
Qed.
Print Assumptions C70_chunk_programs_partial.
(** The calls of BorrowModel.v are the ones of the method: it returns or panics, and leaves the two fields where
    ChunkModel.v says, and what the copies, writes and reads among them do to the slots, one after the other, is what
    ChunkModel.v says the method does to them ([leaves] and [replays], BorrowLink3.v). *)
Theorem C70_chunk_calls_meaning :
  forall (A : Type) (e : env A) (N o : nat) (c : ChunkModel.chunk A) (g : log A) (op : chunk_op) (v : A),
  N + N < word e -> calm e -> ChunkModel.left c <= ChunkModel.right c <= N ->
  match op_code e N op v c g with
  | Ret c' _ _ => exists cs, chunk_calls N o (ChunkModel.left c) (ChunkModel.right c) op =
                    Some (cs, (ChunkModel.left c', ChunkModel.right c')) /\
                    replays v cs (ChunkModel.cdata c) (ChunkModel.cdata c')
  | Panic _ _ => chunk_calls N o (ChunkModel.left c) (ChunkModel.right c) op = None
  | _ => True
  end.
Proof.
  intros A e N o c g op v HW HC H. pose proof (op_code_fields e N HW HC op v c g o ltac:(lia) ltac:(lia)) as H1.
  pose proof (op_code_replays e N HW HC op v c g o ltac:(lia) ltac:(lia)) as H2.
  destruct (op_code e N op v c g); [exact H2|exact H1|exact I|exact I|exact I].
Qed.
Print Assumptions C70_chunk_calls_meaning.

(** The references [iter_mut] of a [RingBuffer], or of a mutable slice of one, gives out by any mix of [next] and [next_back]
    can all be kept, and read and written through in any order: both models accept. *)
Theorem C70_ring_iter_mut :
  forall (A : Type) (e : env A) (N : nat) (r : RingModel.ring A) (l : list A) (g g' : log A) (ix : RingModel.idx)
    (sides : list side) (x : RingModel.idx * RingModel.ring A) (outs : list ((nat * option nat) * option (nat * A)))
    (o k : nat) (script : list iact),
  N + N < word e -> 0 < N -> RingProofs.RHolds N r l -> o < k ->
  (RingModel.rb_iter e N r g = Ret r g ix \/
   exists s, RingProofs4.in_range s l /\ RingModel.sl_iter e N s r g = Ret r g ix) ->
  pull_all (RingModel.it_next e N) (RingModel.it_next_back e N) RingModel.it_size_hint sides (ix, r) g = Ret x g' outs ->
  sb_accepts (trace k (b_ring_client N o script (slots_got outs))) /\
  tb_accepts (trace k (b_ring_client N o script (slots_got outs))).
Proof.
  intros A e N r l g g' ix sides x outs o k script HW HN H Hk [E|(s & Hs & E)] E2.
  - exact (ring_iter_mut e N HW HN r l g ix sides x g' outs o k script H Hk E E2).
  - exact (ring_slice_iter_mut e N HW HN s r l g ix sides x g' outs o k script H Hs Hk E E2).
Qed.
Print Assumptions C70_ring_iter_mut.

(** The references [iter_mut] and [option_iter_mut] of a [SparseChunk] give out.  Stacked Borrows: accepted exactly if only
    the reference got last is ever used.  Tree Borrows: accepted exactly if no reference is written through, then another
    one got, then the first written through again. *)
Theorem C70_sparse_iter_mut_partial :
  forall (A : Type) (e : env A) (N n : nat) (c : SparseModel.sparse A) (s : list (option A)) (g : log A) (ys : list (option nat))
    (o k : nat) (script : list iact),
  N < word e -> SparseProofs.SHolds N c s -> o < k ->
  (exists x g' outs, pull_n (SparseModel.im_next N) (SparseModel.it_size_hint N) n (c, SparseModel.smap c) g = Ret x g' outs /\
     ys = slots_got outs) \/
  (exists x g' outs, pull_n (SparseModel.om_next e N) (SparseModel.oi_size_hint e N) n (c, 0) g = Ret x g' outs /\
     ys = cells_got outs) ->
  (sb_accepts (trace k (b_sp_client N o script ys)) <->
   forall s1 w j s2, script = s1 ++ Touch w j :: s2 -> j < got s1 ys -> S j = got s1 ys) /\
  (tb_accepts (trace k (b_sp_client N o script ys)) <->
   ~ exists s1 j s2 s3 s4, script = s1 ++ Touch true j :: s2 ++ Next :: s3 ++ Touch true j :: s4 /\ j < got s1 ys /\
       got (s1 ++ Touch true j :: s2) ys < got (s1 ++ Touch true j :: s2 ++ [Next]) ys).
Proof.
  intros A e N n c s g ys o k script HW H Hk HY.
  assert (HH : NoDup (somes ys) /\ Forall (fun i => i < N) (somes ys)).
  { destruct HY as [(x & g' & outs & E & ->)|(x & g' & outs & E & ->)].
    - apply (im_slots e N HW c s n g x g' outs H E).
    - apply (om_slots e N HW c s n g x g' outs H E). }
  destruct HH as (D & F). split.
  - rewrite (sp_sb_exact N o k Hk script ys F), latest_only_spec. reflexivity.
  - rewrite (sp_tb_exact N o k Hk script ys F D), no_rewrite_spec. unfold rewritten, write_after_next.
    assert (G : forall s1 t, got (s1 ++ t) ys = got s1 ys + got t (drop (nexts s1) ys)).
    { intros s1 t. unfold got. assert (nexts (s1 ++ t) = nexts s1 + nexts t) as ->.
      { induction s1 as [|[|? ?] s1 IH]; cbn; [reflexivity|rewrite IH; reflexivity|exact IH]. }
      generalize (nexts s1) (nexts t). clear. intros a b. revert ys. induction a as [|a IH]; intros ys; [reflexivity|].
      destruct ys as [|[i|] ys]; cbn; [rewrite firstn_nil; reflexivity| |]; rewrite IH; reflexivity. }
    split; intros HA HE; apply HA.
    + destruct HE as (s1 & j & s2 & s3 & s4 & E & Hj & Hg). exists s1, j, (s2 ++ Next :: s3 ++ Touch true j :: s4).
      split; [exact E|]. split; [exact Hj|]. exists s2, s3, s4. split; [reflexivity|]. rewrite !G in Hg.
      change (got (Touch true j :: s2) (drop (nexts s1) ys)) with (got s2 (drop (nexts s1) ys)) in Hg.
      change (got (Touch true j :: s2 ++ [Next]) (drop (nexts s1) ys)) with (got (s2 ++ [Next]) (drop (nexts s1) ys)) in Hg. lia.
    + destruct HE as (s1 & j & rest & E & Hj & s2 & s3 & s4 & -> & Hg). exists s1, j, s2, s3, s4. split; [exact E|].
      split; [exact Hj|]. rewrite !G.
      change (got (Touch true j :: s2) (drop (nexts s1) ys)) with (got s2 (drop (nexts s1) ys)).
      change (got (Touch true j :: s2 ++ [Next]) (drop (nexts s1) ys)) with (got (s2 ++ [Next]) (drop (nexts s1) ys)). lia.
Qed.
Print Assumptions C70_sparse_iter_mut_partial.

(** The halves of [SliceMut::split_at]. *)
Theorem C70_split_at_partial :
  forall (N o k : nat) (us : list use), o < k -> Forall (fun u => use_slot u < N) us ->
  (sb_accepts (trace k (b_split_client N o us)) <-> forall u, In u us -> right_half u = true) /\
  (tb_accepts (trace k (b_split_client N o us)) <->
   ~ exists us1 u us2 u' us3, us = us1 ++ u :: us2 ++ u' :: us3 /\ writes_ u = true /\ right_half u' <> right_half u).
Proof.
  intros N o k us Hk HU. split.
  - rewrite (split_sb_exact N o k Hk us HU), List.Forall_forall. reflexivity.
  - exact (split_tb_exact N o k Hk us HU).
Qed.
Print Assumptions C70_split_at_partial.

(** What the clients access: the item of the reference used. *)
Theorem C70_clients_access :
  forall (N o k : nat) (script : list iact) (ys : list (option nat)) (us : list use) (w : bool) (l : place),
  ((exists p rg, In (Acc w p rg) (trace k (b_ring_client N o script ys)) /\ rg l = true) <->
   exists s1 j s2 i, script = s1 ++ Touch w j :: s2 /\ somes (take (nexts s1) ys) !! j = Some i /\ l = (o, 1 + i)) /\
  ((exists p rg, In (Acc w p rg) (trace k (b_sp_client N o script ys)) /\ rg l = true) <->
   exists s1 j s2 i, script = s1 ++ Touch w j :: s2 /\ somes (take (nexts s1) ys) !! j = Some i /\ l = (o, 1 + i)) /\
  ((exists p rg, In (Acc w p rg) (trace k (b_split_client N o us)) /\ rg l = true) <->
   exists u, In u us /\ writes_ u = w /\ l = (o, 1 + use_slot u)).
Proof.
  intros. split; [apply ring_client_accesses|]. split; [apply sp_client_accesses|apply split_client_accesses].
Qed.
Print Assumptions C70_clients_access.
(** The full statement is false of the code. *)
Theorem C70_aliasing_refuted :
  (* removing an inner element of a [Chunk] *)
  (forall (A : Type) (e : env A) (N o k : nat) (c : ChunkModel.chunk A) (l : list A) (g : log A) (i : nat) (v : A),
     N + N < word e -> calm e -> o < k -> ChunkProofs.Holds N c l -> 0 < i -> i + 1 < length l ->
     ~ sb_accepts (trace k (b_calls N (chunk_program N o (ChunkModel.left c) (ChunkModel.right c) [CRemove i])))) /\
  (* removing any element but the last of an [InlineArray] *)
  (forall N o k len i, o < k -> len <= N -> i + 1 < len -> ~ sb_accepts (trace k (b_calls N [ArrayRemove o len i]))) /\
  (* [let a = it.next(); *a = ..; let b = it.next(); *a = ..] with [it = sparse.iter_mut()] *)
  (forall (A : Type) (e : env A) (N : nat) (c : SparseModel.sparse A) (s : list (option A)) (g : log A) (o k : nat),
     N < word e -> SparseProofs.SHolds N c s -> o < k -> 2 <= length (SparseSpec.occupied s) ->
     exists x g' outs, pull_n (SparseModel.im_next N) (SparseModel.it_size_hint N) 2 (c, SparseModel.smap c) g = Ret x g' outs /\
       ~ sb_accepts (trace k (b_sp_client N o [Next; Next; Touch true 0] (slots_got outs))) /\
       ~ tb_accepts (trace k (b_sp_client N o [Next; Touch true 0; Next; Touch true 0] (slots_got outs)))) /\
  (* writing to the left half, then to the right half *)
  (forall N o k i j, o < k -> i < N -> j < N ->
     ~ sb_accepts (trace k (b_split_client N o [Use false true i; Use true true j])) /\
     ~ tb_accepts (trace k (b_split_client N o [Use false true i; Use true true j]))).
Proof.
  split; [|split; [|split]].
  - intros A e N o k c l g i v HW HC Ho H Hi Hl HA.
    destruct (C70_chunk_programs_partial A e N o k c l g [(CRemove i, v)] HW HC Ho H) as (_ & (HS & _)).
    specialize (HS HA). pose proof (op_code_fields e N HW HC (CRemove i) v c g o) as HF. pose proof (op_code_kept e N HW HC (CRemove i) v c l g H) as HK.
    destruct H as (H1 & H2 & _). specialize (HF ltac:(lia) ltac:(lia)). cbn [performed] in HS.
    destruct (op_code e N (CRemove i) v c g) as [c' g' []|c' g'| | |]; try contradiction HK.
    + apply (HS c (CRemove i)); [left; reflexivity|]. cbn. lia.
    + cbn [chunk_calls] in HF. destruct (_ <=? i) eqn:E; [lia|]. destruct (i <? _); discriminate HF.
  - intros N o k len i Ho Hl Hi HA.
    assert (V : Forall (valid_call N k) [ArrayRemove o len i]) by (repeat constructor; cbn; lia).
    pose proof (proj1 (C70_calls_stacked_borrows_partial N k _ V) HA (ArrayRemove o len i) (or_introl eq_refl)) as HH. cbn in HH. lia.
  - intros A e N c s g o k HW H Hk Hl.
    destruct (SparseLaws2.sparse_iterators A e N 2 c s g HW H) as (_ & _ & (b & g1 & E & _) & _).
    eexists _, g1, _. split; [exact E|].
    destruct (im_slots e N HW c s 2 g _ g1 _ H E) as (EY & _ & _).
    assert (G : forall s1, got s1 (slots_got (serves (fun _ => (0, Some N)) 2 (SparseSpec.entries s))) = min (nexts s1) 2).
    { intros s1. unfold got. rewrite EY. destruct (SparseSpec.occupied s) as [|p [|q t]]; cbn in Hl; try lia.
      cbn. destruct (nexts s1) as [|[|[|?]]]; reflexivity. }
    assert (EX : exists x g' outs, pull_n (SparseModel.im_next N) (SparseModel.it_size_hint N) 2 (c, SparseModel.smap c) g = Ret x g' outs /\
      slots_got (serves (fun _ => (0, Some N)) 2 (SparseSpec.entries s)) = slots_got outs) by eauto.
    split; intros HA.
    + destruct (C70_sparse_iter_mut_partial A e N 2 c s g _ o k [Next; Next; Touch true 0] HW H Hk (or_introl EX)) as ((HS & _) & _).
      specialize (HS HA [Next; Next] true 0 [] eq_refl). rewrite G in HS. cbn in HS. lia.
    + destruct (C70_sparse_iter_mut_partial A e N 2 c s g _ o k [Next; Touch true 0; Next; Touch true 0] HW H Hk (or_introl EX)) as (_ & (HS & _)).
      apply (HS HA). exists [Next], 0, [], [], []. split; [reflexivity|]. rewrite !G. cbn. lia.
  - intros N o k i j Hk Hi Hj. assert (HU : Forall (fun u => use_slot u < N) [Use false true i; Use true true j]) by (repeat constructor; assumption).
    destruct (C70_split_at_partial N o k _ Hk HU) as (HS & HT). rewrite HS, HT. split.
    + intros HA. discriminate (HA (Use false true i) (or_introl eq_refl)).
    + intros HA. apply HA. exists [], (Use false true i), [], (Use true true j), []. split; [reflexivity|]. split; [reflexivity|discriminate].
Qed.
Print Assumptions C70_aliasing_refuted.

(** Non-vacuity: concrete cases. *)
Example C70_example_calls : Forall (valid_call 8 2)
  [ChunkWrite 0 3; ChunkCopyTo 0 1 0 2 4; ChunkCopy 1 2 4 2; RingGetMut 0 5; ArrayInsert 1 3 1; ChunkFromArray 0 1 3].
Proof. repeat constructor; cbn; lia. Qed.
Example C70_example_program : chunk_program 4 0 0 2 [CPushFront; CRemove 1; CPopBack; CPopBack; CPopBack] =
  [Fields 0; Fields 0; SetFields 0; ChunkCopy 0 0 2 2; SetFields 0; SetFields 0; ChunkWrite 0 1;
   Fields 0; ChunkRead 0 2; ChunkCopy 0 3 2 1; SetFields 0; Fields 0; SetFields 0; ChunkRead 0 2; Fields 0; SetFields 0; ChunkRead 0 1].
Proof. reflexivity. Qed.
Example C70_example_stacked : follow (sb_step (0, 3)) (trace 1 (b_calls 4 [ChunkCopy 0 2 0 1])) (stack0 (0, 3)) = None.
Proof. reflexivity. Qed.
Example C70_example_tree : follow (tb_step (0, 3)) (trace 1 (b_calls 4 [ChunkCopy 0 2 0 1])) tree0 <> None.
Proof. discriminate. Qed.
Example C70_example_ring : exists ix x g outs, RingModel.rb_iter ChunkExamples.dbg 4 RingLaws.ex_ring log0 = Ret RingLaws.ex_ring log0 ix /\
  pull_all (RingModel.it_next ChunkExamples.dbg 4) (RingModel.it_next_back ChunkExamples.dbg 4) RingModel.it_size_hint [Back; Front; Front; Front] (ix, RingLaws.ex_ring) log0 =
    Ret x g outs /\ slots_got outs = [Some 1; Some 3; Some 0; None].
Proof. eexists _, _, _, _. split; [|split]; vm_compute; reflexivity. Qed.
Example C70_example_sparse :
  match (SparseModel.sp_insert ChunkExamples.dbg 4 3 5 ;;; SparseModel.sp_insert ChunkExamples.dbg 4 1 6) SparseModel.sparse0 log0 with
  | Ret c g _ =>
      match pull_n (SparseModel.im_next 4) (SparseModel.it_size_hint 4) 3 (c, SparseModel.smap c) g with
      | Ret _ _ r => slots_got r = [Some 1; Some 3; None]
      | _ => False
      end
  | _ => False
  end.
Proof. vm_compute. reflexivity. Qed.
