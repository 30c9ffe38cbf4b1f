(** * Methods with a shared receiver ([&self]) change nothing: neither the object nor the log, whoever calls them in
    whatever order. *)
From Verif Require Import Machine Spec Prims IterSpec ChunkModel ChunkProofs ChunkProofs4 ChunkLaws
  RingModel RingProofs RingProofs4 SparseModel SparseSpec SparseProofs SparseProofs2 SparseProofs3
  InlineModel InlineSpec InlineProofs InlineProofs2 InlineLaws RefModel RefProofs RefProofs2.
From Verif Require ChunkProofs3 RingProofs5.

(** Nothing is changed, whatever the state is. *)
Definition reads {A O R} (m : M A O R) : Prop := forall o g,
  match m o g with Ret o' g' _ | Panic o' g' => o' = o /\ g' = g | _ => True end.
(** The second object (the one behind the reference) is not changed. *)
Definition spares {A O1 O2 R} (m : M A (O1 * O2) R) : Prop := forall o g,
  match m o g with Ret o' _ _ | Panic o' _ => snd o' = snd o | _ => True end.
(** The object is not changed (other objects may be built and dropped). *)
Definition keeps_obj {A O R} (m : M A O R) : Prop := forall o g,
  match m o g with Ret o' _ _ | Panic o' _ => o' = o | _ => True end.

Section combinators.
Context {A : Type}.
Lemma reads_ret {O R} (r : R) : reads (ret r : M A O R). Proof. intros o g. cbn. auto. Qed.
Lemma reads_panic {O R} : reads (panic : M A O R). Proof. intros o g. cbn. auto. Qed.
Lemma reads_hang {O R} : reads (hang : M A O R). Proof. intros o g. cbn. auto. Qed.
Lemma reads_undefined {O R} u : reads (undefined u : M A O R). Proof. intros o g. cbn. auto. Qed.
Lemma reads_get {O} : reads (get : M A O O). Proof. intros o g. cbn. auto. Qed.
Lemma reads_bind {O R T} (m : M A O R) (k : R -> M A O T) : reads m -> (forall r, reads (k r)) -> reads (bind m k).
Proof.
  intros Hm Hk o g. unfold bind. specialize (Hm o g). destruct (m o g); auto. destruct Hm as [-> ->]. apply Hk.
Qed.
Lemma reads_uadd {O} e a b : reads (uadd e a b : M A O nat).
Proof. intros o g. unfold uadd. destruct (_ <? _); [cbn; auto|]. destruct (debug e); cbn; auto. Qed.
Lemma reads_usub {O} e a b : reads (usub e a b : M A O nat).
Proof. intros o g. unfold usub. destruct (_ <=? _); [cbn; auto|]. destruct (debug e); cbn; auto. Qed.
Lemma reads_debug_assert {O} e b : reads (debug_assert e b : M A O unit).
Proof. intros o g. unfold debug_assert. destruct (_ && _); cbn; auto. Qed.
Lemma reads_slot_peek {O} `{HasMem A O} N i : reads (slot_peek N i : M A O A).
Proof. intros o g. unfold slot_peek. destruct (_ <? _); [|exact I]. destruct (getm o i); cbn; auto. Qed.
Lemma reads_slots_peek {O} `{HasMem A O} N i n : reads (slots_peek N i n : M A O (list A)).
Proof. intros o g. unfold slots_peek. destruct (_ <=? _); [|exact I]. destruct (mapM _ _); cbn; auto. Qed.
Lemma reads_on_fst {O1 O2 R} (m : M A O1 R) : reads m -> reads (on_fst m : M A (O1 * O2) R).
Proof. intros Hm [o1 o2] g. unfold on_fst. cbn [fst snd]. specialize (Hm o1 g). destruct (m o1 g); auto; destruct Hm as [-> ->]; auto. Qed.
Lemma reads_on_snd {O1 O2 R} (m : M A O2 R) : reads m -> reads (on_snd m : M A (O1 * O2) R).
Proof. intros Hm [o1 o2] g. unfold on_snd. cbn [fst snd]. specialize (Hm o2 g). destruct (m o2 g); auto; destruct Hm as [-> ->]; auto. Qed.
Lemma spares_reads {O1 O2 R} (m : M A (O1 * O2) R) : reads m -> spares m.
Proof. intros Hm o g. specialize (Hm o g). destruct (m o g); auto; destruct Hm as [-> _]; auto. Qed.
Lemma spares_bind {O1 O2 R T} (m : M A (O1 * O2) R) (k : R -> M A (O1 * O2) T) : spares m -> (forall r, spares (k r)) -> spares (bind m k).
Proof.
  intros Hm Hk o g. unfold bind. specialize (Hm o g). destruct (m o g) as [o' g' r| | | |]; auto.
  specialize (Hk r o' g'). destruct (k r o' g'); auto; congruence.
Qed.
Lemma spares_on_fst {O1 O2 R} (m : M A O1 R) : spares (on_fst m : M A (O1 * O2) R).
Proof. intros [o1 o2] g. unfold on_fst. cbn [fst snd]. destruct (m o1 g); auto. Qed.
Lemma keeps_with_local {O1 O2 R} (x : O1) d (m : M A (O1 * O2) R) : spares m -> keeps_obj (with_local x d m).
Proof.
  intros Hm o g. unfold with_local. specialize (Hm (x, o) g). destruct (m (x, o) g) as [o' g' r|o' g'| | |]; auto.
  destruct (d (fst o') g'); auto.
Qed.
Lemma keeps_bind {O R T} (m : M A O R) (k : R -> M A O T) : keeps_obj m -> (forall r, keeps_obj (k r)) -> keeps_obj (bind m k).
Proof.
  intros Hm Hk o g. unfold bind. specialize (Hm o g). destruct (m o g) as [o' g' r| | | |]; auto. subst. apply Hk.
Qed.
Lemma keeps_reads {O R} (m : M A O R) : reads m -> keeps_obj m.
Proof. intros Hm o g. specialize (Hm o g). destruct (m o g); auto; tauto. Qed.
End combinators.

(** Several threads calling such methods: [look o] is the method called, panics are caught.  The schedule is the order in
    which the calls happen, each with the number of the calling thread. *)
Fixpoint serve {A O R op : Type} (look : op -> M A O R) (sched : list (nat * op)) (o : O) (g : log A)
  : option (O * log A * list (nat * option R)) :=
  match sched with
  | [] => Some (o, g, [])
  | (t, q) :: sched' =>
      match look q o g with
      | Ret o' g' r => match serve look sched' o' g' with Some (o2, g2, rs) => Some (o2, g2, (t, Some r) :: rs) | None => None end
      | Panic o' g' => match serve look sched' o' g' with Some (o2, g2, rs) => Some (o2, g2, (t, None) :: rs) | None => None end
      | _ => None
      end
  end.
(** What the call gives when it is made on the object as it is now. *)
Definition answer {A O R op : Type} (look : op -> M A O R) (o : O) (g : log A) (q : op) : option R :=
  match look q o g with Ret _ _ r => Some r | _ => None end.
Definition settles {A O R} (m : M A O R) (o : O) (g : log A) : Prop :=
  match m o g with Ret o' g' _ | Panic o' g' => o' = o /\ g' = g | _ => False end.
Lemma serve_ok {A O R op : Type} (look : op -> M A O R) o g sched :
  Forall (fun tq => settles (look (snd tq)) o g) sched ->
  serve look sched o g = Some (o, g, map (fun tq => (fst tq, answer look o g (snd tq))) sched).
Proof.
  induction 1 as [|[t q] sched H _ IH]; cbn [serve map fst snd]; [reflexivity|]. cbn [snd] in H. unfold settles in H. unfold answer at 1.
  destruct (look q o g) as [o' g' r|o' g'| | |]; try contradiction; destruct H as [-> ->]; rewrite IH; reflexivity.
Qed.
Lemma settles_reads {A O S R R'} (H : O -> S -> Prop) (RR : R -> R' -> Prop) (m : M A O R) o g (x : sres A S R') :
  reads m -> agrees H RR g (m o g) x -> settles m o g.
Proof.
  intros Hm Ha. unfold settles. specialize (Hm o g). destruct x; cbn in Ha.
  - destruct Ha as (o' & g' & r' & E & _). rewrite E in *. exact Hm.
  - destruct Ha as (o' & g' & r' & E & _). rewrite E in *. exact Hm.
Qed.
Lemma settles_Ret {A O R} (m : M A O R) o g r : m o g = Ret o g r -> settles m o g.
Proof. unfold settles. intros ->. auto. Qed.
Lemma settles_bind_ret {A O R T} (m : M A O R) (f : R -> T) o g : settles m o g -> settles (let! x := m in ret (f x)) o g.
Proof. unfold settles, bind. destruct (m o g); auto. Qed.

(** What a shared method can tell. *)
Inductive seen (A : Type) := SeenNat (n : nat) | SeenONat (n : option nat) | SeenNats (l : list nat) | SeenBool (b : bool) | SeenRef (a : A) | SeenORef (a : option A)
  | SeenRefs (l : list A) | SeenHash (h : list (hev A)) | SeenShow (s : shown A) | SeenRange (s : nat * nat)
  | SeenRanges (s : (nat * nat) * (nat * nat)).
Arguments SeenNat {A}. Arguments SeenONat {A}. Arguments SeenNats {A}. Arguments SeenBool {A}. Arguments SeenRef {A}. Arguments SeenORef {A}.
Arguments SeenRefs {A}. Arguments SeenHash {A}. Arguments SeenShow {A}. Arguments SeenRange {A}. Arguments SeenRanges {A}.

Ltac readsy := repeat first
  [ apply reads_bind; [|intros ?] | apply reads_ret | apply reads_panic | apply reads_hang | apply reads_undefined | apply reads_get
  | apply reads_uadd | apply reads_usub | apply reads_debug_assert | apply reads_slot_peek | apply reads_slots_peek
  | apply reads_on_fst | apply reads_on_snd
  | match goal with
    | |- reads (if ?b then _ else _) => destruct b
    | |- reads (match ?x with Some _ => _ | None => _ end) => destruct x
    end ].

(** ** Chunk *)
Section chunk.
Context {A : Type} (e : env A) (N : nat).
Inductive chunk_look := KLen | KIsEmpty | KIsFull | KIndex (i : nat) | KSlice | KHash | KDebug.
Definition look_chunk (o : chunk_look) : M A (chunk A) (seen A) :=
  match o with
  | KLen => let! n := len e in ret (SeenNat n)
  | KIsEmpty => let! c := get in ret (SeenBool (is_empty c))
  | KIsFull => let! c := get in ret (SeenBool (is_full N c))
  | KIndex i => let! a := index e N i in ret (SeenRef a)
  | KSlice => let! l := as_slice e N in ret (SeenRefs l)
  | KHash => let! h := hash e N in ret (SeenHash h)
  | KDebug => let! s := chunk_fmt e N in ret (SeenShow s)
  end.
Lemma reads_as_slice : reads (as_slice e N). Proof. unfold as_slice, len. readsy. Qed.
Lemma look_chunk_settles o c l g : N + N < word e -> Holds N c l -> settles (look_chunk o) c g.
Proof.
  intros HW H. destruct o; cbn [look_chunk].
  - apply settles_bind_ret. eapply settles_reads; [unfold len; readsy|]. apply (ChunkProofs.len_ok e N HW c l g H).
  - unfold settles. cbn. auto.
  - unfold settles. cbn. auto.
  - apply settles_bind_ret. eapply settles_reads; [unfold index, len; readsy|]. apply (ChunkProofs.index_ok e N HW c l g i H).
  - apply settles_bind_ret. eapply settles_reads; [apply reads_as_slice|]. apply (ChunkProofs.as_slice_ok e N HW c l g H).
  - apply settles_bind_ret. eapply settles_Ret. apply (ChunkProofs4.hash_ok e N HW c l g H).
  - apply settles_bind_ret. unfold chunk_fmt. apply settles_bind_ret. eapply settles_reads; [apply reads_as_slice|]. apply (ChunkProofs.as_slice_ok e N HW c l g H).
Qed.
Lemma clone_loop_spares cl n : forall i k, spares (clone_loop e N cl n i k).
Proof.
  induction n as [|n IH]; intros i k; cbn [clone_loop]; [apply spares_reads; readsy|].
  apply spares_bind; [apply spares_reads; readsy|]. intros a. destruct (cl k a) as [a'|]; [|apply spares_reads; readsy].
  apply spares_bind; [apply spares_on_fst|]. intros _. apply spares_bind; [apply spares_reads; readsy|]. intros i1.
  apply spares_bind; [apply spares_on_fst|]. intros _. apply IH.
Qed.
Lemma clone_keeps cl : keeps_obj (clone e N cl).
Proof.
  unfold clone. apply keeps_with_local. apply spares_bind; [apply spares_reads; readsy|]. intros s.
  apply spares_bind; [apply spares_on_fst|]. intros _. apply clone_loop_spares.
Qed.
End chunk.

Lemma settles_bind {A O R T} (m : M A O R) (k : R -> M A O T) o g : settles m o g -> (forall r, settles (k r) o g) -> settles (bind m k) o g.
Proof. unfold settles, bind. intros Hm Hk. destruct (m o g) as [o' g' r| | | |]; auto. destruct Hm as [-> ->]. apply Hk. Qed.
Lemma settles_ret {A O R} (r : R) (o : O) (g : log A) : settles (ret r) o g. Proof. split; reflexivity. Qed.
Lemma settles_panic {A O R} (o : O) (g : log A) : settles (panic : M A O R) o g. Proof. split; reflexivity. Qed.
Lemma settles_get {A O} (o : O) (g : log A) : settles get o g. Proof. split; reflexivity. Qed.
Lemma settles_uadd {A O} e a b (o : O) (g : log A) : settles (uadd e a b) o g.
Proof. unfold settles, uadd. destruct (_ <? _); [cbn; auto|]. destruct (debug e); cbn; auto. Qed.
Lemma settles_usub {A O} e a b (o : O) (g : log A) : settles (usub e a b) o g.
Proof. unfold settles, usub. destruct (_ <=? _); [cbn; auto|]. destruct (debug e); cbn; auto. Qed.
Ltac settle := repeat first
  [ apply settles_bind; [|intros ?] | apply settles_ret | apply settles_panic | apply settles_get | apply settles_uadd | apply settles_usub
  | match goal with
    | |- settles (if ?b then _ else _) _ _ => destruct b
    | |- settles (match ?b with Unbounded => _ | Included _ => _ | Excluded _ => _ end) _ _ => destruct b
    end ].

(** ** RingBuffer and its slices *)
Section ring.
Context {A : Type} (e : env A) (N : nat).
Inductive ring_look :=
  | GLen | GIsEmpty | GIsFull | GGet (i : nat) | GIndex (i : nat) | GIter | GHash | GDebug | GEqSlice (eqA : A -> A -> bool) (other : list A)
  | GSlice (lo hi : bound)
  (* on a slice [s] of the buffer *)
  | GSLen (s : nat * nat) | GSGet (s : nat * nat) (i : nat) | GSIndex (s : nat * nat) (i : nat) | GSIter (s : nat * nat)
  | GSHash (s : nat * nat) | GSDebug (s : nat * nat) | GSEqSlice (s : nat * nat) (eqA : A -> A -> bool) (other : list A)
  | GSSlice (s : nat * nat) (lo hi : bound) | GSSplitAt (s : nat * nat) (i : nat).
Definition look_ring (o : ring_look) : M A (ring A) (seen A) :=
  match o with
  | GLen => let! n := rb_len in ret (SeenNat n)
  | GIsEmpty => let! c := get in ret (SeenBool (rb_is_empty c))
  | GIsFull => let! c := get in ret (SeenBool (rb_is_full N c))
  | GGet i => let! a := rb_get e N i in ret (SeenORef a)
  | GIndex i => let! a := rb_index e N i in ret (SeenRef a)
  | GIter => let! l := rb_contents e N in ret (SeenRefs l)
  | GHash => let! h := rb_hash e N in ret (SeenHash h)
  | GDebug => let! s := rb_fmt e N in ret (SeenShow s)
  | GEqSlice eqA other => let! b := rb_eq_list e N eqA other in ret (SeenBool b)
  | GSlice lo hi => let! s := rb_slice e lo hi in ret (SeenRange s)
  | GSLen s => let! n := sl_len e s in ret (SeenNat n)
  | GSGet s i => let! a := sl_get e N s i in ret (SeenORef a)
  | GSIndex s i => let! a := sl_index e N s i in ret (SeenRef a)
  | GSIter s => let! l := sl_contents e N s in ret (SeenRefs l)
  | GSHash s => let! h := sl_hash e N s in ret (SeenHash h)
  | GSDebug s => let! x := sl_fmt e N s in ret (SeenShow x)
  | GSEqSlice s eqA other => let! b := sl_eq_list e N eqA s other in ret (SeenBool b)
  | GSSlice s lo hi => let! s := sl_slice e s lo hi in ret (SeenRange s)
  | GSSplitAt s i => let! s := sl_split_at e s i in ret (SeenRanges s)
  end.
(** A slice is used only while its buffer cannot change, so it stays within it. *)
Definition ring_look_ok (l : list A) (o : ring_look) : Prop :=
  match o with
  | GSLen s | GSGet s _ | GSIndex s _ | GSIter s | GSHash s | GSDebug s | GSEqSlice s _ _ | GSSlice s _ _ | GSSplitAt s _ => fst s <= snd s <= length l
  | _ => True
  end.
Lemma reads_wrap_down {O} fuel : forall r, reads (wrap_down (O:=O) e N fuel r).
Proof. induction fuel as [|f IH]; intros r; cbn [wrap_down]; readsy. apply IH. Qed.
Lemma reads_rb_get_unchecked i : reads (rb_get_unchecked e N i).
Proof. unfold rb_get_unchecked, raw, raw_add, raw_from, RingModel.ptr. readsy. apply reads_wrap_down. Qed.
Lemma look_ring_settles o r l g : N + N < word e -> 0 < N -> RHolds N r l -> ring_look_ok l o -> settles (look_ring o) r g.
Proof.
  intros HW HN H Ho.
  assert (Hidx : forall i, settles (rb_index e N i) r g).
  { intros i. eapply settles_reads; [unfold rb_index; readsy; apply reads_wrap_down|]. apply (rb_index_ok e N HW HN r l g i H). }
  destruct o; cbn [look_ring ring_look_ok] in *; try apply settles_bind_ret.
  - unfold rb_len. settle.
  - settle.
  - settle.
  - eapply settles_reads; [unfold rb_get; readsy; apply reads_wrap_down|]. apply (rb_get_ok e N HW HN r l g i H).
  - apply Hidx.
  - eapply settles_Ret. apply (rb_contents_eq e N HW HN r l g H).
  - eapply settles_Ret. apply (rb_hash_ok e N HW HN r l g H).
  - eapply settles_Ret. apply (rb_fmt_ok e N HW HN r l g H).
  - eapply settles_Ret. apply (rb_eq_list_ok e N HW HN eqA r l other g H).
  - unfold rb_slice. settle.
  - unfold sl_len. settle.
  - eapply settles_Ret. apply (sl_get_ok e N HW HN s l r g i H Ho).
  - unfold sl_index. apply settles_bind; [settle|intros ?; apply Hidx].
  - eapply settles_Ret. apply (sl_contents_ok e N HW HN s l r g H Ho).
  - eapply settles_Ret. apply (sl_hash_ok e N HW HN s r l g H Ho).
  - eapply settles_Ret. apply (sl_fmt_ok e N HW HN s r l g H Ho).
  - eapply settles_Ret. apply (sl_eq_list_ok e N HW HN eqA s r l other g H Ho).
  - unfold sl_slice. settle.
  - unfold sl_split_at, sl_len. settle.
Qed.
Lemma reads_raw_inc {O} i : reads (raw_inc (O:=O) e N i).
Proof. unfold raw_inc. readsy. Qed.
Lemma rb_clone_loop_spares cl n : forall i k, spares (rb_clone_loop e N cl n i k).
Proof.
  induction n as [|n IH]; intros i k; cbn [rb_clone_loop]; [apply spares_reads; readsy|].
  apply spares_bind; [apply spares_reads, reads_raw_inc|]. intros i1. apply spares_bind; [apply spares_reads; unfold RingModel.ptr; readsy|]. intros _.
  apply spares_bind; [apply spares_reads; readsy|]. intros a. destruct (cl k a) as [a'|]; [|apply spares_reads; readsy].
  apply spares_bind; [apply spares_on_fst|]. intros _. apply spares_bind; [apply spares_reads; readsy|]. intros s.
  apply spares_bind; [apply spares_reads; readsy|]. intros x.
  apply spares_bind; [apply spares_on_fst|]. intros _. apply IH.
Qed.
Lemma reads_rb_new {O} : reads (rb_new (O:=O) e N). Proof. unfold rb_new, raw_from. readsy. Qed.
Lemma rb_clone_keeps cl : keeps_obj (rb_clone e N cl).
Proof.
  unfold rb_clone. apply keeps_bind; [apply keeps_reads, reads_rb_new|]. intros b.
  apply keeps_with_local. apply spares_bind; [apply spares_reads; readsy|]. intros s.
  apply spares_bind; [apply spares_on_fst|]. intros _. apply spares_bind; [apply spares_on_fst|]. intros _.
  apply spares_bind; [apply spares_reads; apply reads_on_snd; unfold rb_range, raw_add, raw_from; readsy; apply reads_wrap_down|].
  intros rg. apply spares_bind; [apply spares_on_fst|]. intros _. apply rb_clone_loop_spares.
Qed.
(** Iterators by reference: the buffer is not touched. *)
Lemma it_next_spares : spares (RingModel.it_next (A:=A) e N).
Proof.
  unfold RingModel.it_next. apply spares_bind; [apply spares_reads; readsy|]. intros s. destruct (_ =? _); [apply spares_reads; readsy|].
  apply spares_bind; [apply spares_reads; readsy|]. intros ?. apply spares_bind; [apply spares_reads, reads_raw_inc|]. intros ?.
  apply spares_bind; [apply spares_on_fst|]. intros ?. apply spares_reads. unfold RingModel.ptr. readsy.
Qed.
Lemma it_next_back_spares : spares (it_next_back (A:=A) e N).
Proof.
  unfold it_next_back. apply spares_bind; [apply spares_reads; readsy|]. intros s. destruct (_ =? _); [apply spares_reads; readsy|].
  apply spares_bind; [apply spares_reads; readsy|]. intros ?. apply spares_bind; [apply spares_reads; unfold raw_dec; readsy|]. intros ?.
  apply spares_bind; [apply spares_on_fst|]. intros ?. apply spares_reads. unfold RingModel.ptr. readsy.
Qed.
End ring.

(** ** SparseChunk *)
Section sparse.
Context {A : Type} (e : env A) (N : nat).
Inductive sparse_look :=
  | PLLen | PLIsEmpty | PLIsFull | PLGet (i : nat) | PLIndex (i : nat) | PLFirst | PLIndices | PLDebug
  | PLEqMap (eqA : A -> A -> bool) (len : nat) (other : nat -> option A).
Definition look_sparse (o : sparse_look) : M A (sparse A) (seen A) :=
  match o with
  | PLLen => let! n := sp_len N in ret (SeenNat n)
  | PLIsEmpty => let! b := sp_is_empty N in ret (SeenBool b)
  | PLIsFull => let! b := sp_is_full N in ret (SeenBool b)
  | PLGet i => let! a := sp_get N i in ret (SeenORef a)
  | PLIndex i => let! a := sp_index N i in ret (SeenRef a)
  | PLFirst => let! i := sp_first_index N in ret (SeenONat i)
  | PLIndices => let! l := sp_indices N in ret (SeenNats l)
  | PLDebug => let! s := sp_fmt N in ret (SeenShow s)
  | PLEqMap eqA len other => let! b := sp_eq_map N eqA len other in ret (SeenBool b)
  end.
Lemma reads_sp_get i : reads (sp_get (A:=A) N i).
Proof. unfold sp_get, map_get, sp_get_unchecked. readsy. Qed.
Lemma reads_sp_index i : reads (sp_index (A:=A) N i).
Proof. unfold sp_index. apply reads_bind; [apply reads_sp_get|]. intros x. readsy. Qed.
Lemma look_sparse_settles o c s g : N < word e -> SHolds N c s -> settles (look_sparse o) c g.
Proof.
  intros HW H. destruct o; cbn [look_sparse]; apply settles_bind_ret.
  - unfold sp_len. settle.
  - unfold sp_is_empty. settle.
  - unfold sp_is_full, sp_len. settle.
  - eapply settles_reads; [apply reads_sp_get|]. apply (sp_get_ok N c s g i H).
  - eapply settles_reads; [apply reads_sp_index|]. apply (sp_index_ok N c s g i H).
  - unfold sp_first_index. settle.
  - unfold sp_indices. settle.
  - eapply settles_Ret. apply (sp_fmt_ok e N HW c s g H).
  - eapply settles_Ret. apply (sp_eq_map_ok N eqA len other c s g H).
Qed.
Lemma sp_clone_loop_spares cl bits : forall k, spares (sp_clone_loop e N cl bits k).
Proof.
  induction bits as [|i bits IH]; intros k; cbn [sp_clone_loop]; [apply spares_reads; readsy|].
  apply spares_bind; [apply spares_reads, reads_on_snd, reads_sp_index|]. intros a. destruct (cl k a) as [a'|]; [|apply spares_reads; readsy].
  apply spares_bind; [apply spares_on_fst|]. intros old. apply spares_bind; [apply spares_on_fst|]. intros _. apply IH.
Qed.
Lemma sp_clone_keeps cl : keeps_obj (sp_clone e N cl).
Proof.
  unfold sp_clone. apply keeps_bind; [apply keeps_reads; unfold sp_new; readsy|]. intros out. apply keeps_with_local.
  apply spares_bind; [apply spares_reads; unfold sp_indices; readsy|]. intros bits. apply sp_clone_loop_spares.
Qed.
End sparse.

(** ** InlineArray, at the address [b] *)
Section inline.
Context {A : Type} (e : env A) (L : layout) (b : nat).
Inductive inline_look := ALen | AIsEmpty | AIsFull | AIndex (i : nat) | ASlice | AHash | ADebug | AEqSlice (eqA : A -> A -> bool) (other : list A).
Definition look_inline (o : inline_look) : M A (inline A) (seen A) :=
  match o with
  | ALen => let! n := ia_len e L b in ret (SeenNat n)
  | AIsEmpty => let! x := ia_is_empty e L b in ret (SeenBool x)
  | AIsFull => let! x := ia_is_full e L b in ret (SeenBool x)
  | AIndex i => let! a := ia_index e L b i in ret (SeenRef a)
  | ASlice => let! l := ia_deref e L b in ret (SeenRefs l)
  | AHash => let! h := ia_hash e L b in ret (SeenHash h)
  | ADebug => let! s := ia_fmt e L b in ret (SeenShow s)
  | AEqSlice eqA other => let! x := ia_eq e L b eqA other in ret (SeenBool x)
  end.
Lemma reads_ptr_add p k w : reads (ptr_add (A:=A) L p k w).
Proof. intros o g. unfold ptr_add. destruct p; repeat match goal with |- context [if ?x then _ else _] => destruct x end; cbn; auto. Qed.
Lemma reads_usize_read p : reads (usize_read (A:=A) L b p).
Proof.
  intros o g. unfold usize_read.
  destruct (negb _); [exact I|]. destruct p as [|off]; [exact I|]. destruct (bytes o off) as [[]|]; try exact I. destruct (forallb _ _); cbn; auto.
Qed.
Lemma reads_ia_len : reads (ia_len (A:=A) e L b).
Proof. unfold ia_len, ia_len_ptr. apply reads_bind; [|intros ?; apply reads_usize_read]. apply reads_bind; [apply reads_ptr_add|]. intros ?. readsy. Qed.
Lemma reads_elems_peek p n : reads (elems_peek (A:=A) L b p n).
Proof.
  intros o g. unfold elems_peek. destruct (negb _); [exact I|]. destruct (_ =? 0); [destruct (_ <=? _); cbn; auto|].
  destruct p as [|off]; [cbn; auto|]. destruct (mapM _ _); cbn; auto.
Qed.
Lemma reads_ia_deref : reads (ia_deref (A:=A) e L b).
Proof.
  unfold ia_deref. apply reads_bind; [|intros ?; apply reads_bind; [apply reads_ia_len|intros ?; apply reads_elems_peek]].
  unfold ia_data. destruct (_ =? 0); [readsy|]. apply reads_bind; [apply reads_ptr_add|]. intros ?. readsy.
Qed.
Lemma ia_clone_loop_spares b2 cl k : forall i, spares (ia_clone_loop e L b b2 cl i k).
Proof.
  induction k as [|k IH]; intros i; cbn [ia_clone_loop]; [apply spares_reads; readsy|].
  apply spares_bind; [apply spares_reads, reads_on_snd, reads_ia_deref|]. intros l.
  destruct (l !! i) as [a|]; [|apply spares_reads; readsy]. destruct (cl i a) as [a'|]; [|apply spares_reads; readsy].
  apply spares_bind; [apply spares_on_fst|]. intros _. apply IH.
Qed.
Lemma ia_clone_keeps b2 cl : keeps_obj (ia_clone e L b b2 cl).
Proof.
  unfold ia_clone. apply keeps_bind.
  - intros o g. destruct (ia_new e L b2 tt g); auto.
  - intros copy. apply keeps_with_local. apply spares_bind; [apply spares_reads, reads_on_snd, reads_ia_len|]. intros n.
    apply spares_bind; [apply ia_clone_loop_spares|]. intros _. apply spares_bind; [apply spares_reads, reads_on_snd, reads_ia_len|]. intros n'.
    apply spares_on_fst.
Qed.
Lemma look_inline_settles o c l g : wf_layout e L -> host_ok e L -> placed L b -> IHolds e L c l -> settles (look_inline o) c g.
Proof.
  intros WF HO Hb H. pose proof (deref_ok e L WF HO b c l g Hb H) as D.
  assert (Hlen : settles (ia_len e L b) c g) by (eapply settles_reads; [apply reads_ia_len|]; apply (ia_len_ok e L WF HO b c l g Hb H)).
  destruct o; cbn [look_inline]; apply settles_bind_ret.
  - exact Hlen.
  - unfold ia_is_empty. apply settles_bind_ret. exact Hlen.
  - unfold ia_is_full. apply settles_bind_ret. exact Hlen.
  - unfold ia_index. unfold settles. erewrite bind_Ret by exact D. destruct (l !! i); cbn; auto.
  - eapply settles_Ret, D.
  - unfold ia_hash. apply settles_bind_ret. eapply settles_Ret, D.
  - unfold ia_fmt. apply settles_bind_ret. eapply settles_Ret, D.
  - unfold ia_eq. apply settles_bind_ret. eapply settles_Ret, D.
Qed.
End inline.

(** What belongs to thread [t]. *)
Definition of_thread {X} (t : nat) (l : list (nat * X)) : list (nat * X) := List.filter (fun tx => fst tx =? t) l.
(** Readers: the object and the log are exactly as before, and every thread gets the answers it would get if it were
    alone. *)
Definition undisturbed {A O R op : Type} (look : op -> M A O R) (o : O) (g : log A) (sched : list (nat * op)) : Prop :=
  exists rs, serve look sched o g = Some (o, g, rs) /\
    forall t, serve look (of_thread t sched) o g = Some (o, g, of_thread t rs).
Lemma serve_undisturbed {A O R op : Type} (look : op -> M A O R) o g sched :
  Forall (fun tq => settles (look (snd tq)) o g) sched -> undisturbed look o g sched.
Proof.
  intros H. eexists. split; [apply serve_ok, H|]. intros t. rewrite serve_ok.
  - unfold of_thread. do 2 f_equal. clear H. induction sched as [|[u x] l IH]; cbn; [reflexivity|]. destruct (u =? t); cbn; rewrite IH; reflexivity.
  - rewrite Forall_forall in *. intros x Hx. apply filter_In in Hx as [Hx _]. apply H. exact Hx.
Qed.
Definition source_kept {A O R} (m : M A O R) (o : O) (g : log A) : Prop :=
  match m o g with Ret o' _ _ | Panic o' _ => o' = o | _ => False end.
Lemma source_kept_agrees {A O S R R'} (H : O -> S -> Prop) (RR : R -> R' -> Prop) (m : M A O R) o g (x : sres A S R') :
  keeps_obj m -> agrees H RR g (m o g) x -> source_kept m o g.
Proof.
  intros Hm Ha. unfold source_kept. specialize (Hm o g). destruct x; cbn in Ha; destruct Ha as (o' & g' & r' & E & _); rewrite E in *; exact Hm.
Qed.
