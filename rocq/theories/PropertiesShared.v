(** * Methods that take [&self]. *)
From Verif Require Import Machine Spec Prims ChunkModel ChunkProofs ChunkExamples RingModel RingProofs RingProofs4 RingLaws
  SparseModel SparseSpec SparseProofs SparseProofs2 InlineModel InlineSpec InlineProofs2 ReadOnly.
From Verif Require ChunkProofs3 RingProofs5 InlineProofs3 PropertiesInline.

(** C65.  Any number of threads may share a container by reference.  [sched] is any interleaving of their calls of [&self]
    methods: the container and the log (drops, leaks, writes) are exactly as before -- not only the contents -- and every
    thread gets the answers it would get alone ([undisturbed]).  [clone], which builds another container, leaves its
    source exactly as it is, also when a clone of an element panics. *)
Theorem C65_chunk_shared_methods_change_nothing :
  forall (A : Type) (e : env A) (N : nat) (c : chunk A) (l : list A) (g : log A) (sched : list (nat * chunk_look)),
  N + N < word e -> Holds N c l ->
  undisturbed (look_chunk e N) c g sched /\
  (calm e -> forall cl, match clone e N cl c g with Ret c' _ _ | Panic c' _ => c' = c | _ => False end).
Proof.
  intros A e N c l g sched HW H. split.
  - apply serve_undisturbed, Forall_forall. intros x _. exact (look_chunk_settles e N (snd x) c l g HW H).
  - intros Hc cl. exact (source_kept_agrees _ _ _ c g _ (clone_keeps e N cl) (ChunkProofs3.clone_ok e N HW Hc cl c l g H)).
Qed.
Print Assumptions C65_chunk_shared_methods_change_nothing.
Example C65_chunk_example :
  serve (look_chunk dbg 4) [(0, KLen); (1, KIndex 0); (0, KIndex 3); (1, KSlice); (0, KHash)] ex_chunk log0 =
  Some (ex_chunk, log0, [(0, Some (SeenNat 3)); (1, Some (SeenRef 3)); (0, None); (1, Some (SeenRefs [3; 1; 2]));
                         (0, Some (SeenHash [HItem 3; HItem 1; HItem 2]))]).
Proof. vm_compute. reflexivity. Qed.
Theorem C65_ring_shared_methods_change_nothing :
  forall (A : Type) (e : env A) (N : nat) (r : ring A) (l : list A) (g : log A) (sched : list (nat * ring_look)),
  N + N < word e -> 0 < N -> RHolds N r l -> Forall (fun tq => ring_look_ok l (snd tq)) sched ->
  undisturbed (look_ring e N) r g sched /\
  (calm e -> forall cl, match rb_clone e N cl r g with Ret r' _ _ | Panic r' _ => r' = r | _ => False end) /\
  (forall ix g', match RingModel.it_next e N (ix, r) g' with Ret x _ _ | Panic x _ => snd x = r | _ => True end) /\
  (forall ix g', match RingModel.it_next_back e N (ix, r) g' with Ret x _ _ | Panic x _ => snd x = r | _ => True end).
Proof.
  intros A e N r l g sched HW HN H Hs. split; [|split; [|split]].
  - apply serve_undisturbed. eapply Forall_impl; [|exact Hs]. intros x Hx. exact (look_ring_settles e N (snd x) r l g HW HN H Hx).
  - intros Hc cl. exact (source_kept_agrees _ _ _ r g _ (rb_clone_keeps e N cl) (RingProofs5.rb_clone_ok e N HW HN Hc cl r l g H)).
  - intros ix g'. exact (it_next_spares e N (ix, r) g').
  - intros ix g'. exact (it_next_back_spares e N (ix, r) g').
Qed.
Print Assumptions C65_ring_shared_methods_change_nothing.
Example C65_ring_example :
  serve (look_ring dbg 4) [(0, GSlice (Included 1) Unbounded); (1, GIndex 2); (0, GSGet (1, 3) 1); (1, GIndex 3); (0, GSIter (1, 3))] ex_ring log0 =
  Some (ex_ring, log0, [(0, Some (SeenRange (1, 3))); (1, Some (SeenRef 2)); (0, Some (SeenORef (Some 2))); (1, None);
                         (0, Some (SeenRefs [1; 2]))]).
Proof. vm_compute. reflexivity. Qed.
Theorem C65_sparse_shared_methods_change_nothing :
  forall (A : Type) (e : env A) (N : nat) (c : sparse A) (s : list (option A)) (g : log A) (sched : list (nat * sparse_look)),
  N < word e -> SHolds N c s ->
  undisturbed (look_sparse N) c g sched /\
  (calm e -> forall cl, match sp_clone e N cl c g with Ret c' _ _ | Panic c' _ => c' = c | _ => False end).
Proof.
  intros A e N c s g sched HW H. split.
  - apply serve_undisturbed, Forall_forall. intros x _. exact (look_sparse_settles e N (snd x) c s g HW H).
  - intros Hc cl. exact (source_kept_agrees _ _ _ c g _ (sp_clone_keeps e N cl) (sp_clone_ok e N Hc cl c s g H)).
Qed.
Print Assumptions C65_sparse_shared_methods_change_nothing.
Example C65_sparse_example :
  let c := Sparse (fun i => i =? 2) (fun i => if i =? 2 then Some 7 else None) in
  serve (look_sparse 4) [(0, PLFirst); (1, PLIndex 0); (0, PLGet 2)] c log0 =
  Some (c, log0, [(0, Some (SeenONat (Some 2))); (1, None); (0, Some (SeenORef (Some 7)))]).
Proof. vm_compute. reflexivity. Qed.
Theorem C65_inline_shared_methods_change_nothing :
  forall (A : Type) (e : env A) (L : layout) (b : nat) (c : inline A) (l : list A) (g : log A) (sched : list (nat * inline_look)),
  wf_layout e L -> host_ok e L -> placed L b -> IHolds e L c l ->
  undisturbed (look_inline e L b) c g sched /\
  (forall b2 cl, placed L b2 -> match ia_clone e L b b2 cl c g with Ret c' _ _ | Panic c' _ => c' = c | _ => False end).
Proof.
  intros A e L b c l g sched WF HO Hb H. split.
  - apply serve_undisturbed, Forall_forall. intros x _. exact (look_inline_settles e L b (snd x) c l g WF HO Hb H).
  - intros b2 cl Hb2. exact (source_kept_agrees _ _ _ c g _ (ia_clone_keeps e L b b2 cl) (InlineProofs3.clone_ok e L WF HO b b2 cl c l g Hb Hb2 H)).
Qed.
Print Assumptions C65_inline_shared_methods_change_nothing.
Example C65_inline_example :
  wf_layout (A:=nat) dbg PropertiesInline.ex_first /\ placed PropertiesInline.ex_first 8 /\
  match ia_new dbg PropertiesInline.ex_first 8 tt log0 with Ret _ g0 c0 =>
  match (ia_push dbg PropertiesInline.ex_first 8 5 ;;; ia_push dbg PropertiesInline.ex_first 8 6) c0 g0 with
  | Ret c g _ =>
      match serve (look_inline dbg PropertiesInline.ex_first 8) [(0, ALen); (1, AIndex 2); (0, ASlice); (1, AIndex 1)] c g with
      | Some (_, _, rs) => rs = [(0, Some (SeenNat 2)); (1, None); (0, Some (SeenRefs [5; 6])); (1, Some (SeenRef 6))]
      | None => False
      end
  | _ => False
  end | _ => False end.
Proof.
  split; [apply PropertiesInline.ex_first_wf; reflexivity|]. split; [exists 1; reflexivity|]. vm_compute. reflexivity.
Qed.
