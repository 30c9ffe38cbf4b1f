(** * Collecting a [SparseChunk] from a live iterator (C76, C77). *)
From Verif Require Import Machine Spec Prims SparseModel SparseSpec SparseProofs LiveModel LiveSpec LiveSparseModel LiveSparse.
From Verif Require ChunkExamples.

(** C76.  [SparseChunk]'s [option_drain] delivers the cells of the chunk, occupied or not; what it has not delivered stays in
    the chunk. *)
Theorem C76_option_drain :
  forall (A : Type) (e : env A) (N : nat), N < word e ->
  feeds (fun o l => exists s, length s = N /\ snd o <= N /\ l = drop (snd o) s /\ SHolds N (fst o) (no_cells (snd o) ++ drop (snd o) s))
    (od_next (A:=A) e N) (oi_size_hint e N).
Proof. exact @option_drain_feeds. Qed.
Print Assumptions C76_option_drain.

(** [collect] into a [SparseChunk]: item number [i] goes into cell [i].  Empty items beyond the capacity are passed over.  At
    the first other item beyond the capacity the call panics: that item and then the values collected are dropped, and the
    iterator keeps the rest ([sp_collects], LiveSparse.v). *)
Theorem C76_sparse_from_iter :
  forall (A S : Type) (e : env A) (N : nat) (F : S -> list (option A) -> Prop)
    (next : M A S (option (option A))) (hint : M A S (nat * option nat)),
  calm e -> feeds F next hint -> sp_collects N (word e) F (sp_from_iter_live e N next).
Proof. intros A S e N F next hint Hc Hf. exact (sparse_collects e N F next hint Hc Hf). Qed.
Print Assumptions C76_sparse_from_iter.

(** C77.  The same from an iterator that may panic or end at any point ([ar_from_iter], SparseSpec.v): when the call panics
    what had been collected is dropped. *)
Theorem C77_sparse_from_iter :
  forall (A S : Type) (e : env A) (N : nat)
    (F : S -> log A -> list (option (nat * option nat)) -> list (ev (option A)) -> Prop) (E : S -> log A -> Prop)
    (next : M A S (option (option A))) (hint : M A S (nat * option nat)) (hs : list (option (nat * option nat)))
    (it : list (ev (option A))) (s : S) (gs g : log A) (fuel : nat),
  calm e -> scripted F E next hint -> F s gs hs it -> length it < fuel -> length it < word e ->
  agrees (fun o (_ : unit) => later F E hs it o) (SMade N) g (sp_from_iter_live e N next fuel (s, gs) g) (ar_from_iter N it).
Proof.
  intros A S e N F E next hint hs it s gs g fuel Hc Hs HF Hf Hw.
  exact (sparse_from_iter_any e N F E next hint Hs hs it s gs g fuel Hc HF Hf Hw).
Qed.
Print Assumptions C77_sparse_from_iter.

(** From an iterator that delivers empty items for ever, [collect] never returns; in a debug build it panics when the counter
    of the items overflows, with nothing dropped or leaked. *)
Theorem C77_sparse_endless :
  forall (A S : Type) (e : env A) (N : nat) (I : S -> log A -> Prop) (next : M A S (option (option A))) (s : S) (gs g : log A),
  calm e -> 0 < word e -> (forall s gs, I s gs -> exists s' gs', next s gs = Ret s' gs' (Some None) /\ I s' gs') -> I s gs ->
  (debug e = false -> forall fuel, sp_from_iter_live e N next fuel (s, gs) g = Hang) /\
  (debug e = true -> forall fuel, word e <= fuel ->
    exists s' gs' g', sp_from_iter_live e N next fuel (s, gs) g = Panic (s', gs') g' /\ I s' gs' /\
      dropped g' = dropped g /\ leaked g' = leaked g).
Proof.
  intros A S e N I next s gs g Hc Hw Hn HI. unfold sp_from_iter_live, sp_new. split.
  - intros Hd fuel. rewrite bind_ret. unfold with_local. rewrite (fill_endless e N I next Hn fuel 0 sparse0 s gs g HI Hd). reflexivity.
  - intros Hd fuel Hf. rewrite bind_ret. unfold with_local.
    destruct (fill_overflows e N I next Hn fuel 0 sparse0 s gs g HI Hd Hw ltac:(lia)) as (s' & gs' & -> & HI').
    cbn [fst snd]. destruct (sp_destroy_eq e N sparse0 _ g Hc (sparse0_holds N)) as (c2 & ->).
    eexists s', gs', _. split; [reflexivity|]. split; [exact HI'|]. cbn [dropped leaked log_drop].
    rewrite values_no_cells, app_nil_r. auto.
Qed.
Print Assumptions C77_sparse_endless.

(** An iterator over a list of what [next] is to do. *)
Definition script_next : M nat (list (ev (option nat))) (option (option nat)) := fun s g =>
  match s with [] => Ret [] g None | Yield x :: s => Ret s g (Some x) | Boom :: s => Panic s g end.
Example C77_script_scripted : scripted (fun s _ hs it => s = it /\ hs = []) (fun s _ => True) script_next (fun _ _ => Hang).
Proof. intros s gs hs it [-> ->]. split; [|exact I]. destruct it as [|[x|] it]; eexists _, _; split; auto. Qed.
Definition ex_cells : sparse nat := Sparse (fun i => (i =? 0) || (i =? 2)) (upd (upd mem0 0 (Some 8)) 2 (Some 7)).
Example C76_sparse_example :
  SHolds 4 ex_cells [Some 8; None; Some 7; None] /\
  (* [sparse.option_drain().collect()] into a [SparseChunk] with room for three, and for two *)
  match sp_from_iter_live ChunkExamples.dbg 3 (od_next ChunkExamples.dbg 4) 9 ((ex_cells, 0), log0) log0 with
  | Ret ((c0, k), _) g (c, _) => map (sdata c) [0; 1; 2] = [Some 8; None; Some 7] /\ k = 4 /\ dropped g = []
  | _ => False end /\
  match sp_from_iter_live ChunkExamples.dbg 2 (od_next ChunkExamples.dbg 4) 9 ((ex_cells, 0), log0) log0 with
  | Panic ((c0, k), _) g => k = 3 /\ dropped g = [7; 8]
  | _ => False end /\
  (* from an iterator that panics *)
  match sp_from_iter_live ChunkExamples.dbg 2 script_next 9 ([Yield None; Yield (Some 5); Boom], log0) log0 with
  | Panic (_, _) g => dropped g = [5]
  | _ => False end.
Proof.
  split.
  { split; [reflexivity|]. split; intros [|[|[|[|i]]]]; intros; first [vm_compute; reflexivity|lia]. }
  split; [vm_compute; auto|]. split; vm_compute; auto. Qed.
