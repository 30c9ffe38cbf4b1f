(** * Properties of the optional features: arbitrary.rs and refpool.rs.  Only statements. *)
From Verif Require Import Machine Spec Prims ChunkModel ChunkProofs ChunkProofs3 ChunkExamples RingModel RingProofs RingProofs5
  SparseModel SparseProofs InlineModel InlineSpec InlineProofs InlineProofs2 PropertiesInline
  RefpoolModel RefpoolProofs ArbitraryModel ArbitrarySpec ArbitraryProofs.

(** C49.  [gen_container] (ArbitrarySpec.v): at most [CAPACITY] items are taken; the container holds exactly these,
    in order; an error while generating is returned and what was generated before is dropped, once; also if the
    generator panics.  Nothing else panics, nothing is leaked. *)
Theorem C49_arbitrary_chunk :
  forall (A : Type) (e : env A) (N : nat) (u : option (list (gen A))) (g : log A),
  calm e -> N + N < word e ->
  agrees (fun _ _ => True) (option_Forall2 (Holds N)) g
    (arbitrary N (from_iter e N) (destroy e N) u tt g) (gen_container (fun l => l) N u).
Proof. intros A e N u g Hc. exact (arbitrary_chunk e Hc N u g). Qed.
Print Assumptions C49_arbitrary_chunk.
Theorem C49_arbitrary_ring :
  forall (A : Type) (e : env A) (N : nat) (u : option (list (gen A))) (g : log A),
  calm e -> N + N < word e -> 0 < N ->
  agrees (fun _ _ => True) (option_Forall2 (RHolds N)) g
    (arbitrary N (rb_from_iter e N) (rb_destroy e N) u tt g) (gen_container (fun l => l) N u).
Proof. intros A e N u g Hc. exact (arbitrary_ring e Hc N u g). Qed.
Print Assumptions C49_arbitrary_ring.
Theorem C49_arbitrary_inline :
  forall (A : Type) (e : env A) (L : layout) (b : nat) (u : option (list (gen A))) (g : log A),
  calm e -> wf_layout e L -> host_ok e L -> placed L b ->
  agrees (fun _ _ => True) (option_Forall2 (IHolds e L)) g
    (arbitrary (capacity e L) (ia_from_iter e L b) (ia_destroy e L b) u tt g)
    (gen_container (fun l => l) (capacity e L) u).
Proof. intros A e L b u g Hc. exact (arbitrary_inline e Hc L b u g). Qed.
Print Assumptions C49_arbitrary_inline.
(** The items are optional values; they fill the cells from 0 on. *)
Theorem C49_arbitrary_sparse :
  forall (A : Type) (e : env A) (N : nat) (u : option (list (gen (option A)))) (g : log A),
  calm e ->
  agrees (fun _ _ => True) (option_Forall2 (fun c xs => SHolds N c (xs ++ replicate (N - length xs) None))) g
    (arbitrary N (sp_from_iter e N) (sp_destroy e N) u tt g) (gen_container (omap (fun x => x)) N u).
Proof. intros A e N u g Hc. exact (arbitrary_sparse e Hc N u g). Qed.
Print Assumptions C49_arbitrary_sparse.
Example C49_example :
  gen_container (fun l : list nat => l) 2 (Some [Item 1; Item 2; Fail]) = SRet tt (Some [1; 2]) [] /\
  gen_container (fun l : list nat => l) 3 (Some [Item 1; Item 2; Fail]) = SRet tt None [1; 2] /\
  gen_container (fun l : list nat => l) 3 (Some [Item 1; Crash; Item 2]) = SPanic tt [1] [] /\
  gen_container (omap (fun x : option nat => x)) 3 (Some [Item (Some 1); Item None; Fail]) = SRet tt None [1] /\
  match arbitrary 3 (from_iter dbg 3) (destroy dbg 3) (Some [Item 1; Item 2; Item 3; Item 4]) tt log0,
        arbitrary 3 (sp_from_iter dbg 3) (sp_destroy dbg 3) (Some [Item (Some 1); Item None; Fail]) tt log0 with
  | Ret _ _ (Some c), Ret _ g None => right c = 3 /\ dropped g = [1]
  | _, _ => False
  end.
Proof. vm_compute. auto 10. Qed.

(** C52, full statement: the announced upper bound is [CAPACITY] times that of an item, and asking for it never
    panics.  True as long as the product is a [usize]. *)
Theorem C52_arbitrary_size_hint_partial :
  forall (A O : Type) (e : env A) (cap : nat) (upper : option nat) (o : O) (g : log A),
  (forall u, upper = Some u -> u * cap < word e) ->
  arb_size_hint e cap upper o g = Ret o g (0, match upper with Some u => Some (u * cap) | None => None end).
Proof.
  intros A O e cap [u|] o g H; [|reflexivity]. rewrite arb_size_hint_ok. replace (u * cap <? word e) with true; [reflexivity|].
  symmetry. apply Nat.ltb_lt. apply H. reflexivity.
Qed.
Print Assumptions C52_arbitrary_size_hint_partial.
(** Otherwise it panics in debug builds and in release builds announces too little; e.g. for every [InlineArray] of
    a zero-sized type whose generator reads at least 2 bytes. *)
Theorem C52_arbitrary_size_hint_refuted :
  forall (A O : Type) (e : env A) (L : layout) (u : nat) (o : O) (g : log A),
  wf_layout e L -> size_a L = 0 -> 2 < word e -> 2 <= u ->
  (debug e = true -> arb_size_hint e (capacity e L) (Some u) o g = Panic o g) /\
  (debug e = false -> exists n, arb_size_hint e (capacity e L) (Some u) o g = Ret o g (0, Some n) /\
     n < u * capacity e L).
Proof.
  intros A O e L u o g WF Hz Hw Hu. rewrite arb_size_hint_ok. unfold capacity. rewrite Hz. cbn [Nat.eqb].
  assert (Hn : word e <= u * (word e - 1)) by nia. replace (u * (word e - 1) <? word e) with false by (symmetry; apply Nat.ltb_ge; lia).
  split; intros ->; [reflexivity|]. eexists. split; [reflexivity|].
  pose proof (Nat.mod_upper_bound (u * (word e - 1)) (word e)). lia.
Qed.
Print Assumptions C52_arbitrary_size_hint_refuted.
Definition ex_zst : layout := Layout 0 1 16 8 8 8 8.
Definition udbg : env unit := Env 256 true (fun _ => false).
Example C52_example : wf_layout udbg ex_zst /\ size_a ex_zst = 0 /\ host_ok udbg ex_zst /\
  arb_size_hint udbg (capacity udbg ex_zst) (Some 2) tt log0 = Panic tt log0 /\
  arb_size_hint dbg 4 (Some 8) tt log0 = Ret tt log0 (0, Some 32).
Proof.
  split.
  { constructor; cbn; try (apply (pow2_by 0); reflexivity); try (apply (pow2_by 3); reflexivity); try lia.
    - exists 0. reflexivity.
    - exists 1. reflexivity.
    - exists 2. reflexivity.
    - intros _ [] []. reflexivity. }
  split; [reflexivity|]. split; [split; [cbn; lia|intros _; exists 8; reflexivity]|]. split; vm_compute; reflexivity.
Qed.

(** C50, [Chunk] and [RingBuffer].  The registers of the target contain any numbers [x], [y] before; its element
    slots are uninitialised. *)
Theorem C50_chunk_pool_constructors :
  forall (A : Type) (e : env A) (N x y : nat) (cl : nat -> A -> option A) (c : chunk A) (l : list A) (g : log A),
  N + N < word e -> calm e -> Holds N c l ->
  (exists c', chunk_default_uninit (Chunk x y mem0) g = Ret c' g tt /\ Holds N c' []) /\
  match clone e N cl c g with
  | Ret _ _ (c1, _) => exists l' c2 g2, Holds N c1 l' /\
      chunk_clone_uninit N cl (Chunk x y mem0, c) g = Ret (c2, c) g2 tt /\ Holds N c2 l' /\
      dropped g2 = dropped g /\ leaked g2 = leaked g
  | Panic _ _ => exists c2 g2, chunk_clone_uninit N cl (Chunk x y mem0, c) g = Panic (c2, c) g2 /\
      dropped g2 = dropped g /\ leaked g2 = leaked g
  | _ => False
  end.
Proof.
  intros A e N x y cl c l g HW Hc H. split; [exact (chunk_default_uninit_ok N x y g)|].
  pose proof (ChunkProofs3.clone_ok e N HW Hc cl c l g H) as P.
  destruct (chunk_clone_uninit_ok N cl x y c l g H) as (c2 & g2 & E & D & Lk & Hh). unfold bl_clone in P.
  destruct (length (clones cl 0 l) =? length l) eqn:El.
  - destruct P as (c' & g' & [c1 u] & E1 & _ & H1 & _). rewrite E1. exists (clones cl 0 l), c2, g2.
    apply Nat.eqb_eq in El. auto 10.
  - destruct P as (c' & g' & k & E1 & _). rewrite E1. eauto.
Qed.
Print Assumptions C50_chunk_pool_constructors.
Theorem C50_ring_pool_constructors :
  forall (A : Type) (e : env A) (N x y : nat) (cl : nat -> A -> option A) (r : ring A) (l : list A) (g : log A),
  N + N < word e -> 0 < N -> calm e -> RHolds N r l ->
  (exists r', ring_default_uninit e N (Ring x y mem0) g = Ret r' g tt /\ RHolds N r' []) /\
  match rb_clone e N cl r g with
  | Ret _ _ (r1, _) => exists l' r2 g2, RHolds N r1 l' /\
      ring_clone_uninit e N cl (Ring x y mem0, r) g = Ret (r2, r) g2 tt /\ RHolds N r2 l' /\
      dropped g2 = dropped g /\ leaked g2 = leaked g
  | Panic _ _ => exists r2 g2, ring_clone_uninit e N cl (Ring x y mem0, r) g = Panic (r2, r) g2 /\
      dropped g2 = dropped g /\ leaked g2 = leaked g
  | _ => False
  end.
Proof.
  intros A e N x y cl r l g HW HN Hc H. split; [exact (ring_default_uninit_ok e N HW HN x y g)|].
  pose proof (RingProofs5.rb_clone_ok e N HW HN Hc cl r l g H) as P.
  destruct (ring_clone_uninit_ok e N HW HN cl x y r l g H) as (r2 & g2 & E & D & Lk & Hh). unfold bl_clone in P.
  destruct (length (clones cl 0 l) =? length l) eqn:El.
  - destruct P as (c' & g' & [c1 u] & E1 & _ & H1 & _). rewrite E1. exists (clones cl 0 l), r2, g2.
    apply Nat.eqb_eq in El. auto 10.
  - destruct P as (c' & g' & k & E1 & _). rewrite E1. eauto.
Qed.
Print Assumptions C50_ring_pool_constructors.
Example C50_example :
  match chunk_clone_uninit 4 (fun _ a => Some (a + 10)) (Chunk 77 3 mem0, ex_chunk) log0 with
  | Ret (c2, _) _ _ => as_slice dbg 4 c2 log0 = Ret c2 log0 [13; 11; 12]
  | _ => False
  end /\
  match (rb_push_front dbg 4 2 ;;; rb_push_front dbg 4 1 ;;; rb_push_back dbg 4 3) ring0 log0 with
  | Ret r g _ =>
      match ring_clone_uninit dbg 4 (fun _ a => Some (a + 10)) (Ring 9 99 mem0, r) g with
      | Ret (r2, _) _ _ => rb_contents dbg 4 r2 log0 = Ret r2 log0 [11; 12; 13]
      | _ => False
      end
  | _ => False
  end.
Proof. vm_compute. auto. Qed.
