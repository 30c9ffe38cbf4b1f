(** * Properties of [InlineArray].  Only statements; every proof is a reference to a lemma. *)
From Verif Require Import Machine Spec Prims IterSpec Program ChunkModel ChunkProofs ChunkExamples ChunkLaws
  InlineModel InlineSpec InlineProofs InlineProofs2 InlineProofs3 InlineProgram InlineLaws.

(** Throughout: [wf_layout e L]: sizes and alignments that Rust allows; [placed L b]: the address [b] is a
    multiple of the alignment of the array; [calm e]: no destructor panics; [IHolds e L c l]: the bytes [c]
    hold the length of [l] in the header and its elements in the slots, and nothing else is alive. *)

(** Numbers of 8 bytes in a host of 44 bytes, the header first; and of 16 bytes, over-aligned, in a host of 64
    bytes, so that the header is behind the elements. *)
Definition ex_first : layout := Layout 8 8 44 4 8 8 8.
Definition ex_last : layout := Layout 16 16 64 16 8 8 8.
Lemma pow2_by k n : n = 2 ^ k -> pow2 n. Proof. intros ->. exists k. reflexivity. Qed.
Ltac layout_wf :=
  constructor; cbn;
  repeat first [ apply (pow2_by 0); reflexivity | apply (pow2_by 1); reflexivity | apply (pow2_by 2); reflexivity
               | apply (pow2_by 3); reflexivity | apply (pow2_by 4); reflexivity | lia ];
  match goal with |- Nat.divide ?a ?b => exists (b / a); reflexivity end.
Lemma ex_first_wf e : word e = 256 -> wf_layout (A:=nat) e ex_first.
Proof. intros H. layout_wf. Qed.
Lemma ex_last_wf e : word e = 256 -> wf_layout (A:=nat) e ex_last.
Proof. intros H. layout_wf. Qed.

(** C43.  If [new] returned an array at all (at [b0]), then wherever such an array is, the pointer to the header
    and the pointers to the slots are within the host, aligned, and apart. *)
Theorem C43_inline_layout :
  forall (A : Type) (e : env A) (L : layout) (b0 b : nat) (c0 c : inline A) (g0 g0' g : log A),
  wf_layout e L -> ia_new e L b0 tt g0 = Ret tt g0' c0 -> placed L b ->
  exists h, ia_len_ptr e L b c g = Ret c g (At h) /\
    h + size_us L <= size_t L /\ (b + h) mod align_us L = 0 /\
    (capacity e L = 0 -> ia_data e L b c g = Ret c g Dangling) /\
    forall i, i < capacity e L -> exists p, ia_ptr_at e L b i c g = Ret c g (At p) /\
      p + size_a L <= size_t L /\ (b + p) mod align_a L = 0 /\
      (size_a L <> 0 -> p + size_a L <= h \/ h + size_us L <= p) /\
      forall j, j < i -> exists q, ia_ptr_at e L b j c g = Ret c g (At q) /\ q + size_a L <= p.
Proof. intros A e L b0 b c0 c g0 g0' g WF E Hb. exact (layout_sound e L WF b c g (new_host e L WF b0 tt g0 g0' c0 E) Hb). Qed.
Print Assumptions C43_inline_layout.
Example C43_example :
  wf_layout dbg ex_first /\ wf_layout dbg ex_last /\ placed ex_first 8 /\ placed ex_last 16 /\
  match ia_new dbg ex_first 8 tt log0 with Ret _ _ _ => True | _ => False end /\
  match ia_new dbg ex_last 16 tt log0 with Ret _ _ _ => True | _ => False end /\
  capacity dbg ex_first = 4 /\ capacity dbg ex_last = 3 /\
  match ia_len_ptr dbg ex_last 16 inline_uninit log0 with Ret _ _ p => p = At 48 | _ => False end.
Proof.
  split; [apply ex_first_wf; reflexivity|]. split; [apply ex_last_wf; reflexivity|].
  split; [exists 1; reflexivity|]. split; [exists 1; reflexivity|]. vm_compute. auto.
Qed.

(** C44, full statement: as the partial theorem below, but [new] panics if and only if the host is smaller
    than the header or the elements need a larger alignment than the array has.  Proved: the capacity is as
    documented and no larger one would fit; [new] panics if the host is not *larger* than the header, or the
    elements have size 0 and need a larger alignment. *)
Theorem C44_inline_capacity_partial :
  forall (A : Type) (e : env A) (L : layout) (b : nat) (g : log A),
  wf_layout e L -> placed L b ->
  (size_a L = 0 -> capacity e L = word e - 1) /\
  (size_a L <> 0 -> align_a L <= align_self L -> size_us L < size_t L ->
     capacity e L = (size_t L - size_us L) / size_a L /\
     size_us L + capacity e L * size_a L <= size_t L < size_us L + (capacity e L + 1) * size_a L) /\
  (size_a L <> 0 -> align_self L < align_a L -> capacity e L = 0) /\
  (ia_new e L b tt g = Panic tt g <->
     size_t L <= size_us L \/ (size_a L = 0 /\ align_self L < align_a L)) /\
  (ia_new e L b tt g = Panic tt g \/ exists c, ia_new e L b tt g = Ret tt g c /\ IHolds e L c []).
Proof. intros A e L b g WF. exact (capacity_and_new e L WF b g WF). Qed.
Print Assumptions C44_inline_capacity_partial.
(** The documentation is wrong about [new] in two ways: a host with exactly the size of the header panics
    (documented: only smaller ones do; capacity 0 "is not an error"); an element type that needs a larger
    alignment than the array does not panic unless its size is 0 (documented: it does). *)
Theorem C44_inline_new_documentation_refuted :
  (exists (L : layout), wf_layout dbg L /\ ~ (size_t L < size_us L) /\ align_a L <= align_self L /\
     forall b g, placed L b -> ia_new dbg L b tt g = Panic tt g) /\
  (exists (L : layout), wf_layout dbg L /\ size_us L < size_t L /\ align_self L < align_a L /\
     forall b g, placed L b -> exists c, ia_new dbg L b tt g = Ret tt g c).
Proof.
  split.
  - exists (Layout 8 8 8 8 8 8 8). split; [layout_wf|]. cbn. split; [lia|]. split; [lia|].
    intros b g Hb. apply (new_panics (A:=nat) dbg (Layout 8 8 8 8 8 8 8) ltac:(layout_wf) b g Hb). left; cbn; lia.
  - exists (Layout 16 16 40 8 8 8 8). split; [layout_wf|]. cbn. split; [lia|]. split; [lia|].
    intros b g Hb.
    destruct (new_ok (A:=nat) dbg (Layout 16 16 40 8 8 8 8) ltac:(layout_wf)
                ltac:(split; cbn; lia) b tt g Hb) as (c & E & _). eauto.
Qed.
Print Assumptions C44_inline_new_documentation_refuted.

(** C45.  Every program of calls on arrays - which may be moved to other addresses between calls - is observed
    to return or panic exactly as on lists of at most [CAPACITY] elements. *)
Theorem C45_inline_programs_are_list_programs :
  forall (A : Type) (e : env A) (L : layout) (p : list (cmd (ia_op0 A) (ia_op1 A) (ia_opn A) (ia_op2 A))),
  wf_layout e L -> host_ok e L -> calm e -> all_legal (ia_spec (capacity e L)) p [] ->
  exists X g, run (ia_kit e L) p [] log0 = Some (X, g, s_events (srun (ia_spec (capacity e L)) p [])) /\
    Forall2 (orel (LHolds e L)) X (s_store (srun (ia_spec (capacity e L)) p [])) /\
    dropped g = s_dropped (srun (ia_spec (capacity e L)) p []) /\
    Permutation (leaked g) (s_leaked (srun (ia_spec (capacity e L)) p [])).
Proof. intros A e L p WF HOST Hc. exact (ia_program e L WF HOST Hc p). Qed.
Print Assumptions C45_inline_programs_are_list_programs.
(** [host_ok] is not a restriction: otherwise no array can be made. *)
Theorem C45_inline_hosts :
  forall (A : Type) (e : env A) (L : layout) (b : nat) (g : log A),
  wf_layout e L -> placed L b -> (host_ok e L <-> exists c, ia_new e L b tt g = Ret tt g c).
Proof. intros A e L b g WF. exact (host_iff_new e L WF b g WF). Qed.
Print Assumptions C45_inline_hosts.

Definition ex_inline_program : list (cmd (ia_op0 nat) (ia_op1 nat) (ia_opn nat) (ia_op2 nat)) :=
  [ Make (INew 1); Call 0 (IPush 5); Call 0 (IMove 2); Call 0 (IInsert 0 6); Call 0 (IInsert 3 9);
    Call 0 (IPush 7); Call 0 IIsFull; Call 0 (IUpdateSlice (@rev nat)); Call 0 (IRemove 1);
    Spawn 0 (IClone 3 (fun k a => if k <? 1 then Some (a + 10) else None));
    Spawn 0 (IClone 3 (fun k a => Some (a + 10)));
    Call 2 IAsSlice; Spawn 2 (ISplitOff 0 1); Call 0 (IPush 1); Call 0 (IPush 2); Call 0 (IPush 3);
    Call2 0 2 (IEq Nat.eqb); Call 3 IDrainNext; Call 3 IDrainNext; Call 0 (IAssign 0 4); Kill 0; Kill 2; Kill 3 ].
Example C45_example :
  wf_layout rel ex_last /\ host_ok rel ex_last /\ calm rel /\
  all_legal (ia_spec (capacity rel ex_last)) ex_inline_program [] /\
  s_events (srun (ia_spec (capacity rel ex_last)) ex_inline_program []) =
    [ Done; Returned RUnit; Returned RUnit; Returned RUnit; Panicked; Returned RUnit; Returned (RBool true);
      Returned RUnit; Returned (ROpt (Some 5)); Panicked; Done; Returned (RRefs [17; 16]); Done;
      Returned RUnit; Panicked; Panicked; Returned (RBool false); Returned (ROpt (Some 16));
      Returned (ROpt None); Returned RUnit; Done; Done; Done ] /\
  s_dropped (srun (ia_spec (capacity rel ex_last)) ex_inline_program []) = [9; 2; 3; 7; 4; 6; 1; 17] /\
  s_leaked (srun (ia_spec (capacity rel ex_last)) ex_inline_program []) = [17].
Proof.
  split; [apply ex_last_wf; reflexivity|]. split; [split; cbn; lia|]. split; [exact rel_calm|].
  split; [|vm_compute; auto]. cbn. repeat split. apply (Permutation_rev [7; 5; 6]).
Qed.

(** C46.  No program touches bytes outside the host, misaligned addresses, the header as an element, or an
    element that is not there; nor does one write over an element. *)
Theorem C46_inline_programs_are_memory_safe :
  forall (A : Type) (e : env A) (L : layout) (p : list (cmd (ia_op0 A) (ia_op1 A) (ia_opn A) (ia_op2 A))),
  wf_layout e L -> host_ok e L -> calm e -> all_legal (ia_spec (capacity e L)) p [] ->
  run (ia_kit e L) p [] log0 <> None.
Proof.
  intros A e L p WF HOST Hc HL. destruct (ia_program e L WF HOST Hc p HL) as (X & g & E & _). rewrite E. discriminate.
Qed.
Print Assumptions C46_inline_programs_are_memory_safe.
(** Every value handed over is in a live array, was handed back, was dropped or leaked - exactly once; leaks
    occur only if an element's [clone] panics. *)
Theorem C46_inline_values_dropped_once :
  forall (A : Type) (e : env A) (L : layout) (p : list (cmd (ia_op0 A) (ia_op1 A) (ia_opn A) (ia_op2 A))),
  wf_layout e L -> host_ok e L -> calm e -> all_legal (ia_spec (capacity e L)) p [] ->
  exists X g evs, run (ia_kit e L) p [] log0 = Some (X, g, evs) /\
    Permutation (s_given (srun (ia_spec (capacity e L)) p []))
      (live (ia_spec (capacity e L)) (s_store (srun (ia_spec (capacity e L)) p [])) ++
       returned (ia_spec (capacity e L)) evs ++ dropped g ++ leaked g) /\
    (Forall clones_all p -> leaked g = []).
Proof. intros A e L p WF HOST Hc. exact (ia_conservation e L WF HOST Hc p). Qed.
Print Assumptions C46_inline_values_dropped_once.
Example C46_example :
  match run (ia_kit dbg ex_last) ex_inline_program [] log0 with
  | Some (X, g, evs) => length X = 4 /\ dropped g = [9; 2; 3; 7; 4; 6; 1; 17] /\ leaked g = [17]
  | None => False
  end.
Proof. vm_compute. auto. Qed.

(** C47, full statement: in both situations every element is dropped exactly once.  It holds when the array is
    destroyed: all the elements are dropped, also those behind the one whose destructor panics. *)
Theorem C47_inline_destroy_with_panicking_drop_partial :
  forall (A : Type) (e : env A) (L : layout) (b : nat) (c : inline A) (l : list A) (x : A) (g : log A),
  wf_layout e L -> host_ok e L -> placed L b -> IHolds e L c l -> List.filter (bomb e) l = [x] ->
  exists c', ia_destroy e L b c g = Panic c' (log_drop l g).
Proof. intros A e L b c l x g WF HOST. exact (destroy_bomb e L WF HOST b c l x g). Qed.
Print Assumptions C47_inline_destroy_with_panicking_drop_partial.
(** It is false for [clear]: all elements are dropped, but the length stays, so looking at the contents reads
    dropped elements, and destroying the array drops them a second time. *)
Theorem C47_inline_clear_with_panicking_drop_refuted :
  forall (A : Type) (e : env A) (L : layout) (b b2 : nat) (c : inline A) (l : list A) (x : A) (g : log A),
  wf_layout e L -> host_ok e L -> placed L b -> placed L b2 -> IHolds e L c l -> List.filter (bomb e) l = [x] ->
  exists c', ia_clear e L b c g = Panic c' (log_drop l g) /\
    forall g', ia_len e L b2 c' g' = Ret c' g' (length l) /\
      ia_deref e L b2 c' g' = UB DeadSlot /\ ia_destroy e L b2 c' g' = UB DeadSlot.
Proof. intros A e L b b2 c l x g WF HOST. exact (clear_bomb e L WF HOST b b2 c l x g). Qed.
Print Assumptions C47_inline_clear_with_panicking_drop_refuted.
Example C47_example :
  match ia_new bombed ex_first 16 tt log0 with
  | Ret _ g c =>
      match (ia_push bombed ex_first 16 5 ;;; ia_push bombed ex_first 16 13 ;;; ia_push bombed ex_first 16 6) c g with
      | Ret c' g' _ =>
          match ia_destroy bombed ex_first 16 c' g' with Panic _ g2 => dropped g2 = [5; 13; 6] | _ => False end /\
          match ia_clear bombed ex_first 16 c' g' with
          | Panic c2 g2 => dropped g2 = [5; 13; 6] /\ ia_destroy bombed ex_first 16 c2 g2 = UB DeadSlot
          | _ => False
          end
      | _ => False
      end
  | _ => False
  end.
Proof. vm_compute. auto. Qed.

(** C48.  Any interleaving of [next], [next_back], with [size_hint] before each: the items are those of a
    double-ended queue ([pulls], IterSpec.v); [Drain] leaves the rest in the array; dropping the owning [Iter]
    drops it. *)
Theorem C48_inline_iterators :
  forall (A : Type) (e : env A) (L : layout) (b : nat) (script : list side) (c : inline A) (l : list A) (g : log A),
  wf_layout e L -> host_ok e L -> calm e -> placed L b -> IHolds e L c l ->
  exists c' g' c'' g'', pull_all (ia_next e L b) (ia_pop e L b) (ia_size_hint e L b) script c g =
      Ret c' g' (fst (pulls script l)) /\
    IHolds e L c' (snd (pulls script l)) /\ dropped g' = dropped g /\ leaked g' = leaked g /\
    ia_destroy e L b c' g' = Ret c'' g'' tt /\
    dropped g'' = dropped g ++ snd (pulls script l) /\ leaked g'' = leaked g.
Proof. intros A e L b script c l g WF HOST Hc. exact (ia_iter_and_drop e L WF HOST Hc b script c l g). Qed.
Print Assumptions C48_inline_iterators.
(** Comparisons and hashes are those of the sequences of elements, wherever the arrays are. *)
Theorem C48_inline_eq_cmp_hash :
  forall (A : Type) (e : env A) (L : layout) (b b2 : nat) (c1 c2 : inline A) (l1 l2 : list A) (g : log A)
    (eqA : A -> A -> bool) (pc : A -> A -> option comparison) (cmp : A -> A -> comparison),
  wf_layout e L -> host_ok e L -> placed L b -> placed L b2 -> IHolds e L c1 l1 -> IHolds e L c2 l2 ->
  ia_eq2 e L b b2 eqA (c1, c2) g = Ret (c1, c2) g (slice_eq eqA l1 l2) /\
  ia_partial_cmp e L b b2 pc (c1, c2) g = Ret (c1, c2) g (iter_partial_cmp pc l1 l2) /\
  ia_cmp e L b b2 cmp (c1, c2) g = Ret (c1, c2) g (iter_cmp cmp l1 l2) /\
  ia_hash e L b c1 g = Ret c1 g (map HItem l1) /\ ia_hash e L b2 c2 g = Ret c2 g (map HItem l2) /\
  ((forall x y, eqA x y = true <-> x = y) -> slice_eq eqA l1 l2 = true <-> l1 = l2).
Proof. intros A e L b b2 c1 c2 l1 l2 g eqA pc cmp WF HOST. exact (ia_eq_cmp_hash e L WF HOST b b2 c1 c2 l1 l2 g eqA pc cmp). Qed.
Print Assumptions C48_inline_eq_cmp_hash.
(** The contents [l] of some array: built by [new] and pushes. *)
Theorem C48_inline_any_contents :
  forall (A : Type) (e : env A) (L : layout) (b : nat) (l : list A),
  wf_layout e L -> host_ok e L -> calm e -> placed L b -> length l <= capacity e L ->
  exists c g, ia_from_iter e L b (map Yield l) tt log0 = Ret tt g (c, tt) /\ IHolds e L c l /\
    dropped g = [] /\ leaked g = [].
Proof. intros A e L b l WF HOST Hc. exact (ia_from_list e L WF HOST Hc b l). Qed.
Print Assumptions C48_inline_any_contents.
Example C48_example :
  match ia_from_iter dbg ex_first 8 (map Yield [1; 2; 3; 4]) tt log0 with
  | Ret _ g (c, _) =>
      match pull_all (ia_next dbg ex_first 8) (ia_pop dbg ex_first 8) (ia_size_hint dbg ex_first 8)
              [Front; Back; Front] c g with
      | Ret c' g' r => r = fst (pulls [Front; Back; Front] [1; 2; 3; 4]) /\ snd (pulls [Front; Back; Front] [1; 2; 3; 4]) = [3]
      | _ => False
      end
  | _ => False
  end.
Proof. vm_compute. auto. Qed.

(** C19 for [InlineArray]; false for every array, also the empty one. *)
Theorem C19_inline_borrow_hash_refuted :
  forall (A : Type) (e : env A) (L : layout) (b : nat) (c : inline A) (l : list A) (g : log A),
  wf_layout e L -> host_ok e L -> placed L b -> IHolds e L c l -> ia_hash e L b c g <> Ret c g (slice_hash l).
Proof.
  intros A e L b c l g WF HOST Hb H. rewrite (ia_hash_eq e L WF HOST b c l g Hb H). intros E. injection E.
  apply hash_borrow_differs.
Qed.
Print Assumptions C19_inline_borrow_hash_refuted.

(** C20.  By reference: the array ends up empty, or, if it holds more than [N] elements, the call panics and the
    array is unchanged.  By value: as well, but the array is dropped with its elements if the call panics. *)
Theorem C20_chunk_from_inline_array :
  forall (A : Type) (e : env A) (L : layout) (N b : nat) (c : inline A) (l : list A) (g : log A),
  wf_layout e L -> host_ok e L -> calm e -> N + N < word e -> placed L b -> IHolds e L c l ->
  (length l <= N ->
     (exists c' g' ch, chunk_from_mut e L b N c g = Ret c' g' ch /\ IHolds e L c' [] /\ Holds N ch l /\
        dropped g' = dropped g /\ leaked g' = leaked g) /\
     (exists g' ch, chunk_from e L b N c tt g = Ret tt g' ch /\ Holds N ch l /\
        dropped g' = dropped g /\ leaked g' = leaked g)) /\
  (N < length l ->
     (exists c' g', chunk_from_mut e L b N c g = Panic c' g' /\ IHolds e L c' l /\
        dropped g' = dropped g /\ leaked g' = leaked g) /\
     (exists g', chunk_from e L b N c tt g = Panic tt g' /\
        dropped g' = dropped g ++ l /\ leaked g' = leaked g)).
Proof. intros A e L N b c l g WF HOST Hc HN. exact (ia_convert e L WF HOST Hc N HN b c l g). Qed.
Print Assumptions C20_chunk_from_inline_array.
Example C20_example :
  match ia_from_iter dbg ex_last 32 (map Yield [1; 2; 3]) tt log0 with
  | Ret _ g (c, _) =>
      match chunk_from_mut dbg ex_last 32 3 c g with
      | Ret c' _ ch => right ch = 3 /\
          match ia_deref dbg ex_last 32 c' log0 with Ret _ _ l => l = [] | _ => False end
      | _ => False
      end /\
      match chunk_from dbg ex_last 32 2 c tt g with Panic _ g' => dropped g' = [1; 2; 3] | _ => False end
  | _ => False
  end.
Proof. vm_compute. auto. Qed.
