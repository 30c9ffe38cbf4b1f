(** * The project's own unit tests, run on the models.

    This is validation of the transcription, not proof: each [#[test]] and documentation example of the crate, as a computation
    on the model, with the result the project expects.  [recursive_types_compile] (which only has to compile) is left
    out, [zero_sized_values] pushes 200 values instead of 65536, and of the refpool tests the pool itself is not modelled. *)
From Verif Require Import Machine ChunkModel RingModel SparseModel InlineModel RefpoolModel ChunkLaws ChunkExamples FuzzModel.

(** A test that passes. *)
Definition passes {X} (m : fz X) : Prop := match m log0 with Some _ => True | None => False end.
(** A [#[should_panic]] test: some prefix of calls returns, then [m] panics. *)
Definition expects_panic {O R} (m : M nat O R) (o : O) : fz unit := let* _ := assert_panic m o in pass tt.
Fixpoint each {O} (l : list nat) (f : nat -> O -> fz O) (o : O) : fz O :=
  match l with [] => pass o | i :: l' => let* o := f i o in each l' f o end.
Definition run_ {O R} (m : M nat O R) (o : O) : fz O := let* (o, _) := call m o in pass o.
Definition made {R} (m : M nat unit (R * unit)) : fz R := let* (_, r) := call m tt in pass (fst r).
Definition same (l1 l2 : list nat) : fz unit := assert_ (vec_eq l1 l2).
Definition same_n (n1 n2 : nat) : fz unit := assert_ (n1 =? n2).
(** The [n] first items of an iterator. *)
Fixpoint take_ {O I} (next : M nat O (option I)) (n : nat) (o : O) : fz (O * list I) :=
  match n with
  | 0 => pass (o, [])
  | S n' =>
      let* (o, x) := call next o in
      match x with None => pass (o, []) | Some i => let* (o, l) := take_ next n' o in pass (o, i :: l) end
  end.
(** The number of values dropped so far. *)
Definition drops : fz nat := fun g => Some (length (dropped g), g).
Definition upto (a b : nat) : list nat := seq a (b - a).

(** ** src/sized_chunk/mod.rs 946-1337, in debug mode as [cargo test] runs them *)
Section chunk.
Notation N := 64.
Notation e := dbg.
Definition into_vec (c : chunk nat) : fz (list nat) :=
  let* (c, l) := collect_ (iter_next e N) (S N) c in let* _ := run_ (destroy e N) c in pass l.
Definition pushed (l : list nat) (c : chunk nat) : fz (chunk nat) := each l (fun i => run_ (push_back e N i)) c.

Example issue_11_testcase1d : passes (let* c := made (pair_ e 2 123 456) in expects_panic (push_back e 2 789) c).
Proof. vm_compute. exact I. Qed.
(** [InlineArray<u8, [u8; 256]>]; the element and the layout as in Rust on a 64-bit machine. *)
Definition env16 (debug : bool) : env nat := Env (16 * 256) debug (fun _ => false).
Definition u8_256 : layout := Layout 1 1 256 1 8 8 8.
Example issue_11_testcase2a : passes (
  let* (_, a) := call (ia_new (env16 true) u8_256 8) tt in
  let* a := run_ (ia_push (env16 true) u8_256 8 1) a in
  expects_panic (chunk_from (env16 true) u8_256 8 0 a) tt).
Proof. vm_compute. exact I. Qed.
Example issue_11_testcase2b : passes (
  let* (_, a) := call (ia_new (env16 true) u8_256 8) tt in
  let* a := run_ (ia_push (env16 true) u8_256 8 1) a in
  let* (_, c) := call (chunk_from (env16 true) u8_256 8 1 a) tt in
  let* (_, l) := call (as_slice e 1) c in same l [1]).
Proof. vm_compute. exact I. Qed.
(** 42 panics when cloned; the chunk and the unfinished clone are dropped correctly. *)
Example issue_11_testcase3a : passes (
  let* c := each [42; 42; 43] (fun i => run_ (push_back e 3 i)) new in
  let* (c, x) := call (pop_front e 3) c in
  let* c := assert_panic (clone e 3 (fun _ a => if a =? 42 then None else Some a)) c in
  let* n := drops in let* _ := same_n n 0 in
  let* _ := run_ (destroy e 3) c in
  let* n := drops in same_n n 2).
Proof. vm_compute. exact I. Qed.
Example issue_11_testcase3b : passes (
  let* c := each [1; 2; 3] (fun i => run_ (push_back e 5 i)) new in
  let* c := assert_panic (insert_from e 5 1 1 1 [Boom]) c in
  run_ (destroy e 5) c).
Proof. vm_compute. exact I. Qed.
Example iterator_too_long : passes (
  let it := map Yield (replicate 10 1) in
  let* c := each [0; 1; 2] (fun i => run_ (push_back e 5 i)) new in
  let* c := run_ (insert_from e 5 1 1 1 it) c in
  let* c := each [1] (fun i => run_ (push_back e 5 i)) new in
  let* c := run_ (insert_from e 5 0 1 1 it) c in
  run_ (insert_from e 5 0 1 1 it) new).
Proof. vm_compute. exact I. Qed.
Example iterator_too_short1 : passes (
  let* c := each [0; 1; 2] (fun i => run_ (push_back e 5 i)) new in
  expects_panic (insert_from e 5 1 2 2 []) c).
Proof. vm_compute. exact I. Qed.
Example iterator_too_short2 : passes (
  let* c := each [1] (fun i => run_ (push_back e 5 i)) new in
  expects_panic (insert_from e 5 1 4 4 [Yield 1; Yield 1]) c).
Proof. vm_compute. exact I. Qed.
Example chunk_is_full : passes (
  let* c := each (upto 0 64) (fun i c => let* _ := assert_ (negb (is_full N c)) in run_ (push_back e N i) c) new in
  assert_ (is_full N c)).
Proof. vm_compute. exact I. Qed.
Example push_back_front : passes (
  let* c := pushed (upto 12 20) new in
  let* n := chunk_len e c in let* _ := same_n 8 n in
  let* c := each (rev (upto 0 12)) (fun i => run_ (push_front e N i)) c in
  let* n := chunk_len e c in let* _ := same_n 20 n in
  let* c := pushed (upto 20 32) c in
  let* n := chunk_len e c in let* _ := same_n 32 n in
  let* l := into_vec c in same (upto 0 32) l).
Proof. vm_compute. exact I. Qed.
Example push_and_pop : passes (
  let* c := pushed (upto 0 64) new in
  let* c := each (upto 0 64) (fun i c => let* (c, x) := call (pop_front e N) c in let* _ := same_n i x in pass c) c in
  let* c := each (upto 0 64) (fun i => run_ (push_front e N i)) c in
  each (upto 0 64) (fun i c => let* (c, x) := call (pop_back e N) c in let* _ := same_n i x in pass c) c).
Proof. vm_compute. exact I. Qed.
Example chunk_drop_left : passes (
  let* c := pushed (upto 0 6) new in let* c := run_ (drop_left e N 3) c in let* l := into_vec c in same [3; 4; 5] l).
Proof. vm_compute. exact I. Qed.
Example chunk_drop_right : passes (
  let* c := pushed (upto 0 6) new in let* c := run_ (drop_right e N 3) c in let* l := into_vec c in same [0; 1; 2] l).
Proof. vm_compute. exact I. Qed.
Example chunk_split_off : passes (
  let* left := pushed (upto 0 6) new in
  let* (left, r) := call (split_off e N 3) left in
  let* left_vec := into_vec left in let* right_vec := into_vec (fst r) in
  let* _ := same [0; 1; 2] left_vec in same [3; 4; 5] right_vec).
Proof. vm_compute. exact I. Qed.
Example chunk_append : passes (
  let* left := pushed (upto 0 32) new in
  let* right := each (rev (upto 32 64)) (fun i => run_ (push_front e N i)) new in
  let* both := run_ (append e N) (left, right) in
  let* l := into_vec (fst both) in same (upto 0 64) l).
Proof. vm_compute. exact I. Qed.
Example chunk_ref_iter : passes (let* c := pushed (upto 0 64) new in let* l := chunk_items e N c in same (upto 0 64) l).
Proof. vm_compute. exact I. Qed.
Example chunk_consuming_iter : passes (let* c := pushed (upto 0 64) new in let* l := into_vec c in same (upto 0 64) l).
Proof. vm_compute. exact I. Qed.
Example insert_middle : passes (
  let* c := pushed (upto 0 32 ++ upto 33 64) new in
  let* c := run_ (ChunkModel.insert e N 32 32) c in let* l := into_vec c in same (upto 0 64) l).
Proof. vm_compute. exact I. Qed.
Example insert_back : passes (
  let* c := pushed (upto 0 63) new in
  let* c := run_ (ChunkModel.insert e N 63 63) c in let* l := into_vec c in same (upto 0 64) l).
Proof. vm_compute. exact I. Qed.
Example insert_front : passes (
  let* c := each (upto 1 64) (fun i => run_ (push_front e N (64 - i))) new in
  let* c := run_ (ChunkModel.insert e N 0 0) c in let* l := into_vec c in same (upto 0 64) l).
Proof. vm_compute. exact I. Qed.
Example remove_value : passes (
  let* c := pushed (upto 0 64) new in
  let* c := run_ (ChunkModel.remove e N 32) c in let* l := into_vec c in same (upto 0 32 ++ upto 33 64) l).
Proof. vm_compute. exact I. Qed.
Example chunk_dropping : passes (
  let* c := each (upto 0 20) (fun i => run_ (push_back e N i)) new in
  let* c := each (upto 0 20) (fun i => run_ (push_front e N i)) c in
  let* n := drops in let* _ := same_n 0 n in
  let* c := each (upto 0 10) (fun _ => run_ (pop_back e N)) c in
  let* n := drops in let* _ := same_n 0 n in
  let* _ := run_ (destroy e N) c in
  let* n := drops in same_n 30 n).
Proof. vm_compute. exact I. Qed.
Example chunk_unit_on_empty : passes (expects_panic (unit_ e 0 1) tt).
Proof. vm_compute. exact I. Qed.
Example chunk_pair_on_empty : passes (expects_panic (pair_ e 0 1 2) tt).
Proof. vm_compute. exact I. Qed.
(** mod.rs 76-88: the example of the documentation ([sort] through [DerefMut]). *)
Definition sorted_ (l : list nat) : list nat :=
  fold_right (fun v s => take_while_le v s ++ v :: drop (length (take_while_le v s)) s) [] l.
Example chunk_doc : passes (
  let* c := run_ (extend e N (map Yield (rev (upto 0 64)))) new in
  let* c := run_ (update_slice e N sorted_) c in
  let* expected := made (from_iter e N (map Yield (upto 0 64))) in
  chunk_same e N expected c).
Proof. vm_compute. exact I. Qed.
(** mod.rs 564-571 *)
Example insert_ordered_doc : passes (
  let* c := made (from_iter e N (map Yield (upto 0 5))) in
  let* c := run_ (insert_ordered e N (fun l v => Some (length (take_while_le v l))) 3) c in
  let* l := chunk_items e N c in same [0; 1; 2; 3; 3; 4] l).
Proof. vm_compute. exact I. Qed.
End chunk.

(** ** src/ring_buffer/mod.rs 984-1117 *)
Section ring.
Notation N := 64.
Notation e := dbg.
Definition collected (l : list nat) : fz (ring nat) := let* (_, r) := call (rb_from_iter e N (map Yield l)) tt in pass (fst r).
Definition ring_new_ : fz (ring nat) := let* (_, r) := call (rb_new e N) tt in pass r.
Example ring_validity_invariant : passes ring_new_.
Proof. vm_compute. exact I. Qed.
Example ring_is_full : passes (
  let* c := ring_new_ in
  let* c := each (upto 0 64) (fun i c => let* _ := assert_ (negb (rb_is_full N c)) in run_ (rb_push_back e N i) c) c in
  assert_ (rb_is_full N c)).
Proof. vm_compute. exact I. Qed.
(** [iter] and [iter_mut]: the references point to the items. *)
Example ring_ref_iter : passes (
  let* c := collected (upto 0 64) in
  let* (c, it) := call (rb_iter e N) c in
  let* (_, l) := collect_ (RingModel.it_next e N) (S N) (it, c) in same (upto 0 64) (map snd l)).
Proof. vm_compute. exact I. Qed.
Example ring_consuming_iter : passes (
  let* c := collected (upto 0 64) in
  let* (_, l) := collect_ (rb_pop_front e N) (S N) c in same (upto 0 64) l).
Proof. vm_compute. exact I. Qed.
Example ring_draining_iter : passes (
  let* c := collected (upto 0 64) in
  let* (c, l) := take_ (rb_pop_front e N) 16 c in
  let* half := collected l in
  let* (c, l) := take_ (rb_pop_back e N) 16 c in
  let* half := run_ (rb_extend e N (map Yield l)) half in
  let* _ := ring_is e N c (upto 16 48) in
  ring_is e N half (upto 0 16 ++ rev (upto 48 64))).
Proof. vm_compute. exact I. Qed.
Example ring_io_write : passes (
  let* c := collected (upto 0 32) in
  let* (c, n) := call (rb_io_write e N (upto 32 128)) c in
  let* _ := same_n 32 n in ring_is e N c (upto 0 64)).
Proof. vm_compute. exact I. Qed.
Example ring_io_read : passes (
  let* c := collected (upto 16 48) in
  let* (c, r) := call (rb_io_read e N (upto 0 16)) c in
  let* _ := same_n 16 (snd r) in
  let* _ := same (fst r) (upto 16 32) in
  let* _ := ring_is e N c (upto 32 48) in
  let* (c, r) := call (rb_io_read e N (fst r)) c in
  let* _ := same_n 16 (snd r) in
  let* _ := same (fst r) (upto 32 48) in
  let* _ := ring_is e N c [] in
  let* (c, r) := call (rb_io_read e N (fst r)) c in
  same_n 0 (snd r)).
Proof. vm_compute. exact I. Qed.
Example ring_clone : passes (
  let* c := collected (upto 0 50) in
  let* (c, r) := call (rb_clone e N (fun _ a => Some a)) c in ring_same e N c (fst r)).
Proof. vm_compute. exact I. Qed.
Example ring_failing : passes (
  let* c := ring_new_ in
  let* c := run_ (rb_push_front e N 0) c in
  let* add := collected [1; 0; 0; 0; 0; 0] in
  let* both := run_ (rb_append e N) (c, add) in
  let* (c, x) := call (rb_remove e N 1) (fst both) in
  let* _ := same_n 1 x in ring_is e N c [0; 0; 0; 0; 0; 0]).
Proof. vm_compute. exact I. Qed.
Example ring_dropping : passes (
  let* c := ring_new_ in
  let* c := each (upto 0 20) (fun i => run_ (rb_push_back e N i)) c in
  let* c := each (upto 0 20) (fun i => run_ (rb_push_front e N i)) c in
  let* c := each (upto 0 10) (fun _ => run_ (rb_pop_back e N)) c in
  let* n := drops in let* _ := same_n 0 n in
  let* _ := run_ (rb_destroy e N) c in
  let* n := drops in same_n 30 n).
Proof. vm_compute. exact I. Qed.
Example ring_unit_on_empty : passes (expects_panic (rb_unit e 0 1) tt).
Proof. vm_compute. exact I. Qed.
Example ring_pair_on_empty : passes (expects_panic (rb_pair e 0 1 2) tt).
Proof. vm_compute. exact I. Qed.
End ring.

(** ** src/sparse_chunk/mod.rs 444-523 and iter.rs 203-282 *)
Section sparse.
Notation e := dbg.
Definition inserting (N i v : nat) (old : option nat) (c : sparse nat) : fz (sparse nat) :=
  let* (c, x) := call (sp_insert e N i v) c in let* _ := assert_ (opt_eq old x) in pass c.
Example insert_remove_iterate : passes (
  let* c := inserting 32 5 5 None sparse0 in
  let* c := inserting 32 1 1 None c in
  let* c := inserting 32 24 42 None c in
  let* c := inserting 32 22 22 None c in
  let* c := inserting 32 24 24 (Some 42) c in
  let* c := inserting 32 31 31 None c in
  let* (c, x) := call (sp_remove 32 24) c in
  let* _ := assert_ (opt_eq (Some 24) x) in
  let* (c, n) := call (sp_len 32) c in
  let* _ := same_n 4 n in
  let* (c, l) := call (sp_indices 32) c in
  let* _ := same [1; 5; 22; 31] l in
  let* (c, l) := collect_ (dr_next 32) 33 c in
  same [1; 5; 22; 31] l).
Proof. vm_compute. exact I. Qed.
Example clone_chunk : passes (
  let* c := inserting 32 5 5 None sparse0 in
  let* c := inserting 32 1 1 None c in
  let* c := inserting 32 24 42 None c in
  let* c := inserting 32 22 22 None c in
  let* (c, r) := call (sp_clone e 32 (fun _ a => Some a)) c in
  let* (c, right_indices) := call (sp_indices 32) c in
  let* (cloned, left_indices) := call (sp_indices 32) (fst r) in
  let* (c, right) := collect_ (dr_next 32) 33 c in
  let* (cloned, left) := collect_ (dr_next 32) 33 cloned in
  let* _ := same left right in
  let* _ := same left_indices right_indices in
  same [1; 5; 22; 24] left_indices).
Proof. vm_compute. exact I. Qed.
Example sparse_dropping : passes (
  let* c := each (upto 0 40) (fun i => run_ (sp_insert e 64 i i)) sparse0 in
  let* c := each (upto 0 20) (fun i => run_ (sp_remove 64 i)) c in
  let* n := drops in let* _ := same_n 0 n in
  let* _ := run_ (sp_destroy e 64) c in
  let* n := drops in same_n 20 n).
Proof. vm_compute. exact I. Qed.
Definition sp_compare (b : bool) (c1 c2 : sparse nat) : fz unit :=
  let* (_, x) := call (sp_eq 64 Nat.eqb) (c1, c2) in assert_ (Bool.eqb b x).
Example sparse_equality_test : passes (
  let* c1 := each (upto 0 32) (fun i => run_ (sp_insert e 64 i i)) sparse0 in
  let* (c1, r) := call (sp_clone e 64 (fun _ a => Some a)) c1 in
  let* _ := sp_compare true c1 (fst r) in
  let* c2 := each (upto 4 8) (fun i => run_ (sp_insert e 64 i 0)) (fst r) in
  let* _ := sp_compare false c1 c2 in
  let* (c1, r) := call (sp_clone e 64 (fun _ a => Some a)) c1 in
  let* c2 := each (upto 0 16) (fun i => run_ (sp_remove 64 i)) (fst r) in
  sp_compare false c1 c2).
Proof. vm_compute. exact I. Qed.
Definition evens : list (option nat) := map (fun i => if Nat.even i then Some i else None) (upto 0 64).
Definition even_chunk : fz (sparse nat) := made (sp_from_iter e 64 (map Yield evens)).
Definition all_eq (l1 l2 : list (option nat)) : fz unit := assert_ (slice_eq (opt_eqb Nat.eqb) l1 l2).
Example sparse_iter : passes (
  let* c := even_chunk in let* (_, l) := collect_ (SparseModel.it_next 64) 65 (c, 0) in same (omap id evens) (map snd l)).
Proof. vm_compute. exact I. Qed.
Example sparse_iter_mut : passes (
  let* c := even_chunk in let* (_, l) := collect_ (im_next 64) 65 (c, smap c) in same (omap id evens) (map snd l)).
Proof. vm_compute. exact I. Qed.
Example sparse_drain : passes (
  let* c := even_chunk in let* (_, l) := collect_ (dr_next 64) 65 c in same (omap id evens) l).
Proof. vm_compute. exact I. Qed.
Example sparse_option_iter : passes (
  let* c := even_chunk in let* (_, l) := collect_ (oi_next e 64) 65 (c, 0) in all_eq evens l).
Proof. vm_compute. exact I. Qed.
Example sparse_option_iter_mut : passes (
  let* c := even_chunk in let* (_, l) := collect_ (om_next e 64) 65 (c, 0) in all_eq evens (map (option_map snd) l)).
Proof. vm_compute. exact I. Qed.
Example sparse_option_drain : passes (
  let* c := even_chunk in let* (_, l) := collect_ (od_next e 64) 65 (c, 0) in all_eq evens l).
Proof. vm_compute. exact I. Qed.
(** mod.rs 35-49 *)
Example sparse_doc : passes (
  let* c := run_ (sp_insert e 20 18 5) sparse0 in
  let* c := run_ (sp_insert e 20 5 23) c in
  let* (c, n) := call (sp_len 20) c in let* _ := same_n 2 n in
  let* (c, x) := call (sp_get 20 5) c in let* _ := assert_ (opt_eq x (Some 23)) in
  let* (c, x) := call (sp_get 20 6) c in let* _ := assert_ (opt_eq x None) in
  let* (c, x) := call (sp_get 20 18) c in assert_ (opt_eq x (Some 5))).
Proof. vm_compute. exact I. Qed.
End sparse.

(** ** src/inline_array/mod.rs 604-735, on a 64-bit machine *)
Section inline.
Notation e := (env16 true).
Definition ia_made (L : layout) (b : nat) : fz (inline nat) := let* (_, c) := call (ia_new e L b) tt in pass c.
(** [[usize; 32]] with elements of 8 bytes. *)
Example inline_dropping : passes (
  let L := Layout 8 8 256 8 8 8 8 in
  let* c := ia_made L 8 in
  let* c := each (upto 0 16) (fun i => run_ (ia_push e L 8 i)) c in
  let* c := each (upto 0 8) (fun _ => run_ (ia_pop e L 8)) c in
  let* n := drops in let* _ := same_n 0 n in
  let* _ := run_ (ia_destroy e L 8) c in
  let* n := drops in same_n 8 n).
Proof. vm_compute. exact I. Qed.
(** [()] in [[usize; 32]]. *)
Example zero_sized_values :
  let e := Env (16 * 256) true (fun _ : unit => false) in
  let L := Layout 0 1 256 8 8 8 8 in
  match (let! _ := (fix go n := match n with 0 => ret tt | S n' => ia_push e L 8 tt ;;; go n' end) 200 in
         let! n := ia_len e L 8 in let! x := ia_pop e L 8 in ret (n, x))
    match ia_new e L 8 tt log0 with Ret _ _ c => c | _ => inline_uninit end log0 with
  | Ret _ _ r => r = (200, Some tt)
  | _ => False
  end.
Proof. vm_compute. reflexivity. Qed.
(** [String] (24 bytes) in [[u8; 512]] and [[u16; 512]]. *)
Definition first_is (L : layout) (b v : nat) : fz unit :=
  let* c := ia_made L b in
  let* c := run_ (ia_push e L b v) c in
  let* (c, x) := call (ia_index e L b 0) c in same_n x v.
Example low_align_base :
  passes (first_is (Layout 24 8 512 1 8 8 8) 8 7) /\ passes (first_is (Layout 24 8 1024 2 8 8 8) 8 7).
Proof. vm_compute. auto. Qed.
(** [f64] in [[u8; 16]] and [[u8; 17]]. *)
Example float_align :
  passes (first_is (Layout 8 8 16 1 8 8 8) 8 123) /\ passes (first_is (Layout 8 8 17 1 8 8 8) 8 123).
Proof. vm_compute. auto. Qed.
(** [BigAlign]: size and alignment 256; [MediumAlign]: 32. *)
Example insufficient_alignment1 :
  capacity e (Layout 256 256 (8 * 256) 8 8 8 8) = 0 /\ capacity e (Layout 256 256 (32 * 256) 32 8 8 8) = 0.
Proof. vm_compute. auto. Qed.
Example insufficient_alignment2 : passes (
  let L := Layout 256 256 (8 * 256) 8 8 8 8 in
  let* bad := ia_made L 8 in
  let* _ := same_n 0 (capacity e L) in
  let* (bad, n) := call (ia_len e L 8) bad in let* _ := same_n 0 n in
  let* (bad, l) := call (ia_deref e L 8) bad in let* _ := same_n 0 (length l) in
  let* (bad, b) := call (ia_is_full e L 8) bad in let* _ := assert_ b in
  let* (bad, l) := collect_ (ia_next e L 8) 1 bad in let* _ := same_n 0 (length l) in
  let* (bad, x) := call (ia_pop e L 8) bad in let* _ := assert_ (opt_eq x None) in
  let* (bad, x) := call (ia_remove e L 8 0) bad in let* _ := assert_ (opt_eq x None) in
  let* (bad, r) := call (ia_split_off e L 8 4096 0) bad in
  let* (_, b) := call (ia_is_full e L 4096) (fst r) in let* _ := assert_ b in
  run_ (ia_clear e L 8) bad).
Proof. vm_compute. exact I. Qed.
(** Elements and host items of size and alignment 256. *)
Example sufficient_alignment1 :
  capacity e (Layout 256 256 (14 * 256) 256 8 8 8) = 13 /\ capacity e (Layout 256 256 512 256 8 8 8) = 1 /\
  capacity e (Layout 256 256 256 256 8 8 8) = 0 /\ passes (first_is (Layout 256 256 512 256 8 8 8) 256 42).
Proof. vm_compute. auto. Qed.
(** Elements of size and alignment 128, host items of 256. *)
Example sufficient_alignment2 :
  capacity e (Layout 128 128 (100 * 256) 256 8 8 8) = 199 /\ capacity e (Layout 128 128 512 256 8 8 8) = 3 /\
  capacity e (Layout 128 128 256 256 8 8 8) = 1 /\ capacity e (Layout 128 128 0 256 8 8 8) = 0 /\
  passes (first_is (Layout 128 128 256 256 8 8 8) 256 42).
Proof. vm_compute. auto. Qed.
End inline.

(** ** The three refpool.rs [default_and_clone]: [PoolRef::default] calls [default_uninit] on junk, [cloned] and [clone_from] call
    [clone_uninit]. *)
Section refpool.
Notation N := 64.
Notation e := dbg.
Definition cl : nat -> nat -> option nat := fun _ a => Some a.
Example chunk_default_and_clone : passes (
  let* c1 := run_ chunk_default_uninit (Chunk 17 99 mem0) in
  let* c1 := each [1; 2; 3] (fun i => run_ (push_back e N i)) c1 in
  let* (both, _) := call (chunk_clone_uninit N cl) (Chunk 5 6 mem0, c1) in
  let* _ := chunk_same e N (fst both) (snd both) in
  let* c := made (from_iter e N (map Yield [1; 2; 3])) in
  let* (both3, _) := call (chunk_clone_uninit N cl) (Chunk 5 6 mem0, c) in
  let* _ := chunk_same e N (fst both3) (fst both) in
  chunk_is e N (fst both) [1; 2; 3]).
Proof. vm_compute. exact I. Qed.
Example ring_default_and_clone : passes (
  let* c1 := run_ (ring_default_uninit e N) (Ring 17 99 mem0) in
  let* c1 := each [1; 2; 3] (fun i => run_ (rb_push_back e N i)) c1 in
  let* (both, _) := call (ring_clone_uninit e N cl) (Ring 5 6 mem0, c1) in
  let* _ := ring_same e N (fst both) (snd both) in
  let* c := collected [1; 2; 3] in
  let* (both3, _) := call (ring_clone_uninit e N cl) (Ring 5 6 mem0, c) in
  let* _ := ring_same e N (fst both3) (fst both) in
  ring_is e N (fst both) [1; 2; 3]).
Proof. vm_compute. exact I. Qed.
Example sparse_default_and_clone : passes (
  let junk := Sparse (fun i => i =? 3) mem0 in
  let* c1 := run_ sp_default_uninit junk in
  let* c1 := run_ (sp_insert e N 5 13) c1 in
  let* c1 := run_ (sp_insert e N 10 37) c1 in
  let* c1 := run_ (sp_insert e N 31 337) c1 in
  let* (both, _) := call (sp_clone_uninit N cl) (junk, c1) in
  sp_compare true (snd both) (fst both)).
Proof. vm_compute. exact I. Qed.
End refpool.
