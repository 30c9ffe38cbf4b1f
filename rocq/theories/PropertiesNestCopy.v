(** * Comparing and cloning containers of containers (C87). *)
From Verif Require Import Machine Spec Prims Program InlineModel InlineSpec SparseModel SparseSpec IterSpec MixModel MixSpec MixProofs ChunkProgram RingProgram
  SparseProgram InlineProgram TempModel TempMix OwnModel OwnMix WalkModel WalkSpec WalkMix NestModel NestSpec NestNature NestProofs
  NestCopyModel NestCopySpec NestCopyProofs.
From Verif Require PropertiesMix ChunkExamples.
Section copies.
Context {A : Type} (e : env A) (Hc : calm e).
Notation Es := (outer_senv e).
Notation holds := (OHolds e).
Notation lists s := (m_items Es s).
Notation its := (flat_map (m_items e)).
Notation only g g' d := (dropped g' = dropped g ++ d /\ leaked g' = leaked g).
(** [x == y] for containers of the same type, whose elements are containers of the same type: the same number of elements (in a
    [SparseChunk], in the same cells) that are equal as containers: have the same number of elements, which are [==].
    How the elements lie in memory, at either depth, makes no difference.  Nothing changes. *)
Theorem C87_eq : forall (eqA : A -> A -> bool) x y (s t : mst Es) g,
  holds x s -> holds y t -> same_kind Es s t -> alike_kinds e s t ->
  exists x' y' g', nest_eq e eqA (x, y) g = Ret (x', y') g' (Some (outer_eq e eqA s t)) /\ holds x' s /\ holds y' t /\ only g g' [].
Proof.
  intros eqA x y s t g Hx Hy HS HK. destruct (nest_eq_ok e Hc eqA x y s t g Hx Hy HS HK) as (x' & y' & g' & E & H1 & H2 & D & L).
  exists x', y', g'. rewrite app_nil_r. auto.
Qed.
(** [x.partial_cmp(&y)] ([SparseChunk] has none): lexicographic in the elements, which are compared lexicographically. *)
Theorem C87_partial_cmp : forall (pc : A -> A -> option comparison) x y (s t : mst Es) g,
  holds x s -> holds y t -> same_kind Es s t -> is_list Es s -> alike_kinds e s t -> (forall v, In v (lists s) -> is_list e v) ->
  exists x' y' g', nest_pcmp e pc (x, y) g = Ret (x', y') g'
      (Some (iter_partial_cmp (iter_partial_cmp pc) (map (m_items e) (lists s)) (map (m_items e) (lists t)))) /\
    holds x' s /\ holds y' t /\ only g g' [].
Proof.
  intros pc x y s t g Hx Hy HS HI HK HL. destruct (nest_pcmp_ok e Hc pc x y s t g Hx Hy HS HI HK HL) as (x' & y' & g' & E & H1 & H2 & D & L).
  exists x', y', g'. rewrite app_nil_r.
  assert (M : forall l m : list (mst e), iter_partial_cmp (iter_partial_cmp pc) (map (m_items e) l) (map (m_items e) m) =
    iter_partial_cmp (fun v w => iter_partial_cmp pc (m_items e v) (m_items e w)) l m).
  { induction l as [|v l IH]; intros [|w m]; cbn; try reflexivity. destruct (iter_partial_cmp pc _ _) as [[]|]; auto. }
  rewrite M. auto.
Qed.
(** [x.clone()], where [cl n a] is what the [n]-th call of [A::clone] does with [a] ([None]: it panics).  It is called on all the
    elements of the elements, in order.  If none of the calls panics: the clone has the same shape, at both depths, and holds the
    clones in that order; [x] is as it was and nothing is dropped or lost.  Otherwise the call panics, [x] is as it was, and every
    clone that has been made is dropped, or lost, once; it is lost only if one of the containers is an [InlineArray]. *)
Theorem C87_clone : forall q (cl : nat -> A -> option A) x (s : mst Es) g, holds x s ->
  let l := its (lists s) in let c := clones cl 0 l in
  if length c =? length l
  then exists x' y s' g', nest_clone e q cl x g = Ret x' g' y /\ holds x' s /\ holds y s' /\
    same_shape Es (same_shape e (fun _ _ => True)) s' s /\ its (lists s') = c /\ only g g' []
  else exists x' g' d k, nest_clone e q cl x g = Panic x' g' /\ holds x' s /\ dropped g' = dropped g ++ d /\ leaked g' = leaked g ++ k /\
    Permutation c (d ++ k) /\ (no_inlines e s -> k = []).
Proof.
  intros q cl x s g Hx l c. pose proof (nest_clone_ok e Hc q cl x s g Hx) as P. cbv zeta in P. fold l in P. fold c in P.
  destruct (length c =? length l); [|exact P]. rewrite app_nil_r. exact P.
Qed.
(** A clone is equal to the original, and the same when compared, if [A]'s clones are. *)
Theorem C87_clone_is_equal : forall q (cl : nat -> A -> option A) (eqA : A -> A -> bool) x (s : mst Es) g,
  holds x s -> (forall n a, exists b, cl n a = Some b /\ eqA b a = true) -> alike_kinds e s s ->
  exists x' y g' x2 y2 g2, nest_clone e q cl x g = Ret x' g' y /\ nest_eq e eqA (y, x') g' = Ret (y2, x2) g2 (Some true) /\
    holds x2 s /\ only g g2 [].
Proof.
  intros q cl eqA x s g Hx Hcl HK. pose proof (C87_clone q cl x s g Hx) as P. cbv zeta in P.
  set (l := its (lists s)) in *.
  assert (El : forall n, length (clones cl n l) = length l).
  { clear -Hcl. clearbody l. induction l as [|a l IH]; intros n; cbn; [reflexivity|]. destruct (Hcl n a) as (b & -> & _). cbn. auto. }
  rewrite El, Nat.eqb_refl in P. destruct P as (x' & y & s' & g' & E & H1 & H2 & SH & EI & D & L).
  assert (HS : same_kind Es s' s) by (destruct s', s; cbn in SH |- *; try contradiction; destruct SH as [-> _]; reflexivity).
  assert (HK2 : alike_kinds e s' s).
  { intros v w Hv Hw. pose proof (items_shape Es _ s' s SH) as HF. apply List.In_nth_error in Hv as (i & Hi).
    assert (exists u, In u (lists s) /\ same_shape e (fun _ _ => True) v u) as (u & Hu & Su).
    { clear -HF Hi. revert i Hi. induction HF as [|a b l m Hab HF IH]; intros [|i] Hi; cbn in Hi; try discriminate.
      - injection Hi as ->. exists b. cbn. auto.
      - destruct (IH i Hi) as (u & Hu & Su). exists u. cbn. auto. }
    specialize (HK u w Hu Hw). destruct v, u; cbn in Su; try contradiction; destruct Su as [-> _]; exact HK. }
  destruct (C87_eq eqA y x' s' s g' H2 H1 HS HK2) as (y2 & x2 & g2 & E2 & H3 & H4 & D2 & L2).
  assert (outer_eq e eqA s' s = true) as EQ.
  { apply outer_eq_all; [exact SH|]. rewrite EI. apply (clones_like (fun b a => eqA b a = true)); [|apply El].
    intros n a b Eb. destruct (Hcl n a) as (b' & E3 & E4). congruence. }
  rewrite EQ in E2. exists x', y, g', x2, y2, g2. repeat split; auto; [|congruence].
  rewrite D2, D, !app_nil_r. reflexivity.
Qed.
End copies.
Import PropertiesMix.
Notation dbg := ChunkExamples.dbg.
(** Chunks of ring buffers: [[1 2] [3]], cloned, with [clone] adding 10 the second time it is called, [[1 12] [3]], and cloned with
    a [clone] that panics the third time; then a sparse chunk of those. *)
Definition ex_copy : list (cmd (nop0 dbg) (nop1 nat) (nopn dbg) (nop2 nat)) :=
  [ Make (NNewOuter (ONewChunk c4));
    Make (NNew (OfRing r4 (BFromIter [Yield 2; Yield 3]))); Call 1 (NMethod (inl (M1Ring (BPushFront 1))));
    Spawn 1 (NSpawn (inl (ByRef (MnRing (BSplitOff 2)))));
    Call2 0 1 (NPut PutBack); Call2 0 2 (NPut PutBack);
    Make (NNewOuter (ONewSparse s8));
    Make (NNew (OfChunk c4 (CFromIter [Yield 7; Yield 8]))); Call2 3 4 (NPut (PutAt 5)) ].
Definition plus_ten (n a : nat) : option nat := Some (if n =? 1 then 10 + a else a).
Definition gives_up (n a : nat) : option nat := if n =? 2 then None else Some a.
Definition less (a b : nat) : option comparison := Some (a ?= b).
Example C87_example :
  calm dbg /\ all_legal (nest_spec dbg) ex_copy [] /\
  match run (nest_kit dbg) ex_copy [] log0 with
  | Some ([Some (inr x); _; _; Some (inr z); _], g, _) =>
      match nest_clone dbg 0 plus_ten x g with
      | Ret x1 g1 y =>
          flat_map (contents dbg) (contents (outer_env dbg) y) = [1; 12; 3] /\
          match nest_eq dbg Nat.eqb (x1, y) g1, nest_pcmp dbg less (x1, y) g1, nest_eq dbg Nat.eqb (x1, x1) g1 with
          | Ret _ _ b, Ret _ _ c, Ret _ _ b2 => b = Some false /\ c = Some (Some Lt) /\ b2 = Some true
          | _, _, _ => False
          end
      | _ => False
      end /\
      match nest_clone dbg 0 gives_up x g with
      | Panic x1 g1 => dropped g1 = dropped g ++ [1; 2] /\ leaked g1 = []
      | _ => False
      end /\
      match nest_clone dbg 0 plus_ten z g with
      | Ret z1 g1 y => flat_map (contents dbg) (contents (outer_env dbg) y) = [7; 18] /\
          match nest_eq dbg Nat.eqb (z1, y) g1 with Ret _ _ b => b = Some false | _ => False end
      | _ => False
      end
  | _ => False
  end.
Proof. split; [intros x; reflexivity|]. split; vm_compute; repeat split; auto. Qed.
Print Assumptions C87_eq. Print Assumptions C87_partial_cmp. Print Assumptions C87_clone. Print Assumptions C87_clone_is_equal.
