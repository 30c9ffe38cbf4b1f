(** * Containers of containers (C85). *)
From Verif Require Import Machine Spec Prims Program ProgramEnd InlineModel InlineSpec SparseSpec IterSpec ChunkProgram RingProgram SparseProgram
  InlineProgram MixModel MixSpec MixProofs MixProgram MixBalance TempModel TempSpec TempMix OwnModel OwnSpec OwnMix WalkModel WalkSpec WalkMix
  NestModel NestSpec NestNature NestProofs NestBalance.
From Verif Require PropertiesMix.

Notation prog e A := (list (cmd (nop0 e) (nop1 A) (nopn e) (nop2 A))).

(** C85.  Programs of the calls of C84 on any containers, and of calls on containers, of any kind, whose elements are such
    containers: [x.push_back(y)], [x.insert(i, y)], [let y = x.pop_front()], [x.remove(i)], [x.clear()], [x.split_off(i)],
    [x.append(&mut z)], [x.drain().collect()], and any call of C84 on [x[i]], alone or with another container:
    [x[i].push_back(v)], [x[i].append(&mut y)], [let y = x[i].split_off(3)].  [nest_spec]: an outer container is the list (or
    array of options) of the lists its elements are.  A method of [x[i]] does to that list what it does to a container of its
    own, and nothing to the others; moving containers in and out drops nothing; a container that is dropped drops its
    elements, in order, which is also how the outer one is dropped. *)
Theorem C85_nested_containers :
  forall (A : Type) (e : env A) (p : prog e A),
  calm e -> all_legal (nest_spec e) p [] ->
  let s := srun (nest_spec e) p [] in
  exists X g, run (nest_kit e) p [] log0 = Some (X, g, s_events s) /\
    Forall2 (orel (NHolds e)) X (s_store s) /\ dropped g = s_dropped s /\ Permutation (leaked g) (s_leaked s).
Proof.
  intros A e p Hc HL. destruct (run_sim _ _ _ (nest_refines e Hc) p [] [] log0 (Forall2_nil _) HL) as (X & g & k & E & H & D & L & P).
  exists X, g. split; [exact E|]. split; [exact H|]. split; [exact D|]. rewrite L. symmetry. exact P.
Qed.
Print Assumptions C85_nested_containers.
(** When all containers have gone out of scope, every element, at whatever depth it was, has been handed back or dropped, exactly
    once. *)
Theorem C85_scope_end :
  forall (A : Type) (e : env A) (p : prog e A),
  calm e -> all_legal (nest_spec e) p [] -> Forall (ntruthful e) p ->
  exists X g evs, run (nest_kit e) (to_the_end p) [] log0 = Some (X, g, evs) /\ Forall (eq None) X /\ leaked g = [] /\
    Permutation (s_given (srun (nest_spec e) p [])) (returned (nest_spec e) evs ++ dropped g).
Proof.
  intros A e p Hc HL HT.
  destruct (run_to_the_end _ _ (NHolds e) p (nest_refines e Hc) (nest_balanced e) HL) as (X & g & evs & E & HX & P & PL).
  assert (leaked g = []) as EL.
  { rewrite (srun_tight _ p) in PL; [|eapply List.Forall_impl; [apply ntruthful_tight|exact HT]|exact HL].
    apply Permutation_nil. symmetry. exact PL. }
  exists X, g, evs. rewrite EL, app_nil_r in P. auto.
Qed.
Print Assumptions C85_scope_end.

(** Single calls. *)
Section one_call.
Context {A : Type} (e : env A) (Hc : calm e).
Notation Es := (outer_senv e).
Notation holds := (NHolds e).
Notation only g g' d := (dropped g' = dropped g ++ d /\ leaked g' = leaked g).
(** A container of containers that is dropped drops the elements of its elements, in order. *)
Theorem C85_drop : forall x (s : mst Es) g, holds x (inr s) ->
  exists x' g', kill (nest_kit e) x g = Ret x' g' tt /\ only g g' (flat_map (m_items e) (m_items Es s)).
Proof.
  intros x s g H. destruct (refk _ _ _ (nest_refines e Hc) x (inr s) g H) as (x' & g' & [] & E & _ & _ & D). exists x', g'. split; [exact E|exact D].
Qed.
(** Pushing a container moves it, with its elements. *)
Theorem C85_push : forall x k (l : list (mst e)) y t g, holds x (inr (OfChunk k l)) -> holds y (inl t) ->
  exists x' y' g', holds y' (inl (m_empty e t)) /\
  if length l <? `k
  then run2 (nest_kit e) (NPut PutBack) (x, y) g = Ret (x', y') g' (NOuter None) /\ holds x' (inr (OfChunk k (l ++ [t]))) /\ only g g' []
  else run2 (nest_kit e) (NPut PutBack) (x, y) g = Panic (x', y') g' /\ holds x' (inr (OfChunk k l)) /\ only g g' (m_items e t).
Proof.
  intros x k l y t g Hx Hy.
  pose proof (ref2 _ _ _ (nest_refines e Hc) (NPut PutBack) (x, y) (inr (OfChunk k l), inl t) g (conj Hx Hy) I) as P.
  cbn [spec2 nest_spec fst snd] in P. unfold spec_put in P. cbn [o_put spec1 mix_spec chunk_spec] in P. unfold bl_push_back in P.
  destruct (length l <? `k) eqn:El; cbn in P.
  - destruct P as ([x' y'] & g' & r & E & [H1 H2] & <- & D & L). exists x', y', g'. cbn in H1, H2. auto.
  - destruct P as ([x' y'] & g' & r & E & [H1 H2] & D & L & P). exists x', y', g'. apply Permutation_nil in P. subst r.
    rewrite !app_nil_r in *. cbn in H1, H2. auto.
Qed.
(** A method of one element leaves the others as they are, and does to it, and gives, what it does to a container in a variable. *)
Theorem C85_element : forall x (s : mst Es) i v o g, holds x (inr s) -> elem e i s = Some v -> legal1 (walk_spec e) o v ->
  exists x' g', match spec1 (walk_spec e) o v with
  | SRet v' r d => run1 (nest_kit e) (NAt i o) x g = Ret x' g' (NInner r) /\ holds x' (inr (with_elem e i v' s)) /\ only g g' d
  | SPanic v' d k => run1 (nest_kit e) (NAt i o) x g = Panic x' g' /\ holds x' (inr (with_elem e i v' s)) /\
      dropped g' = dropped g ++ d /\ exists k', leaked g' = leaked g ++ k' /\ Permutation k k'
  end.
Proof.
  intros x s i v o g Hx E HL.
  assert (HL2 : legal1 (nest_spec e) (NAt i o) (inr s)) by (cbn [legal1 nest_spec]; unfold at_elem; rewrite E; exact HL).
  pose proof (ref1 _ _ _ (nest_refines e Hc) (NAt i o) x (inr s) g Hx HL2) as P. cbn [spec1 nest_spec] in P. unfold spec_at1 in P. rewrite E in P.
  destruct (spec1 (walk_spec e) o v) as [v' r d|v' d k]; cbn [sas_one] in P.
  - destruct P as (x' & g' & r2 & E2 & H & <- & D & L). exists x', g'. auto.
  - destruct P as (x' & g' & k' & E2 & H & D & L & P). exists x', g'. split; [exact E2|]. split; [exact H|]. split; [exact D|]. exists k'. auto.
Qed.
(** If there is no such element, the call panics and changes nothing. *)
Theorem C85_no_element : forall x (s : mst Es) i o g, holds x (inr s) -> elem e i s = None ->
  exists x' g', run1 (nest_kit e) (NAt i o) x g = Panic x' g' /\ holds x' (inr s) /\ only g g' [].
Proof.
  intros x s i o g Hx E.
  assert (HL2 : legal1 (nest_spec e) (NAt i o) (inr s)) by (cbn [legal1 nest_spec]; unfold at_elem; rewrite E; exact I).
  pose proof (ref1 _ _ _ (nest_refines e Hc) (NAt i o) x (inr s) g Hx HL2) as P. cbn [spec1 nest_spec] in P. unfold spec_at1 in P. rewrite E in P.
  destruct P as (x' & g' & k' & E2 & H & D & L & P). apply Permutation_nil in P. subst k'. rewrite app_nil_r in L |- *.
  exists x', g'. rewrite app_nil_r in D. auto.
Qed.
End one_call.
Print Assumptions C85_drop. Print Assumptions C85_push. Print Assumptions C85_element. Print Assumptions C85_no_element.

Import PropertiesMix.
Definition o2 : olay dbg := exist _ PropertiesInline.ex_last
  (conj (PropertiesInline.ex_last_wf dbg eq_refl) (conj i2_host (Nat.neq_succ_0 15))).
Definition wres_of (r : res nat) : nres nat := NInner (WRes (MRes r)).
Definition ex_nest : prog dbg nat :=
  [ Make (NNewOuter (ONewChunk c4));                                                   (* 0: a chunk of containers *)
    Make (NNew (OfRing r4 (BFromIter [Yield 1; Yield 2; Yield 3])));                   (* 1 *)
    Call2 0 1 (NPut PutBack);                                                          (* [[1 2 3]] *)
    Call 1 (NMethod (inl (M1Ring (BPushBack 4))));
    Call2 0 1 (NPut PutFront);                                                         (* [[4] [1 2 3]] *)
    Make (NNew (OfChunk c4 (CFromIter [Yield 5; Yield 6])));                           (* 2 *)
    Call2 0 2 (NPut (PutAt 1));                                                        (* [[4] [5 6] [1 2 3]] *)
    Call 0 (NAt 2 (inl (M1Ring (BPushFront 7))));                                      (* the last one is full *)
    Call 0 (NAt 2 (inl (M1Ring (BPushFront 8))));                                      (* panics, 8 is dropped *)
    Call 0 (NAt 2 (inl (M1Ring BContents)));
    Spawn 0 (NAtSpawn 2 (inl (ByRef (MnRing (BSplitOff 2)))));                         (* 3: [2 3] *)
    Call 0 (NAt 3 (inl (M1Ring BClear)));                                              (* panics *)
    Call2 0 3 (NAt2 0 (ByRef (M2Ring BAppend)));                                       (* [[4 2 3] [5 6] [7 1]] *)
    Call 0 (NAt 0 (inr (WFind Back (fun _ a => Some (a =? 2)))));                      (* drops 3, returns 2 *)
    Call2 0 3 (NPut PutBack);                                                          (* [[4] [5 6] [7 1] []] *)
    Call 2 (NMethod (inl (M1Chunk (CPushBack 9))));
    Call2 0 2 (NPut PutBack);                                                          (* panics: full; 9 is dropped *)
    Spawn 0 (NTake (TakeAt 1));                                                        (* 4: [5 6] *)
    Call 4 (NMethod (inl (M1Chunk CAsSlice)));
    Call 0 (NOuterMethod (ODropLeft 1));                                               (* drops 4 *)
    Make (NNewOuter (ONewSparse s8));                                                  (* 5: a sparse chunk of containers *)
    Call2 5 4 (NPut (PutAt 6));
    Make (NNew (OfSparse s8 (PPair 5 11 1 10)));                                       (* 6 *)
    Call2 5 6 (NPut (PutAt 3));
    Call 5 (NAt 3 (inl (M1Sparse (PInsert 2 12))));
    Call2 5 6 (NPut (PutAt 6));                                                        (* what was there is dropped: 5, 6 *)
    Spawn 0 (NOuterSpawn (OCollect Back (OToInline o2 16)));                           (* 7: an inline array: [] [7 1] *)
    Call 7 (NAt 1 (inl (M1Ring BContents)));
    Call 7 (NOuterMethod OLen) ].
Example C85_example :
  calm dbg /\ all_legal (nest_spec dbg) ex_nest [] /\ Forall (ntruthful dbg) ex_nest /\
  match run (nest_kit dbg) (to_the_end ex_nest) [] log0 with
  | Some (X, g, evs) => evs = [ Done; Done; Returned (NOuter None); Returned (wres_of RUnit); Returned (NOuter None); Done;
        Returned (NOuter None); Returned (wres_of RUnit); Panicked; Returned (wres_of (RRefs [7; 1; 2; 3])); Done; Panicked;
        Returned (wres_of RUnit); Returned (NInner (WItem (Some 2))); Returned (NOuter None); Returned (wres_of RUnit); Panicked; Done;
        Returned (wres_of (RRefs [5; 6])); Returned (NOuter None); Done; Returned (NOuter None); Done; Returned (NOuter None);
        Returned (NInner (WRes (MSp (POpt None)))); Returned (NOuter None); Done; Returned (wres_of (RRefs [7; 1]));
        Returned (NOuter (Some 2)); Done; Done; Done; Done; Done; Done; Done; Done ] /\
      dropped g = [8; 3; 9; 4; 5; 6; 10; 12; 11; 7; 1] /\ leaked g = []
  | None => False
  end.
Proof.
  split; [|split; [|split]].
  - intros a. reflexivity.
  - vm_compute. repeat split; lia.
  - repeat constructor.
  - vm_compute. auto.
Qed.
