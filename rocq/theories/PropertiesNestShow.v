(** * Hashing and printing containers of containers (C88). *)
From Verif Require Import Machine Spec Prims Program InlineModel InlineSpec SparseModel SparseSpec IterSpec MixModel MixSpec MixProofs ChunkProgram RingProgram
  SparseProgram InlineProgram TempModel TempMix OwnModel OwnMix WalkModel WalkMix RefModel NestModel NestSpec NestNature NestProofs
  NestCopyModel NestCopySpec NestCopyProofs NestShowModel NestShowSpec NestShowProofs KeySpec.
From Verif Require PropertiesMix PropertiesNest PropertiesNestCopy ChunkExamples.

Section shown.
Context {A : Type} (e : env A).
Notation Es := (outer_senv e).
Notation holds := (OHolds e).
Notation lists s := (m_items Es s).
Notation all s := (flat_map (m_items e) (lists s)).
Notation only_lists s := (is_list Es s /\ forall v, In v (lists s) -> is_list e v).
(** Hashing a container of containers ([SparseChunk] has no [Hash]) feeds the hasher what the elements of the elements feed it, in
    order, and nothing else.  The container is exactly as before, nothing is dropped or lost. *)
Theorem C88_hash : forall x (s : mst Es) g, holds x s -> only_lists s -> nest_hash e x g = Ret x g (Some (map HItem (all s))).
Proof. intros x s g H [H1 H2]. exact (nest_hash_ok e x s g H H1 H2). Qed.
(** Hence containers that are equal feed every hasher the same, if equal elements do ([h a] is what [a] feeds it). *)
Theorem C88_equal_hash : forall (eqA : A -> A -> bool) {H} (h : A -> list H) hl x y (s t : mst Es) g, calm e ->
  (forall a b, eqA a b = true -> h a = h b) ->
  holds x s -> holds y t -> same_kind Es s t -> alike_kinds e s t -> only_lists s -> only_lists t ->
  (exists x' y' g', nest_eq e eqA (x, y) g = Ret (x', y') g' (Some true)) ->
  exists evs evs', nest_hash e x g = Ret x g (Some evs) /\ nest_hash e y g = Ret y g (Some evs') /\ fed h hl evs = fed h hl evs'.
Proof.
  intros eqA H h hl x y s t g Hc HE Hx Hy HS HK HI HJ (x1 & y1 & g1 & E1).
  destruct (PropertiesNestCopy.C87_eq e Hc eqA x y s t g Hx Hy HS HK) as (x2 & y2 & g2 & E2 & _).
  rewrite E2 in E1. assert (Q : outer_eq e eqA s t = true) by congruence. clear E1 E2.
  eexists _, _. split; [apply C88_hash; eassumption|]. split; [apply C88_hash; eassumption|].
  assert (F : forall l m, slice_eq eqA l m = true -> fed h hl (map HItem l) = fed h hl (map HItem m)).
  { induction l as [|a l IH]; intros [|b m]; cbn; try discriminate; [reflexivity|]. intros Hab. apply andb_true_iff in Hab as [H1 H2].
    rewrite (HE a b H1). f_equal. apply IH, H2. }
  assert (FA : forall l m, fed h hl (map HItem (l ++ m)) = fed h hl (map HItem l) ++ fed h hl (map HItem m)).
  { intros l m. unfold fed. rewrite map_app, flat_map_app. reflexivity. }
  assert (G : slice_eq (inner_eq e eqA) (lists s) (lists t) = true)
    by (destruct HI as [HI _], HJ as [HJ _]; destruct s, t; cbn in HI, HJ; try contradiction; exact Q).
  destruct HI as [_ HI], HJ as [_ HJ]. revert G HI HJ. clear -F FA. generalize (lists t). generalize (lists s).
  induction l as [|v l IH]; intros [|w m]; cbn [slice_eq flat_map]; try discriminate; [reflexivity|]. intros G HI HJ.
  apply andb_true_iff in G as [G1 G2]. rewrite !FA. f_equal; [|apply IH; [exact G2| |]; intros; [apply HI|apply HJ]; right; assumption].
  apply F. pose proof (HI v (or_introl eq_refl)). pose proof (HJ w (or_introl eq_refl)). destruct v, w; cbn in *; try contradiction; exact G1.
Qed.
(** The documentation of [std::hash::Hash] demands that values that are not equal feed the hasher different sequences, neither
    of them beginning with the other.  If the elements' [Hash] satisfies that, then so does the containers' for containers with
    equally many elements, of equal sizes ... *)
Theorem C88_prefix_free_partial : forall {H} (h : A -> list H) hl x y (s t : mst Es) g evs evs' k,
  prefix_free h -> holds x s -> holds y t -> only_lists s -> only_lists t -> sizes e s = sizes e t ->
  nest_hash e x g = Ret x g (Some evs) -> nest_hash e y g = Ret y g (Some evs') -> fed h hl evs ++ k = fed h hl evs' ->
  map (m_items e) (lists s) = map (m_items e) (lists t) /\ k = [].
Proof.
  intros H h hl x y s t g evs evs' k HP Hx Hy HI HJ HZ E1 E2 HF.
  rewrite (C88_hash x s g Hx HI) in E1. rewrite (C88_hash y t g Hy HJ) in E2. injection E1 as <-. injection E2 as <-.
  unfold sizes in HZ. rewrite !flat_map_concat_map in HF.
  assert (HL : length (concat (map (m_items e) (lists s))) = length (concat (map (m_items e) (lists t)))).
  { assert (LC : forall l m : list (list A), map length l = map length m -> length (concat l) = length (concat m)).
    { induction l as [|a l IH]; intros [|b m]; cbn; try discriminate; [reflexivity|]. intros [= Q1 Q2]. rewrite !app_length. f_equal; auto. }
    apply LC. rewrite !map_map. exact HZ. }
  pose proof (prefix_lists h hl HP _ _ _ HL HF) as Q. split.
  - apply concat_inj; [|exact Q]. rewrite !map_map. exact HZ.
  - rewrite Q in HF. apply (f_equal length) in HF. rewrite app_length in HF. destruct k; [reflexivity|cbn in HF; lia].
Qed.
(** What [Debug] prints: the outer container's name and, in its place, what [Debug] prints of each element. *)
Theorem C88_debug : forall x (s : mst Es) g, holds x s -> nest_fmt e x g = Ret x g (inside shows (shows s)).
Proof. intros x s g H. exact (nest_fmt_ok e x s g H). Qed.
(** Containers of the same type print the same exactly if they are equal. *)
Theorem C88_debug_tells_apart : forall (eqA : A -> A -> bool) x y (s t : mst Es) g, (forall a b, eqA a b = true <-> a = b) -> calm e ->
  holds x s -> holds y t -> same_kind Es s t -> alike_kinds e s t ->
  exists p q x' y' g', nest_fmt e x g = Ret x g p /\ nest_fmt e y g = Ret y g q /\
    exists b, nest_eq e eqA (x, y) g = Ret (x', y') g' (Some b) /\ (p = q <-> b = true).
Proof.
  intros eqA x y s t g HE Hc Hx Hy HS HK.
  destruct (PropertiesNestCopy.C87_eq e Hc eqA x y s t g Hx Hy HS HK) as (x2 & y2 & g2 & E2 & _).
  eexists _, _, x2, y2, g2. split; [apply C88_debug; exact Hx|]. split; [apply C88_debug; exact Hy|].
  eexists. split; [exact E2|]. exact (nested_shows_eq e eqA x y s t HE Hx Hy HS HK).
Qed.
End shown.

Import PropertiesMix.
Notation dbg := ChunkExamples.dbg.
(** ... but not in general: two chunks of chunks made by this program, [[1 2] [3]] and [[1] [2 3]]; a ring of sparse chunks. *)
Definition ex_show : list (cmd (nop0 dbg) (nop1 nat) (nopn dbg) (nop2 nat)) :=
  [ Make (NNewOuter (ONewChunk c4)); Make (NNewOuter (ONewChunk c4));
    Make (NNew (OfChunk c4 (CFromIter [Yield 1; Yield 2]))); Call2 0 2 (NPut PutBack);
    Make (NNew (OfChunk c4 (CFromIter [Yield 3]))); Call2 0 3 (NPut PutBack);
    Make (NNew (OfChunk c4 (CFromIter [Yield 1]))); Call2 1 4 (NPut PutBack);
    Make (NNew (OfChunk c4 (CFromIter [Yield 2; Yield 3]))); Call2 1 5 (NPut PutBack) ].
Theorem C88_prefix_free_refuted :
  calm dbg /\ prefix_free (fun a : nat => [a]) /\ all_legal (nest_spec dbg) ex_show [] /\
  exists x y xs g evs (s t : mst (outer_senv dbg)),
  run (nest_kit dbg) ex_show [] log0 = Some (Some (inr x) :: Some (inr y) :: xs, g, evs) /\ OHolds dbg x s /\ OHolds dbg y t /\ same_kind (outer_senv dbg) s t /\ alike_kinds dbg s t /\
  (is_list (outer_senv dbg) s /\ forall v, In v (m_items (outer_senv dbg) s) -> is_list dbg v) /\
  map (m_items dbg) (m_items (outer_senv dbg) s) = [[1; 2]; [3]] /\ map (m_items dbg) (m_items (outer_senv dbg) t) = [[1]; [2; 3]] /\
  (exists x' y' g', nest_eq dbg Nat.eqb (x, y) g = Ret (x', y') g' (Some false)) /\
  nest_hash dbg x g = Ret x g (Some [HItem 1; HItem 2; HItem 3]) /\ nest_hash dbg y g = Ret y g (Some [HItem 1; HItem 2; HItem 3]) /\
  nest_fmt dbg x g = Ret x g (ShowList NChunk [ShowList NChunk [1; 2]; ShowList NChunk [3]]) /\
  nest_fmt dbg y g = Ret y g (ShowList NChunk [ShowList NChunk [1]; ShowList NChunk [2; 3]]).
Proof.
  assert (Hc : calm dbg) by exact ChunkExamples.dbg_calm.
  assert (HL : all_legal (nest_spec dbg) ex_show []) by (vm_compute; repeat split; auto).
  split; [exact Hc|]. split; [intros a b k [= E _]; exact E|]. split; [exact HL|].
  destruct (PropertiesNest.C85_nested_containers nat dbg ex_show Hc HL) as (X & g & Er & HF & _).
  assert (ES : exists (k : ccap (outer_senv dbg)) rest, s_store (srun (nest_spec dbg) ex_show []) =
    Some (inr (OfChunk k [OfChunk c4 [1; 2]; OfChunk c4 [3]])) :: Some (inr (OfChunk k [OfChunk c4 [1]; OfChunk c4 [2; 3]])) :: rest)
    by (eexists _, _; vm_compute; reflexivity).
  destruct ES as (k & rest & ES).
  pose (s := (OfChunk k [OfChunk c4 [1; 2]; OfChunk c4 [3]] : mst (outer_senv dbg))).
  pose (t := (OfChunk k [OfChunk c4 [1]; OfChunk c4 [2; 3]] : mst (outer_senv dbg))).
  rewrite ES in HF. inversion HF as [|x0 ? X1 ? Hx HF1]; subst. inversion HF1 as [|y0 ? X2 ? Hy HF2]; subst.
  destruct x0 as [[?|x]|]; cbn in Hx; try contradiction. destruct y0 as [[?|y]|]; cbn in Hy; try contradiction.
  exists x, y, X2, g, (s_events (srun (nest_spec dbg) ex_show [])), s, t.
  assert (HS : same_kind (outer_senv dbg) s t) by reflexivity.
  assert (HK : alike_kinds dbg s t) by (intros v w; cbn; intros [<-|[<-|[]]] [<-|[<-|[]]]; reflexivity).
  assert (HI : is_list (outer_senv dbg) s /\ forall v, In v (m_items (outer_senv dbg) s) -> is_list dbg v) by (split; [exact I|]; intros v; cbn; intros [<-|[<-|[]]]; exact I).
  assert (HJ : is_list (outer_senv dbg) t /\ forall v, In v (m_items (outer_senv dbg) t) -> is_list dbg v) by (split; [exact I|]; intros v; cbn; intros [<-|[<-|[]]]; exact I).
  split; [exact Er|]. split; [exact Hx|]. split; [exact Hy|]. split; [exact HS|]. split; [exact HK|]. split; [exact HI|]. split; [reflexivity|]. split; [reflexivity|].
  split; [|split; [exact (C88_hash dbg x s g Hx HI)|split; [exact (C88_hash dbg y t g Hy HJ)|
    split; [exact (C88_debug dbg x s g Hx)|exact (C88_debug dbg y t g Hy)]]]].
  destruct (PropertiesNestCopy.C87_eq dbg Hc Nat.eqb x y s t g Hx Hy HS HK) as (x' & y' & g' & E & _). exists x', y', g'. exact E.
Qed.
(** A sparse chunk with one chunk in it; and two chunks of chunks of the same sizes, [[1 2]] and [[1 4]]. *)
Definition ex_show2 : list (cmd (nop0 dbg) (nop1 nat) (nopn dbg) (nop2 nat)) :=
  [ Make (NNewOuter (ONewSparse s8)); Make (NNewOuter (ONewChunk c4)); Make (NNewOuter (ONewChunk c4));
    Make (NNew (OfChunk c4 (CFromIter [Yield 7; Yield 8]))); Call2 0 3 (NPut (PutAt 5));
    Make (NNew (OfChunk c4 (CFromIter [Yield 1; Yield 2]))); Call2 1 4 (NPut PutBack);
    Make (NNew (OfChunk c4 (CFromIter [Yield 1; Yield 4]))); Call2 2 5 (NPut PutBack) ].
Example C88_example :
  all_legal (nest_spec dbg) ex_show2 [] /\
  match run (nest_kit dbg) ex_show2 [] log0 with
  | Some (Some (inr z) :: Some (inr x) :: Some (inr y) :: _, g, _) =>
      match nest_fmt dbg z g, nest_hash dbg z g, nest_hash dbg x g, nest_hash dbg y g with
      | Ret _ _ p, Ret _ _ q, Ret _ _ r, Ret _ _ r2 =>
          p = ShowMap NSparseChunk [(5, ShowList NChunk [7; 8])] /\ q = None /\ r = Some [HItem 1; HItem 2] /\ r2 = Some [HItem 1; HItem 4]
      | _, _, _, _ => False
      end
  | _ => False
  end.
Proof. split; vm_compute; repeat split; auto. Qed.
Print Assumptions C88_hash. Print Assumptions C88_equal_hash. Print Assumptions C88_prefix_free_partial.
Print Assumptions C88_debug. Print Assumptions C88_debug_tells_apart. Print Assumptions C88_prefix_free_refuted.
