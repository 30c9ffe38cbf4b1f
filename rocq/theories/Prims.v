(** * Lemmas about the machine and tactics for symbolic execution. *)
From Verif Require Import Machine Spec.

(** ** The log *)
Lemma log_leak_nil {A} (g : log A) : log_leak [] g = g.
Proof. destruct g; unfold log_leak; cbn. rewrite app_nil_r. reflexivity. Qed.
Lemma log_drop_nil {A} (g : log A) : log_drop [] g = g.
Proof. destruct g; unfold log_drop; cbn. rewrite app_nil_r. reflexivity. Qed.

(** ** Lists *)
Lemma lookup_app_if {A} (l1 l2 : list A) i :
  (l1 ++ l2) !! i = if i <? length l1 then l1 !! i else l2 !! (i - length l1).
Proof.
  destruct (i <? length l1) eqn:E.
  - apply lookup_app_l. lia.
  - apply lookup_app_r. lia.
Qed.
Lemma lookup_take_if {A} (l : list A) n i :
  take n l !! i = if i <? n then l !! i else None.
Proof.
  destruct (i <? n) eqn:E.
  - apply lookup_take. lia.
  - apply lookup_take_ge. lia.
Qed.
Lemma lookup_cons_if {A} (a : A) (l : list A) i :
  (a :: l) !! i = if i =? 0 then Some a else l !! (i - 1).
Proof. destruct i; cbn; [reflexivity|]. f_equal. lia. Qed.
Lemma lookup_nil_none {A} i : ([] : list A) !! i = None.
Proof. reflexivity. Qed.
Lemma lookup_none {A} (l : list A) i : length l <= i -> l !! i = None.
Proof. apply lookup_ge_None_2. Qed.

Lemma omap_nil {A B} (f : A -> option B) (l : list A) :
  (forall x, In x l -> f x = None) -> omap f l = [].
Proof.
  induction l as [|x l IH]; intros H; cbn; [reflexivity|].
  rewrite H by (left; reflexivity). apply IH. intros y Hy. apply H. right; assumption.
Qed.
Lemma omap_seq_nil {A} (f : nat -> option A) a n :
  (forall p, a <= p < a + n -> f p = None) -> omap f (seq a n) = [].
Proof. intros H. apply omap_nil. intros x Hx. apply in_seq in Hx. apply H; lia. Qed.

Lemma mapM_seq {A} (f : nat -> option A) a (l : list A) :
  (forall i, i < length l -> f (a + i) = l !! i) -> mapM f (seq a (length l)) = Some l.
Proof.
  revert a. induction l as [|x l IH]; intros a H; [reflexivity|].
  cbn [length seq mapM].
  assert (f a = Some x) as ->.
  { specialize (H 0). rewrite Nat.add_0_r in H. apply H. cbn. lia. }
  cbn. fold (mapM f (seq (S a) (length l))). rewrite IH; [reflexivity|].
  intros i Hi. specialize (H (S i)). rewrite <- Nat.add_succ_comm in H. apply H. cbn. lia.
Qed.
Lemma mapM_seq' {A} (f : nat -> option A) a n (l : list A) :
  length l = n -> (forall i, i < n -> f (a + i) = l !! i) -> mapM f (seq a n) = Some l.
Proof. intros <-. apply mapM_seq. Qed.

(** The live values of a region that holds the list [l]. *)
Lemma omap_seq {A} (f : nat -> option A) a (l : list A) :
  (forall i, i < length l -> f (a + i) = l !! i) -> omap f (seq a (length l)) = l.
Proof.
  revert a. induction l as [|x l IH]; intros a H; [reflexivity|].
  cbn [length seq]. cbn.
  assert (f a = Some x) as ->.
  { specialize (H 0). rewrite Nat.add_0_r in H. apply H. cbn. lia. }
  f_equal. apply IH.
  intros i Hi. specialize (H (S i)). rewrite <- Nat.add_succ_comm in H. apply H. cbn. lia.
Qed.
Lemma omap_app' {A B} (f : A -> option B) l1 l2 : omap f (l1 ++ l2) = omap f l1 ++ omap f l2.
Proof.
  induction l1 as [|x l1 IH]; cbn; [reflexivity|].
  destruct (f x); cbn; rewrite <- IH; reflexivity.
Qed.
(** Storage of [N] slots in which exactly [a .. a + length l) is live and holds [l]. *)
Lemma omap_window {A} (f : nat -> option A) N a (l : list A) :
  a + length l <= N ->
  (forall p, p < N -> f p = if a <=? p then l !! (p - a) else None) ->
  omap f (seq 0 N) = l.
Proof.
  intros HN H.
  replace N with (a + (length l + (N - a - length l))) by lia.
  rewrite !seq_app, !omap_app'. cbn [plus].
  rewrite (omap_seq_nil f 0 a), (omap_seq_nil f (a + length l)).
  - rewrite app_nil_r. cbn. apply omap_seq. intros i Hi. rewrite H by lia.
    replace (a <=? a + i) with true by lia. f_equal. lia.
  - intros p Hp. rewrite H by lia. destruct (a <=? p); [apply lookup_none; lia|reflexivity].
  - intros p Hp. rewrite H by lia. replace (a <=? p) with false by lia. reflexivity.
Qed.

Lemma filter_calm {A} (e : env A) vs : calm e -> List.filter (bomb e) vs = [].
Proof. intros H. induction vs as [|v vs IH]; cbn; [|rewrite H]; auto. Qed.

(** ** Arithmetic *)
Lemma uadd_ok {A O} (e : env A) a b (o : O) g : a + b < word e -> uadd e a b o g = Ret o g (a + b).
Proof. intros H. unfold uadd. replace (a + b <? word e) with true by lia. reflexivity. Qed.
Lemma usub_ok {A O} (e : env A) a b (o : O) g : b <= a -> usub e a b o g = Ret o g (a - b).
Proof. intros H. unfold usub. replace (b <=? a) with true by lia. reflexivity. Qed.

Lemma debug_assert_ok {A O} (e : env A) b (o : O) g : b = true -> debug_assert e b o g = Ret o g tt.
Proof. intros ->. unfold debug_assert. rewrite andb_false_r. reflexivity. Qed.
Lemma assert_ok {A O} b (o : O) (g : log A) : b = true -> assert b o g = Ret o g tt.
Proof. intros ->. reflexivity. Qed.
Lemma assert_fail {A O} b (o : O) (g : log A) : b = false -> assert b o g = Panic o g.
Proof. intros ->. reflexivity. Qed.

(** ** Memory primitives *)
Section prims.
Context {A O : Type} `{HasMem A O} (e : env A) (N : nat).
Implicit Types (o : O) (g : log A).

Lemma slot_read_ok i a o g : i < N -> getm o i = Some a ->
  slot_read N i o g = Ret (setm (upd (getm o) i None) o) g a.
Proof. intros Hi Ha. unfold slot_read. replace (i <? N) with true by lia. rewrite Ha. reflexivity. Qed.

Lemma slot_peek_ok i a o g : i < N -> getm o i = Some a -> slot_peek N i o g = Ret o g a.
Proof. intros Hi Ha. unfold slot_peek. replace (i <? N) with true by lia. rewrite Ha. reflexivity. Qed.

Lemma slot_write_ok i a o g : i < N -> getm o i = None ->
  slot_write N i a o g = Ret (setm (upd (getm o) i (Some a)) o) (log_write 1 g) tt.
Proof.
  intros Hi Ha. unfold slot_write. replace (i <? N) with true by lia. rewrite Ha. cbn.
  rewrite log_leak_nil. reflexivity.
Qed.

Lemma slots_move_ok from to n o g : from + n <= N -> to + n <= N ->
  (forall p, to <= p < to + n -> ~ (from <= p < from + n) -> getm o p = None) ->
  slots_move N from to n o g = Ret (setm (mmove (getm o) from to n) o) (log_write n g) tt.
Proof.
  intros H1 H2 Hov. unfold slots_move.
  replace ((from + n <=? N) && (to + n <=? N)) with true by lia.
  unfold overwritten. rewrite omap_seq_nil, log_leak_nil; [reflexivity|].
  intros p Hp. destruct ((from <=? p) && (p <? from + n)) eqn:E; [reflexivity|].
  apply Hov; lia.
Qed.

Lemma slots_peek_ok a n l o g : length l = n -> a + n <= N ->
  (forall i, i < n -> getm o (a + i) = l !! i) -> slots_peek N a n o g = Ret o g l.
Proof.
  intros Hl HN Hm. unfold slots_peek. replace (a + n <=? N) with true by lia.
  rewrite (mapM_seq' _ _ _ l) by assumption. reflexivity.
Qed.

Lemma drop_values_calm vs o g : calm e -> drop_values e vs o g = Ret o (log_drop vs g) tt.
Proof. intros Hc. unfold drop_values. rewrite filter_calm by assumption. reflexivity. Qed.

Lemma slots_drop_peek a n l o g : length l = n -> a + n <= N ->
  (forall i, i < n -> getm o (a + i) = l !! i) ->
  slots_drop e N a n o g = drop_values e l (setm (mclear (getm o) a n) o) g.
Proof.
  intros Hl HN Hm. unfold slots_drop, bind. rewrite (slots_peek_ok _ _ l) by assumption. reflexivity.
Qed.
Lemma slots_drop_ok a n l o g : calm e -> length l = n -> a + n <= N ->
  (forall i, i < n -> getm o (a + i) = l !! i) ->
  slots_drop e N a n o g = Ret (setm (mclear (getm o) a n) o) (log_drop l g) tt.
Proof.
  intros Hc Hl HN Hm. rewrite (slots_drop_peek _ _ l) by assumption. apply drop_values_calm; assumption.
Qed.
Lemma panic_dropping_ok {R} v o g : calm e ->
  panic_dropping (R:=R) e v o g = Panic o (log_drop [v] g).
Proof. intros Hc. unfold panic_dropping. rewrite Hc. reflexivity. Qed.
End prims.

Lemma slots_transfer_ok {A O1 O2} `{HasMem A O1} `{HasMem A O2} Nd Ns from to n
  (o1 : O1) (o2 : O2) (g : log A) :
  from + n <= Ns -> to + n <= Nd ->
  (forall p, to <= p < to + n -> getm o1 p = None) ->
  slots_transfer Nd Ns from to n (o1, o2) g =
    Ret (setm (mrecv (getm o1) (getm o2) from to n) o1, setm (mclear (getm o2) from n) o2)
        (log_write n g) tt.
Proof.
  intros H1 H2 Hov. unfold slots_transfer.
  replace ((from + n <=? Ns) && (to + n <=? Nd)) with true by lia. cbn [fst snd].
  rewrite omap_seq_nil by assumption. rewrite log_leak_nil. reflexivity.
Qed.

(** ** Tactics *)
Lemma if_true {T} (b : bool) (x y : T) : b = true -> (if b then x else y) = x.
Proof. intros ->; reflexivity. Qed.
Lemma if_false {T} (b : bool) (x y : T) : b = false -> (if b then x else y) = y.
Proof. intros ->; reflexivity. Qed.

(** Decide or split one conditional on naturals. *)
Ltac split_if :=
  match goal with
  | |- context [if ?b then ?x else ?y] =>
      lazymatch b with context [if _ then _ else _] => fail | _ => idtac end;
      first [ rewrite (if_true b x y) by lia
            | rewrite (if_false b x y) by lia
            | let E := fresh "E" in destruct b eqn:E ]
  end.

(** Equations between lookups of lists. *)
Ltac lookups :=
  rewrite ?lookup_app_if, ?lookup_take_if, ?lookup_drop, ?lookup_cons_if, ?lookup_nil_none;
  repeat (progress (rewrite ?app_length, ?take_length, ?drop_length; cbn [length])).
Ltac lookup_leaf :=
  solve [ reflexivity | assumption | congruence | lia
        | f_equal; lia | f_equal; f_equal; lia
        | symmetry; apply lookup_none; lia | apply lookup_none; lia
        | rewrite !lookup_none by lia; reflexivity ].
Ltac pw :=
  repeat (lookups; split_if);
  lookups; try lookup_leaf.

(** Normalising finished logs. *)
Lemma log_drop_dropped {A} vs (g : log A) : dropped (log_drop vs g) = dropped g ++ vs.
Proof. reflexivity. Qed.

(** ** Symbolic execution *)
Section exec.
Context {A O : Type}.
Lemma bind_Ret {R T} (m : M A O R) (k : R -> M A O T) o g o' g' r :
  m o g = Ret o' g' r -> bind m k o g = k r o' g'.
Proof. intros E. unfold bind. rewrite E. reflexivity. Qed.
Lemma bind_Panic {R T} (m : M A O R) (k : R -> M A O T) o g o' g' :
  m o g = Panic o' g' -> bind m k o g = Panic o' g'.
Proof. intros E. unfold bind. rewrite E. reflexivity. Qed.
Lemma bind_bind {R T U} (m : M A O R) (k : R -> M A O T) (k' : T -> M A O U) o g :
  bind (bind m k) k' o g = bind m (fun x => bind (k x) k') o g.
Proof. unfold bind. destruct (m o g); reflexivity. Qed.
Lemma bind_panic {R T} (k : R -> M A O T) o g : bind panic k o g = Panic o g.
Proof. reflexivity. Qed.
Lemma bind_ret {R T} (r : R) (k : R -> M A O T) o g : bind (ret r) k o g = k r o g.
Proof. reflexivity. Qed.
End exec.

Section exec2.
Context {A O1 O2 : Type}.
Lemma on_fst_Ret {R} (m : M A O1 R) (o1 : O1) (o2 : O2) g o' g' r :
  m o1 g = Ret o' g' r -> on_fst m (o1, o2) g = Ret (o', o2) g' r.
Proof. intros E. unfold on_fst. cbn. rewrite E. reflexivity. Qed.
Lemma on_snd_Ret {R} (m : M A O2 R) (o1 : O1) (o2 : O2) g o' g' r :
  m o2 g = Ret o' g' r -> on_snd m (o1, o2) g = Ret (o1, o') g' r.
Proof. intros E. unfold on_snd. cbn. rewrite E. reflexivity. Qed.
Lemma on_fst_bind {R T} (m : M A O1 R) (k : R -> M A O1 T) (o : O1 * O2) g :
  on_fst (bind m k) o g = bind (on_fst m) (fun x => on_fst (k x)) o g.
Proof. unfold on_fst, bind. destruct (m (fst o) g); reflexivity. Qed.
Lemma on_snd_bind {R T} (m : M A O2 R) (k : R -> M A O2 T) (o : O1 * O2) g :
  on_snd (bind m k) o g = bind (on_snd m) (fun x => on_snd (k x)) o g.
Proof. unfold on_snd, bind. destruct (m (snd o) g); reflexivity. Qed.
Lemma on_fst_bind' {R T U} (m : M A O1 R) (k : R -> M A O1 T) (k' : T -> M A (O1 * O2) U) o g :
  bind (on_fst (bind m k)) k' o g = bind (on_fst m) (fun x => bind (on_fst (k x)) k') o g.
Proof. unfold on_fst, bind. destruct (m (fst o) g); reflexivity. Qed.
Lemma on_snd_bind' {R T U} (m : M A O2 R) (k : R -> M A O2 T) (k' : T -> M A (O1 * O2) U) o g :
  bind (on_snd (bind m k)) k' o g = bind (on_snd m) (fun x => bind (on_snd (k x)) k') o g.
Proof. unfold on_snd, bind. destruct (m (snd o) g); reflexivity. Qed.
Lemma with_local_Ret {R} (init : O1) d (m : M A (O1 * O2) R) o2 g o1' o2' g' r :
  m (init, o2) g = Ret (o1', o2') g' r -> with_local init d m o2 g = Ret o2' g' (o1', r).
Proof. intros E. unfold with_local. rewrite E. reflexivity. Qed.
Lemma with_local_Panic {R} (init : O1) (d : M A O1 unit) (m : M A (O1 * O2) R) o2 g o1' o2' g' o1'' g'' u :
  m (init, o2) g = Panic (o1', o2') g' -> d o1' g' = Ret o1'' g'' u ->
  with_local init d m o2 g = Panic o2' g''.
Proof. intros E E'. unfold with_local. rewrite E. cbn. rewrite E'. reflexivity. Qed.
End exec2.

(** Container-specific parts, redefined in each proof file. *)
Ltac expand := idtac.                 (* simplify record projections *)
Ltac mem_side := idtac.               (* prove [getm o i = x] *)
Ltac unfold_method m := fail.         (* replace a method name by its body *)

(** Solve [m o g = Ret ?o ?g ?r] for a primitive [m]. *)
Ltac prim :=
  lazymatch goal with
  | |- get _ _ = _ => reflexivity
  | |- put _ _ _ = _ => reflexivity
  | |- ret _ _ _ = _ => reflexivity
  | |- uadd _ _ _ _ _ = _ => apply uadd_ok; lia
  | |- usub _ _ _ _ _ = _ => apply usub_ok; lia
  | |- debug_assert _ _ _ _ = _ => apply debug_assert_ok; lia
  | |- assert _ _ _ = _ => apply assert_ok; lia
  | |- slot_read _ _ _ _ = _ => eapply slot_read_ok; [lia | mem_side]
  | |- slot_peek _ _ _ _ = _ => eapply slot_peek_ok; [lia | mem_side]
  | |- slot_write _ _ _ _ _ = _ => eapply slot_write_ok; [lia | mem_side]
  | |- slots_move _ _ _ _ _ _ = _ =>
      eapply slots_move_ok; [lia | lia | intros p ? ?; mem_side]
  | |- slots_transfer _ _ _ _ _ (_, _) _ = _ =>
      eapply slots_transfer_ok; [lia | lia | intros p ?; mem_side]
  | |- on_fst _ (_, _) _ = _ => eapply on_fst_Ret; prim
  | |- on_snd _ (_, _) _ = _ => eapply on_snd_Ret; prim
  | |- _ => reflexivity
  end.

Ltac head_if b x y :=
  first [ rewrite (if_true b x y) by lia
        | rewrite (if_false b x y) by lia
        | let E := fresh "E" in destruct b eqn:E ].

Ltac step1 :=
  match goal with
  | |- context [@bind ?A ?O ?R ?T ?m ?k ?o ?g] =>
      lazymatch m with
      | bind _ _ => rewrite (bind_bind (A:=A) (O:=O))
      | panic => rewrite (bind_panic (A:=A) (O:=O))
      | on_fst (bind _ _) => rewrite on_fst_bind'
      | on_snd (bind _ _) => rewrite on_snd_bind'
      | (if ?b then ?x else ?y) => head_if b x y
      | on_fst (if ?b then ?x else ?y) => head_if b x y
      | on_snd (if ?b then ?x else ?y) => head_if b x y
      | on_fst ?m' => first [unfold_method m' | erewrite (bind_Ret m k o g) by prim; cbn beta]
      | on_snd ?m' => first [unfold_method m' | erewrite (bind_Ret m k o g) by prim; cbn beta]
      | _ => first [ unfold_method m
                   | erewrite (bind_Ret m k o g) by prim; cbn beta ]
      end
  end; expand.
Ltac steps := repeat step1.

Lemma agrees_Ret {A O S R R'} (H : O -> S -> Prop) (RR : R -> R' -> Prop) g0
  (m : M A O R) o g o' g' r (s : sres A S R') :
  m o g = Ret o' g' r -> agrees H RR g0 (Ret o' g' r) s -> agrees H RR g0 (m o g) s.
Proof. intros ->. auto. Qed.
Lemma agrees_panic_dropping {A O S R R'} (H : O -> S -> Prop) (RR : R -> R' -> Prop) g0
  (e : env A) v o g (s : sres A S R') : calm e ->
  agrees H RR g0 (Panic o (log_drop [v] g)) s ->
  agrees H RR g0 (panic_dropping (R:=R) e v o g) s.
Proof. intros Hc. rewrite panic_dropping_ok by assumption. auto. Qed.

(** Total correctness: the execution returns, in a state satisfying [P]. *)
Definition post {A O R} (P : O -> log A -> R -> Prop) (x : outcome A O R) : Prop :=
  match x with Ret o g r => P o g r | _ => False end.
Lemma post_Ret {A O R} (P : O -> log A -> R -> Prop) (m : M A O R) o g o' g' r :
  m o g = Ret o' g' r -> post P (Ret o' g' r) -> post P (m o g).
Proof. intros ->. auto. Qed.
Lemma post_exists {A O R} (P : O -> log A -> R -> Prop) (x : outcome A O R) :
  post P x -> exists o g r, x = Ret o g r /\ P o g r.
Proof. destruct x; cbn; try contradiction. eauto. Qed.

Ltac tail1 :=
  lazymatch goal with
  | |- post _ (Ret _ _ _) => fail
  | |- post _ (bind _ _ _ _) => fail
  | |- post _ ((if ?b then ?x else ?y) _ _) => head_if b x y
  | |- post _ (on_fst (bind _ _) _ _) => rewrite on_fst_bind
  | |- post _ (on_snd (bind _ _) _ _) => rewrite on_snd_bind
  | |- post _ (with_local _ _ _ _ _) => eapply post_Ret; [eapply with_local_Ret|]
  | |- post _ (?m _ _) =>
     first [ unfold_method m | eapply post_Ret; [solve [prim]|] ]
  | |- agrees _ _ _ (Ret _ _ _) _ => fail
  | |- agrees _ _ _ (Panic _ _) _ => fail
  | |- agrees _ _ _ (bind _ _ _ _) _ => fail
  | |- agrees _ _ _ ((if ?b then ?x else ?y) _ _) _ => head_if b x y
  | |- agrees _ _ _ (panic_dropping _ _ _ _) _ => apply agrees_panic_dropping; [assumption|]
  | |- agrees _ _ _ (panic ?o ?g) _ => change (panic o g) with (Panic o g)
  | |- agrees _ _ _ (on_fst (bind _ _) _ _) _ => rewrite on_fst_bind
  | |- agrees _ _ _ (on_snd (bind _ _) _ _) _ => rewrite on_snd_bind
  | |- agrees _ _ _ (with_local _ _ _ _ _) _ => eapply agrees_Ret; [eapply with_local_Ret|]
  | |- agrees _ _ _ (?m _ _) _ =>
     first [ unfold_method m | eapply agrees_Ret; [solve [prim]|] ]
  | |- (if ?b then ?x else ?y) _ _ = _ => head_if b x y
  | |- bind _ _ _ _ = _ => fail
  | |- on_fst (bind _ _) _ _ = _ => rewrite on_fst_bind
  | |- on_snd (bind _ _) _ _ = _ => rewrite on_snd_bind
  | |- ?m _ _ = Ret _ _ _ => first [ unfold_method m | solve [prim]]
  end; expand.
Ltac exec := expand; repeat first [step1 | tail1].

(** ** Composing specified executions *)
Lemma agrees_same {A O S R R'} (H : O -> S -> Prop) (RR : R -> R' -> Prop) (g g' : log A) x s :
  dropped g' = dropped g -> leaked g' = leaked g -> agrees H RR g' x s -> agrees H RR g x s.
Proof. intros E1 E2. unfold agrees. rewrite E1, E2. auto. Qed.

(** What a local container being built adds to the specification: on return it is the result, on
    panic its elements are dropped. *)
Definition closing {A S R} (s : sres A (list A * S) R) : sres A S (list A) :=
  match s with
  | SRet (l, s') _ d => SRet s' l d
  | SPanic (l, s') d k => SPanic s' (d ++ l) k
  end.
Lemma with_local_agrees {A O1 O2 S2 R R'} (H1 : O1 -> list A -> Prop) (H2 : O2 -> S2 -> Prop)
    (RR : R -> R' -> Prop) (MM : O1 * R -> list A -> Prop)
    (init : O1) (destroy : M A O1 unit) (m : M A (O1 * O2) R) o2 g s :
  (forall o1 l r, H1 o1 l -> MM (o1, r) l) ->
  (forall o1 l g, H1 o1 l -> exists o1', destroy o1 g = Ret o1' (log_drop l g) tt) ->
  agrees (both H1 H2) RR g (m (init, o2) g) s ->
  agrees H2 MM g (with_local init destroy m o2 g) (closing s).
Proof.
  intros HM HD. destruct s as [[l s2] r d|[l s2] d k]; cbn.
  - intros (o' & g' & r0 & E & [Ha Hb] & _ & E1 & E2). exists (snd o'), g', (fst o', r0).
    unfold with_local. rewrite E. cbn in *. split; [reflexivity|]. split; [assumption|].
    split; [apply HM; assumption|]. auto.
  - intros (o' & g' & k' & E & [Ha Hb] & E1 & E2 & E3).
    destruct (HD (fst o') l g' Ha) as (o1' & E4).
    exists (snd o'), (log_drop l g'), k'. unfold with_local. rewrite E, E4. cbn in *.
    rewrite E1, app_assoc. auto.
Qed.

Lemma on_fst_agrees {A O1 O2 S1 S2 R R'} (H1 : O1 -> S1 -> Prop) (H2 : O2 -> S2 -> Prop)
    (RR : R -> R' -> Prop) (m : M A O1 R) o1 o2 s2 g s :
  H2 o2 s2 -> agrees H1 RR g (m o1 g) s ->
  agrees (both H1 H2) RR g (on_fst m (o1, o2) g)
    (match s with SRet s1 r d => SRet (s1, s2) r d | SPanic s1 d k => SPanic (s1, s2) d k end).
Proof.
  intros Hs. destruct s as [s1 r d|s1 d k]; cbn.
  - intros (o' & g' & r0 & E & Ha & Hr & E1 & E2). exists (o', o2), g', r0.
    unfold on_fst. cbn. rewrite E. repeat split; auto.
  - intros (o' & g' & k' & E & Ha & E1 & E2 & E3). exists (o', o2), g', k'.
    unfold on_fst. cbn. rewrite E. repeat split; auto.
Qed.

Lemma omap_range {A} (f : nat -> option A) a0 n a (l : list A) :
  a0 <= a -> a + length l <= a0 + n ->
  (forall p, a0 <= p < a0 + n -> f p = if a <=? p then l !! (p - a) else None) ->
  omap f (seq a0 n) = l.
Proof.
  intros H0 HN H.
  replace n with ((a - a0) + (length l + (a0 + n - a - length l))) by lia.
  rewrite !seq_app, !omap_app'.
  replace (a0 + (a - a0)) with a by lia.
  rewrite (omap_seq_nil f a0), (omap_seq_nil f (a + length l)).
  - rewrite app_nil_r. cbn. apply omap_seq. intros i Hi. rewrite H by lia.
    replace (a <=? a + i) with true by lia. f_equal. lia.
  - intros p Hp. rewrite H by lia. destruct (a <=? p); [apply lookup_none; lia|reflexivity].
  - intros p Hp. rewrite H by lia. replace (a <=? p) with false by lia. reflexivity.
Qed.
Lemma omap_ext' {A B} (f h : A -> option B) l : (forall x, In x l -> f x = h x) -> omap f l = omap h l.
Proof.
  induction l as [|x l IH]; intros H; cbn; [reflexivity|].
  rewrite (H x) by (left; reflexivity). destruct (h x); [f_equal|]; apply IH; intros; apply H; right; auto.
Qed.

Lemma yields_length {A} n (it : list (ev A)) : length (yields n it) <= n.
Proof.
  revert it. induction n as [|n IH]; intros [|[a|] it]; cbn; try lia. specialize (IH it). lia.
Qed.
Lemma clones_length {A} cl (l : list A) k : length (clones cl k l) <= length l.
Proof.
  revert k. induction l as [|a l IH]; intros k; cbn; [lia|].
  destruct (cl k a); cbn; [specialize (IH (S k))|]; lia.
Qed.

(** ** Permutations of appended lists *)
Lemma perm_nil_r {A} (l : list A) : Permutation l (l ++ []).
Proof. rewrite app_nil_r. reflexivity. Qed.
Ltac bring x :=
  lazymatch goal with
  | |- Permutation (x ++ ?R) _ => reflexivity
  | |- Permutation x _ => apply perm_nil_r
  | |- Permutation (?y ++ ?R) _ =>
      eapply Permutation_trans; [apply Permutation_app_head; bring x | apply Permutation_app_swap_app]
  end.
Ltac perm_norm :=
  repeat match goal with
  | |- context [?a :: ?l] => lazymatch l with [] => fail | _ => change (a :: l) with ([a] ++ l) end
  end;
  rewrite <- ?app_assoc, ?app_nil_r, ?app_nil_l.
Ltac perm_go :=
  lazymatch goal with
  | |- Permutation (?x ++ _) _ =>
      eapply Permutation_trans; [|apply Permutation_sym; bring x]; apply Permutation_app_head; perm_go
  | |- Permutation _ _ => rewrite ?app_nil_r; reflexivity
  end.
(** Solve [Permutation] between two appends of the same pieces. *)
Ltac perm := perm_norm; perm_go.
(** Use the permutation [P] once. *)
Ltac perm_use P :=
  lazymatch type of P with
  | Permutation ?L ?R =>
      lazymatch goal with
      | |- Permutation ?G1 ?G2 =>
          apply (Permutation_app_inv_r R); apply Permutation_trans with (G2 ++ L);
          [ try perm | apply Permutation_app_head; exact P ]
      end
  end.
