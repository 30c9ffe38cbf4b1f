(** * Filling a container from an iterator that panics, stops early, or lies about its length (C77). *)
From Verif Require Import Machine Spec Prims LiveModel LiveSpec LiveProofs4 LiveProofs5 ChunkModel ChunkProofs RingModel
  RingProofs InlineModel InlineSpec InlineProofs2.
From Verif Require ChunkProofs2 ChunkLaws PropertiesChunk RingProofs2 RingProofs3 RingProofs4 InlineProofs3 ChunkExamples.

(** C77.  [it] is whatever the iterator is going to do: yield, panic, end.  [extend] appends what it yields until it ends
    ([bl_extend]); if it panics, or yields an item that does not fit (which is dropped), the call panics and the items already
    taken stay in the container.  The iterator is somewhere along its script. *)
Theorem C77_extend :
  forall (A S : Type) (e : env A) (N : nat) (L : layout) (b : nat)
    (F : S -> log A -> list (option (nat * option nat)) -> list (ev A) -> Prop) (E : S -> log A -> Prop)
    (next : M A S (option A)) (hint : M A S (nat * option nat)) (hs : list (option (nat * option nat))) (it : list (ev A))
    (s : S) (gs g : log A) (fuel : nat) (d : list A),
  N + N < word e -> 0 < N -> calm e -> wf_layout e L -> host_ok e L -> placed L b -> scripted F E next hint ->
  F s gs hs it -> length it < fuel ->
  (forall c, Holds N c d ->
    agrees (held (Holds N) (later F E hs it)) eq g (extend_live next (push_back e N) fuel (c, (s, gs)) g) (bl_extend N it d)) /\
  (forall c, RHolds N c d ->
    agrees (held (RHolds N) (later F E hs it)) eq g (extend_live next (rb_push_back e N) fuel (c, (s, gs)) g) (bl_extend N it d)) /\
  (forall c, IHolds e L c d ->
    agrees (held (IHolds e L) (later F E hs it)) eq g (extend_live next (ia_push e L b) fuel (c, (s, gs)) g)
      (bl_extend (capacity e L) it d)).
Proof.
  intros A S e N L b F E next hint hs it s gs g fuel d HW HN Hcalm WF HO Hb Hs HF Hf.
  assert (G : forall C (H : C -> list A -> Prop) push (ext : list (ev A) -> M A C unit) c z, ext [] = ret tt ->
    (forall x it, ext (Yield x :: it) = (push x ;;; ext it)) -> (forall it, ext (Boom :: it) = panic) ->
    agrees H eq g (ext it c g) z ->
    agrees (held H (later F E hs it)) eq g (extend_live next push fuel (c, (s, gs)) g) z).
  { intros C H push ext c z H1 H2 H3 Ha.
    pose proof (sim_extend F E next hint Hs push ext H1 H2 H3 hs it it fuel ltac:(reflexivity) Hf (c, (s, gs)) c g (conj eq_refl HF)) as P.
    eapply (mirrors_agrees (beside (later F E hs it)) H); [| |exact Ha].
    - destruct (ext it c g); cbn in P |- *; try exact P. destruct P as (l & -> & Q1 & Q2). exists l. split; [reflexivity|].
      split; [exact Q1|right; exact Q2].
    - intros l o x [<- Q] Ho. split; assumption. }
  split; [|split]; intros c Hc.
  - apply (G _ _ _ (extend e N)); try reflexivity. apply ChunkProofs2.extend_ok; assumption.
  - apply (G _ _ _ (rb_extend e N)); try reflexivity. apply RingProofs3.rb_extend_ok; assumption.
  - apply (G _ _ _ (ia_extend e L b)); try reflexivity. apply InlineProofs2.extend_ok; assumption.
Qed.
Print Assumptions C77_extend.

(** [collect] ([FromIterator]): the same into a new container; when the call panics what had been collected is dropped. *)
Theorem C77_from_iter :
  forall (A S : Type) (e : env A) (N : nat) (L : layout) (b : nat)
    (F : S -> log A -> list (option (nat * option nat)) -> list (ev A) -> Prop) (E : S -> log A -> Prop)
    (next : M A S (option A)) (hint : M A S (nat * option nat)) (hs : list (option (nat * option nat))) (it : list (ev A))
    (s : S) (gs g : log A) (fuel : nat),
  N + N < word e -> 0 < N -> calm e -> wf_layout e L -> host_ok e L -> placed L b -> scripted F E next hint ->
  F s gs hs it -> length it < fuel ->
  agrees (fun o _ => later F E hs it o) (Made N) g (from_iter_live e N next fuel (s, gs) g) (bl_from_iter N it) /\
  agrees (fun o _ => later F E hs it o) (RMade N) g (rb_from_iter_live e N next fuel (s, gs) g) (bl_from_iter N it) /\
  agrees (fun o _ => later F E hs it o) (IMade e L) g (ia_from_iter_live e L b next fuel (s, gs) g) (bl_from_iter (capacity e L) it).
Proof.
  intros A S e N L b F E next hint hs it s gs g fuel HW HN Hcalm WF HO Hb Hs HF Hf.
  assert (G : forall C (MM : C * unit -> list A -> Prop) init destroy push (ext : list (ev A) -> M A C unit) z, ext [] = ret tt ->
    (forall x it, ext (Yield x :: it) = (push x ;;; ext it)) -> (forall it, ext (Boom :: it) = panic) ->
    agrees (fun _ _ => True) MM g (with_local init destroy (on_fst (ext it)) tt g) z ->
    agrees (fun o (_ : unit) => later F E hs it o) MM g (with_local init destroy (extend_live next push fuel) (s, gs) g) z).
  { intros C MM init destroy push ext z H1 H2 H3 Ha.
    pose proof (sim_on_fst (O := unit) _ _ _ _ _ (sim_extend F E next hint Hs push ext H1 H2 H3 hs it it fuel ltac:(reflexivity) Hf)) as P0.
    pose proof (sim_with_local (fun x (_ : unit) => at_ F hs it x) (fun x _ => over E x) (fun x _ => later F E hs it x) init destroy _ _ P0
      (s, gs) tt g HF) as P.
    eapply (mirrors_agrees (fun x (_ : unit) => later F E hs it x)); [| |exact Ha].
    - destruct (with_local init destroy (on_fst (ext it)) tt g); cbn in P |- *; try exact P. destruct P as (l & -> & Q2).
      exists l. split; [reflexivity|right; exact Q2].
    - auto. }
  split; [|split].
  - apply (G _ _ _ _ _ (extend e N)); try reflexivity. apply ChunkProofs2.from_iter_ok; assumption.
  - unfold rb_from_iter_live. erewrite bind_Ret by (apply RingProofs3.rb_new_eq; assumption).
    apply (G _ _ _ _ _ (rb_extend e N)); try reflexivity.
    pose proof (RingProofs4.rb_from_iter_ok e N HW HN Hcalm (fun (_ : unit) (_ : unit) => True) tt tt it g I) as P.
    unfold rb_from_iter in P. erewrite bind_Ret in P by (apply RingProofs3.rb_new_eq; assumption). exact P.
  - unfold ia_from_iter_live. destruct (InlineProofs2.new_ok e L WF HO b tt g Hb) as (c & E1 & H1).
    erewrite bind_Ret by (rewrite E1; reflexivity).
    apply (G _ _ _ _ _ (ia_extend e L b)); try reflexivity.
    pose proof (InlineProofs3.from_iter_ok e L WF HO Hcalm b it tt g Hb) as P.
    unfold ia_from_iter in P. erewrite bind_Ret in P by exact E1. exact P.
Qed.
Print Assumptions C77_from_iter.

(** [collect_from(iter, k)]: exactly [k] items are taken ([bl_collect]); the iterator has exactly the rest. *)
Theorem C77_collect_from :
  forall (A S : Type) (e : env A) (N : nat)
    (F : S -> log A -> list (option (nat * option nat)) -> list (ev A) -> Prop) (E : S -> log A -> Prop)
    (next : M A S (option A)) (hint : M A S (nat * option nat)) (hs : list (option (nat * option nat))) (it : list (ev A))
    (s : S) (gs g : log A) (k : nat),
  N + N < word e -> 0 < N -> calm e -> scripted F E next hint -> F s gs hs it ->
  agrees (rest_of F E hs) (Made N) g (collect_from_live e N next k (s, gs) g) (bl_collect N k it []) /\
  agrees (rest_of F E hs) (RMade N) g (rb_collect_from_live e N next k (s, gs) g) (bl_collect N k it []).
Proof.
  intros A S e N F E next hint hs it s gs g k HW HN Hcalm Hs HF. split.
  - assert (W : forall C (push : A -> M A C unit), True) by auto. clear W.
    pose proof (sim_take F E next hint Hs (push_back e N) true hs k) as P0.
    pose proof (sim_with_local (fun x it => F (fst x) (snd x) hs it) (rest_of F E hs) (rest_of F E hs) new (destroy e N) _ _ P0
      (s, gs) it g HF) as P.
    eapply (mirrors_agrees (rest_of F E hs) eq); [|intros l o x H <-; exact H|exact (ChunkProofs2.collect_from_ok e N HW Hcalm k it g)].
    exact P.
  - unfold rb_collect_from_live. erewrite bind_Ret by (apply RingProofs3.rb_new_eq; assumption).
    pose proof (RingProofs4.rb_collect_from_ok e N HW HN Hcalm k it g) as Q. unfold rb_collect_from in Q.
    erewrite bind_Ret in Q by (apply RingProofs3.rb_new_eq; assumption).
    eapply (mirrors_agrees (rest_of F E hs) eq); [|intros l o x H <-; exact H|exact Q].
    refine (sim_with_local (fun x it => F (fst x) (snd x) hs it) (rest_of F E hs) (rest_of F E hs) _ _ _ _ _ (s, gs) it g HF).
    eapply sim_bind; [exact (sim_take F E next hint Hs (rb_push_back e N) false hs k)|]. intros _ l o g0 [E1 H1].
    unfold bind, get. rewrite E1. destruct (_ <? _); (exists l; split; [reflexivity|split; assumption]).
Qed.
Print Assumptions C77_collect_from.

(** [insert_from(i, iter)].  The iterator announces [n] items (a [Chunk] asks twice) and then does anything.  What happens is
    what [bl_insert_from_any] says: all [n] items are inserted; or nothing has changed, if they would not fit; or, if fewer
    than [n] come, the container ends up empty and the call panics, leaking what was in it and what was taken.  For a
    [RingBuffer], at the end, the items are appended one by one instead, however many there are.  If [len()] panics - an
    inexact [size_hint] makes it panic - nothing has changed; except that if it panics when a [Chunk] asks for the second time,
    the chunk ends up empty, its elements leaked. *)
Theorem C77_insert_from :
  forall (A S : Type) (e : env A) (N : nat)
    (F : S -> log A -> list (option (nat * option nat)) -> list (ev A) -> Prop) (E : S -> log A -> Prop)
    (next : M A S (option A)) (hint : M A S (nat * option nat)) (h1 h2 : option (nat * option nat))
    (hs : list (option (nat * option nat))) (it : list (ev A)) (s : S) (gs g : log A) (fuel i n : nat) (d : list A),
  N + N < word e -> 0 < N -> calm e -> scripted F E next hint -> n < word e -> length d + n < word e \/ debug e = true ->
  (forall c, Holds N c d -> F s gs (h1 :: h2 :: hs) it ->
    let R z := agrees (held (Holds N) (later F E (h1 :: h2 :: hs) it)) eq g
      (insert_from_live e N next hint i (c, (s, gs)) g) z in
    (len_of h1 = Some n -> len_of h2 = Some n -> R (bl_insert_from_any N i n it d)) /\
    (len_of h1 = None -> R (SPanic d [] [])) /\
    (len_of h1 = Some n -> len_of h2 = None -> R (if (length d + n <=? N) && (i <=? length d) then SPanic [] [] d else SPanic d [] []))) /\
  (forall r, RHolds N r d -> F s gs (h1 :: hs) it -> length it < fuel ->
    let R z := agrees (held (RHolds N) (later F E (h1 :: hs) it)) eq g
      (rb_insert_from_live e N next hint fuel i (r, (s, gs)) g) z in
    (len_of h1 = Some n ->
      R (if (length d + n <=? N) && (i =? length d) then bl_extend N it d else bl_insert_from_any N i n it d)) /\
    (len_of h1 = None -> R (SPanic d [] []))).
Proof.
  intros A S e N F E next hint h1 h2 hs it s gs g fuel i n d HW HN Hcalm Hs Hn Hov.
  assert (Lift : forall C (H : C -> list A -> Prop) (P : S * log A -> Prop) x (y : outcome A C unit) z,
    mirrors (beside P) (beside P) x y -> agrees H eq g y z -> agrees (held H P) eq g x z).
  { intros C H P x y z Hm. apply (mirrors_agrees (beside P) H); [exact Hm|]. intros l o d' [<- Q] Ho. split; assumption. }
  split; [intros c Hc HF R|intros r Hr HF Hf R]; [split; [|split]|split].
  - intros L1 L2. apply (Lift _ (Holds N) _ _ (insert_from e N i n n it c g)); [|apply ChunkProofs2.insert_from_ok; assumption].
    pose proof (sim_insert_from e N F E next hint Hs h1 h2 hs n n it i L1 L2 (c, (s, gs)) c g (conj eq_refl HF)) as P.
    destruct (insert_from e N i n n it c g); cbn in P |- *; try exact P. destruct P as (l & -> & Q1 & Q2).
    exists l. split; [reflexivity|]. split; [exact Q1|].
    eapply rest_later; [..|exact Q2]; [do 2 apply suffix_cons_r; reflexivity|exists (take n it); rewrite take_drop; reflexivity].
  - intros L1. destruct (exact_len_answer F E next hint Hs s gs h1 (h2 :: hs) it HF) as (s' & gs' & H' & E1). rewrite L1 in E1.
    exists (c, (s', gs')), g, [].
    split; [unfold insert_from_live, bind at 1, on_iter at 1; cbn [fst snd]; rewrite E1; reflexivity|].
    split; [split; [exact Hc|left; exists (h2 :: hs), it; split; [exact H'|split; [apply suffix_cons_r|]; reflexivity]]|].
    rewrite !app_nil_r. auto.
  - intros L1 L2. destruct ((length d + n <=? N) && (i <=? length d)) eqn:Ef.
    + apply (Lift _ (Holds N) _ _ (insert_from e N i n 1 [Boom] c g)).
      * pose proof (sim_insert_from_fails e N F E next hint Hs h1 h2 hs n it i c d s gs g HW ltac:(lia) L1 L2 Hc ltac:(lia) ltac:(lia) HF) as P.
        destruct (insert_from e N i n 1 [Boom] c g); cbn in P |- *; try exact P. destruct P as (l & -> & Q1 & Q2). destruct Q2.
      * destruct (PropertiesChunk.C08_chunk_insert_from_two_lengths_partial A e N c d g i n 1 [Boom] HW Hc ltac:(lia) ltac:(lia) ltac:(lia)) as [P _].
        cbn [yields length] in P. destruct (P ltac:(lia)) as [Q _]. destruct (Q ltac:(lia)) as (c' & g' & k & E1 & H1 & D1 & K1 & Pk).
        rewrite app_nil_r in Pk. exists c', g', k. rewrite app_nil_r. split; [exact E1|]. split; [exact H1|].
        split; [exact D1|]. split; [exact K1|]. symmetry. exact Pk.
    + destruct (exact_len_answer F E next hint Hs s gs h1 (h2 :: hs) it HF) as (s' & gs' & H' & E1). rewrite L1 in E1.
      unfold R. exists (c, (s', gs')), g, []. rewrite !app_nil_r.
      split; [|split; [split; [exact Hc|left; exists (h2 :: hs), it; split; [exact H'|split; [apply suffix_cons_r|]; reflexivity]]|auto]].
      unfold insert_from_live. erewrite bind_Ret by (unfold on_iter; cbn [fst snd]; rewrite E1; reflexivity).
      erewrite bind_Ret by (apply on_fst_Ret; apply (len_eq e N HW c d g Hc)). cbn [fst snd].
      unfold bind, uadd. destruct (length d + n <? word e) eqn:Eo.
      * unfold ret. destruct (N <? length d + n) eqn:E2; [reflexivity|]. rewrite if_true by lia. reflexivity.
      * destruct Hov as [Hov|Hov]; [lia|]. rewrite Hov. reflexivity.
  - intros L1. apply (Lift _ (RHolds N) _ _ (rb_insert_from e N i n it r g)).
    + pose proof (sim_rb_insert_from e N F E next hint Hs fuel h1 hs n it i L1 Hf (r, (s, gs)) r g (conj eq_refl HF)) as P.
      destruct (rb_insert_from e N i n it r g); cbn in P |- *; try exact P; destruct P as (l & -> & Q1 & Q2);
        exists l; (split; [reflexivity|]); (split; [exact Q1|]); apply later_cons_hs; exact Q2.
    + apply RingProofs3.rb_insert_from_ok; assumption.
  - intros L1. destruct (exact_len_answer F E next hint Hs s gs h1 hs it HF) as (s' & gs' & H' & E1). rewrite L1 in E1.
    exists (r, (s', gs')), g, [].
    split; [unfold rb_insert_from_live, bind at 1, on_iter at 1; cbn [fst snd]; rewrite E1; reflexivity|].
    split; [split; [exact Hr|left; exists hs, it; split; [exact H'|split; [apply suffix_cons_r|]; reflexivity]]|].
    rewrite !app_nil_r. auto.
Qed.
Print Assumptions C77_insert_from.

(** The same for any two answers: the call does exactly what C08 says of the script. *)
Theorem C77_insert_from_two_lengths :
  forall (A S : Type) (e : env A) (N : nat)
    (F : S -> log A -> list (option (nat * option nat)) -> list (ev A) -> Prop) (E : S -> log A -> Prop)
    (next : M A S (option A)) (hint : M A S (nat * option nat)) (h1 h2 : option (nat * option nat))
    (hs : list (option (nat * option nat))) (it : list (ev A)) (s : S) (gs g : log A) (i n1 n2 : nat) (c : chunk A),
  scripted F E next hint -> F s gs (h1 :: h2 :: hs) it -> len_of h1 = Some n1 -> len_of h2 = Some n2 ->
  match insert_from e N i n1 n2 it c g with
  | Ret c' g' r => exists s' gs', insert_from_live e N next hint i (c, (s, gs)) g = Ret (c', (s', gs')) g' r /\
      rest_of F E hs (s', gs') (drop n2 it)
  | Panic c' g' => exists s' gs', insert_from_live e N next hint i (c, (s, gs)) g = Panic (c', (s', gs')) g' /\
      later F E (h1 :: h2 :: hs) it (s', gs')
  | UB u => insert_from_live e N next hint i (c, (s, gs)) g = UB u
  | Hang => insert_from_live e N next hint i (c, (s, gs)) g = Hang
  | Abort => insert_from_live e N next hint i (c, (s, gs)) g = Abort
  end.
Proof.
  intros A S e N F E next hint h1 h2 hs it s gs g i n1 n2 c Hs HF L1 L2.
  pose proof (sim_insert_from e N F E next hint Hs h1 h2 hs n1 n2 it i L1 L2 (c, (s, gs)) c g (conj eq_refl HF)) as P.
  destruct (insert_from e N i n1 n2 it c g); cbn in P; try exact P; destruct P as ([c' [s' gs']] & -> & Q1 & Q2);
    cbn in Q1; subst c'; exists s', gs'; auto.
Qed.
Print Assumptions C77_insert_from_two_lengths.

(** An iterator that never ends: [extend] fills the container, drops the item that did not fit, and panics. *)
Theorem C77_endless :
  forall (A S : Type) (e : env A) (N : nat) (L : layout) (b : nat) (I : S -> log A -> Prop) (next : M A S (option A))
    (s : S) (gs g : log A) (d : list A),
  N + N < word e -> 0 < N -> calm e -> wf_layout e L -> host_ok e L -> placed L b -> endless I next -> I s gs ->
  let R {C} (H : C -> list A -> Prop) (K : nat) (extend : nat -> M A (C * (S * log A)) unit) (c : C) : Prop :=
    H c d -> forall fuel, K - length d < fuel ->
    exists c' s' gs' g' xs x, extend fuel (c, (s, gs)) g = Panic (c', (s', gs')) g' /\ H c' (d ++ xs) /\ I s' gs' /\
      length (d ++ xs) = K /\ dropped g' = dropped g ++ [x] /\ leaked g' = leaked g in
  (forall c, R (Holds N) N (extend_live next (push_back e N)) c) /\
  (forall c, R (RHolds N) N (extend_live next (rb_push_back e N)) c) /\
  (forall c, R (IHolds e L) (capacity e L) (extend_live next (ia_push e L b)) c).
Proof.
  intros A S e N L b I next s gs g d HW HN Hcalm WF HO Hb Hend HI R.
  assert (G : forall C (H : C -> list A -> Prop) K push, (forall c d, H c d -> length d <= K) ->
    (forall o d g v, H o d -> agrees H eq g (push v o g) (bl_push_back K v d)) ->
    forall c, R C H K (extend_live next push) c).
  { intros C H K push Hlen Hpush c Hc fuel. unfold R. clear R. revert c d s gs g HI Hc.
    induction fuel as [|fuel IH]; intros c d s gs g HI Hc Hf; [lia|]. cbn [extend_live].
    destruct (Hend s gs HI) as (s1 & gs1 & x & E1 & HI1).
    erewrite bind_Ret by (unfold on_iter; cbn [fst snd]; rewrite E1; reflexivity). cbn [fst snd].
    pose proof (Hpush c d g x Hc) as P. unfold bl_push_back in P. pose proof (Hlen c d Hc) as Hl.
    destruct (length d <? K) eqn:Ed.
    - destruct P as (c1 & g1 & [] & E2 & H1 & _ & D1 & L1). rewrite app_nil_r in D1.
      erewrite bind_Ret by (apply on_fst_Ret; exact E2).
      destruct (IH c1 (d ++ [x]) s1 gs1 g1 HI1 H1 ltac:(rewrite app_length; cbn; lia)) as (c' & s' & gs' & g' & xs & y & E3 & H3 & I3 & Hk & D3 & L3).
      exists c', s', gs', g', (x :: xs), y. cbn [fst snd]. rewrite <- app_assoc in H3, Hk. rewrite D1 in D3. rewrite L1 in L3. auto 10.
    - destruct P as (c1 & g1 & k & E2 & H1 & D1 & L1 & Pk). apply Permutation_nil in Pk. subst k. rewrite app_nil_r in L1.
      exists c1, s1, gs1, g1, [], x. rewrite app_nil_r. unfold bind, on_fst. cbn [fst snd]. rewrite E2.
      split; [reflexivity|]. split; [exact H1|]. split; [exact HI1|]. split; [lia|auto]. }
  split; [|split]; intros c; apply G.
  - intros c0 d0 H0. exact (holds_length e N HW c0 d0 H0).
  - intros. eapply push_back_ok; eassumption.
  - intros c0 d0 H0. destruct H0 as (_ & _ & H0 & _). exact H0.
  - intros. eapply RingProofs.rb_push_back_ok; eassumption.
  - intros c0 d0 H0. destruct H0 as [H0 _]. exact H0.
  - intros. eapply push_ok; eassumption.
Qed.
Print Assumptions C77_endless.

(** Every script is one of an iterator: *)
Definition tape_next {A} : M A (list (option (nat * option nat)) * list (ev A)) (option A) := fun s g =>
  match snd s with
  | Yield a :: it => Ret (fst s, it) g (Some a)
  | Boom :: it => Panic (fst s, it) g
  | [] => Ret s g None
  end.
Definition tape_hint {A} : M A (list (option (nat * option nat)) * list (ev A)) (nat * option nat) := fun s g =>
  match fst s with
  | Some h :: hs => Ret (hs, snd s) g h
  | None :: hs => Panic (hs, snd s) g
  | [] => Ret s g (0, None)
  end.
Example C77_tape_scripted {A} : scripted (A := A) (fun s _ hs it => s = (hs, it)) (fun s _ => snd s = []) tape_next tape_hint.
Proof.
  intros s gs hs it ->. split.
  - destruct it as [|[x|] it]; eexists _, _; split; try reflexivity.
  - destruct hs as [|[h|] hs]; [exact I| |]; eexists _, _; split; reflexivity.
Qed.
(** An iterator that counts, for ever. *)
Example C77_endless_counter : endless (A := nat) (fun s _ => True) (fun s g => Ret (S s) g (Some s)).
Proof. intros s gs _. eauto. Qed.
Example C77_example :
  Holds 6 ChunkExamples.ex_chunk [3; 1; 2] /\
  (* announces three items, panics instead of the second: the chunk ends up empty *)
  match insert_from_live ChunkExamples.dbg 6 tape_next tape_hint 1
          (ChunkExamples.ex_chunk, (([Some (3, Some 3); Some (3, Some 3)], [Yield 8; Boom; Yield 9]), log0)) log0 with
  | Panic (c, ((hs, it), _)) g => left c = right c /\ it = [Yield 9] /\ Permutation (leaked g) [3; 1; 2; 8] /\ dropped g = []
  | _ => False end /\
  (* an inexact [size_hint] at the first, at the second call *)
  match insert_from_live ChunkExamples.dbg 6 tape_next tape_hint 1
          (ChunkExamples.ex_chunk, (([Some (1, None)], [Yield 8]), log0)) log0 with
  | Panic (c, ((hs, it), _)) g => c = ChunkExamples.ex_chunk /\ it = [Yield 8] /\ leaked g = []
  | _ => False end /\
  match insert_from_live ChunkExamples.dbg 6 tape_next tape_hint 1
          (ChunkExamples.ex_chunk, (([Some (1, Some 1); Some (1, Some 2)], [Yield 8]), log0)) log0 with
  | Panic (c, ((hs, it), _)) g => left c = right c /\ it = [Yield 8] /\ Permutation (leaked g) [3; 1; 2]
  | _ => False end /\
  (* [extend] with an iterator that panics after one item: the item stays *)
  match extend_live tape_next (push_back ChunkExamples.dbg 6) 5
          (ChunkExamples.ex_chunk, (([], [Yield 8; Boom; Yield 9]), log0)) log0 with
  | Panic (c, ((hs, it), _)) g => right c - left c = 4 /\ it = [Yield 9] /\ leaked g = [] /\ dropped g = []
  | _ => False end /\
  (* [extend] with an iterator that never ends *)
  match extend_live (fun s g => Ret (S s) g (Some s)) (push_back ChunkExamples.dbg 6) 5 (ChunkExamples.ex_chunk, (7, log0)) log0 with
  | Panic (c, (s, _)) g => right c - left c = 6 /\ s = 11 /\ dropped g = [10]
  | _ => False end.
Proof.
  split; [split; [reflexivity|split; [cbn; lia|apply ChunkExamples.ex_chunk_holds]]|].
  split; [vm_compute; split; [reflexivity|split; [reflexivity|split; [|reflexivity]]]; solve_Permutation|]. split; [vm_compute; auto|].
  split; [vm_compute; auto|]. split; vm_compute; auto.
Qed.
