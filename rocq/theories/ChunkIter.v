(** * [Chunk::insert_from] with an iterator whose [len()] changes between the two calls. *)
From Verif Require Import Machine Spec Prims IterSpec ChunkModel ChunkProofs ChunkProofs2.

Section proofs.
Context {A : Type} (e : env A) (N : nat).
Hypothesis HW : N + N < word e.
Local Notation agr := (agrees (Holds N) eq).

(** Writing over whatever is in the slots. *)
Lemma write_loop_over k : forall it wi (c : chunk A) g, wi + length (yields k it) <= N ->
  exists m' g', (forall p, m' p = if (wi <=? p) && (p <? wi + length (yields k it))
                               then yields k it !! (p - wi) else cdata c p) /\
   dropped g' = dropped g /\ leaked g' = leaked g ++ omap (cdata c) (seq wi (length (yields k it))) /\
   (write_loop e N k it wi c g = Ret (Chunk (left c) (right c) m') g' (wi + length (yields k it)) \/
    (length (yields k it) < k /\
     write_loop e N k it wi c g = bind (slots_forget N 0 0) (fun _ => panic) (Chunk (left c) (right c) m') g')).
Proof.
  induction k as [|k IH]; intros it wi c g Hk.
  { exists (cdata c), g. cbn [yields length]. split; [intros p; pw|]. rewrite app_nil_r. split; [reflexivity|]. split; [reflexivity|].
    left. destruct it as [|[]]; cbn [write_loop]; rewrite Nat.add_0_r; destruct c; reflexivity. }
  destruct it as [|[a|] it]; cbn [yields length write_loop] in *.
  - exists (cdata c), g. split; [intros p; pw|]. cbn. rewrite app_nil_r. split; [reflexivity|]. split; [reflexivity|].
    left. rewrite Nat.add_0_r; destruct c; reflexivity.
  - set (g1 := log_write 1 (log_leak (option_list (cdata c wi)) g)).
    set (c1 := Chunk (left c) (right c) (upd (cdata c) wi (Some a))).
    assert (E : force_write N wi a c g = Ret c1 g1 tt).
    { unfold force_write, slot_write. rewrite if_true by (apply Nat.ltb_lt; lia). reflexivity. }
    erewrite bind_Ret by exact E. erewrite bind_Ret by (apply uadd_ok; lia).
    destruct (IH it (wi + 1) c1 g1) as (m' & g' & Hm' & D & L & HR); [lia|].
    exists m', g'. split.
    { intros p. rewrite Hm'. unfold c1. cbn [cdata]. unfold upd. pw. }
    split; [exact D|]. split.
    { rewrite L. unfold g1, c1. cbn [leaked log_leak log_write cdata]. rewrite <- app_assoc. f_equal. cbn [seq].
      replace (S wi) with (wi + 1) by lia.
      rewrite (omap_ext' _ (cdata c)) by (intros p Hp; apply in_seq in Hp; unfold upd; pw).
      cbn. destruct (cdata c wi); reflexivity. }
    destruct HR as [HR|[HR1 HR]]; [left|right; split; [lia|exact HR]]. rewrite HR. f_equal. lia.
  - exists (cdata c), g. split; [intros p; pw|]. cbn. rewrite app_nil_r. split; [reflexivity|]. split; [reflexivity|].
    right. split; [lia|]. destruct c; reflexivity.
Qed.

Lemma write_from_iter_over it n n2 a l1 l2 (c : chunk A) g : Gap N c a l1 n l2 -> N + n2 < word e ->
  let ys := yields n2 it in a + length l1 + length ys <= N ->
  (length ys = n2 ->
     exists m' g', write_from_iter e N (a + length l1) n2 it c g = Ret (Chunk (left c) (right c) m') g' tt /\
     dropped g' = dropped g /\ leaked g' = leaked g ++ take (length ys - n) l2 /\
     forall p, m' p = if p <? a + length l1 + length ys then (if a <=? p then (l1 ++ ys) !! (p - a) else None)
                      else if p <? a + length l1 + n then None else l2 !! (p - (a + length l1 + n))) /\
  (length ys <> n2 ->
     exists c' g' k, write_from_iter e N (a + length l1) n2 it c g = Panic c' g' /\
     Holds N c' [] /\ dropped g' = dropped g /\ leaked g' = leaked g ++ k /\ Permutation k (l1 ++ ys ++ l2)).
Proof.
  intros [Hfit Hm] Hn ys Hys. pose proof (yields_length n2 it) as Hy. fold ys in Hy.
  destruct (write_loop_over n2 it (a + length l1) (Chunk 0 0 (cdata c)) g) as (m' & g1 & Hm' & D & L & HR); [fold ys; lia|].
  fold ys in Hm', L, HR. cbn [cdata left right] in Hm', L, HR.
  assert (Hm2 : forall p, m' p = if p <? a + length l1 + length ys
                 then (if a <=? p then (l1 ++ ys) !! (p - a) else None)
                 else if p <? a + length l1 + n then None else l2 !! (p - (a + length l1 + n))).
  { intros p. rewrite Hm', Hm. pw. }
  assert (HL : omap (cdata c) (seq (a + length l1) (length ys)) = take (length ys - n) l2).
  { destruct (length ys <=? n) eqn:E.
    - replace (length ys - n) with 0 by lia. cbn [take]. rewrite (omap_ext' _ (fun _ => None)).
      + generalize (seq (a + length l1) (length ys)). intros q. induction q; cbn; auto.
      + intros p Hp. apply in_seq in Hp. rewrite Hm. pw.
    - replace (length ys) with (n + (length ys - n)) at 1 by lia. rewrite seq_app, omap_app'.
      rewrite (omap_ext' _ (fun _ => None) (seq (a + length l1) n)).
      2:{ intros p Hp. apply in_seq in Hp. rewrite Hm. pw. }
      replace (omap (fun _ : nat => None) (seq (a + length l1) n)) with (@nil A)
        by (generalize (seq (a + length l1) n); intros q; induction q; cbn; auto).
      cbn [app]. apply (omap_range _ _ _ (a + length l1 + n)); [lia| rewrite take_length; lia|].
      intros p Hp. rewrite Hm. pw. }
  rewrite HL in L.
  assert (Hforget : exists c' g' k, slots_forget N 0 0 (Chunk 0 0 m') g1 = Ret c' g' tt /\
     Holds N c' [] /\ dropped g' = dropped g /\ leaked g' = leaked g ++ k /\ Permutation k (l1 ++ ys ++ l2)).
  { unfold slots_forget. cbn [getm setm chunk_mem cdata left right].
    eexists _, _, (take (length ys - n) l2 ++ (l1 ++ ys) ++ drop (length ys - n) l2). split; [reflexivity|]. split; [|split; [|split]].
    - unfold Holds. cbn [left right cdata length]. split; [lia|]. split; [lia|]. intros p. pw.
    - cbn. exact D.
    - cbn [leaked log_leak]. rewrite L, <- app_assoc. f_equal. f_equal.
      rewrite (omap_ext' _ m') by (intros; unfold mclear; pw).
      replace N with ((a + length l1 + length ys) + (N - (a + length l1 + length ys))) by lia.
      rewrite seq_app, omap_app'. cbn [plus]. f_equal.
      + apply (omap_range _ _ _ a); [lia | lookups; lia |].
        intros p Hp. rewrite Hm2. pw.
      + apply (omap_range _ _ _ (a + length l1 + (length ys `max` n))); [lia | rewrite drop_length; lia |].
        intros p Hp. rewrite Hm2. pw.
    - rewrite <- (take_drop (length ys - n) l2) at 3. rewrite <- !app_assoc.
      rewrite (Permutation_app_comm (take (length ys - n) l2)). rewrite <- !app_assoc. do 2 apply Permutation_app_head.
      apply Permutation_app_comm. }
  unfold write_from_iter. erewrite (bind_Ret get) by reflexivity.
  erewrite (bind_Ret (set_left 0)) by reflexivity. erewrite (bind_Ret (set_right 0)) by reflexivity.
  erewrite bind_Ret by (apply uadd_ok; lia). cbn [left right cdata].
  split; intros Hy2.
  - destruct HR as [HR|[HR1 HR]]; [|lia].
    rewrite (bind_Ret _ _ _ _ _ _ _ HR). replace (_ =? _) with true by lia.
    eexists _, _. split; [reflexivity|]. split; [exact D|]. split; [exact L|exact Hm2].
  - destruct Hforget as (c' & g' & k & E & H1 & H2 & H3 & H4). destruct HR as [HR|[HR1 HR]].
    + rewrite (bind_Ret _ _ _ _ _ _ _ HR). replace (_ =? _) with false by lia.
      exists c', g', k. rewrite bind_bind, (bind_Ret _ _ _ _ _ _ _ E), bind_panic. auto.
    + exists c', g', k. rewrite (bind_Ret _ _ _ _ _ _ _ E) in HR.
      rewrite (bind_Panic _ _ _ _ _ _ HR). auto.
Qed.

(** When everything fits, [insert_from] makes a gap of the announced size and calls [write_from_iter]. *)
Definition place (c : chunk A) (i n : nat) : nat :=
  if (right c =? N) || (n <=? left c) && (i <? right c - (i + left c)) then left c - n
  else if (left c =? 0) || (right c + n <=? N) then left c else 0.
Lemma insert_from_gap c l g i n n2 it : Holds N c l -> length l + n <= N -> i <= length l ->
  let a := place c i n in
  exists c1 g1 (k : unit -> M A (chunk A) unit),
    insert_from e N i n n2 it c g = bind (write_from_iter e N (a + i) n2 it) k c1 g1 /\
    dropped g1 = dropped g /\ leaked g1 = leaked g /\ Gap N c1 a (take i l) n (drop i l) /\
    forall m' g', exists g'', k tt (Chunk (left c1) (right c1) m') g' = Ret (Chunk a (a + (length l + n)) m') g'' tt
         /\ dropped g'' = dropped g' /\ leaked g'' = leaked g'.
Proof.
  intros H HN Hi. unfold insert_from, place. erewrite bind_Ret by (apply (len_eq e N HW); eassumption).
  erewrite bind_Ret by (apply uadd_ok; lia). rewrite !if_false by lia.
  start. exec. cbn [left right].
  destruct ((rt =? N) || (n <=? lf) && (i <? rt - (i + lf))) eqn:E1; [|exec; destruct ((lf =? 0) || (rt + n <=? N)) eqn:E2]; exec.
  all: match goal with |- exists c1 g1 k, bind (write_from_iter _ _ ?w _ _) _ _ _ = _ /\ _ =>
         first [ constr_eq w i; change i with (0 + i) at 1
               | replace w with ((lf - n) + i) by lia
               | replace w with (lf + i) by lia ] end;
    eexists _, _, _; split; [reflexivity|]; split; [reflexivity|]; split; [reflexivity|]; 
    (split; [split; [lookups; lia | intros p; mem_unfold; pw]|]);
    intros m' g'; cbn beta; exec;
      (eexists; split; [unfold set_left, set_right; cbn [left right cdata]; f_equal; f_equal; lia | split; reflexivity]).
Qed.

Lemma mapM_hole {X Y} (f : X -> option Y) l x : In x l -> f x = None -> mapM f l = None.
Proof.
  induction l as [|z l IH]; intros [] Hf; subst; cbn.
  - rewrite Hf. reflexivity.
  - rewrite IH by assumption. destruct (f z); reflexivity.
Qed.
Lemma hole_unreadable lf n m p g : lf <= p < lf + n -> lf + n <= N -> m p = None ->
  slots_peek N lf n (Chunk (A:=A) lf (lf + n) m) g = UB DeadSlot.
Proof.
  intros Hp HN Hm. unfold slots_peek. rewrite if_true by (apply Nat.leb_le; lia). cbn [getm chunk_mem cdata].
  rewrite (mapM_hole m (seq lf n) p); [reflexivity|apply in_seq; lia|exact Hm].
Qed.
Theorem insert_from_two_lengths c l g i n1 n2 it : Holds N c l -> length l + n1 <= N -> i <= length l -> N + n2 < word e ->
  let y := yields n2 it in length y <= n1 + (length l - i) ->
  (length y < n2 -> exists c' g' k, insert_from e N i n1 n2 it c g = Panic c' g' /\ Holds N c' [] /\
     dropped g' = dropped g /\ leaked g' = leaked g ++ k /\ Permutation k (l ++ y)) /\
  (length y = n2 -> n2 < n1 -> exists c' g', insert_from e N i n1 n2 it c g = Ret c' g' tt /\
     forall g, as_slice e N c' g = UB DeadSlot /\ destroy e N c' g = UB DeadSlot) /\
  (length y = n2 -> n1 <= n2 -> exists c' g', insert_from e N i n1 n2 it c g = Ret c' g' tt /\
     Holds N c' (take i l ++ y ++ drop (i + (n2 - n1)) l) /\
     dropped g' = dropped g /\ leaked g' = leaked g ++ take (n2 - n1) (drop i l)).
Proof.
  intros H HN Hi Hw y Hy. destruct (insert_from_gap c l g i n1 n2 it H HN Hi) as (c1 & g1 & k & E & D & L & HG & Hk). set (a := place c i n1) in *.
  destruct (write_from_iter_over it n1 n2 a (take i l) (drop i l) c1 g1 HG Hw) as [W1 W2]; [destruct HG as [HG _]; rewrite take_length, drop_length, Nat.min_l in HG by lia; fold y; rewrite take_length, Nat.min_l by lia; lia|].
  fold y in W1, W2. rewrite take_length, Nat.min_l in W1, W2 by lia. destruct HG as [HG _]. rewrite take_length, drop_length, Nat.min_l in HG by lia.
  rewrite E. pose proof (yields_length n2 it) as Hy2. fold y in Hy2. split; [|split].
  - intros Hlt. destruct (W2 ltac:(lia)) as (c' & g' & kk & E' & H1 & H2 & H3 & H4). rewrite (bind_Panic _ _ _ _ _ _ E').
    exists c', g', kk. rewrite H2, H3, D, L. do 4 (split; [auto|]). rewrite H4. rewrite <- (take_drop i l) at 3. rewrite <- app_assoc.
    apply Permutation_app_head, Permutation_app_comm.
  - intros Heq Hlt. destruct (W1 Heq) as (m' & g' & E' & _ & _ & Hm). rewrite (bind_Ret _ _ _ _ _ _ _ E').
    destruct (Hk m' g') as (g'' & E2 & _). rewrite E2. eexists _, _. split; [reflexivity|]. intros g0.
    assert (Q : forall g, slots_peek N a (length l + n1) (Chunk (A:=A) a (a + (length l + n1)) m') g = UB DeadSlot).
    { intros g2. apply (hole_unreadable _ _ _ (a + i + length y)); [lia|lia|]. rewrite Hm, if_false, if_true by lia. reflexivity. }
    assert (EL : forall g, len e (Chunk (A:=A) a (a + (length l + n1)) m') g = Ret (Chunk a (a + (length l + n1)) m') g (length l + n1)).
    { intros g2. unfold len. erewrite (bind_Ret get) by reflexivity. cbn [left right]. rewrite usub_ok by lia. f_equal. lia. }
    split.
    + unfold as_slice. erewrite (bind_Ret get) by reflexivity. erewrite bind_Ret by apply EL. apply Q.
    + unfold destroy, destroying, drop_. erewrite (bind_Ret get) by reflexivity. erewrite bind_Ret by apply EL. cbn [left].
      unfold slots_drop. unfold bind at 1. rewrite Q. reflexivity.
  - intros Heq Hle. destruct (W1 Heq) as (m' & g' & E' & D' & L' & Hm). rewrite (bind_Ret _ _ _ _ _ _ _ E').
    destruct (Hk m' g') as (g'' & E2 & D2 & L2). rewrite E2. eexists _, _. split; [reflexivity|].
    rewrite D2, L2, D', L', D, L, Heq. split; [|auto].
    split; [|split]; cbn [left right cdata]; [lookups; lia|lia|].
    intros p. rewrite Hm, Heq. pw.
Qed.

(** More items than there are slots behind the position: out of bounds, wherever the chunk is in its buffer. *)
Lemma write_loop_oob k : forall it wi (c : chunk A) g, wi <= N -> N < wi + length (yields k it) ->
  write_loop e N k it wi c g = UB OutOfBounds.
Proof.
  induction k as [|k IH]; intros it wi c g Hw Hk; [cbn in Hk; lia|].
  destruct it as [|[v|] it]; cbn [yields length write_loop] in *; [lia| |lia].
  destruct (wi <? N) eqn:E.
  - erewrite bind_Ret by (unfold force_write, slot_write; rewrite E; reflexivity). erewrite bind_Ret by (apply uadd_ok; lia). apply IH; lia.
  - unfold bind, force_write, slot_write. rewrite E. reflexivity.
Qed.
Theorem insert_from_too_many c l g i n1 n2 it : Holds N c l -> length l + n1 <= N -> i <= length l -> N + n2 < word e ->
  N - i < length (yields n2 it) -> insert_from e N i n1 n2 it c g = UB OutOfBounds.
Proof.
  intros H HN Hi Hw Hy. destruct (insert_from_gap c l g i n1 n2 it H HN Hi) as (c1 & g1 & k & E & D & L & HG & Hk). set (a := place c i n1) in *.
  destruct HG as [HG _]. rewrite take_length, drop_length, Nat.min_l in HG by lia.
  rewrite E. unfold write_from_iter. unfold bind at 1. erewrite (bind_Ret get) by reflexivity.
  erewrite (bind_Ret (set_left 0)) by reflexivity. erewrite (bind_Ret (set_right 0)) by reflexivity.
  erewrite bind_Ret by (apply uadd_ok; lia). unfold bind at 1. rewrite write_loop_oob by lia. reflexivity.
Qed.

(** The complete picture: [room] is the number of slots behind the place where the items are written. *)
Theorem insert_from_exact c l i n1 : calm e -> Holds N c l -> length l + n1 <= N -> i <= length l ->
  exists room, n1 + (length l - i) <= room <= N - i /\ forall n2 it g, N + n2 < word e ->
  let y := yields n2 it in
  (room < length y -> insert_from e N i n1 n2 it c g = UB OutOfBounds) /\
  (length y <= room -> length y < n2 -> exists c' g' k, insert_from e N i n1 n2 it c g = Panic c' g' /\ Holds N c' [] /\
     dropped g' = dropped g /\ leaked g' = leaked g ++ k /\ Permutation k (l ++ y)) /\
  (length y <= room -> length y = n2 -> n2 < n1 -> exists c' g', insert_from e N i n1 n2 it c g = Ret c' g' tt /\
     forall g, as_slice e N c' g = UB DeadSlot /\ destroy e N c' g = UB DeadSlot) /\
  (length y <= room -> length y = n2 -> n1 <= n2 ->
     let l' := take i l ++ take (n1 + (length l - i)) y ++ drop (i + (n2 - n1)) l in
     exists c' g', insert_from e N i n1 n2 it c g = Ret c' g' tt /\
     as_slice e N c' g' = Ret c' g' l' /\
     exists c'' g'' k, destroy e N c' g' = Ret c'' g'' tt /\ dropped g'' = dropped g ++ l' /\
       leaked g'' = leaked g ++ k /\ k = take (n2 - n1) (drop i l) ++ drop (n1 + (length l - i)) y).
Proof.
  intros Hc H HN Hi. set (a := place c i n1).
  assert (Ha : a + i + n1 + (length l - i) <= N).
  { destruct (insert_from_gap c l log0 i n1 0 [] H HN Hi) as (c1 & g1 & k & _ & _ & _ & [HG _] & _).
    rewrite take_length, drop_length, Nat.min_l in HG by lia. exact HG. }
  exists (N - (a + i)). split; [lia|]. intros n2 it g Hw y.
  pose proof (yields_length n2 it) as Hy2. fold y in Hy2.
  destruct (insert_from_gap c l g i n1 n2 it H HN Hi) as (c1 & g1 & k & E & D & L & HG & Hk). fold a in E, HG, Hk.
  split.
  { intros Hr. rewrite E. unfold write_from_iter. unfold bind at 1. erewrite (bind_Ret get) by reflexivity.
    erewrite (bind_Ret (set_left 0)) by reflexivity. erewrite (bind_Ret (set_right 0)) by reflexivity.
    erewrite bind_Ret by (apply uadd_ok; lia). unfold bind at 1. rewrite write_loop_oob by (fold y; lia). reflexivity. }
  pose proof (write_from_iter_over it n1 n2 a (take i l) (drop i l) c1 g1 HG Hw) as W. fold y in W.
  rewrite take_length, Nat.min_l in W by lia. rewrite E. split; [|split].
  - intros Hr Hlt. destruct W as [_ W2]; [lia|]. destruct (W2 ltac:(lia)) as (c' & g' & kk & E' & H1 & H2 & H3 & H4). rewrite (bind_Panic _ _ _ _ _ _ E').
    exists c', g', kk. rewrite H2, H3, D, L. do 4 (split; [auto|]). rewrite H4. rewrite <- (take_drop i l) at 3. rewrite <- app_assoc.
    apply Permutation_app_head, Permutation_app_comm.
  - intros Hr Heq Hlt. destruct (insert_from_two_lengths c l g i n1 n2 it H HN Hi Hw) as (_ & P & _); [fold y; lia|].
    fold y in P. rewrite E in P. apply P; assumption.
  - intros Hr Heq Hle l'. destruct W as [W1 _]; [lia|]. destruct (W1 Heq) as (m' & g' & E' & D' & L' & Hm). rewrite (bind_Ret _ _ _ _ _ _ _ E').
    destruct (Hk m' g') as (g'' & E2 & D2 & L2). rewrite E2. eexists _, _. split; [reflexivity|].
    assert (Hl' : length l' = length l + n1) by (unfold l'; lookups; lia).
    assert (EL : forall g, len e (Chunk (A:=A) a (a + (length l + n1)) m') g = Ret (Chunk a (a + (length l + n1)) m') g (length l + n1)).
    { intros g2. unfold len. erewrite (bind_Ret get) by reflexivity. cbn [left right]. rewrite usub_ok by lia. f_equal. lia. }
    assert (Hm2 : forall j, j < length l + n1 -> m' (a + j) = l' !! j).
    { intros j Hj. rewrite Hm, Heq. unfold l'. pw. }
    assert (Q : forall g, slots_peek N a (length l + n1) (Chunk (A:=A) a (a + (length l + n1)) m') g = Ret (Chunk a (a + (length l + n1)) m') g l').
    { intros g2. apply slots_peek_ok; [exact Hl'|lia|exact Hm2]. }
    split.
    { unfold as_slice. erewrite (bind_Ret get) by reflexivity. erewrite bind_Ret by apply EL. apply Q. }
    unfold destroy, destroying, drop_. erewrite (bind_Ret get) by reflexivity. erewrite bind_Ret by apply EL. cbn [left].
    rewrite (slots_drop_ok e N a (length l + n1) l') by (first [exact Hc | exact Hl' | lia | exact Hm2]).
    unfold slots_release. eexists _, _, _. split; [reflexivity|]. cbn [dropped leaked log_leak log_drop getm setm chunk_mem cdata].
    rewrite D2, D', D, L2, L', L, Heq. split; [reflexivity|]. split; [rewrite <- app_assoc; reflexivity|]. f_equal.
    apply (omap_range _ _ _ (a + (length l + n1))); [lia|rewrite drop_length; lia|].
    intros p Hp. unfold mclear. rewrite Hm, Heq. pw.
Qed.
End proofs.
