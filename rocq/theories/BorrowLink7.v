(** * Programs on [SparseChunk]s follow the aliasing rules *)
From Verif Require Import Machine Spec Prims SparseSpec SparseModel SparseProofs.
From Verif Require BorrowModel BorrowSpec.
From Verif Require Import BorrowModel2 BorrowModel3.

Section link.
Context {A : Type} (e : env A) (N : nat).
(** The methods of SparseModel.v; [get_mut] and [IndexMut] are used to store [v]. *)
Definition sparse_code (op : sparse_op) (v : A) : M A (sparse A) unit :=
  match op with
  | SInsert i => sp_insert e N i v ;;; ret tt
  | SRemove i => sp_remove N i ;;; ret tt
  | SPop => sp_pop N ;;; ret tt
  | SGet i => sp_get N i ;;; ret tt
  | SGetMut i => sp_get_mut_replace e N i v ;;; ret tt
  | SIndex i => sp_index N i ;;; ret tt
  | SIndexMut i => sp_assign e N i v
  end.
(** The calls a program makes: each command names a chunk, a method and a value; a panic is caught and the program goes on.
    [None]: a method neither returns nor panics, or the two models disagree about it. *)
Fixpoint sparse_program (cs : list (nat * sparse_op * A)) (rs : list (sparse A)) (g : log A) : option (list BorrowModel.call) :=
  match cs with
  | [] => Some []
  | (o, op, v) :: cs' =>
      match rs !! o with
      | Some c =>
          match sparse_code op v c g with
          | Ret c' g' _ =>
              match sparse_steps N (smap c) op with
              | Some (ss, _) => option_map (app (concat (map (sparse_call o) ss))) (sparse_program cs' (<[o := c']> rs) g')
              | None => None
              end
          | Panic c' g' => option_map (app [BorrowModel.Fields o]) (sparse_program cs' (<[o := c']> rs) g')
          | _ => None
          end
      | None => sparse_program cs' rs g
      end
  end.

Hypothesis HC : calm e.
(** Whether a method returns or panics, which indices are occupied afterwards and what is in the slots is the same in both
    models; a method that panics changes nothing. *)
Lemma sparse_code_replays op v c s g : SHolds N c s ->
  match sparse_code op v c g with
  | Ret c' _ _ => exists ss, sparse_steps N (smap c) op = Some (ss, smap c') /\ forall p, sdata c' p = replay v ss (sdata c) p
  | Panic c' _ => sparse_steps N (smap c) op = None /\ c' = c
  | _ => True
  end.
Proof.
  intros (Hl & Hm & Hd). destruct c as [m d]. cbn [smap sdata] in *.
  assert (RD : forall i m' g', i < N -> m i = true -> exists a, d i = Some a /\ slot_read N i (Sparse m' d) g' = Ret (Sparse m' (upd d i None)) g' a /\
      slot_peek N i (Sparse m' d) g' = Ret (Sparse m' d) g' a).
  { intros i m' g' Hi Hb. rewrite Hm in Hb by exact Hi. destruct (s !! i) as [[a|]|] eqn:E; try discriminate Hb. exists a.
    assert (Hdi : d i = Some a) by (rewrite Hd, E; reflexivity). split; [exact Hdi|].
    unfold slot_read, slot_peek. replace (i <? N) with true by lia. cbn. rewrite Hdi. split; reflexivity. }
  assert (WR : forall i (v : A) (d' : mem A) m' (g' : log A), i < N -> exists g'', slot_write N i v (Sparse m' d') g' = Ret (Sparse m' (upd d' i (Some v))) g'' tt).
  { intros i v' d' m' g' Hi. unfold slot_write. replace (i <? N) with true by lia. cbn. eexists. reflexivity. }
  assert (UU : forall i a b (d : mem A) p, upd (upd d i a) i b p = upd d i b p) by (intros; unfold upd; destruct (p =? i); reflexivity).
  destruct op as [i|i| |i|i|i|i]; cbn [sparse_code sparse_steps].
  - unfold sp_insert. destruct (N <=? i) eqn:Ei.
    { unfold bind. rewrite (panic_dropping_ok e) by exact HC. split; reflexivity. }
    unfold map_set, bind, get, put, ret. cbn beta iota. replace (i <? N) with true by lia. cbn beta iota. cbn [smap sdata].
    destruct (m i) eqn:Eb.
    + destruct (RD i (bm_put m i true) g ltac:(lia) Eb) as (a & _ & -> & _).
      destruct (WR i v (upd d i None) (bm_put m i true) g ltac:(lia)) as (g'' & ->). cbn [smap sdata].
      eexists. split; [reflexivity|]. intros p. cbn [app replay leave]. apply UU.
    + unfold sp_force_write. replace (i <? N) with true by lia.
      destruct (WR i v d (bm_put m i true) g ltac:(lia)) as (g'' & ->). cbn [smap sdata].
      eexists. split; [reflexivity|]. reflexivity.
  - unfold sp_remove. destruct (N <=? i) eqn:Ei.
    { cbn. split; reflexivity. }
    unfold map_set, bind, get, put, ret. cbn beta iota. replace (i <? N) with true by lia. cbn beta iota. cbn [smap sdata].
    destruct (m i) eqn:Eb.
    + unfold sp_force_read. replace (i <? N) with true by lia. destruct (RD i (bm_put m i false) g ltac:(lia) Eb) as (a & _ & -> & _).
      cbn [smap sdata]. eexists. split; reflexivity.
    + cbn [smap sdata]. eexists. split; reflexivity.
  - unfold sp_pop, sp_first_index, bm_first, bind, get, ret. cbn beta iota. cbn [smap].
    destruct (List.find m (seq 0 N)) as [i|] eqn:Ef; [|cbn; eexists; split; reflexivity].
    apply List.find_some in Ef as [Hi Eb]. apply in_seq in Hi.
    unfold sp_remove. replace (N <=? i) with false by lia.
    unfold map_set, bind, get, put, ret. cbn beta iota. replace (i <? N) with true by lia. cbn beta iota. cbn [smap sdata]. rewrite Eb.
    unfold sp_force_read. replace (i <? N) with true by lia. destruct (RD i (bm_put m i false) g ltac:(lia) Eb) as (a & _ & -> & _).
    cbn [smap sdata]. eexists. split; reflexivity.
  - unfold sp_get. destruct (N <=? i) eqn:Ei; [cbn; eexists; split; reflexivity|].
    unfold map_get, bind, get, ret. cbn beta iota. replace (i <? N) with true by lia. cbn [smap].
    destruct (m i) eqn:Eb; [|cbn; eexists; split; reflexivity].
    unfold sp_get_unchecked. destruct (RD i m g ltac:(lia) Eb) as (a & _ & _ & ->). cbn. eexists; split; reflexivity.
  - unfold sp_get_mut_replace, sp_get. destruct (N <=? i) eqn:Ei.
    { unfold bind, ret. rewrite (drop_values_calm e) by exact HC. cbn. eexists; split; reflexivity. }
    unfold map_get, bind, get, ret. cbn beta iota. replace (i <? N) with true by lia. cbn [smap].
    destruct (m i) eqn:Eb; [|rewrite (drop_values_calm e) by exact HC; cbn; eexists; split; reflexivity].
    unfold sp_get_unchecked. destruct (RD i m g ltac:(lia) Eb) as (a & _ & HR & ->). rewrite HR.
    destruct (WR i v (upd d i None) m g ltac:(lia)) as (g'' & ->). cbn [smap sdata].
    eexists; split; [reflexivity|]. intros p. cbn [app replay leave]. apply UU.
  - unfold sp_index, sp_get. destruct (N <=? i) eqn:Ei; [cbn; split; reflexivity|].
    unfold map_get, bind, get, ret. cbn beta iota. replace (i <? N) with true by lia. cbn [smap].
    destruct (m i) eqn:Eb; [|cbn; split; reflexivity].
    unfold sp_get_unchecked. destruct (RD i m g ltac:(lia) Eb) as (a & _ & _ & ->). cbn. eexists; split; reflexivity.
  - unfold sp_assign, sp_get. destruct (N <=? i) eqn:Ei.
    { unfold bind, ret. rewrite (panic_dropping_ok e) by exact HC. split; reflexivity. }
    unfold map_get, bind, get, ret. cbn beta iota. replace (i <? N) with true by lia. cbn [smap].
    destruct (m i) eqn:Eb; [|rewrite (panic_dropping_ok e) by exact HC; split; reflexivity].
    unfold sp_get_unchecked. destruct (RD i m g ltac:(lia) Eb) as (a & _ & HR & ->). rewrite HR.
    destruct (WR i v (upd d i None) m g ltac:(lia)) as (g'' & ->). rewrite (drop_values_calm e) by exact HC. cbn [smap sdata].
    eexists; split; [reflexivity|]. intros p. cbn [app replay leave]. apply UU.
Qed.
Notation Holding := (fun c : sparse A => exists s, SHolds N c s).
Definition kept {O X} (R : O -> Prop) (x : outcome A O X) : Prop := match x with Ret o _ _ | Panic o _ => R o | _ => False end.
Lemma kept_agrees {O L X Y} (R : O -> L -> Prop) (RR : X -> Y -> Prop) g x s : agrees R RR g x s -> kept (fun o => exists l, R o l) x.
Proof. destruct s; cbn; intros H; repeat match goal with H : exists _, _ |- _ => destruct H | H : _ /\ _ |- _ => destruct H end; subst x; cbn; eauto. Qed.
Lemma kept_unit {O X} R (m : M A O X) c g : kept R (m c g) -> kept R ((m ;;; ret tt) c g).
Proof. unfold bind. destruct (m c g); cbn; auto. Qed.
Lemma sparse_code_kept op v c s g : SHolds N c s -> kept Holding (sparse_code op v c g).
Proof.
  intros H. destruct op; cbn [sparse_code]; try apply kept_unit; eapply kept_agrees;
    eauto using sp_insert_ok, sp_remove_ok, sp_pop_ok, sp_get_ok, sp_get_mut_replace_ok, sp_index_ok, sp_assign_ok.
Qed.
Definition sstep_ok (s : step) : Prop :=
  match s with
  | SFields | SSetFields => True
  | STake i | SPut i | SDrop i | SLook i | SAssign i => i < N
  | SMove a b => a < N /\ b < N
  end.
Lemma sparse_steps_ok m op ss m' : sparse_steps N m op = Some (ss, m') -> Forall sstep_ok ss.
Proof.
  intros E. destruct op; cbn [sparse_steps] in E; cbv zeta in E;
    repeat match type of E with
      | context [if N <=? ?i then _ else _] => destruct (N <=? i) eqn:?
      | context [if m ?i then _ else _] => destruct (m i) eqn:?
      | context [match List.find ?f ?l with _ => _ end] => destruct (List.find f l) eqn:?
      end;
    try discriminate E; injection E as <- _; try (repeat (constructor; cbn [sstep_ok app]; try lia); fail).
  apply List.find_some in Heqo as [H _]. apply in_seq in H. repeat (constructor; cbn [sstep_ok]; try lia).
Qed.
Definition sgood (c : BorrowModel.call) : Prop := ~ BorrowSpec.stale c.
Definition scalls_ok (k : nat) (l : list BorrowModel.call) : Prop := Forall (BorrowSpec.valid_call N k) l /\ Forall sgood l.
Lemma sparse_call_ok o k ss : o < k -> Forall sstep_ok ss -> scalls_ok k (concat (map (sparse_call o) ss)).
Proof.
  intros Ho. induction 1 as [|s ss H _ IH]; cbn [map concat]; [split; constructor|]. destruct IH.
  split; apply Forall_app; split; try assumption; destruct s; cbn in *; repeat constructor; cbn; try tauto; intros [].
Qed.
Lemma sparse_program_ok cs : forall rs g k, Forall Holding rs -> length rs <= k ->
  match sparse_program cs rs g with Some l => scalls_ok k l | None => False end.
Proof.
  assert (FA : forall k l x, scalls_ok k l -> match x with Some l => scalls_ok k l | None => False end ->
    match option_map (app l) x with Some l => scalls_ok k l | None => False end).
  { intros k l [l'|] [] []. split; apply Forall_app; auto. }
  induction cs as [|[[o op] v] cs IH]; intros rs g k HR Hk; [split; constructor|]. cbn [sparse_program].
  destruct (rs !! o) as [c|] eqn:Er; [|apply IH; assumption].
  pose proof (proj1 (Forall_lookup _ rs) HR _ _ Er : Holding c) as (s & Hs). pose proof (lookup_lt_Some _ _ _ Er) as Ho.
  pose proof (sparse_code_kept op v c s g Hs) as HK. pose proof (sparse_code_replays op v c s g Hs) as HM.
  assert (HI : forall c', Holding c' -> Forall Holding (<[o := c']> rs)) by (intros; apply Forall_insert; assumption).
  destruct (sparse_code op v c g) as [c' g' []|c' g'| | |]; cbn [kept] in HK; try contradiction.
  - destruct HM as (ss & ES & _). rewrite ES. apply FA.
    + apply sparse_call_ok; [lia|]. eapply sparse_steps_ok. exact ES.
    + apply IH; [apply HI, HK|rewrite insert_length; lia].
  - apply FA; [split; (constructor; [|constructor]); [cbn; lia|intros []]|]. apply IH; [apply HI, HK|rewrite insert_length; lia].
Qed.
End link.
