(** * Programs on [RingBuffer]s follow the aliasing rules *)
From Verif Require Import Machine Spec Prims RingModel RingProofs RingProofs2 RingProofs3 RingProofs4.
From Verif Require BorrowModel BorrowSpec.
From Verif Require Import BorrowModel2 BorrowLink4 BorrowLink5.

(** A program: methods of the buffer with number [o], methods that move elements from number [o'] to number [o], and
    [split_off] of number [o'], whose result is a new buffer with the next free number. *)
Inductive ring_cmd (A : Type) :=
| ROn (o : nat) (op : ring_op) (v : A) | RFrom (o o' : nat) (op : ring_op2) | RSplit (o' i : nat).
Arguments ROn {A}. Arguments RFrom {A}. Arguments RSplit {A}.

Section link.
Context {A : Type} (e : env A) (N : nat).
(** The calls a program makes, run on the machine of RingModel.v; a panic is caught and the program goes on.  A command that
    names no buffer, or the same one twice (which the borrow checker rejects), is skipped.  [None]: a method neither returns
    nor panics, or the two models disagree about what it does. *)
Fixpoint ring_program (cs : list (ring_cmd A)) (rs : list (ring A)) (g : log A) : option (list BorrowModel.call) :=
  match cs with
  | [] => Some []
  | ROn o op v :: cs' =>
      match rs !! o with
      | Some r =>
          match ring_code e N op v r g with
          | Ret r' g' _ =>
              match ring_steps N (origin r) (rlen r) op with
              | Some (ss, _) => option_map (app (concat (map (ring_call o) ss))) (ring_program cs' (<[o := r']> rs) g')
              | None => None
              end
          | Panic r' g' => option_map (app [BorrowModel.Fields o]) (ring_program cs' (<[o := r']> rs) g')
          | _ => None
          end
      | None => ring_program cs' rs g
      end
  | RFrom o o' op :: cs' =>
      match rs !! o, rs !! o', op with
      | _, _, RSplitOff _ => ring_program cs' rs g
      | Some r1, Some r2, _ =>
          if o =? o' then ring_program cs' rs g
          else
            match ring_code2 e N op (r1, r2) g with
            | Ret (r1', r2') g' _ =>
                match ring_blocks N (shape r1) (shape r2) op with
                | Some (bs, _) => option_map (app (ring_call2 o o' bs)) (ring_program cs' (<[o := r1']> (<[o' := r2']> rs)) g')
                | None => None
                end
            | Panic (r1', r2') g' => option_map (app [BorrowModel.Fields o; BorrowModel.Fields o']) (ring_program cs' (<[o := r1']> (<[o' := r2']> rs)) g')
            | _ => None
            end
      | _, _, _ => ring_program cs' rs g
      end
  | RSplit o' i :: cs' =>
      match rs !! o' with
      | Some r2 =>
          match ring_code2 e N (RSplitOff i) (ring0, r2) g with
          | Ret (r1', r2') g' _ =>
              match ring_blocks N (0, 0) (shape r2) (RSplitOff i) with
              | Some (bs, _) => option_map (app (ring_call2 (length rs) o' bs)) (ring_program cs' (<[o' := r2']> rs ++ [r1']) g')
              | None => None
              end
          | Panic (_, r2') g' => option_map (app [BorrowModel.Fields o']) (ring_program cs' (<[o' := r2']> rs) g')
          | _ => None
          end
      | None => ring_program cs' rs g
      end
  end.
(** How many buffers there can be at the end. *)
Fixpoint ring_splits (cs : list (ring_cmd A)) : nat :=
  match cs with [] => 0 | RSplit _ _ :: cs' => S (ring_splits cs') | _ :: cs' => ring_splits cs' end.

Hypothesis HW : N + N < word e.
Hypothesis HC : calm e.
Hypothesis HN : 0 < N.
Definition step_ok (s : step) : Prop :=
  match s with
  | SFields | SSetFields => True
  | STake i | SPut i | SDrop i | SLook i | SAssign i => i < N
  | SMove a b => a < N /\ b < N
  end.
Lemma steps_map_ok (f : nat -> step) k : (forall j, step_ok (f j)) -> Forall step_ok (map f (seq 0 k)).
Proof. intros H. apply Forall_forall. intros s Hs. apply in_map_iff in Hs as (j & <- & _). apply H. Qed.
Lemma ring_steps_ok o n op ss x : o < N -> ring_steps N o n op = Some (ss, x) -> Forall step_ok ss.
Proof.
  intros Ho E. pose proof (slot_lt e N HW HN) as HS. pose proof (left_lt e N HW HN) as HL.
  destruct op; cbn [ring_steps] in E; cbv zeta in E;
    repeat match type of E with context [if ?b then _ else _] => destruct b end; try discriminate E; injection E as <- _;
    repeat (apply Forall_app; split); repeat (apply steps_map_ok; intros; cbn [step_ok]; auto); repeat (constructor; cbn [step_ok]; auto).
  all: repeat (apply Forall_app; split); try (apply steps_map_ok; intros; cbn [step_ok]; auto); repeat (constructor; cbn [step_ok]; auto).
Qed.
Definition good (c : BorrowModel.call) : Prop := ~ BorrowSpec.stale c.
Lemma ring_call_ok o k s : o < k -> step_ok s -> Forall (BorrowSpec.valid_call N k) (ring_call o s) /\ Forall good (ring_call o s).
Proof. intros Ho H. destruct s; cbn in *; split; repeat constructor; cbn; try tauto; intros []. Qed.
Lemma ring_calls_ok o k ss : o < k -> Forall step_ok ss ->
  Forall (BorrowSpec.valid_call N k) (concat (map (ring_call o) ss)) /\ Forall good (concat (map (ring_call o) ss)).
Proof.
  intros Ho. induction 1 as [|s ss H _ IH]; cbn [map concat]; [split; constructor|].
  destruct (ring_call_ok o k s Ho H). split; apply Forall_app; tauto.
Qed.
Definition block_ok (b : nat * nat * nat) : Prop := fst (fst b) + snd b <= N /\ snd (fst b) + snd b <= N.
Lemma copy_to_ok f t n : f + n <= N -> f < N -> t < N -> n <= N -> Forall block_ok (copy_to N f t n).
Proof.
  intros. unfold copy_to. destruct (N <? t + n) eqn:E; repeat constructor; cbn [fst snd]; try lia.
  unfold slot_of. rewrite Nat.mod_small by lia. lia.
Qed.
Lemma copy_blocks_ok f t n : f < N -> t < N -> n <= N -> Forall block_ok (copy_blocks N f t n).
Proof.
  intros. pose proof (slot_lt e N HW HN t (N - f)). unfold copy_blocks. destruct (N <? f + n) eqn:E; [apply Forall_app; split|]; apply copy_to_ok; lia.
Qed.
Lemma ring_blocks_ok o1 n1 o2 n2 op bs x : o1 < N -> o2 < N -> n2 <= N -> ring_blocks N (o1, n1) (o2, n2) op = Some (bs, x) -> Forall block_ok bs.
Proof.
  intros H1 H2 H3 E. pose proof (slot_lt e N HW HN) as HS. 
  destruct op; cbn [ring_blocks] in E; cbv zeta in E;
    repeat match type of E with context [if ?b then _ else _] => let F := fresh "F" in destruct b eqn:F end; try discriminate E; injection E as <- _;
    try constructor; apply copy_blocks_ok; auto; try lia; apply Nat.mod_upper_bound; lia.
Qed.
Lemma ring_call2_ok o o' k bs : o < k -> o' < k -> o <> o' -> Forall block_ok bs ->
  Forall (BorrowSpec.valid_call N k) (ring_call2 o o' bs) /\ Forall good (ring_call2 o o' bs).
Proof.
  intros H1 H2 H3 H. unfold ring_call2. rewrite List.Forall_forall in H. rewrite !List.Forall_forall. split; intros c Hc.
  - apply in_app_or in Hc as [Hc|Hc]; [destruct Hc as [<-|[<-|[]]]; assumption|].
    apply in_app_or in Hc as [Hc|Hc]; [|destruct Hc as [<-|[<-|[]]]; assumption].
    apply in_map_iff in Hc as (b & <- & Hb). destruct (H b Hb). cbn. auto.
  - apply in_app_or in Hc as [Hc|Hc]; [destruct Hc as [<-|[<-|[]]]; intros []|].
    apply in_app_or in Hc as [Hc|Hc]; [|destruct Hc as [<-|[<-|[]]]; intros []].
    apply in_map_iff in Hc as (b & <- & Hb). intros [].
Qed.

Definition kept {O X} (R : O -> Prop) (x : outcome A O X) : Prop := match x with Ret o _ _ | Panic o _ => R o | _ => False end.
Lemma kept_agrees {O L X Y} (R : O -> L -> Prop) (RR : X -> Y -> Prop) g x s : agrees R RR g x s -> kept (fun o => exists l, R o l) x.
Proof. destruct s; cbn; intros H; repeat match goal with H : exists _, _ |- _ => destruct H | H : _ /\ _ |- _ => destruct H end; subst x; cbn; eauto. Qed.
Lemma kept_unit {O X} R (m : M A O X) c g : kept R (m c g) -> kept R ((m ;;; ret tt) c g).
Proof. unfold bind. destruct (m c g); cbn; auto. Qed.
Notation RHolds2 := (both (@RHolds A N) (@RHolds A N)).
Notation Holding := (fun r : ring A => exists l, RHolds N r l).
Lemma ring_code_kept op v r l g : RHolds N r l -> kept Holding (ring_code e N op v r g).
Proof.
  intros H. destruct op; cbn [ring_code]; try apply kept_unit; try (eapply kept_agrees; 
    eauto using rb_push_front_ok, rb_push_back_ok, rb_pop_front_ok, rb_pop_back_ok, rb_get_ok, rb_index_ok, rb_assign_ok, rb_insert_ok,
      rb_remove_ok, rb_drop_left_ok, rb_drop_right_ok, rb_clear_ok; fail).
  rewrite (rb_contents_eq e N HW HN r l g H). cbn. eauto.
Qed.
Lemma ring_code2_kept op r1 r2 l1 l2 g : RHolds N r1 l1 -> RHolds N r2 l2 ->
  match op with RDrainFront c | RDrainBack c => c < word e | _ => True end ->
  kept (fun s => Holding (fst s) /\ Holding (snd s)) (ring_code2 e N op (r1, r2) g).
Proof.
  intros H1 H2 Hop.
  assert (HP : RHolds2 (r1, r2) (l1, l2)) by (split; assumption).
  assert (K : forall X Y (RR : X -> Y -> Prop) g x s, agrees RHolds2 RR g x s -> kept (fun s => Holding (fst s) /\ Holding (snd s)) x).
  { intros X Y RR g0 x s Ha. apply kept_agrees in Ha. destruct x; cbn in *; try assumption; destruct Ha as ([a b] & [Ha Hb]); eauto. }
  destruct op as [c|c| |i]; cbn [ring_code2].
  - eapply K, rb_drain_from_front_ok; eassumption.
  - eapply K, rb_drain_from_back_ok; eassumption.
  - eapply K, rb_append_ok; eassumption.
  - pose proof (rb_split_off_ok e N HW HN HC r2 l2 g i H2) as Ha. unfold bl_split_off in Ha. cbn [snd].
    destruct (i <=? length l2); cbn [agrees] in Ha.
    + destruct Ha as (r' & g' & x & -> & Hr & Hx & _). destruct x as [b []]. cbn. split; [eexists; exact Hx|eexists; exact Hr].
    + destruct Ha as (r' & g' & k' & -> & Hr & _). cbn. split; [eexists; exact H1|eexists; exact Hr].
Qed.
Definition cmd_ok (c : ring_cmd A) : Prop :=
  match c with RFrom _ _ (RDrainFront n) | RFrom _ _ (RDrainBack n) => n < word e | _ => True end.
Lemma ring0_holding : Holding (@ring0 A).
Proof. exists []. split; [exact HN|]. split; [reflexivity|]. split; [apply Nat.le_0_l|]. intros p. rewrite lookup_nil. destruct (p <? N); reflexivity. Qed.
Lemma holding_insert rs o r : Forall Holding rs -> Holding r -> Forall Holding (<[o := r]> rs).
Proof. intros H Hr. apply Forall_insert; assumption. Qed.
Lemma holding_fields (r : ring A) : Holding r -> origin r < N /\ rlen r <= N.
Proof. intros (l & H1 & H2 & H3 & _). split; lia. Qed.
Definition calls_ok (k : nat) (l : list BorrowModel.call) : Prop := Forall (BorrowSpec.valid_call N k) l /\ Forall good l.
Definition program_ok (k : nat) (x : option (list BorrowModel.call)) : Prop := match x with Some l => calls_ok k l | None => False end.
Lemma ring_program_ok cs : forall rs g k, Forall Holding rs -> Forall cmd_ok cs -> length rs + ring_splits cs <= k ->
  program_ok k (ring_program cs rs g).
Proof.
  assert (FA : forall k l x, calls_ok k l -> program_ok k x -> program_ok k (option_map (app l) x)).
  { intros k l [l'|] [] []. split; apply Forall_app; auto. }
  assert (F1' : forall k o, o < k -> calls_ok k [BorrowModel.Fields o]).
  { intros k o Ho. split; constructor; auto; intros []. }
  assert (F2' : forall k o o', o < k -> o' < k -> calls_ok k [BorrowModel.Fields o; BorrowModel.Fields o']).
  { intros k o o' Ho Ho'. split; repeat constructor; auto; intros []. }
  induction cs as [|c cs IH]; intros rs g k HR HO Hk; [split; constructor|].
  inversion HO as [|? ? Hc HO']; subst. destruct c as [o op v|o o' op|o' i]; cbn [ring_program ring_splits] in *.
  - destruct (rs !! o) as [r|] eqn:Er; [|apply IH; assumption].
    pose proof (proj1 (Forall_lookup _ rs) HR _ _ Er : Holding r) as Hr. pose proof Hr as (l & Hl). destruct (holding_fields r Hr) as [F1 F2].
    pose proof (lookup_lt_Some _ _ _ Er) as Ho.
    pose proof (ring_code_kept op v r l g Hl) as HK. pose proof (ring_code_replays e N HW HC HN v op r g F1 F2) as HM.
    destruct (ring_code e N op v r g) as [r' g' []|r' g'| | |]; cbn in HK; try contradiction.
    + destruct HM as (ss & ES & _). rewrite ES. apply FA.
      * apply ring_calls_ok; [lia|]. eapply ring_steps_ok; [exact F1|exact ES].
      * apply IH; [apply holding_insert; assumption|assumption|rewrite insert_length; lia].
    + apply FA; [apply F1'; lia|]. apply IH; [apply holding_insert; assumption|assumption|rewrite insert_length; lia].
  - destruct (rs !! o) as [r1|] eqn:Er1; [|destruct op; apply IH; assumption].
    destruct (rs !! o') as [r2|] eqn:Er2; [|destruct op; apply IH; assumption].
    pose proof (proj1 (Forall_lookup _ rs) HR _ _ Er1 : Holding r1) as Hr1. pose proof Hr1 as (l1 & Hl1). destruct (holding_fields r1 Hr1) as [F1 F2].
    pose proof (proj1 (Forall_lookup _ rs) HR _ _ Er2 : Holding r2) as Hr2. pose proof Hr2 as (l2 & Hl2). destruct (holding_fields r2 Hr2) as [F3 F4].
    pose proof (lookup_lt_Some _ _ _ Er1) as Ho1. pose proof (lookup_lt_Some _ _ _ Er2) as Ho2.
    assert (Hop : match op with RDrainFront c | RDrainBack c => c < word e | _ => True end) by (destruct op; exact Hc || exact I).
    assert (D : (exists i, op = RSplitOff i) \/ (forall i, op <> RSplitOff i)) by (destruct op; eauto; right; discriminate).
    destruct D as [[i ->]|D]; [apply IH; assumption|].
    assert (GO : program_ok k
      (if o =? o' then ring_program cs rs g
          else
            match ring_code2 e N op (r1, r2) g with
            | Ret (r1', r2') g' _ =>
                match ring_blocks N (shape r1) (shape r2) op with
                | Some (bs, _) => option_map (app (ring_call2 o o' bs)) (ring_program cs (<[o := r1']> (<[o' := r2']> rs)) g')
                | None => None
                end
            | Panic (r1', r2') g' => option_map (app [BorrowModel.Fields o; BorrowModel.Fields o']) (ring_program cs (<[o := r1']> (<[o' := r2']> rs)) g')
            | _ => None
            end)).
    { destruct (o =? o') eqn:Eo; [apply IH; assumption|].
      pose proof (ring_code2_kept op r1 r2 l1 l2 g Hl1 Hl2 Hop) as HK.
      assert (HM := ring_code2_replays e N HW HN op r1 r2 g (conj F1 (conj F2 (conj F3 F4)))).
      assert (HX : match op with RDrainFront count | RDrainBack count => count < word e | RSplitOff _ => r1 = ring0 | RAppend => True end)
        by (destruct op; auto; edestruct D; reflexivity).
      specialize (HM HX).
      destruct (ring_code2 e N op (r1, r2) g) as [[r1' r2'] g' []|[r1' r2'] g'| | |]; cbn in HK; try contradiction; destruct HK as [HK1 HK2].
      - destruct HM as (bs & EB & _). rewrite EB. apply FA.
        + apply ring_call2_ok; [lia|lia|lia|]. eapply ring_blocks_ok; [| | |exact EB]; assumption.
        + apply IH; [repeat apply holding_insert; assumption|assumption|rewrite !insert_length; lia].
      - apply FA; [apply F2'; lia|]. apply IH; [repeat apply holding_insert; assumption|assumption|rewrite !insert_length; lia]. }
    destruct op; try exact GO. edestruct D; reflexivity.
  - destruct (rs !! o') as [r2|] eqn:Er2; [|apply IH; try assumption; lia].
    pose proof (proj1 (Forall_lookup _ rs) HR _ _ Er2 : Holding r2) as Hr2. pose proof Hr2 as (l2 & Hl2). destruct (holding_fields r2 Hr2) as [F3 F4].
    pose proof (lookup_lt_Some _ _ _ Er2) as Ho2. destruct ring0_holding as (l0 & Hl0).
    pose proof (ring_code2_kept (RSplitOff i) ring0 r2 l0 l2 g Hl0 Hl2 I) as HK.
    assert (HM := ring_code2_replays e N HW HN (RSplitOff i) ring0 r2 g (conj HN (conj (Nat.le_0_l N) (conj F3 F4))) eq_refl).
    destruct (ring_code2 e N (RSplitOff i) (ring0, r2) g) as [[r1' r2'] g' []|[r1' r2'] g'| | |]; cbn [kept] in HK; try contradiction; destruct HK as [HK1 HK2]; cbn [fst snd] in *.
    + destruct HM as (bs & EB & _). change (shape ring0) with (0, 0) in EB. rewrite EB. apply FA.
      * apply ring_call2_ok; [lia|lia|lia|]. eapply ring_blocks_ok; [| | |exact EB]; assumption || lia.
      * apply IH; [apply Forall_app; split; [apply holding_insert; assumption|repeat constructor; assumption]|assumption|rewrite app_length, insert_length; cbn; lia].
    + apply FA; [apply F1'; lia|]. apply IH; [apply holding_insert; assumption|assumption|rewrite insert_length; lia].
Qed.
End link.
