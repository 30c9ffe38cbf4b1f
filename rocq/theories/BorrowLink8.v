(** * Programs on [InlineArray]s and the aliasing rules *)
From Verif Require Import Machine Spec Prims InlineModel InlineSpec InlineProofs InlineProofs2 InlineProofs3.
From Verif Require BorrowModel BorrowSpec.
From Verif Require Import BorrowModel3.

(** A program: methods of the array with number [o]; [split_off] of number [o], whose result is stored at [b2] and gets the next
    free number. *)
Inductive array_cmd (A : Type) := IOn (o : nat) (op : array_op) (v : A) | ISplit (o i b2 : nat).
Arguments IOn {A}. Arguments ISplit {A}.

Section link.
Context {A : Type} (e : env A) (L : layout).
Notation cap := (capacity e L).
(** The methods of InlineModel.v, of an array stored at [b]. *)
Definition array_code (b : nat) (op : array_op) (v : A) : M A (inline A) unit :=
  match op with
  | IPush => ia_push e L b v
  | IPop => ia_pop e L b ;;; ret tt
  | IInsert i => ia_insert e L b i v
  | IRemove i => ia_remove e L b i ;;; ret tt
  | ILen => ia_len e L b ;;; ret tt
  | IRead => ia_deref e L b ;;; ret tt
  | IIndex i => ia_index e L b i ;;; ret tt
  | IAssign i => ia_assign e L b i v
  | IClear => ia_clear e L b
  end.
(** The arrays of a program: where each is stored, and what is there.  Beside the calls, the list of the methods performed,
    each with the length of the array it was called on; [split_off] is not listed.  The length is the one in the array's
    header.  [None]: a method neither returns nor panics, or the two models disagree about it. *)
Fixpoint array_program (cs : list (array_cmd A)) (rs : list (nat * inline A)) (g : log A)
  : option (list BorrowModel.call * list (nat * array_op)) :=
  let with_calls l p x := option_map (fun y => (l ++ fst y, p ++ snd y)) x in
  match cs with
  | [] => Some ([], [])
  | IOn o op v :: cs' =>
      match rs !! o with
      | Some (b, c) =>
          match ia_len e L b c g, array_code b op v c g with
          | Ret _ _ len, Ret c' g' _ =>
              match array_calls cap o len op, ia_len e L b c' g' with
              | Some (call, len'), Ret _ _ len'' =>
                  if len' =? len'' then with_calls [call] [(len, op)] (array_program cs' (<[o := (b, c')]> rs) g') else None
              | _, _ => None
              end
          | Ret _ _ len, Panic c' g' =>
              match array_calls cap o len op with
              | None => with_calls [BorrowModel.ArrayLen o] [(len, op)] (array_program cs' (<[o := (b, c')]> rs) g')
              | Some _ => None
              end
          | _, _ => None
          end
      | None => array_program cs' rs g
      end
  | ISplit o i b2 :: cs' =>
      match rs !! o with
      | Some (b, c) =>
          match ia_len e L b c g, ia_split_off e L b b2 i c g with
          | Ret _ _ len, Ret c' g' (c2, _) =>
              with_calls [BorrowModel.ArraySplitOff o (length rs) len i] [] (array_program cs' (<[o := (b, c')]> rs ++ [(b2, c2)]) g')
          | Ret _ _ len, Panic c' g' => with_calls [BorrowModel.ArrayLen o] [] (array_program cs' (<[o := (b, c')]> rs) g')
          | _, _ => None
          end
      | None => array_program cs' rs g
      end
  end.
Fixpoint array_splits (cs : list (array_cmd A)) : nat :=
  match cs with [] => 0 | ISplit _ _ _ :: cs' => S (array_splits cs') | _ :: cs' => array_splits cs' end.

Hypothesis WF : wf_layout e L.
Hypothesis HOST : host_ok e L.
Hypothesis HC : calm e.
(** The call writes the slots whose contents change, and the length if it changes; it reads the elements the method gives out. *)
Definition given_out (op : array_op) (len p : nat) : Prop :=
  match op with IRead => p < len | IIndex i | IRemove i => p = i /\ i < len | IPop => p + 1 = len | _ => False end.
Definition covers (o : nat) (op : array_op) (l l' : list A) (call : BorrowModel.call) : Prop :=
  (forall p, p < length l' -> l' !! p <> l !! p -> BorrowSpec.call_writes call (o, S p)) /\
  (length l' <> length l -> BorrowSpec.call_writes call (o, 0)) /\
  (forall p, given_out op (length l) p -> BorrowSpec.call_reads call (o, S p)).
Definition outcome_fits (o : nat) (op : array_op) (l : list A) (x : outcome A (inline A) unit) : Prop :=
  match x with
  | Ret c' _ _ => exists l' call, IHolds e L c' l' /\ array_calls cap o (length l) op = Some (call, length l') /\ covers o op l l' call
  | Panic c' _ => IHolds e L c' l /\ array_calls cap o (length l) op = None
  | _ => False
  end.
Lemma fits_unit {X} o op l (m : M A (inline A) X) c g (sp : sres A (list A) X) :
  agrees (IHolds e L) eq g (m c g) sp ->
  match sp with
  | SRet l' _ _ => exists call, array_calls cap o (length l) op = Some (call, length l') /\ covers o op l l' call
  | SPanic l' _ _ => l' = l /\ array_calls cap o (length l) op = None
  end -> outcome_fits o op l ((m ;;; ret tt) c g).
Proof.
  intros H. destruct sp as [l' x d|l' d y]; cbn [agrees] in H.
  - destruct H as (c' & g' & r & E & Hc & _). intros (call & HA). unfold bind. rewrite E. exists l', call. split; [exact Hc|exact HA].
  - destruct H as (c' & g' & r & E & Hc & _). intros [-> HA]. unfold bind. rewrite E. split; [exact Hc|exact HA].
Qed.
Lemma fits_plain o op l (m : M A (inline A) unit) c g (sp : sres A (list A) unit) :
  agrees (IHolds e L) eq g (m c g) sp ->
  match sp with
  | SRet l' _ _ => exists call, array_calls cap o (length l) op = Some (call, length l') /\ covers o op l l' call
  | SPanic l' _ _ => l' = l /\ array_calls cap o (length l) op = None
  end -> outcome_fits o op l (m c g).
Proof.
  intros H. destruct sp as [l' x d|l' d y]; cbn [agrees] in H.
  - destruct H as (c' & g' & r & E & Hc & _). intros (call & HA). rewrite E. exists l', call. split; [exact Hc|exact HA].
  - destruct H as (c' & g' & r & E & Hc & _). intros [-> HA]. rewrite E. split; [exact Hc|exact HA].
Qed.
Ltac covering := unfold covers; cbn; unfold BorrowSpec.header, BorrowSpec.elements; cbn [fst snd]; repeat split; intros; try lia; try congruence; try (intuition lia).
Lemma array_code_fits b c l g o op v : placed L b -> IHolds e L c l -> outcome_fits o op l (array_code b op v c g).
Proof.
  intros Hb H. pose proof (iholds_length e L c l H) as Hl. destruct op as [| |i|i| | |i|i|]; cbn [array_code].
  - eapply fits_plain; [apply push_ok; eassumption|]. unfold bl_push_back. cbn [array_calls].
    destruct (length l <? cap) eqn:E; [replace (cap <=? length l) with false by lia|replace (cap <=? length l) with true by lia; split; reflexivity].
    eexists. rewrite app_length. split; [reflexivity|]. covering. right. split; [reflexivity|].
    destruct (Nat.lt_ge_cases p (length l)); [rewrite lookup_app_l in * by assumption; congruence|]. rewrite app_length in *. cbn in *. lia.
  - eapply fits_unit; [apply pop_ok; eassumption|]. unfold bl_try_pop_back. cbn [array_calls].
    destruct (l !! (length l - 1)) as [a|] eqn:E.
    + pose proof (lookup_lt_Some _ _ _ E). replace (length l =? 0) with false by lia. eexists. rewrite take_length. split; [do 2 f_equal; lia|].
      covering. rewrite take_length in *. rewrite lookup_take in * by lia. congruence.
    + apply lookup_ge_None in E. replace (length l =? 0) with true by lia. eexists. split; [do 2 f_equal; lia|]. covering.
  - eapply fits_plain; [apply insert_ok; eassumption|]. unfold bl_insert. cbn [array_calls].
    destruct ((length l <? cap) && (i <=? length l)) eqn:E.
    + replace ((cap <=? length l) || (length l <? i)) with false by lia. eexists. split.
      { rewrite app_length, take_length. cbn [length]. rewrite drop_length. do 2 f_equal. lia. }
      covering. right. split; [reflexivity|].
      rewrite app_length, take_length in *. cbn [length] in *. rewrite drop_length in *.
      destruct (Nat.lt_ge_cases p i); [rewrite lookup_app_l in * by (rewrite take_length; lia); rewrite lookup_take in * by lia; congruence|lia].
    + replace ((cap <=? length l) || (length l <? i)) with true by lia. split; reflexivity.
  - eapply fits_unit; [apply remove_ok; eassumption|]. unfold bl_try_remove. cbn [array_calls]. destruct (l !! i) as [a|] eqn:E.
    + pose proof (lookup_lt_Some _ _ _ E). replace (length l <=? i) with false by lia. eexists. split.
      { rewrite app_length, take_length, drop_length. do 2 f_equal. lia. }
      covering. right. split; [reflexivity|]. rewrite app_length, take_length, drop_length in *.
      destruct (Nat.lt_ge_cases p i); [rewrite lookup_app_l in * by (rewrite take_length; lia); rewrite lookup_take in * by lia; congruence|lia].
    + apply lookup_ge_None in E. replace (length l <=? i) with true by lia. eexists. split; [reflexivity|]. covering.
  - eapply fits_unit; [apply ia_len_ok; eassumption|]. cbn. eexists. split; [reflexivity|]. covering.
  - eapply fits_unit; [apply slice_ok; eassumption|]. cbn. eexists. split; [reflexivity|]. covering.
  - eapply fits_unit; [apply index_ok; eassumption|]. unfold bl_index. cbn [array_calls]. destruct (l !! i) as [a|] eqn:E.
    + pose proof (lookup_lt_Some _ _ _ E). replace (i <? length l) with true by lia. eexists. split; [reflexivity|]. covering.
    + apply lookup_ge_None in E. replace (i <? length l) with false by lia. split; reflexivity.
  - eapply fits_plain; [apply assign_ok; eassumption|]. unfold bl_assign. cbn [array_calls]. destruct (l !! i) as [a|] eqn:E.
    + pose proof (lookup_lt_Some _ _ _ E). replace (i <? length l) with true by lia. 
      assert (LL : length (take i l ++ v :: drop (S i) l) = length l).
      { rewrite app_length, take_length. cbn [length]. rewrite drop_length. lia. }
      eexists. rewrite LL. split; [reflexivity|]. unfold covers. rewrite LL. covering.
    + apply lookup_ge_None in E. replace (i <? length l) with false by lia. split; reflexivity.
  - eapply fits_plain; [apply clear_ok; eassumption|]. cbn. eexists. split; [reflexivity|]. covering.
Qed.
(** A removal of an element that is not the last one. *)
Definition inner_remove (p : nat * array_op) : Prop := match p with (len, IRemove i) => i + 1 < len | _ => False end.
Lemma array_calls_ok o k len op call len' : o < k -> len <= cap -> array_calls cap o len op = Some (call, len') ->
  BorrowSpec.valid_call cap k call /\ (BorrowSpec.stale call <-> inner_remove (len, op)).
Proof.
  intros Ho Hl E. destruct op; cbn [array_calls] in E;
    repeat match type of E with context [if ?b then _ else _] => let F := fresh "F" in destruct b eqn:F end; try discriminate E;
    injection E as <- <-; cbn; (split; [lia|]); try tauto; lia.
Qed.
Notation Holding := (fun r : nat * inline A => placed L (fst r) /\ exists l, IHolds e L (snd r) l).
Definition split_ok (c : array_cmd A) : Prop := match c with ISplit _ _ b2 => placed L b2 | _ => True end.
Definition aprogram_ok (k : nat) (x : option (list BorrowModel.call * list (nat * array_op))) : Prop :=
  match x with
  | Some (calls, ps) => Forall (BorrowSpec.valid_call cap k) calls /\ (Exists BorrowSpec.stale calls <-> Exists inner_remove ps)
  | None => False
  end.
Lemma array_program_ok cs : forall rs g k, Forall Holding rs -> Forall split_ok cs -> length rs + array_splits cs <= k ->
  aprogram_ok k (array_program cs rs g).
Proof.
  assert (ONE : forall k c p x, BorrowSpec.valid_call cap k c -> (BorrowSpec.stale c <-> inner_remove p) -> aprogram_ok k x ->
    aprogram_ok k (option_map (fun y => ([c] ++ fst y, [p] ++ snd y)) x)).
  { intros k c p [[l ps]|] Hv Hs; [|auto]. intros [H1 H2]. cbn. split; [constructor; assumption|]. rewrite !Exists_cons. tauto. }
  assert (NON : forall k c x, BorrowSpec.valid_call cap k c -> ~ BorrowSpec.stale c -> aprogram_ok k x ->
    aprogram_ok k (option_map (fun y => ([c] ++ fst y, [] ++ snd y)) x)).
  { intros k c [[l ps]|] Hv Hs; [|auto]. intros [H1 H2]. cbn. split; [constructor; assumption|]. rewrite Exists_cons. tauto. }
  induction cs as [|c cs IH]; intros rs g k HR HO Hk; [split; [constructor|]; split; intros H; inversion H|].
  inversion HO as [|? ? Hc HO']; subst. destruct c as [o op v|o i b2]; cbn [array_program array_splits] in *.
  - destruct (rs !! o) as [[b c]|] eqn:Er; [|apply IH; assumption].
    pose proof (proj1 (Forall_lookup _ rs) HR _ _ Er) as [Hb (l & Hl)]. cbn [fst snd] in *. pose proof (lookup_lt_Some _ _ _ Er) as Ho.
    rewrite (len_ok e L WF HOST b c (length l) _ (length l)) by (assumption || apply Hl).
    pose proof (iholds_length e L c l Hl) as Hlen.
    pose proof (array_code_fits b c l g o op v Hb Hl) as HF. destruct (array_code b op v c g) as [c' g' []|c' g'| | |]; cbn [outcome_fits] in HF; try contradiction.
    + destruct HF as (l' & call & Hl' & EC & _). rewrite EC. rewrite (len_ok e L WF HOST b c' (length l') _ (length l')) by (assumption || apply Hl').
      rewrite Nat.eqb_refl. destruct (array_calls_ok o k (length l) op call (length l') ltac:(lia) Hlen EC) as [Hv Hs].
      apply ONE; [exact Hv|exact Hs|]. apply IH; [apply Forall_insert; [exact HR|split; [exact Hb|eexists; exact Hl']]|assumption|rewrite insert_length; lia].
    + destruct HF as [Hl' EC]. rewrite EC. apply ONE; [cbn; lia| |].
      * split; [intros []|]. destruct op; try (intros Hx; exact Hx). cbn [array_calls] in EC. destruct (length l <=? i); discriminate EC.
      * apply IH; [apply Forall_insert; [exact HR|split; [exact Hb|eexists; exact Hl']]|assumption|rewrite insert_length; lia].
  - destruct (rs !! o) as [[b c]|] eqn:Er; [|apply IH; try assumption; lia].
    pose proof (proj1 (Forall_lookup _ rs) HR _ _ Er) as [Hb (l & Hl)]. cbn [fst snd] in *. pose proof (lookup_lt_Some _ _ _ Er) as Ho.
    rewrite (len_ok e L WF HOST b c (length l) _ (length l)) by (assumption || apply Hl).
    pose proof (iholds_length e L c l Hl) as Hlen.
    pose proof (split_off_ok e L WF HOST b b2 c l g i Hb Hc Hl) as Ha. unfold bl_split_off in Ha. destruct (i <=? length l) eqn:Ei; cbn [agrees] in Ha.
    + destruct Ha as (c' & g' & x & -> & Hc' & Hx & _). destruct x as [c2 []]. apply NON; [cbn; lia|intros []|].
      apply IH; [apply Forall_app; split; [apply Forall_insert; [exact HR|split; [exact Hb|eexists; exact Hc']]|repeat constructor; [exact Hc|eexists; exact Hx]]
        |assumption|rewrite app_length, insert_length; cbn; lia].
    + destruct Ha as (c' & g' & x & -> & Hc' & _). apply NON; [cbn; lia|intros []|].
      apply IH; [apply Forall_insert; [exact HR|split; [exact Hb|eexists; exact Hc']]|assumption|rewrite insert_length; lia].
Qed.
End link.
