(** * How many elements the operations of [InlineArray] write. *)
From Verif Require Import Machine Spec Prims IterSpec InlineModel InlineSpec InlineProofs InlineProofs2 InlineProofs3 BulkCost.

Ltac ipost WF HOST := repeat first
  [ istep WF HOST
  | match goal with
    | |- post _ ((if ?b then ?x else ?y) _ _) => head_if b x y
    | |- post _ (ia_set_len ?e ?L ?b ?n ?o ?g) => access WF HOST constr:(ia_set_len e L b n) o g
    | |- post _ (ret ?r ?o ?g) => change (ret r o g) with (Ret o g r)
    end ]; try lia; cbn [post writes log_write log_drop log_leak]; try lia.
Section inline.
Context {A : Type} (e : env A) (L : layout).
Hypothesis WF : wf_layout e L.
Hypothesis HOST : host_ok e L.
Notation cap := (capacity e L).
Implicit Types (c : inline A) (g : log A) (v : A) (l : list A) (b i n k : nat).
Notation wrote n := (fun _ g' _ => writes g' = n).
Lemma ia_push_cost b c l g v : placed L b -> IHolds e L c l -> length l < cap -> post (wrote (writes g + 1)) (ia_push e L b v c g).
Proof. intros Hb [Hl H] Hc. pose proof (cap_word e L WF). unfold ia_push. ipost WF HOST. Qed.
Lemma ia_insert_cost b c l g i v : placed L b -> IHolds e L c l -> length l < cap -> i <= length l ->
  post (wrote (writes g + (length l - i + 1))) (ia_insert e L b i v c g).
Proof. intros Hb [Hl H] Hc Hi. pose proof (cap_word e L WF). unfold ia_insert. ipost WF HOST. Qed.
Lemma ia_pop_cost b c l g : placed L b -> IHolds e L c l -> post (wrote (writes g)) (ia_pop e L b c g).
Proof.
  intros Hb [Hl H]. pose proof (cap_word e L WF). unfold ia_pop.
  destruct (l !! (length l - 1)) as [a|] eqn:Ea.
  - pose proof (lookup_lt_Some _ _ _ Ea). ipost WF HOST.
  - apply lookup_ge_None in Ea. ipost WF HOST.
Qed.
Lemma ia_remove_cost b c l g i : placed L b -> IHolds e L c l -> i < length l -> post (wrote (writes g + (length l - 1 - i))) (ia_remove e L b i c g).
Proof.
  intros Hb [Hl H] Hi. pose proof (cap_word e L WF). unfold ia_remove.
  destruct (l !! i) as [a|] eqn:Ea; [|apply lookup_ge_None in Ea; lia]. ipost WF HOST.
Qed.
Lemma elems_put_writes b vs : forall to c g c' g' u, elems_put L b to vs c g = Ret c' g' u -> writes g' = writes g + length vs.
Proof.
  induction vs as [|a vs IH]; intros to c g c' g' u E; cbn [elems_put length] in *; [injection E as <- <- <-; lia|].
  unfold elem_write, ptr_add, bind, ret, undefined in E.
  destruct to; repeat match type of E with context [if ?x then _ else _] => destruct x; try discriminate E end.
  all: apply IH in E; cbn in E; lia.
Qed.
Lemma ia_split_off_cost b b2 c l g i : placed L b -> placed L b2 -> IHolds e L c l -> i <= length l ->
  post (wrote (writes g + (length l - i))) (ia_split_off e L b b2 i c g).
Proof.
  intros Hb Hb2 [Hl H] Hi. pose proof (cap_word e L WF) as Hw. unfold ia_split_off.
  istep WF HOST. rewrite if_false by lia.
  destruct (new_within e L WF HOST b2 c g Hb2) as (o & En & [_ Ho]). erewrite bind_Ret by exact En. clear En.
  cbn [length] in Ho.
  destruct (i <? length l) eqn:Ei.
  + edestruct (elems_take_ok _ _ WF HOST b i (drop i l) c) as (c1 & E1 & H1);
      [assumption|exact H|lia|lookups;lia|intros; rewrite lookup_drop; reflexivity|lookups; lia|].
    rewrite drop_length in E1, H1.
    edestruct (data_put_ok _ _ WF HOST b2 (drop i l) o) as (o1 & g1 & E2 & H2 & Ed & El);
      [assumption|exact Ho|lookups; lia|reflexivity|].
    edestruct (set_len_ok _ _ WF HOST b2 (length l - i) o1) as (o2 & E3 & H3); [assumption|exact H2|].
    edestruct (set_len_ok _ _ WF HOST b i c1) as (c2 & E4 & H4); [assumption|exact H1|].
    eapply post_Ret.
    { apply with_local_Ret. istep WF HOST. rewrite if_true by lia. do 4 istep WF HOST.
      unfold elems_transfer. istep WF HOST. erewrite bind_Ret by (apply on_snd_Ret; exact E1).
      erewrite bind_Ret by (apply on_fst_Ret; exact E2). do 2 istep WF HOST.
      erewrite bind_Ret by (apply on_fst_Ret; exact E3). apply on_snd_Ret. exact E4. }
    cbn [post]. apply elems_put_writes in E2. rewrite drop_length in E2. exact E2.
  + eapply post_Ret.
    { apply with_local_Ret. istep WF HOST. rewrite if_false by lia. reflexivity. }
    cbn. lia.
Qed.
End inline.
