(** * [InlineArray]: operations on two arrays, and conversion to [Chunk]. *)
From Verif Require Import Machine Spec Prims ChunkModel ChunkProofs InlineModel InlineSpec InlineProofs InlineProofs2.

Section ops2.
Context {A : Type} (e : env A) (L : layout).
Hypothesis WF : wf_layout e L.
Hypothesis HOST : host_ok e L.
Hypothesis Hcalm : calm e.
Notation cap := (capacity e L).
Notation s := (size_a L).
Notation slot i := (At (doff L + i * s)).
Notation pdata := (if cap =? 0 then Dangling else At (doff L)).
Implicit Types (c : inline A) (f : mem A) (g : log A) (v : A) (l : list A) (b i n k : nat).
Notation agr := (agrees (IHolds e L) eq).
Notation agr2 := (agrees (both (IHolds e L) (IHolds e L)) eq).
(** The new array as seen from code working on another one. *)
Lemma new_within b {O} (o : O) g : placed L b ->
  exists c, (match ia_new e L b tt g with
             | Ret _ g' out => Ret o g' out | Panic _ g' => Panic o g'
             | UB u => UB u | Hang => Hang | Abort => Abort end) = Ret o g c /\ IHolds e L c [].
Proof.
  intros Hb. destruct (new_ok e L WF HOST b tt g Hb) as (c & E & H). exists c. rewrite E. auto.
Qed.
Lemma split_off_ok b b2 c l g i : placed L b -> placed L b2 -> IHolds e L c l ->
  agrees (IHolds e L) (IMade e L) g (ia_split_off e L b b2 i c g) (bl_split_off i l).
Proof.
  intros Hb Hb2 [Hl H]. pose proof (cap_word e L WF) as Hw. unfold ia_split_off, bl_split_off.
  istep WF HOST. head_if (length l <? i) (panic (A:=A) (O:=inline A) (R:=inline A * unit)) (panic (A:=A) (O:=inline A) (R:=inline A * unit)).
  - rewrite if_false by lia. ipanic.
  - rewrite (if_true (i <=? length l)) by lia.
    destruct (new_within b2 c g Hb2) as (o & En & [_ Ho]). erewrite bind_Ret by exact En. clear En.
    cbn [length] in Ho.
    destruct (i <? length l) eqn:Ei.
    + edestruct (elems_take_ok _ _ WF HOST b i (drop i l) c) as (c1 & E1 & H1);
        [assumption|exact H|lia|lookups;lia|intros; rewrite lookup_drop; reflexivity|lookups; lia|].
      rewrite drop_length in E1, H1.
      edestruct (data_put_ok _ _ WF HOST b2 (drop i l) o) as (o1 & g1 & E2 & H2 & Ed & El);
        [assumption|exact Ho|lookups; lia|reflexivity|].
      edestruct (set_len_ok _ _ WF HOST b2 (length l - i) o1) as (o2 & E3 & H3); [assumption|exact H2|].
      edestruct (set_len_ok _ _ WF HOST b i c1) as (c2 & E4 & H4); [assumption|exact H1|].
      eapply agrees_Ret.
      { apply with_local_Ret. istep WF HOST. rewrite if_true by lia. do 4 istep WF HOST.
        unfold elems_transfer. istep WF HOST. erewrite bind_Ret by (apply on_snd_Ret; exact E1).
        erewrite bind_Ret by (apply on_fst_Ret; exact E2). do 2 istep WF HOST.
        erewrite bind_Ret by (apply on_fst_Ret; exact E3). apply on_snd_Ret. exact E4. }
      eexists _, _, _. split; [reflexivity|]. split; [iholds|]. split.
      * unfold IMade. cbn [fst]. eapply IHolds_intro; [exact H3|lookups; lia| |lookups; lia|lookups; lia].
        imem.
      * rewrite Ed, El, app_nil_r. auto.
    + eapply agrees_Ret.
      { apply with_local_Ret. istep WF HOST. rewrite if_false by lia. reflexivity. }
      eexists _, _, _. split; [reflexivity|]. split; [iholds|]. split.
      * unfold IMade. cbn [fst]. eapply IHolds_intro; [exact Ho|lookups; lia| |lookups; lia|lookups; lia].
        imem.
      * rewrite app_nil_r. auto.
Qed.

(** Cloning. *)
Lemma clone_loop_ok b b2 cl c l : placed L b -> placed L b2 -> IHolds e L c l ->
  forall k i o vs g, k + i = length l -> length vs = i ->
  IRep e L o 0 (fun j => vs !! j) (length vs) ->
  let ws := clones cl i (drop i l) in
  exists o' g', IRep e L o' 0 (fun j => (vs ++ ws) !! j) (length (vs ++ ws)) /\
    dropped g' = dropped g /\ leaked g' = leaked g /\
    ia_clone_loop e L b b2 cl i k (o, c) g =
      if length ws =? k then Ret (o', c) g' tt else Panic (o', c) g'.
Proof.
  intros Hb Hb2 Hc. pose proof (iholds_length e L c l Hc) as Hl.
  induction k as [|k IH]; intros i o vs g Hk Hvs Ho; cbn [ia_clone_loop].
  - rewrite drop_ge by lia. cbn. exists o, g. rewrite app_nil_r. auto.
  - destruct (l !! i) as [a|] eqn:Ea; [|apply lookup_ge_None in Ea; lia].
    rewrite (drop_S _ _ _ Ea). cbn [clones].
    erewrite bind_Ret by (apply on_snd_Ret; apply (deref_ok e L WF HOST); eassumption). rewrite Ea.
    destruct (cl i a) as [a'|] eqn:Ecl.
    + edestruct (elem_write_ok _ _ WF HOST b2 i a' o) as (o1 & E1 & H1);
        [assumption|exact Ho|lia|apply lookup_none; lia|].
      erewrite bind_Ret.
      2:{ apply on_fst_Ret. unfold ia_write_at. istep WF HOST. exact E1. }
      destruct (IH (S i) o1 (vs ++ [a']) (log_write 1 g)) as (o' & g' & H' & Ed & El & E); [lia|rewrite app_length; cbn; lia| |].
      { eapply IRep_count; [|eapply IRep_ext; [|exact H1]]; [rewrite app_length; cbn; lia|]. imem. }
      exists o', g'. rewrite <- app_assoc in H'. cbn [app] in H'. split; [exact H'|]. split; [exact Ed|].
      split; [exact El|]. cbn [length]. rewrite E. reflexivity.
    + exists o, g. cbn [length Nat.eqb]. rewrite app_nil_r. auto.
Qed.
Lemma clone_ok b b2 cl c l g : placed L b -> placed L b2 -> IHolds e L c l ->
  agrees (IHolds e L) (IMade e L) g (ia_clone e L b b2 cl c g) (bl_clone_leaking cl l).
Proof.
  intros Hb Hb2 Hc. pose proof (iholds_length e L c l Hc) as Hl. unfold ia_clone, bl_clone_leaking.
  destruct (new_within b2 c g Hb2) as (o & En & [_ Ho]). erewrite bind_Ret by exact En. clear En.
  destruct (clone_loop_ok b b2 cl c l Hb Hb2 Hc (length l) 0 o [] g ltac:(lia) eq_refl Ho) as (o' & g' & H' & Ed & El & E).
  change (drop 0 l) with l in *. cbn [app] in H', E. destruct (length (clones cl 0 l) =? length l) eqn:Elen; rewrite ?Elen in E.
  - edestruct (set_len_ok _ _ WF HOST b2 (length l) o') as (o2 & E2 & H2); [assumption|exact H'|].
    pose proof (proj2 Hc) as Hc'.
    eapply agrees_Ret.
    { apply with_local_Ret. istep WF HOST. erewrite bind_Ret by exact E. istep WF HOST. apply on_fst_Ret. exact E2. }
    eexists _, _, _. split; [reflexivity|]. split; [exact Hc|]. split.
    + unfold IMade. cbn [fst]. eapply IHolds_intro; [exact H2|lia|reflexivity|lia|lia].
    + rewrite app_nil_r. auto.
  - pose proof (proj2 Hc) as Hc'. pose proof (clones_length cl l 0) as Hcl.
    destruct (destroy_unset e L WF HOST b2 o' (clones cl 0 l) g' Hb2 ltac:(lia) H') as (o2 & E2).
    erewrite with_local_Panic; [|istep WF HOST; apply bind_Panic; exact E|exact E2].
    eexists _, _, _. split; [reflexivity|]. split; [exact Hc|]. cbn. rewrite Ed, El, app_nil_r. auto.
Qed.
Lemma from_iter_ok b it (u : unit) g : placed L b ->
  agrees (fun _ _ => True) (IMade e L) g (ia_from_iter e L b it u g) (bl_from_iter cap it).
Proof.
  intros Hb. unfold ia_from_iter. destruct (new_ok e L WF HOST b u g Hb) as (c & E & H).
  erewrite bind_Ret by exact E. clear E.
  pose proof (extend_ok e L WF HOST Hcalm b it Hb c [] g H) as P.
  eapply (on_fst_agrees _ (fun (_ : unit) (_ : unit) => True) _ _ _ u tt) in P; [|exact I].
  eapply (with_local_agrees _ _ _ (IMade e L) c (ia_destroy e L b)) in P; [|intros; assumption|].
  2:{ intros o1 l g0 H1. apply (destroy_ok e L WF HOST Hcalm); assumption. }
  unfold bl_from_iter. destruct (bl_extend cap it []) as [l r d|l d k]; exact P.
Qed.

Lemma both_deref {R} b b2 (F : list A -> list A -> R) c1 c2 l1 l2 g :
  placed L b -> placed L b2 -> IHolds e L c1 l1 -> IHolds e L c2 l2 ->
  agr2 g ((let! l1 := on_fst (ia_deref e L b) in let! l2 := on_snd (ia_deref e L b2) in ret (F l1 l2)) (c1, c2) g)
    (SRet (l1, l2) (F l1 l2) []).
Proof.
  intros Hb Hb2 H1 H2.
  erewrite bind_Ret by (apply on_fst_Ret; apply (deref_ok e L WF HOST); eassumption).
  erewrite bind_Ret by (apply on_snd_Ret; apply (deref_ok e L WF HOST); eassumption).
  eexists _, _, _. split; [reflexivity|]. split; [split; assumption|]. rewrite app_nil_r. auto.
Qed.

(** Conversion to a chunk of capacity [N]. *)
Section convert.
Context (N : nat).
Hypothesis HN : N + N < word e.
Lemma slots_put_ok vs : forall i (ch : chunk A) g, i + length vs <= N ->
  (forall p, i <= p < i + length vs -> cdata ch p = None) ->
  exists ch' g', slots_put N i vs ch g = Ret ch' g' tt /\ left ch' = left ch /\ right ch' = right ch /\
    (forall p, cdata ch' p = mput (cdata ch) i vs p) /\ dropped g' = dropped g /\ leaked g' = leaked g.
Proof.
  induction vs as [|a vs IH]; intros i ch g Hi Hf; cbn [slots_put length] in *.
  - exists ch, g. repeat (split; [reflexivity|]). split; [|auto]. intros p. unfold mput. cbn [length].
    rewrite if_false by lia. reflexivity.
  - erewrite bind_Ret by (apply slot_write_ok; [lia|apply Hf; lia]).
    destruct (IH (S i) (setm (upd (getm ch) i (Some a)) ch) (log_write 1 g)) as (ch' & g' & E & E1 & E2 & E3 & E4 & E5).
    { lia. } { intros p Hp. cbn. unfold upd. rewrite if_false by lia. apply Hf. lia. }
    exists ch', g'. split; [exact E|]. split; [exact E1|]. split; [exact E2|]. split; [|auto].
    intros p. rewrite E3. unfold mput. cbn [cdata setm getm chunk_mem length]. unfold upd.
    repeat split_if; try lia; try reflexivity.
    + rewrite lookup_cons_if, if_false by lia. f_equal. lia.
    + assert (p = i) as -> by lia. rewrite Nat.sub_diag. reflexivity.
Qed.
Lemma chunk_from_mut_ok b c l g : placed L b -> IHolds e L c l ->
  agrees (IHolds e L) (Holds N) g (chunk_from_mut e L b N c g) (bl_convert N l).
Proof.
  intros Hb Hc. pose proof (iholds_length e L c l Hc) as Hl. pose proof (proj2 Hc) as H.
  unfold chunk_from_mut, bl_convert.
  assert (E0 : (if cap <=? N then ret 0 else ia_len e L b) c g = Ret c g (if cap <=? N then 0 else length l)).
  { destruct (cap <=? N); [reflexivity|]. eapply (len_ok _ _ WF HOST); eassumption. }
  erewrite bind_Ret by exact E0. clear E0.
  destruct (length l <=? N) eqn:E.
  - erewrite bind_Ret by (apply assert_ok; destruct (cap <=? N) eqn:E1; cbn; lia).
    istep WF HOST.
    edestruct (data_take_ok _ _ WF HOST b l c) as (c1 & E1 & H1); [assumption|exact H|assumption|reflexivity|lia|].
    destruct (slots_put_ok l 0 (Chunk 0 (length l) mem0) g) as (ch & g1 & E2 & El & Er & Em & Ed & Ek); [lia|reflexivity|].
    edestruct (set_len_ok _ _ WF HOST b 0 c1) as (c2 & E3 & H3); [assumption|exact H1|].
    erewrite bind_Ret.
    2:{ apply with_local_Ret. istep WF HOST. erewrite bind_Ret by (apply on_fst_Ret; reflexivity). cbn [right].
        erewrite bind_Ret by (apply on_snd_Ret; exact E1). erewrite bind_Ret by (apply on_fst_Ret; exact E2).
        apply on_snd_Ret. exact E3. }
    eexists _, _, _. split; [reflexivity|]. split; [|split].
    + eapply IHolds_intro; [exact H3|reflexivity|imem|cbn; lia|cbn; lia].
    + cbn [fst]. split; [rewrite El, Er; reflexivity|]. split; [rewrite Er; cbn; lia|].
      intros p. rewrite Em, El. cbn [left cdata]. unfold mput. rewrite Nat.sub_0_r. cbn [Nat.leb andb plus].
      destruct (p <? length l) eqn:Ep; [reflexivity|]. rewrite lookup_none by lia. reflexivity.
    + rewrite Ed, Ek, app_nil_r. auto.
  - erewrite bind_Panic by (apply assert_fail; destruct (cap <=? N) eqn:E1; cbn; lia).
    eexists _, _, []. split; [reflexivity|]. split; [exact Hc|]. rewrite !app_nil_r. auto.
Qed.
Lemma chunk_from_ok b c l g (u : unit) : placed L b -> IHolds e L c l ->
  agrees (fun _ _ => True) (Holds N) g (chunk_from e L b N c u g) (bl_convert_owned N l).
Proof.
  intros Hb Hc. pose proof (chunk_from_mut_ok b c l g Hb Hc) as P. unfold chunk_from, bl_convert_owned.
  unfold bl_convert in P. destruct (length l <=? N); cbn in P.
  - destruct P as (c1 & g1 & ch & E & H1 & Hch & E1 & E2). rewrite E.
    destruct (destroy_ok e L WF HOST Hcalm b c1 [] g1 Hb H1) as (c2 & E3). rewrite E3, log_drop_nil.
    exists tt, g1, ch. auto.
  - destruct P as (c1 & g1 & k' & E & H1 & E1 & E2 & E3). rewrite E.
    destruct (destroy_ok e L WF HOST Hcalm b c1 l g1 Hb H1) as (c2 & E4). rewrite E4.
    exists tt, (log_drop l g1), k'. cbn. rewrite E1, app_nil_r. auto.
Qed.
End convert.
End ops2.
