(** * The end of a program: every container goes out of scope. *)
From Verif Require Import Machine Spec Prims Program.

Section ending.
Context {A op0 op1 opn op2 res st : Type} (S : skit A op0 op1 opn op2 res st).
Notation prog := (list (cmd op0 op1 opn op2)).
(** How many names a program introduces. *)
Definition names (p : prog) : nat := length (List.filter (fun c => match c with Make _ | Spawn _ _ => true | _ => false end) p).
(** [p], and then each container that is left is dropped. *)
Definition to_the_end (p : prog) : prog := p ++ map Kill (seq 0 (names p)).

Lemma sstep_length c s : let '(s', _, _, _) := sstep S c s in
  length s' = length s + match c with Make _ | Spawn _ _ => 1 | _ => 0 end.
Proof.
  destruct c as [o|i o|i o|i j o|i]; cbn [sstep].
  - destruct (spec0 S o); rewrite app_length; reflexivity.
  - destruct (s !! i) as [[x|]|]; [destruct (spec1 S o x)|..]; rewrite ?insert_length; lia.
  - destruct (s !! i) as [[x|]|]; [destruct (specn S o x)|..]; rewrite app_length, ?insert_length; reflexivity.
  - destruct (i =? j); [lia|]. destruct (s !! i) as [[x|]|]; try lia. destruct (s !! j) as [[y|]|]; try lia.
    destruct (spec2 S o (x, y)) as [[]|[]]; rewrite !insert_length; lia.
  - destruct (s !! i) as [[x|]|]; rewrite ?insert_length; lia.
Qed.
Lemma srun_length p : forall s, length (s_store (srun S p s)) = length s + names p.
Proof.
  induction p as [|c p IH]; intros s; cbn [srun]; [cbn; lia|].
  pose proof (sstep_length c s) as P. destruct (sstep S c s) as [[[s' d] k] ev]. cbn [s_store].
  rewrite IH, P. unfold names. cbn [List.filter]. destruct c; cbn [length]; lia.
Qed.
Lemma srun_app p q : forall s, let o := srun S p s in let o2 := srun S q (s_store o) in
  srun S (p ++ q) s = SOut (s_store o2) (s_dropped o ++ s_dropped o2) (s_leaked o ++ s_leaked o2)
    (s_events o ++ s_events o2) (s_given o ++ s_given o2).
Proof.
  induction p as [|c p IH]; intros s; cbn [srun app].
  - cbn. destruct (srun S q s); reflexivity.
  - destruct (sstep S c s) as [[[s' d] k] ev]. rewrite IH. cbn. rewrite <- !app_assoc. reflexivity.
Qed.
Lemma legal_app p q : forall s, all_legal S p s -> all_legal S q (s_store (srun S p s)) -> all_legal S (p ++ q) s.
Proof.
  induction p as [|c p IH]; intros s H1 H2; cbn [srun app all_legal] in *; [exact H2|].
  destruct H1 as [Hc H1]. split; [exact Hc|]. destruct (sstep S c s) as [[[s' d] k] ev]. apply IH; assumption.
Qed.
Lemma kills n : forall i s, length s = i + n -> Forall (eq None) (take i s) ->
  all_legal S (map Kill (seq i n)) s /\
  Forall (eq None) (s_store (srun S (map Kill (seq i n)) s)) /\ s_given (srun S (map Kill (seq i n)) s) = [] /\
  returned S (s_events (srun S (map Kill (seq i n)) s)) = [] /\ s_leaked (srun S (map Kill (seq i n)) s) = [].
Proof.
  induction n as [|n IH]; intros i s Hl Hn; cbn [seq map srun all_legal].
  - rewrite take_ge in Hn by lia. cbn. auto.
  - cbn [sstep legal]. assert (exists x, s !! i = Some x) as [x Hx] by (apply lookup_lt_is_Some_2; lia). rewrite Hx.
    destruct x as [x|].
    + destruct (IH (Datatypes.S i) (<[i := None]> s)) as (L & F & G & R & K).
      * rewrite insert_length. lia.
      * rewrite (take_S_r (<[i:=None]> s) i None) by (apply list_lookup_insert; lia). rewrite take_insert by lia.
        apply Forall_app. auto.
      * cbn [s_store s_given s_events s_leaked given]. rewrite G, K. repeat split; auto.
    + destruct (IH (Datatypes.S i) s) as (L & F & G & R & K); [lia| |].
      * rewrite (take_S_r s i None) by exact Hx. apply Forall_app. auto.
      * cbn [s_store s_given s_events s_leaked given]. rewrite G, K. repeat split; auto.
Qed.
Lemma live_none s : Forall (eq None) s -> live S s = [].
Proof. induction 1 as [|x s <- _ IH]; [reflexivity|exact IH]. Qed.
End ending.

Section theorem.
Context {A op0 op1 opn op2 res obj st : Type}.
Context (K : kit A op0 op1 opn op2 res obj) (S : skit A op0 op1 opn op2 res st) (H : obj -> st -> Prop).
Lemma orel_none X Y : Forall2 (orel H) X Y -> Forall (eq None) Y -> Forall (eq None) X.
Proof.
  induction 1 as [|x y X Y Hxy HF IH]; intros HN; [constructor|]. apply Forall_cons_1 in HN as [<- HN].
  constructor; [|auto]. destruct x; [contradiction|reflexivity].
Qed.
(** When the program is over and all containers are gone, every value handed over was handed back, dropped or leaked, once;
    the last only by the commands of [p] itself. *)
Theorem run_to_the_end p : refines K S H -> balanced S -> all_legal S p [] ->
  exists X g evs, run K (to_the_end p) [] log0 = Some (X, g, evs) /\ Forall (eq None) X /\
    Permutation (s_given (srun S p [])) (returned S evs ++ dropped g ++ leaked g) /\
    Permutation (leaked g) (s_leaked (srun S p [])).
Proof.
  intros R B HL.
  destruct (kills S (names p) 0 (s_store (srun S p []))) as (KL & KF & KG & KR & KK).
  { rewrite srun_length. reflexivity. } { constructor. }
  assert (HL2 : all_legal S (to_the_end p) []) by (apply legal_app; assumption).
  destruct (run_sim K S H R (to_the_end p) [] [] log0 (Forall2_nil _) HL2) as (X & g & k & E & HX & D & L & P).
  pose proof (srun_balanced S B (to_the_end p) [] HL2) as C. cbn zeta in C.
  unfold to_the_end in *. rewrite (srun_app S) in *. cbn [s_store s_dropped s_leaked s_events s_given] in *.
  rewrite KG, KK, !app_nil_r in *. rewrite (live_none S _ KF) in C. cbn [app live flat_map] in C.
  exists X, g, (s_events (srun S p []) ++ s_events (srun S (map Kill (seq 0 (names p))) (s_store (srun S p [])))).
  split; [exact E|]. split; [eapply orel_none; eassumption|]. cbn in D, L. rewrite L. split; [|symmetry; exact P].
  rewrite <- P, D. exact C.
Qed.
End theorem.
