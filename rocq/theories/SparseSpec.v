(** * Specification of the sparse array: an array of [N] optional values.

    This file does not mention any model of the code. *)
From Verif Require Import Machine Spec.
From Coq Require Import Sorting.Sorted.

Section cells.
Context {A : Type}.
Implicit Types (s : list (option A)) (i : nat) (v : A).

(** The occupied cells in increasing order of their indices. *)
Fixpoint entries_from i s : list (nat * A) :=
  match s with
  | [] => []
  | None :: s' => entries_from (S i) s'
  | Some a :: s' => (i, a) :: entries_from (S i) s'
  end.
Definition entries s : list (nat * A) := entries_from 0 s.
Definition occupied s : list nat := map fst (entries s).
Definition values s : list A := map snd (entries s).
Definition no_cells (N : nat) : list (option A) := replicate N None.
(** Replacing the values of the occupied cells, in order, by [vs]; cells left over become empty. *)
Fixpoint refill s (vs : list A) : list (option A) :=
  match s, vs with
  | [], _ => []
  | None :: s', _ => None :: refill s' vs
  | Some _ :: s', [] => None :: refill s' []
  | Some _ :: s', v :: vs' => Some v :: refill s' vs'
  end.

(** [s !! i] is [None] when [i] is not below the capacity, [Some None] when the cell is empty. *)
Definition ar_insert i v s : sres A (list (option A)) (option A) :=
  match s !! i with
  | Some old => SRet (<[i := Some v]> s) old []
  | None => SPanic s [v] []
  end.
Definition ar_remove i s : sres A (list (option A)) (option A) :=
  match s !! i with
  | Some old => SRet (<[i := None]> s) old []
  | None => SPanic s [] []
  end.
Definition ar_pop s : sres A (list (option A)) (option A) :=
  match entries s with
  | [] => SRet s None []
  | (i, a) :: _ => SRet (<[i := None]> s) (Some a) []
  end.
Definition ar_get i s : sres A (list (option A)) (option A) := SRet s (mjoin (s !! i)) [].
Definition ar_replace i v s : sres A (list (option A)) (option A) :=
  match s !! i with
  | Some (Some a) => SRet (<[i := Some v]> s) (Some a) []
  | _ => SRet s None [v]
  end.
Definition ar_index i s : sres A (list (option A)) A :=
  match s !! i with Some (Some a) => SRet s a [] | _ => SPanic s [] [] end.
Definition ar_assign i v s : sres A (list (option A)) unit :=
  match s !! i with
  | Some (Some a) => SRet (<[i := Some v]> s) tt [a]
  | _ => SPanic s [v] []
  end.
Definition ar_unit (N : nat) i v : sres A unit (list (option A)) :=
  if i <? N then SRet tt (<[i := Some v]> (no_cells N)) [] else SPanic tt [v] [].
Definition ar_pair (N : nat) i1 v1 i2 v2 : sres A unit (list (option A)) :=
  if i1 <? N then
    if i2 <? N then SRet tt (<[i2 := Some v2]> (<[i1 := Some v1]> (no_cells N))) (if i1 =? i2 then [v1] else [])
    else SPanic tt [v2; v1] []
  else SPanic tt [v1; v2] [].
(** Items of an iterator put at positions [i], [i+1], ... *)
Fixpoint ar_fill (it : list (ev (option A))) i s : sres A (list (option A)) unit :=
  match it with
  | [] => SRet s tt []
  | Boom :: _ => SPanic s [] []
  | Yield None :: it' => ar_fill it' (S i) s
  | Yield (Some v) :: it' =>
      if i <? length s then ar_fill it' (S i) (<[i := Some v]> s) else SPanic s [v] []
  end.
Definition ar_from_iter (N : nat) (it : list (ev (option A))) : sres A unit (list (option A)) :=
  match ar_fill it 0 (no_cells N) with
  | SRet s _ d => SRet tt s d
  | SPanic s d k => SPanic tt (d ++ values s) k
  end.
Definition ar_clone (cl : nat -> A -> option A) s : sres A (list (option A)) (list (option A)) :=
  if length (clones cl 0 (values s)) =? length (values s)
  then SRet s (refill s (clones cl 0 (values s))) []
  else SPanic s (clones cl 0 (values s)) [].
Definition ar_assign_all (new : nat -> A) s : sres A (list (option A)) unit :=
  SRet (refill s (map new (seq 0 (length (values s))))) tt (values s).
(** The first [n] cells are handed out, whether occupied or not, and are empty afterwards; calls beyond the
    last cell answer [None]. *)
Definition ar_option_drain n s : sres A (list (option A)) (list (option (option A))) :=
  SRet (no_cells (length (take n s)) ++ drop n s)
       (map Some (take n s) ++ replicate (n - length s) None) [].

(** ** What [entries] means. *)
Lemma entries_from_in s : forall k i a, In (i, a) (entries_from k s) <-> k <= i /\ s !! (i - k) = Some (Some a).
Proof.
  induction s as [|[x|] s IH]; intros k i a; cbn [entries_from].
  - cbn. split; [tauto|]. intros [_ H]. discriminate.
  - cbn [In]. rewrite IH. split.
    + intros [[= -> ->]|[H1 H2]].
      * split; [lia|]. rewrite Nat.sub_diag. reflexivity.
      * split; [lia|]. replace (i - k) with (S (i - S k)) by lia. exact H2.
    + intros [H1 H2]. destruct (i - k) as [|j] eqn:E.
      * left. injection H2 as ->. f_equal. lia.
      * right. split; [lia|]. replace (i - S k) with j by lia. exact H2.
  - rewrite IH. split.
    + intros [H1 H2]. split; [lia|]. replace (i - k) with (S (i - S k)) by lia. exact H2.
    + intros [H1 H2]. destruct (i - k) as [|j] eqn:E; [discriminate|].
      split; [lia|]. replace (i - S k) with j by lia. exact H2.
Qed.
Lemma entries_in s i a : In (i, a) (entries s) <-> s !! i = Some (Some a).
Proof. unfold entries. rewrite entries_from_in, Nat.sub_0_r. split; [tauto|]. split; [lia|tauto]. Qed.
Lemma entries_from_sorted s : forall k, StronglySorted lt (map fst (entries_from k s)) /\
  Forall (fun i => k <= i < k + length s) (map fst (entries_from k s)).
Proof.
  induction s as [|[x|] s IH]; intros k; cbn [entries_from map fst length].
  - split; constructor.
  - destruct (IH (S k)) as [H1 H2]. split.
    + constructor; [exact H1|]. eapply List.Forall_impl; [|exact H2]. cbn. lia.
    + constructor; [lia|]. eapply List.Forall_impl; [|exact H2]. cbn. lia.
  - destruct (IH (S k)) as [H1 H2]. split; [exact H1|]. eapply List.Forall_impl; [|exact H2]. cbn. lia.
Qed.
Lemma entries_sorted s : StronglySorted lt (occupied s) /\ Forall (fun i => i < length s) (occupied s).
Proof.
  destruct (entries_from_sorted s 0) as [H1 H2]. split; [exact H1|].
  eapply List.Forall_impl; [|exact H2]. cbn. lia.
Qed.
End cells.
