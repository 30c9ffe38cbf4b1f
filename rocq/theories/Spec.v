(** * Specifications: what the containers are supposed to do, on plain lists.

    This file does not mention any model of the code.  A specification function takes the
    abstract contents of the container(s) and says whether the call returns or panics, with what
    contents, which value is returned, and which values are dropped meanwhile. *)
From Verif Require Import Machine.

(** [SRet s r d]     : the call returns [r], the contents are then [s], the values [d] were dropped,
                       in this order, nothing was leaked.
    [SPanic s d k]   : the call panics, leaving the contents [s]; [d] were dropped in this order,
                       [k] (in some order) were leaked. *)
Inductive sres (A S R : Type) :=
  | SRet (s : S) (r : R) (d : list A)
  | SPanic (s : S) (d k : list A).
Arguments SRet {A S R}. Arguments SPanic {A S R}.

(** An execution started with log [g] ended as specified.  [H] relates objects to abstract contents,
    [RR] returned values to specified ones.  In particular it ended: no UB, no hang, no abort. *)
Definition agrees {A O S R R'} (H : O -> S -> Prop) (RR : R -> R' -> Prop)
    (g : log A) (x : outcome A O R) (s : sres A S R') : Prop :=
  match s with
  | SRet s' r' d =>
      exists o' g' r, x = Ret o' g' r /\ H o' s' /\ RR r r' /\
        dropped g' = dropped g ++ d /\ leaked g' = leaked g
  | SPanic s' d k =>
      exists o' g' k', x = Panic o' g' /\ H o' s' /\
        dropped g' = dropped g ++ d /\ leaked g' = leaked g ++ k' /\ Permutation k k'
  end.

(** Two objects. *)
Definition both {O1 O2 S1 S2} (H1 : O1 -> S1 -> Prop) (H2 : O2 -> S2 -> Prop)
  (o : O1 * O2) (s : S1 * S2) : Prop := H1 (fst o) (fst s) /\ H2 (snd o) (snd s).

(** Items an iterator yields before it first ends, panics, or [n] items have been taken. *)
Fixpoint yields {A} (n : nat) (it : list (ev A)) : list A :=
  match n, it with
  | S n', Yield a :: it' => a :: yields n' it'
  | _, _ => []
  end.

(** Results of the successive [Clone::clone] calls on the elements of [l], up to the first panic.
    The [k]-th call on [a] gives [cl k a]. *)
Fixpoint clones {A} (cl : nat -> A -> option A) (k : nat) (l : list A) : list A :=
  match l with
  | [] => []
  | a :: l' => match cl k a with Some a' => a' :: clones cl (S k) l' | None => [] end
  end.

Section bounded_list.
Context {A : Type}.
Implicit Types (l : list A) (N i k : nat).

(** Values are appended at either end while there is room. *)
Definition bl_push_front N (v : A) l : sres A (list A) unit :=
  if length l <? N then SRet (v :: l) tt [] else SPanic l [v] [].
Definition bl_push_back N (v : A) l : sres A (list A) unit :=
  if length l <? N then SRet (l ++ [v]) tt [] else SPanic l [v] [].

(** Pop that panics on an empty list. *)
Definition bl_pop_front l : sres A (list A) A :=
  match l with [] => SPanic [] [] [] | a :: l' => SRet l' a [] end.
Definition bl_pop_back l : sres A (list A) A :=
  match l !! (length l - 1) with None => SPanic l [] [] | Some a => SRet (take (length l - 1) l) a [] end.
(** Pop that returns an option. *)
Definition bl_try_pop_front l : sres A (list A) (option A) :=
  match l with [] => SRet [] None [] | a :: l' => SRet l' (Some a) [] end.
Definition bl_try_pop_back l : sres A (list A) (option A) :=
  match l !! (length l - 1) with None => SRet l None [] | Some a => SRet (take (length l - 1) l) (Some a) [] end.

Definition bl_drop_left i l : sres A (list A) unit :=
  if i <=? length l then SRet (drop i l) tt (take i l) else SPanic l [] [].
Definition bl_drop_right i l : sres A (list A) unit :=
  if i <=? length l then SRet (take i l) tt (drop i l) else SPanic l [] [].
Definition bl_clear l : sres A (list A) unit := SRet [] tt l.

(** The second component of the result is the contents of the new container. *)
Definition bl_split_off i l : sres A (list A) (list A) :=
  if i <=? length l then SRet (take i l) (drop i l) [] else SPanic l [] [].
Definition bl_from_front k l : sres A (list A) (list A) :=
  if k <=? length l then SRet (drop k l) (take k l) [] else SPanic l [] [].
Definition bl_from_back k l : sres A (list A) (list A) :=
  if k <=? length l then SRet (take (length l - k) l) (drop (length l - k) l) [] else SPanic l [] [].
Definition bl_drain_all l : sres A (list A) (list A) := SRet [] l [].

(** Two containers: (self, other). *)
Definition bl_append N (p : list A * list A) : sres A (list A * list A) unit :=
  if length p.1 + length p.2 <=? N then SRet (p.1 ++ p.2, []) tt [] else SPanic p [] [].
Definition bl_drain_from_front N k (p : list A * list A) : sres A (list A * list A) unit :=
  if (length p.1 + k <=? N) && (k <=? length p.2)
  then SRet (p.1 ++ take k p.2, drop k p.2) tt [] else SPanic p [] [].
Definition bl_drain_from_back N k (p : list A * list A) : sres A (list A * list A) unit :=
  if (length p.1 + k <=? N) && (k <=? length p.2)
  then SRet (drop (length p.2 - k) p.2 ++ p.1, take (length p.2 - k) p.2) tt [] else SPanic p [] [].

Definition bl_set i (v : A) l : sres A (list A) A :=
  match l !! i with
  | Some a => SRet (take i l ++ v :: drop (S i) l) a []
  | None => SPanic l [v] []
  end.
Definition bl_index i l : sres A (list A) A :=
  match l !! i with Some a => SRet l a [] | None => SPanic l [] [] end.
Definition bl_get i l : sres A (list A) (option A) := SRet l (l !! i) [].
Definition bl_slice l : sres A (list A) (list A) := SRet l l [].
Definition bl_len l : sres A (list A) nat := SRet l (length l) [].

Definition bl_insert N i (v : A) l : sres A (list A) unit :=
  if (length l <? N) && (i <=? length l)
  then SRet (take i l ++ v :: drop i l) tt [] else SPanic l [v] [].
Definition bl_remove i l : sres A (list A) A :=
  match l !! i with
  | Some a => SRet (take i l ++ drop (S i) l) a []
  | None => SPanic l [] []
  end.
Definition bl_try_remove i l : sres A (list A) (option A) :=
  match l !! i with
  | Some a => SRet (take i l ++ drop (S i) l) (Some a) []
  | None => SRet l None []
  end.

(** Splicing in a sequence of known length. *)
Definition bl_insert_from N i (items : list A) l : sres A (list A) unit :=
  if (length l + length items <=? N) && (i <=? length l)
  then SRet (take i l ++ items ++ drop i l) tt [] else SPanic l [] [].
(** The same for an iterator that announces [n] items and then behaves as [it]: if it does not deliver
    [n] items, the container ends up empty; the old contents and the items delivered are leaked. *)
Definition bl_insert_from_any N i n (it : list (ev A)) l : sres A (list A) unit :=
  if (length l + n <=? N) && (i <=? length l) then
    if length (yields n it) =? n
    then SRet (take i l ++ yields n it ++ drop i l) tt []
    else SPanic [] [] (l ++ yields n it)
  else SPanic l [] [].

(** Assignment [x[i] = v]. *)
Definition bl_assign i (v : A) l : sres A (list A) unit :=
  match l !! i with
  | Some a => SRet (take i l ++ v :: drop (S i) l) tt [a]
  | None => SPanic l [v] []
  end.

(** Appending all items of an iterator; panics with the first item that does not fit. *)
Fixpoint bl_extend N (it : list (ev A)) l : sres A (list A) unit :=
  match it with
  | [] => SRet l tt []
  | Boom :: _ => SPanic l [] []
  | Yield a :: it' => if length l <? N then bl_extend N it' (l ++ [a]) else SPanic l [a] []
  end.

(** Splicing in as above, except that at the end the items are appended one by one. *)
Definition bl_insert_from_tail N i n (it : list (ev A)) l : sres A (list A) unit :=
  if (length l + n <=? N) && (i =? length l) then bl_extend N it l
  else bl_insert_from_any N i n it l.

(** Constructors: no container before; on panic what has been collected is dropped. *)
Definition bl_from_iter N (it : list (ev A)) : sres A unit (list A) :=
  match bl_extend N it [] with
  | SRet l _ d => SRet tt l d
  | SPanic l d k => SPanic tt (d ++ l) k
  end.
Definition bl_unit N (v : A) : sres A unit (list A) :=
  if 1 <=? N then SRet tt [v] [] else SPanic tt [v] [].
Definition bl_pair N (v1 v2 : A) : sres A unit (list A) :=
  if 2 <=? N then SRet tt [v1; v2] [] else SPanic tt [v2; v1] [].

(** Taking exactly [k] items; the abstract state is the rest of the iterator. *)
Fixpoint bl_collect N k (it : list (ev A)) l : sres A (list (ev A)) (list A) :=
  match k, it with
  | 0, _ => SRet it l []
  | S _, [] => SPanic [] l []
  | S _, Boom :: it' => SPanic it' l []
  | S k', Yield a :: it' =>
      if length l <? N then bl_collect N k' it' (l ++ [a]) else SPanic it' (a :: l) []
  end.

(** Clone: the source is unchanged; if a clone panics those already made are dropped. *)
Definition bl_clone (cl : nat -> A -> option A) l : sres A (list A) (list A) :=
  if length (clones cl 0 l) =? length l then SRet l (clones cl 0 l) []
  else SPanic l (clones cl 0 l) [].

(** Destroying the container. *)
Definition bl_destroy l : sres A unit unit := SRet tt tt l.
End bounded_list.
