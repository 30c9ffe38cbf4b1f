(** * Which inputs the fuzz targets can get.

    A [usize] is below [word]; a [Vec<u32>] has at most [isize::MAX] bytes, so less than [word / 2] items. *)
From Verif Require Import Machine FuzzModel.

Definition usize (e : env nat) (n : nat) : Prop := n < word e.
Definition vec_fits (e : env nat) (l : list nat) : Prop := 2 * length l <= word e.
Definition construct_fits (e : env nat) (k : construct) : Prop :=
  match k with
  | Empty | Single _ | Pair _ _ | DrainFrom _ => True
  | CollectFrom _ len | FromFront _ len | FromBack _ len => usize e len
  end.
Definition ring_construct_fits (e : env nat) (k : ring_construct) : Prop :=
  match k with Like k => construct_fits e k | FromIter _ => True end.
Definition action_fits {K} (e : env nat) (fits : K -> Prop) (a : action K) : Prop :=
  match a with
  | DropLeft i | DropRight i | SplitOff i | Set_ i _ | Insert i _ | Remove i => usize e i
  | Append k => fits k
  | DrainFromFront k n | DrainFromBack k n => fits k /\ usize e n
  | InsertFrom l i => vec_fits e l /\ usize e i
  | _ => True
  end.
(** The target ends without a failed assertion, an unexpected panic, undefined behaviour, a hang or an abort. *)
Definition succeeds (m : fz unit) : Prop := forall g, exists g', m g = Some (tt, g').
(** [slice::binary_search] on a slice that need not be sorted: it returns, with an index where one can insert. *)
Definition search_in_range (bs : list nat -> nat -> option nat) : Prop :=
  forall l v, exists i, bs l v = Some i /\ i <= length l.
