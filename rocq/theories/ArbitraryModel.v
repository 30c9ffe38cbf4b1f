(** * Model of src/arbitrary.rs

    [u.arbitrary_iter()] (of the crate arbitrary) gives an iterator of generated items, each of them [Ok] or an
    error.  Here it is the list of what its [next] does; or [None] if already [arbitrary_iter] fails. *)
From Verif Require Import Machine.

(** One call of [next] of that iterator: [Ok(b)], an error, or a panic (of the user's [Arbitrary] code). *)
Inductive gen (B : Type) := Item (b : B) | Fail | Crash.
Arguments Item {B}. Arguments Fail {B}. Arguments Crash {B}.

(** [collect::<Result<C, _>>()] (of core) runs [C::from_iter] on an iterator that ends at the first error ... *)
Fixpoint shunt {B} (src : list (gen B)) : list (ev B) :=
  match src with
  | [] => []
  | Item b :: src' => Yield b :: shunt src'
  | Fail :: _ => []
  | Crash :: _ => [Boom]
  end.
(** ... and that remembers whether there was an error.  ([from_iter] of all four containers is a [for] loop, so
    if it returns it has seen the end of the iterator.) *)
Fixpoint failed {B} (src : list (gen B)) : bool :=
  match src with Item _ :: src' => failed src' | Fail :: _ => true | _ => false end.

(** arbitrary.rs 19-21, 41-43, 63-65, 84-86 [arbitrary]; 23-25, 45-47, 67-69, 88-90 [arbitrary_take_rest] is the
    same with another source: [u.arbitrary_iter()?.take(CAPACITY).collect()].  If there was an error the container
    is dropped. *)
Definition arbitrary {A B C} (cap : nat) (from_iter : list (ev B) -> M A unit (C * unit)) (destroy : M A C unit)
    (u : option (list (gen B))) : M A unit (option C) :=
  match u with
  | None => ret None
  | Some src =>
      let! r := from_iter (shunt (take cap src)) in
      if failed (take cap src) then
        fun o g => match destroy (fst r) g with
                   | Ret _ g' _ => Ret o g' None
                   | Panic _ g' => Panic o g'
                   | UB k => UB k
                   | Hang => Hang
                   | Abort => Abort
                   end
      else ret (Some (fst r))
  end.

(** [usize] multiplication. *)
Definition umul {A O} (e : env A) (a b : nat) : M A O nat :=
  if a * b <? word e then ret (a * b) else if debug e then panic else ret ((a * b) mod word e).
(** arbitrary.rs 27-32, 49-54, 71-76, 92-97 [size_hint]: [(0, upper.map(|upper| upper * CAPACITY))];
    [upper] is the upper bound for one item.  ([recursion_guard] returns [(0, None)] beyond some depth.) *)
Definition arb_size_hint {A O} (e : env A) (cap : nat) (upper : option nat) : M A O (nat * option nat) :=
  match upper with
  | None => ret (0, None)
  | Some u => let! n := umul e u cap in ret (0, Some n)
  end.
