(** * Concrete chunks used to show that hypotheses can be met. *)
From Verif Require Import Machine Spec Prims ChunkModel ChunkProofs.

(** A debug and a release build with a small word, and elements that are numbers; no destructor panics. *)
Definition dbg : env nat := Env 256 true (fun _ => false).
Definition rel : env nat := Env 256 false (fun _ => false).
(** Dropping 13 panics. *)
Definition bombed : env nat := Env 256 true (fun a => a =? 13).
Lemma dbg_calm : calm dbg. Proof. intros a; reflexivity. Qed.
Lemma rel_calm : calm rel. Proof. intros a; reflexivity. Qed.

(** The chunk reached from [new] by push_back 1; push_back 2; push_front 3 (capacity 4, so the pushes
    at the front shift the contents to the right end). *)
Definition ex_chunk : chunk nat :=
  match (push_back dbg 4 1 ;;; push_back dbg 4 2 ;;; push_front dbg 4 3) new log0 with
  | Ret c _ _ => c | _ => new end.
Lemma ex_chunk_holds : Holds 4 ex_chunk [3; 1; 2].
Proof.
  assert (left ex_chunk = 1 /\ right ex_chunk = 4) as [H1 H2] by (split; vm_compute; reflexivity).
  unfold Holds. rewrite H1, H2. split; [reflexivity|]. split; [lia|].
  intros [|[|[|[|p]]]]; try (vm_compute; reflexivity).
Qed.
