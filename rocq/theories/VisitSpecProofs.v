(** * What [visited] says about a loop from front to back. *)
From Verif Require Import Machine Spec IterSpec VisitModel VisitSpec.

(** The value behind the reference after a call that did [u]. *)
Definition left_by {A} (u : use A) (a : A) : A := match u with Leaves | Panics => a | Replaces b | Assigns b => b end.
(** The values whose destructor it ran. *)
Definition dropped_by {A} (u : use A) (a : A) : list A := match u with Assigns _ => [a] | _ => [] end.
Lemma visited_forward {A} boom (act : nat -> A -> use A) n : forall k l m d p,
  visited boom act k (repeat Front n) l = (m, d, p) -> exists j, j <= n /\ j <= length l /\
    m = imap (fun i a => left_by (act (k + i) a) a) (take j l) ++ drop j l /\
    d = concat (imap (fun i a => dropped_by (act (k + i) a) a) (take j l)) /\
    (p = false -> j = n \/ j = length l).
Proof.
  induction n as [|n IH]; intros k l m d p E; cbn in E.
  { injection E as <- <- <-. exists 0. cbn. rewrite drop_0. repeat split; [lia|lia|auto]. }
  destruct l as [|a l]; [injection E as <- <- <-; exists 0; cbn; repeat split; auto; lia|].
  assert (Ext : forall B (f : nat -> A -> B) j, imap (fun i a => f (S k + i) a) (take j l) = imap ((fun i a => f (k + i) a) ∘ S) (take j l)).
  { intros B f j. apply imap_ext. intros i x _. cbn. f_equal. lia. }
  destruct (react boom (act k a) a) as [b out|b out] eqn:Er.
  - destruct (visited boom act (S k) (repeat Front n) l) as [[m1 d1] p1] eqn:Ev. injection E as <- <- <-.
    destruct (IH _ _ _ _ _ Ev) as (j & J1 & J2 & -> & -> & J3).
    exists (S j). cbn [take drop length]. rewrite !imap_cons, Nat.add_0_r. cbn [concat app].
    split; [lia|]. split; [lia|]. 
    rewrite (Ext _ (fun i a => left_by (act i a) a)), (Ext _ (fun i a => dropped_by (act i a) a)).
    assert (b = left_by (act k a) a /\ out = dropped_by (act k a) a) as [-> ->].
    { destruct (act k a) as [|c|c|]; cbn in Er |- *; [| |destruct (boom a)|]; inversion Er; auto. }
    split; [reflexivity|]. split; [reflexivity|]. intros Hp. specialize (J3 Hp). lia.
  - injection E as <- <- <-. exists 1. cbn [take drop length imap]. rewrite take_0, drop_0. cbn. rewrite Nat.add_0_r, app_nil_r.
    assert (b = left_by (act k a) a /\ out = dropped_by (act k a) a) as [-> ->].
    { destruct (act k a) as [|c|c|]; cbn in Er |- *; [| |destruct (boom a)|]; inversion Er; auto. }
    split; [lia|]. split; [lia|]. split; [reflexivity|]. split; [reflexivity|]. discriminate.
Qed.
