(** * [RingBuffer]: a history of pushes and pops writes nothing but the values pushed. *)
From Verif Require Import Machine Spec Prims RingModel RingProofs RingProofs6 ChunkCost Amortised.
Section ring.
Context {A : Type} (e : env A) (N : nat).
Definition ring_step (o : deque_op A) : M A (ring A) unit :=
  match o with
  | PushF v => rb_push_front e N v
  | PushB v => rb_push_back e N v
  | PopF => rb_pop_front e N ;;; ret tt
  | PopB => rb_pop_back e N ;;; ret tt
  end.
(** Every panic is caught.  [None]: undefined behaviour, a hang or an abort. *)
Fixpoint ring_history (h : list (deque_op A)) (r : ring A) (g : log A) : option (ring A * log A) :=
  match h with
  | [] => Some (r, g)
  | o :: h' => match ring_step o r g with
               | Ret r' g' _ | Panic r' g' => ring_history h' r' g'
               | _ => None
               end
  end.
Hypothesis HW : N + N < word e.
Hypothesis HN : 0 < N.
Hypothesis Hcalm : calm e.
Lemma ring_step_cost o r l g : RHolds N r l ->
  exists r' g', (ring_step o r g = Ret r' g' tt \/ ring_step o r g = Panic r' g') /\ RHolds N r' (deque_effect N o l) /\
    writes g' <= writes g + (if is_push o then 1 else 0).
Proof.
  intros H. destruct o as [v|v| |]; cbn [ring_step deque_effect is_push].
  - pose proof (rb_push_front_ok e N HW HN Hcalm r l g v H) as P. unfold bl_push_front in P.
    destruct (length l <? N) eqn:E.
    + pose proof (rb_push_front_cost e N HW HN r l g v H ltac:(lia)) as C. destruct P as (r' & g' & [] & E1 & H' & _). rewrite E1 in C.
      cbn [post] in C. exists r', g'. split; [auto|]. split; [exact H'|lia].
    + exists r, (log_drop [v] g). split; [right|split; [exact H|cbn [log_drop writes]; lia]].
      clear P. assert (F : rb_is_full N r = true) by (destruct H as (H1 & H2 & H3 & _); unfold rb_is_full; lia).
      unfold rb_push_front. erewrite (bind_Ret get) by reflexivity. rewrite F. unfold panic_dropping. rewrite Hcalm. reflexivity.
  - pose proof (rb_push_back_ok e N HW HN Hcalm r l g v H) as P. unfold bl_push_back in P.
    destruct (length l <? N) eqn:E.
    + pose proof (rb_push_back_cost e N HW HN r l g v H ltac:(lia)) as C. destruct P as (r' & g' & [] & E1 & H' & _). rewrite E1 in C.
      cbn [post] in C. exists r', g'. split; [auto|]. split; [exact H'|lia].
    + exists r, (log_drop [v] g). split; [right|split; [exact H|cbn [log_drop writes]; lia]].
      clear P. assert (F : rb_is_full N r = true) by (destruct H as (H1 & H2 & H3 & _); unfold rb_is_full; lia).
      unfold rb_push_back. erewrite (bind_Ret get) by reflexivity. rewrite F. unfold panic_dropping. rewrite Hcalm. reflexivity.
  - pose proof (rb_pop_front_ok e N HW HN r l g H) as P. pose proof (rb_pop_front_cost e N HW HN r l g H) as C.
    unfold bl_try_pop_front in P. destruct l as [|a l]; destruct P as (r' & g' & x & E & H' & _); rewrite E in C; cbn [post] in C;
      exists r', g'; (split; [left; rewrite (bind_Ret _ _ _ _ _ _ _ E); reflexivity|]); (split; [exact H'|lia]).
  - pose proof (rb_pop_back_ok e N HW HN r l g H) as P. pose proof (rb_pop_back_cost e N HW HN r l g H) as C.
    assert (R : match l !! (length l - 1) with None => l | Some _ => take (length l - 1) l end = removelast l).
    { clear. destruct l as [|a l _] using rev_ind; [reflexivity|]. rewrite removelast_last, app_length. cbn [length].
      replace (length l + 1 - 1) with (length l) by lia. rewrite lookup_app_r, Nat.sub_diag by lia. cbn. apply take_app. }
    unfold bl_try_pop_back in P. rewrite <- R. clear R.
    destruct (l !! _); destruct P as (r' & g' & x & E & H' & _); rewrite E in C; cbn [post] in C;
      exists r', g'; (split; [left; rewrite (bind_Ret _ _ _ _ _ _ _ E); reflexivity|]); (split; [exact H'|lia]).
Qed.
Theorem ring_history_cost h : forall r l g, RHolds N r l ->
  exists r' g', ring_history h r g = Some (r', g') /\ writes g' <= writes g + pushes h.
Proof.
  induction h as [|o h IH]; intros r l g H.
  { exists r, g. split; [done|lia]. }
  destruct (ring_step_cost o r l g H) as (r1 & g1 & E & H1 & C).
  destruct (IH r1 _ g1 H1) as (r' & g' & E' & C'). exists r', g'. split.
  { cbn [ring_history]. destruct E as [-> | ->]; exact E'. }
  rewrite pushes_cons. lia.
Qed.
End ring.
