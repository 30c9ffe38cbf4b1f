(** * Temporaries: the code does what it should, if it does so without them. *)
From Verif Require Import Machine Spec Prims Program Bombs BombProgram TempModel TempSpec.

Section temp.
Context {A op0 op1 opn op2 res obj st : Type}.
Context (K : kit A op0 op1 opn op2 res obj) (S : skit A op0 op1 opn op2 res st) (H : obj -> st -> Prop).
Context (fresh : obj -> op0) (empty : st -> st).
Context (Hempty : forall s, items S (empty s) = []).

Theorem temp_refines :
  (forall x s g, H x s -> agrees (fun _ _ => True) H g (run0 K (fresh x) tt g) (SRet tt (empty s) [])) ->
  refines K S H -> refines (temp_kit K fresh) (temp_spec S empty) H.
Proof.
  intros HF R. constructor; cbn [run0 run1 runn run2 kill temp_kit spec0 spec1 specn spec2 legal1 legaln legal2 temp_spec items].
  - exact (ref0 _ _ _ R).
  - exact (ref1 _ _ _ R).
  - intros [o|o] y s g Hy HL; [exact (refn _ _ _ R o y s g Hy HL)|]. unfold tempn, stempn.
    destruct (HF y s g Hy) as (u & g0 & z & E0 & _ & Hz & D0 & L0). rewrite E0. rewrite app_nil_r in D0.
    pose proof (refn _ _ _ R o y s g0 Hy HL) as P. destruct (specn S o s) as [s' n d|s' d k].
    + destruct P as (y' & g1 & n' & E & Hy' & Hn & D & L). rewrite E.
      destruct (refk _ _ _ R y' s' g1 Hy') as (v & g2 & u2 & E2 & _ & _ & D2 & L2). rewrite E2.
      exists z, g2, n'. repeat split; auto; [|congruence]. rewrite D2, D, D0. symmetry. apply app_assoc.
    + destruct P as (y' & g1 & k' & E & Hy' & D & L & P). rewrite E.
      destruct (refk _ _ _ R y' s' g1 Hy') as (v & g2 & u2 & E2 & _ & _ & D2 & L2). rewrite E2.
      exists z, g2, k'. repeat split; auto; [|congruence]. rewrite D2, D, D0. symmetry. apply app_assoc.
  - intros [o|o] [x y] [s1 s2] g Hxy HL; [exact (ref2 _ _ _ R o _ _ g Hxy HL)|]. unfold temp2, stemp2.
    destruct (HF y s2 g (proj2 Hxy)) as (u & g0 & z & E0 & _ & Hz & D0 & L0). cbn [snd]. rewrite E0. rewrite app_nil_r in D0.
    pose proof (ref2 _ _ _ R o (x, y) (s1, s2) g0 Hxy HL) as P. destruct (spec2 S o (s1, s2)) as [[s1' s2'] r d|[s1' s2'] d k].
    + destruct P as ([x' y'] & g1 & r' & E & [Hx' Hy'] & Hr & D & L). rewrite E. cbn [fst snd] in Hx', Hy'.
      destruct (refk _ _ _ R y' s2' g1 Hy') as (v & g2 & u2 & E2 & _ & _ & D2 & L2). rewrite E2.
      exists (x', z), g2, r'. repeat split; auto; [|congruence]. rewrite D2, D, D0. symmetry. apply app_assoc.
    + destruct P as ([x' y'] & g1 & k' & E & [Hx' Hy'] & D & L & P). rewrite E. cbn [fst snd] in Hx', Hy'.
      destruct (refk _ _ _ R y' s2' g1 Hy') as (v & g2 & u2 & E2 & _ & _ & D2 & L2). rewrite E2.
      exists (x', z), g2, k'. repeat split; auto; [|congruence]. rewrite D2, D, D0. symmetry. apply app_assoc.
  - exact (refk _ _ _ R).
Qed.

Theorem temp_balanced : balanced S -> balanced (temp_spec S empty).
Proof.
  intros Hb. constructor; cbn [spec0 spec1 specn spec2 legal1 legaln legal2 given0 given1 givenn temp_spec items outs].
  - exact (bal0 _ Hb).
  - exact (bal1 _ Hb).
  - intros [o|o] x HL; pose proof (baln _ Hb o x HL) as P; [exact P|]. unfold stempn.
    destruct (specn S o x) as [x' n d|x' d k]; cbn [items temp_spec]; rewrite Hempty; cbn [app]; rewrite P; perm.
  - intros [o|o] [x y] HL; pose proof (bal2 _ Hb o (x, y) HL) as P; [exact P|]. unfold stemp2.
    destruct (spec2 S o (x, y)) as [[x' y'] r d|[x' y'] d k]; cbn [items temp_spec fst snd] in *; rewrite Hempty; cbn [app]; rewrite P; perm.
Qed.
Lemma temp_tight : forall c, match c with
  | Make o => tight S (Make o) | Call i o => tight S (Call i o) | Kill i => True
  | Spawn i (ByRef o) | Spawn i (Temp o) => tight S (Spawn 0 o)
  | Call2 i j (ByRef o) | Call2 i j (Temp o) => tight S (Call2 0 1 o)
  end -> tight (temp_spec S empty) c.
Proof.
  intros c HT s HL. destruct c as [o|i o|i o|i j o|i]; cbn [sstep legal] in *.
  - exact (HT s HL).
  - exact (HT s HL).
  - destruct (s !! i) as [[x|]|]; auto. assert (T : match o with ByRef o | Temp o => tight S (Spawn 0 o) end) by (destruct o; exact HT).
    destruct o as [o|o]; specialize (T [Some x] HL); cbn in *; unfold stempn; destruct (specn S o x); auto.
  - destruct (i =? j); auto. destruct (s !! i) as [[x|]|]; auto. destruct (s !! j) as [[y|]|]; auto.
    assert (T : match o with ByRef o | Temp o => tight S (Call2 0 1 o) end) by (destruct o; exact HT).
    destruct o as [o|o]; specialize (T [Some x; Some y] HL); cbn in *; unfold stemp2; destruct (spec2 S o (x, y)) as [[]|[]]; auto.
  - destruct (s !! i) as [[x|]|]; auto.
Qed.

(** ** With destructors that may panic *)
Context (B : bkit A op0 op1 opn op2 res st).
(** A container that is dropped by unwinding without a panic leaks nothing. *)
Theorem temp_refinesb :
  (forall x s g, H x s -> agrees (fun _ _ => True) H g (run0 K (fresh x) tt g) (SRet tt (empty s) [])) ->
  refinesb K S B H -> refinesb (temp_kit K fresh) (temp_spec S empty) (temp_bspec B empty) H.
Proof.
  intros HF R. constructor; cbn [run0 run1 runn run2 kill temp_kit bs0 bs1 bsn bs2 bsk temp_bspec legal1 legaln legal2 temp_spec].
  - exact (rfb0 _ _ _ _ R).
  - exact (rfb1 _ _ _ _ R).
  - intros [o|o] y s g Hy HL; [exact (rfbn _ _ _ _ R o y s g Hy HL)|]. unfold tempn, btempn.
    destruct (HF y s g Hy) as (u & g0 & z & E0 & _ & Hz & D0 & L0). rewrite E0. rewrite app_nil_r in D0.
    pose proof (rfbn _ _ _ _ R o y s g0 Hy HL) as P. destruct (bsn B o s) as [s' n d|s' d k| |]; cbn in P; [| |rewrite P; reflexivity|exact I].
    + destruct P as (y' & g1 & n' & E & Hy' & Hn & D & L). rewrite E.
      pose proof (rfbk _ _ _ _ R y' s' g1 Hy') as Q. destruct (bsk B s') as [u2 t2 d2|u2 d2 k2| |]; cbn in Q; [| |rewrite Q; reflexivity|exact I].
      * destruct Q as (v & g2 & u3 & E2 & _ & _ & D2 & L2). rewrite E2. cbn.
        exists z, g2, n'. repeat split; auto; [|congruence]. rewrite D2, D, D0. symmetry. apply app_assoc.
      * destruct Q as (v & g2 & k' & E2 & _ & D2 & L2 & P2). rewrite E2.
        pose proof (rfbk _ _ _ _ R n' n g2 Hn) as Q. destruct (bsk B n) as [u4 t4 d4|u4 d4 k4| |]; cbn in Q; [| |rewrite Q; reflexivity|exact I].
        -- destruct Q as (v5 & g5 & u5 & E5 & _ & _ & D5 & L5). rewrite E5. cbn.
           exists z, g5, k'. repeat split; auto; [|congruence]. rewrite D5, D2, D, D0, !app_assoc. reflexivity.
        -- destruct Q as (v5 & g5 & k5 & E5 & _). rewrite E5. reflexivity.
    + destruct P as (y' & g1 & k' & E & Hy' & D & L & P). rewrite E.
      pose proof (rfbk _ _ _ _ R y' s' g1 Hy') as Q. destruct (bsk B s') as [u2 t2 d2|u2 d2 k2| |]; cbn in Q; [| |rewrite Q; reflexivity|exact I].
      * destruct Q as (v & g2 & u3 & E2 & _ & _ & D2 & L2). rewrite E2. cbn.
        exists z, g2, k'. repeat split; auto; [|congruence]. rewrite D2, D, D0. symmetry. apply app_assoc.
      * destruct Q as (v & g2 & k2' & E2 & _). rewrite E2. reflexivity.
  - intros [o|o] [x y] [s1 s2] g Hxy HL; [exact (rfb2 _ _ _ _ R o _ _ g Hxy HL)|]. unfold temp2, btemp2.
    destruct (HF y s2 g (proj2 Hxy)) as (u & g0 & z & E0 & _ & Hz & D0 & L0). cbn [snd]. rewrite E0. rewrite app_nil_r in D0.
    pose proof (rfb2 _ _ _ _ R o (x, y) (s1, s2) g0 Hxy HL) as P.
    destruct (bs2 B o (s1, s2)) as [[s1' s2'] r d|[s1' s2'] d k| |]; cbn in P; [| |rewrite P; reflexivity|exact I].
    + destruct P as ([x' y'] & g1 & r' & E & [Hx' Hy'] & Hr & D & L). rewrite E. cbn [fst snd] in Hx', Hy'.
      pose proof (rfbk _ _ _ _ R y' s2' g1 Hy') as Q. destruct (bsk B s2') as [u2 t2 d2|u2 d2 k2| |]; cbn in Q; [| |rewrite Q; reflexivity|exact I].
      * destruct Q as (v & g2 & u3 & E2 & _ & _ & D2 & L2). rewrite E2. cbn.
        exists (x', z), g2, r'. repeat split; auto; [|congruence]. rewrite D2, D, D0. symmetry. apply app_assoc.
      * destruct Q as (v & g2 & k' & E2 & _ & D2 & L2 & P2). rewrite E2. cbn.
        exists (x', z), g2, k'. repeat split; auto; [|congruence]. rewrite D2, D, D0. symmetry. apply app_assoc.
    + destruct P as ([x' y'] & g1 & k' & E & [Hx' Hy'] & D & L & P). rewrite E. cbn [fst snd] in Hx', Hy'.
      pose proof (rfbk _ _ _ _ R y' s2' g1 Hy') as Q. destruct (bsk B s2') as [u2 t2 d2|u2 d2 k2| |]; cbn in Q; [| |rewrite Q; reflexivity|exact I].
      * destruct Q as (v & g2 & u3 & E2 & _ & _ & D2 & L2). rewrite E2. cbn.
        exists (x', z), g2, k'. repeat split; auto; [|congruence]. rewrite D2, D, D0. symmetry. apply app_assoc.
      * destruct Q as (v & g2 & k2' & E2 & _). rewrite E2. reflexivity.
  - exact (rfbk _ _ _ _ R).
Qed.
(** Methods of two containers return no values by ownership. *)
Theorem temp_balancedb : (forall o x x' r d, bs2 B o x = BRet x' r d -> outs S r = []) ->
  balancedb S B -> balancedb (temp_spec S empty) (temp_bspec B empty).
Proof.
  intros Ho Hb. constructor; cbn [bs0 bs1 bsn bs2 bsk bg0 bg1 bgn legal1 legaln legal2 temp_spec temp_bspec items outs].
  - exact (bbal0 _ _ Hb).
  - exact (bbal1 _ _ Hb).
  - intros [o|o] x HL; pose proof (bbaln _ _ Hb o x HL) as P; [exact P|]. unfold btempn.
    destruct (bsn B o x) as [x' n d|x' d k| |]; auto; pose proof (bbalk _ _ Hb x') as Q; destruct (bsk B x') as [u t d2|u d2 k2| |]; auto.
    + rewrite Hempty, P, Q. perm.
    + pose proof (bbalk _ _ Hb n) as Q2. destruct (bsk B n) as [u4 t4 d4|u4 d4 k4| |]; auto. rewrite Hempty, P, Q, Q2. perm.
    + rewrite Hempty, P, Q. perm.
  - intros [o|o] [x y] HL; pose proof (bbal2 _ _ Hb o (x, y) HL) as P; [exact P|]. unfold btemp2.
    specialize (Ho o (x, y)). destruct (bs2 B o (x, y)) as [[x' y'] r d|[x' y'] d k| |]; auto; cbn [fst snd] in *;
      pose proof (bbalk _ _ Hb y') as Q; destruct (bsk B y') as [u t d2|u d2 k2| |]; auto; cbn [fst snd].
    + rewrite Hempty, P, Q. perm.
    + rewrite Hempty, P, Q, (Ho _ _ _ eq_refl). perm.
    + rewrite Hempty, P, Q. perm.
  - exact (bbalk _ _ Hb).
Qed.
Theorem temp_known (D : op1 -> st -> Prop) : (forall p s, spares B D p s -> brun B p s <> BUnknown) ->
  forall p s, spares (temp_bspec B empty) D p s -> brun (temp_bspec B empty) p s <> BUnknown.
Proof.
  intros HK. destruct (known_calls B D HK) as (H0 & H1 & Hn & H2 & Hk).
  apply spares_known_weak; cbn [bs0 bs1 bsn bs2 bsk temp_bspec]; auto.
  - intros [o|o] x; auto. unfold btempn. specialize (Hn o x). destruct (bsn B o x) as [x' n d|x' d k| |]; try congruence;
      pose proof (Hk x') as Q; destruct (bsk B x'); try congruence. pose proof (Hk n) as Q2. destruct (bsk B n); congruence.
  - intros [o|o] x; auto. unfold btemp2. specialize (H2 o x). destruct (bs2 B o x) as [[x' y'] r d|[x' y'] d k| |]; try congruence;
      pose proof (Hk y') as Q; destruct (bsk B y'); congruence.
Qed.
End temp.
