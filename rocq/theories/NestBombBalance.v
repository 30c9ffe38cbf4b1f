(** * Containers of containers of values whose destructors may panic: nothing is duplicated, what is lost is known, and no call is
    left undescribed but those that discard values. *)
From Verif Require Import Machine Spec Prims Program InlineModel InlineSpec SparseSpec SparseProofs IterSpec MixModel MixSpec MixProofs MixProgram MixBalance ChunkProgram
  RingProgram SparseProgram InlineProgram Bombs BombProgram SparseBombs MixBombSpec MixBombs TempModel TempSpec TempMix OwnModel OwnSpec OwnMix WalkModel WalkSpec WalkMix NestModel
  NestSpec NestNature NestBalance NestBombSpec NestBombs.

Section nest.
Context {A : Type} (e : env A).
Notation st := (mst e).
Notation Es := (outer_senv e).
Notation its := (flat_map (m_items e)).
Notation wbal := (walk_balancedb e).
Notation obal := (mix_balanced Es).

Lemma bsettle_balance D : match bsettle e D with Some (d, k) => Permutation (its D) (d ++ k) | None => True end.
Proof.
  induction D as [|x D IH]; [constructor|]. cbn [bsettle flat_map].
  pose proof (bbalk _ _ (mix_bbalanced e) x) as P. change (items (mix_spec e) x) with (m_items e x) in P.
  destruct (bsk (mix_bspec e) x) as [u r d|u d k| |]; auto; destruct (bsettle e D) as [[d' k']|]; auto.
  - rewrite P, IH, app_assoc. reflexivity.
  - rewrite P, IH. perm.
Qed.
Lemma bflat_balance {S T} (b : bres (A := st) S T) (l : list st) (I : S -> list st) (O : T -> list st) :
  match b with BRet x r d => Permutation l (I x ++ O r ++ d) | BPanic x d k => Permutation l (I x ++ d ++ k) | _ => True end ->
  match bflat e b with
  | BRet x r d => Permutation (its l) (its (I x) ++ its (O r) ++ d)
  | BPanic x d k => Permutation (its l) (its (I x) ++ d ++ k)
  | _ => True end.
Proof.
  destruct b as [x r d|x d k| |]; cbn [bflat]; auto; intros P; apply its_perm in P; rewrite !flat_map_app in P.
  - exact P.
  - pose proof (bsettle_balance d) as Q. destruct (bsettle e d) as [[d' k']|]; [|exact Logic.I]. rewrite P, Q. perm.
Qed.
Lemma wb_balance {S T} (s : sres st S T) (l : list st) (I : S -> list st) (O : T -> list st) :
  match s with SRet x r d => Permutation l (I x ++ O r ++ d) | SPanic x d k => Permutation l (I x ++ d ++ k) end ->
  match with_bombs Es s with BRet x r d => Permutation l (I x ++ O r ++ d) | BPanic x d k => Permutation l (I x ++ d ++ k) | _ => True end.
Proof. destruct s as [x r d|x d k]; cbn [with_bombs]; destruct (existsb _ _); auto. Qed.
Lemma at1_balancedb {T} i (f : st -> bres (A := A) st T) (x : mst Es) (given : st -> list A) (out : T -> list A) :
  at_elem e i x True (fun v => match f v with
    | BRet v' r d => Permutation (m_items e v ++ given v) (m_items e v' ++ out r ++ d)
    | BPanic v' d k => Permutation (m_items e v ++ given v) (m_items e v' ++ d ++ k)
    | _ => True end) ->
  match bspec_at1 e i f x with
  | BRet x' r d => Permutation (its (m_items Es x) ++ at_elem e i x [] given) (its (m_items Es x') ++ out r ++ d)
  | BPanic x' d k => Permutation (its (m_items Es x) ++ at_elem e i x [] given) (its (m_items Es x') ++ d ++ k)
  | _ => True end.
Proof.
  unfold bspec_at1, at_elem. destruct (elem e i x) as [v|] eqn:E; [|reflexivity].
  destruct (elem_its e i x v E) as (rest & P & Q). destruct (f v) as [v' r d|v' d k| |]; intros H; auto.
  - rewrite P, (Q v'). transitivity ((m_items e v ++ given v) ++ rest); [perm|]. rewrite H. perm.
  - rewrite P, (Q v'). transitivity ((m_items e v ++ given v) ++ rest); [perm|]. rewrite H. perm.
Qed.
(** Methods of the outer container. *)
Lemma method_balanceb o (x : mst Es) : legal1 (mix_spec Es) (o_method o x) x ->
  match bflat e (bs1 (mix_bspec Es) (o_method o x) x) with
  | BRet x' r d => Permutation (its (m_items Es x)) (its (m_items Es x') ++ d)
  | BPanic x' d k => Permutation (its (m_items Es x)) (its (m_items Es x') ++ d ++ k)
  | _ => True end.
Proof.
  intros HL. pose proof (bal1 _ obal (o_method o x) x HL) as P. pose proof (method_small e o x) as Q. rewrite method_given, app_nil_r in P.
  assert (Ew : bs1 (mix_bspec Es) (o_method o x) x = with_bombs Es (spec1 (mix_spec Es) (o_method o x) x)) by exact (method_wb e (sbomb e) o x).
  rewrite Ew. change (items (mix_spec Es)) with (m_items Es) in P.
  apply (bflat_balance _ _ (m_items Es) (fun _ => [])). apply (wb_balance _ _ (m_items Es) (fun _ => [])).
  destruct (spec1 (mix_spec Es) (o_method o x) x) as [x' r d|x' d k]; [|exact P].
  change (outs (mix_spec Es) r) with (m_outs r) in P. destruct (m_outs r); [exact P|cbn in Q; lia].
Qed.
Lemma new_balanceb o : match bflat e (bs0 (mix_bspec Es) (o_new e _ o)) with
  | BRet _ x d => Permutation [] (its (m_items Es x) ++ d)
  | BPanic _ d k => Permutation [] (d ++ k)
  | _ => True end.
Proof.
  pose proof (bal0 _ obal (o_new e _ o)) as P. rewrite new_given in P.
  assert (Ew : bs0 (mix_bspec Es) (o_new e (sbomb e) o) = with_bombs Es (spec0 (mix_spec Es) (o_new e (sbomb e) o))) by exact (new_wb e (sbomb e) o).
  rewrite Ew. apply (bflat_balance _ [] (fun _ => []) (m_items Es)). apply (wb_balance _ _ (fun _ => []) (m_items Es)). exact P.
Qed.
Lemma spawn_balanceb o (x : mst Es) : legaln (mix_spec Es) (o_spawn e o x) x ->
  match bflat e (bsn (mix_bspec Es) (o_spawn e o x) x) with
  | BRet x' y d => Permutation (its (m_items Es x)) (its (m_items Es x') ++ its (m_items Es y) ++ d)
  | BPanic x' d k => Permutation (its (m_items Es x)) (its (m_items Es x') ++ d ++ k)
  | _ => True end.
Proof.
  intros HL. pose proof (baln _ obal (o_spawn e o x) x HL) as P. rewrite spawn_given, app_nil_r in P.
  assert (Ew : bsn (mix_bspec Es) (o_spawn e o x) x = with_bombs Es (specn (mix_spec Es) (o_spawn e o x) x)) by exact (spawn_wb e (sbomb e) o x).
  rewrite Ew. apply (bflat_balance _ _ (m_items Es) (m_items Es)). apply wb_balance. exact P.
Qed.
Lemma take_balanceb o (x : mst Es) : legal1 (mix_spec Es) (o_take o x) x ->
  match bspec_take e o x with
  | BRet x' v d => Permutation (its (m_items Es x)) (its (m_items Es x') ++ m_items e v ++ d)
  | BPanic x' d k => Permutation (its (m_items Es x)) (its (m_items Es x') ++ d ++ k)
  | _ => True end.
Proof.
  intros HL. unfold bspec_take. pose proof (bal1 _ obal (o_take o x) x HL) as P. pose proof (take_small e o x) as Q. rewrite take_given, app_nil_r in P.
  assert (Ew : bs1 (mix_bspec Es) (o_take o x) x = with_bombs Es (spec1 (mix_spec Es) (o_take o x) x)) by exact (take_wb e (sbomb e) o x).
  rewrite Ew. pose proof (bflat_balance _ _ (m_items Es) m_outs (wb_balance _ _ (m_items Es) m_outs P)) as W.
  assert (Q2 : match bflat e (with_bombs Es (spec1 (mix_spec Es) (o_take o x) x)) with BRet _ r _ => length (m_outs r) <= 1 | _ => True end).
  { destruct (spec1 (mix_spec Es) (o_take o x) x) as [x' r d|x' d k]; cbn [with_bombs]; destruct (existsb _ _); cbn [bflat]; auto.
    destruct (bsettle e d) as [[]|]; exact I. }
  destruct (bflat e (with_bombs Es (spec1 (mix_spec Es) (o_take o x) x))) as [x' r d|x' d k| |]; auto.
  destruct (m_outs r) as [|v [|v2 l]]; cbn [flat_map] in W; rewrite ?app_nil_r in *; [exact W|exact W|cbn in Q2; lia].
Qed.
Lemma put_balanceb o (x : mst Es) y : legal1 (mix_spec Es) (o_put o x y) x ->
  match bflat e (bdiscard e (bs1 (mix_bspec Es) (o_put o x y) x)) with
  | BRet x' r d => Permutation (its (m_items Es x) ++ m_items e y) (its (m_items Es x') ++ d)
  | BPanic x' d k => Permutation (its (m_items Es x) ++ m_items e y) (its (m_items Es x') ++ d ++ k)
  | _ => True end.
Proof.
  intros HL. pose proof (bal1 _ obal (o_put o x y) x HL) as P. rewrite (put_given e o x y HL) in P.
  assert (Ew : bs1 (mix_bspec Es) (o_put o x y) x = with_bombs Es (spec1 (mix_spec Es) (o_put o x y) x)) by exact (put_wb e (sbomb e) o x y).
  rewrite Ew. clear Ew. pose proof (wb_balance _ _ (m_items Es) m_outs P) as W.
  assert (W2 : match bdiscard e (with_bombs Es (spec1 (mix_spec Es) (o_put o x y) x)) with
    | BRet x' r d => Permutation (m_items Es x ++ [y]) (m_items Es x' ++ (fun _ => []) r ++ d)
    | BPanic x' d k => Permutation (m_items Es x ++ [y]) (m_items Es x' ++ d ++ k) | _ => True end).
  { destruct (with_bombs Es (spec1 (mix_spec Es) (o_put o x y) x)) as [x' r d|x' d k| |]; cbn [bdiscard]; auto.
    destruct (length _) as [|[|n]]; auto; change (items (mix_spec Es) x) with (m_items Es x) in W; cbn [app]; rewrite W; perm. }
  pose proof (bflat_balance _ _ (m_items Es) (fun _ => []) W2) as W3. rewrite flat_map_app in W3. cbn [flat_map] in W3. rewrite app_nil_r in W3. exact W3.
Qed.
Lemma merge_balanceb o (x y : mst Es) : legal2 (mix_spec Es) (o_merge o x) (x, y) ->
  match bflat e (bs2 (mix_bspec Es) (o_merge o x) (x, y)) with
  | BRet x' r d => Permutation (its (m_items Es x) ++ its (m_items Es y)) (its (m_items Es x'.1) ++ its (m_items Es x'.2) ++ d)
  | BPanic x' d k => Permutation (its (m_items Es x) ++ its (m_items Es y)) (its (m_items Es x'.1) ++ its (m_items Es x'.2) ++ d ++ k)
  | _ => True end.
Proof.
  intros HL. pose proof (bal2 _ obal (o_merge o x) (x, y) HL) as P. pose proof (merge_small e o x y) as Q.
  assert (Ew : bs2 (mix_bspec Es) (o_merge o x) (x, y) = with_bombs Es (spec2 (mix_spec Es) (o_merge o x) (x, y))) by exact (merge_wb e (sbomb e) o x y).
  rewrite Ew. clear Ew.
  assert (W : match spec2 (mix_spec Es) (o_merge o x) (x, y) with
    | SRet x' r d => Permutation (m_items Es x ++ m_items Es y) ((m_items Es x'.1 ++ m_items Es x'.2) ++ (fun _ => []) r ++ d)
    | SPanic x' d k => Permutation (m_items Es x ++ m_items Es y) ((m_items Es x'.1 ++ m_items Es x'.2) ++ d ++ k) end).
  { destruct (spec2 (mix_spec Es) (o_merge o x) (x, y)) as [x' r d|x' d k]; rewrite <- app_assoc; [|exact P].
    change (outs (mix_spec Es) r) with (m_outs r) in P. destruct (m_outs r); [exact P|cbn in Q; lia]. }
  pose proof (bflat_balance _ _ (fun x' => m_items Es x'.1 ++ m_items Es x'.2) (fun _ => []) (wb_balance _ _ (fun x' => m_items Es x'.1 ++ m_items Es x'.2) (fun _ => []) W)) as W3.
  rewrite flat_map_app in W3.
  destruct (bflat e (with_bombs Es (spec2 (mix_spec Es) (o_merge o x) (x, y)))) as [x' r d|x' d k| |]; auto; rewrite flat_map_app, <- app_assoc in W3; exact W3.
Qed.

Theorem nest_balancedb : balancedb (nest_spec e) (nest_bspec e).
Proof.
  constructor.
  - intros [o|o]; cbn [bs0 bg0 nest_bspec items nest_spec].
    + pose proof (bbal0 _ _ wbal o) as P. destruct (bs0 (walk_bspec e) o); exact P.
    + pose proof (new_balanceb o) as P. destruct (bflat e (bs0 (mix_bspec Es) _)) as [u x d|u d k| |]; exact P.
  - intros o x HL. destruct o as [o|i o|o], x as [y|x]; cbn [legal1 nest_spec] in HL; try contradiction; cbn [bs1 bg1 nest_bspec items nest_spec].
    + pose proof (bbal1 _ _ wbal o y HL) as P. destruct (bs1 (walk_bspec e) o y); exact P.
    + pose proof (at1_balancedb i (bs1 (walk_bspec e) o) x (bg1 (walk_bspec e) o) (outs (walk_spec e))) as P.
      assert (P1 : at_elem e i x True (fun v => match bs1 (walk_bspec e) o v with
        | BRet v' r d => Permutation (m_items e v ++ bg1 (walk_bspec e) o v) (m_items e v' ++ outs (walk_spec e) r ++ d)
        | BPanic v' d k => Permutation (m_items e v ++ bg1 (walk_bspec e) o v) (m_items e v' ++ d ++ k) | _ => True end)).
      { unfold at_elem in *. destruct (elem e i x); [|exact I]. exact (bbal1 _ _ wbal o _ HL). }
      specialize (P P1). destruct (bspec_at1 e i (bs1 (walk_bspec e) o) x); exact P.
    + pose proof (method_balanceb o x HL) as P. rewrite app_nil_r. destruct (bflat e (bs1 (mix_bspec Es) (o_method o x) x)); exact P.
  - intros o x HL. destruct o as [o|i o|o|o], x as [y|x]; cbn [legaln nest_spec] in HL; try contradiction; cbn [bsn bgn nest_bspec items nest_spec].
    + pose proof (bbaln _ _ wbal o y HL) as P. destruct (bsn (walk_bspec e) o y); exact P.
    + pose proof (at1_balancedb i (bsn (walk_bspec e) o) x (bgn (walk_bspec e) o) (m_items e)) as P.
      assert (P1 : at_elem e i x True (fun v => match bsn (walk_bspec e) o v with
        | BRet v' r d => Permutation (m_items e v ++ bgn (walk_bspec e) o v) (m_items e v' ++ m_items e r ++ d)
        | BPanic v' d k => Permutation (m_items e v ++ bgn (walk_bspec e) o v) (m_items e v' ++ d ++ k) | _ => True end)).
      { unfold at_elem in *. destruct (elem e i x); [|exact I]. exact (bbaln _ _ wbal o _ HL). }
      specialize (P P1). destruct (bspec_at1 e i (bsn (walk_bspec e) o) x); exact P.
    + pose proof (take_balanceb o x HL) as P. rewrite app_nil_r. destruct (bspec_take e o x); exact P.
    + pose proof (spawn_balanceb o x HL) as P. rewrite app_nil_r. destruct (bflat e (bsn (mix_bspec Es) (o_spawn e o x) x)); exact P.
  - intros o [x y] HL. destruct o as [o|i o|o|o], x as [x|x], y as [y|y]; cbn [legal2 nest_spec fst snd] in HL; try contradiction;
      cbn [bs2 nest_bspec nest_spec items fst snd].
    + pose proof (bbal2 _ _ wbal o (x, y) HL) as P. destruct (bs2 (walk_bspec e) o (x, y)) as [[? ?] ? ?|[? ?] ? ?| |]; exact P.
    + unfold bspec_at, at_elem in *. destruct (elem e i x) as [v|] eqn:E; cbn [bas_two bas_one nest_items fst snd]; [|rewrite !app_nil_r; reflexivity].
      destruct (elem_its e i x v E) as (rest & P & Q). pose proof (bbal2 _ _ wbal o (v, y) HL) as H.
      destruct (bs2 (walk_bspec e) o (v, y)) as [[v' y'] r d|[v' y'] d k| |]; cbn [bas_two bas_one nest_items fst snd outs nest_spec]; auto.
      * rewrite P, (Q v'). transitivity ((m_items e v ++ m_items e y) ++ rest); [perm|]. change (items (walk_spec e)) with (m_items e) in H. cbn [fst snd] in H. rewrite H. perm.
      * rewrite P, (Q v'). transitivity ((m_items e v ++ m_items e y) ++ rest); [perm|]. change (items (walk_spec e)) with (m_items e) in H. cbn [fst snd] in H. rewrite H. perm.
    + unfold bspec_put. assert (He : m_items e (m_empty e y) = []) by exact (m_empty_items e y).
      pose proof (put_balanceb o x y HL) as P.
      destruct (bflat e (bdiscard e (bs1 (mix_bspec Es) (o_put o x y) x))) as [x' r d|x' d k| |]; cbn [bas_two bas_one nest_items fst snd outs nest_spec]; auto;
        rewrite He; exact P.
    + pose proof (merge_balanceb o x y HL) as P.
      destruct (bflat e (bs2 (mix_bspec Es) (o_merge o x) (x, y))) as [[x' y'] r d|[x' y'] d k| |]; exact P.
  - intros [y|x]; cbn [bsk nest_bspec items nest_spec nest_items].
    + exact (bbalk _ _ (mix_bbalanced e) y).
    + pose proof (bbalk _ _ (mix_bbalanced Es) x) as P.
      assert (P1 : match bsk (mix_bspec Es) x with
        | BRet x' r d => Permutation (m_items Es x) ((fun _ => []) x' ++ (fun _ => []) r ++ d)
        | BPanic x' d k => Permutation (m_items Es x) ((fun _ => []) x' ++ d ++ k) | _ => True end) by exact P.
      pose proof (bflat_balance _ _ (fun _ => []) (fun _ => []) P1) as W. destruct (bflat e (bsk (mix_bspec Es) x)); exact W.
Qed.

Lemma bflat_open {S T} (b : bres (A := st) S T) : b <> BOpen -> bflat e b <> BOpen.
Proof. destruct b as [x r d|x d k| |]; cbn; try congruence. destruct (bsettle e d) as [[]|]; congruence. Qed.
Lemma one_open {S T S2 T2} (f : S -> S2) (h : T -> T2) (b : bres (A := A) S T) : b <> BOpen -> bas_one f h b <> BOpen.
Proof. destruct b; cbn; congruence. Qed.
Lemma discard_open {S} (b : bres (A := st) S (mres st)) : b <> BOpen -> bdiscard e b <> BOpen.
Proof. destruct b as [x r d|x d k| |]; cbn; try congruence. destruct (length _) as [|[|n]]; congruence. Qed.
Lemma at1_open {T} i (f : st -> bres (A := A) st T) x : at_elem e i x True (fun v => f v <> BOpen) -> bspec_at1 e i f x <> BOpen.
Proof. unfold bspec_at1, at_elem. destruct (elem e i x) as [v|]; [|discriminate]. destruct (f v); cbn; congruence. Qed.
Lemma at_open {Y T} i (f : st -> bres (A := A) (st * Y) T) x y : at_elem e i x True (fun v => f v <> BOpen) -> bspec_at e i f x y <> BOpen.
Proof. unfold bspec_at, at_elem. destruct (elem e i x) as [v|]; [|discriminate]. destruct (f v) as [[] ? ?|[] ? ?| |]; cbn; congruence. Qed.
Lemma put_spares o (x : mst Es) y : ~ mix_discards Es (o_put o x y) x.
Proof. destruct x, o; cbn; tauto. Qed.
Lemma take_spares o (x : mst Es) : ~ mix_discards Es (o_take o x) x.
Proof. destruct x, o; cbn; tauto. Qed.

Theorem nest_known p s : spares (nest_bspec e) (nest_discards e) p s -> brun (nest_bspec e) p s <> BUnknown.
Proof.
  destruct (known_calls _ _ (walk_known e)) as (W0 & W1 & Wn & W2 & Wk). destruct (known_calls _ _ (mix_known Es)) as (K0 & K1 & Kn & K2 & Kk).
  apply spares_known_weak; cbn [bs0 bs1 bsn bs2 bsk nest_bspec].
  - intros [o|o]; apply bmap_open; [apply W0|]. apply bflat_open, K0.
  - intros [o|i o|o] [y|x] HD; try discriminate; apply one_open; cbn [nest_discards] in HD.
    + apply W1, HD.
    + apply at1_open. unfold at_elem in *. destruct (elem e i x); [|exact I]. apply W1, HD.
    + apply bflat_open, K1, HD.
  - intros [o|i o|o|o] [y|x]; try discriminate; apply one_open.
    + apply Wn.
    + apply at1_open. unfold at_elem. destruct (elem e i x); [|exact I]. apply Wn.
    + unfold bspec_take. pose proof (bflat_open _ (K1 _ _ (take_spares o x))) as H.
      destruct (bflat e _) as [x' r d|x' d k| |]; try congruence. destruct (m_outs r) as [|v [|v2 l]]; discriminate.
    + apply bflat_open, Kn.
  - intros o [x y]. cbn [fst snd]. destruct o as [o|i o|o|o], x as [x|x], y as [y|y]; try discriminate; apply one_open.
    + apply W2.
    + apply at_open. unfold at_elem. destruct (elem e i x); [|exact I]. apply W2.
    + apply one_open. apply bflat_open, discard_open, K1, put_spares.
    + apply bflat_open, K2.
  - intros [y|x]; [|apply bflat_open; apply Kk]. destruct (known_calls _ _ (mix_known e)) as (_ & _ & _ & _ & Q). apply Q.
Qed.
End nest.
