(** * [InlineArray]: where things are in memory, and what the memory accesses do. *)
From Verif Require Import Machine Spec Prims ChunkModel InlineModel InlineSpec.

(** ** Arithmetic *)
Lemma pow2_pos a : pow2 a -> 0 < a.
Proof. intros [k ->]. induction k; cbn; lia. Qed.
Lemma pow2_le_divide a b : pow2 a -> pow2 b -> a <= b -> Nat.divide a b.
Proof.
  intros [i ->] [j ->] H. destruct (Nat.le_gt_cases i j) as [Hij|Hij].
  - exists (2 ^ (j - i)). rewrite <- Nat.pow_add_r. f_equal. lia.
  - exfalso. assert (2 ^ j < 2 ^ i) by (apply Nat.pow_lt_mono_r; lia). lia.
Qed.
Lemma pow2_max a b : pow2 a -> pow2 b -> pow2 (a `max` b).
Proof. intros Ha Hb. destruct (Nat.max_spec a b) as [[_ ->]|[_ ->]]; assumption. Qed.
Lemma divide_mod a b : 0 < a -> Nat.divide a b -> b mod a = 0.
Proof. intros Ha H. apply Nat.mod_divide; [lia|assumption]. Qed.
Lemma region (s i n j m : nat) : m < s -> (i * s <= j * s + m < (i + n) * s <-> i <= j < i + n).
Proof.
  intros Hm. split.
  - intros [H1 H2]. split.
    + destruct (Nat.le_gt_cases i j); [assumption|]. nia.
    + destruct (Nat.le_gt_cases (i + n) j); [|assumption]. nia.
  - intros [H1 H2]. split; nia.
Qed.
Lemma split_pos (s t n : nat) : t < n * s -> exists j m, t = j * s + m /\ j < n /\ m < s.
Proof.
  intros H. assert (s <> 0) by (intros ->; lia).
  exists (t / s), (t mod s). split; [rewrite (Nat.div_mod t s) at 1 by assumption; lia|].
  split; [|apply Nat.mod_upper_bound; assumption].
  apply Nat.div_lt_upper_bound; lia.
Qed.

Section proofs.
Context {A : Type} (e : env A) (L : layout).
Hypothesis WF : wf_layout e L.
Notation cap := (capacity e L).
Notation s := (size_a L).
(** Offsets of the header and of the first element. *)
Definition hoff : nat := header_skip e L * s.
Definition doff : nat := element_skip L * size_us L.

Lemma align_self_pow2 : pow2 (align_self L).
Proof. unfold align_self. repeat apply pow2_max; apply WF. Qed.
Lemma self_us : Nat.divide (align_us L) (align_self L).
Proof. apply pow2_le_divide; [apply WF|apply align_self_pow2|unfold align_self; lia]. Qed.
Lemma self_a : align_a L <= align_self L -> Nat.divide (align_a L) (align_self L).
Proof. intros H. apply pow2_le_divide; [apply WF|apply align_self_pow2|assumption]. Qed.
Lemma pos_a : 0 < align_a L. Proof. apply pow2_pos, WF. Qed.
Lemma pos_us : 0 < align_us L. Proof. apply pow2_pos, WF. Qed.
Lemma cap_s : s <> 0 -> cap * s <= size_t L - size_us L.
Proof.
  intros H. unfold capacity. replace (s =? 0) with false by lia.
  destruct (_ && _); [|lia]. rewrite Nat.mul_comm. apply Nat.mul_div_le. assumption.
Qed.
Lemma cap_word : cap < word e.
Proof.
  unfold capacity. pose proof (wf_word _ _ WF). destruct (s =? 0) eqn:E; [lia|].
  destruct (_ && _); [|lia].
  apply Nat.le_lt_trans with (size_t L - size_us L); [|lia]. apply Nat.div_le_upper_bound; [lia|]. nia.
Qed.
Lemma cap_align : s <> 0 -> cap <> 0 -> align_a L <= align_self L /\ size_us L < size_t L.
Proof.
  unfold capacity. intros Hs. replace (s =? 0) with false by lia.
  destruct ((align_a L <=? align_self L) && (size_us L <? size_t L)) eqn:E; lia.
Qed.
Lemma data_align : host_ok e L -> cap <> 0 -> Nat.divide (align_a L) (align_self L).
Proof.
  intros [_ H] Hc. destruct (Nat.eq_dec s 0) as [E|E]; [auto|]. apply self_a, cap_align; assumption.
Qed.

(** The header is inside the object and aligned. *)
Lemma header_in : size_us L < size_t L -> hoff + size_us L <= size_t L.
Proof.
  intros H. unfold hoff, header_skip. destruct (Nat.eq_dec s 0) as [E|E]; [nia|].
  pose proof (cap_s E). unfold element_skip. destruct (header_first L); nia.
Qed.
Lemma header_aligned b : placed L b -> (b + hoff) mod align_us L = 0.
Proof.
  intros Hb. apply divide_mod; [apply pos_us|]. apply Nat.divide_add_r.
  - etransitivity; [apply self_us|exact Hb].
  - unfold hoff, header_skip, element_skip. destruct (header_first L) eqn:E.
    + rewrite Nat.mul_0_r. apply Nat.divide_0_r.
    + apply Nat.divide_mul_r. transitivity (align_a L); [|apply WF].
      unfold header_first in E. apply pow2_le_divide; [apply WF|apply WF|lia].
Qed.
(** So are the elements. *)
Lemma elements_in : size_us L < size_t L -> doff + cap * s <= size_t L.
Proof.
  intros H. unfold doff, element_skip. destruct (Nat.eq_dec s 0) as [E|E].
  - rewrite E. destruct (header_first L); lia.
  - pose proof (cap_s E). destruct (header_first L); lia.
Qed.
Lemma element_aligned b i : host_ok e L -> cap <> 0 -> placed L b -> (b + (doff + i * s)) mod align_a L = 0.
Proof.
  intros Hh Hc Hb. apply divide_mod; [apply pos_a|]. apply Nat.divide_add_r; [|apply Nat.divide_add_r].
  - etransitivity; [apply data_align; assumption|exact Hb].
  - unfold doff, element_skip. destruct (header_first L) eqn:E; [|apply Nat.divide_0_r].
    rewrite Nat.mul_1_l. transitivity (align_us L); [|apply WF].
    unfold header_first in E. apply pow2_le_divide; [apply WF|apply WF|lia].
  - apply Nat.divide_mul_r, WF.
Qed.
(** They do not overlap. *)
Lemma disjoint p : hoff <= p < hoff + size_us L -> ~ (doff <= p < doff + cap * s).
Proof.
  unfold hoff, doff, header_skip, element_skip. destruct (header_first L); nia.
Qed.

(** ** Contents.  The header contains [n], slot [j] contains [f j], [k] values are alive; every other byte is
    uninitialised. *)
Definition cell (m : nat) (a : A) : byte A := if m =? 0 then BHead a else BTail m.
Definition IRep (c : inline A) (n : nat) (f : mem A) (k : nat) : Prop :=
  (forall i, i < size_us L -> bytes c (hoff + i) = Some (BLen n i)) /\
  (forall j m, j < cap -> m < s -> bytes c (doff + (j * s + m)) = cell m <$> f j) /\
  (forall p, ~ (hoff <= p < hoff + size_us L) -> ~ (doff <= p < doff + cap * s) -> bytes c p = None) /\
  (if s =? 0 then length (zst c) = k else zst c = []).
Notation pdata := (if cap =? 0 then Dangling else At doff).
Notation slot i := (At (doff + i * s)).

Hypothesis HOST : host_ok e L.
Lemma host_size : size_us L < size_t L. Proof. apply HOST. Qed.
Implicit Types (c : inline A) (f h : mem A) (g : log A) (b n k i j m : nat) (a v : A).

Lemma IRep_ext c n f h k : (forall j, j < cap -> f j = h j) -> IRep c n f k -> IRep c n h k.
Proof.
  intros E (H1 & H2 & H3 & H4). split; [exact H1|]. split; [|split; [exact H3|exact H4]].
  intros j m Hj Hm. rewrite <- E by assumption. auto.
Qed.
Lemma IRep_count c n f k k' : (s = 0 -> k = k') -> IRep c n f k -> IRep c n f k'.
Proof.
  intros E (H1 & H2 & H3 & H4). split; [exact H1|]. split; [exact H2|]. split; [exact H3|].
  destruct (s =? 0) eqn:E0; [|exact H4]. rewrite <- E by lia. exact H4.
Qed.

Lemma mem_forallb (P : nat -> bool) x n : (forall i, x <= i < x + n -> P i = true) -> forallb P (seq x n) = true.
Proof. intros H. apply forallb_forall. intros i Hi. apply in_seq in Hi. apply H. lia. Qed.

(** Where bytes are. *)
Lemma in_area j m : j < cap -> m < s -> doff <= doff + (j * s + m) < doff + cap * s.
Proof. intros. split; [lia|]. nia. Qed.
Lemma not_header j m : j < cap -> m < s ->
  ~ (hoff <= doff + (j * s + m) < hoff + size_us L).
Proof. intros Hj Hm H. eapply disjoint; [exact H|]. apply in_area; assumption. Qed.
Lemma area_split p : doff <= p < doff + cap * s -> exists j m, p = doff + (j * s + m) /\ j < cap /\ m < s.
Proof.
  intros Hp. destruct (split_pos s (p - doff) cap) as (j & m & E & Hj & Hm); [lia|].
  exists j, m. split; [lia|auto].
Qed.

(** Pointers. *)
Lemma len_ptr_ok b c g : placed L b -> ia_len_ptr e L b c g = Ret c g (At hoff).
Proof.
  intros Hb. unfold ia_len_ptr. erewrite bind_Ret.
  2:{ unfold ptr_add. pose proof (header_in host_size) as Hin.
      change (0 + header_skip e L * s) with hoff.
      rewrite if_true by lia. reflexivity. }
  erewrite bind_Ret by (apply debug_assert_ok; cbn [aligned_at];
    rewrite header_aligned by assumption; reflexivity).
  reflexivity.
Qed.
Lemma data_ok b c g : placed L b -> ia_data e L b c g = Ret c g pdata.
Proof.
  intros Hb. unfold ia_data. destruct (cap =? 0) eqn:E; [reflexivity|].
  erewrite bind_Ret.
  2:{ unfold ptr_add. pose proof (elements_in host_size) as Hin.
      change (0 + element_skip L * size_us L) with doff.
      rewrite if_true by lia. reflexivity. }
  erewrite bind_Ret.
  2:{ apply debug_assert_ok; cbn [aligned_at].
      pose proof (element_aligned b 0 HOST ltac:(lia) Hb) as H0. rewrite Nat.mul_0_l, Nat.add_0_r in H0.
      rewrite H0. reflexivity. }
  reflexivity.
Qed.
Lemma ptr_add_ok i d (c : inline A) g : cap <> 0 -> i + d <= cap ->
  ptr_add L (slot i) d s c g = Ret c g (slot (i + d)).
Proof.
  intros H0 H. unfold ptr_add. pose proof (elements_in host_size) as Hin.
  rewrite if_true by nia. unfold ret. do 2 f_equal. lia.
Qed.
Lemma ptr_add_data_ok i (c : inline A) g : i < cap -> ptr_add L pdata i s c g = Ret c g (slot i).
Proof.
  intros H. rewrite if_false by lia.
  pose proof (ptr_add_ok 0 i c g) as E. rewrite Nat.mul_0_l, Nat.add_0_r in E. apply E; lia.
Qed.
Lemma ptr_at_ok b i c g : placed L b -> i < cap -> ia_ptr_at e L b i c g = Ret c g (slot i).
Proof.
  intros Hb H. unfold ia_ptr_at. erewrite bind_Ret by (apply debug_assert_ok; lia).
  erewrite bind_Ret by (apply data_ok; assumption). apply ptr_add_data_ok; assumption.
Qed.
Lemma valid_slot b i n : placed L b -> cap <> 0 -> i + n <= cap ->
  valid L b (slot i) (n * s) (align_a L) = true.
Proof.
  intros Hb H0 H. unfold valid, aligned_at. rewrite element_aligned by assumption.
  pose proof (elements_in host_size). cbn. nia.
Qed.
Lemma valid_slot1 b i : placed L b -> i < cap -> valid L b (slot i) s (align_a L) = true.
Proof. intros Hb H. pose proof (valid_slot b i 1 Hb ltac:(lia) ltac:(lia)) as E. rewrite Nat.mul_1_l in E. exact E. Qed.
Lemma valid_data b n : placed L b -> n <= cap -> valid L b pdata (n * s) (align_a L) = true.
Proof.
  intros Hb H. destruct (cap =? 0) eqn:E.
  - unfold valid, aligned_at. assert (n = 0) as -> by lia. reflexivity.
  - pose proof (valid_slot b 0 n Hb ltac:(lia) ltac:(lia)) as E1. rewrite Nat.mul_0_l, Nat.add_0_r in E1. exact E1.
Qed.
Lemma valid_header b : placed L b -> valid L b (At hoff) (size_us L) (align_us L) = true.
Proof.
  intros Hb. unfold valid, aligned_at. rewrite header_aligned by assumption. pose proof (header_in host_size). cbn. lia.
Qed.

(** The header. *)
Lemma len_ok b c n f k g : placed L b -> IRep c n f k -> ia_len e L b c g = Ret c g n.
Proof.
  intros Hb (H1 & _). unfold ia_len. erewrite bind_Ret by (apply len_ptr_ok; assumption).
  unfold usize_read. rewrite valid_header by assumption. cbn [negb].
  pose proof (wf_us_pos _ _ WF) as Hpos.
  pose proof (H1 0 Hpos) as E. rewrite Nat.add_0_r in E. rewrite E.
  rewrite mem_forallb; [reflexivity|]. intros i Hi. rewrite H1 by lia. unfold is_byte_of_len.
  rewrite !Nat.eqb_refl. reflexivity.
Qed.
Lemma usize_write_fresh b n' c g : placed L b ->
  (forall i, i < size_us L -> not_elem (bytes c (hoff + i)) = true) ->
  usize_write L b (At hoff) n' c g =
  Ret (Inline (fun q => if (hoff <=? q) && (q <? hoff + size_us L) then Some (BLen n' (q - hoff))
                        else bytes c q) (zst c)) g tt.
Proof.
  intros Hb Hn. unfold usize_write. rewrite valid_header by assumption. cbn [negb].
  rewrite mem_forallb; [reflexivity|]. intros i Hi. apply Hn. lia.
Qed.
Lemma set_len_ok b n' c n f k g : placed L b -> IRep c n f k ->
  exists c', ia_set_len e L b n' c g = Ret c' g tt /\ IRep c' n' f k.
Proof.
  intros Hb (H1 & H2 & H3 & H4). eexists. split.
  - unfold ia_set_len. erewrite bind_Ret by (apply len_ptr_ok; assumption).
    apply usize_write_fresh; [assumption|]. intros i Hi. rewrite H1 by assumption. reflexivity.
  - split; [|split; [|split]]; cbn [bytes zst].
    + intros i Hi. rewrite if_true by lia. do 2 f_equal. lia.
    + intros j m Hj Hm. pose proof (not_header j m Hj Hm). rewrite if_false by lia. auto.
    + intros p Hp Hq. rewrite if_false by lia. auto.
    + exact H4.
Qed.

(** Elements. *)
Lemma decode_ok c n f k i : IRep c n f k -> s <> 0 -> i < cap -> decode L (bytes c) (doff + i * s) = f i.
Proof.
  intros (_ & H2 & _) Hs Hi. unfold decode.
  pose proof (H2 i 0 Hi ltac:(lia)) as E. rewrite Nat.add_0_r in E. rewrite E.
  destruct (f i) as [a|] eqn:Ef; [|reflexivity]. cbn.
  rewrite mem_forallb; [reflexivity|]. intros m Hm. rewrite <- Nat.add_assoc, H2 by lia. rewrite Ef. cbn.
  unfold cell. rewrite if_false by lia. cbn. apply Nat.eqb_refl.
Qed.
(** The bytes of slots [i .. i+d). *)
Lemma in_slots i d j m : j < cap -> m < s ->
  ((doff + i * s <=? doff + (j * s + m)) && (doff + (j * s + m) <? doff + i * s + d * s)) =
  ((i <=? j) && (j <? i + d)).
Proof. intros Hj Hm. pose proof (region s i d j m Hm). lia. Qed.
Lemma slots_area i d p : i + d <= cap -> doff + i * s <= p < doff + i * s + d * s -> doff <= p < doff + cap * s.
Proof. intros. nia. Qed.
Lemma cleared c n f k i d : IRep c n f k -> s <> 0 -> i + d <= cap ->
  IRep (Inline (clear_bytes (bytes c) (doff + i * s) (d * s)) (zst c)) n (mclear f i d) k.
Proof.
  intros (H1 & H2 & H3 & H4) Hs Hd. split; [|split; [|split]]; cbn [bytes zst]; unfold clear_bytes.
  - intros x Hx. pose proof (disjoint (hoff + x) ltac:(lia)) as Hno.
    pose proof (slots_area i d (hoff + x) Hd) as Har. rewrite if_false by lia. auto.
  - intros j m Hj Hm. rewrite in_slots by assumption. unfold mclear. destruct (_ && _); [reflexivity|]. auto.
  - intros p Hp Hq. pose proof (slots_area i d p Hd). rewrite if_false by lia. auto.
  - exact H4.
Qed.

Lemma elem_read_ok b i a c n f k g : placed L b -> IRep c n f k -> i < cap -> f i = Some a -> 0 < k ->
  exists c', elem_read L b (slot i) c g = Ret c' g a /\ IRep c' n (upd f i None) (k - 1).
Proof.
  intros Hb H Hi Ha Hk. unfold elem_read. rewrite valid_slot1 by assumption. cbn [negb].
  destruct (s =? 0) eqn:E.
  - destruct H as (H1 & H2 & H3 & H4). rewrite E in H4. destruct (zst c) as [|x z] eqn:Ez; [cbn in H4; lia|].
    rewrite (wf_zst _ _ WF ltac:(lia) x a). eexists. split; [reflexivity|].
    split; [exact H1|]. split; [intros; lia|]. split; [exact H3|]. rewrite E. cbn in *. lia.
  - rewrite (decode_ok c n f k) by (assumption || lia). rewrite Ha.
    eexists. split; [reflexivity|].
    pose proof (cleared c n f k i 1 H ltac:(lia) ltac:(lia)) as Hc. rewrite Nat.mul_1_l in Hc.
    eapply IRep_count; [|eapply IRep_ext; [|exact Hc]]; [lia|].
    intros j Hj. unfold mclear, upd. replace ((i <=? j) && (j <? i + 1)) with (j =? i) by lia. reflexivity.
Qed.
Lemma elem_write_ok b i a c n f k g : placed L b -> IRep c n f k -> i < cap -> f i = None ->
  exists c', elem_write L b (slot i) a c g = Ret c' (log_write 1 g) tt /\ IRep c' n (upd f i (Some a)) (k + 1).
Proof.
  intros Hb (H1 & H2 & H3 & H4) Hi Ha. unfold elem_write. rewrite valid_slot1 by assumption. cbn [negb].
  destruct (s =? 0) eqn:E.
  - eexists. split; [reflexivity|].
    split; [exact H1|]. split; [intros; lia|]. split; [exact H3|]. rewrite E. cbn in *. lia.
  - rewrite mem_forallb.
    2:{ intros m Hm. rewrite <- Nat.add_assoc, H2 by lia. rewrite Ha. reflexivity. }
    eexists. split; [reflexivity|]. split; [|split; [|split]]; cbn [bytes zst].
    + intros x Hx. pose proof (disjoint (hoff + x) ltac:(lia)) as Hno.
      pose proof (slots_area i 1 (hoff + x) ltac:(lia)) as Har. rewrite if_false by lia. auto.
    + intros j m Hj Hm. pose proof (in_slots i 1 j m Hj Hm) as Hin. rewrite Nat.mul_1_l in Hin. rewrite Hin.
      unfold upd. destruct (j =? i) eqn:Ej.
      * rewrite if_true by lia. assert (j = i) as -> by lia. cbn. unfold cell.
        destruct (m =? 0) eqn:Em.
        -- rewrite if_true by lia. reflexivity.
        -- rewrite if_false by lia. do 2 f_equal. lia.
      * rewrite if_false by lia. auto.
    + intros p Hp Hq. pose proof (slots_area i 1 p ltac:(lia)). rewrite if_false by lia. auto.
    + rewrite E. exact H4.
Qed.
Lemma elems_move_ok b from to d c n f k g : placed L b -> IRep c n f k -> cap <> 0 ->
  from + d <= cap -> to + d <= cap ->
  (forall p, to <= p < to + d -> ~ (from <= p < from + d) -> f p = None) ->
  exists c', elems_move L b (slot from) (slot to) d c g = Ret c' (log_write d g) tt /\
             IRep c' n (mmove f from to d) k.
Proof.
  intros Hb H H0 Hf Ht Hfree. unfold elems_move. rewrite !valid_slot by assumption. cbn [andb negb].
  destruct (s =? 0) eqn:E.
  - eexists. split; [reflexivity|]. destruct H as (H1 & H2 & H3 & H4).
    split; [exact H1|]. split; [intros; lia|]. split; [exact H3|]. exact H4.
  - pose proof (cleared c n f k from d H ltac:(lia) Hf) as (C1 & C2 & C3 & C4). cbn [bytes] in *.
    destruct H as (H1 & H2 & H3 & H4).
    rewrite mem_forallb.
    2:{ intros x Hx. destruct (split_pos s x d) as (j & m & -> & Hj & Hm); [lia|].
        replace (doff + to * s + (j * s + m)) with (doff + ((to + j) * s + m)) by lia.
        rewrite C2 by lia. unfold mclear.
        destruct ((from <=? to + j) && (to + j <? from + d)) eqn:E1; [reflexivity|].
        rewrite Hfree by lia. reflexivity. }
    eexists. split; [reflexivity|]. split; [|split; [|split]]; cbn [bytes zst].
    + intros x Hx. pose proof (disjoint (hoff + x) ltac:(lia)) as Hno.
      pose proof (slots_area to d (hoff + x) ltac:(lia)) as Har. rewrite if_false by lia. auto.
    + intros j m Hj Hm. rewrite in_slots by assumption. unfold mmove.
      destruct ((to <=? j) && (j <? to + d)) eqn:E1.
      * replace (doff + from * s + (doff + (j * s + m) - (doff + to * s)))
          with (doff + ((from + (j - to)) * s + m)) by nia.
        apply H2; lia.
      * rewrite C2 by assumption. reflexivity.
    + intros p Hp Hq. pose proof (slots_area to d p ltac:(lia)). rewrite if_false by lia. auto.
    + exact H4.
Qed.

Lemma zst_lists (l1 l2 : list A) : s = 0 -> length l1 = length l2 -> l1 = l2.
Proof.
  intros Hs. revert l2. induction l1 as [|x l1 IH]; intros [|y l2] E; cbn in *; try lia; [reflexivity|].
  rewrite (wf_zst _ _ WF Hs x y). f_equal. apply IH. lia.
Qed.
(** Slices of [length l] elements holding [l], from slot [i] or at the beginning. *)
Lemma elems_peek_ok b i l c n f k g : placed L b -> IRep c n f k -> cap <> 0 -> i + length l <= cap ->
  (forall j, j < length l -> f (i + j) = l !! j) -> length l <= k ->
  elems_peek L b (slot i) (length l) c g = Ret c g l.
Proof.
  intros Hb H H0 Hi Hl Hk. unfold elems_peek. rewrite valid_slot by assumption. cbn [negb].
  destruct (s =? 0) eqn:E.
  - destruct H as (H1 & H2 & H3 & H4). rewrite E in H4. rewrite if_true by lia. f_equal.
    apply zst_lists; [lia|]. rewrite take_length. lia.
  - erewrite mapM_seq'; [reflexivity|reflexivity|]. intros j Hj. cbn [plus].
    replace (doff + i * s + j * s) with (doff + (i + j) * s) by lia.
    rewrite (decode_ok c n f k) by (assumption || lia). auto.
Qed.
Lemma data_slot : cap <> 0 -> pdata = slot 0.
Proof. intros H. rewrite if_false by lia. f_equal. lia. Qed.
Lemma data_peek_ok b l c n f k g : placed L b -> IRep c n f k -> length l <= cap ->
  (forall j, j < length l -> f j = l !! j) -> length l <= k ->
  elems_peek L b pdata (length l) c g = Ret c g l.
Proof.
  intros Hb H Hi Hl Hk. destruct (Nat.eq_dec cap 0) as [E|E].
  - assert (l = []) as -> by (apply length_zero_iff_nil; lia).
    rewrite if_true by lia. unfold elems_peek, valid, aligned_at. cbn.
    destruct (s =? 0); reflexivity.
  - rewrite data_slot by assumption. eapply elems_peek_ok; try eassumption; auto.
Qed.
Lemma elems_take_ok b i l c n f k g : placed L b -> IRep c n f k -> cap <> 0 -> i + length l <= cap ->
  (forall j, j < length l -> f (i + j) = l !! j) -> length l <= k ->
  exists c', elems_take L b (slot i) (length l) c g = Ret c' g l /\
             IRep c' n (mclear f i (length l)) (k - length l).
Proof.
  intros Hb H H0 Hi Hl Hk. unfold elems_take. erewrite bind_Ret by (eapply elems_peek_ok; eassumption).
  eexists. split; [reflexivity|]. destruct (s =? 0) eqn:E.
  - destruct H as (H1 & H2 & H3 & H4).
    split; [exact H1|]. split; [intros; lia|]. split; [exact H3|].
    rewrite E in *. cbn [zst]. rewrite drop_length. lia.
  - apply IRep_count with k; [lia|]. apply cleared; [assumption|lia|assumption].
Qed.
Lemma data_take_ok b l c n f k g : placed L b -> IRep c n f k -> length l <= cap ->
  (forall j, j < length l -> f j = l !! j) -> length l <= k ->
  exists c', elems_take L b pdata (length l) c g = Ret c' g l /\
             IRep c' n (mclear f 0 (length l)) (k - length l).
Proof.
  intros Hb H Hi Hl Hk. destruct (Nat.eq_dec cap 0) as [E|E].
  - assert (l = []) as -> by (apply length_zero_iff_nil; lia).
    unfold elems_take. erewrite bind_Ret.
    2:{ apply (data_peek_ok b [] c n f k); auto; cbn; lia. }
    rewrite if_true by lia. eexists. split; [reflexivity|].
    apply IRep_ext with f; [intros; lia|]. cbn [length]. rewrite Nat.sub_0_r.
    destruct H as (H1 & H2 & H3 & H4). destruct (s =? 0) eqn:E0.
    + split; [exact H1|]. split; [intros; lia|]. split; [exact H3|]. rewrite E0. exact H4.
    + split; [exact H1|]. split; [exact H2|]. split; [exact H3|]. rewrite E0. exact H4.
  - rewrite data_slot by assumption. eapply elems_take_ok; try eassumption; auto.
Qed.
(** The same memory with [vs] put in the slots from [i] on. *)
Definition mput f i (vs : list A) : mem A :=
  fun p => if (i <=? p) && (p <? i + length vs) then vs !! (p - i) else f p.
Lemma elems_put_ok b i vs c n f k g : placed L b -> IRep c n f k -> cap <> 0 -> i + length vs <= cap ->
  (forall j, i <= j < i + length vs -> f j = None) ->
  exists c' g', elems_put L b (slot i) vs c g = Ret c' g' tt /\ IRep c' n (mput f i vs) (k + length vs) /\
    dropped g' = dropped g /\ leaked g' = leaked g.
Proof.
  intros Hb. revert i c f k g. induction vs as [|a vs IH]; intros i c f k g H H0 Hi Hf; cbn [elems_put length] in *.
  - exists c, g. split; [reflexivity|]. split; [|auto]. rewrite Nat.add_0_r. eapply IRep_ext; [|exact H].
    intros j _. unfold mput. cbn [length]. rewrite if_false by lia. reflexivity.
  - destruct (elem_write_ok b i a c n f k g Hb H ltac:(lia) (Hf i ltac:(lia))) as (c1 & E1 & H1).
    erewrite bind_Ret by exact E1. erewrite bind_Ret by (apply ptr_add_ok; lia).
    destruct (IH (i + 1) c1 (upd f i (Some a)) (k + 1) (log_write 1 g) H1 H0 ltac:(lia)) as (c2 & g2 & E2 & H2 & E3 & E4).
    { intros j Hj. unfold upd. rewrite if_false by lia. apply Hf. lia. }
    exists c2, g2. split; [exact E2|]. split; [|auto].
    eapply IRep_count; [|eapply IRep_ext; [|exact H2]]; [lia|].
    intros j Hj. unfold mput, upd. cbn [length].
    repeat split_if; try lia; try reflexivity.
    + rewrite lookup_cons_if, if_false by lia. f_equal. lia.
    + assert (j = i) as -> by lia. rewrite Nat.sub_diag. reflexivity.
Qed.
Lemma data_put_ok b vs c n f k g : placed L b -> IRep c n f k -> length vs <= cap ->
  (forall j, j < length vs -> f j = None) ->
  exists c' g', elems_put L b pdata vs c g = Ret c' g' tt /\ IRep c' n (mput f 0 vs) (k + length vs) /\
    dropped g' = dropped g /\ leaked g' = leaked g.
Proof.
  intros Hb H Hi Hf. destruct (Nat.eq_dec cap 0) as [E|E].
  - assert (vs = []) as -> by (apply length_zero_iff_nil; lia).
    exists c, g. split; [reflexivity|]. split; [|auto]. cbn [length]. rewrite Nat.add_0_r.
    eapply IRep_ext; [|exact H]. intros; lia.
  - rewrite data_slot by assumption. eapply elems_put_ok; try eassumption. intros; apply Hf; lia.
Qed.

(** What is still stored when the object disappears. *)
Lemma leftover_none c n f k : IRep c n f k -> (forall j, j < cap -> f j = None) -> k = 0 -> leftover L c = [].
Proof.
  intros (H1 & H2 & H3 & H4) Hf ->. unfold leftover.
  assert (zst c = []) as ->. { destruct (s =? 0); [apply length_zero_iff_nil|]; assumption. }
  rewrite app_nil_r. apply omap_seq_nil. intros p Hp.
  destruct (Nat.le_gt_cases hoff p) as [Ha|Ha]; [destruct (Nat.lt_ge_cases p (hoff + size_us L)) as [Hc|Hc]|].
  - replace p with (hoff + (p - hoff)) by lia. rewrite H1 by lia. reflexivity.
  - destruct (Nat.le_gt_cases doff p) as [Hd|Hd]; [destruct (Nat.lt_ge_cases p (doff + cap * s)) as [He|He]|].
    + destruct (area_split p ltac:(lia)) as (j & m & -> & Hj & Hm). rewrite H2, Hf by assumption. reflexivity.
    + rewrite H3 by lia. reflexivity.
    + rewrite H3 by lia. reflexivity.
  - destruct (Nat.le_gt_cases doff p) as [Hd|Hd]; [destruct (Nat.lt_ge_cases p (doff + cap * s)) as [He|He]|].
    + destruct (area_split p ltac:(lia)) as (j & m & -> & Hj & Hm). rewrite H2, Hf by assumption. reflexivity.
    + rewrite H3 by lia. reflexivity.
    + rewrite H3 by lia. reflexivity.
Qed.
Definition head_of (x : option (byte A)) : option A := match x with Some (BHead a) => Some a | _ => None end.
Lemma heads_outside c n f k x d : IRep c n f k -> (forall p, x <= p < x + d -> ~ (doff <= p < doff + cap * s)) ->
  omap (fun q => head_of (bytes c q)) (seq x d) = [].
Proof.
  intros (H1 & H2 & H3 & H4) Hout. apply omap_seq_nil. intros p Hp.
  destruct (Nat.le_gt_cases hoff p) as [Ha|Ha]; [destruct (Nat.lt_ge_cases p (hoff + size_us L)) as [Hc|Hc]|].
  - replace p with (hoff + (p - hoff)) by lia. rewrite H1 by lia. reflexivity.
  - rewrite H3; [reflexivity|lia|auto].
  - rewrite H3; [reflexivity|lia|auto].
Qed.
Lemma heads_area c n f k d : IRep c n f k -> s <> 0 -> d <= cap ->
  omap (fun q => head_of (bytes c q)) (seq doff (d * s)) = omap f (seq 0 d).
Proof.
  intros (H1 & H2 & H3 & H4) Hs. induction d as [|d IH]; intros Hd; [reflexivity|].
  replace (S d * s) with (d * s + (1 + (s - 1))) by lia.
  rewrite seq_app, omap_app', IH by lia. rewrite (seq_S d 0), omap_app'. f_equal.
  rewrite (seq_app 1 (s - 1)), omap_app'.
  rewrite (omap_seq_nil _ (doff + d * s + 1)).
  2:{ intros p Hp. replace p with (doff + (d * s + (p - doff - d * s))) by lia.
      rewrite H2 by lia. destruct (f d); [|reflexivity]. cbn. unfold cell. rewrite if_false by lia. reflexivity. }
  rewrite app_nil_r. cbn [seq omap list_omap].
  replace (doff + d * s) with (doff + (d * s + 0)) by lia. rewrite H2 by lia. cbn [plus].
  destruct (f d); reflexivity.
Qed.
Lemma leftover_live c n f k l : IRep c n f k -> (forall j, j < cap -> f j = l !! j) -> k = length l ->
  length l <= cap -> leftover L c = l.
Proof.
  intros H Hf -> Hl. unfold leftover.
  change (omap _ (seq 0 (size_t L))) with (omap (fun q => head_of (bytes c q)) (seq 0 (size_t L))).
  pose proof (elements_in host_size) as Hin.
  replace (size_t L) with (doff + (cap * s + (size_t L - (doff + cap * s)))) by lia.
  rewrite !seq_app, !omap_app'. cbn [plus].
  rewrite (heads_outside c n f (length l) 0 doff H) by lia.
  rewrite (heads_outside c n f (length l) (doff + cap * s) _ H) by lia.
  rewrite app_nil_r. cbn [app].
  destruct (s =? 0) eqn:E.
  - replace (cap * s) with 0 by nia. cbn. destruct H as (H1 & H2 & H3 & H4). rewrite E in H4.
    apply zst_lists; [lia|assumption].
  - rewrite (heads_area c n f (length l) cap H) by lia.
    destruct H as (H1 & H2 & H3 & H4). rewrite E in H4. rewrite H4, app_nil_r.
    apply (omap_window _ _ 0); [lia|]. intros p Hp. rewrite Hf by assumption. cbn. f_equal. lia.
Qed.
End proofs.
