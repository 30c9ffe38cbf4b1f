(** * The machines the models run on miss no illegal access.

    The definitions of Machine.v, of the first part of InlineModel.v and of the first part of BorrowModel.v stand for the
    hardware and the language.  Here: if one of their operations does not report undefined behaviour, then what it did was
    allowed, and its effect is the one of the Rust operation it stands for. *)
From stdpp Require Import list_numbers.
From Verif Require Import Machine Prims.
From Verif Require InlineModel BorrowModel.

Definition fine {A O R} (x : outcome A O R) : Prop := forall u, x <> UB u.

(** ** [usize] arithmetic: the panic of debug builds exactly on overflow, else arithmetic modulo [word]. *)
Lemma machine_add {A O} (e : env A) (o : O) g a b : a < word e -> b < word e ->
  uadd e a b o g = if (word e <=? a + b) && debug e then Panic o g else Ret o g ((a + b) mod word e).
Proof.
  intros Ha Hb. unfold uadd. destruct (a + b <? word e) eqn:E.
  - replace (word e <=? a + b) with false by lia. rewrite Nat.mod_small by lia. reflexivity.
  - replace (word e <=? a + b) with true by lia. destruct (debug e); [reflexivity|]. cbn [andb]. unfold ret. f_equal.
    apply (Nat.mod_unique _ _ 1); lia.
Qed.
Lemma machine_sub {A O} (e : env A) (o : O) g a b : a < word e -> b < word e ->
  usub e a b o g = if (a <? b) && debug e then Panic o g else Ret o g ((a + (word e - b)) mod word e).
Proof.
  intros Ha Hb. unfold usub. destruct (b <=? a) eqn:E.
  - replace (a <? b) with false by lia. cbn [andb]. unfold ret. f_equal. destruct (Nat.eq_dec b 0) as [->|Hz].
    + rewrite !Nat.sub_0_r. apply (Nat.mod_unique _ _ 1); lia.
    + apply (Nat.mod_unique _ _ 1); lia.
  - replace (a <? b) with true by lia. destruct (debug e); [reflexivity|]. cbn [andb]. unfold ret. f_equal.
    replace (a + (word e - b)) with (a + word e - b) by lia. symmetry. apply Nat.mod_small. lia.
Qed.

(** ** Slots *)
Section slots.
Context {A O : Type} `{HasMem A O} (e : env A) (N : nat).
Implicit Types (o : O) (g : log A).
Lemma machine_read i o g : fine (slot_read N i o g) -> i < N /\ exists a, getm o i = Some a /\
  slot_read N i o g = Ret (setm (upd (getm o) i None) o) g a.
Proof.
  unfold slot_read. destruct (i <? N) eqn:E; [|intros F; destruct (F OutOfBounds eq_refl)].
  destruct (getm o i); [|intros F; destruct (F DeadSlot eq_refl)]. intros _. split; [lia|eauto].
Qed.
Lemma machine_peek i o g : fine (slot_peek N i o g) -> i < N /\ exists a, getm o i = Some a /\ slot_peek N i o g = Ret o g a.
Proof.
  unfold slot_peek. destruct (i <? N) eqn:E; [|intros F; destruct (F OutOfBounds eq_refl)].
  destruct (getm o i); [|intros F; destruct (F DeadSlot eq_refl)]. intros _. split; [lia|eauto].
Qed.
Lemma machine_write i a o g : fine (slot_write N i a o g) -> i < N /\
  exists g', slot_write N i a o g = Ret (setm (upd (getm o) i (Some a)) o) g' tt /\ writes g' = writes g + 1 /\
  dropped g' = dropped g /\ leaked g' = leaked g ++ (match getm o i with Some x => [x] | None => [] end).
Proof.
  unfold slot_write. destruct (i <? N) eqn:E; [|intros F; destruct (F OutOfBounds eq_refl)].
  intros _. split; [lia|]. eexists. split; [reflexivity|]. cbn. destruct (getm o i); auto.
Qed.
Lemma machine_move from to n o g : fine (slots_move N from to n o g) -> from + n <= N /\ to + n <= N /\
  exists g', slots_move N from to n o g = Ret (setm (mmove (getm o) from to n) o) g' tt /\ writes g' = writes g + n /\
  dropped g' = dropped g /\
  forall a, In a (leaked g') <-> In a (leaked g) \/ exists p, to <= p < to + n /\ ~ from <= p < from + n /\ getm o p = Some a.
Proof.
  unfold slots_move. destruct ((from + n <=? N) && (to + n <=? N)) eqn:E; [|intros F; destruct (F OutOfBounds eq_refl)].
  intros _. split; [lia|]. split; [lia|]. eexists. split; [reflexivity|]. cbn. split; [reflexivity|]. split; [reflexivity|].
  intros a. rewrite in_app_iff. unfold overwritten. rewrite <- (elem_of_list_In (omap _ _)), elem_of_list_omap.
  split; (intros [H0|(p & H1 & H2)]; [left; exact H0|right]).
  - rewrite elem_of_list_In, in_seq in H1. destruct ((from <=? p) && (p <? from + n)) eqn:E1; [discriminate|].
    exists p. split; [lia|]. split; [lia|exact H2].
  - destruct H2 as [H2 H3]. exists p. rewrite elem_of_list_In, in_seq.
    replace ((from <=? p) && (p <? from + n)) with false by lia. split; [lia|exact H3].
Qed.
Lemma machine_slice a n o g : fine (slots_peek N a n o g) -> a + n <= N /\ exists l, slots_peek N a n o g = Ret o g l /\
  length l = n /\ forall i, i < n -> exists x, getm o (a + i) = Some x /\ l !! i = Some x.
Proof.
  unfold slots_peek. destruct (a + n <=? N) eqn:E; [|intros F; destruct (F OutOfBounds eq_refl)].
  destruct (mapM (getm o) (seq a n)) as [l|] eqn:El; [|intros F; destruct (F DeadSlot eq_refl)].
  intros _. split; [lia|]. exists l. split; [reflexivity|]. apply mapM_Some in El.
  pose proof (Forall2_length _ _ _ El) as Hl. rewrite seq_length in Hl. split; [auto|].
  intros i Hi. destruct (lookup_lt_is_Some_2 l i ltac:(lia)) as [x Hx]. exists x. split; [|exact Hx].
  eapply Forall2_lookup_r in El; [|exact Hx]. destruct El as (y & Hy & E1). rewrite lookup_seq in Hy. destruct Hy as [-> _]. exact E1.
Qed.
(** Dropping in place: every slot was alive and none is afterwards; the destructors have run, in order. *)
Lemma machine_drop a n o g : (forall m o, getm (setm m o) = m) -> fine (slots_drop e N a n o g) -> a + n <= N /\
  (forall i, i < n -> exists x, getm o (a + i) = Some x) /\
  match slots_drop e N a n o g with
  | Ret o' g' _ | Panic o' g' =>
      (forall p, getm o' p = if (a <=? p) && (p <? a + n) then None else getm o p) /\
      exists l, length l = n /\ (forall i, i < n -> getm o (a + i) = l !! i) /\ dropped g' = dropped g ++ l /\ leaked g' = leaked g
  | _ => True
  end.
Proof.
  intros HS F. unfold slots_drop in *.
  assert (F1 : fine (slots_peek N a n o g)) by (intros u E; apply (F u); unfold bind; rewrite E; reflexivity).
  destruct (machine_slice a n o g F1) as (H1 & l & E & Hl & H2). split; [exact H1|].
  split; [intros i Hi; destruct (H2 i Hi) as (x & Hx & _); eauto|].
  erewrite bind_Ret by exact E. erewrite bind_Ret by reflexivity. unfold drop_values.
  assert (H3 : forall i, i < n -> getm o (a + i) = l !! i) by (intros i Hi; destruct (H2 i Hi) as (x & -> & ->); reflexivity).
  destruct (List.filter (bomb e) l) as [|? [|? ?]]; [| |exact I]; (split; [intros p; rewrite HS; reflexivity|]); exists l; auto.
Qed.
End slots.
Lemma machine_transfer {A O1 O2} `{HasMem A O1} `{HasMem A O2} N1 N2 from to n (o : O1 * O2) (g : log A) :
  fine (slots_transfer N1 N2 from to n o g) -> from + n <= N2 /\ to + n <= N1.
Proof.
  unfold slots_transfer. destruct ((from + n <=? N2) && (to + n <=? N1)) eqn:E; [|intros F; destruct (F OutOfBounds eq_refl)].
  intros _. lia.
Qed.

(** ** Bytes *)
Section bytes.
Import InlineModel.
Context {A : Type} (e : env A) (L : layout) (b : nat).
Implicit Types (c : inline A) (g : log A) (p : ptr).
(** [n] bytes at [p] lie in the host value, aligned to [al]. *)
Definition legal p (n al : nat) : Prop :=
  match p with Dangling => n = 0 | At off => off + n <= size_t L /\ (b + off) mod al = 0 end.
Lemma valid_legal p n al : valid L b p n al = true -> legal p n al.
Proof. unfold valid, legal, aligned_at. destruct p; lia. Qed.
Definition stored c off a : Prop :=
  bytes c off = Some (BHead a) /\ forall k, 0 < k < size_a L -> bytes c (off + k) = Some (BTail k).
Lemma decode_stored c off a : decode L (bytes c) off = Some a -> stored c off a.
Proof.
  unfold decode, stored. destruct (bytes c off) as [[| |]|]; try discriminate.
  destruct (forallb _ _) eqn:E; [|discriminate]. intros [= ->]. split; [reflexivity|]. intros k Hk.
  rewrite forallb_forall in E. specialize (E k). rewrite in_seq in E. specialize (E ltac:(lia)).
  destruct (bytes c (off + k)) as [[| |k']|]; cbn in E; try discriminate. f_equal. f_equal. lia.
Qed.
Lemma machine_offset p count size c g : fine (ptr_add L p count size c g) ->
  match p with
  | Dangling => count * size = 0 /\ ptr_add L p count size c g = Ret c g Dangling
  | At off => off + count * size <= size_t L /\ ptr_add L p count size c g = Ret c g (At (off + count * size))
  end.
Proof.
  unfold ptr_add. destruct p.
  - destruct (count * size =? 0) eqn:E; [|intros F; destruct (F OutOfBounds eq_refl)]. intros _. split; [lia|reflexivity].
  - destruct (off + count * size <=? size_t L) eqn:E; [|intros F; destruct (F OutOfBounds eq_refl)]. intros _. split; [lia|reflexivity].
Qed.
Ltac checked F := match goal with |- context [if negb ?v then _ else _] => destruct v eqn:?V; cbn [negb]; [|intros F; destruct (F OutOfBounds eq_refl)] end.
Lemma machine_usize_read p c g : 0 < size_us L -> fine (usize_read L b p c g) -> legal p (size_us L) (align_us L) /\
  exists off n, p = At off /\ usize_read L b p c g = Ret c g n /\ forall k, k < size_us L -> bytes c (off + k) = Some (BLen n k).
Proof.
  intros Hs. unfold usize_read. checked F. apply valid_legal in V. destruct p as [|off]; [intros F; destruct (F OutOfBounds eq_refl)|].
  destruct (bytes c off) as [[n k| |]|]; try (intros F; destruct (F DeadSlot eq_refl)).
  destruct (forallb _ _) eqn:E; [|intros F; destruct (F DeadSlot eq_refl)].
  intros _. split; [exact V|]. exists off, n. split; [reflexivity|]. split; [reflexivity|]. intros k' Hk.
  rewrite forallb_forall in E. specialize (E k'). rewrite in_seq in E. specialize (E ltac:(lia)).
  destruct (bytes c (off + k')) as [[n1 k1| |]|]; cbn in E; try discriminate. f_equal. f_equal; lia.
Qed.
Lemma machine_usize_write p n c g : fine (usize_write L b p n c g) -> legal p (size_us L) (align_us L) /\
  exists off m, p = At off /\ usize_write L b p n c g = Ret (Inline m (zst c)) g tt /\
    (forall q, m q = if (off <=? q) && (q <? off + size_us L) then Some (BLen n (q - off)) else bytes c q) /\
    forall k, k < size_us L -> match bytes c (off + k) with Some (BHead _) | Some (BTail _) => False | _ => True end.
Proof.
  unfold usize_write. checked F. apply valid_legal in V. destruct p as [|off]; [intros F; destruct (F OutOfBounds eq_refl)|].
  destruct (forallb _ _) eqn:E; [|intros F; destruct (F Clobber eq_refl)].
  intros _. split; [exact V|]. eexists off, _. split; [reflexivity|]. split; [reflexivity|]. split; [reflexivity|].
  intros k Hk. rewrite forallb_forall in E. specialize (E k). rewrite in_seq in E. specialize (E ltac:(lia)).
  destruct (bytes c (off + k)) as [[| |]|]; cbn in E; try discriminate; exact I.
Qed.
Lemma machine_elem_read p c g : fine (elem_read L b p c g) -> legal p (size_a L) (align_a L) /\
  exists a c', elem_read L b p c g = Ret c' g a /\
  if size_a L =? 0 then bytes c' = bytes c /\ zst c = a :: zst c'
  else zst c' = zst c /\ exists off, p = At off /\ stored c off a /\
    forall q, bytes c' q = if (off <=? q) && (q <? off + size_a L) then None else bytes c q.
Proof.
  unfold elem_read. checked F. apply valid_legal in V. destruct (size_a L =? 0).
  - destruct (zst c) as [|a z]; [intros F; destruct (F DeadSlot eq_refl)|]. intros _. split; [exact V|]. eexists _, _.
    split; [reflexivity|]. auto.
  - destruct p as [|off]; [intros F; destruct (F OutOfBounds eq_refl)|].
    destruct (decode L (bytes c) off) as [a|] eqn:E; [|intros F; destruct (F DeadSlot eq_refl)].
    intros _. split; [exact V|]. eexists _, _. split; [reflexivity|]. split; [reflexivity|]. exists off. split; [reflexivity|].
    split; [apply decode_stored; exact E|]. reflexivity.
Qed.
Lemma machine_elem_write p a c g : fine (elem_write L b p a c g) -> legal p (size_a L) (align_a L) /\
  exists c' g', elem_write L b p a c g = Ret c' g' tt /\ dropped g' = dropped g /\ leaked g' = leaked g /\ writes g' = writes g + 1 /\
  if size_a L =? 0 then bytes c' = bytes c /\ zst c' = a :: zst c
  else zst c' = zst c /\ exists off, p = At off /\ (forall k, k < size_a L -> bytes c (off + k) = None) /\ stored c' off a /\
    forall q, ~ off <= q < off + size_a L -> bytes c' q = bytes c q.
Proof.
  unfold elem_write. checked F. apply valid_legal in V. destruct (size_a L =? 0) eqn:Ez.
  - intros _. split; [exact V|]. eexists _, _. split; [reflexivity|]. auto.
  - destruct p as [|off]; [intros F; destruct (F OutOfBounds eq_refl)|].
    destruct (forallb _ _) eqn:E; [|intros F; destruct (F Clobber eq_refl)].
    intros _. split; [exact V|]. eexists _, _. split; [reflexivity|]. split; [reflexivity|]. split; [reflexivity|].
    split; [reflexivity|]. split; [reflexivity|]. exists off. split; [reflexivity|]. split; [|split; [split|]].
    + intros k Hk. rewrite forallb_forall in E. specialize (E k). rewrite in_seq in E. specialize (E ltac:(lia)).
      destruct (bytes c (off + k)); [discriminate|reflexivity].
    + cbn [bytes]. replace ((off <=? off) && (off <? off + size_a L)) with true by lia. rewrite Nat.eqb_refl. reflexivity.
    + intros k Hk. cbn [bytes]. replace ((off <=? off + k) && (off + k <? off + size_a L)) with true by lia.
      replace (off + k =? off) with false by lia. f_equal. f_equal. lia.
    + intros q Hq. cbn [bytes]. replace ((off <=? q) && (q <? off + size_a L)) with false by lia. reflexivity.
Qed.
Lemma machine_elems_move p q n c g : fine (elems_move L b p q n c g) ->
  legal p (n * size_a L) (align_a L) /\ legal q (n * size_a L) (align_a L) /\
  exists c' g', elems_move L b p q n c g = Ret c' g' tt /\ dropped g' = dropped g /\ leaked g' = leaked g /\ zst c' = zst c /\
  match p, q with
  | At x, At y => forall z, bytes c' z =
      if (y <=? z) && (z <? y + n * size_a L) then bytes c (x + (z - y))
      else if (x <=? z) && (z <? x + n * size_a L) && negb (size_a L =? 0) then None else bytes c z
  | _, _ => n * size_a L = 0 /\ bytes c' = bytes c
  end /\
  (forall x y k, p = At x -> q = At y -> y <= k < y + n * size_a L -> ~ x <= k < x + n * size_a L -> bytes c k = None).
Proof.
  unfold elems_move. checked F. apply andb_prop in V. destruct V as [V1 V2]. apply valid_legal in V1, V2.
  destruct (size_a L =? 0) eqn:Ez.
  - assert (Hz : n * size_a L = 0) by (replace (size_a L) with 0 by lia; lia).
    intros _. split; [exact V1|]. split; [exact V2|]. eexists _, _. split; [reflexivity|]. split; [reflexivity|]. split; [reflexivity|].
    split; [reflexivity|]. rewrite Hz. destruct p as [|x], q as [|y]; (split; [|intros; lia]); auto.
    intros z. replace ((y <=? z) && (z <? y + 0)) with false by lia. rewrite andb_false_r. reflexivity.
  - destruct p as [|x], q as [|y]; cbv zeta.
    4: destruct (forallb _ _) eqn:E; [|intros F; destruct (F Clobber eq_refl)].
    all: intros _; split; [exact V1|]; split; [exact V2|]; eexists _, _; split; [reflexivity|]; split; [reflexivity|]; split; [reflexivity|];
      split; [reflexivity|]; split; try (intros; discriminate).
    + auto.
    + auto.
    + split; [exact V2|reflexivity].
    + intros z. cbn [bytes negb]. rewrite andb_true_r. reflexivity.
    + intros x' y' k [= <-] [= <-] H1 H2. rewrite forallb_forall in E. specialize (E (k - y)). rewrite in_seq in E. specialize (E ltac:(lia)).
      replace (y + (k - y)) with k in E by lia. unfold clear_bytes in E.
      replace ((x <=? k) && (k <? x + n * size_a L)) with false in E by lia. destruct (bytes c k); [discriminate|reflexivity].
Qed.
Lemma machine_elems_slice p n c g : fine (elems_peek L b p n c g) -> legal p (n * size_a L) (align_a L) /\
  exists l, elems_peek L b p n c g = Ret c g l /\
  if size_a L =? 0 then length l = n /\ exists z, zst c = l ++ z
  else match p with
       | Dangling => l = []
       | At off => length l = n /\ forall i, i < n -> exists a, l !! i = Some a /\ stored c (off + i * size_a L) a
       end.
Proof.
  unfold elems_peek. checked F. apply valid_legal in V. destruct (size_a L =? 0) eqn:Ez.
  - destruct (n <=? length (zst c)) eqn:E; [|intros F; destruct (F DeadSlot eq_refl)].
    intros _. split; [exact V|]. eexists. split; [reflexivity|]. rewrite take_length. split; [lia|]. exists (drop n (zst c)).
    symmetry. apply take_drop.
  - destruct p as [|off]; [intros _; split; [exact V|]; eauto|].
    destruct (mapM _ _) as [l|] eqn:E; [|intros F; destruct (F DeadSlot eq_refl)].
    intros _. split; [exact V|]. exists l. split; [reflexivity|]. apply mapM_Some in E.
    pose proof (Forall2_length _ _ _ E) as Hl. rewrite seq_length in Hl. split; [auto|].
    intros i Hi. destruct (lookup_lt_is_Some_2 l i ltac:(lia)) as [a Ha]. exists a. split; [exact Ha|].
    eapply Forall2_lookup_r in E; [|exact Ha]. destruct E as (y & Hy & E1). rewrite lookup_seq in Hy. destruct Hy as [-> _].
    apply decode_stored. exact E1.
Qed.
End bytes.

(** ** Aliasing: the textbook cases.  Object 0 has one slot; tag 0 owns it. *)
Section aliasing.
Import BorrowModel.
Notation cell := (slots 0 0 1).
Definition allowed {T} (x : option T) : bool := match x with Some _ => true | None => false end.
Definition sb tr : Prop := allowed (follow (sb_step (0, 1)) tr (stack0 (0, 1))) = true.
Definition tb tr : Prop := allowed (follow (tb_step (0, 1)) tr tree0) = true.
Lemma litmus_no b : b = false -> ~ b = true. Proof. intros -> [=]. Qed.
Lemma litmus_shared :
  (* writing through a [&] *)
  ~ sb [Reb RefShr 0 1 cell; Acc true 1 cell] /\ ~ tb [Reb RefShr 0 1 cell; Acc true 1 cell] /\
  (* reading through it after the owner wrote *)
  ~ sb [Reb RefShr 0 1 cell; Acc true 0 cell; Acc false 1 cell] /\ ~ tb [Reb RefShr 0 1 cell; Acc true 0 cell; Acc false 1 cell] /\
  (* two [&] and the owner, all reading *)
  sb [Reb RefShr 0 1 cell; Reb RefShr 0 2 cell; Acc false 1 cell; Acc false 0 cell; Acc false 2 cell; Acc false 1 cell] /\
  tb [Reb RefShr 0 1 cell; Reb RefShr 0 2 cell; Acc false 1 cell; Acc false 0 cell; Acc false 2 cell; Acc false 1 cell] /\
  (* a raw pointer made from a [&] gives no right to write *)
  ~ sb [Reb RefShr 0 1 cell; Reb RawPtr 1 2 cell; Acc true 2 cell] /\ ~ tb [Reb RefShr 0 1 cell; Reb RawPtr 1 2 cell; Acc true 2 cell].
Proof. unfold sb, tb. repeat apply conj; first [apply litmus_no; vm_compute; reflexivity|vm_compute; reflexivity]. Qed.
Lemma litmus_mut :
  (* using a [&mut] after the owner wrote, or (Stacked Borrows, or after having written: Tree Borrows) read *)
  ~ sb [Reb RefMut 0 1 cell; Acc true 0 cell; Acc false 1 cell] /\ ~ tb [Reb RefMut 0 1 cell; Acc true 0 cell; Acc false 1 cell] /\
  ~ sb [Reb RefMut 0 1 cell; Acc false 0 cell; Acc true 1 cell] /\ tb [Reb RefMut 0 1 cell; Acc false 0 cell; Acc true 1 cell] /\
  ~ sb [Reb RefMut 0 1 cell; Acc true 1 cell; Acc false 0 cell; Acc true 1 cell] /\
  ~ tb [Reb RefMut 0 1 cell; Acc true 1 cell; Acc false 0 cell; Acc true 1 cell] /\
  (* two [&mut], used alternately *)
  ~ sb [Reb RefMut 0 1 cell; Reb RefMut 0 2 cell; Acc true 1 cell] /\
  ~ tb [Reb RefMut 0 1 cell; Reb RefMut 0 2 cell; Acc true 1 cell; Acc true 2 cell] /\
  (* a reborrow, then the parent again; then the reborrow is dead *)
  sb [Reb RefMut 0 1 cell; Reb RefMut 1 2 cell; Acc true 2 cell; Acc true 1 cell; Acc true 0 cell] /\
  tb [Reb RefMut 0 1 cell; Reb RefMut 1 2 cell; Acc true 2 cell; Acc true 1 cell; Acc true 0 cell] /\
  ~ sb [Reb RefMut 0 1 cell; Reb RefMut 1 2 cell; Acc true 1 cell; Acc true 2 cell] /\
  ~ tb [Reb RefMut 0 1 cell; Reb RefMut 1 2 cell; Acc true 1 cell; Acc true 2 cell].
Proof. unfold sb, tb. repeat apply conj; first [apply litmus_no; vm_compute; reflexivity|vm_compute; reflexivity]. Qed.
Lemma litmus_raw :
  (* raw pointers from one [&mut] may be mixed; they die with it *)
  sb [Reb RefMut 0 1 cell; Reb RawPtr 1 2 cell; Reb RawPtr 1 3 cell; Acc true 2 cell; Acc true 3 cell; Acc true 2 cell] /\
  tb [Reb RefMut 0 1 cell; Reb RawPtr 1 2 cell; Reb RawPtr 1 3 cell; Acc true 2 cell; Acc true 3 cell; Acc true 2 cell] /\
  ~ sb [Reb RefMut 0 1 cell; Reb RawPtr 1 2 cell; Acc true 0 cell; Acc false 2 cell] /\
  ~ tb [Reb RefMut 0 1 cell; Reb RawPtr 1 2 cell; Acc true 0 cell; Acc false 2 cell] /\
  (* using the [&mut] again ends them (Stacked Borrows only) *)
  ~ sb [Reb RefMut 0 1 cell; Reb RawPtr 1 2 cell; Acc true 1 cell; Acc true 2 cell] /\
  tb [Reb RefMut 0 1 cell; Reb RawPtr 1 2 cell; Acc true 1 cell; Acc true 2 cell] /\
  (* a tag nobody made *)
  ~ sb [Acc false 5 cell].
Proof. unfold sb, tb. repeat apply conj; first [apply litmus_no; vm_compute; reflexivity|vm_compute; reflexivity]. Qed.
(** Other places are not affected. *)
Lemma litmus_places : follow (sb_step (0, 1)) [Reb RefMut 0 1 (slots 0 0 2); Acc true 0 (slots 0 1 1); Acc true 1 cell] (stack0 (0, 1)) <> None /\
  follow (sb_step (0, 2)) [Reb RefMut 0 1 (slots 0 0 2); Acc true 0 (slots 0 1 1); Acc true 1 (slots 0 1 1)] (stack0 (0, 2)) = None /\
  (forall o a n l, slots o a n l = true <-> fst l = o /\ a < snd l <= a + n) /\ (forall o l, fields o l = true <-> l = (o, 0)) /\
  (forall o N l, whole o N l = true <-> fst l = o /\ snd l <= N).
Proof.
  split; [intros H; apply (f_equal allowed) in H; vm_compute in H; discriminate|]. split; [reflexivity|].
  split; [intros o a n [x y]; unfold slots; cbn [fst snd]; lia|].
  split; [intros o [x y]; unfold fields; cbn [fst snd]; rewrite andb_true_iff, !Nat.eqb_eq; split; [intros [-> ->]; reflexivity|intros [= -> ->]; auto]|].
  intros o N [x y]. unfold whole. cbn [fst snd]. lia.
Qed.
End aliasing.
