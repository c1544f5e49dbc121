(** Common base: C machine integers as [Z], arrays as lists, bit lemmas.
    Trusted reading of C: unsigned arithmetic is arithmetic modulo 2^w. *)
From Coq Require Import ZArith List Lia Bool.
Import ListNotations.
Open Scope Z_scope.

(** Conversion to an unsigned C type of the given width (C11 6.3.1.3p2). *)
Definition u8 (z : Z) : Z := z mod 2 ^ 8.
Definition u16 (z : Z) : Z := z mod 2 ^ 16.
Definition u32 (z : Z) : Z := z mod 2 ^ 32.
Definition u64 (z : Z) : Z := z mod 2 ^ 64.

(** [-1ULL], i.e. all ones. *)
Definition ones64 : Z := 2 ^ 64 - 1.

(** C [~x] on a 64-bit unsigned operand. *)
Definition not64 (w : Z) : Z := Z.lxor w ones64.

(** Array read; [None] is an out-of-bounds access. *)
Definition znth {A} (l : list A) (i : Z) : option A :=
  if i <? 0 then None else nth_error l (Z.to_nat i).

Fixpoint upd {A} (l : list A) (i : nat) (v : A) : list A :=
  match l, i with
  | [], _ => []
  | _ :: l', O => v :: l'
  | x :: l', S i' => x :: upd l' i' v
  end.

(** Array write; [None] is an out-of-bounds access. *)
Definition zupd {A} (l : list A) (i : Z) (v : A) : option (list A) :=
  if (0 <=? i) && (i <? Z.of_nat (length l)) then Some (upd l (Z.to_nat i) v) else None.

Definition zlen {A} (l : list A) : Z := Z.of_nat (length l).

Notation "'do' x <- e1 ; e2" :=
  (match e1 with Some x => e2 | None => None end)
  (at level 200, x pattern, e1 at level 100, e2 at level 200).

(** ** Lists *)

Lemma upd_length {A} (l : list A) i v : length (upd l i v) = length l.
Proof. revert i; induction l; destruct i; simpl; auto. Qed.

Lemma upd_nth_error_same {A} (l : list A) i v :
  (i < length l)%nat -> nth_error (upd l i v) i = Some v.
Proof. revert i; induction l; destruct i; simpl; intros; try lia; auto. apply IHl; lia. Qed.

Lemma upd_nth_error_other {A} (l : list A) i j v :
  i <> j -> nth_error (upd l i v) j = nth_error l j.
Proof. revert i j; induction l; destruct i, j; simpl; intros; try congruence; auto. Qed.

Lemma upd_nth_same {A} (l : list A) i v d : (i < length l)%nat -> nth i (upd l i v) d = v.
Proof. revert i; induction l; destruct i; simpl; intros; try lia; auto. apply IHl; lia. Qed.

Lemma upd_nth_other {A} (l : list A) i j v d : i <> j -> nth j (upd l i v) d = nth j l d.
Proof. revert i j; induction l; destruct i, j; simpl; intros; try congruence; auto. Qed.

Lemma upd_out {A} (l : list A) i v : (length l <= i)%nat -> upd l i v = l.
Proof. revert i; induction l; destruct i; simpl; intros; try lia; auto. f_equal; apply IHl; lia. Qed.

Lemma zlen_nonneg {A} (l : list A) : 0 <= zlen l.
Proof. unfold zlen; lia. Qed.

Lemma znth_some {A} (l : list A) i : 0 <= i < zlen l -> exists x, znth l i = Some x.
Proof.
  unfold znth, zlen; intros. destruct (Z.ltb_spec i 0); try lia.
  destruct (nth_error l (Z.to_nat i)) eqn:E; eauto. apply nth_error_None in E. lia.
Qed.

Lemma znth_range {A} (l : list A) i x : znth l i = Some x -> 0 <= i < zlen l.
Proof.
  unfold znth, zlen. destruct (Z.ltb_spec i 0); try discriminate. intros E.
  assert (nth_error l (Z.to_nat i) <> None) by congruence. apply nth_error_Some in H0. lia.
Qed.

Lemma znth_nth {A} (l : list A) i d : 0 <= i < zlen l -> znth l i = Some (nth (Z.to_nat i) l d).
Proof.
  unfold znth, zlen; intros. destruct (Z.ltb_spec i 0); try lia.
  apply nth_error_nth'. lia.
Qed.

Lemma zupd_some {A} (l : list A) i v : 0 <= i < zlen l -> zupd l i v = Some (upd l (Z.to_nat i) v).
Proof.
  unfold zupd, zlen; intros.
  destruct (Z.leb_spec 0 i), (Z.ltb_spec i (Z.of_nat (length l))); simpl; auto; lia.
Qed.

Lemma zupd_inv {A} (l l' : list A) i v :
  zupd l i v = Some l' -> 0 <= i < zlen l /\ l' = upd l (Z.to_nat i) v.
Proof.
  unfold zupd, zlen.
  destruct (Z.leb_spec 0 i), (Z.ltb_spec i (Z.of_nat (length l))); simpl; try discriminate.
  intros E; inversion E; split; auto.
Qed.

(** ** Words and bits *)

Lemma ones64_ones : ones64 = Z.ones 64.
Proof. reflexivity. Qed.

Lemma testbit_above n w i : 0 <= w < 2 ^ n -> n <= i -> Z.testbit w i = false.
Proof.
  intros Hw Hi. destruct (Z.eq_dec w 0) as [->|]; [apply Z.testbit_0_l|].
  destruct (Z_lt_le_dec n 0); [rewrite Z.pow_neg_r in Hw; lia|].
  apply Z.bits_above_log2; try lia.
  assert (Z.log2 w < n); [apply Z.log2_lt_pow2; lia | lia].
Qed.

Lemma testbit_lt_pow2 n w :
  0 <= n -> 0 <= w -> (forall i, n <= i -> Z.testbit w i = false) -> w < 2 ^ n.
Proof.
  intros Hn Hw Hb.
  destruct (Z.eq_dec w 0) as [->|]; [apply Z.pow_pos_nonneg; lia|].
  apply Z.log2_lt_pow2; [lia|].
  destruct (Z_lt_le_dec (Z.log2 w) n); auto.
  assert (Z.testbit w (Z.log2 w) = true) by (apply Z.bit_log2; lia).
  rewrite Hb in H by lia. discriminate.
Qed.

Lemma bits_inj_range n a b :
  0 <= n -> 0 <= a < 2 ^ n -> 0 <= b < 2 ^ n ->
  (forall i, 0 <= i < n -> Z.testbit a i = Z.testbit b i) -> a = b.
Proof.
  intros Hn Ha Hb H. apply Z.bits_inj'. intros i Hi.
  destruct (Z_lt_le_dec i n); [apply H; lia|].
  rewrite (testbit_above n a), (testbit_above n b); auto.
Qed.

Lemma testbit_ones n i : 0 <= n -> Z.testbit (Z.ones n) i = (0 <=? i) && (i <? n).
Proof.
  intros Hn. destruct (Z.leb_spec 0 i), (Z.ltb_spec i n); simpl.
  - apply Z.ones_spec_low; lia.
  - apply Z.ones_spec_high; lia.
  - apply Z.testbit_neg_r; lia.
  - apply Z.testbit_neg_r; lia.
Qed.

Lemma ones_range n : 0 <= n -> 0 <= Z.ones n < 2 ^ n.
Proof. intros. rewrite Z.ones_equiv. assert (0 < 2 ^ n) by (apply Z.pow_pos_nonneg; lia). lia. Qed.

Lemma lor_range n a b : 0 <= n -> 0 <= a < 2 ^ n -> 0 <= b < 2 ^ n -> 0 <= Z.lor a b < 2 ^ n.
Proof.
  intros Hn Ha Hb. assert (0 <= Z.lor a b) by (apply Z.lor_nonneg; lia). split; auto.
  apply testbit_lt_pow2; auto. intros i Hi.
  rewrite Z.lor_spec, (testbit_above n a), (testbit_above n b); auto.
Qed.

Lemma land_range n a b : 0 <= n -> 0 <= a < 2 ^ n -> 0 <= b -> 0 <= Z.land a b < 2 ^ n.
Proof.
  intros Hn Ha Hb. assert (0 <= Z.land a b) by (apply Z.land_nonneg; lia). split; auto.
  apply testbit_lt_pow2; auto. intros i Hi.
  rewrite Z.land_spec, (testbit_above n a); auto.
Qed.

Lemma lxor_range n a b : 0 <= n -> 0 <= a < 2 ^ n -> 0 <= b < 2 ^ n -> 0 <= Z.lxor a b < 2 ^ n.
Proof.
  intros Hn Ha Hb. assert (0 <= Z.lxor a b) by (apply Z.lxor_nonneg; lia). split; auto.
  apply testbit_lt_pow2; auto. intros i Hi.
  rewrite Z.lxor_spec, (testbit_above n a), (testbit_above n b); auto.
Qed.

Lemma not64_testbit w i : 0 <= w < 2 ^ 64 ->
  Z.testbit (not64 w) i = ((0 <=? i) && (i <? 64)) && negb (Z.testbit w i).
Proof.
  intros Hw. unfold not64. rewrite Z.lxor_spec, ones64_ones, testbit_ones by lia.
  destruct (Z.leb_spec 0 i), (Z.ltb_spec i 64); simpl.
  - rewrite xorb_true_r; auto.
  - rewrite (testbit_above 64 w); auto.
  - rewrite Z.testbit_neg_r; auto.
  - rewrite Z.testbit_neg_r; auto; lia.
Qed.

Lemma not64_range w : 0 <= w < 2 ^ 64 -> 0 <= not64 w < 2 ^ 64.
Proof. intros. apply lxor_range; try lia. rewrite ones64_ones. apply ones_range; lia. Qed.

Lemma full64_iff w : 0 <= w < 2 ^ 64 ->
  (w = ones64 <-> forall i, 0 <= i < 64 -> Z.testbit w i = true).
Proof.
  intros Hw. split.
  - intros -> i Hi. rewrite ones64_ones, testbit_ones by lia.
    destruct (Z.leb_spec 0 i), (Z.ltb_spec i 64); simpl; auto; lia.
  - intros H. apply (bits_inj_range 64); try lia.
    + rewrite ones64_ones. apply ones_range; lia.
    + intros i Hi. rewrite H by lia. rewrite ones64_ones, testbit_ones by lia.
      destruct (Z.leb_spec 0 i), (Z.ltb_spec i 64); simpl; auto; lia.
Qed.

Lemma zero_bits w : w = 0 <-> forall i, 0 <= i -> Z.testbit w i = false.
Proof.
  split; [intros -> i _; apply Z.testbit_0_l|].
  intros H. apply Z.bits_inj'. intros i Hi. rewrite H, Z.testbit_0_l; auto.
Qed.

Lemma nonzero_bits w : 0 <= w -> w <> 0 -> exists i, 0 <= i /\ Z.testbit w i = true.
Proof. intros. exists (Z.log2 w). split; [apply Z.log2_nonneg|apply Z.bit_log2; lia]. Qed.

Lemma land_ones_zero w k : 0 <= k ->
  (Z.land w (Z.ones k) = 0 <-> forall i, 0 <= i < k -> Z.testbit w i = false).
Proof.
  intros Hk. rewrite zero_bits. split; intros H i Hi.
  - specialize (H i ltac:(lia)). rewrite Z.land_spec, testbit_ones in H by lia.
    destruct (Z.leb_spec 0 i), (Z.ltb_spec i k); simpl in H; try lia.
    rewrite andb_true_r in H; auto.
  - rewrite Z.land_spec, testbit_ones by lia.
    destruct (Z.leb_spec 0 i), (Z.ltb_spec i k); simpl; try lia.
    rewrite H by lia; auto.
Qed.

Lemma mod_pow2_testbit w n i : 0 <= n ->
  Z.testbit (w mod 2 ^ n) i = (i <? n) && Z.testbit w i.
Proof.
  intros Hn. destruct (Z.ltb_spec i n); simpl.
  - destruct (Z_lt_le_dec i 0).
    + rewrite !Z.testbit_neg_r; auto.
    + rewrite Z.mod_pow2_bits_low; auto; lia.
  - apply Z.mod_pow2_bits_high; lia.
Qed.
