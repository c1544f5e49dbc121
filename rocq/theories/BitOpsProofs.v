From Coq Require Import ZArith List Lia Bool.
From Verif Require Import CBase BitOpsModel.
Open Scope Z_scope.

(** One stage keeps the position of the lowest set bit. *)
Lemma ffs_stage_spec k w0 w r :
  0 < k ->
  (forall i, 0 <= i -> Z.testbit w i = Z.testbit w0 (i + r)) ->
  (forall i, 0 <= i < r -> Z.testbit w0 i = false) ->
  (exists i, 0 <= i < 2 * k /\ Z.testbit w i = true) ->
  0 <= r ->
  let '(w', r') := ffs_stage k (w, r) in
  (forall i, 0 <= i -> Z.testbit w' i = Z.testbit w0 (i + r')) /\
  (forall i, 0 <= i < r' -> Z.testbit w0 i = false) /\
  (exists i, 0 <= i < k /\ Z.testbit w' i = true) /\ 0 <= r' <= r + k.
Proof.
  intros Hk Hw Hlow [i0 [Hi0 Ht]] Hr. unfold ffs_stage.
  destruct (Z.eqb_spec (Z.land w (Z.ones k)) 0) as [E|E].
  - rewrite land_ones_zero in E by lia. repeat split; try lia.
    + intros i Hi. rewrite Z.shiftr_spec by lia. rewrite Hw by lia. f_equal; lia.
    + intros i Hi. destruct (Z_lt_le_dec i r); [apply Hlow; lia|].
      replace i with ((i - r) + r) by lia. rewrite <- Hw by lia. apply E; lia.
    + exists (i0 - k). rewrite Z.shiftr_spec.
      * replace (i0 - k + k) with i0 by lia. split; auto.
        assert (~ i0 < k); [|lia]. intros C. rewrite E in Ht by lia. discriminate.
      * assert (~ i0 < k); [|lia]. intros C. rewrite E in Ht by lia. discriminate.
  - repeat split; auto; try lia.
    destruct (nonzero_bits (Z.land w (Z.ones k))) as [j [Hj Hjt]]; auto.
    { apply Z.land_nonneg. right. apply ones_range; lia. }
    rewrite Z.land_spec, testbit_ones in Hjt by lia. apply andb_true_iff in Hjt.
    destruct Hjt as [A B]. apply andb_true_iff in B. destruct B as [B C].
    apply Z.ltb_lt in C. exists j; split; auto; lia.
Qed.

Lemma ffs64_spec w : 0 < w < 2 ^ 64 ->
  0 <= ffs64 w < 64 /\ Z.testbit w (ffs64 w) = true /\
  forall i, 0 <= i < ffs64 w -> Z.testbit w i = false.
Proof.
  intros Hw. unfold ffs64.
  assert (H0 : exists i, 0 <= i < 2 * 32 /\ Z.testbit w i = true).
  { exists (Z.log2 w). split; [|apply Z.bit_log2; lia].
    split; [apply Z.log2_nonneg|]. apply Z.log2_lt_pow2; lia. }
  pose proof (ffs_stage_spec 32 w w 0 ltac:(lia) ltac:(intros; f_equal; lia) ltac:(intros; lia) H0 ltac:(lia)) as S.
  destruct (ffs_stage 32 (w, 0)) as [w1 r1]. destruct S as (A1 & B1 & C1 & D1).
  pose proof (ffs_stage_spec 16 w w1 r1 ltac:(lia) A1 B1 C1 ltac:(lia)) as S.
  destruct (ffs_stage 16 (w1, r1)) as [w2 r2]. destruct S as (A2 & B2 & C2 & D2).
  pose proof (ffs_stage_spec 8 w w2 r2 ltac:(lia) A2 B2 C2 ltac:(lia)) as S.
  destruct (ffs_stage 8 (w2, r2)) as [w3 r3]. destruct S as (A3 & B3 & C3 & D3).
  pose proof (ffs_stage_spec 4 w w3 r3 ltac:(lia) A3 B3 C3 ltac:(lia)) as S.
  destruct (ffs_stage 4 (w3, r3)) as [w4 r4]. destruct S as (A4 & B4 & C4 & D4).
  pose proof (ffs_stage_spec 2 w w4 r4 ltac:(lia) A4 B4 C4 ltac:(lia)) as S.
  destruct (ffs_stage 2 (w4, r4)) as [w5 r5]. destruct S as (A5 & B5 & C5 & D5).
  pose proof (ffs_stage_spec 1 w w5 r5 ltac:(lia) A5 B5 C5 ltac:(lia)) as S.
  destruct (ffs_stage 1 (w5, r5)) as [w6 r6]. destruct S as (A6 & B6 & C6 & D6).
  cbn [snd]. split; [lia|]. split; auto.
  destruct C6 as [i [Hi Ht]]. rewrite A6 in Ht by lia. replace (i + r6) with r6 in Ht by lia. auto.
Qed.

Lemma lowest_unique w a b :
  0 <= a -> 0 <= b ->
  Z.testbit w a = true -> (forall i, 0 <= i < a -> Z.testbit w i = false) ->
  Z.testbit w b = true -> (forall i, 0 <= i < b -> Z.testbit w i = false) -> a = b.
Proof.
  intros. destruct (Z.lt_trichotomy a b) as [L|[L|L]]; auto.
  - rewrite H4 in H1 by lia. discriminate.
  - rewrite H2 in H3 by lia. discriminate.
Qed.

Lemma not64_involutive w : 0 <= w < 2 ^ 64 -> not64 (not64 w) = w.
Proof.
  intros. unfold not64. rewrite Z.lxor_assoc, Z.lxor_nilpotent, Z.lxor_0_r. auto.
Qed.

(** Use form in the callers: ffz(~temp). *)
Lemma ffz64_not w : 0 < w < 2 ^ 64 -> ffz64 (not64 w) = ffs64 w.
Proof. intros. unfold ffz64. rewrite not64_involutive; auto; lia. Qed.

Lemma fls_stage_spec k x0 x r :
  0 < k <= 16 -> 0 < x < 2 ^ 32 ->
  x = x0 * 2 ^ (32 - r) -> r <= 32 ->
  0 <= x0 -> 32 - 2 * k <= Z.log2 x ->
  let '(x', r') := fls_stage k (x, r) in
  0 < x' < 2 ^ 32 /\ x' = x0 * 2 ^ (32 - r') /\ r' <= 32 /\ 32 - k <= Z.log2 x'.
Proof.
  intros Hk Hx Heq Hr Hx0 Hl. unfold fls_stage.
  assert (P : 0 < 2 ^ (32 - k)) by (apply Z.pow_pos_nonneg; lia).
  destruct (Z.eqb_spec (Z.land x (Z.shiftl (Z.ones k) (32 - k))) 0) as [E|E].
  - assert (L : Z.log2 x < 32 - k).
    { destruct (Z_lt_le_dec (Z.log2 x) (32 - k)); auto. exfalso.
      assert (T : Z.testbit (Z.land x (Z.shiftl (Z.ones k) (32 - k))) (Z.log2 x) = false)
        by (rewrite E; apply Z.testbit_0_l).
      rewrite Z.land_spec, Z.bit_log2, Z.shiftl_spec, testbit_ones in T by lia.
      assert (Z.log2 x < 32) by (apply Z.log2_lt_pow2; lia).
      destruct (Z.leb_spec 0 (Z.log2 x - (32 - k))), (Z.ltb_spec (Z.log2 x - (32 - k)) k);
        simpl in T; try lia; discriminate. }
    assert (U : x < 2 ^ (32 - k)) by (apply Z.log2_lt_pow2; lia).
    assert (M : u32 (Z.shiftl x k) = x * 2 ^ k).
    { rewrite Z.shiftl_mul_pow2 by lia. unfold u32. apply Z.mod_small. split.
      - apply Z.mul_nonneg_nonneg; try lia.
      - replace (2 ^ 32) with (2 ^ (32 - k) * 2 ^ k) by (rewrite <- Z.pow_add_r by lia; f_equal; lia).
        apply Z.mul_lt_mono_pos_r; auto. apply Z.pow_pos_nonneg; lia. }
    rewrite M.
    assert (0 < 2 ^ k) by (apply Z.pow_pos_nonneg; lia).
    repeat split; try lia.
    + replace (2 ^ 32) with (2 ^ (32 - k) * 2 ^ k) by (rewrite <- Z.pow_add_r by lia; f_equal; lia).
      apply Z.mul_lt_mono_pos_r; auto.
    + rewrite Heq. rewrite <- Z.mul_assoc, <- Z.pow_add_r by lia. f_equal. f_equal. lia.
    + rewrite Z.log2_mul_pow2 by lia. lia.
  - repeat split; auto; try lia.
    destruct (Z_lt_le_dec (Z.log2 x) (32 - k)); auto. exfalso. apply E.
    apply zero_bits. intros i Hi. rewrite Z.land_spec, Z.shiftl_spec by lia.
    destruct (Z_lt_le_dec i (32 - k)).
    + rewrite (Z.testbit_neg_r (Z.ones k)) by lia. apply andb_false_r.
    + rewrite (Z.bits_above_log2 x i) by lia. auto.
Qed.

(** [__fls] returns the bit length. *)
Lemma fls32_spec x : 0 < x < 2 ^ 32 -> fls32 x = Z.log2 x + 1.
Proof.
  intros Hx. unfold fls32. destruct (Z.eqb_spec x 0); try lia.
  pose proof (fls_stage_spec 16 x x 32 ltac:(lia) Hx ltac:(simpl; lia) ltac:(lia) ltac:(lia)
                ltac:(simpl; apply Z.log2_nonneg)) as S.
  destruct (fls_stage 16 (x, 32)) as [x1 r1]. destruct S as (A1 & B1 & C1 & D1).
  pose proof (fls_stage_spec 8 x x1 r1 ltac:(lia) A1 B1 C1 ltac:(lia) ltac:(lia)) as S.
  destruct (fls_stage 8 (x1, r1)) as [x2 r2]. destruct S as (A2 & B2 & C2 & D2).
  pose proof (fls_stage_spec 4 x x2 r2 ltac:(lia) A2 B2 C2 ltac:(lia) ltac:(lia)) as S.
  destruct (fls_stage 4 (x2, r2)) as [x3 r3]. destruct S as (A3 & B3 & C3 & D3).
  pose proof (fls_stage_spec 2 x x3 r3 ltac:(lia) A3 B3 C3 ltac:(lia) ltac:(lia)) as S.
  destruct (fls_stage 2 (x3, r3)) as [x4 r4]. destruct S as (A4 & B4 & C4 & D4).
  pose proof (fls_stage_spec 1 x x4 r4 ltac:(lia) A4 B4 C4 ltac:(lia) ltac:(lia)) as S.
  destruct (fls_stage 1 (x4, r4)) as [x5 r5]. destruct S as (A5 & B5 & C5 & D5).
  cbn [snd].
  assert (L5 : Z.log2 x5 = 31).
  { assert (Z.log2 x5 < 32) by (apply Z.log2_lt_pow2; lia). lia. }
  rewrite B5, Z.log2_mul_pow2 in L5 by lia. lia.
Qed.

Lemma fls32_zero : fls32 0 = 0.
Proof. reflexivity. Qed.

(** [roundup_pow2] rounds up to a power of two, for 1 <= d <= 2^31. *)
Lemma roundup_pow2_spec d : 1 <= d <= 2 ^ 31 ->
  exists k, 0 <= k <= 31 /\ roundup_pow2 d = 2 ^ k /\ d <= 2 ^ k /\ (1 < d -> 2 ^ k < 2 * d).
Proof.
  intros Hd. unfold roundup_pow2.
  replace (u32 (d - 1)) with (d - 1) by (unfold u32; rewrite Z.mod_small; lia).
  destruct (Z.eq_dec d 1) as [->|Hne].
  - exists 0. split; [lia|]. split; [reflexivity|]. change (2 ^ 0) with 1. lia.
  - rewrite fls32_spec by lia. set (n := Z.log2 (d - 1)).
    assert (Hn : 0 <= n < 31).
    { unfold n. split; [apply Z.log2_nonneg|]. apply Z.log2_lt_pow2; lia. }
    pose proof (Z.log2_spec (d - 1) ltac:(lia)) as S. fold n in S.
    exists (n + 1). rewrite Z.shiftl_mul_pow2, Z.mul_1_l by lia.
    split; [lia|]. replace (Z.succ n) with (n + 1) in S by lia.
    unfold u32. rewrite Z.mod_small.
    + rewrite Z.pow_add_r in * by lia. lia.
    + split; [apply Z.pow_nonneg; lia|]. apply Z.pow_lt_mono_r; lia.
Qed.
