From Coq Require Import ZArith List Lia Bool.
From Verif Require Import CBase ClockModel.
Import ListNotations.
Open Scope Z_scope.

Lemma count_shift_ok : forall fuel tmp sft, 0 < tmp < 2 ^ Z.of_nat fuel ->
  count_shift fuel tmp sft = Some (sft + Z.log2 tmp).
Proof.
  induction fuel as [|f IH]; intros tmp sft H.
  - change (2 ^ Z.of_nat 0) with 1 in H. lia.
  - cbn [count_shift]. destruct (Z.ltb_spec 1 tmp) as [L|L].
    + rewrite Z.shiftr_div_pow2 by lia. change (2 ^ 1) with 2.
      rewrite IH.
      * f_equal. rewrite <- Z.add_assoc. f_equal.
        rewrite <- (Z.div2_div tmp). destruct (Z.eq_dec tmp 1); [lia|].
        pose proof (Z.log2_shiftr tmp 1 ltac:(lia)) as E. rewrite Z.shiftr_div_pow2 in E by lia.
        change (2 ^ 1) with 2 in E. rewrite Z.div2_div, E.
        assert (1 <= Z.log2 tmp) by (apply Z.log2_le_pow2; lia). lia.
      * replace (Z.of_nat (S f)) with (Z.succ (Z.of_nat f)) in H by lia.
        rewrite Z.pow_succ_r in H by lia. split.
        -- apply Z.div_str_pos. lia.
        -- apply Z.div_lt_upper_bound; lia.
    + replace tmp with 1 by lia. change (Z.log2 1) with 0. f_equal. lia.
Qed.

Lemma mask_loop_ok : forall n, (n <= 64)%nat -> mask_loop n 0 = Z.ones (Z.of_nat n).
Proof.
  induction n as [|n IH]; intros H; [reflexivity|]. cbn [mask_loop]. rewrite IH by lia.
  assert (0 < 2 ^ Z.of_nat n) by (apply Z.pow_pos_nonneg; lia).
  assert (2 ^ Z.of_nat n < 2 ^ 64) by (apply Z.pow_lt_mono_r; lia).
  unfold u64. rewrite Z.shiftl_1_l, Z.mod_small by lia.
  apply Z.bits_inj'. intros i Hi. rewrite Z.lor_spec, !testbit_ones by lia.
  rewrite Z.pow2_bits_eqb by lia.
  destruct (Z.leb_spec 0 i), (Z.ltb_spec i (Z.of_nat n)), (Z.eqb_spec (Z.of_nat n) i),
    (Z.ltb_spec i (Z.of_nat (S n))); cbn; auto; lia.
Qed.

(** The calibration constants in closed form. *)
Section Cal.
  Variables cpm start : Z.
  Hypothesis Hc : 1 <= cpm.
  Hypothesis Hm : 3600000 * cpm < 2 ^ 64.

  Let MM := (2 ^ 64 - 1) / (3600000 * cpm).
  Let T := MM * cpm / 1000000.
  Let S := Z.log2 T.
  Let M := 2 ^ S * 1000000 / cpm.
  Let K := Z.log2 (3600000 * cpm).
  Let N := 2 ^ K * M / 2 ^ S.

  Lemma MM_facts : 1 <= MM /\ MM * (3600000 * cpm) <= 2 ^ 64 - 1 < (MM + 1) * (3600000 * cpm).
  Proof.
    unfold MM. pose proof (Z.div_mod (2 ^ 64 - 1) (3600000 * cpm) ltac:(lia)).
    pose proof (Z.mod_pos_bound (2 ^ 64 - 1) (3600000 * cpm) ltac:(lia)).
    set (q := (2 ^ 64 - 1) / (3600000 * cpm)) in *. split; [|lia].
    apply Z.div_le_lower_bound; lia.
  Qed.

  Lemma T_facts : 2 ^ 21 <= T < 2 ^ 23.
  Proof.
    destruct MM_facts as (A & B & C). unfold T. split.
    - apply Z.div_le_lower_bound; [lia|]. nia.
    - apply Z.div_lt_upper_bound; [lia|]. nia.
  Qed.
  Lemma S_facts : 21 <= S <= 22 /\ 2 ^ S <= T.
  Proof.
    pose proof T_facts as [A B]. unfold S. split; [split|].
    - apply Z.log2_le_pow2; lia.
    - assert (Z.log2 T < 23) by (apply Z.log2_lt_pow2; lia). lia.
    - apply Z.log2_spec. lia.
  Qed.
  Lemma M_facts : 0 <= M <= MM /\ M * cpm <= 2 ^ S * 1000000 < (M + 1) * cpm.
  Proof.
    destruct S_facts as [[S1 S2] S3]. destruct MM_facts as (A & B & C).
    assert (T * 1000000 <= MM * cpm).
    { unfold T. pose proof (Z.mul_div_le (MM * cpm) 1000000 ltac:(lia)). lia. }
    assert (0 < 2 ^ S) by (apply Z.pow_pos_nonneg; lia).
    pose proof (Z.div_mod (2 ^ S * 1000000) cpm ltac:(lia)).
    pose proof (Z.mod_pos_bound (2 ^ S * 1000000) cpm ltac:(lia)).
    unfold M. split; [split|].
    - apply Z.div_pos; lia.
    - apply Z.div_le_upper_bound; nia.
    - lia.
  Qed.
  Lemma K_facts : 21 <= K < 64 /\ 2 ^ K <= 3600000 * cpm.
  Proof.
    unfold K. split; [split|].
    - apply Z.log2_le_pow2; lia.
    - apply Z.log2_lt_pow2; lia.
    - apply Z.log2_spec. lia.
  Qed.
  Lemma KM : 2 ^ K * M < 2 ^ 64.
  Proof.
    destruct K_facts as [K1 K2], M_facts as [M1 M2], MM_facts as (A & B & C).
    assert (0 < 2 ^ K) by (apply Z.pow_pos_nonneg; lia). nia.
  Qed.

  Lemma calibrate_ok : calibrate cpm start = Some (mkClock M S K (Z.ones K) N start).
  Proof.
    destruct MM_facts as (A & B & C). pose proof T_facts as TF. destruct S_facts as [[S1 S2] S3].
    destruct M_facts as [M1 M2]. destruct K_facts as [K1 K2]. pose proof KM as KM'.
    assert (P2 : 2 ^ S < 2 ^ 64) by (apply Z.pow_lt_mono_r; lia).
    assert (P2' : 0 < 2 ^ S) by (apply Z.pow_pos_nonneg; lia).
    assert (P2'' : 2 ^ S <= 2 ^ 22) by (apply Z.pow_le_mono_r; lia).
    assert (P3 : 2 ^ K < 2 ^ 64) by (apply Z.pow_lt_mono_r; lia).
    assert (P3' : 0 < 2 ^ K) by (apply Z.pow_pos_nonneg; lia).
    unfold calibrate. cbv zeta.
    assert (U1 : u64 (3600 * cpm * 1000) = 3600000 * cpm) by (unfold u64; rewrite Z.mod_small by lia; lia).
    assert (U2 : u64 (3600 * 1000 * cpm) = 3600000 * cpm) by (unfold u64; rewrite Z.mod_small by lia; lia).
    rewrite U1, U2. destruct (Z.eqb_spec (3600000 * cpm) 0); [lia|]. destruct (Z.eqb_spec cpm 0); [lia|].
    change ones64 with (2 ^ 64 - 1). fold MM.
    assert (U3 : u64 (MM * cpm) = MM * cpm) by (unfold u64; apply Z.mod_small; nia).
    rewrite U3. fold T.
    rewrite count_shift_ok by (change (2 ^ Z.of_nat 65) with (2 ^ 65); lia). rewrite Z.add_0_l. fold S.
    destruct (Z.leb_spec 64 S); [lia|].
    rewrite (Z.shiftl_1_l S).
    assert (U4 : u64 (2 ^ S) = 2 ^ S) by (unfold u64; apply Z.mod_small; lia).
    assert (U5 : u64 (2 ^ S * 1000000) = 2 ^ S * 1000000) by (unfold u64; apply Z.mod_small; lia).
    rewrite U4, U5. fold M.
    rewrite count_shift_ok by (change (2 ^ Z.of_nat 65) with (2 ^ 65); lia). rewrite Z.add_0_l. fold K.
    destruct (Z.leb_spec 64 K); [lia|].
    rewrite (Z.shiftl_1_l K).
    assert (U6 : u64 (2 ^ K) = 2 ^ K) by (unfold u64; apply Z.mod_small; lia).
    assert (U7 : u64 (2 ^ K * M) = 2 ^ K * M) by (unfold u64; apply Z.mod_small; lia).
    rewrite U6, U7. rewrite Z.shiftr_div_pow2 by lia. fold N.
    rewrite mask_loop_ok by lia. rewrite Z2Nat.id by lia. reflexivity.
  Qed.

  (** Conversion without wrap-around: the mathematical function. *)
  Definition conv (t : Z) : Z := t / 2 ^ K * N + (t mod 2 ^ K) * M / 2 ^ S.

  Lemma conv_upper t : 0 <= t -> 0 <= conv t /\ conv t * 2 ^ S <= t * M.
  Proof.
    intros Ht. destruct S_facts as [[S1 S2] S3], M_facts as [M1 M2], K_facts as [K1 K2].
    assert (P : 0 < 2 ^ S) by (apply Z.pow_pos_nonneg; lia).
    assert (PK : 0 < 2 ^ K) by (apply Z.pow_pos_nonneg; lia).
    unfold conv. pose proof (Z.div_mod t (2 ^ K) ltac:(lia)). pose proof (Z.mod_pos_bound t (2 ^ K) PK).
    assert (0 <= t / 2 ^ K) by (apply Z.div_pos; lia).
    assert (N * 2 ^ S <= 2 ^ K * M) by (unfold N; pose proof (Z.mul_div_le (2 ^ K * M) (2 ^ S) P); lia).
    assert (0 <= N) by (unfold N; apply Z.div_pos; nia).
    set (q := t / 2 ^ K) in *. set (r := t mod 2 ^ K) in *.
    assert (r * M / 2 ^ S * 2 ^ S <= r * M) by (pose proof (Z.mul_div_le (r * M) (2 ^ S) P); lia).
    assert (0 <= r * M / 2 ^ S) by (apply Z.div_pos; nia).
    split; [nia|]. rewrite Z.mul_add_distr_r.
    assert (q * N * 2 ^ S <= q * (2 ^ K * M)) by nia.
    replace (t * M) with (q * (2 ^ K * M) + r * M) by nia. lia.
  Qed.

  Lemma conv_lower t : 0 <= t -> t * M < (conv t + t / 2 ^ K + 1) * 2 ^ S.
  Proof.
    intros Ht. destruct S_facts as [[S1 S2] S3], M_facts as [M1 M2], K_facts as [K1 K2].
    assert (P : 0 < 2 ^ S) by (apply Z.pow_pos_nonneg; lia).
    assert (PK : 0 < 2 ^ K) by (apply Z.pow_pos_nonneg; lia).
    unfold conv. pose proof (Z.div_mod t (2 ^ K) ltac:(lia)). pose proof (Z.mod_pos_bound t (2 ^ K) PK).
    assert (0 <= t / 2 ^ K) by (apply Z.div_pos; lia).
    assert (2 ^ K * M < (N + 1) * 2 ^ S).
    { unfold N. pose proof (Z.mul_succ_div_gt (2 ^ K * M) (2 ^ S) P). lia. }
    set (q := t / 2 ^ K) in *. set (r := t mod 2 ^ K) in *.
    assert (r * M < (r * M / 2 ^ S + 1) * 2 ^ S) by (pose proof (Z.mul_succ_div_gt (r * M) (2 ^ S) P); lia).
    replace (t * M) with (q * (2 ^ K * M) + r * M) by nia.
    assert (q * (2 ^ K * M) <= q * ((N + 1) * 2 ^ S)) by nia. 
    replace ((q * N + r * M / 2 ^ S + q + 1) * 2 ^ S)
      with (q * ((N + 1) * 2 ^ S) + (r * M / 2 ^ S + 1) * 2 ^ S) by ring. lia.
  Qed.

  (** One more cycle: never backwards, and never more than one nanosecond beyond the rate. *)
  Lemma conv_step t : 0 <= t -> 0 <= conv (t + 1) - conv t <= M / 2 ^ S + 1.
  Proof.
    intros Ht. destruct S_facts as [[S1 S2] S3], M_facts as [M1 M2], K_facts as [K1 K2].
    assert (P : 0 < 2 ^ S) by (apply Z.pow_pos_nonneg; lia).
    assert (PK : 0 < 2 ^ K) by (apply Z.pow_pos_nonneg; lia).
    assert (G : forall r, 0 <= r -> 0 <= (r + 1) * M / 2 ^ S - r * M / 2 ^ S <= M / 2 ^ S + 1).
    { intros r Hr. split.
      - assert (r * M / 2 ^ S <= (r + 1) * M / 2 ^ S) by (apply Z.div_le_mono; lia). lia.
      - pose proof (Z.div_mod (r * M) (2 ^ S) ltac:(lia)). pose proof (Z.mod_pos_bound (r * M) (2 ^ S) P).
        pose proof (Z.div_mod M (2 ^ S) ltac:(lia)). pose proof (Z.mod_pos_bound M (2 ^ S) P).
        assert ((r + 1) * M / 2 ^ S < r * M / 2 ^ S + M / 2 ^ S + 2); [|lia].
        apply Z.div_lt_upper_bound; [lia|]. lia. }
    unfold conv. pose proof (Z.div_mod t (2 ^ K) ltac:(lia)) as D. pose proof (Z.mod_pos_bound t (2 ^ K) PK) as R.
    set (q := t / 2 ^ K) in *. set (r := t mod 2 ^ K) in *.
    destruct (Z.eq_dec (r + 1) (2 ^ K)) as [E|E].
    - assert (D1 : (t + 1) / 2 ^ K = q + 1) by (symmetry; apply Z.div_unique with 0; lia).
      assert (D2 : (t + 1) mod 2 ^ K = 0) by (symmetry; apply Z.mod_unique with (q + 1); lia).
      rewrite D1, D2. rewrite Z.mul_0_l, Z.div_0_l by lia. specialize (G r ltac:(lia)).
      rewrite E in G. fold N in G. lia.
    - assert (D1 : (t + 1) / 2 ^ K = q) by (symmetry; apply Z.div_unique with (r + 1); lia).
      assert (D2 : (t + 1) mod 2 ^ K = r + 1) by (symmetry; apply Z.mod_unique with q; lia).
      rewrite D1, D2. specialize (G r ltac:(lia)). lia.
  Qed.

  Lemma conv_mono t t' : 0 <= t <= t' -> conv t <= conv t'.
  Proof.
    intros [H0 H]. replace t' with (t + Z.of_nat (Z.to_nat (t' - t))) by lia.
    generalize (Z.to_nat (t' - t)) as n. induction n as [|n IH].
    - replace (t + Z.of_nat 0) with t by lia. lia.
    - replace (t + Z.of_nat (Datatypes.S n)) with (t + Z.of_nat n + 1) by lia.
      pose proof (conv_step (t + Z.of_nat n) ltac:(lia)). lia.
  Qed.

  (** The code computes [conv] without overflow while the result fits. *)
  Lemma clock_ok now : let t := (now - start) mod 2 ^ 64 in t * 1000000 < 2 ^ 64 * cpm ->
    clock_nsecs (mkClock M S K (Z.ones K) N start) now = conv t.
  Proof.
    cbv zeta. set (t := (now - start) mod 2 ^ 64). intros HT.
    assert (Ht : 0 <= t < 2 ^ 64) by (apply Z.mod_pos_bound; lia).
    destruct S_facts as [[S1 S2] S3], M_facts as [M1 M2], K_facts as [K1 K2].
    assert (P : 0 < 2 ^ S) by (apply Z.pow_pos_nonneg; lia).
    assert (PK : 0 < 2 ^ K) by (apply Z.pow_pos_nonneg; lia).
    pose proof KM as KM'.
    unfold clock_nsecs. cbn [clock_mult clock_shift max_cycles_shift max_cycles_mask nsecs_for_max_cycles cycles_start].
    cbv zeta. change (u64 (now - start)) with t.
    rewrite Z.land_ones by lia. rewrite !Z.shiftr_div_pow2 by lia.
    pose proof (Z.mod_pos_bound t (2 ^ K) PK) as R.
    assert (U1 : u64 (t mod 2 ^ K * M) = t mod 2 ^ K * M) by (unfold u64; apply Z.mod_small; nia).
    rewrite U1.
    destruct (conv_upper t ltac:(lia)) as [CL CU].
    assert (CB : conv t < 2 ^ 64).
    { assert (t * M < 2 ^ 64 * 2 ^ S); [|nia].
      assert (t * M * cpm <= t * (2 ^ S * 1000000)) by nia. nia. }
    assert (0 <= t mod 2 ^ K * M / 2 ^ S) by (apply Z.div_pos; nia).
    assert (0 <= t / 2 ^ K * N).
    { apply Z.mul_nonneg_nonneg; [apply Z.div_pos; lia|]. unfold N. apply Z.div_pos; nia. }
    unfold conv in *.
    assert (U2 : u64 (t / 2 ^ K * N) = t / 2 ^ K * N) by (unfold u64; apply Z.mod_small; lia).
    rewrite U2. unfold u64. apply Z.mod_small. lia.
  Qed.

  Lemma rate_ok : M / 2 ^ S <= 1000000 / cpm.
  Proof.
    destruct S_facts as [[S1 S2] S3], M_facts as [M1 M2].
    assert (P : 0 < 2 ^ S) by (apply Z.pow_pos_nonneg; lia).
    apply Z.div_le_lower_bound; [lia|]. pose proof (Z.mul_div_le M (2 ^ S) P). nia.
  Qed.

  (** Accuracy in terms of the calibrated rate. *)
  Lemma conv_accuracy t : 0 <= t ->
    conv t * cpm <= t * 1000000 /\ t * 1000000 < (conv t + t / 2 ^ 20 + 2) * cpm.
  Proof.
    intros Ht. destruct (conv_upper t Ht) as [CL CU]. pose proof (conv_lower t Ht) as CLo.
    destruct S_facts as [[S1 S2] S3], M_facts as [M1 M2], K_facts as [K1 K2].
    assert (P : 0 < 2 ^ S) by (apply Z.pow_pos_nonneg; lia).
    assert (P21 : 2 ^ 21 <= 2 ^ S) by (apply Z.pow_le_mono_r; lia).
    assert (PK : 2 ^ 21 <= 2 ^ K) by (apply Z.pow_le_mono_r; lia).
    split.
    - assert (conv t * cpm * 2 ^ S <= t * 1000000 * 2 ^ S); [|nia].
      assert (conv t * 2 ^ S * cpm <= t * M * cpm) by nia.
      assert (t * (M * cpm) <= t * (2 ^ S * 1000000)) by nia. nia.
    - (* t*10^6*2^S < t*(M+1)*cpm < ((conv+q+1)*2^S + t) * cpm *)
      set (q := t / 2 ^ K) in *. set (p := t / 2 ^ 21).
      assert (Hq : q <= p).
      { unfold q, p. apply Z.div_le_compat_l; lia. }
      assert (Hp : t < (p + 1) * 2 ^ 21).
      { unfold p. pose proof (Z.mul_succ_div_gt t (2 ^ 21) ltac:(lia)). lia. }
      assert (Hp0 : 0 <= p) by (apply Z.div_pos; lia).
      assert (Hp2 : 2 * p <= t / 2 ^ 20).
      { apply Z.div_le_lower_bound; [lia|]. unfold p. pose proof (Z.mul_div_le t (2 ^ 21) ltac:(lia)).
        change (2 ^ 21) with (2 * 2 ^ 20) in *. lia. }
      assert (t < (p + 1) * 2 ^ S) by nia.
      assert (A1 : t * (2 ^ S * 1000000) <= t * ((M + 1) * cpm)) by nia.
      assert (A2 : t * M + t < (conv t + p + 1) * 2 ^ S + (p + 1) * 2 ^ S) by nia.
      assert (A3 : t * M + t < (conv t + t / 2 ^ 20 + 2) * 2 ^ S) by nia.
      assert (A4 : t * 1000000 * 2 ^ S < (conv t + t / 2 ^ 20 + 2) * cpm * 2 ^ S).
      { assert (t * ((M + 1) * cpm) = (t * M + t) * cpm) by ring.
        assert ((t * M + t) * cpm < (conv t + t / 2 ^ 20 + 2) * 2 ^ S * cpm) by nia. lia. }
      nia.
  Qed.
End Cal.

Lemma clock_conv cpm start c now : 1 <= cpm -> 3600000 * cpm < 2 ^ 64 -> calibrate cpm start = Some c ->
  (now - start) mod 2 ^ 64 * 1000000 < 2 ^ 64 * cpm ->
  clock_nsecs c now = conv cpm ((now - start) mod 2 ^ 64).
Proof.
  intros H1 H2 E HF. assert (SI : forall (a b : clock), Some a = Some b -> a = b) by congruence.
  rewrite (calibrate_ok cpm start H1 H2) in E. apply SI in E. rewrite <- E. apply clock_ok; auto.
Qed.
