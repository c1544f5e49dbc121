(** Proofs about the encoding of doubles. *)
From Coq Require Import ZArith Bool Lia.
From Verif Require Import CBase Ieee754Model Ieee754Spec.
Open Scope Z_scope.

Lemma nbits_lt m k : 0 <= m < 2 ^ k -> 0 <= k -> nbits m <= k.
Proof. intros H Hk. unfold nbits. destruct (Z.eqb_spec m 0); [lia|]. assert (Z.log2 m < k) by (apply Z.log2_lt_pow2; lia). lia. Qed.
Lemma rnd_small p m e : nbits m <= p -> rnd p (m, e) = (m, e).
Proof. intros H. unfold rnd. destruct (Z.leb_spec (nbits m - p) 0); [auto|lia]. Qed.

Lemma ge2_spec m e : 2 ^ 52 <= m < 2 ^ 53 -> ge2 m e = (- 52 <? e).
Proof.
  intros H. unfold ge2. destruct (Z.leb_spec 0 e).
  - assert (1 <= 2 ^ e) by (pose proof (Z.pow_pos_nonneg 2 e ltac:(lia) ltac:(lia)); lia). destruct (Z.leb_spec 2 (m * 2 ^ e)), (Z.ltb_spec (- 52) e); auto; nia.
  - destruct (Z.ltb_spec (- 52) e) as [L|L].
    + apply Z.leb_le. pose proof (Z.pow_le_mono_r 2 (- e) 51 ltac:(lia) ltac:(lia)). lia.
    + apply Z.leb_gt. pose proof (Z.pow_le_mono_r 2 52 (- e) ltac:(lia) ltac:(lia)). lia.
Qed.
Lemma lt1_spec m e : 2 ^ 52 <= m < 2 ^ 53 -> lt1 m e = (e <? - 52).
Proof.
  intros H. unfold lt1. destruct (Z.leb_spec 0 e).
  - assert (1 <= 2 ^ e) by (pose proof (Z.pow_pos_nonneg 2 e ltac:(lia) ltac:(lia)); lia). destruct (Z.ltb_spec (m * 2 ^ e) 1), (Z.ltb_spec e (- 52)); auto; nia.
  - destruct (Z.ltb_spec e (- 52)) as [L|L].
    + apply Z.ltb_lt. pose proof (Z.pow_le_mono_r 2 53 (- e) ltac:(lia) ltac:(lia)). lia.
    + apply Z.ltb_ge. pose proof (Z.pow_le_mono_r 2 (- e) 52 ltac:(lia) ltac:(lia)). lia.
Qed.
Lemma down_ok m : 2 ^ 52 <= m < 2 ^ 53 -> forall fuel e sh, e + 52 < Z.of_nat fuel -> (0 < fuel)%nat -> down fuel m e sh = Some (Z.min e (- 52), sh + Z.max 0 (e + 52)).
Proof.
  intros H. induction fuel as [|f IH]; intros e sh L F; [lia|]. cbn [down]. rewrite ge2_spec by auto. destruct (Z.ltb_spec (- 52) e).
  - rewrite IH by lia. f_equal. f_equal; lia.
  - f_equal. f_equal; lia.
Qed.
Lemma up_ok m : 2 ^ 52 <= m < 2 ^ 53 -> forall fuel e sh, - 52 - e < Z.of_nat fuel -> e <= - 52 -> up fuel m e sh = Some (- 52, sh + (e + 52)).
Proof.
  intros H. induction fuel as [|f IH]; intros e sh L F; [lia|]. cbn [up]. rewrite lt1_spec by auto. destruct (Z.ltb_spec e (- 52)).
  - rewrite IH by lia. f_equal. f_equal; lia.
  - f_equal. f_equal; lia.
Qed.

Lemma factor_small q : 2 <= q <= 53 -> factor q = (2 ^ (q - 1), 53 - q).
Proof.
  intros H. unfold factor, rnd. change (nbits (2 ^ 53 + 1)) with 54. destruct (Z.leb_spec (54 - q) 0); [lia|].
  set (k := 54 - q). assert (HK : 1 <= k <= 52) by lia. assert (P : 2 ^ 53 = 2 ^ (q - 1) * 2 ^ k) by (rewrite <- Z.pow_add_r by lia; f_equal; lia).
  assert (K2 : 2 <= 2 ^ k) by (pose proof (Z.pow_le_mono_r 2 1 k ltac:(lia) ltac:(lia)); lia).
  assert (D : (2 ^ 53 + 1) / 2 ^ k = 2 ^ (q - 1)) by (rewrite P, Z.div_add_l by lia; rewrite (Z.div_small 1) by lia; lia).
  assert (R : (2 ^ 53 + 1) mod 2 ^ k = 1) by (rewrite P, Z.add_comm, Z.mod_add by lia; apply Z.mod_small; lia).
  rewrite D, R. assert (O : Z.odd (2 ^ (q - 1)) = false).
  { rewrite <- Z.negb_even. replace (q - 1) with (Z.succ (q - 2)) by lia. rewrite Z.pow_succ_r, Z.even_mul by lia. reflexivity. }
  rewrite O, andb_false_r, orb_false_r. destruct (Z.ltb_spec (2 ^ k) (2 * 1)); [lia|]. f_equal. lia.
Qed.
Lemma factor_big q : 54 <= q -> factor q = (2 ^ 53 + 1, - 1).
Proof. intros H. apply rnd_small. change (nbits (2 ^ 53 + 1)) with 54. auto. Qed.

Lemma nbits_spec m : 0 < m -> 2 ^ (nbits m - 1) <= m < 2 ^ nbits m /\ 1 <= nbits m.
Proof.
  intros H. unfold nbits. destruct (Z.eqb_spec m 0); [lia|]. pose proof (Z.log2_spec m H). pose proof (Z.log2_nonneg m).
  replace (Z.log2 m + 1 - 1) with (Z.log2 m) by lia. rewrite <- Z.add_1_r in H0. lia.
Qed.
Lemma nbits_unique m t : 1 <= t -> 2 ^ (t - 1) <= m < 2 ^ t -> nbits m = t.
Proof. intros Ht H. assert (0 < m) by (pose proof (Z.pow_pos_nonneg 2 (t - 1) ltac:(lia) ltac:(lia)); lia). unfold nbits. destruct (Z.eqb_spec m 0); [lia|]. rewrite (Z.log2_unique' m (t - 1) (m - 2 ^ (t - 1))); [lia|lia| |lia]. replace t with (Z.succ (t - 1)) in H at 2 by lia. rewrite Z.pow_succ_r in H by lia. lia. Qed.

(** fnorm * factor, truncated, is the fraction. *)
Lemma sig_small p q f : 53 <= p -> 2 <= q <= 53 -> 0 <= f < 2 ^ 52 -> trunc (mul p (f, - 52) (factor q)) = f.
Proof.
  intros Hp Hq Hf. rewrite factor_small by auto. unfold mul. cbn [fst snd]. set (P := 2 ^ (q - 1)). assert (PP : 0 < P) by (apply Z.pow_pos_nonneg; lia).
  assert (T : forall k, 0 <= k <= q - 1 -> trunc (f * 2 ^ (q - 1 - k), - 52 + (53 - q) + k) = f).
  { intros k Hk. unfold trunc. destruct (Z.leb_spec 0 (- 52 + (53 - q) + k)).
    - assert (k = q - 1) as -> by lia. rewrite Z.sub_diag. replace (- 52 + (53 - q) + (q - 1)) with 0 by lia. lia.
    - replace (- (- 52 + (53 - q) + k)) with (q - 1 - k) by lia. apply Z.div_mul. apply Z.pow_nonzero; lia. }
  unfold rnd. destruct (Z.leb_spec (nbits (f * P) - p) 0) as [L|L].
  - specialize (T 0 ltac:(lia)). rewrite Z.sub_0_r, Z.add_0_r in T. exact T.
  - set (k := nbits (f * P) - p) in *. assert (K : k <= q - 1).
    { assert (nbits (f * P) <= 52 + (q - 1)); [|lia]. apply nbits_lt; [|lia]. rewrite Z.pow_add_r by lia. fold P. nia. }
    assert (E : f * P = f * 2 ^ (q - 1 - k) * 2 ^ k) by (rewrite <- Z.mul_assoc, <- Z.pow_add_r by lia; unfold P; f_equal; f_equal; lia).
    assert (NZ : 2 ^ k <> 0) by (apply Z.pow_nonzero; lia).
    rewrite E, Z.div_mul, Z.mod_mul by auto. assert (0 < 2 ^ k) by (apply Z.pow_pos_nonneg; lia).
    destruct (Z.ltb_spec (2 ^ k) (2 * 0)); [lia|]. destruct (Z.eqb_spec (2 * 0) (2 ^ k)); [lia|]. cbn [orb andb]. apply T. lia.
Qed.
Lemma sig_big p q f : 53 <= p -> 54 <= q -> 0 <= f < 2 ^ 52 -> trunc (mul p (f, - 52) (factor q)) = f.
Proof.
  intros Hp Hq Hf. rewrite factor_big by auto. unfold mul. cbn [fst snd]. change (- 52 + - 1) with (- 53).
  destruct (Z.eq_dec f 0) as [->|NZ].
  - cbn [Z.mul]. rewrite rnd_small; [|cbn; lia]. reflexivity.
  - destruct (nbits_spec f ltac:(lia)) as (B & B1). set (t := nbits f) in *. assert (T52 : t <= 52) by (apply nbits_lt; lia).
    assert (PT : 2 ^ (t + 53) = 2 ^ t * 2 ^ 53) by (apply Z.pow_add_r; lia). assert (PT1 : 2 ^ (t + 53 - 1) = 2 ^ (t - 1) * 2 ^ 53) by (rewrite <- Z.pow_add_r by lia; f_equal; lia).
    pose proof (Z.pow_le_mono_r 2 t 52 ltac:(lia) T52) as LT.
    assert (NB : nbits (f * (2 ^ 53 + 1)) = t + 53) by (apply nbits_unique; [lia|]; nia).
    unfold rnd. rewrite NB. destruct (Z.leb_spec (t + 53 - p) 0) as [L|L].
    + unfold trunc. cbn [Z.leb Z.compare Z.opp]. change (0 <=? -53) with false. cbv iota. change (- -53) with 53. rewrite Z.mul_add_distr_l, Z.mul_1_r, Z.div_add_l by lia. rewrite Z.div_small by lia. lia.
    + set (k := t + 53 - p) in *. assert (KT : k <= t) by lia. assert (K0 : 0 < 2 ^ k) by (apply Z.pow_pos_nonneg; lia).
      assert (P53 : 2 ^ 53 = 2 ^ (53 - k) * 2 ^ k) by (rewrite <- Z.pow_add_r by lia; f_equal; lia).
      assert (D : f * (2 ^ 53 + 1) / 2 ^ k = f * 2 ^ (53 - k) + f / 2 ^ k).
      { replace (f * (2 ^ 53 + 1)) with (f * 2 ^ (53 - k) * 2 ^ k + f) by (rewrite P53 at 1; ring). apply Z.div_add_l. lia. }
      rewrite D. set (g := f / 2 ^ k). assert (G : 0 <= g < 2 ^ (t - k)).
      { unfold g. split; [apply Z.div_pos; lia|]. apply Z.div_lt_upper_bound; [lia|]. rewrite <- Z.pow_add_r by lia. replace (k + (t - k)) with t by lia. lia. }
      assert (PL : 2 ^ (53 - k) = 2 * 2 ^ (52 - k)) by (rewrite <- Z.pow_succ_r by lia; f_equal; lia).
      pose proof (Z.pow_le_mono_r 2 (t - k) (52 - k) ltac:(lia) ltac:(lia)) as PM. assert (PP : 0 < 2 ^ (52 - k)) by (apply Z.pow_pos_nonneg; lia).
      unfold trunc. destruct (Z.leb_spec 0 (-53 + k)); [lia|]. replace (- (-53 + k)) with (53 - k) by lia. destruct (_ || _).
      * rewrite <- Z.add_assoc, Z.div_add_l by lia. rewrite (Z.div_small (g + 1)) by lia. lia.
      * rewrite Z.div_add_l by lia. rewrite (Z.div_small g) by lia. lia.
Qed.

Lemma lor_disj a b k : 0 <= k -> 0 <= b < 2 ^ k -> Z.lor (a * 2 ^ k) b = a * 2 ^ k + b.
Proof.
  intros Hk Hb. rewrite <- Z.shiftl_mul_pow2 by auto.
  assert (D : Z.land (Z.shiftl a k) b = 0).
  { apply Z.bits_inj'. intros n Hn. rewrite Z.land_spec, Z.bits_0, Z.shiftl_spec by auto. destruct (Z.ltb_spec n k); [rewrite Z.testbit_neg_r by lia; auto|].
    replace (Z.testbit b n) with false; [apply andb_false_r|]. symmetry. rewrite <- (Z.mod_small b (2 ^ k)) by auto. apply Z.mod_pow2_bits_high. lia. }
  rewrite <- Z.lxor_lor by exact D. symmetry. apply Z.add_nocarry_lxor. exact D.
Qed.

Lemma pack_norm p q fuel s m e : 53 <= p -> 2 <= q -> 2 ^ 52 <= m < 2 ^ 53 -> - 1075 <= e <= 971 -> (1024 <= fuel)%nat ->
  pack p q fuel (FNum s m e) = Word (binary64 s m e).
Proof.
  intros Hp Hq Hm He HF. unfold pack. rewrite down_ok by (auto; lia). rewrite up_ok by (auto; lia).
  unfold sub1. change (- 52 <? 0) with true. cbv iota. change (- - 52) with 52. assert (NB0 : nbits (m - 2 ^ 52) <= 52) by (apply nbits_lt; lia). rewrite rnd_small by lia.
  assert (SG : trunc (mul p (m - 2 ^ 52, - 52) (factor q)) = m - 2 ^ 52) by (destruct (Z_le_gt_dec q 53); [apply sig_small; lia|apply sig_big; lia]). rewrite SG.
  replace (0 + Z.max 0 (e + 52) + (Z.min e (- 52) + 52) + (2 ^ 10 - 1)) with (e + 52 + 1023) by lia. destruct (Z.ltb_spec (e + 52 + 1023) 0); [lia|]. f_equal.
  unfold binary64. unfold u64. rewrite Z.mod_small by lia. set (ex := e + 52 + 1023). assert (EB : 0 <= ex < 2 ^ 11) by lia. clearbody ex.
  replace (if s then 2 ^ 63 else 0) with ((if s then 1 else 0) * 2 ^ 63) by (destruct s; reflexivity).
  rewrite lor_disj by lia. replace ((if s then 1 else 0) * 2 ^ 63 + ex * 2 ^ 52) with (((if s then 1 else 0) * 2 ^ 11 + ex) * 2 ^ 52) by (destruct s; lia). apply lor_disj; lia.
Qed.

Lemma scale_ok : forall fuel e sh, Z.abs sh < Z.of_nat fuel -> scale fuel e sh = Some (e + sh).
Proof.
  induction fuel as [|f IH]; intros e sh H; [lia|]. cbn [scale]. destruct (Z.ltb_spec 0 sh); [rewrite IH by lia; f_equal; lia|]. destruct (Z.ltb_spec sh 0); [rewrite IH by lia; f_equal; lia|]. f_equal. lia.
Qed.
Lemma unpack_ok p fuel s m e : 53 <= p -> 2 ^ 52 <= m < 2 ^ 53 -> - 1075 <= e <= 971 -> (1025 <= fuel)%nat -> binary64 s m e <> 0 -> unpack p fuel (binary64 s m e) = Some (FNum s m e).
Proof.
  intros Hp Hm He HF NZ. unfold unpack. destruct (Z.eqb_spec (binary64 s m e) 0); [contradiction|]. set (w := binary64 s m e) in *.
  set (b := if s then 1 else 0). assert (HB : 0 <= b <= 1) by (unfold b; destruct s; lia).
  assert (EW : w = (b * 2 ^ 11 + (e + 52 + 1023)) * 2 ^ 52 + (m - 2 ^ 52)) by (unfold w, binary64, b; destruct s; lia).
  assert (E1 : Z.land w (2 ^ 52 - 1) = m - 2 ^ 52).
  { change (2 ^ 52 - 1) with (Z.ones 52). rewrite Z.land_ones by lia. rewrite EW, Z.add_comm, Z.mod_add by lia. apply Z.mod_small. lia. }
  assert (E2 : Z.land (Z.shiftr w 52) (2 ^ 11 - 1) = e + 52 + 1023).
  { change (2 ^ 11 - 1) with (Z.ones 11). rewrite Z.land_ones, Z.shiftr_div_pow2 by lia. rewrite EW, Z.div_add_l by lia. rewrite (Z.div_small (m - 2 ^ 52)) by lia. rewrite Z.add_0_r, Z.add_comm, Z.mod_add by lia. apply Z.mod_small. lia. }
  assert (E3 : Z.testbit w 63 = s).
  { rewrite Z.testbit_eqb by lia. assert (w / 2 ^ 63 = b).
    { symmetry. apply (Z.div_unique_pos _ _ _ ((e + 52 + 1023) * 2 ^ 52 + (m - 2 ^ 52))); [lia|]. rewrite EW. lia. }
    rewrite H. unfold b. destruct s; reflexivity. }
  rewrite E1, E2, E3. replace (m - 2 ^ 52 + 2 ^ 52) with m by lia. assert (NB : nbits m <= 53) by (apply nbits_lt; lia). rewrite rnd_small by lia.
  assert (E4 : to_s64 (u64 (e + 52 + 1023 - (2 ^ 10 - 1))) = e + 52).
  { unfold to_s64, u64. rewrite Z.mod_mod by lia. replace (e + 52 + 1023 - (2 ^ 10 - 1)) with (e + 52) by lia. destruct (Z_lt_ge_dec (e + 52) 0).
    - rewrite <- (Z.mod_add (e + 52) 1) by lia. rewrite Z.mod_small by lia. destruct (Z.ltb_spec (e + 52 + 1 * 2 ^ 64) (2 ^ 63)); lia.
    - rewrite Z.mod_small by lia. destruct (Z.ltb_spec (e + 52) (2 ^ 63)); lia. }
  rewrite E4, scale_ok by lia. replace (- 52 + (e + 52)) with e by lia. rewrite rnd_small by lia. reflexivity.
Qed.
Lemma down_inf_loop : forall fuel, down_inf fuel = Loop.
Proof. induction fuel; auto. Qed.
