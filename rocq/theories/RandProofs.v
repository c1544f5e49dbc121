(** Proofs about the random number generators. *)
From Coq Require Import ZArith List Lia Bool Znumtheory.
From Verif Require Import CBase FloatZ Orbit LfsrCerts RandModel RandSpec RandAlgebra RandCerts.
Import ListNotations.
Open Scope Z_scope.

(** ** The components are linear *)
Lemma land_lxor : forall a b c, Z.land (Z.lxor a b) c = Z.lxor (Z.land a c) (Z.land b c).
Proof.
  intros a b c. apply Z.bits_inj'. intros n _. rewrite !Z.land_spec, !Z.lxor_spec, !Z.land_spec.
  destruct (Z.testbit a n), (Z.testbit b n), (Z.testbit c n); reflexivity.
Qed.
Lemma mod_lxor : forall m a b, 0 <= m -> (Z.lxor a b) mod 2 ^ m = Z.lxor (a mod 2 ^ m) (b mod 2 ^ m).
Proof.
  intros m a b M. rewrite <- !Z.land_ones by exact M. apply land_lxor.
Qed.
Lemma u32_lxor : forall a b, u32 (Z.lxor a b) = Z.lxor (u32 a) (u32 b).
Proof. intros a b. apply mod_lxor. lia. Qed.
Lemma u64_lxor : forall a b, u64 (Z.lxor a b) = Z.lxor (u64 a) (u64 b).
Proof. intros a b. apply mod_lxor. lia. Qed.

Lemma taus32_lxor : forall a b c d x y, taus32 a b c d (Z.lxor x y) = Z.lxor (taus32 a b c d x) (taus32 a b c d y).
Proof.
  intros a b c d x y. unfold taus32.
  rewrite land_lxor, !Z.shiftl_lxor, u64_lxor, (u32_lxor (Z.shiftl x a)). rewrite (lxor_swap (u32 (Z.shiftl x a))).
  rewrite Z.shiftr_lxor. rewrite lxor_swap. apply u32_lxor.
Qed.
Lemma taus64_lxor : forall a b c d x y, taus64 a b c d (Z.lxor x y) = Z.lxor (taus64 a b c d x) (taus64 a b c d y).
Proof.
  intros a b c d x y. unfold taus64.
  rewrite land_lxor, !Z.shiftl_lxor, !u64_lxor. rewrite (lxor_swap (u64 (Z.shiftl x a))).
  rewrite Z.shiftr_lxor. apply lxor_swap.
Qed.
Lemma u32_range : forall x, 0 <= u32 x < 2 ^ 32.
Proof. intros x. apply Z.mod_pos_bound. reflexivity. Qed.
Lemma u64_range : forall x, 0 <= u64 x < 2 ^ 64.
Proof. intros x. apply Z.mod_pos_bound. reflexivity. Qed.
Lemma taus32_range : forall a b c d s, 0 <= taus32 a b c d s < 2 ^ 32.
Proof. intros. apply u32_range. Qed.
Lemma shiftr_range : forall x n, 0 <= n -> 0 <= x < 2 ^ 64 -> 0 <= Z.shiftr x n < 2 ^ 64.
Proof.
  intros x n Hn X. rewrite Z.shiftr_div_pow2 by exact Hn. pose proof (Z.pow_pos_nonneg 2 n ltac:(lia) Hn).
  split; [ apply Z.div_pos; lia | ]. apply Z.div_lt_upper_bound; [ lia | ]. nia.
Qed.
Lemma taus64_range : forall a b c d s, 0 <= b -> 0 <= s < 2 ^ 64 -> 0 <= taus64 a b c d s < 2 ^ 64.
Proof.
  intros a b c d s B S. unfold taus64. apply (lxor_range 64); [ apply u64_range | ].
  apply shiftr_range; [ exact B | ]. apply (lxor_range 64); [ apply u64_range | exact S ].
Qed.

(** ** Each component, with its facts *)
Lemma lin32 : forall a b c d w, linear w (taus32 a b c d).
Proof. intros a b c d w x y _ _. apply taus32_lxor. Qed.
Lemma lin64 : forall a b c d w, linear w (taus64 a b c d).
Proof. intros a b c d w x y _ _. apply taus64_lxor. Qed.

Record good (T : Z -> Z) (j k : nat) : Prop := Good {
  g_lin : linear (k + j) T;
  g_range : forall s, 0 <= s < 2 ^ Z.of_nat (k + j) -> 0 <= T s < 2 ^ Z.of_nat (k + j);
  g_check : check T j k (period k) (factors k) = true }.
Lemma g1 : good c1 1 31. Proof. constructor; [ apply lin32 | intros; apply taus32_range | exact k1 ]. Qed.
Lemma g2 : good c2 3 29. Proof. constructor; [ apply lin32 | intros; apply taus32_range | exact k2 ]. Qed.
Lemma g3 : good c3 4 28. Proof. constructor; [ apply lin32 | intros; apply taus32_range | exact k3 ]. Qed.
Lemma h1 : good d1 1 63. Proof. constructor; [ apply lin64 | intros; apply taus64_range; [ lia | assumption ] | exact e1 ]. Qed.
Lemma h2 : good d2 9 55. Proof. constructor; [ apply lin64 | intros; apply taus64_range; [ lia | assumption ] | exact e2 ]. Qed.
Lemma h3 : good d3 12 52. Proof. constructor; [ apply lin64 | intros; apply taus64_range; [ lia | assumption ] | exact e3 ]. Qed.
Lemma h4 : good d4 17 47. Proof. constructor; [ apply lin64 | intros; apply taus64_range; [ lia | assumption ] | exact e4 ]. Qed.
Lemma h5 : good d5 23 41. Proof. constructor; [ apply lin64 | intros; apply taus64_range; [ lia | assumption ] | exact e5 ]. Qed.

Lemma sum_div : forall T j k s g R d, good T j k -> alive j k s -> 0 < R -> rel_prime (Zpos (period k)) R -> 0 <= d ->
  (forall n, 1 <= n -> g (n + R) = g n) ->
  (forall n, 1 <= n -> Z.lxor (iterz (n + d) T s) (g (n + d)) = Z.lxor (iterz n T s) (g n)) -> (Zpos (period k) | d).
Proof.
  intros T j k s g R d [G1 G2 G3] A HR RP Hd PG E.
  exact (comp_sum T j k (period k) (factors k) G1 G2 G3 s g R d A HR RP Hd PG E).
Qed.
Lemma per_mul : forall T j k s n m, good T j k -> alive j k s -> 1 <= n -> 0 <= m -> iterz (n + Zpos (period k) * m) T s = iterz n T s.
Proof.
  intros T j k s n m [G1 G2 G3] A Hn Hm. apply (comp_period_mul T j k (period k) (factors k) G1 G2 G3); auto. destruct A. assumption.
Qed.
Lemma per_div : forall T j k s n D, good T j k -> alive j k s -> 1 <= n -> 0 <= D -> (Zpos (period k) | D) -> iterz (n + D) T s = iterz n T s.
Proof.
  intros T j k s n D G A Hn HD (m & E). assert (0 <= m) by nia. subst D. rewrite Z.mul_comm. apply (per_mul T j k); auto.
Qed.
Lemma alive_next : forall T j k s n, good T j k -> alive j k s -> 0 <= n -> alive j k (iterz n T s).
Proof. intros T j k s n [G1 G2 G3] A Hn. apply (alive_iter T j k (period k) (factors k) G1 G2 G3); auto. Qed.

Lemma rp : forall a b, Z.gcd a b = 1 -> rel_prime a b.
Proof. intros a b H. apply Zgcd_1_rel_prime. exact H. Qed.
Lemma coprime_mul : forall a b d, rel_prime a b -> (a | d) -> (b | d) -> (a * b | d).
Proof.
  intros a b d R (x & X) B. subst d. rewrite Z.mul_comm.
  apply Z.mul_divide_mono_r. apply Gauss with a; [ rewrite Z.mul_comm; exact B | apply rel_prime_sym; exact R ].
Qed.
Lemma div_l : forall a b d, (a * b | d) -> (a | d).
Proof. intros a b d (x & ->). exists (x * b). ring. Qed.
Lemma div_r : forall a b d, (a * b | d) -> (b | d).
Proof. intros a b d (x & ->). exists (x * a). ring. Qed.

(** ** The small generator *)
Lemma iter32 : forall t n, 0 <= n -> iterz n next32 t = T88 (iterz n c1 (a1 t)) (iterz n c2 (a2 t)) (iterz n c3 (a3 t)).
Proof.
  intros t n Hn. revert n Hn. apply natlike_ind; [ destruct t; reflexivity | ]. intros n Hn IH. change (Z.succ n) with (n + 1).
  rewrite !iterz_succ by lia. rewrite IH. reflexivity.
Qed.
Lemma out32_eq : forall t n, 0 <= n ->
  out32 t n = Z.lxor (iterz (n + 1) c1 (a1 t)) (Z.lxor (iterz (n + 1) c2 (a2 t)) (iterz (n + 1) c3 (a3 t))).
Proof.
  intros t n Hn. unfold out32. rewrite iter32 by exact Hn. rewrite !iterz_succ by exact Hn.
  rewrite <- Z.lxor_assoc. reflexivity.
Qed.
Lemma ok32_alive : forall t, ok32 t <-> alive 1 31 (a1 t) /\ alive 3 29 (a2 t) /\ alive 4 28 (a3 t).
Proof.
  intros t. unfold ok32, alive. change (2 ^ Z.of_nat (31 + 1)) with (2 ^ 32). change (2 ^ Z.of_nat (29 + 3)) with (2 ^ 32).
  change (2 ^ Z.of_nat (28 + 4)) with (2 ^ 32). change (2 ^ Z.of_nat 1) with 2. change (2 ^ Z.of_nat 3) with 8. change (2 ^ Z.of_nat 4) with 16. lia.
Qed.
Lemma ok32_iter : forall t n, ok32 t -> 0 <= n -> ok32 (iterz n next32 t).
Proof.
  intros t n H Hn. apply ok32_alive in H. destruct H as (A1 & A2 & A3). apply ok32_alive. rewrite iter32 by exact Hn. cbn [a1 a2 a3].
  split; [ | split ]; [ apply (alive_next c1 1 31) | apply (alive_next c2 3 29) | apply (alive_next c3 4 28) ]; auto using g1, g2, g3.
Qed.

Lemma per31 : Zpos (period 31) = N31. Proof. reflexivity. Qed.
Lemma per29 : Zpos (period 29) = N29. Proof. reflexivity. Qed.
Lemma per28 : Zpos (period 28) = N28. Proof. reflexivity. Qed.

Lemma period32 : forall t, ok32 t -> exact_period (out32 t) (N31 * N29 * N28).
Proof.
  intros t H d Hd. apply ok32_alive in H. destruct H as (A1 & A2 & A3).
  assert (P1 : 0 < N31) by reflexivity. assert (P2 : 0 < N29) by reflexivity. assert (P3 : 0 < N28) by reflexivity.
  pose proof (per_div c1 1 31 (a1 t)) as V1. pose proof (per_div c2 3 29 (a2 t)) as V2. pose proof (per_div c3 4 28 (a3 t)) as V3.
  rewrite per31 in V1. rewrite per29 in V2. rewrite per28 in V3.
  split.
  - intros E.
    assert (E' : forall n, 1 <= n -> out32 t (n - 1 + d) = out32 t (n - 1)) by (intros n Hn; apply E; lia).
    assert (EQ : forall n, 1 <= n ->
      Z.lxor (iterz (n + d) c1 (a1 t)) (Z.lxor (iterz (n + d) c2 (a2 t)) (iterz (n + d) c3 (a3 t))) =
      Z.lxor (iterz n c1 (a1 t)) (Z.lxor (iterz n c2 (a2 t)) (iterz n c3 (a3 t)))).
    { intros n Hn. specialize (E' n Hn). rewrite !out32_eq in E' by lia.
      replace (n - 1 + d + 1) with (n + d) in E' by lia. replace (n - 1 + 1) with n in E' by lia. exact E'. }
    clear E E'.
    assert (D1 : (N31 | d)).
    { rewrite <- per31. apply (sum_div c1 1 31 (a1 t) (fun n => Z.lxor (iterz n c2 (a2 t)) (iterz n c3 (a3 t))) (N29 * N28) d g1 A1); auto; try reflexivity.
      - apply rp. reflexivity.
      - intros n Hn. rewrite V2, V3; auto using g2, g3; try (apply Z.mul_nonneg_nonneg; lia); [ exists N29; reflexivity | exists N28; apply Z.mul_comm ]. }
    assert (D2 : (N29 | d)).
    { rewrite <- per29. apply (sum_div c2 3 29 (a2 t) (fun n => Z.lxor (iterz n c1 (a1 t)) (iterz n c3 (a3 t))) (N31 * N28) d g2 A2); auto; try reflexivity.
      - apply rp. reflexivity.
      - intros n Hn. rewrite V1, V3; auto using g1, g3; try (apply Z.mul_nonneg_nonneg; lia); [ exists N31; reflexivity | exists N28; apply Z.mul_comm ].
      - intros n Hn. specialize (EQ n Hn). rewrite <- !Z.lxor_assoc in *. rewrite (Z.lxor_comm (iterz (n + d) c2 (a2 t))), (Z.lxor_comm (iterz n c2 (a2 t))). exact EQ. }
    assert (D3 : (N28 | d)).
    { rewrite <- per28. apply (sum_div c3 4 28 (a3 t) (fun n => Z.lxor (iterz n c1 (a1 t)) (iterz n c2 (a2 t))) (N31 * N29) d g3 A3); auto; try reflexivity.
      - apply rp. reflexivity.
      - intros n Hn. rewrite V1, V2; auto using g1, g2; try (apply Z.mul_nonneg_nonneg; lia); [ exists N31; reflexivity | exists N29; apply Z.mul_comm ].
      - intros n Hn. specialize (EQ n Hn). rewrite <- !Z.lxor_assoc in EQ. rewrite (Z.lxor_comm (iterz (n + d) c3 (a3 t))), (Z.lxor_comm (iterz n c3 (a3 t))). exact EQ. }
    apply coprime_mul; [ apply rp; reflexivity | | exact D3 ]. apply coprime_mul; [ apply rp; reflexivity | exact D1 | exact D2 ].
  - intros D n Hn. rewrite !out32_eq by lia. replace (n + d + 1) with (n + 1 + d) by lia.
    rewrite V1, V2, V3; auto using g1, g2, g3; try lia.
    + exact (div_r _ _ _ D).
    + exact (div_r _ _ _ (div_l _ _ _ D)).
    + exact (div_l _ _ _ (div_l _ _ _ D)).
Qed.

(** ** The large generator *)
Ltac xbits := intros; apply Z.bits_inj'; intros; rewrite ?Z.lxor_spec;
  repeat match goal with |- context [Z.testbit ?x ?n] => destruct (Z.testbit x n) end; reflexivity.
Definition x4 (a b c d : Z) : Z := Z.lxor (Z.lxor (Z.lxor a b) c) d.
Definition x5 (a b c d e : Z) : Z := Z.lxor (x4 a b c d) e.
Lemma x5_1 : forall a b c d e, x5 a b c d e = Z.lxor a (x4 b c d e). Proof. unfold x5, x4. xbits. Qed.
Lemma x5_2 : forall a b c d e, x5 a b c d e = Z.lxor b (x4 a c d e). Proof. unfold x5, x4. xbits. Qed.
Lemma x5_3 : forall a b c d e, x5 a b c d e = Z.lxor c (x4 a b d e). Proof. unfold x5, x4. xbits. Qed.
Lemma x5_4 : forall a b c d e, x5 a b c d e = Z.lxor d (x4 a b c e). Proof. unfold x5, x4. xbits. Qed.
Lemma x5_5 : forall a b c d e, x5 a b c d e = Z.lxor e (x4 a b c d). Proof. unfold x5, x4. xbits. Qed.

Lemma iter64 : forall t n, 0 <= n ->
  iterz n next64 t = T258 (iterz n d1 (b1 t)) (iterz n d2 (b2 t)) (iterz n d3 (b3 t)) (iterz n d4 (b4 t)) (iterz n d5 (b5 t)).
Proof.
  intros t n Hn. revert n Hn. apply natlike_ind; [ destruct t; reflexivity | ]. intros n Hn IH. change (Z.succ n) with (n + 1).
  rewrite !iterz_succ by lia. rewrite IH. reflexivity.
Qed.
Definition s64 (t : taus258) (n : Z) : Z :=
  x5 (iterz n d1 (b1 t)) (iterz n d2 (b2 t)) (iterz n d3 (b3 t)) (iterz n d4 (b4 t)) (iterz n d5 (b5 t)).
Lemma out64_eq : forall t n, 0 <= n -> out64 t n = s64 t (n + 1).
Proof.
  intros t n Hn. unfold out64, s64. rewrite iter64 by exact Hn. rewrite !iterz_succ by exact Hn. reflexivity.
Qed.
Lemma ok64_alive : forall t, ok64 t <->
  alive 1 63 (b1 t) /\ alive 9 55 (b2 t) /\ alive 12 52 (b3 t) /\ alive 17 47 (b4 t) /\ alive 23 41 (b5 t).
Proof.
  intros t. unfold ok64, alive. change (2 ^ Z.of_nat (63 + 1)) with (2 ^ 64). change (2 ^ Z.of_nat (55 + 9)) with (2 ^ 64).
  change (2 ^ Z.of_nat (52 + 12)) with (2 ^ 64). change (2 ^ Z.of_nat (47 + 17)) with (2 ^ 64). change (2 ^ Z.of_nat (41 + 23)) with (2 ^ 64).
  change (2 ^ Z.of_nat 1) with 2. change (2 ^ Z.of_nat 9) with 512. change (2 ^ Z.of_nat 12) with 4096.
  change (2 ^ Z.of_nat 17) with 131072. change (2 ^ Z.of_nat 23) with 8388608. lia.
Qed.
Lemma ok64_iter : forall t n, ok64 t -> 0 <= n -> ok64 (iterz n next64 t).
Proof.
  intros t n H Hn. apply ok64_alive in H. destruct H as (A1 & A2 & A3 & A4 & A5). apply ok64_alive. rewrite iter64 by exact Hn. cbn [b1 b2 b3 b4 b5].
  repeat split; try (apply (alive_next d1 1 63); auto using h1); try (apply (alive_next d2 9 55); auto using h2);
    try (apply (alive_next d3 12 52); auto using h3); try (apply (alive_next d4 17 47); auto using h4); try (apply (alive_next d5 23 41); auto using h5).
Qed.

Lemma per63 : Zpos (period 63) = N63. Proof. reflexivity. Qed.
Lemma per55 : Zpos (period 55) = N55. Proof. reflexivity. Qed.
Lemma per52 : Zpos (period 52) = N52. Proof. reflexivity. Qed.
Lemma per47 : Zpos (period 47) = N47. Proof. reflexivity. Qed.
Lemma per41 : Zpos (period 41) = N41. Proof. reflexivity. Qed.

Ltac divs := match goal with |- (?x | ?y) => apply Z.mod_divide; [ discriminate | vm_compute; reflexivity ] end.

Lemma period64 : forall t, ok64 t -> exact_period (out64 t) (N63 * N55 * N52 * N47 * N41).
Proof.
  intros t H d Hd. apply ok64_alive in H. destruct H as (A1 & A2 & A3 & A4 & A5).
  pose proof (per_div d1 1 63 (b1 t)) as V1. pose proof (per_div d2 9 55 (b2 t)) as V2. pose proof (per_div d3 12 52 (b3 t)) as V3.
  pose proof (per_div d4 17 47 (b4 t)) as V4. pose proof (per_div d5 23 41 (b5 t)) as V5.
  rewrite per63 in V1. rewrite per55 in V2. rewrite per52 in V3. rewrite per47 in V4. rewrite per41 in V5.
  split.
  - intros E.
    assert (EQ : forall n, 1 <= n -> s64 t (n + d) = s64 t n).
    { intros n Hn. specialize (E (n - 1) ltac:(lia)). rewrite !out64_eq in E by lia.
      replace (n - 1 + d + 1) with (n + d) in E by lia. replace (n - 1 + 1) with n in E by lia. exact E. }
    clear E. unfold s64 in EQ.
    assert (D1 : (N63 | d)).
    { rewrite <- per63. apply (sum_div d1 1 63 (b1 t) (fun n => x4 (iterz n d2 (b2 t)) (iterz n d3 (b3 t)) (iterz n d4 (b4 t)) (iterz n d5 (b5 t)))
        (N55 * N52 * N47 * N41) d h1 A1); [ reflexivity | apply rp; vm_compute; reflexivity | exact Hd | | ].
      - intros n Hn. rewrite V2, V3, V4, V5; auto using h2, h3, h4, h5; discriminate || divs.
      - intros n Hn. rewrite <- !x5_1. exact (EQ n Hn). }
    assert (D2 : (N55 | d)).
    { rewrite <- per55. apply (sum_div d2 9 55 (b2 t) (fun n => x4 (iterz n d1 (b1 t)) (iterz n d3 (b3 t)) (iterz n d4 (b4 t)) (iterz n d5 (b5 t)))
        (N63 * N52 * N47 * N41) d h2 A2); [ reflexivity | apply rp; vm_compute; reflexivity | exact Hd | | ].
      - intros n Hn. rewrite V1, V3, V4, V5; auto using h1, h3, h4, h5; discriminate || divs.
      - intros n Hn. rewrite <- !x5_2. exact (EQ n Hn). }
    assert (D3 : (N52 | d)).
    { rewrite <- per52. apply (sum_div d3 12 52 (b3 t) (fun n => x4 (iterz n d1 (b1 t)) (iterz n d2 (b2 t)) (iterz n d4 (b4 t)) (iterz n d5 (b5 t)))
        (N63 * N55 * N47 * N41) d h3 A3); [ reflexivity | apply rp; vm_compute; reflexivity | exact Hd | | ].
      - intros n Hn. rewrite V1, V2, V4, V5; auto using h1, h2, h4, h5; discriminate || divs.
      - intros n Hn. rewrite <- !x5_3. exact (EQ n Hn). }
    assert (D4 : (N47 | d)).
    { rewrite <- per47. apply (sum_div d4 17 47 (b4 t) (fun n => x4 (iterz n d1 (b1 t)) (iterz n d2 (b2 t)) (iterz n d3 (b3 t)) (iterz n d5 (b5 t)))
        (N63 * N55 * N52 * N41) d h4 A4); [ reflexivity | apply rp; vm_compute; reflexivity | exact Hd | | ].
      - intros n Hn. rewrite V1, V2, V3, V5; auto using h1, h2, h3, h5; discriminate || divs.
      - intros n Hn. rewrite <- !x5_4. exact (EQ n Hn). }
    assert (D5 : (N41 | d)).
    { rewrite <- per41. apply (sum_div d5 23 41 (b5 t) (fun n => x4 (iterz n d1 (b1 t)) (iterz n d2 (b2 t)) (iterz n d3 (b3 t)) (iterz n d4 (b4 t)))
        (N63 * N55 * N52 * N47) d h5 A5); [ reflexivity | apply rp; vm_compute; reflexivity | exact Hd | | ].
      - intros n Hn. rewrite V1, V2, V3, V4; auto using h1, h2, h3, h4; discriminate || divs.
      - intros n Hn. rewrite <- !x5_5. exact (EQ n Hn). }
    repeat (apply coprime_mul; [ apply rp; vm_compute; reflexivity | | assumption ]). exact D1.
  - intros D n Hn. rewrite !out64_eq by lia. unfold s64. replace (n + d + 1) with (n + 1 + d) by lia.
    pose proof (div_r _ _ _ D) as Q5. apply div_l in D. pose proof (div_r _ _ _ D) as Q4. apply div_l in D.
    pose proof (div_r _ _ _ D) as Q3. apply div_l in D. pose proof (div_r _ _ _ D) as Q2. apply div_l in D.
    rewrite V1, V2, V3, V4, V5; auto using h1, h2, h3, h4, h5; lia.
Qed.

(** ** Seeding *)
Lemma seedm_range : forall x m M, 0 <= x < M -> 0 <= m -> 2 * m <= M -> 0 <= seedm x m < M.
Proof. intros x m M X Hm B. unfold seedm. destruct (x <? m) eqn:E; [ apply Z.ltb_lt in E | ]; lia. Qed.
Lemma lcg_range : forall x s, 0 <= s < 2 ^ 32 -> 0 <= lcg x s < 2 ^ 32.
Proof. intros x s S. unfold lcg. apply (lxor_range 32); [ apply u32_range | exact S ]. Qed.
Lemma lcg64_range : forall x s, 0 <= s < 2 ^ 64 -> 0 <= lcg64 x s < 2 ^ 64.
Proof. intros x s S. unfold lcg64. apply (lxor_range 64); [ apply u64_range | exact S ]. Qed.

(** A component is too small exactly for these values before the correction. *)
Lemma seedm_small : forall x m, 0 <= x -> 0 < m -> (seedm x m <= m <-> x = 0 \/ x = m).
Proof. intros x m X Hm. unfold seedm. destruct (x <? m) eqn:E; [ apply Z.ltb_lt in E | apply Z.ltb_ge in E ]; lia. Qed.

Lemma iter_nat : forall {A} (f : A -> A) n x, Nat.iter n f x = iterz (Z.of_nat n) f x.
Proof. intros A f n x. unfold iterz. rewrite Nat2Z.id. reflexivity. Qed.

Lemma lxor_solve : forall a b c, Z.lxor a b = c <-> b = Z.lxor a c.
Proof.
  intros a b c. split; intros H; subst; rewrite <- Z.lxor_assoc, Z.lxor_nilpotent, Z.lxor_0_l; reflexivity.
Qed.

Lemma seeds32_ok : forall seed, 0 <= seed < 2 ^ 32 ->
  (ok32 (seeds32 seed) <->
   lcg start seed <> 0 /\ lcg start seed <> 1 /\
   lcg (a1 (seeds32 seed)) seed <> 0 /\ lcg (a1 (seeds32 seed)) seed <> 7 /\
   lcg (a2 (seeds32 seed)) seed <> 0 /\ lcg (a2 (seeds32 seed)) seed <> 15).
Proof.
  intros seed S. unfold ok32, seeds32. cbn [a1 a2 a3].
  set (x1 := lcg start seed). pose proof (lcg_range start seed S) as R1. fold x1 in R1. set (s1 := seedm x1 1).
  set (x2 := lcg s1 seed). pose proof (lcg_range s1 seed S) as R2. fold x2 in R2. set (s2 := seedm x2 7).
  set (x3 := lcg s2 seed). pose proof (lcg_range s2 seed S) as R3. fold x3 in R3. set (s3 := seedm x3 15).
  pose proof (seedm_small x1 1 ltac:(lia) ltac:(lia)) as E1. pose proof (seedm_small x2 7 ltac:(lia) ltac:(lia)) as E2.
  pose proof (seedm_small x3 15 ltac:(lia) ltac:(lia)) as E3.
  pose proof (seedm_range x1 1 (2 ^ 32) R1 ltac:(lia) ltac:(lia)). pose proof (seedm_range x2 7 (2 ^ 32) R2 ltac:(lia) ltac:(lia)).
  pose proof (seedm_range x3 15 (2 ^ 32) R3 ltac:(lia) ltac:(lia)).
  fold s1 in E1, H. fold s2 in E2, H0. fold s3 in E3, H1. clearbody x1 x2 x3 s1 s2 s3. lia.
Qed.

Lemma seeds64_ok : forall seed, 0 <= seed < 2 ^ 64 -> 1 < lcg64 start seed -> 511 < lcg64 (b1 (seeds64 seed)) seed ->
  4095 < lcg64 (b2 (seeds64 seed)) seed -> 131071 < lcg64 (b3 (seeds64 seed)) seed -> 8388607 < lcg64 (b4 (seeds64 seed)) seed ->
  ok64 (seeds64 seed).
Proof.
  intros seed S. unfold ok64, seeds64. cbn [b1 b2 b3 b4 b5]. intros H1 H2 H3 H4 H5.
  assert (K : forall x m k, 0 <= x < 2 ^ 64 -> 0 <= m <= k -> 1 <= k <= 8388608 -> k < x -> k < seedm x m < 2 ^ 64).
  { intros x m k X M HK L. unfold seedm. destruct (x <? m) eqn:E; [ apply Z.ltb_lt in E | ]; lia. }
  split; [ | split; [ | split; [ | split ] ] ]; apply K; (apply lcg64_range; exact S) || lia || assumption.
Qed.

(** ** All seeds of the small generator that give a component that is too small *)
Section Search.
Variables (F : Z -> Z) (t : Z).
Hypothesis F_low : forall n s, 0 <= n -> F (s mod 2 ^ n) mod 2 ^ n = F s mod 2 ^ n.
Fixpoint sols (n : nat) : list Z :=
  match n with
  | O => [0]
  | S n' => let l := sols n' in filter (fun s => F s mod 2 ^ Z.of_nat n =? t mod 2 ^ Z.of_nat n) (l ++ map (fun s => s + 2 ^ Z.of_nat n') l)
  end.
Lemma sols_all : forall n s, F s mod 2 ^ Z.of_nat n = t mod 2 ^ Z.of_nat n -> In (s mod 2 ^ Z.of_nat n) (sols n).
Proof.
  induction n as [ | n IH ]; intros s E.
  - cbn [sols]. change (2 ^ Z.of_nat 0) with 1. rewrite Z.mod_1_r. left. reflexivity.
  - cbn [sols]. apply filter_In. split.
    + assert (E' : F s mod 2 ^ Z.of_nat n = t mod 2 ^ Z.of_nat n).
      { pose proof (pow_ge1 n) as P. rewrite pow_S in E.
        assert (D : (2 ^ Z.of_nat n | 2 * 2 ^ Z.of_nat n)) by (exists 2; reflexivity).
        rewrite (Zmod_div_mod (2 ^ Z.of_nat n) (2 * 2 ^ Z.of_nat n) (F s)) by (lia || exact D).
        rewrite (Zmod_div_mod (2 ^ Z.of_nat n) (2 * 2 ^ Z.of_nat n) t) by (lia || exact D). rewrite E. reflexivity. }
      specialize (IH s E'). apply in_or_app.
      rewrite pow_S. rewrite Z.mul_comm. pose proof (pow_ge1 n) as P. rewrite Z.rem_mul_r by lia.
      pose proof (Z.mod_pos_bound (s / 2 ^ Z.of_nat n) 2 ltac:(lia)) as B.
      assert (D : (s / 2 ^ Z.of_nat n) mod 2 = 0 \/ (s / 2 ^ Z.of_nat n) mod 2 = 1) by lia.
      destruct D as [ -> | -> ].
      * left. rewrite Z.mul_0_r, Z.add_0_r. exact IH.
      * right. rewrite Z.mul_1_r. apply in_map_iff. exists (s mod 2 ^ Z.of_nat n). auto.
    + apply Z.eqb_eq. rewrite F_low by lia. exact E.
Qed.
End Search.

Definition F2 (s : Z) : Z := Z.lxor (Z.lxor (start * 69069) s * 69069) s.
Definition F3 (s : Z) : Z := Z.lxor (F2 s * 69069) s.
Lemma lxor_low : forall n a b c d, 0 <= n -> a mod 2 ^ n = c mod 2 ^ n -> b mod 2 ^ n = d mod 2 ^ n ->
  Z.lxor a b mod 2 ^ n = Z.lxor c d mod 2 ^ n.
Proof. intros n a b c d Hn H1 H2. rewrite !mod_lxor by exact Hn. rewrite H1, H2. reflexivity. Qed.
Lemma mul_low : forall n a c k, 0 <= n -> a mod 2 ^ n = c mod 2 ^ n -> (a * k) mod 2 ^ n = (c * k) mod 2 ^ n.
Proof.
  intros n a c k Hn H. pose proof (Z.pow_pos_nonneg 2 n ltac:(lia) Hn). rewrite Z.mul_mod, H, <- Z.mul_mod by lia. reflexivity.
Qed.
Lemma mod_low : forall n s, 0 <= n -> (s mod 2 ^ n) mod 2 ^ n = s mod 2 ^ n.
Proof. intros n s Hn. pose proof (Z.pow_pos_nonneg 2 n ltac:(lia) Hn). apply Z.mod_mod. lia. Qed.
Lemma F2_low : forall n s, 0 <= n -> F2 (s mod 2 ^ n) mod 2 ^ n = F2 s mod 2 ^ n.
Proof.
  intros n s Hn. unfold F2. apply lxor_low; [ exact Hn | | apply mod_low; exact Hn ]. apply mul_low; [ exact Hn | ].
  apply lxor_low; [ exact Hn | reflexivity | apply mod_low; exact Hn ].
Qed.
Lemma F3_low : forall n s, 0 <= n -> F3 (s mod 2 ^ n) mod 2 ^ n = F3 s mod 2 ^ n.
Proof.
  intros n s Hn. unfold F3. apply lxor_low; [ exact Hn | | apply mod_low; exact Hn ]. apply mul_low; [ exact Hn | ]. apply F2_low. exact Hn.
Qed.
Lemma found : forall F t s, (forall n s, 0 <= n -> F (s mod 2 ^ n) mod 2 ^ n = F s mod 2 ^ n) ->
  0 <= s < 2 ^ 32 -> F s mod 2 ^ 32 = t -> In s (sols F t 32).
Proof.
  intros F t s L S E. pose proof (sols_all F t L 32 s) as H. change (2 ^ Z.of_nat 32) with (2 ^ 32) in H.
  rewrite (Z.mod_small s) in H by exact S. apply H. rewrite <- E. symmetry. apply Z.mod_mod. lia.
Qed.
Lemma lcg_start : forall s, lcg start s = Z.lxor (start * 69069) s.
Proof. intros s. reflexivity. Qed.
Lemma lcg_mod : forall x s, 0 <= s < 2 ^ 32 -> lcg x s = Z.lxor (x * 69069) s mod 2 ^ 32.
Proof. intros x s S. unfold lcg, u32. rewrite mod_lxor by lia. rewrite (Z.mod_small s) by exact S. reflexivity. Qed.
Lemma lcg_low : forall x y s, x mod 2 ^ 32 = y mod 2 ^ 32 -> lcg x s = lcg y s.
Proof. intros x y s E. unfold lcg, u32. rewrite (mul_low 32 x y) by (lia || exact E). reflexivity. Qed.

Definition bad_seeds : list Z := [3660656; 3660657; 3475163494; 4051026189].
Definition ok32b (t : taus88) : bool := (1 <? a1 t) && (7 <? a2 t) && (15 <? a3 t).
(** Seeds for which the second value is below eight, or the third is 0 or 15. *)
Definition suspects : list Z :=
  [3660656; 3660657] ++ flat_map (fun t => sols F2 t 32) [0; 1; 2; 3; 4; 5; 6; 7] ++ flat_map (fun t => sols F3 t 32) [0; 15].
Lemma suspects_ok : forallb (fun s => ok32b (seeds32 s) || existsb (Z.eqb s) bad_seeds) suspects = true.
Proof. vm_compute. reflexivity. Qed.

Lemma in_fm : forall (f : Z -> list Z) l s t, In t l -> In s (f t) -> In s (flat_map f l).
Proof. intros f l s t H X. apply in_flat_map. exists t. split; assumption. Qed.
Opaque sols.
Lemma in_s1 : forall s, In s [3660656; 3660657] -> In s suspects.
Proof. intros s H. unfold suspects. apply in_or_app. left. exact H. Qed.
Lemma in_s2 : forall s t, In t [0; 1; 2; 3; 4; 5; 6; 7] -> In s (sols F2 t 32) -> In s suspects.
Proof. intros s t H X. unfold suspects. apply in_or_app. right. apply in_or_app. left. exact (in_fm (fun t => sols F2 t 32) _ s t H X). Qed.
Lemma in_s3 : forall s t, In t [0; 15] -> In s (sols F3 t 32) -> In s suspects.
Proof. intros s t H X. unfold suspects. apply in_or_app. right. apply in_or_app. right. exact (in_fm (fun t => sols F3 t 32) _ s t H X). Qed.
Opaque suspects.
Lemma seed_exact : forall seed, 0 <= seed < 2 ^ 32 -> (ok32 (seeds32 seed) <-> ~ In seed bad_seeds).
Proof.
  intros seed S. split.
  - intros H I. unfold bad_seeds in I.
    assert (X : ok32b (seeds32 seed) = true).
    { destruct H as ((H1 & _) & (H2 & _) & (H3 & _)). unfold ok32b. rewrite !andb_true_iff, !Z.ltb_lt. auto. }
    cbn [In] in I. destruct I as [ <- | [ <- | [ <- | [ <- | [] ] ] ] ]; vm_compute in X; discriminate.
  - intros NI.
    assert (DEC : In seed suspects \/ ~ In seed suspects) by (destruct (in_dec Z.eq_dec seed suspects); auto).
    destruct DEC as [I|I].
    + pose proof suspects_ok as K. rewrite forallb_forall in K. specialize (K seed I). apply orb_true_iff in K. destruct K as [K|K].
      * unfold ok32b in K. rewrite !andb_true_iff, !Z.ltb_lt in K. destruct K as ((K1 & K2) & K3).
        assert (R : forall x m M, 0 <= x < 2 ^ 32 -> 0 <= m <= 15 -> seedm x m < 2 ^ 32 \/ M) by (intros x m M X Hm; left; apply seedm_range; lia).
        unfold ok32. split; [ split; [ exact K1 | ] | split; split; [ exact K2 | | exact K3 | ] ];
          unfold seeds32; cbn [a1 a2 a3]; apply seedm_range; (apply lcg_range; exact S) || lia.
      * exfalso. apply NI. apply existsb_exists in K. destruct K as (x & X1 & X2). apply Z.eqb_eq in X2. subst x. exact X1.
    + apply seeds32_ok; [ exact S | ].
      assert (N1 : lcg start seed <> 0 /\ lcg start seed <> 1).
      { rewrite lcg_start. split; intros E; apply lxor_solve in E; apply I, in_s1; rewrite E; vm_compute; auto. }
      assert (E1 : a1 (seeds32 seed) = lcg start seed).
      { unfold seeds32. cbn [a1]. unfold seedm. pose proof (lcg_range start seed S). destruct (lcg start seed <? 1) eqn:E; [ apply Z.ltb_lt in E; lia | reflexivity ]. }
      assert (X2 : lcg (a1 (seeds32 seed)) seed = F2 seed mod 2 ^ 32).
      { rewrite E1, lcg_mod by exact S. reflexivity. }
      assert (N2 : 7 < lcg (a1 (seeds32 seed)) seed).
      { pose proof (lcg_range (a1 (seeds32 seed)) seed S) as R. rewrite X2 in *.
        destruct (Z_lt_le_dec 7 (F2 seed mod 2 ^ 32)) as [L|L]; [ exact L | exfalso ].
        apply I, (in_s2 seed (F2 seed mod 2 ^ 32)); [ cbn [In]; lia | exact (found F2 _ seed F2_low S eq_refl) ]. }
      assert (E2 : a2 (seeds32 seed) = lcg (a1 (seeds32 seed)) seed).
      { unfold seeds32 in *. cbn [a1 a2] in *. unfold seedm at 1. destruct (lcg (seedm (lcg start seed) 1) seed <? 7) eqn:E; [ apply Z.ltb_lt in E; lia | reflexivity ]. }
      assert (X3 : lcg (a2 (seeds32 seed)) seed = F3 seed mod 2 ^ 32).
      { rewrite E2, X2. rewrite (lcg_low _ (F2 seed)); [ rewrite lcg_mod by exact S; reflexivity | apply Z.mod_mod; lia ]. }
      assert (N3 : F3 seed mod 2 ^ 32 <> 0 /\ F3 seed mod 2 ^ 32 <> 15).
      { split; intros E; apply I; [ apply (in_s3 seed 0) | apply (in_s3 seed 15) ]; [ cbn; auto | exact (found F3 _ seed F3_low S E) | cbn; auto | exact (found F3 _ seed F3_low S E) ]. }
      rewrite X3. lia.
Qed.

(** ** Bounded draws *)
Lemma rne53_half : forall x, 2 ^ 53 <= x -> rne53 x - x <= 2 ^ (Z.log2 x - 53).
Proof.
  intros x X. unfold rne53. destruct (Z.ltb_spec x (2 ^ 53)) as [H|H]; [ lia | ].
  assert (L : 53 <= Z.log2 x) by (change 53 with (Z.log2 (2 ^ 53)); apply Z.log2_le_mono; exact X).
  replace (Z.log2 x - 52 - 1) with (Z.log2 x - 53) by lia.
  assert (P : 2 ^ (Z.log2 x - 52) = 2 * 2 ^ (Z.log2 x - 53)) by (replace (Z.log2 x - 52) with (Z.succ (Z.log2 x - 53)) by lia; apply Z.pow_succ_r; lia).
  assert (G : 0 < 2 ^ (Z.log2 x - 53)) by (apply Z.pow_pos_nonneg; lia).
  set (h := 2 ^ (Z.log2 x - 53)) in *. rewrite P. clearbody h. clear P.
  pose proof (Z.div_mod x (2 * h) ltac:(lia)) as D. pose proof (Z.mod_pos_bound x (2 * h) ltac:(lia)) as B.
  set (q := x / (2 * h)) in *. set (r := x mod (2 * h)) in *. clearbody q r.
  assert (X1 : q * (2 * h) - x = - r) by lia. assert (X2 : (q + 1) * (2 * h) - x = 2 * h - r) by lia.
  destruct (Z.ltb_spec r h); [ lia | ]. destruct (Z.eqb_spec r h); cbn [andb]; [ destruct (Z.even q); lia | lia ].
Qed.
Lemma rne53_pow : forall x n, 53 <= n -> 0 <= x <= 2 ^ n -> rne53 x <= 2 ^ n.
Proof.
  intros x n N X.
  destruct (Z.eq_dec x (2 ^ n)) as [ E | E ].
  - subst x. unfold rne53. destruct (Z.ltb_spec (2 ^ n) (2 ^ 53)) as [H|H]; [ lia | ].
    rewrite Z.log2_pow2 by lia.
    assert (P : 2 ^ n = 2 ^ 52 * 2 ^ (n - 52)) by (rewrite <- Z.pow_add_r by lia; f_equal; lia).
    assert (G : 0 < 2 ^ (n - 52)) by (apply Z.pow_pos_nonneg; lia).
    assert (G1 : 0 < 2 ^ (n - 52 - 1)) by (apply Z.pow_pos_nonneg; lia).
    rewrite P at 1 2. rewrite Z.mod_mul by lia. destruct (Z.ltb_spec 0 (2 ^ (n - 52 - 1))); [ | lia ].
    rewrite P at 1. rewrite Z.div_mul by lia. rewrite <- P. lia.
  - unfold rne53. destruct (Z.ltb_spec x (2 ^ 53)) as [H|H]; [ lia | ].
    set (e := Z.log2 x - 52).
    assert (L : 53 <= Z.log2 x) by (change 53 with (Z.log2 (2 ^ 53)); apply Z.log2_le_mono; exact H).
    destruct (Z.log2_spec x ltac:(lia)) as (L1 & L2).
    assert (LN : Z.log2 x < n) by (apply Z.log2_lt_pow2; lia).
    assert (P : 2 ^ Z.succ (Z.log2 x) = 2 ^ 53 * 2 ^ e) by (rewrite <- Z.pow_add_r by (unfold e; lia); f_equal; unfold e; lia).
    assert (G : 0 < 2 ^ e) by (apply Z.pow_pos_nonneg; unfold e; lia).
    assert (Q : x / 2 ^ e < 2 ^ 53) by (apply Z.div_lt_upper_bound; lia).
    assert (M : 2 ^ Z.succ (Z.log2 x) <= 2 ^ n) by (apply Z.pow_le_mono_r; lia).
    assert (Y : forall q, q <= 2 ^ 53 -> q * 2 ^ e <= 2 ^ n) by (intros q Hq; rewrite P in M; nia).
    apply Y. destruct (x mod 2 ^ e <? 2 ^ (e - 1)); [ lia | ]. destruct ((x mod 2 ^ e =? 2 ^ (e - 1)) && Z.even (x / 2 ^ e)); lia.
Qed.

Lemma upto32_range : forall r e, 0 <= r < 2 ^ 32 -> 0 <= e < 2 ^ 31 -> exists v, upto32 r e = Some v /\ 0 <= v <= e.
Proof.
  intros r e R E. unfold upto32, u32. rewrite Z.mod_small by lia.
  destruct (rne53_error ((e + 1) * r) ltac:(nia)) as (P & Q & _).
  assert (L : rne53 ((e + 1) * r) < (e + 1) * 2 ^ 32) by nia.
  assert (D : rne53 ((e + 1) * r) / 2 ^ 32 < e + 1) by (apply Z.div_lt_upper_bound; lia).
  assert (D0 : 0 <= rne53 ((e + 1) * r) / 2 ^ 32) by (apply Z.div_pos; lia).
  destruct (Z.ltb_spec (rne53 ((e + 1) * r) / 2 ^ 32) (2 ^ 31)) as [X|X]; [ | lia ].
  eexists. split; [ reflexivity | lia ].
Qed.
Lemma upto32_exact : forall r e, 0 <= r < 2 ^ 32 -> 0 <= e < 2 ^ 21 -> upto32 r e = Some (r * (e + 1) / 2 ^ 32).
Proof.
  intros r e R E. unfold upto32, u32. rewrite Z.mod_small by lia. rewrite rne53_small by nia. rewrite (Z.mul_comm (e + 1)).
  assert (D : r * (e + 1) / 2 ^ 32 < 2 ^ 31) by (apply Z.div_lt_upper_bound; nia).
  apply Z.ltb_lt in D. rewrite D. reflexivity.
Qed.
Lemma rne53_top : forall r, 0 <= r < 2 ^ 64 - 2 ^ 10 -> rne53 r <= 2 ^ 64 - 2 ^ 11.
Proof.
  intros r R. destruct (Z_lt_le_dec r (2 ^ 63)) as [L|L].
  - pose proof (rne53_pow r 63 ltac:(lia) ltac:(lia)). lia.
  - unfold rne53. destruct (Z.ltb_spec r (2 ^ 53)) as [H|H]; [ lia | ].
    assert (LG : Z.log2 r = 63) by (apply Z.log2_unique; lia). rewrite LG. change (63 - 52) with 11. change (11 - 1) with 10.
    pose proof (Z.div_mod r (2 ^ 11) ltac:(lia)) as D. pose proof (Z.mod_pos_bound r (2 ^ 11) ltac:(lia)) as B.
    set (q := r / 2 ^ 11) in *. set (m := r mod 2 ^ 11) in *. clearbody q m.
    destruct (Z.ltb_spec m (2 ^ 10)); [ lia | ]. destruct (Z.eqb_spec m (2 ^ 10)); cbn [andb]; [ destruct (Z.even q) eqn:EV; [ lia | ] | ]; [ | lia ].
    lia.
Qed.
Lemma upto64_range : forall r e, 0 <= r < 2 ^ 64 - 2 ^ 10 -> 0 <= e < 2 ^ 53 -> exists v, upto64 r e = Some v /\ 0 <= v <= e.
Proof.
  intros r e R E. unfold upto64, u64. rewrite Z.mod_small by lia.
  assert (EE : rne53 (e + 1) = e + 1).
  { destruct (Z.eq_dec e (2 ^ 53 - 1)) as [ -> | X ]; [ reflexivity | apply rne53_small; lia ]. }
  rewrite EE. pose proof (rne53_top r R) as T. pose proof (rne53_nonneg r ltac:(lia)) as NN. set (s := rne53 r) in *. clearbody s.
  set (x := (e + 1) * s).
  assert (XN : 0 <= x) by (unfold x; nia). assert (XU : x <= (e + 1) * 2 ^ 64 - (e + 1) * 2 ^ 11) by (unfold x; nia).
  assert (L : rne53 x < (e + 1) * 2 ^ 64).
  { destruct (Z_lt_le_dec x (2 ^ 53)) as [S|S]; [ rewrite rne53_small by exact S; lia | ].
    pose proof (rne53_half x S) as H.
    destruct (Z.log2_spec (e + 1) ltac:(lia)) as (M1 & M2). pose proof (Z.log2_nonneg (e + 1)) as M0. set (m := Z.log2 (e + 1)) in *.
    assert (P11 : 2 ^ (m + 11) = 2 ^ m * 2 ^ 11) by (apply Z.pow_add_r; lia).
    assert (P64 : 2 ^ (m + 64) = 2 ^ m * 2 ^ 64) by (apply Z.pow_add_r; lia).
    destruct (Z.eq_dec (e + 1) (2 ^ m)) as [EM|EM].
    - assert (LX : Z.log2 x < m + 64) by (apply Z.log2_lt_pow2; lia).
      assert (HP : 2 ^ (Z.log2 x - 53) <= 2 ^ (m + 10)) by (apply Z.pow_le_mono_r; lia).
      assert (P10 : 2 ^ (m + 11) = 2 * 2 ^ (m + 10)) by (replace (m + 11) with (Z.succ (m + 10)) by lia; apply Z.pow_succ_r; lia).
      assert (0 < 2 ^ (m + 10)) by (apply Z.pow_pos_nonneg; lia). lia.
    - assert (LX : Z.log2 x < m + 65).
      { apply Z.log2_lt_pow2; [ lia | ]. replace (m + 65) with (Z.succ m + 64) by lia. rewrite Z.pow_add_r by lia. nia. }
      assert (HP : 2 ^ (Z.log2 x - 53) <= 2 ^ (m + 11)) by (apply Z.pow_le_mono_r; lia). nia. }
  pose proof (rne53_nonneg x XN) as RN.
  assert (D : rne53 x / 2 ^ 64 < e + 1) by (apply Z.div_lt_upper_bound; lia).
  assert (D0 : 0 <= rne53 x / 2 ^ 64) by (apply Z.div_pos; lia).
  destruct (Z.ltb_spec (rne53 x / 2 ^ 64) (2 ^ 64)) as [Y|Y]; [ | lia ]. eexists. split; [ reflexivity | lia ].
Qed.
