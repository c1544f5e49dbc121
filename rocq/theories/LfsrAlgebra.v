(** Arithmetic of GF(2)[x]/P by shifts, and full period of the shift register from a certificate. *)
From Coq Require Import ZArith Znumtheory List Lia Bool FinFun Permutation.
From Verif Require Import CBase Orbit.
Import ListNotations.
Open Scope Z_scope.

(** Multiplication by x modulo P = 2*mask+1 on [full = 2^m]-bounded words. *)
Definition mulx (full P w : Z) : Z := let w2 := 2 * w in if full <=? w2 then Z.lxor w2 P else w2.

(** The Galois shift: division by x. *)
Definition divx (mask w : Z) : Z := Z.lxor (Z.shiftr w 1) (if Z.odd w then mask else 0).

Fixpoint mulp (full P a : Z) (b : positive) : Z :=
  match b with
  | xH => a
  | xO b' => mulx full P (mulp full P a b')
  | xI b' => Z.lxor (mulx full P (mulp full P a b')) a
  end.
Definition mulw (full P a b : Z) : Z := match b with Zpos p => mulp full P a p | _ => 0 end.

Fixpoint powx (full P : Z) (k : positive) : Z :=
  match k with
  | xH => mulx full P 1
  | xO k' => let y := powx full P k' in mulw full P y y
  | xI k' => let y := powx full P k' in mulx full P (mulw full P y y)
  end.
Definition powxz full P (k : Z) : Z := match k with Zpos p => powx full P p | _ => 1 end.

(** The certificate: [l] lists the prime factors of 2^m - 1. *)
Definition cert (m mask : Z) (l : list Z) : bool :=
  let full := 2 ^ m in let P := 2 * mask + 1 in let N := full - 1 in
  (2 <=? m) && (2 ^ (m - 1) <=? mask) && (mask <? full) && (pprod l =? N) &&
  (powxz full P N =? 1) &&
  forallb (fun q => negb (powxz full P (N / q) =? 1)) (nodup Z.eq_dec l).

Section Alg.
Variables (m mask : Z).
Hypothesis Hm : 2 <= m.
Hypothesis Hmask : 2 ^ (m - 1) <= mask < 2 ^ m.
Let full := 2 ^ m.
Let P := 2 * mask + 1.
Let S := mulx full P.
Let T := divx mask.

Lemma full_half : full = 2 * 2 ^ (m - 1).
Proof. unfold full. rewrite <- Z.pow_succ_r by lia. f_equal. lia. Qed.
Lemma half_pos : 2 <= 2 ^ (m - 1).
Proof. change 2 with (2 ^ 1) at 1. apply Z.pow_le_mono_r; lia. Qed.
Lemma full_gt1 : 4 <= full.
Proof. pose proof full_half. pose proof half_pos. lia. Qed.

Lemma hi_bit w : 0 <= w < 2 ^ m -> Z.testbit w (m - 1) = (2 ^ (m - 1) <=? w).
Proof.
  intros Hw. destruct (Z.leb_spec (2 ^ (m - 1)) w) as [L|L].
  - destruct (Z.testbit w (m - 1)) eqn:E; auto. exfalso.
    assert (w < 2 ^ (m - 1)); [|lia]. apply testbit_lt_pow2; try lia.
    intros i Hi. destruct (Z.eq_dec i (m - 1)) as [->|]; auto. apply testbit_above with m; auto; lia.
  - apply testbit_above with (m - 1); lia.
Qed.

(** Bits of P. *)
Lemma P_shift : Z.shiftr P 1 = mask.
Proof. unfold P. rewrite Z.shiftr_div_pow2 by lia. change (2 ^ 1) with 2.
  rewrite Z.mul_comm, Z.div_add_l by lia. rewrite Z.add_0_r. auto. Qed.
Lemma P_odd : Z.odd P = true.
Proof. unfold P. rewrite Z.add_comm, Z.odd_add_mul_2. auto. Qed.
Lemma P_range : 0 <= P < 2 ^ (m + 1).
Proof. unfold P. rewrite Z.pow_add_r by lia. pose proof half_pos. lia. Qed.
Lemma P_hi : Z.testbit P m = true.
Proof.
  replace m with (m - 1 + 1) at 1 by lia. rewrite <- Z.shiftr_spec by lia. rewrite P_shift.
  rewrite hi_bit by lia. apply Z.leb_le. lia.
Qed.

Lemma S_range w : 0 <= w < full -> 0 <= S w < full.
Proof.
  intros Hw. unfold S, mulx. cbv zeta. destruct (Z.leb_spec full (2 * w)) as [L|L]; [|lia].
  assert (R : 0 <= Z.lxor (2 * w) P < 2 ^ (m + 1)).
  { apply lxor_range; [lia| |apply P_range]. rewrite Z.pow_add_r by lia. fold full. lia. }
  split; [lia|]. apply testbit_lt_pow2; [lia|lia|].
  intros i Hi. destruct (Z.eq_dec i m) as [->|]; [|apply testbit_above with (m + 1); lia].
  rewrite Z.lxor_spec, P_hi. replace m with (Z.succ (m - 1)) at 1 by lia.
  rewrite Z.double_bits_succ, hi_bit by (fold full; lia).
  assert (H : 2 ^ (m - 1) <=? w = true) by (apply Z.leb_le; pose proof full_half; lia).
  rewrite H. auto.
Qed.

Lemma S_lin a b : 0 <= a < full -> 0 <= b < full -> S (Z.lxor a b) = Z.lxor (S a) (S b).
Proof.
  intros Ha Hb.
  assert (H : forall w, 0 <= w < full ->
     S w = Z.lxor (2 * w) (if Z.testbit w (m - 1) then P else 0)).
  { intros w Hw. unfold S, mulx. cbv zeta. rewrite hi_bit by (fold full; lia). pose proof full_half.
    destruct (Z.leb_spec full (2 * w)), (Z.leb_spec (2 ^ (m - 1)) w); try lia; auto.
    rewrite Z.lxor_0_r; auto. }
  assert (R : 0 <= Z.lxor a b < full) by (apply lxor_range; auto; lia).
  rewrite !H by auto. rewrite Z.lxor_spec.
  assert (D : 2 * Z.lxor a b = Z.lxor (2 * a) (2 * b)).
  { rewrite !(Z.mul_comm 2). change 2 with (2 ^ 1). rewrite <- !Z.shiftl_mul_pow2 by lia.
    apply Z.shiftl_lxor. }
  rewrite D. destruct (Z.testbit a (m - 1)), (Z.testbit b (m - 1)); cbn [xorb];
    rewrite ?Z.lxor_0_r; auto.
  - rewrite (Z.lxor_assoc (2 * a) P), (Z.lxor_comm P), (Z.lxor_assoc (2 * b) P P), Z.lxor_nilpotent,
      Z.lxor_0_r. auto.
  - rewrite (Z.lxor_assoc (2 * a)), (Z.lxor_comm (2 * b)), <- Z.lxor_assoc. auto.
  - rewrite Z.lxor_assoc. auto.
Qed.

Lemma S_0 : S 0 = 0.
Proof. unfold S, mulx. cbv zeta. pose proof full_gt1. destruct (Z.leb_spec full (2 * 0)); lia. Qed.

Lemma T_S w : 0 <= w < full -> T (S w) = w.
Proof.
  intros Hw. unfold T, divx, S, mulx. cbv zeta. destruct (Z.leb_spec full (2 * w)).
  - assert (O : Z.odd (Z.lxor (2 * w) P) = true).
    { rewrite <- Z.bit0_odd, Z.lxor_spec, !Z.bit0_odd, P_odd, Z.odd_mul. auto. }
    rewrite O, Z.shiftr_lxor, P_shift.
    rewrite Z.shiftr_div_pow2 by lia. change (2 ^ 1) with 2. rewrite (Z.mul_comm 2), Z.div_mul by lia.
    rewrite Z.lxor_assoc, Z.lxor_nilpotent, Z.lxor_0_r. auto.
  - assert (O : Z.odd (2 * w) = false) by (rewrite Z.odd_mul; auto).
    rewrite O, Z.lxor_0_r, Z.shiftr_div_pow2 by lia. change (2 ^ 1) with 2.
    rewrite (Z.mul_comm 2), Z.div_mul by lia. auto.
Qed.

Lemma S_inj a b : 0 <= a < full -> 0 <= b < full -> S a = S b -> a = b.
Proof. intros Ha Hb E. rewrite <- (T_S a), <- (T_S b), E; auto. Qed.

Lemma S_pos w : 1 <= w < full -> 1 <= S w < full.
Proof.
  intros Hw. pose proof (S_range w ltac:(lia)). destruct (Z.eq_dec (S w) 0) as [E|]; [|lia].
  rewrite <- S_0 in E. apply S_inj in E; lia.
Qed.

Lemma mulp_range a b : 0 <= a < full -> 0 <= mulp full P a b < full.
Proof.
  intros Ha. induction b; cbn [mulp]; auto.
  - apply lxor_range; [lia|apply S_range; auto|auto].
  - apply S_range. auto.
Qed.

Lemma mulp_S a b : 0 <= a < full -> mulp full P (S a) b = S (mulp full P a b).
Proof.
  intros Ha. induction b; cbn [mulp]; auto.
  - rewrite IHb. fold S. rewrite S_lin; auto. apply S_range. apply mulp_range; auto.
  - rewrite IHb. auto.
Qed.

Lemma mulp_1 b : Zpos b < full -> mulp full P 1 b = Zpos b.
Proof.
  induction b; intros Hb; cbn [mulp]; auto.
  - rewrite IHb by lia. unfold mulx. cbv zeta.
    destruct (Z.leb_spec full (2 * Zpos b)); [lia|].
    rewrite Pos2Z.inj_xI. reflexivity.
  - rewrite IHb by lia. unfold mulx. cbv zeta.
    destruct (Z.leb_spec full (2 * Zpos b)); [lia|]. reflexivity.
Qed.

Let X k := iterz k S 1.

Lemma X_range k : 1 <= X k < full.
Proof.
  unfold X. pose proof full_gt1. assert (P1 : 1 <= 1 < full) by lia.
  pose proof (it_P S 1 (fun x => 1 <= x < full) P1 S_pos k) as B. cbv beta in B. auto.
Qed.

Lemma X_mul i j : 0 <= i -> 0 <= j -> mulw full P (X i) (X j) = X (i + j).
Proof.
  intros Hi Hj. pose proof (X_range j) as R. destruct (X j) as [|b|] eqn:E; try lia. unfold mulw.
  revert i Hi. apply natlike_ind.
  - unfold X at 1. rewrite iterz_0. rewrite mulp_1 by lia. rewrite <- E. f_equal.
  - intros i Hi IH. unfold Z.succ. unfold X at 1. rewrite iterz_succ by lia. fold (X i).
    rewrite mulp_S by (pose proof (X_range i); lia). rewrite IH.
    replace (i + 1 + j) with (i + j + 1) by lia. unfold X. rewrite iterz_succ by lia. auto.
Qed.

Lemma powx_ok k : powx full P k = X (Zpos k).
Proof.
  induction k; cbn [powx].
  - rewrite IHk, X_mul by lia. rewrite Pos2Z.inj_xI.
    replace (2 * Zpos k) with (Zpos k + Zpos k) by lia. unfold X. rewrite iterz_succ by lia. auto.
  - rewrite IHk, X_mul by lia. rewrite Pos2Z.inj_xO. f_equal. lia.
  - reflexivity.
Qed.

Lemma powxz_ok k : 0 <= k -> powxz full P k = X k.
Proof. intros. destruct k; try lia; auto. apply powx_ok. Qed.

Variable l : list Z.
Hypothesis Hl : Forall prime l.
Hypothesis Hprod : pprod l = full - 1.
Hypothesis Hone : powxz full P (full - 1) = 1.
Hypothesis Hq : forall q, In q l -> powxz full P ((full - 1) / q) <> 1.
Let N := full - 1.

Lemma X_order j : 0 < j < N -> X j <> 1.
Proof.
  pose proof full_gt1.
  assert (E : pprod l = N) by (unfold N; auto).
  rewrite <- E. apply exact_order; auto using Z.eq_dec; rewrite E; unfold N.
  - lia.
  - fold (X (full - 1)). rewrite <- powxz_ok by lia. auto.
  - intros q I. fold (X ((full - 1) / q)). rewrite <- powxz_ok; auto.
    assert (prime q) by (rewrite Forall_forall in Hl; auto). pose proof (prime_ge_2 q H0).
    apply Z.div_pos; lia.
Qed.

Lemma X_N : X N = 1.
Proof. pose proof full_gt1. unfold N. rewrite <- powxz_ok by lia. auto. Qed.

(** Every nonzero word is a power of x. *)
Lemma X_onto w : 1 <= w < full -> exists k, 0 <= k < N /\ w = X k.
Proof.
  intros Hw. pose proof full_gt1. assert (P1 : 1 <= 1 < full) by lia.
  assert (ND : NoDup (orbit S 1 N)).
  { apply orbit_nodup with (P := fun x => 1 <= x < full); auto.
    - exact S_pos.
    - intros x y Hx Hy. apply S_inj; lia.
    - exact X_order. }
  assert (I : incl (upto N) (orbit S 1 N)).
  { apply NoDup_length_incl; auto.
    - rewrite orbit_length, upto_length. auto.
    - intros x Ix. apply in_orbit in Ix. destruct Ix as (k & _ & ->). apply in_upto.
      pose proof (X_range k). unfold X in *. unfold N. lia. }
  assert (Iw : In w (orbit S 1 N)) by (apply I, in_upto; unfold N; lia).
  apply in_orbit in Iw. destruct Iw as (k & Hk & E). exists k. split; auto.
Qed.

Lemma X_period k c : 0 <= k -> 0 <= c -> X (k + N * c) = X k.
Proof.
  intros Hk Hc. pose proof full_gt1. assert (0 <= N) by (unfold N; lia).
  unfold X. rewrite iterz_add by nia.
  assert (E : iterz (N * c) S 1 = 1) by (apply it_mul; auto; apply X_N).
  rewrite E. auto.
Qed.

Lemma X_mod k : 0 <= k -> X k = X (k mod N).
Proof.
  intros Hk. pose proof full_gt1. assert (0 < N) by (unfold N; lia).
  rewrite (Z.div_mod k N) at 1 by lia. rewrite Z.add_comm. apply X_period.
  - apply Z.mod_pos_bound; lia.
  - apply Z.div_pos; lia.
Qed.

Lemma X_inj i j : 0 <= i -> 0 <= j -> X i = X j -> i mod N = j mod N.
Proof.
  intros Hi Hj E. pose proof full_gt1. assert (HN : 0 < N) by (unfold N; lia).
  rewrite (X_mod i), (X_mod j) in E by auto.
  pose proof (Z.mod_pos_bound i N HN). pose proof (Z.mod_pos_bound j N HN).
  assert (D : forall a b, 0 <= a < b -> b < N -> X a <> X b).
  { intros a b Hab Hb. apply it_distinct with (P := fun x => 1 <= x < full) (F := N); auto.
    - lia.
    - exact S_pos.
    - intros x y Hx Hy. apply S_inj; lia.
    - exact X_order. }
  destruct (Z.lt_trichotomy (i mod N) (j mod N)) as [L|[|L]]; auto.
  - destruct (D _ _ (conj (proj1 H0) L) ltac:(lia) E).
  - symmetry in E. destruct (D _ _ (conj (proj1 H1) L) ltac:(lia) E).
Qed.

Lemma T_X k : 0 <= k -> T (X (k + 1)) = X k.
Proof.
  intros Hk. unfold X. rewrite iterz_succ by lia. apply T_S. pose proof (X_range k). unfold X in *. lia.
Qed.

Lemma T_iter_X k : forall (i : nat), Z.of_nat i <= k -> Nat.iter i T (X k) = X (k - Z.of_nat i).
Proof.
  induction i; intros Hi.
  - simpl. f_equal. lia.
  - simpl Nat.iter. rewrite IHi by lia.
    replace (k - Z.of_nat i) with (k - Z.of_nat (Datatypes.S i) + 1) by lia. apply T_X. lia.
Qed.

(** Iterating the register from any legal word: the period is exactly N. *)
Theorem T_iter_range w (i : nat) : 1 <= w < full -> 1 <= Nat.iter i T w < full.
Proof.
  intros Hw. destruct (X_onto w Hw) as (k & Hk & ->).
  assert (0 <= N) by lia.
  rewrite <- (X_period k (Z.of_nat i)) by lia. rewrite T_iter_X by nia. apply X_range.
Qed.

Theorem T_iter_inj w (i j : nat) : 1 <= w < full -> Nat.iter i T w = Nat.iter j T w ->
  Z.of_nat i mod N = Z.of_nat j mod N.
Proof.
  intros Hw. destruct (X_onto w Hw) as (k & Hk & ->).
  rewrite <- (X_period k (Z.of_nat i + Z.of_nat j)) by lia.
  rewrite !T_iter_X by nia. intros E. apply X_inj in E; [|nia|nia].
  assert (HN : 0 < N) by lia.
  set (A := k + N * (Z.of_nat i + Z.of_nat j)) in *.
  assert (E2 : (A - (A - Z.of_nat i)) mod N = (A - (A - Z.of_nat j)) mod N).
  { rewrite Zminus_mod, E, <- Zminus_mod. auto. }
  replace (A - (A - Z.of_nat i)) with (Z.of_nat i) in E2 by ring.
  replace (A - (A - Z.of_nat j)) with (Z.of_nat j) in E2 by ring. auto.
Qed.
End Alg.

(** Summary: what a certificate gives. *)
Lemma cert_ok m mask l : cert m mask l = true -> Forall prime l ->
  2 <= m /\ 2 ^ (m - 1) <= mask < 2 ^ m /\
  (forall w i, 1 <= w < 2 ^ m -> 1 <= Nat.iter i (divx mask) w < 2 ^ m) /\
  (forall w i j, 1 <= w < 2 ^ m -> Nat.iter i (divx mask) w = Nat.iter j (divx mask) w ->
     Z.of_nat i mod (2 ^ m - 1) = Z.of_nat j mod (2 ^ m - 1)).
Proof.
  unfold cert. intros H HP.
  apply andb_true_iff in H. destruct H as [H H6]. apply andb_true_iff in H. destruct H as [H H5].
  apply andb_true_iff in H. destruct H as [H H4]. apply andb_true_iff in H. destruct H as [H H3].
  apply andb_true_iff in H. destruct H as [H1 H2].
  apply Z.leb_le in H1, H2. apply Z.ltb_lt in H3. apply Z.eqb_eq in H4, H5.
  rewrite forallb_forall in H6.
  assert (HQ : forall q, In q l -> powxz (2 ^ m) (2 * mask + 1) ((2 ^ m - 1) / q) <> 1).
  { intros q I. specialize (H6 q ltac:(apply nodup_In; auto)). apply negb_true_iff, Z.eqb_neq in H6. auto. }
  split; [auto|split; [lia|split]].
  - intros w i. apply T_iter_range with l; auto.
  - intros w i j. apply T_iter_inj with l; auto.
Qed.
