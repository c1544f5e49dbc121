(** C46: the random generators have their full period, and bounded draws stay in
    bounds. *)
From Coq Require Import ZArith List Lia Bool Znumtheory.
From Verif Require Import CBase FloatZ Orbit RandModel RandSpec RandAlgebra RandCerts RandProofs.
Import ListNotations.
Open Scope Z_scope.

(** No component ever gets stuck. *)
Theorem C46_never_stuck32 : forall t n, ok32 t -> 0 <= n -> ok32 (iterz n next32 t).
Proof. exact ok32_iter. Qed.
Theorem C46_never_stuck64 : forall t n, ok64 t -> 0 <= n -> ok64 (iterz n next64 t).
Proof. exact ok64_iter. Qed.

(** The outputs repeat after [d] steps exactly if [d] is a multiple of the period. *)
Theorem C46_period32 : forall t, ok32 t -> exact_period (out32 t) (N31 * N29 * N28).
Proof. exact period32. Qed.
Theorem C46_period64 : forall t, ok64 t -> exact_period (out64 t) (N63 * N55 * N52 * N47 * N41).
Proof. exact period64. Qed.
(** ... that is about 2^88 and 2^258. *)
Theorem C46_size : 2 ^ 87 < N31 * N29 * N28 < 2 ^ 88 /\ 2 ^ 257 < N63 * N55 * N52 * N47 * N41 < 2 ^ 258.
Proof. vm_compute. auto. Qed.

(** Every 32-bit seed but four gives the full period. *)
Theorem C46_seeds32 : forall seed, 0 <= seed < 2 ^ 32 -> ~ In seed [3660656; 3660657; 3475163494; 4051026189] ->
  ok32 (init32 seed) /\ exact_period (out32 (init32 seed)) (N31 * N29 * N28).
Proof.
  intros seed S H. assert (K : ok32 (init32 seed)).
  { unfold init32. rewrite iter_nat. apply ok32_iter; [ apply seed_exact; assumption | discriminate ]. }
  split; [ exact K | apply period32; exact K ].
Qed.

(** A 64-bit seed gives it if no intermediate value is below the minimum. *)
Theorem C46_seeds64 : forall seed, 0 <= seed < 2 ^ 64 -> 1 < lcg64 start seed -> 511 < lcg64 (b1 (seeds64 seed)) seed ->
  4095 < lcg64 (b2 (seeds64 seed)) seed -> 131071 < lcg64 (b3 (seeds64 seed)) seed -> 8388607 < lcg64 (b4 (seeds64 seed)) seed ->
  ok64 (init64 seed) /\ exact_period (out64 (init64 seed)) (N63 * N55 * N52 * N47 * N41).
Proof.
  intros seed S H1 H2 H3 H4 H5. assert (K : ok64 (init64 seed)).
  { unfold init64. rewrite iter_nat. apply ok64_iter; [ apply seeds64_ok; assumption | discriminate ]. }
  split; [ exact K | apply period64; exact K ].
Qed.

(** With each of the four seeds one component is zero for ever.  The correction
    adds the minimum to a zero, or leaves the minimum itself, where more than it
    is needed. *)
Theorem C46_seeds32_refuted : forall n, 0 <= n ->
  a1 (iterz n next32 (init32 3660656)) = 0 /\ a1 (iterz n next32 (init32 3660657)) = 0 /\
  a3 (iterz n next32 (init32 3475163494)) = 0 /\ a3 (iterz n next32 (init32 4051026189)) = 0.
Proof.
  intros n Hn. rewrite !iter32 by exact Hn. cbn [a1 a3].
  assert (Z1 : forall m, 0 <= m -> iterz m c1 0 = 0).
  { apply natlike_ind; [ reflexivity | ]. intros m Hm IH. change (Z.succ m) with (m + 1). rewrite iterz_succ, IH by lia. reflexivity. }
  assert (Z3 : forall m, 0 <= m -> iterz m c3 0 = 0).
  { apply natlike_ind; [ reflexivity | ]. intros m Hm IH. change (Z.succ m) with (m + 1). rewrite iterz_succ, IH by lia. reflexivity. }
  assert (E1 : a1 (init32 3660656) = 0) by (vm_compute; reflexivity). assert (E2 : a1 (init32 3660657) = 0) by (vm_compute; reflexivity).
  assert (E3 : a3 (init32 3475163494) = 0) by (vm_compute; reflexivity). assert (E4 : a3 (init32 4051026189) = 0) by (vm_compute; reflexivity).
  rewrite E1, E2, E3, E4. auto.
Qed.
(** So the period is 2^31 times shorter for the first two. *)
Theorem C46_short_period_refuted : forall n, 0 <= n -> out32 (init32 3660657) (n + N29 * N28) = out32 (init32 3660657) n.
Proof.
  intros n Hn. rewrite !out32_eq by (unfold N29, N28; lia).
  assert (E1 : a1 (init32 3660657) = 0) by (vm_compute; reflexivity). rewrite E1.
  assert (Z1 : forall m, 0 <= m -> iterz m c1 0 = 0).
  { apply natlike_ind; [ reflexivity | ]. intros m Hm IH. change (Z.succ m) with (m + 1). rewrite iterz_succ, IH by lia. reflexivity. }
  rewrite !Z1 by (unfold N29, N28; lia). replace (n + N29 * N28 + 1) with (n + 1 + N29 * N28) by lia.
  rewrite (per_div c2 3 29), (per_div c3 4 28); auto using g2, g3; try (unfold N29, N28; lia);
    try (split; vm_compute; (split; congruence) || congruence).
  - rewrite per28. exists N29. reflexivity.
  - rewrite per29. exists N28. apply Z.mul_comm.
Qed.
(** The large generator is seeded with minima that are too small: here the fifth
    component starts below 2^23 and is zero for ever. *)
Theorem C46_seeds64_refuted : forall n, 0 <= n -> b5 (iterz n next64 (init64 8323207965729357825)) = 0.
Proof.
  intros n Hn. rewrite iter64 by exact Hn. cbn [b5].
  assert (Z5 : forall m, 0 <= m -> iterz m d5 0 = 0).
  { apply natlike_ind; [ reflexivity | ]. intros m Hm IH. change (Z.succ m) with (m + 1). rewrite iterz_succ, IH by lia. reflexivity. }
  assert (E : b5 (init64 8323207965729357825) = 0) by (vm_compute; reflexivity). rewrite E. apply Z5. exact Hn.
Qed.

(** A draw lies within its bounds ... *)
Theorem C46_between32 : forall r s e, 0 <= r < 2 ^ 32 -> 0 <= s <= e -> e < 2 ^ 64 -> e - s < 2 ^ 31 ->
  exists v, between false r s e = Some v /\ s <= v <= e.
Proof.
  intros r s e R S E D. unfold between. unfold u32 at 1. rewrite Z.mod_small by lia.
  destruct (upto32_range r (e - s) R ltac:(lia)) as (v & -> & V). exists (s + v). split; [ | lia ].
  unfold u64. rewrite Z.mod_small by lia. reflexivity.
Qed.
Theorem C46_between64 : forall r s e, 0 <= r < 2 ^ 64 - 2 ^ 10 -> 0 <= s <= e -> e < 2 ^ 64 -> e - s < 2 ^ 53 ->
  exists v, between true r s e = Some v /\ s <= v <= e.
Proof.
  intros r s e R S E D. unfold between. unfold u64 at 1. rewrite Z.mod_small by lia.
  destruct (upto64_range r (e - s) R ltac:(lia)) as (v & -> & V). exists (s + v). split; [ | lia ].
  unfold u64. rewrite Z.mod_small by lia. reflexivity.
Qed.
(** ... and for bounds below 2^21 it is the number scaled, without rounding. *)
Theorem C46_scaled : forall r e, 0 <= r < 2 ^ 32 -> 0 <= e < 2 ^ 21 -> upto32 r e = Some (r * (e + 1) / 2 ^ 32).
Proof. exact upto32_exact. Qed.
(** The fraction is above zero and at most one. *)
Theorem C46_fraction : (forall r, 0 <= r < 2 ^ 32 -> 0 < zero_one r <= 2 ^ 32) /\ (forall r, 0 <= r < 2 ^ 64 -> 0 < zero_one r <= 2 ^ 64).
Proof.
  split; intros r R; unfold zero_one.
  - rewrite (rne53_small r) by lia. rewrite rne53_small by lia. lia.
  - pose proof (rne53_pow r 64 ltac:(lia) ltac:(lia)) as P. pose proof (rne53_nonneg r ltac:(lia)) as N.
    assert (L : 0 < rne53 (rne53 r + 1)).
    { destruct (rne53_error (rne53 r + 1) ltac:(lia)) as (_ & _ & B). nia. }
    split; [ exact L | ]. destruct (Z.eq_dec (rne53 r) (2 ^ 64)) as [ -> | X ]; [ vm_compute; discriminate | ].
    apply rne53_pow; lia.
Qed.

(** A 64-bit draw can be one above its upper bound: numbers from 2^64 - 2^10 on
    are rounded up to 2^64. *)
Theorem C46_above_refuted : between true (2 ^ 64 - 1) 0 9 = Some 10 /\ between true (2 ^ 64 - 2 ^ 10) 1 100 = Some 101.
Proof. vm_compute. auto. Qed.
(** With the whole range as bounds every draw is zero. *)
Theorem C46_whole_refuted : forall r, 0 <= r < 2 ^ 64 -> between true r 0 (2 ^ 64 - 1) = Some 0 /\ (r < 2 ^ 32 -> between false r 0 (2 ^ 32 - 1) = Some 0).
Proof.
  intros r R. split; [ | intros R' ].
  - unfold between, upto64. change (u64 (u64 (2 ^ 64 - 1 - 0) + 1)) with 0. change (rne53 0) with 0. rewrite Z.mul_0_l. reflexivity.
  - unfold between, upto32. change (u32 (u32 (2 ^ 32 - 1 - 0) + 1)) with 0. rewrite Z.mul_0_l. reflexivity.
Qed.
(** From a bound of 2^31 on, the 32-bit draw converts a double to an [int] that
    does not hold it. *)
Theorem C46_int_refuted : upto32 (2 ^ 32 - 1) (2 ^ 31) = None.
Proof. vm_compute. reflexivity. Qed.

(** The default seed. *)
Example C46_default : ok32 (init32 1) /\ ok64 (seeds64 1).
Proof. unfold ok32, ok64. vm_compute. repeat split; congruence. Qed.
Example C46_first : snd (rand32 (T88 2 8 16)) = Z.lxor (Z.lxor 8192 128) 2097152 /\ between false 2147483648 10 19 = Some 15.
Proof. vm_compute. auto. Qed.

Print Assumptions C46_never_stuck32.
Print Assumptions C46_never_stuck64.
Print Assumptions C46_period32.
Print Assumptions C46_period64.
Print Assumptions C46_size.
Print Assumptions C46_seeds32.
Print Assumptions C46_seeds64.
Print Assumptions C46_seeds32_refuted.
Print Assumptions C46_short_period_refuted.
Print Assumptions C46_seeds64_refuted.
Print Assumptions C46_between32.
Print Assumptions C46_between64.
Print Assumptions C46_scaled.
Print Assumptions C46_fraction.
Print Assumptions C46_above_refuted.
Print Assumptions C46_whole_refuted.
Print Assumptions C46_int_refuted.
