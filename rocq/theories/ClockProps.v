(** C16: conversion of CPU cycles to nanoseconds. *)
From Coq Require Import ZArith List Lia Bool.
From Verif Require Import CBase ClockModel ClockProofs.
Open Scope Z_scope.

(** Rates covered: from 1 cycle per msec up to the largest rate for which one hour of cycles fits 64 bits
    (5.1e12 cycles per msec; a 5 GHz part has 5e6). *)
Definition rate_ok_range (cpm : Z) : Prop := 1 <= cpm /\ 3600000 * cpm < 2 ^ 64.
(** Cycles elapsed on the 64-bit counter, and the condition that this many cycles are less than 2^64
    nanoseconds (584 years); always true from 1 GHz on. *)
Definition elapsed (start now : Z) : Z := (now - start) mod 2 ^ 64.
Definition fits (cpm start now : Z) : Prop := elapsed start now * 1000000 < 2 ^ 64 * cpm.

(** Calibration succeeds for every rate (no division by zero, no oversized shift). *)
Theorem C16_calibrates : forall cpm start, rate_ok_range cpm -> exists c, calibrate cpm start = Some c.
Proof. intros cpm start [H1 H2]. eexists. apply calibrate_ok; auto. Qed.

(** Accuracy: never above the true time; below it by at most one nanosecond per 2^20 cycles plus two.
    In particular no intermediate product wraps. *)
Theorem C16_accurate : forall cpm start c now, rate_ok_range cpm -> calibrate cpm start = Some c ->
  fits cpm start now ->
  let t := elapsed start now in let n := clock_nsecs c now in
  0 <= n < 2 ^ 64 /\ n * cpm <= t * 1000000 < (n + t / 2 ^ 20 + 2) * cpm.
Proof.
  intros cpm start c now [H1 H2] E HF. cbv zeta. unfold fits, elapsed in *. rewrite (clock_conv cpm start) by auto.
  assert (0 <= (now - start) mod 2 ^ 64 < 2 ^ 64) by (apply Z.mod_pos_bound; lia).
  set (t := (now - start) mod 2 ^ 64) in *.
  destruct (conv_upper cpm H1 H2 t ltac:(lia)) as [A _].
  destruct (conv_accuracy cpm H1 H2 t ltac:(lia)) as [B C]. split; [|auto]. split; [auto|]. nia.
Qed.

(** Monotone in the number of elapsed cycles: time never goes backwards. *)
Theorem C16_monotone : forall cpm start c now now', rate_ok_range cpm -> calibrate cpm start = Some c ->
  fits cpm start now' -> elapsed start now <= elapsed start now' ->
  clock_nsecs c now <= clock_nsecs c now'.
Proof.
  intros cpm start c now now' [H1 H2] E HF HL. unfold fits, elapsed in *.
  assert (0 <= (now - start) mod 2 ^ 64 < 2 ^ 64) by (apply Z.mod_pos_bound; lia).
  rewrite !(clock_conv cpm start) by (auto; lia). apply conv_mono; auto. lia.
Qed.

(** No discontinuity: one more cycle adds at most one nanosecond to the (truncated) cycle time. *)
Theorem C16_no_jump : forall cpm start c now, rate_ok_range cpm -> calibrate cpm start = Some c ->
  fits cpm start (now + 1) -> elapsed start now + 1 = elapsed start (now + 1) ->
  clock_nsecs c (now + 1) - clock_nsecs c now <= 1000000 / cpm + 1.
Proof.
  intros cpm start c now [H1 H2] E HF HL. unfold fits, elapsed in *.
  assert (0 <= (now - start) mod 2 ^ 64 < 2 ^ 64) by (apply Z.mod_pos_bound; lia).
  rewrite !(clock_conv cpm start) by (auto; lia). rewrite <- HL.
  pose proof (conv_step cpm H1 H2 ((now - start) mod 2 ^ 64) ltac:(lia)) as St.
  pose proof (rate_ok cpm H1 H2). lia.
Qed.

(** The timestamp is normalised and denotes that many nanoseconds. *)
Theorem C16_timespec : forall c now, let '(s, n) := clock_ts c now in
  0 <= n < 1000000000 /\ s * 1000000000 + n = clock_nsecs c now.
Proof.
  intros c now. unfold clock_ts. pose proof (Z.mod_pos_bound (clock_nsecs c now) 1000000000 ltac:(lia)).
  pose proof (Z.div_mod (clock_nsecs c now) 1000000000 ltac:(lia)). lia.
Qed.

(** From 1 GHz on, [fits] always holds. *)
Theorem C16_fits_ghz : forall cpm start now, 1000000 <= cpm -> fits cpm start now.
Proof.
  intros cpm start now H. unfold fits, elapsed.
  pose proof (Z.mod_pos_bound (now - start) (2 ^ 64) ltac:(lia)). nia.
Qed.

(** Non-vacuity: a 3 GHz counter started near its wrap-around, read one hour and a half later. *)
Example C16_case : rate_ok_range 3000000 /\
  match calibrate 3000000 (2 ^ 64 - 12345) with
  | Some c => clock_nsecs c (u64 (2 ^ 64 - 12345 + 5400 * 3000000000)) = 5399998712539 /\
              clock_shift c = 22 /\ clock_mult c = 1398101
  | None => False
  end.
Proof. split; [unfold rate_ok_range; lia|]. vm_compute. auto. Qed.

Print Assumptions C16_calibrates.
Print Assumptions C16_accurate.
Print Assumptions C16_monotone.
Print Assumptions C16_no_jump.
Print Assumptions C16_timespec.
Print Assumptions C16_fits_ghz.
