(** C25: the steady state detection evaluates the true window. *)
From Coq Require Import ZArith List Bool QArith Lia Lqa.
From Verif Require Import CBase SteadyModel SteadySpec SteadyProofs.
Import ListNotations.
Open Scope Z_scope.

(** The measurements are 64-bit counters. *)
Definition meas_ok (x : meas) : Prop := forall m, 0 <= value m x < 2 ^ 64.
(** The window of a check: the last [n] values of the metric up to measurement [i]. *)
Definition window (n : Z) (m : metric) (xs : list meas) (i : nat) : list Z := last_n (Z.to_nat n) (map (value m) (firstn (S i) xs)).

Lemma window_pos n m xs i : (forall x, In x xs -> meas_ok x) -> forall y, In y (window n m xs i) -> 0 <= y.
Proof.
  intros H y Hy. unfold window, last_n in Hy. assert (K : In y (map (value m) (firstn (S i) xs))).
  { rewrite <- (firstn_skipn (length (map (value m) (firstn (S i) xs)) - Z.to_nat n)). apply in_or_app. auto. }
  apply in_map_iff in K. destruct K as (x & <- & Hx). apply (H x). rewrite <- (firstn_skipn (S i) xs). apply in_or_app. auto.
Qed.
Lemma zlen_firstn_S {A B} (xs : list A) (ks : list B) i k : nth_error ks i = Some k -> (length ks <= length xs)%nat -> zlen (firstn (S i) xs) = Z.of_nat i + 1.
Proof. intros H L. assert (nth_error ks i <> None) by congruence. apply nth_error_Some in H0. unfold zlen. rewrite firstn_length. lia. Qed.

(** The slope mode: a run of checks never fails; it ends at the first check that meets the limit; until there are [n]
    measurements a check reports nothing; then it reports the slope of the least squares line through the last [n]. *)
Theorem C25_slope n m pct limit c xs : 2 <= n <= 1024 -> init_cfg n m pct limit = Some c -> (forall x, In x xs -> meas_ok x) ->
  exists s ks, run true c (init_ss n) xs = Some (s, ks) /\ (length ks <= length xs)%nat /\
  ((length ks < length xs)%nat -> exists k, nth_error ks (length ks - 1) = Some k /\ attained c k = true) /\
  forall i k, nth_error ks i = Some k -> (attained c k = true -> S i = length ks) /\ (Z.of_nat i + 1 < n -> k = NotYet) /\
    (n <= Z.of_nat i + 1 -> total (window n m xs i) < 2 ^ 64 -> weighted 0 (window n m xs i) < 2 ^ 64 -> slope_reads pct (window n m xs i) k).
Proof.
  intros HN HC HX. destruct (init_cfg_ok n m pct limit ltac:(lia)) as (c' & E & EN & EM & EP & _ & SX & SXX). rewrite E in HC. inversion HC; subst c'.
  rewrite <- EN. destruct (run_trace true c ltac:(lia) xs [] (init_ss (c_n c)) (inv_init true c ltac:(lia))) as (s & ks & R & T1 & T2 & T3 & _).
  exists s, ks. split; auto. split; auto. split; auto. intros i k Hk. destruct (T1 i k Hk) as (RD & AT). cbn [app] in RD. pose proof (zlen_firstn_S xs ks i k Hk T2) as LZ.
  split; auto. split; [intros L; apply RD; rewrite LZ; auto|]. intros L B1 B2. rewrite <- EM, <- EP. rewrite <- EM in B1, B2.
  apply slope_reading; auto; try lia; try (rewrite EN; auto; fail). exact (window_pos (c_n c) (c_metric c) xs i HX).
Qed.
(** The deviation mode, likewise. *)
Theorem C25_deviation n m pct limit c xs : 1 <= n <= 1024 -> init_cfg n m pct limit = Some c -> (forall x, In x xs -> meas_ok x) ->
  exists s ks, run false c (init_ss n) xs = Some (s, ks) /\ (length ks <= length xs)%nat /\
  ((length ks < length xs)%nat -> exists k, nth_error ks (length ks - 1) = Some k /\ attained c k = true) /\
  forall i k, nth_error ks i = Some k -> (attained c k = true -> S i = length ks) /\ (Z.of_nat i + 1 < n -> k = NotYet) /\
    (n <= Z.of_nat i + 1 -> total (window n m xs i) < 2 ^ 64 -> dev_reads pct (window n m xs i) k).
Proof.
  intros HN HC HX. destruct (init_cfg_ok n m pct limit ltac:(lia)) as (c' & E & EN & EM & EP & _). rewrite E in HC. inversion HC; subst c'.
  rewrite <- EN. destruct (run_trace false c ltac:(lia) xs [] (init_ss (c_n c)) (inv_init false c ltac:(lia))) as (s & ks & R & T1 & T2 & T3 & _).
  exists s, ks. split; auto. split; auto. split; auto. intros i k Hk. destruct (T1 i k Hk) as (RD & AT). cbn [app] in RD. pose proof (zlen_firstn_S xs ks i k Hk T2) as LZ.
  split; auto. split; [intros L; apply RD; rewrite LZ; auto|]. intros L B1. rewrite <- EM, <- EP. rewrite <- EM in B1.
  apply dev_reading; auto; try lia. exact (window_pos (c_n c) (c_metric c) xs i HX).
Qed.
(** The state is attained exactly by a reading below the limit. *)
Theorem C25_attained c k : attained c k = true <-> exists q, k = Crit q /\ (q < c_limit c)%Q.
Proof.
  destruct k as [| |q]; cbn; try (split; [discriminate|intros (q & H & _); discriminate]). rewrite negb_true_iff. split.
  - intros H. exists q. split; auto. apply Qnot_le_lt. intros L. apply Qle_bool_iff in L. congruence.
  - intros (q' & E & L). inversion E; subst q'. apply not_true_iff_false. rewrite Qle_bool_iff. lra.
Qed.
(** The means reported at the end are those of the last window, for each of the three metrics. *)
Theorem C25_mean slope n m pct limit c xs s ks : 1 <= n <= 1024 -> init_cfg n m pct limit = Some c -> (forall x, In x xs -> meas_ok x) ->
  run slope c (init_ss n) xs = Some (s, ks) -> n <= Z.of_nat (length ks) ->
  forall m', total (window n m' xs (length ks - 1)) < 2 ^ 64 -> data_mean n (data m' s) = Some (total (window n m' xs (length ks - 1)) / n).
Proof.
  intros HN HC HX HR HL m' HT. destruct (init_cfg_ok n m pct limit ltac:(lia)) as (c' & E & EN & _). rewrite E in HC. inversion HC; subst c'.
  destruct (run_trace slope c ltac:(lia) xs [] (init_ss (c_n c)) (inv_init slope c ltac:(lia))) as (s' & ks' & R & _ & _ & _ & T4 & T5). rewrite EN in *. rewrite HR in R. inversion R; subst s' ks'.
  assert (EK : S (length ks - 1) = length ks) by lia. unfold window in *. rewrite EK in *. apply mean_ok; auto; [lia| |].
  - apply (T5 ltac:(unfold zlen; cbn; lia) m').
  - pose proof (window_pos n m' xs (length ks - 1) HX) as P. unfold window in P. rewrite EK in P. exact P.
Qed.
(** The rate of a check on time, with an interval of whole seconds up to 65: the events per second, rounded down. *)
Theorem C25_rate t cur prev : 1 <= t <= 65 -> 0 <= prev <= cur -> 1000 * t * (cur - prev) < 2 ^ 64 -> rate (1000 * t) (1000 * t) cur prev = Some ((cur - prev) / t).
Proof.
  intros HT HP HB. unfold rate. assert (E : u32 (1000 * t * (1000 * t)) / 1000 = 1000 * t * t).
  { unfold u32. rewrite Z.mod_small by nia. replace (1000 * t * (1000 * t)) with ((1000 * t * t) * 1000) by ring. apply Z.div_mul. lia. }
  rewrite E. destruct (Z.eqb_spec (1000 * t * t) 0); [nia|]. rewrite (u64_id (cur - prev)) by nia. rewrite u64_id by nia. f_equal.
  rewrite (Z.mul_comm (1000 * t) t). rewrite <- (Z.mul_comm (cur - prev)). rewrite <- Z.div_div by lia. rewrite (Z.mul_comm (cur - prev)). replace (1000 * t * (cur - prev)) with ((1000 * (cur - prev)) * t) by ring.
  rewrite Z.div_mul by lia. replace (1000 * t) with (t * 1000) by ring. rewrite (Z.mul_comm 1000 (cur - prev)). rewrite Z.div_mul_cancel_r by lia. reflexivity.
Qed.

(** The window: as many whole intervals as fit in the duration (seconds) when the interval is a positive whole number of seconds
    given in milliseconds. *)
Theorem C25_intervals dur interval : 0 <= dur < 2 ^ 31 -> 0 < interval -> interval mod 1000 = 0 ->
  exists n, intervals_of dur interval = Some n /\ 0 <= n /\ n * interval <= 1000 * dur < (n + 1) * interval.
Proof.
  intros D I M. unfold intervals_of, s32. pose proof (Z.div_mod interval 1000 ltac:(lia)) as DM. set (q := interval / 1000) in *. clearbody q.
  destruct (Z.eqb_spec q 0); [lia|]. pose proof (Z.div_mod dur q ltac:(lia)). pose proof (Z.mod_pos_bound dur q ltac:(lia)).
  pose proof (Z.div_pos dur q ltac:(lia) ltac:(lia)). set (k := dur / q) in *. clearbody k. assert (k <= dur) by nia. exists k.
  destruct (Z.leb_spec (- 2 ^ 31) k); [|lia]. destruct (Z.ltb_spec k (2 ^ 31)); [|lia]. cbn [andb]. split; [reflexivity|]. split; [lia|]. nia.
Qed.
Print Assumptions C25_intervals.
Example C25_intervals_ex : intervals_of 3601 7000 = Some 514.
Proof. reflexivity. Qed.

(** Windows of more than 1024 intervals (17 minutes at one check per second) overflow an int in the setup. *)
Theorem C25_long_window_refuted : (forall n m pct limit, 1024 < n -> init_cfg n m pct limit = None) /\ intervals_of 1800 1000 = Some 1800.
Proof. split; [exact init_cfg_long|reflexivity]. Qed.
(** A check that is late by a factor reports that factor squared: 100 events per second for two seconds are reported as 400. *)
Theorem C25_rate_late_refuted : rate 1000 2000 200 0 = Some 400.
Proof. reflexivity. Qed.
(** The square of the interval wraps: an interval of 65536 ms divides by zero, one of 70 s reports a rate 8 times too high. *)
Theorem C25_interval_refuted : (forall r cur prev, rate 65536 r cur prev = None) /\ rate 70000 70000 7000000 0 = Some 809874 /\ 7000000 / 70 = 100000.
Proof. split; [reflexivity|]. split; vm_compute; reflexivity. Qed.

(** Ramp 10, 20, 30, 30, 30: windows of three; the slope falls from 10 to 5 to 0, which meets the limit 1. *)
Definition ex_xs := map (fun v => mkM v (2 * v) 7) [10; 20; 30; 30; 30; 99].
Definition ex_c := match init_cfg 3 Iops false 1 with Some c => c | None => mkCfg 0 Iops false 0 0 0 end.
Example C25_ex_cfg : init_cfg 3 Iops false 1 = Some ex_c /\ forall x, In x ex_xs -> meas_ok x.
Proof. split; [reflexivity|]. intros x Hx m. repeat (destruct Hx as [<-|Hx]; [destruct m; cbn; lia|]). destruct Hx. Qed.
Example C25_ex_run : exists s ks, run true ex_c (init_ss 3) ex_xs = Some (s, ks) /\ length ks = 5%nat /\
  nth_error ks 1 = Some NotYet /\ (exists q, nth_error ks 2 = Some (Crit q) /\ (q == 10)%Q) /\ (exists q, nth_error ks 3 = Some (Crit q) /\ (q == 5)%Q) /\
  (exists q, nth_error ks 4 = Some (Crit q) /\ (q == 0)%Q /\ attained ex_c (Crit q) = true) /\ data_mean 3 (s_bw s) = Some 60.
Proof.
  eexists. eexists. split; [vm_compute; reflexivity|]. split; [reflexivity|]. split; [reflexivity|].
  split; [eexists; split; reflexivity|]. split; [eexists; split; reflexivity|]. split; [eexists; split; [reflexivity|split; reflexivity]|reflexivity].
Qed.
Example C25_ex_window : window 3 Iops ex_xs 3 = [20; 30; 30].
Proof. reflexivity. Qed.

Print Assumptions C25_slope.
Print Assumptions C25_deviation.
Print Assumptions C25_attained.
Print Assumptions C25_mean.
Print Assumptions C25_rate.
Print Assumptions C25_long_window_refuted.
Print Assumptions C25_rate_late_refuted.
Print Assumptions C25_interval_refuted.
