(** C15: elapsed-time helpers. *)
From Coq Require Import ZArith List Lia Bool.
From Verif Require Import CBase TimeModel TimeSpec TimeProofs.
Import ListNotations.
Open Scope Z_scope.

(** Nanoseconds: exactly max(0, e - s). *)
Theorem C15_ntime : forall s e, norm NS s -> norm NS e ->
  ntime_since s e = Some (Z.max 0 (inst NS e - inst NS s)).
Proof. exact ntime_ok. Qed.

(** Microseconds: within one microsecond of e - s, 0 when e <= s. *)
Theorem C15_utime : forall s e, norm NS s -> norm NS e -> exists u, utime_since s e = Some u /\ 0 <= u /\
  (inst NS s <= inst NS e -> Z.abs (inst NS e - inst NS s - 1000 * u) < 1000) /\
  (inst NS e <= inst NS s -> u = 0).
Proof.
  intros s e Hs He. destruct (utime_ok s e Hs He) as (u & E & U & A & B & _). exists u.
  split; [auto|]. split; [auto|]. split; [|auto]. intros H. specialize (A H). lia.
Qed.
Theorem C15_utime_monotone : forall s e e' u u', norm NS s -> norm NS e -> norm NS e' ->
  inst NS e <= inst NS e' -> utime_since s e = Some u -> utime_since s e' = Some u' -> u <= u'.
Proof. exact utime_mono. Qed.

(** Milliseconds: floor, signed; clamped at 0 for [mtime_since]; seconds from it. *)
Theorem C15_rel : forall s e, norm NS s -> norm NS e ->
  rel_time_since s e = Some ((inst NS e - inst NS s) / 1000000).
Proof. exact rel_ok. Qed.
Theorem C15_mtime : forall s e, norm NS s -> norm NS e ->
  mtime_since s e = Some (Z.max 0 (inst NS e - inst NS s) / 1000000).
Proof.
  intros s e Hs He. unfold mtime_since. rewrite rel_ok by auto. f_equal.
  destruct (Z_le_gt_dec 0 (inst NS e - inst NS s)).
  - rewrite (Z.max_r 0) by lia. apply Z.max_l. apply Z.div_pos; lia.
  - rewrite (Z.max_l 0) by lia. change (0 / 1000000) with 0. apply Z.max_r. apply Z.div_le_upper_bound; lia.
Qed.
Theorem C15_time : forall s e, norm NS s -> norm NS e ->
  time_since s e = Some (Z.max 0 (inst NS e - inst NS s) / NS).
Proof.
  intros s e Hs He. unfold time_since. rewrite C15_mtime by auto. rewrite Z.div_div by lia. reflexivity.
Qed.
Theorem C15_mtime_tv : forall s e, norm US s -> norm US e ->
  mtime_since_tv s e = Some (Z.max 0 (inst US e - inst US s) / 1000).
Proof. exact mtime_tv_ok. Qed.

(** Adding milliseconds: exact and normalised. *)
Theorem C15_add_msec : forall t msec, 0 <= sec t < 2 ^ 62 -> 0 <= sub t < NS -> 0 <= msec < 2 ^ 32 ->
  exists t', timespec_add_msec t msec = Some t' /\ 0 <= sub t' < NS /\
    inst NS t' = inst NS t + 1000000 * msec.
Proof. exact add_msec_ok. Qed.

(** Sleeping: the value returned lies between 0 and the time that actually passed, every sleep request
    is well-formed, shorter than two seconds and within the remaining time, and unless the sleep is
    interrupted (signal, termination) at least the requested time has passed. *)
Theorem C15_sleep : forall gran usec evs r reqs, 0 <= gran -> 0 <= usec ->
  Forall (fun e => 0 <= ev_time e) evs -> total evs < 2 ^ 64 ->
  usec_sleep gran usec 0 evs = Some (r, reqs) ->
  0 <= r <= total evs /\
  Forall (fun q => 0 <= fst q <= 1 /\ 0 <= snd q < NS /\ req_us q <= usec - gran) reqs /\
  (~ In SleepErr evs -> (forall n, ~ In (Slept n true) evs) -> usec <= r).
Proof.
  intros gran usec evs r reqs Hg Hu He Ht E.
  destruct (sleep_ok gran Hg evs usec 0 r reqs Hu ltac:(lia) He ltac:(lia) E) as (A & B & C).
  split; [lia|]. split; [auto|]. intros H1 H2. specialize (C H1 H2). lia.
Qed.

(** The value returned is exactly the time spent: that of the turns before the last, none of which had
    reached the time asked for nor seen the job terminate, plus that of the last turn.  The last turn is
    a sleep that reached the time asked for, a sleep after which the job was to terminate, a sleep that
    failed, or a busy wait for a rest below the granularity; one request was issued per sleep. *)
Theorem C15_sleep_exact : forall gran usec evs r reqs,
  Forall (fun e => 0 <= ev_time e) evs -> total evs < 2 ^ 64 ->
  usec_sleep gran usec 0 evs = Some (r, reqs) ->
  exists pre last post, evs = pre ++ last :: post /\ r = total pre + ev_time last /\
    Forall (fun e => exists n, e = Slept n false) pre /\ (pre <> [] -> total pre < usec) /\
    length reqs = (length pre + match last with Spun _ => 0 | _ => 1 end)%nat /\
    match last with
    | Slept n false => usec <= total pre + n
    | Slept n true => True
    | SleepErr => True
    | Spun n => usec < total pre + gran /\ usec <= total pre + n
    end.
Proof.
  intros gran usec evs r reqs He Ht E.
  destruct (sleep_exact gran evs usec 0 r reqs ltac:(lia) He ltac:(lia) E) as (pre & last & post & A).
  exists pre, last, post. rewrite Z.add_0_l in A. exact A.
Qed.

(** Non-vacuity. *)
Example C15_case :
  norm NS (mkTs 5 999999999) /\ norm NS (mkTs 7 1) /\
  ntime_since (mkTs 5 999999999) (mkTs 7 1) = Some 1000000002 /\
  utime_since (mkTs 5 999999999) (mkTs 7 1) = Some 1000001 /\
  mtime_since (mkTs 5 999999999) (mkTs 7 1) = Some 1000 /\
  mtime_since (mkTs 7 1) (mkTs 5 999999999) = Some 0 /\
  timespec_add_msec (mkTs 5 999999999) 2500 = Some (mkTs 8 499999999).
Proof.
  split; [unfold norm; cbn; lia|]. split; [unfold norm; cbn; lia|]. vm_compute. auto.
Qed.
Example C15_sleep_case :
  usec_sleep 60 3500000 0 [Slept 1500010 false; Slept 1999950 false; Spun 41] =
    Some (3500001, [(1, 499940000); (1, 999930000)]).
Proof. vm_compute. reflexivity. Qed.
Example C15_sleep_exact_case :
  usec_sleep 60 3500000 0 [Slept 1500010 false; Slept 700 true; Spun 41] =
    Some (1500710, [(1, 499940000); (1, 999930000)]).
Proof. vm_compute. reflexivity. Qed.
(** The microsecond helper can be one unit above the floor. *)
Example C15_utime_rounds_up : utime_since (mkTs 0 999) (mkTs 1 0) = Some 1000000.
Proof. reflexivity. Qed.

Print Assumptions C15_ntime.
Print Assumptions C15_utime.
Print Assumptions C15_utime_monotone.
Print Assumptions C15_rel.
Print Assumptions C15_mtime.
Print Assumptions C15_time.
Print Assumptions C15_mtime_tv.
Print Assumptions C15_add_msec.
Print Assumptions C15_sleep.
Print Assumptions C15_sleep_exact.
