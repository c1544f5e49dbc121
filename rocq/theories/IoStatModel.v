(** Model of the running statistics: [struct io_stat] (iolog.h:14-21), stat.c:290-308, 2042-2106,
    2935-2952, 3155-3160, and of the averaging of log samples, stat.c:3237-3316.

    Simplification: [double] fields are exact rationals ([Qc]); rounding, NaN and infinity are not
    modelled, and the standard deviation is modelled as its square (the code takes the square root).
    Counters and extreme values are 64-bit unsigned integers with wrap-around. *)
From Coq Require Import ZArith List Bool QArith Qcanon Qround.
From Verif Require Import CBase.
Import ListNotations.
Open Scope Z_scope.

(** Conversion of an integer to [double]. *)
Definition qz (z : Z) : Qc := Q2Qc (inject_Z z).

(** struct io_stat, iolog.h:14-21. *)
Record io_stat := mkStat { max_val : Z; min_val : Z; samples : Z; mean : Qc; S : Qc }.

(** reset_io_stat, stat.c:3155-3160; also the state set up by init_thread_stat (zeroed memory) and
    init_thread_stat_min_vals, stat.c:2443-2463, with a 64-bit [unsigned long]. *)
Definition reset_io_stat : io_stat := mkStat 0 (2 ^ 64 - 1) 0 (qz 0) (qz 0).

(** add_stat_sample, stat.c:2935-2952. *)
Definition add_stat_sample (is : io_stat) (data : Z) : io_stat :=
  let mx := if data >? max_val is then data else max_val is in
  let mn := if data <? min_val is then data else min_val is in
  let delta := (qz data - mean is)%Qc in
  let '(m, s) :=
    if Qc_eq_bool delta (qz 0) then (mean is, S is)
    else let m := (mean is + delta / (qz (samples is) + qz 1))%Qc in
         (m, (S is + delta * (qz data - m))%Qc) in
  mkStat mx mn (u64 (samples is + 1)) m s.

(** __sum_stat, stat.c:2042-2073. The product of the two sample counts is a 64-bit integer product. *)
Definition sum_stat0 (dst src : io_stat) (first : bool) : io_stat :=
  let '(m, s) :=
    if first then (mean src, S src)
    else
      let delta := (mean src - mean dst)%Qc in
      ((((mean src * qz (samples src)) + (mean dst * qz (samples dst))) /
        qz (u64 (samples dst + samples src)))%Qc,
       (S src + S dst + (delta * delta) * qz (u64 (samples dst * samples src)) /
        qz (u64 (samples dst + samples src)))%Qc) in
  mkStat (Z.max (max_val dst) (max_val src)) (Z.min (min_val dst) (min_val src))
         (u64 (samples dst + samples src)) m s.

(** sum_stat, stat.c:2081-2106. *)
Definition sum_stat (dst src : io_stat) (pure_sum : bool) : io_stat :=
  let first := samples dst =? 0 in
  if samples src =? 0 then dst
  else if negb pure_sum then sum_stat0 dst src first
  else if first then mkStat (max_val src) (min_val src) (samples src) (mean src) (S src)
  else mkStat (u64 (max_val dst + max_val src)) (u64 (min_val dst + min_val src))
              (u64 (samples dst + samples src)) (mean dst + mean src)%Qc (S dst + S src)%Qc.

(** calc_lat, stat.c:290-308; the last component is the square of the deviation. *)
Definition calc_lat (is : io_stat) : option (Z * Z * Qc * Qc) :=
  if samples is =? 0 then None
  else Some (min_val is, max_val is, mean is,
             if 1 <? samples is then (S is / (qz (samples is) - qz 1))%Qc else qz 0).

(** ** Averaged logs *)

(** log_max option: IO_LOG_SAMPLE_AVG, IO_LOG_SAMPLE_MAX, IO_LOG_SAMPLE_BOTH. *)
Inductive log_max_t := LogAvg | LogMax | LogBoth.

(** One direction of a [struct io_log]: the averaging window, the start of the current window and the
    entries logged so far, as (time, val0, val1), oldest first. *)
Record iolog := mkLog { avg_window : io_stat; avg_last : Z; entries : list (Z * Z * Z) }.

(** Conversion of a non-negative [double] to an integer truncates. *)
Definition qtrunc (q : Qc) : Z := Qfloor (this q).

(** __add_stat_to_log, stat.c:3237-3260. Simplification: storing the entry (__add_log_sample) always
    succeeds; the assignment of avg_last for an empty log (stat.c:3125-3126) is overwritten by the caller. *)
Definition add_stat_to_log (l : iolog) (elapsed : Z) (lm : log_max_t) : iolog :=
  let w := avg_window l in
  let e :=
    if samples w =? 0 then []
    else match lm with
         | LogAvg => [(elapsed, qtrunc (mean w + Q2Qc (1 # 2))%Qc, 0)]
         | LogMax => [(elapsed, max_val w, 0)]
         | LogBoth => [(elapsed, qtrunc (mean w + Q2Qc (1 # 2))%Qc, max_val w)]
         end in
  mkLog reset_io_stat (avg_last l) (entries l ++ e).

(** LOG_MSEC_SLACK, stat.c. *)
Definition LOG_MSEC_SLACK : Z := 1.

(** add_log_sample for a log with averaging (avg_msec > 0), stat.c:3271-3316. *)
Definition add_log_sample (avg_msec : Z) (inline_log : bool) (lm : log_max_t)
    (l : iolog) (elapsed v : Z) : iolog :=
  let l1 := mkLog (add_stat_sample (avg_window l) v) (avg_last l) (entries l) in
  let this_window := u64 (elapsed - avg_last l1) in
  if elapsed <? avg_last l1 then l1
  else
    let early :=
      (this_window <? avg_msec) && (inline_log || (LOG_MSEC_SLACK <? u64 (avg_msec - this_window))) in
    if early then l1
    else
      let l2 := add_stat_to_log l1 elapsed lm in
      mkLog (avg_window l2) (u64 (elapsed - elapsed mod avg_msec)) (entries l2).

(** finalize_logs for this log, stat.c:3318-3334. *)
Definition finalize_log (l : iolog) (elapsed : Z) (lm : log_max_t) : iolog := add_stat_to_log l elapsed lm.

(** ** Ramp time: reset_io_stats, stat.c:3186-3232, restricted to the read latency statistics, the sync
    latency statistics and the sync count (the other fields are reset like the read statistics). *)
Record thread_stat := mkTs { clat_stat0 : io_stat; sync_stat : io_stat; total_sync : Z }.
Definition reset_io_stats (ts : thread_stat) : thread_stat :=
  mkTs reset_io_stat (sync_stat ts) 0.
