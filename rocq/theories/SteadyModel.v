(** Model of the steady state detection, steadystate.c. Counters are 64-bit words; [None] is an access outside the arrays, a signed
    overflow or an integer division by zero. The double arithmetic of slope, mean, deviation and criterion is exact here
    (rationals): rounding is not modelled; a double division by zero gives [Undefined], which never meets the limit. *)
From Coq Require Import ZArith List Bool QArith.
From Verif Require Import CBase.
Import ListNotations.
Open Scope Z_scope.

(** FIO_SS_IOPS, FIO_SS_BW, otherwise latency, steadystate.h:60-77. *)
Inductive metric := Iops | Bw | Lat.
(** One measurement: iops, bandwidth, and the latency after the conversion to uint64_t. *)
Record meas := mkM { m_iops : Z; m_bw : Z; m_lat : Z }.

(** struct steadystate_data, steadystate.h:19-47; [s_full] is FIO_SS_BUFFER_FULL. *)
Record ss := mkSS { s_head : Z; s_tail : Z; s_full : bool; s_iops : list Z; s_bw : list Z; s_lat : list Z;
  s_sum_y : Z; s_sum_xy : Z; s_oldest : Z }.
(** Settings: number of intervals, metric, FIO_SS_PCT, limit, sum_x and sum_x_sq. *)
Record cfg := mkCfg { c_n : Z; c_metric : metric; c_pct : bool; c_limit : Q; c_sum_x : Z; c_sum_x_sq : Z }.

(** Signed int arithmetic. *)
Definition s32 (z : Z) : option Z := if (- 2 ^ 31 <=? z) && (z <? 2 ^ 31) then Some z else None.
(** td_steadystate_init, steadystate.c:350-369: the number of intervals (dur in seconds, interval in milliseconds) and the two sums. *)
Definition intervals_of (dur interval : Z) : option Z := if interval / 1000 =? 0 then None else s32 (dur / (interval / 1000)).
Definition init_cfg (n : Z) (m : metric) (pct : bool) (limit : Q) : option cfg :=
  do a <- s32 (n * (n - 1));
  do b <- s32 ((n - 1) * n);
  do t <- s32 (2 * n);
  do u <- s32 (t - 1);
  do c <- s32 (b * u);
  Some (mkCfg n m pct limit (a / 2) (c / 6)).
(** memset in td_steadystate_init and calloc in steadystate_alloc, steadystate.c:19-29. *)
Definition init_ss (n : Z) : ss := mkSS 0 0 false (repeat 0 (Z.to_nat n)) (repeat 0 (Z.to_nat n)) (repeat 0 (Z.to_nat n)) 0 0 0.

(** The array of the metric, and the new value. *)
Definition data (m : metric) (s : ss) : list Z := match m with Iops => s_iops s | Bw => s_bw s | Lat => s_lat s end.
Definition value (m : metric) (x : meas) : Z := match m with Iops => m_iops x | Bw => m_bw x | Lat => m_lat x end.

(** ss->bw_data[ss->tail] = bw; ... steadystate.c:76-78, 160-162. *)
Definition store (s : ss) (x : meas) : option ss :=
  do b <- zupd (s_bw s) (s_tail s) (m_bw x);
  do i <- zupd (s_iops s) (s_tail s) (m_iops x);
  do l <- zupd (s_lat s) (s_tail s) (m_lat x);
  Some (mkSS (s_head s) (s_tail s) (s_full s) i b l (s_sum_y s) (s_sum_xy s) (s_oldest s)).

(** The loops of the first time through, steadystate.c:90-105 and 167-174; [xy] tells whether sum_xy is kept. *)
Fixpoint first_sums (fuel : nat) (i n head : Z) (d : list Z) (sy sxy : Z) : option (Z * Z) :=
  match fuel with
  | O => Some (sy, sxy)
  | S f =>
      do a <- znth d i;
      let j := u32 (head + i) mod n in
      do b <- znth d j;
      first_sums f (i + 1) n head d (u64 (sy + a)) (u64 (sxy + u64 (i * b)))
  end.

Inductive crit := NotYet | Undefined | Crit (q : Q).
Definition attained (c : cfg) (k : crit) : bool := match k with Crit q => negb (Qle_bool (c_limit c) q) | _ => false end.
Definition Qabs_ (q : Q) : Q := if negb (Qle_bool 0 q) then - q else q.

(** tail = (tail + 1) % intervals; if (tail <= head) or (tail == head) head = (head + 1) % intervals. *)
Definition advance (slope : bool) (n : Z) (s : ss) : ss :=
  let tail := u32 (s_tail s + 1) mod n in
  let head := if (if slope then tail <=? s_head s else tail =? s_head s) then u32 (s_head s + 1) mod n else s_head s in
  mkSS head tail (s_full s) (s_iops s) (s_bw s) (s_lat s) (s_sum_y s) (s_sum_xy s) (s_oldest s).

(** The update of the sums, steadystate.c:87-121 and 164-192, when there is a full window. *)
Definition sums (slope : bool) (c : cfg) (s : ss) (x : meas) : option ss :=
  let m := c_metric c in let n := c_n c in
  do r <- (if s_full s then
             let sy := u64 (u64 (s_sum_y s - s_oldest s) + value m x) in
             Some (sy, if slope then u64 (u64 (s_sum_xy s - sy) + u64 (n * value m x)) else s_sum_xy s)
           else do r <- first_sums (Z.to_nat n) 0 n (s_head s) (data m s) 0 (s_sum_xy s); Some (fst r, if slope then snd r else s_sum_xy s));
  do o <- znth (data m s) (s_head s);
  Some (mkSS (s_head s) (s_tail s) true (s_iops s) (s_bw s) (s_lat s) (fst r) (snd r) o).
Definition window_full (n : Z) (s : ss) : bool := s_full s || (u32 (s_tail s - s_head s) =? u32 (n - 1)).

(** The slope and the criterion, steadystate.c:129-134. *)
Definition slope_crit (c : cfg) (sy sxy : Z) : crit :=
  let n := inject_Z (c_n c) in let sx := inject_Z (c_sum_x c) in
  let num := (inject_Z sxy - sx * inject_Z sy / n)%Q in
  let den := (inject_Z (c_sum_x_sq c) - sx * sx / n)%Q in
  if Qeq_bool den 0 then Undefined
  else if c_pct c then
    let mean := sy / c_n c in
    if mean =? 0 then Undefined else Crit (Qabs_ (100 * (num / den) / inject_Z mean))
  else Crit (Qabs_ (num / den)).
(** steadystate_slope, steadystate.c:66-151. *)
Definition slope_step (c : cfg) (s : ss) (x : meas) : option (ss * crit) :=
  do s <- store s x;
  if window_full (c_n c) s then
    do s <- sums true c s x;
    let k := slope_crit c (s_sum_y s) (s_sum_xy s) in
    Some (if attained c k then s else advance true (c_n c) s, k)
  else Some (advance true (c_n c) s, NotYet).

(** The largest deviation, steadystate.c:197-205. *)
Fixpoint max_dev (d : list Z) (mean acc : Q) : Q :=
  match d with
  | [] => acc
  | y :: r => let diff := Qabs_ (inject_Z y - mean) in max_dev r mean (if negb (Qle_bool acc diff) then acc else diff)
  end.
(** steadystate.c:194-210. *)
Definition dev_crit (c : cfg) (d : list Z) (sy : Z) : crit :=
  let mean := (inject_Z sy / inject_Z (c_n c))%Q in
  let dev := max_dev (firstn (Z.to_nat (c_n c)) d) mean 0 in
  if c_pct c then if Qeq_bool mean 0 then Undefined else Crit (100 * dev / mean) else Crit dev.
(** steadystate_deviation, steadystate.c:153-226. *)
Definition dev_step (c : cfg) (s : ss) (x : meas) : option (ss * crit) :=
  do s <- store s x;
  if window_full (c_n c) s then
    do s <- sums false c s x;
    let k := dev_crit c (data (c_metric c) s) (s_sum_y s) in
    Some (if attained c k then s else advance false (c_n c) s, k)
  else Some (advance false (c_n c) s, NotYet).

(** The checks of a run: they end when the state is attained (steadystate.c:251-254, 321-334). The results are oldest first. *)
Fixpoint run (slope : bool) (c : cfg) (s : ss) (xs : list meas) : option (ss * list crit) :=
  match xs with
  | [] => Some (s, [])
  | x :: r =>
      do p <- (if slope then slope_step c s x else dev_step c s x);
      if attained c (snd p) then Some (fst p, [snd p])
      else do q <- run slope c (fst p) r; Some (fst q, snd p :: snd q)
  end.

(** steadystate_data_mean, steadystate.c:391-404. *)
Definition data_mean (n : Z) (d : list Z) : option Z :=
  if n =? 0 then None else do w <- (if n <=? zlen d then Some (firstn (Z.to_nat n) d) else None); Some (fold_left (fun a y => u64 (a + y)) w 0 / n).

(** The rate of one check, steadystate.c:285-290; interval and rate_time in milliseconds. *)
Definition rate (interval rate_time cur prev : Z) : option Z :=
  let d := u32 (interval * interval) / 1000 in
  if d =? 0 then None else Some (u64 (rate_time * u64 (cur - prev)) / d).
