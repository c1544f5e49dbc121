(** Model of the CPU clock calibration and conversion of gettime.c. *)
From Coq Require Import ZArith List Bool.
From Verif Require Import CBase.
Import ListNotations.
Open Scope Z_scope.

(** gettime.c:313-317 and 332-336: while (tmp > 1) { tmp >>= 1; sft++; }.  [fuel] bounds the number of
    turns; 64 suffice for a 64-bit value. *)
Fixpoint count_shift (fuel : nat) (tmp sft : Z) : option Z :=
  match fuel with
  | O => None
  | S f => if 1 <? tmp then count_shift f (Z.shiftr tmp 1) (sft + 1) else Some sft
  end.

(** gettime.c:12-18: the calibration constants. *)
Record clock := mkClock { clock_mult : Z; clock_shift : Z; max_cycles_shift : Z; max_cycles_mask : Z;
                          nsecs_for_max_cycles : Z; cycles_start : Z }.

(** gettime.c:346-347. *)
Fixpoint mask_loop (n : nat) (mask : Z) : Z :=
  match n with O => mask | S n' => Z.lor (mask_loop n' mask) (u64 (Z.shiftl 1 (Z.of_nat n'))) end.

(** gettime.c:302-355 of [calibrate_cpu_clock], given the measured cycles_per_msec and the counter value
    read at the end.  The measurement itself (256-300, floating point statistics over 50 samples) is not
    modelled: the rate is an arbitrary positive input.  [None] is a division by zero or an oversized
    shift. *)
Definition calibrate (cpm now : Z) : option clock :=
  let max_ticks := u64 (3600 * cpm * 1000) in
  if max_ticks =? 0 then None else
  let max_mult := ones64 / max_ticks in
  if cpm =? 0 then None else
  do sft <- count_shift 65 (u64 (max_mult * cpm) / 1000000) 0;
  if 64 <=? sft then None else
  let mult := u64 (u64 (Z.shiftl 1 sft) * 1000000) / cpm in
  do mcs <- count_shift 65 (u64 (3600 * 1000 * cpm)) 0;
  if 64 <=? mcs then None else
  let nsm := Z.shiftr (u64 (u64 (Z.shiftl 1 mcs) * mult)) sft in
  Some (mkClock mult sft mcs (mask_loop (Z.to_nat mcs) 0) nsm now).

(** gettime.c:179-197 (CS_CPUCLOCK without ARCH_CPU_CLOCK_CYCLES_PER_USEC): nanoseconds since start for
    the counter value [now]; the result is split in seconds and nanoseconds by [clock_ts]. *)
Definition clock_nsecs (c : clock) (now : Z) : Z :=
  let t := u64 (now - cycles_start c) in
  let multiples := Z.shiftr t (max_cycles_shift c) in
  let nsecs := u64 (multiples * nsecs_for_max_cycles c) in
  u64 (nsecs + Z.shiftr (u64 (Z.land t (max_cycles_mask c) * clock_mult c)) (clock_shift c)).
Definition clock_ts (c : clock) (now : Z) : Z * Z :=
  (clock_nsecs c now / 1000000000, clock_nsecs c now mod 1000000000).
