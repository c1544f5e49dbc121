(** Model of the elapsed-time helpers of gettime.c and time.c. *)
From Coq Require Import ZArith List Bool.
From Verif Require Import CBase.
Import ListNotations.
Open Scope Z_scope.

(** struct timespec / struct timeval: seconds and nanoseconds (microseconds); time_t and long are
    64-bit signed. *)
Record ts := mkTs { sec : Z; sub : Z }.

(** Signed 64-bit arithmetic: [None] is signed overflow. *)
Definition s64 (z : Z) : option Z := if (- 2 ^ 63 <=? z) && (z <? 2 ^ 63) then Some z else None.

(** gettime.c:420-438 [ntime_since]. *)
Definition ntime_since (s e : ts) : option Z :=
  do sc <- s64 (sec e - sec s);
  do ns <- s64 (sub e - sub s);
  let '(sc, ns) := if (0 <? sc) && (ns <? 0) then (sc - 1, ns + 1000000000) else (sc, ns) in
  if (sc <? 0) || ((sc =? 0) && (ns <? 0)) then Some 0
  else do m <- s64 (sc * 1000000000); s64 (ns + m).

(** gettime.c:448-466 [utime_since]; C division truncates towards zero. *)
Definition utime_since (s e : ts) : option Z :=
  do sc <- s64 (sec e - sec s);
  do d <- s64 (sub e - sub s);
  let us := Z.quot d 1000 in
  let '(sc, us) := if (0 <? sc) && (us <? 0) then (sc - 1, us + 1000000) else (sc, us) in
  if (sc <? 0) || ((sc =? 0) && (us <? 0)) then Some 0
  else do m <- s64 (sc * 1000000); s64 (us + m).

(** gettime.c:482-499 [mtime_since_tv]; [sub] holds microseconds. *)
Definition mtime_since_tv (s e : ts) : option Z :=
  do sc <- s64 (sec e - sec s);
  do us <- s64 (sub e - sub s);
  let '(sc, us) := if (0 <? sc) && (us <? 0) then (sc - 1, us + 1000000) else (sc, us) in
  if (sc <? 0) || ((sc =? 0) && (us <? 0)) then Some 0
  else do m <- s64 (sc * 1000); s64 (m + Z.quot us 1000).

(** gettime.c:520-533 [rel_time_since]; [None] also stands for the failed assert. *)
Definition rel_time_since (s e : ts) : option Z :=
  do sc <- s64 (sec e - sec s);
  do ns <- s64 (sub e - sub s);
  let '(sc, ns) := if ns <? 0 then (sc - 1, ns + 1000000000) else (sc, ns) in
  if (0 <=? ns) && (ns <? 1000000000)
  then do m <- s64 (sc * 1000); s64 (m + Z.quot ns 1000000)
  else None.

(** gettime.c:539-542 [mtime_since]. *)
Definition mtime_since (s e : ts) : option Z :=
  do r <- rel_time_since s e; Some (Z.max r 0).

(** gettime.c:544-547 [time_since_now] with the current time as an argument. *)
Definition time_since (s now : ts) : option Z :=
  do m <- mtime_since s now; Some (m / 1000).

(** time.c:15-30 [timespec_add_msec]; [msec] is an unsigned int.  adj_nsec and adj_sec are unsigned
    64-bit; tv_nsec += adj_nsec is computed in unsigned arithmetic and converted back. *)
Definition to_s64 (z : Z) : Z := if u64 z <? 2 ^ 63 then u64 z else u64 z - 2 ^ 64.
Definition timespec_add_msec (t : ts) (msec : Z) : option ts :=
  let adj_nsec := u64 (1000000 * msec) in
  let ns := to_s64 (sub t + adj_nsec) in
  let '(ns, sc) :=
    if 1000000000 <=? adj_nsec then
      let adj_sec := adj_nsec / 1000000000 in
      (to_s64 (ns - u64 (adj_sec * 1000000000)), to_s64 (sec t + adj_sec))
    else (ns, sec t) in
  if 1000000000 <=? ns then
    do sc' <- s64 (sc + 1); Some (mkTs sc' (ns - 1000000000))
  else Some (mkTs sc ns).

(** time.c:58-102 [usec_sleep].  One event per loop turn: [Slept n term] is a nanosleep that returned 0
    after which utime_since_now reported [n] microseconds, and td->terminate as read afterwards;
    [SleepErr] is a failing nanosleep; [Spun n]: usec_spin (time.c:35-45) returned [n] (its loop
    ends when n >= usec).  The result is
    the return value and the list of (tv_sec, tv_nsec) requests issued; [None]: the event does not fit
    (a spin was expected, or the events ran out). *)
Inductive sleep_ev := Slept (n : Z) (term : bool) | SleepErr | Spun (n : Z).
Fixpoint usec_sleep (gran usec t : Z) (evs : list sleep_ev) : option (Z * list (Z * Z)) :=
  match evs with
  | [] => None
  | ev :: evs' =>
      if usec <? gran then
        match ev with Spun n => if usec <=? n then Some (u64 (t + n), []) else None | _ => None end
      else
        let ts0 := usec - gran in
        let '(rs, ts1) :=
          if 1000000 <=? ts0 then
            let q := ts0 / 1000000 in
            ((if 1 <? q then 1 else q), ts0 - 1000000 * q)
          else (0, ts0) in
        let req := (rs, ts1 * 1000) in
        match ev with
        | SleepErr => Some (t, [req])
        | Slept n term =>
            let t' := u64 (t + n) in
            if usec <=? n then Some (t', [req])
            else if term then Some (t', [req])
            else match usec_sleep gran (usec - n) t' evs' with
                 | Some (r, reqs) => Some (r, req :: reqs)
                 | None => None
                 end
        | Spun _ => None
        end
  end.
