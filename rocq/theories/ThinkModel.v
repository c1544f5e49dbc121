(** Model of thinktime: backend.c:904-1010 [handle_thinktime], libfio.c:137-150 [update_thinktime_blocks_counter] and time.c:32-100.

    Simplifications:
    - times are microseconds since the epoch of the job (utime_since is C15);
    - one data direction; thinktime_blocks_counter is the sum over all (io_ddir.h:88-89);
    - what the clock, the scheduler and the device do is given by an event for each call. *)
From Coq Require Import ZArith List Bool.
From Verif Require Import CBase.
Import ListNotations.
Open Scope Z_scope.

Definition i32 (x : Z) : Z := let y := u32 x in if y <? 2 ^ 31 then y else y - 2 ^ 32.
Definition i64 (x : Z) : Z := let y := u64 x in if y <? 2 ^ 63 then y else y - 2 ^ 64.

(** thread_options.h:330-334, 220; rate_bps, min_bs and rate_ign_think. *)
Record topts := Topts { thinktime : Z; spin : Z; blocks : Z; blocks_set : bool; iotime : Z; timeout : Z; rate : Z; bs : Z; ign : bool }.
(** fio.h:413-414, 362-364. *)
Record tstate := TState { last_blocks : Z; last_time : Z; issue_bytes : Z; last_usec : Z }.
(** What a call sees: the blocks so far, the time at its start, the time before spinning, what [usec_spin] returns, the time before
    sleeping, what [usec_sleep] returns, and the time at the end. *)
Record seen := Seen { cnt : Z; t_start : Z; t_spin : Z; spun : Z; t_sleep : Z; slept : Z; t_end : Z }.
(** What a call does: how long it asks [usec_spin] and [usec_sleep] to wait. *)
Record wait := Wait { spin_for : Z; sleep_for : Z }.

(** gettime.c:448-466. *)
Definition since (a b : Z) : Z := if b <? a then 0 else b - a.
(** backend.c:924-945. *)
Definition stalls (o : topts) (s : tstate) (e : seen) : bool :=
  if negb (iotime o =? 0) && (iotime o <=? since (last_time s) (t_start e)) then true
  else if negb (iotime o =? 0) && negb (blocks_set o) then false
  else u64 (last_blocks s + blocks o) <=? cnt e.
(** backend.c:950-954, 972-976. *)
Definition limit (o : topts) (left now : Z) : Z :=
  if timeout o =? 0 then left
  else let runtime_left := u64 (timeout o - now) in if runtime_left <? u64 left then i32 runtime_left else left.
(** backend.c:984-998. *)
Definition account (o : topts) (s : tstate) (total : Z) : Z * Z :=
  if negb (total =? 0) && negb (rate o =? 0) && ign o then
    let missed := u64 (rate o * total) / 1000000 in
    let usperop := u64 (bs o * 1000000) / rate o in
    let over := if usperop <=? total then bs o else u64 ((usperop - total) / usperop * u64 (- bs o)) in
    (u64 (issue_bytes s + u64 (missed - over)), i64 (last_usec s + total))
  else (issue_bytes s, last_usec s).
(** backend.c:914-1010. *)
Definition handle (o : topts) (s : tstate) (e : seen) : tstate * option wait :=
  if stalls o s e then
    let left1 := limit o (i32 (spin o)) (t_spin e) in
    let total := if left1 =? 0 then 0 else spun e in
    let left := if total <? thinktime o then i32 (u64 (thinktime o - total)) else 0 in
    let left2 := limit o left (t_sleep e) in
    let total := if left2 =? 0 then total else u64 (total + slept e) in
    let '(bytes, usec) := account o s total in
    (TState (i64 (cnt e)) (if iotime o =? 0 then last_time s else t_end e) bytes usec, Some (Wait (u32 left1) (u64 left2)))
  else (s, None).
(** libfio.c:137-150, 174: the counters are set to 0 after it. *)
Definition reset (s : tstate) (b : Z) : tstate := TState (i64 (last_blocks s - b)) 0 0 0.

(** Calls one after the other: what they do. *)
Fixpoint calls (o : topts) (s : tstate) (l : list seen) : tstate * list (option wait) :=
  match l with
  | [] => (s, [])
  | e :: l' => let '(s1, w) := handle o s e in let '(s2, ws) := calls o s1 l' in (s2, w :: ws)
  end.

(** time.c:32-45 [usec_spin], with the times that it reads since its start; [None]: it is still spinning. *)
Fixpoint uspin (usec : Z) (l : list Z) : option Z := match l with [] => None | t :: l' => if t <? usec then uspin usec l' else Some t end.
(** time.c:58-100 [usec_sleep]. What nanosleep does: it fails, or the time it took and if the job is terminated then. *)
Inductive nap := Fails | Took (usec : Z) (terminate : bool).
(** tv_sec and tv_nsec of a request. *)
Definition request (ts : Z) : Z * Z :=
  if 1000000 <=? ts then let sec := ts / 1000000 in (Z.min sec 1, (ts - 1000000 * sec) * 1000) else (0, ts * 1000).
(** Why it ends. *)
Inductive why := Spun | Slept | Failed | Terminated.
(** [reads] is for [usec_spin] at the end; [None]: it is still waiting. *)
Fixpoint usleep (gran usec t : Z) (reads : list Z) (l : list nap) : list (Z * Z) * option (Z * why) :=
  if usec <? gran then ([], do x <- uspin usec reads; Some (u64 (t + x), Spun))
  else match l with
  | [] => ([], None)
  | Fails :: _ => ([request (usec - gran)], Some (t, Failed))
  | Took d term :: l' =>
    if usec <=? d then ([request (usec - gran)], Some (u64 (t + d), Slept))
    else if term then ([request (usec - gran)], Some (u64 (t + d), Terminated))
    else let '(rs, r) := usleep gran (usec - d) (u64 (t + d)) reads l' in (request (usec - gran) :: rs, r)
  end.
