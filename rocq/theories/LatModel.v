(** Model of the search for the queue depth that meets a latency target: [__lat_target_failed],
    [lat_target_failed], [lat_target_init], [lat_target_reset], [lat_target_success],
    [lat_target_check] and [queue_full] of [io_u.c].

    Simplifications:
    - [io_u_quiesce] waits for the I/Os in flight; their completions are further events, the ones
      during [__lat_target_failed] come after the depth has been changed (io_u.c:1614-1625), so they
      are the same as later ones;
    - statistics other than the number of completed I/Os are left out;
    - [latency_percentile] is a double, [pm] / 2^[pk]. *)
From Coq Require Import ZArith List Lia Bool.
From Verif Require Import CBase FloatZ.
Import ListNotations.
Open Scope Z_scope.

Record cfg := Cfg {
  iodepth : Z;
  latency_run : bool;
  pm : Z; pk : Z              (** [latency_percentile] *)
}.

(** fio.h:436-443. *)
Record st := St {
  qd : Z; high : Z; low : Z;
  stable : Z;                 (** [latency_stable_count] *)
  end_run : bool;
  done : bool;
  blocks : Z;                 (** sum of [io_blocks] *)
  ios : Z;                    (** [latency_ios] *)
  failed : Z
}.

(** io_u.c:1594-1599 [lat_new_cycle]. *)
Definition new_cycle (s : st) : st :=
  St (qd s) (high s) (low s) (stable s) (end_run s) (done s) (blocks s) (blocks s) 0.

(** io_u.c:1605-1627 [__lat_target_failed]: whether to give up. *)
Definition fail (s : st) : bool * st :=
  if qd s =? 1 then (true, s)
  else
    let h := qd s in
    let l := if qd s =? low s then u32 (low s - 1) else low s in
    (false, new_cycle (St (u32 (qd s + l) / 2) h l 0 (end_run s) (done s) (blocks s) (ios s) (failed s))).

(** io_u.c:1631: the percentile is 100. *)
Definition strict (c : cfg) : bool := pm c =? 100 * 2 ^ pk c.

(** io_u.c:1629-1636 [lat_target_failed]. *)
Definition late (c : cfg) (s : st) : bool * st :=
  if strict c then fail s
  else (false, St (qd s) (high s) (low s) (stable s) (end_run s) (done s) (blocks s) (ios s) (u32 (failed s + 1))).

(** io_u.c:1638-1651 [lat_target_init]. *)
Definition init (c : cfg) (s : st) : st :=
  St 1 (iodepth c) 1 (stable s) false (done s) (blocks s) (blocks s) (failed s).

(** io_u.c:1653-1657 [lat_target_reset]. *)
Definition reset (c : cfg) (s : st) : st := if end_run s then s else init c s.

(** libfio.c:154-184 [reset_all_stats], as far as it is visible here. *)
Definition reset_stats (c : cfg) (s : st) : st :=
  reset c (St (qd s) (high s) (low s) (stable s) (end_run s) (done s) 0 (ios s) (failed s)).

(** io_u.c:1659-1714 [lat_target_success]. *)
Definition success (c : cfg) (s : st) : st :=
  let l := qd s in
  let near := u32 (qd s + 1) =? high s in
  let bump := near && (3 <=? stable s + 1) in
  let h := if bump then u32 (high s + 1) else high s in
  let n := if bump then 0 else if near then stable s + 1 else stable s in
  let q := if negb (h =? iodepth c) then u32 (qd s + h) / 2 else u32 (qd s * 2) in
  let q := if iodepth c <? q then iodepth c else q in
  let s1 := St q h l n (end_run s) (done s) (blocks s) (ios s) (failed s) in
  let s2 :=
    if negb (latency_run c) && (q =? qd s) then
      if end_run s then St q h l n true true (blocks s) (ios s) (failed s)
      else reset_stats c (St q h l n true (done s) (blocks s) (ios s) (failed s))
    else s1 in
  new_cycle s2.

(** The quotient of two integers as doubles, as a multiple of a power of two: value [fst] / 2^[snd].
    The integer quotient has at least 55 significant bits, the last bit added stands for the rest. *)
Definition div53 (a b : Z) : Z * Z :=
  if a =? 0 then (0, 0)
  else
    let e := 56 + Z.log2 b - Z.log2 a in
    let x := a * 2 ^ e in
    (rne53 (2 * (x / b) + (if x mod b =? 0 then 0 else 1)), e + 1).

(** io_u.c:1729-1735: whether enough I/Os were in time; a division by zero makes the comparison false. *)
Definition enough (c : cfg) (n f : Z) : bool :=
  if n =? 0 then false
  else
    let (m, e) := div53 (rne53 (u64 (n - f))) (rne53 n) in
    pm c * 2 ^ e <=? rne53 (m * 100) * 2 ^ pk c.

(** io_u.c:1719-1739 [lat_target_check]; [elapsed]: the window is over. *)
Definition check (c : cfg) (s : st) (elapsed : bool) : st :=
  if negb elapsed then s
  else if enough c (u64 (blocks s - ios s)) (failed s) then success c s
  else snd (fail s).

(** io_u.c:1745-1755 [queue_full]; [target]: a latency target is set. *)
Definition queue_full (s : st) (empty target : bool) (cur : Z) : bool :=
  if empty then true else if negb target then false else qd s <=? cur.

(** What happens to a job: an I/O completes (io_u.c:2227-2242, 2115-2118: in time or late), or
    [lat_target_check] is called (backend.c:1395). *)
Inductive event := Complete (islate : bool) | Check (elapsed : bool).

Definition step (c : cfg) (s : st) (e : event) : bool * st :=
  match e with
  | Complete l =>
    let s := St (qd s) (high s) (low s) (stable s) (end_run s) (done s) (blocks s + 1) (ios s) (failed s) in
    if l then late c s else (false, s)
  | Check x => (false, check c s x)
  end.

Definition run (c : cfg) (s : st) (es : list event) : st := fold_left (fun s e => snd (step c s e)) es s.

(** A job starts (backend.c:1167); its memory is zero. *)
Definition start (c : cfg) : st := init c (St 0 0 0 0 false false 0 0 0).
