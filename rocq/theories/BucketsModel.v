(** Model of the latency, depth, submit and complete distributions: io_u.c:1158-1370, their use in ioengines.c:326, 438-463, 505-525 and
    io_u.c:2127-2130, the percentages of stat.c:395-463 and the merge of stat.c:2385-2396. Counters are 64-bit words; [None] is a
    failed assert or an access outside an array. *)
From Coq Require Import ZArith List Bool QArith.
From Verif Require Import CBase.
Import ListNotations.
Open Scope Z_scope.

(** case lo ... hi *)
Definition within (lo hi x : Z) : bool := (lo <=? x) && (x <=? hi).

(** The parts of struct thread_stat and thread_data: io_u_lat_n/u/m, io_u_map, io_u_submit, io_u_complete, total_submit, total_complete,
    total_io_u of reads, writes and trims together and of syncs, io_u_queued. *)
Record st := mkSt { lat_n : list Z; lat_u : list Z; lat_m : list Z; dmap : list Z; smap : list Z; cmap : list Z;
  total_submit : Z; total_complete : Z; total_rw : Z; total_sync : Z; queued : Z }.
Definition bump (l : list Z) (i nr : Z) : option (list Z) := do v <- znth l i; zupd l i (u64 (v + nr)).

(** The switch of io_u_mark_lat_nsec and io_u_mark_lat_usec, io_u.c:1236-1266, 1278-1308. A value in no case leaves idx at 0. *)
Definition lat_idx (x : Z) : Z :=
  if within 750 999 x then 9 else if within 500 749 x then 8 else if within 250 499 x then 7 else if within 100 249 x then 6
  else if within 50 99 x then 5 else if within 20 49 x then 4 else if within 10 19 x then 3 else if within 4 9 x then 2
  else if within 2 3 x then 1 else 0.
(** The switch of io_u_mark_lat_msec, io_u.c:1320-1356, with its default. *)
Definition msec_idx (x : Z) : Z :=
  if within 1000 1999 x then 10 else if within 750 999 x then 9 else if within 500 749 x then 8 else if within 250 499 x then 7
  else if within 100 249 x then 6 else if within 50 99 x then 5 else if within 20 49 x then 4 else if within 10 19 x then 3
  else if within 4 9 x then 2 else if within 2 3 x then 1 else if within 0 1 x then 0 else 11.
(** io_u_mark_lat_nsec, io_u.c:1230-1270. *)
Definition mark_lat_nsec (s : st) (nsec : Z) : option st :=
  if nsec <? 1000 then
    let idx := lat_idx nsec in
    if idx <? 10 then do l <- bump (lat_n s) idx 1; Some (mkSt l (lat_u s) (lat_m s) (dmap s) (smap s) (cmap s) (total_submit s) (total_complete s) (total_rw s) (total_sync s) (queued s)) else None
  else None.
(** io_u_mark_lat_usec, io_u.c:1272-1312. *)
Definition mark_lat_usec (s : st) (usec : Z) : option st :=
  if (usec <? 1000) && (1 <=? usec) then
    let idx := lat_idx usec in
    if idx <? 10 then do l <- bump (lat_u s) idx 1; Some (mkSt (lat_n s) l (lat_m s) (dmap s) (smap s) (cmap s) (total_submit s) (total_complete s) (total_rw s) (total_sync s) (queued s)) else None
  else None.
(** io_u_mark_lat_msec, io_u.c:1314-1360. *)
Definition mark_lat_msec (s : st) (msec : Z) : option st :=
  if 1 <=? msec then
    let idx := msec_idx msec in
    if idx <? 12 then do l <- bump (lat_m s) idx 1; Some (mkSt (lat_n s) (lat_u s) l (dmap s) (smap s) (cmap s) (total_submit s) (total_complete s) (total_rw s) (total_sync s) (queued s)) else None
  else None.
(** io_u_mark_latency, io_u.c:1362-1370. *)
Definition mark_latency (s : st) (nsec : Z) : option st :=
  if nsec <? 1000 then mark_lat_nsec s nsec else if nsec <? 1000000 then mark_lat_usec s (nsec / 1000) else mark_lat_msec s (nsec / 1000000).

(** __io_u_mark_map, io_u.c:1158-1186. *)
Definition map_idx (nr : Z) : Z :=
  if within 33 64 nr then 5 else if within 17 32 nr then 4 else if within 9 16 nr then 3 else if within 5 8 nr then 2
  else if within 1 4 nr then 1 else if nr =? 0 then 0 else 6.
(** io_u_mark_submit and io_u_mark_complete, io_u.c:1188-1198. *)
Definition mark_submit (s : st) (nr : Z) : option st :=
  do l <- bump (smap s) (map_idx nr) 1;
  Some (mkSt (lat_n s) (lat_u s) (lat_m s) (dmap s) l (cmap s) (u64 (total_submit s + 1)) (total_complete s) (total_rw s) (total_sync s) (queued s)).
Definition mark_complete (s : st) (nr : Z) : option st :=
  do l <- bump (cmap s) (map_idx nr) 1;
  Some (mkSt (lat_n s) (lat_u s) (lat_m s) (dmap s) (smap s) l (total_submit s) (u64 (total_complete s + 1)) (total_rw s) (total_sync s) (queued s)).
(** io_u_mark_depth, io_u.c:1200-1228: the switch is on td->cur_depth. *)
Definition depth_idx (d : Z) : Z :=
  if within 32 63 d then 5 else if within 16 31 d then 4 else if within 8 15 d then 3 else if within 4 7 d then 2
  else if within 2 3 d then 1 else if d =? 1 then 0 else 6.
Definition mark_depth (s : st) (depth nr : Z) : option st :=
  do l <- bump (dmap s) (depth_idx depth) nr;
  Some (mkSt (lat_n s) (lat_u s) (lat_m s) l (smap s) (cmap s) (total_submit s) (total_complete s) (total_rw s) (total_sync s) (queued s)).

Inductive dir := Rw | Sync.
(** total_io_u[ddir]++ under the conditions of ioengines.c:444-450, 456-459: a sync counts unless the job is in TD_FSYNCING. *)
Definition counts (d : dir) (fsyncing : bool) : bool := match d with Rw => true | Sync => negb fsyncing end.
Definition add_total (s : st) (d : dir) : st :=
  mkSt (lat_n s) (lat_u s) (lat_m s) (dmap s) (smap s) (cmap s) (total_submit s) (total_complete s)
    (match d with Rw => u64 (total_rw s + 1) | Sync => total_rw s end) (match d with Sync => u64 (total_sync s + 1) | Rw => total_sync s end) (queued s).
Definition set_queued (s : st) (q : Z) : st :=
  mkSt (lat_n s) (lat_u s) (lat_m s) (dmap s) (smap s) (cmap s) (total_submit s) (total_complete s) (total_rw s) (total_sync s) q.
(** td_io_commit, ioengines.c:505-525: cur_depth and io_u_queued are unsigned ints. *)
Definition commit (s : st) (depth : Z) : option st :=
  if (depth =? 0) || (queued s =? 0) then Some s else do s <- mark_depth s depth (queued s); Some (set_queued s 0).
(** The accounting of td_io_queue after the engine returned, ioengines.c:438-466. [nocommit]: the engine has no commit hook. *)
Definition queue_completed (s : st) (nocommit : bool) (d : dir) (fsyncing : bool) (depth : Z) : option st :=
  do s <- (if nocommit then do s <- mark_submit s 1; mark_complete s 1 else Some s);
  if counts d fsyncing then do s <- mark_depth s depth 1; Some (add_total s d) else Some s.
Definition queue_queued (s : st) (nocommit : bool) (d : dir) (fsyncing : bool) (depth batch : Z) : option st :=
  do s <- (if nocommit then do s <- mark_submit s 1; mark_complete s 1 else Some s);
  let s := set_queued s (u32 (queued s + 1)) in
  let s := if counts d fsyncing then add_total s d else s in
  if batch <=? queued s then commit s depth else Some s.

(** What happens to the statistics of a job: an I/O completes with a latency, an I/O is handed to the engine, a commit, the
    engine reports a submission or completions (ioengines.c:326). *)
Inductive ev := ELat (nsec : Z) | EDone (nocommit : bool) (d : dir) (fsyncing : bool) (depth : Z) |
  EQueued (nocommit : bool) (d : dir) (fsyncing : bool) (depth batch : Z) | ECommit (depth : Z) | ESubmit (nr : Z) | EComplete (nr : Z).
Definition step (s : st) (e : ev) : option st :=
  match e with
  | ELat n => mark_latency s n
  | EDone c d f depth => queue_completed s c d f depth
  | EQueued c d f depth b => queue_queued s c d f depth b
  | ECommit depth => commit s depth
  | ESubmit nr => mark_submit s nr
  | EComplete nr => mark_complete s nr
  end.
Fixpoint run (s : st) (es : list ev) : option st := match es with [] => Some s | e :: r => do s <- step s e; run s r end.
Definition zeros (n : nat) : list Z := repeat 0 n.
Definition init : st := mkSt (zeros 10) (zeros 10) (zeros 12) (zeros 7) (zeros 7) (zeros 7) 0 0 0 0 0.

(** sum_thread_stats, stat.c:2385-2396. *)
Fixpoint add_arrays (a b : list Z) : list Z := match a, b with x :: a, y :: b => u64 (x + y) :: add_arrays a b | _, _ => [] end.

(** stat_calc_dist, stat.c:395-411, and stat_calc_lat, stat.c:413-431, over rationals; [None] is a NaN. [least] is 0.1 or 0.01. *)
Definition percent (least : Q) (total : Z) (v : Z) : Q :=
  if total =? 0 then 0 else
  let p := (inject_Z v / inject_Z total * 100)%Q in if negb (Qle_bool least p) && negb (v =? 0) then least else p.
Definition calc_dist (map : list Z) (total : Z) : list Q := List.map (percent (1 # 10) total) map.
Definition calc_lat (src : list Z) (total : Z) : list Q := List.map (percent (1 # 100) total) src.
(** stat_calc_lat_nu, stat.c:437-448: the first usec entry of the terse output. *)
Definition terse_first (s : st) : option Q :=
  let total := total_rw s in
  let ntotal := fold_left (fun a v => u64 (a + v)) (lat_n s) 0 in
  do u <- znth (lat_u s) 0;
  if total =? 0 then None else Some (percent (1 # 100) total u + 100 * inject_Z ntotal / inject_Z total)%Q.
