(** Model of the choice of the data direction: io_u.c:685-708 (set_rwmix_bytes, get_rand_ddir), 740-867 (rate_ddir, get_rw_ddir),
    868-884 (set_rw_ddir), fio.h:658-666 (should_fsync), and the counting of td_io_queue (ioengines.c:334-466). Time is an input of
    each step; io_u_quiesce and the sleep are outside the model. *)
From Coq Require Import ZArith List Bool.
From Verif Require Import CBase FloatZ.
Import ListNotations.
Open Scope Z_scope.

(** enum fio_ddir, io_ddir.h:6-24. *)
Inductive ddir := Rd | Wr | Tr | Sync | Dsync | Sfr | Timeout | Inval.
Definition eqd (a b : ddir) : bool := match a, b with Rd, Rd | Wr, Wr | Tr, Tr | Sync, Sync | Dsync, Dsync | Sfr, Sfr | Timeout, Timeout | Inval, Inval => true | _, _ => false end.
(** ddir_sync, io_ddir.h:67-72. *)
Definition is_sync (d : ddir) : bool := match d with Sync | Dsync | Sfr => true | _ => false end.
(** td_read, td_write, td_trim, rwmix[READ], rwmix[WRITE], fsync_blocks, fdatasync_blocks, sync_file_range_nr, override_sync,
    TD_F_CHECK_RATE. *)
Record opts := mkO { o_r : bool; o_w : bool; o_t : bool; o_pr : Z; o_pw : Z; o_fsync : Z; o_fdatasync : Z; o_sfr : Z; o_override : bool; o_rate : bool; o_timeout : Z }.
Definition td_rw (o : opts) : bool := o_r o && o_w o.
(** io_issues per direction, rwmix_issues, rwmix_ddir, last_ddir_issued. *)
Record st := mkS { n_r : Z; n_w : Z; n_t : Z; s_mix : Z; s_dir : ddir; s_last : ddir }.
Definition init : st := mkS 0 0 0 0 Rd Rd.
Definition issues (s : st) (d : ddir) : Z := match d with Wr => n_w s | Tr => n_t s | _ => n_r s end.
Definition other (d : ddir) : ddir := match d with Rd => Wr | Wr => Rd | Tr => Sync | Sync => Tr | d => d end.
Definition rwmix (o : opts) (d : ddir) : Z := match d with Wr => o_pw o | _ => o_pr o end.

(** rand_between(1, 100) with the 32-bit generator, lib/rand.h:121-150: the product is exact up to 2^53. *)
Definition draw (r : Z) : Z := 1 + rne53 (100 * r) / 2 ^ 32.
(** get_rand_ddir, io_u.c:697-707. *)
Definition get_rand_ddir (o : opts) (r : Z) : ddir := if draw r <=? o_pr o then Rd else Wr.
(** set_rwmix_bytes, io_u.c:683-695. *)
Definition set_rwmix (o : opts) (s : st) : st := mkS (n_r s) (n_w s) (n_t s) (u64 (issues s (s_dir s) * rwmix o (other (s_dir s))) / 100) (s_dir s) (s_last s).
Definition set_dir (s : st) (d : ddir) : st := mkS (n_r s) (n_w s) (n_t s) (s_mix s) d (s_last s).

(** The clock: usec since the epoch before and after the sleep, rate_next_io_time per direction, td->terminate after the sleep. *)
Record clock := mkC { c_now : Z; c_next : ddir -> Z; c_after : Z; c_term : bool }.
(** rate_ddir, io_u.c:740-797; second component: the sleep, if any. *)
Definition rate_ddir (o : opts) (d : ddir) (c : clock) : ddir * option Z :=
  let now := c_now c in
  if c_next c d <=? now then (d, None)
  else
    let sw := td_rw o && negb (rwmix o (other d) =? 0) in
    if sw && (c_next c (other d) <=? now) then (other d, None)
    else
      let d' := if sw && negb (c_next c d <=? c_next c (other d)) then other d else d in
      let usec := c_next c d' - now in
      let go (usec : Z) := (if (negb (o_timeout o =? 0) && (c_after c >? o_timeout o)) || c_term c then Timeout else d', Some usec) in
      if negb (o_timeout o =? 0) && (usec + now >? o_timeout o) then
        if now >? o_timeout o then (Timeout, None) else go (o_timeout o - now)
      else go usec.

(** get_rw_ddir, io_u.c:804-867. *)
Definition due (n w : Z) : bool := negb (n =? 0) && negb (w =? 0) && (w mod n =? 0).
Definition get_rw_ddir (o : opts) (s : st) (r : Z) (c : clock) : st * ddir :=
  let fs := negb (is_sync (s_last s)) && (o_w o || o_override o) && eqd (s_last s) Wr in
  if fs && due (o_fsync o) (n_w s) then (s, Sync)
  else if fs && due (o_fdatasync o) (n_w s) then (s, Dsync)
  else if fs && due (o_sfr o) (n_w s) then (s, Sfr)
  else
    let '(s, d) :=
      if td_rw o then
        let s := if issues s (s_dir s) >=? s_mix s then
                   let d := get_rand_ddir o r in
                   let s := if eqd d (s_dir s) then s else set_rwmix o s in
                   set_dir s d
                 else s in
        (s, s_dir s)
      else (s, if o_r o then Rd else if o_w o then Wr else if o_t o then Tr else Inval) in
    let d := if o_rate o then fst (rate_ddir o d c) else d in
    (set_dir s d, d).

(** td_io_queue, ioengines.c:334-466: [ver] is IO_U_F_VER_LIST, [busy] the answer FIO_Q_BUSY. *)
Definition bump (s : st) (d : ddir) (k : Z) : st :=
  match d with
  | Rd => mkS (u64 (n_r s + k)) (n_w s) (n_t s) (s_mix s) (s_dir s) (s_last s)
  | Wr => mkS (n_r s) (u64 (n_w s + k)) (n_t s) (s_mix s) (s_dir s) (s_last s)
  | Tr => mkS (n_r s) (n_w s) (u64 (n_t s + k)) (s_mix s) (s_dir s) (s_last s)
  | _ => s
  end.
Definition queue (s : st) (d : ddir) (ver busy : bool) : st :=
  let s := if ver then s else bump s d 1 in
  if busy then bump s d (-1) else mkS (n_r s) (n_w s) (n_t s) (s_mix s) (s_dir s) d.

(** One request: the choice (a trim and write workload turns it into the direction its offsets say, [tw]), then the engine answers
    busy some times before it takes it. Or a read from the verify backlog, which is chosen before the direction (io_u.c:1937-1938). *)
Inductive ev := Step (r : Z) (c : clock) (tw : bool) (busy : nat) | Backlog (busy : nat).
Fixpoint offer (s : st) (d : ddir) (ver : bool) (busy : nat) : st := match busy with O => queue s d ver false | S b => offer (queue s d ver true) d ver b end.
Definition step (o : opts) (s : st) (e : ev) : st * option ddir :=
  match e with
  | Step r c tw busy =>
      let '(s, d) := get_rw_ddir o s r c in
      let d := if o_t o && o_w o && negb (is_sync d) then (if tw then Tr else Wr) else d in
      match d with Timeout | Inval => (s, None) | _ => (offer s d false busy, Some d) end
  | Backlog busy => (offer s Rd true busy, Some Rd)
  end.
(** The job ends at the first request without a direction. *)
Fixpoint run (o : opts) (s : st) (es : list ev) : st * list ddir :=
  match es with
  | [] => (s, [])
  | e :: es => match step o s e with (s, Some d) => let '(s, xs) := run o s es in (s, d :: xs) | (s, None) => (s, []) end
  end.
