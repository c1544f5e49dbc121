(** Model of the random offset path of io_u.c with a random map: one data direction, uniform
    distribution, 100% random, no zone mode, one block size (min_bs = max_bs = ba).
    [None] is undefined behaviour or a failed assert. *)
From Coq Require Import ZArith List Bool.
From Verif Require Import CBase FloatZ AxmapModel.
Import ListNotations.
Open Scope Z_scope.

(** The parts of struct fio_file (file.h) and struct thread_options used here. *)
Record rfile := mkRFile { rf_offset : Z; rf_io_size : Z; rf_real_size : Z }.
Record ropts := mkROpts { ro_bs : Z; ro_use64 : bool; ro_time_based : bool }.

(** filesetup.c:1604-1613 [init_random_map]: number of blocks of the map and its creation. *)
Definition map_blocks (o : ropts) (f : rfile) : Z :=
  Z.min (rf_real_size f) (rf_io_size f) / ro_bs o.
Definition init_random_map (o : ropts) (f : rfile) : axmap := axmap_new (map_blocks o f).

(** io_u.c:59-84 [last_block] with min_bs = ba and no strided zones. *)
Definition last_block (o : ropts) (f : rfile) : Z :=
  let max_size := if rf_io_size f >? rf_real_size f then rf_real_size f else rf_io_size f in
  max_size / ro_bs o.

(** io_u.c:113-117: "*b = lastb * (r / (rand_max + 1.0))", converted to uint64_t. *)
Definition draw32 (lastb r : Z) : Z := rne53 (rne53 lastb * rne53 r) / 2 ^ 32.
Definition draw64 (lastb r : Z) : Z := rne53 (rne53 lastb * rne53 r) / 2 ^ 64.
Definition draw (o : ropts) (lastb r : Z) : Z :=
  if ro_use64 o then draw64 lastb r else draw32 lastb r.

(** io_u.c:28-31 [random_map_free]. *)
Definition random_map_free (ax : axmap) (block : Z) : option bool :=
  do s <- axmap_isset ax block; Some (negb s).

(** io_u.c:104-148 [__get_next_rand_offset] for the Tausworthe generators with a map; [r] is the value
    returned by __rand.  Inner [None] is "return 1". *)
Definition get_next_rand_offset_raw (o : ropts) (ax : axmap) (lastb r : Z) : option (option Z) :=
  let b := draw o lastb r in
  do fr <- random_map_free ax b;
  if (fr : bool) then Some (Some b)
  else
    do b' <- axmap_next_free ax b;
    if b' =? ones64 then Some None else Some (Some b').

(** io_u.c:328-346 [get_next_rand_offset], uniform distribution. *)
Definition get_next_rand_offset (o : ropts) (f : rfile) (ax : axmap) (r : Z) : option (option Z) :=
  let lastb := last_block o f in
  if lastb =? 0 then Some None else get_next_rand_offset_raw o ax lastb r.

(** io_u.c:381-402 [get_next_rand_block]; [r2] is the draw used by the second attempt.
    fio_file_reset (filesetup.c:2173-2188) resets the map. *)
Definition get_next_rand_block (o : ropts) (f : rfile) (ax : axmap) (r1 r2 : Z)
  : option (axmap * option Z) :=
  do b <- get_next_rand_offset o f ax r1;
  match b with
  | Some b => Some (ax, Some b)
  | None =>
      if ro_time_based o then
        let ax' := axmap_reset ax in
        do b2 <- get_next_rand_offset o f ax' r2; Some (ax', b2)
      else Some (ax, None)
  end.

(** io_u.c:477-544, 553-573 [get_next_block], [get_next_offset], random branch. *)
Definition get_next_offset (o : ropts) (f : rfile) (ax : axmap) (r1 r2 : Z)
  : option (axmap * option Z) :=
  do (ax', b) <- get_next_rand_block o f ax r1 r2;
  match b with
  | None => Some (ax', None)
  | Some b =>
      if b =? ones64 then Some (ax', None) else
      let off := u64 (b * ro_bs o) in
      if off >=? rf_io_size f then Some (ax', None)
      else
        let off' := u64 (off + rf_offset f) in
        if off' >=? rf_real_size f then Some (ax', None) else Some (ax', Some off')
  end.

(** io_u.c:36-57 [mark_random_map]; the io_u is not marked BUSY_OK on this path. *)
Definition mark_random_map (o : ropts) (f : rfile) (ax : axmap) (offset buflen : Z)
  : option (axmap * Z) :=
  let min_bs := ro_bs o in
  let block := u64 (offset - rf_offset f) / min_bs in
  let nr_blocks := u64 (buflen + min_bs - 1) / min_bs in
  if nr_blocks =? 0 then None
  else
    do (ax', nr) <- axmap_set_nr ax block (u32 nr_blocks);
    if nr =? 0 then None
    else Some (ax', if u64 (nr * min_bs) <? buflen then u64 (nr * min_bs) else buflen).

(** What fill_io_u does for one I/O. *)
Inductive filled := Issued (offset len : Z) | NoMore.

(** io_u.c:1078-1156 [fill_io_u] on this path; the block size is fixed, so get_next_buflen
    (io_u.c:638-639) returns it. *)
Definition fill_io_u (o : ropts) (f : rfile) (ax : axmap) (r : Z * Z) : option (axmap * filled) :=
  do (ax', off) <- get_next_offset o f ax (fst r) (snd r);
  match off with
  | None => Some (ax', NoMore)
  | Some off =>
      let buflen := ro_bs o in
      if u64 (off + buflen) >? rf_real_size f then Some (ax', NoMore)
      else
        do (ax2, len) <- mark_random_map o f ax' off buflen;
        Some (ax2, Issued off len)
  end.

(** Repeated fill_io_u calls, one pair of random draws per call. *)
Fixpoint fill_many (o : ropts) (f : rfile) (ax : axmap) (rs : list (Z * Z))
  : option (axmap * list filled) :=
  match rs with
  | [] => Some (ax, [])
  | r :: rest =>
      do (ax1, x) <- fill_io_u o f ax r;
      do (ax2, xs) <- fill_many o f ax1 rest;
      Some (ax2, x :: xs)
  end.
