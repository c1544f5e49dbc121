(** Model of the choice of file offsets: io_u.c:59-84, 381-604, 977-1018, 1078-1156 (last_block, get_next_rand_block,
    get_next_seq_offset, get_next_block, get_next_offset, setup_strided_zone_mode, fill_io_u) with the bookkeeping of get_io_u
    (io_u.c:1977-1978), set_rw_ddir (io_u.c:876-882) and fio_file_reset (filesetup.c:2173-2188). One file; no zbd zones, no multi range
    trims. The generators of random blocks, should_do_random and the random map are inputs of each step, so that the theorems hold
    for every distribution; sizes are chosen by BuflenModel. *)
From Coq Require Import ZArith List Bool.
From Verif Require Import CBase BuflenModel.
Import ListNotations.
Open Scope Z_scope.

Inductive dir := DR | DW | DT.
Definition dir_eqb (a b : dir) : bool := match a, b with DR, DR | DW, DW | DT, DT => true | _, _ => false end.
Definition set {A} (f : dir -> A) (d : dir) (v : A) : dir -> A := fun d' => if dir_eqb d d' then v else f d'.

(** The options: sizes and blockalign per direction, td_random, ddir_seq_nr, ddir_seq_add, rw_seq == RW_SEQ_IDENT, time_based,
    nr_files == 1, td_write && io_size > size, __FIO_FSERVICE_NONUNIFORM, bs_is_seq_rand, td_trimwrite, td_randtrimwrite, the zone
    range, size and skip of strided mode, get_start_offset; and the file's io_size and real_file_size. *)
Record opts := mkO { o_b : dir -> bopts; o_ba : dir -> Z; o_random : bool; o_seq_nr : Z; o_seq_add : Z; o_ident : bool; o_time_based : bool;
  o_one_file : bool; o_overlap : bool; o_nonuniform : bool; o_seq_rand : bool; o_tw : bool; o_rtw : bool; o_zone : option (Z * Z * Z); o_start : Z; f_io : Z; f_real : Z }.
(** file_offset, last_pos, last_start, td->ddir_seq_nr, td->zone_bytes. *)
Record st := mkS { s_fo : Z; s_pos : dir -> Z; s_start : dir -> Z; s_nr : Z; s_zb : Z }.
Definition ones : Z := 2 ^ 64 - 1.
Definition set_pos (s : st) (d : dir) (v : Z) : st := mkS (s_fo s) (set (s_pos s) d v) (s_start s) (s_nr s) (s_zb s).
Definition set_nr (s : st) (n : Z) : st := mkS (s_fo s) (s_pos s) (s_start s) n (s_zb s).
(** fio_file_reset, filesetup.c:2173-2181. *)
Definition file_reset (s : st) : st := mkS (s_fo s) (fun _ => s_fo s) (fun _ => ones) (s_nr s) (s_zb s).
Definition init (o : opts) : st := mkS (o_start o) (fun _ => o_start o) (fun _ => ones) (o_seq_nr o) 0.

(** last_block, io_u.c:59-84. *)
Definition last_block (o : opts) (d : dir) : Z :=
  let m := if f_io o >? f_real o then f_real o else f_io o in
  let m := match o_zone o with Some (range, _, _) => if range =? 0 then m else range | None => m end in
  let m := if b_min (o_b o d) >? o_ba o d then u64 (m - (b_min (o_b o d) - o_ba o d)) else m in
  m / o_ba o d.

(** get_next_rand_block, io_u.c:381-402: two attempts, the second after a reset. *)
Definition rand_block (o : opts) (s : st) (b1 b2 : option Z) : st * option Z :=
  match b1 with
  | Some b => (s, Some b)
  | None => if o_time_based o || o_nonuniform o then (file_reset s, b2) else (s, None)
  end.
(** get_next_seq_offset, io_u.c:404-475. *)
Definition seq_offset (o : opts) (s : st) (d : dir) : st * option Z :=
  let s := if (s_pos s d >=? u64 (f_io o + o_start o)) && o_time_based o && o_one_file o then set_pos s d (s_fo s) else s in
  let s := if o_overlap o then (if s_pos s d >=? u64 (f_io o + o_start o) then set_pos s d (s_fo s) else s) else s in
  if s_pos s d <? f_real o then
    let s := if (s_pos s d =? s_fo s) && negb (s_fo s =? 0) && (o_seq_add o <? 0)
             then set_pos s d (if f_real o >? f_io o then f_io o else f_real o) else s in
    let pos := u64 (s_pos s d - s_fo s) in
    let pos := if negb (pos =? 0) && negb (o_seq_add o =? 0) then
                 let pos := u64 (pos + o_seq_add o) in
                 if pos >=? f_real o then
                   if o_seq_add o >? 0 then s_fo s
                   else u64 ((if f_real o >? f_io o then f_io o else f_real o) + o_seq_add o)
                 else pos
               else pos in
    (s, Some pos)
  else (s, None).

(** The inputs of one step: the direction chosen by get_rw_ddir, should_do_random, the blocks of two attempts of the generator, the
    draws for the size, and the number of free blocks found by the random map (None: no map). *)
Record inp := mkI { i_dir : dir; i_rand : bool; i_b1 : option Z; i_b2 : option Z; i_draws : list Z; i_mark : option Z }.
(** get_next_block, io_u.c:477-544. Result: the relative offset, is_random, IO_U_F_BUSY_OK. *)
Definition pick (o : opts) (d : dir) (offset b : option Z) : option Z :=
  match offset with
  | Some x => if x =? ones then match b with Some y => if y =? ones then None else Some (u64 (y * o_ba o d)) | None => None end else Some x
  | None => match b with Some y => if y =? ones then None else Some (u64 (y * o_ba o d)) | None => None end
  end.
Definition next_block (o : opts) (s : st) (d : dir) (i : inp) (hit : bool) : st * option (Z * bool * bool) :=
  let fin (r : st * option Z * option Z) (israndom busy : bool) :=
    let '(s, off, b) := r in (s, match pick o d off b with Some x => Some (x, israndom, busy) | None => None end) in
  if o_rtw o && dir_eqb d DW then fin (s, Some (u64 (s_start s DT - s_fo s)), None) true true
  else if hit then
    if o_random o then
      if i_rand i then let '(s, b) := rand_block o s (i_b1 i) (i_b2 i) in fin (s, None, b) true false
      else let '(s, off) := seq_offset o s d in
           match off with Some _ => fin (s, off, None) false true | None => let '(s, b) := rand_block o s (i_b1 i) (i_b2 i) in fin (s, None, b) false true end
    else let '(s, off) := seq_offset o s d in fin (s, off, None) false false
  else if o_ident o then fin (s, Some (if s_start s d =? ones then 0 else u64 (s_start s d - s_fo s)), None) false true
  else let '(s, off) := seq_offset o s d in
       match off with Some _ => fin (s, off, None) false true | None => let '(s, b) := rand_block o s (i_b1 i) (i_b2 i) in fin (s, None, b) false true end.
(** get_next_offset, io_u.c:553-604. *)
Definition next_offset (o : opts) (s : st) (d : dir) (i : inp) : st * option (Z * bool * bool) :=
  let '(s, hit) := if o_seq_nr o =? 0 then (s, false) else let n := s_nr s - 1 in if n =? 0 then (set_nr s (o_seq_nr o), true) else (set_nr s n, false) in
  match next_block o s d i hit with
  | (s, None) => (s, None)
  | (s, Some (off, r, busy)) =>
      if off >=? f_io o then (s, None)
      else
        let off := u64 (off + s_fo s) in
        if off >=? f_real o then (s, None)
        else
          let s := if o_rtw o && dir_eqb d DT && (s_start s DT =? off) then mkS (s_fo s) (s_pos s) (set (s_start s) DW (u64 (s_start s DW - 1))) (s_nr s) (s_zb s) else s in
          (s, Some (off, r, busy))
  end.
(** setup_strided_zone_mode, io_u.c:977-1018. *)
Definition zone_setup (o : opts) (s : st) (d : dir) : st :=
  match o_zone o with
  | None => s
  | Some (range, size, skip) =>
      let s := if s_zb s >=? size then
                 let fo := u64 (s_fo s + range + skip) in
                 let fo := if fo >=? f_real o then o_start o else fo in
                 mkS fo (set (s_pos s) d fo) (s_start s) (s_nr s) 0
               else s in
      let s := if s_pos s d >=? u64 (s_fo s + range) then set_pos s d (s_fo s) else s in
      if s_zb s mod range =? 0 then file_reset s else s
  end.
(** get_next_buflen with its direction, io_u.c:625-636. *)
Definition next_buflen (o : opts) (s : st) (d : dir) (i : inp) (off : Z) (israndom : bool) : option Z :=
  if o_rtw o && dir_eqb d DW then Some (u64 (s_pos s DT - s_start s DT))
  else get_next_buflen (o_b o (if o_seq_rand o then (if israndom then DW else DR) else d)) off (u64 (f_io o + o_start o)) (i_draws i).
(** mark_random_map, io_u.c:36-57, as far as the size is concerned. *)
Definition mark (o : opts) (d : dir) (i : inp) (busy : bool) (len : Z) : Z :=
  if o_random o && negb busy then match i_mark i with Some nr => if u64 (nr * b_min (o_b o d)) <? len then u64 (nr * b_min (o_b o d)) else len | None => len end else len.

Inductive out := Issued (d : dir) (fo off len : Z) | NoMore.
(** set_rw_ddir, io_u.c:876-882, for a trim and write workload. *)
Definition the_dir (o : opts) (s : st) (i : inp) : dir := if o_tw o then (if s_start s DW =? s_start s DT then DT else DW) else i_dir i.
(** fill_io_u, io_u.c:1078-1156, and get_io_u, io_u.c:1977-1978; when it fails, the file is closed and reset (io_u.c:1543-1575,
    ioengines.c:557). [None]: the draws given do not end the loop of get_next_buflen. *)
Definition fill (o : opts) (s : st) (i : inp) : option (st * out) :=
  let d := the_dir o s i in
  let s := zone_setup o s d in
  match next_offset o s d i with
  | (s, None) => Some (file_reset s, NoMore)
  | (s, Some (off, r, busy)) =>
      do len <- next_buflen o s d i off r;
      if len =? 0 then Some (file_reset s, NoMore)
      else if u64 (off + len) >? f_real o then Some (file_reset s, NoMore)
      else let len := mark o d i busy len in
           Some (mkS (s_fo s) (set (s_pos s) d (u64 (off + len))) (set (s_start s) d off) (s_nr s) (s_zb s + len), Issued d (s_fo s) off len)
  end.
Fixpoint run (o : opts) (s : st) (is : list inp) : option (st * list out) :=
  match is with
  | [] => Some (s, [])
  | i :: is => do (s, x) <- fill o s i; do (s, xs) <- run o s is; Some (s, x :: xs)
  end.
