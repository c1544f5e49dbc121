(** Model of the verify state of verify.c and verify-state.h: what is saved when a job stops or a trigger fires, how it is
    loaded, and how the loaded state decides which writes are verified. Little-endian machine. [None] is an access outside
    a buffer or an assertion. Files are byte lists; a file system maps names to files. Simplifications: open, write and
    malloc succeed; read and write transfer all bytes there are. *)
From Coq Require Import ZArith List Bool.
From Verif Require Import CBase Mem CStr CrcModel DigestModel VerifyModel.
Import ListNotations.
Open Scope Z_scope.

(** verify-state.h:44, 105. *)
Definition VSTATE_HDR_VERSION := 7.
Definition INVALID_NUMBERIO := 2 ^ 64 - 1.
(** sizeof(struct thread_io_list), verify-state.h:30-37: depth at 0, numberio at 8, index at 16, rand.use64 at 24, the union of
    the generator states at 32, name at 80, inflight at 144. *)
Definition TIL := 144.

(** struct frand_state, lib/rand.h:11-26. *)
Inductive rstate := R32 (s1 s2 s3 : Z) | R64 (s1 s2 s3 s4 s5 : Z).

(** The fields of struct thread_data read when the state is saved. [j_inflight] is td->inflight_numberio ([None] for NULL),
    [j_failed] the first failed_numberio_count entries of td->failed_numberio. *)
Record job := mkJob { j_name : list Z; j_iodepth : Z; j_nr_files : Z; j_inflight : option (list Z); j_issued : Z; j_safe : Z;
  j_fsynced : bool; j_failed : list Z; j_rand : rstate }.

(** for (i...) s->inflight[i].numberio = ...; stores of successive 64-bit words. *)
Fixpoint put64s (buf : list Z) (p : Z) (vs : list Z) : option (list Z) :=
  match vs with [] => Some buf | v :: r => do b <- wr buf p (le_bytes 8 v); put64s b (p + 8) r end.
Fixpoint put32s (buf : list Z) (p : Z) (vs : list Z) : option (list Z) :=
  match vs with [] => Some buf | v :: r => do b <- wr buf p (le_bytes 4 v); put32s b (p + 4) r end.

(** The number of entries of the list, verify.c:1737. *)
Definition total_depth (j : job) : Z := u32 (j_iodepth j + zlen (j_failed j)).
(** __thread_io_list_sz, verify-state.h:65-68. *)
Definition til_sz (depth : Z) : Z := TIL + depth * 8.

(** verify.c:1715-1728. *)
Definition limit (j : job) : Z :=
  if j_fsynced j then if negb (j_safe j =? 0) then j_safe j - 1 else 0 else j_issued j.

(** The body of the second loop of get_all_io_list, verify.c:1692-1756, for the job with number [idx], at address [p]. *)
Definition fill_state (buf : list Z) (p : Z) (idx : Z) (j : job) : option (list Z) :=
  do buf <- (match j_inflight j with
             | None => Some buf
             | Some l => do l <- slice l 0 (Z.to_nat (j_iodepth j)); put64s buf (p + 144) l
             end);
  do buf <- wr buf (p + 8) (le_bytes 8 (limit j));
  do buf <- put64s buf (p + 144 + 8 * j_iodepth j) (j_failed j);
  do buf <- wr buf p (le_bytes 4 (total_depth j));
  do buf <- wr buf (p + 16) (le_bytes 8 idx);
  do buf <- (match j_rand j with
             | R64 a b c d e => do buf <- put64s buf (p + 32) [a; b; c; d; e; 0]; wr buf (p + 24) (le_bytes 8 1)
             | R32 a b c => do buf <- put32s buf (p + 32) [a; b; c; 0]; wr buf (p + 24) (le_bytes 8 0)
             end);
  wr buf (p + 80) (firstn 63 (j_name j) ++ [0]).

(** save_mask == IO_LIST_ALL || __td_index + 1 == save_mask; [None] for IO_LIST_ALL. *)
Definition selected (mask : option Z) (idx : Z) : bool := match mask with None => true | Some m => idx + 1 =? m end.

(** The size of the reply, verify.c:1671-1686. *)
Fixpoint reply_sz (mask : option Z) (idx : Z) (js : list job) : Z :=
  match js with
  | [] => 0
  | j :: r => (if selected mask idx then TIL + 8 * u32 (u32 (j_iodepth j + zlen (j_failed j)) * j_nr_files j) else 0) + reply_sz mask (idx + 1) r
  end.
Fixpoint nr_selected (mask : option Z) (idx : Z) (js : list job) : Z :=
  match js with [] => 0 | j :: r => (if selected mask idx then 1 else 0) + nr_selected mask (idx + 1) r end.

(** verify.c:1691-1757. *)
Fixpoint fill_all (mask : option Z) (idx : Z) (js : list job) (buf : list Z) (p : Z) : option (list Z) :=
  match js with
  | [] => Some buf
  | j :: r =>
      if selected mask idx then do buf <- fill_state buf p idx j; fill_all mask (idx + 1) r buf (p + til_sz (total_depth j))
      else fill_all mask (idx + 1) r buf p
  end.
(** get_all_io_list, verify.c:1656-1760. The inner [None] is the NULL returned when no job is selected. *)
Definition get_all_io_list (mask : option Z) (js : list job) : option (option (list Z)) :=
  let nr := nr_selected mask 0 js in
  if nr =? 0 then Some None
  else
    do buf <- wr (repeat 0 (Z.to_nat (8 + reply_sz mask 0 js))) 0 (le_bytes 8 nr);
    do buf <- fill_all mask 0 js buf 8; Some (Some buf).

(** A NUL-terminated string in memory; [None] if there is no NUL. *)
Fixpoint cstr (b : list Z) : option (list Z) :=
  match b with [] => None | c :: r => if c =? 0 then Some [] else do s <- cstr r; Some (c :: s) end.

(** "-verify.state". *)
Definition suffix : list Z := [45; 118; 101; 114; 105; 102; 121; 46; 115; 116; 97; 116; 101].
(** verify_state_gen_name, verify-state.h:80-103; PATH_MAX is 4096. *)
Definition gen_name (name prefix : list Z) (num : Z) : option (list Z) :=
  if zlen name <? 4096 then
    Some (firstn 4095 (prefix ++ [45] ++ map (fun c => if c =? 47 then 46 else c) name ++ [45] ++ dec num ++ suffix))
  else None.

Definition fs := list Z -> option (list Z).
Definition name_eqb (a b : list Z) : bool := if list_eq_dec Z.eq_dec a b then true else false.
Definition fs_set (f : fs) (n c : list Z) : fs := fun m => if name_eqb m n then Some c else f m.

(** write_thread_list_state, verify.c:1790-1823, of the state at address [p]. *)
Definition write_state (f : fs) (prefix buf : list Z) (p : Z) : option fs :=
  do nm <- rd buf (p + 80) 64; do nm <- cstr nm;
  do ib <- rd buf (p + 16) 8;
  do fn <- gen_name nm prefix (le_word ib);
  do db <- rd buf p 4;
  do s <- rd buf p (til_sz (le_word db));
  do crc <- crc32c_sw s;
  Some (fs_set f fn (le_bytes 8 VSTATE_HDR_VERSION ++ le_bytes 8 (til_sz (le_word db)) ++ le_bytes 8 crc ++ s)).
(** __verify_save_state, verify.c:1825-1834. *)
Fixpoint save_states (nr : nat) (f : fs) (prefix buf : list Z) (p : Z) : option fs :=
  match nr with
  | O => Some f
  | S n => do f <- write_state f prefix buf p; do db <- rd buf p 4; save_states n f prefix buf (p + til_sz (le_word db))
  end.
(** verify_save_state, verify.c:1836-1853. *)
Definition verify_save_state (f : fs) (prefix : list Z) (mask : option Z) (js : list job) : option fs :=
  do r <- get_all_io_list mask js;
  match r with
  | None => Some f
  | Some buf => do tb <- rd buf 0 8; save_states (Z.to_nat (le_word tb)) f prefix buf 8
  end.

(** The state after loading: struct thread_io_list in memory, and td->failed_numberio (empty for NULL). *)
Record vstate := mkV { v_numberio : Z; v_depth : Z; v_rand : Z * list Z; v_inflight : list Z; v_failed : list Z }.

Fixpoint get64s (n : nat) (buf : list Z) (p : Z) : option (list Z) :=
  match n with O => Some [] | S n => do b <- rd buf p 8; do r <- get64s n buf (p + 8); Some (le_word b :: r) end.
Fixpoint get32s (n : nat) (buf : list Z) (p : Z) : option (list Z) :=
  match n with O => Some [] | S n => do b <- rd buf p 4; do r <- get32s n buf (p + 4); Some (le_word b :: r) end.

(** qsort with verify_u64_cmp, verify.c:1861-1872: integers in increasing order (the outcome is the same for every sorting
    algorithm). *)
Fixpoint insert (x : Z) (l : list Z) : list Z := match l with [] => [x] | y :: r => if x <=? y then x :: l else y :: insert x r end.
Definition qsort (l : list Z) : list Z := fold_right insert [] l.

(** verify_assign_state, verify.c:1873-1920; the conversions are the identity on this machine. *)
Definition assign_state (iodepth : Z) (s : list Z) : option vstate :=
  do db <- rd s 0 4; let depth := le_word db in
  do nb <- rd s 8 8;
  do ub <- rd s 24 8;
  do rnd <- (if negb (le_word ub =? 0) then get64s 6 s 32 else get32s 4 s 32);
  do infl <- get64s (Z.to_nat depth) s 144;
  let failed := if iodepth <? depth
                then qsort (filter (fun n => negb (n =? INVALID_NUMBERIO)) (skipn (Z.to_nat iodepth) infl)) else [] in
  Some (mkV (le_word nb) depth (le_word ub, rnd) infl failed).

(** verify_load_state, verify.c:1940-1997, with td->o.verify_state set; the inner [None] is the error return. *)
Definition load_file (iodepth : Z) (file : list Z) : option (option vstate) :=
  if zlen file <? 24 then Some None
  else
    let version := le_word (firstn 8 file) in
    let size := le_word (firstn 8 (skipn 8 file)) in
    let hcrc := le_word (firstn 8 (skipn 16 file)) in
    if negb (version =? VSTATE_HDR_VERSION) then Some None
    else if zlen file - 24 <? size then Some None
    else
      let s := firstn (Z.to_nat size) (skipn 24 file) in
      do crc <- crc32c_sw s;
      if negb (crc =? hcrc) then Some None
      else do v <- assign_state iodepth s; Some (Some v).
Definition verify_load_state (f : fs) (prefix name : list Z) (thread_number iodepth : Z) : option (option vstate) :=
  do fn <- gen_name name prefix (thread_number - 1);
  match f fn with None => Some None | Some file => load_file iodepth file end.

(** verify_state_should_skip, verify.c:2003-2026: binary search with unsigned indices. *)
Fixpoint bsearch (fuel : nat) (l : list Z) (n lo hi : Z) : option bool :=
  if lo <? hi then
    match fuel with
    | O => None
    | S f =>
        let mid := u32 (lo + u32 (hi - lo) / 2) in
        do x <- znth l mid;
        if x =? n then Some true else if x <? n then bsearch f l n (u32 (mid + 1)) hi else bsearch f l n lo mid
    end
  else Some false.
Definition should_skip (v : vstate) (n : Z) : option bool :=
  if zlen (v_failed v) =? 0 then Some false else bsearch (S (length (v_failed v))) (v_failed v) n 0 (zlen (v_failed v)).

(** verify_state_should_stop, verify.c:2031-2076: with a loaded state, and without one (online verification). *)
Definition should_stop (v : vstate) (iodepth n : Z) : bool :=
  if n <? v_numberio v then
    let actual := if iodepth <? v_depth v then iodepth else v_depth v in
    existsb (fun x => x =? n) (firstn (Z.to_nat actual) (v_inflight v))
  else true.
Definition should_stop_online (fsynced : bool) (safe n : Z) : bool :=
  if fsynced then (safe =? 0) || (u64 (safe - 1) <=? n) else false.

(** The decision taken for write [n] by a verifying job: skipped, or the end of the job, or verified (backend.c:1294-1304, and
    1902-1933 for the dry run). *)
Inductive verdict := Skip | Stop | Attempt.
Definition decide (v : vstate) (iodepth n : Z) : option verdict :=
  do sk <- should_skip v n;
  Some (if sk then Skip else if should_stop v iodepth n then Stop else Attempt).
