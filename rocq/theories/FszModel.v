(** Model of the sizes of files: filesetup.c:435-448 [get_rand_file_size] and 1131-1480 [setup_files].

    Simplifications:
    - there are nr_files files, their real sizes and start offsets are known (filesetup.c:844-870, C29);
    - the engine does I/O to files, there is no fill_device, iolog, zone model, sprandom or block_error_hist;
    - rw_min_bs is td_min_bs (init.c:759-761, fio.h:893-899);
    - extending a file succeeds; create_on_open gives the same size later (filesetup.c:1330-1336, 1400-1405). *)
From Coq Require Import ZArith List Bool.
From Verif Require Import CBase FloatZ ZdModel.
Import ListNotations.
Open Scope Z_scope.

Record fopts := Fopts { size : Z; size_low : Z; size_high : Z; size_percent : Z; io_size_percent : Z; min_bs : Z; io_size : Z; loops : Z }.
(** A file: its real size, file_offset, is it a regular one, and the random number for its size. *)
Record file := File { real : Z; off : Z; regular : bool; rnd : draw }.
Definition m1ull : Z := 2 ^ 64 - 1.

(** filesetup.c:435-448. *)
Definition rand_size (o : fopts) (g : draw) : Z :=
  let r := u64 (rand_offset g (u64 (size_high o - size_low o)) + size_low o) in r - r mod min_bs o.
(** filesetup.c:1225-1233: the size of a file and how many of them get a block more. *)
Definition share (o : fopts) (nr : Z) : Z * Z :=
  if (size_low o =? 0) && negb (nr =? 0) then
    let fs := size o / nr in
    let all := u64 (fs * nr) in
    (fs, if all <? size o then u32 ((size o - all) / min_bs o) else 0)
  else (0, 0).
(** filesetup.c:1254-1297; [None]: the offset is not valid. *)
Definition base_size (o : fopts) (fs extra : Z) (f : file) : option (Z * Z) :=
  if size_low o =? 0 then
    let '(io, extra) := if extra =? 0 then (fs, extra) else (u64 (fs + min_bs o), extra - 1) in
    if io =? 0 then if real f <? off f then None else Some (real f - off f, extra) else Some (io, extra)
  else if (real f <? size_low o) || (size_high o <? real f) then
    if size_low o <? off f then None
    else if size_low o =? size_high o then Some (size_low o - off f, extra)
    else Some (u64 (rand_size o (rnd f) - off f), extra)
  else Some (u64 (real f - off f), extra).
(** filesetup.c:1304-1314. *)
Definition percent (o : fopts) (io off : Z) : Z :=
  if negb (size_percent o =? 0) && negb (size_percent o =? 100) then
    let file_size := u64 (io + off) in
    let x := u64 (file_size * size_percent o) / 100 in
    let x := if u64 (file_size - off) <? x then u64 (file_size - off) else x in
    x - x mod min_bs o
  else io.
(** filesetup.c:1299-1325. *)
Definition add_total (o : fopts) (io0 io total : Z) : Z :=
  if io0 =? m1ull then m1ull
  else u64 (total + (if negb (io_size_percent o =? 0) && negb (io_size_percent o =? 100) then u64 (io * io_size_percent o) / 100 else io)).
(** filesetup.c:1242-1337. *)
Fixpoint set_sizes (o : fopts) (fs extra total : Z) (l : list file) : option (list Z * Z) :=
  match l with
  | [] => Some ([], total)
  | f :: l' =>
    do x <- base_size o fs extra f;
    let io := if fst x =? m1ull then fst x else percent o (fst x) (off f) in
    do y <- set_sizes o fs (snd x) (add_total o (fst x) io total) l';
    Some (io :: fst y, snd y)
  end.
(** The real size afterwards: filesetup.c:1327-1336, 1402. *)
Definition laid_out (f : file) (io : Z) : Z := if regular f && (real f <? u64 (io + off f)) then u64 (io + off f) else real f.

(** What is set: the I/O size of every file, its real size, size= and the number of bytes to do. *)
Definition reals (l : list file) : Z := fold_left (fun t f => if real f =? m1ull then m1ull else u64 (t + real f)) l 0.
Definition setup (o : fopts) (l : list file) : option (list Z * list Z * Z * Z) :=
  let rs := reals l in
  if ((rs =? 0) || (rs =? m1ull)) && (size o =? 0) && negb (negb (Z.of_nat (List.length l) =? 0) && (negb (size_low o =? 0) || negb (size_high o =? 0))) then None
  else
    let '(fs, extra) := share o (Z.of_nat (List.length l)) in
    do x <- set_sizes o fs extra 0 l;
    let total := snd x in
    let sz := if (size o =? 0) || (negb (total =? 0) && (total <? size o)) then total else size o in
    if sz <? min_bs o then None
    else Some (fst x, map (fun p => laid_out (fst p) (snd p)) (combine l (fst x)), sz, u64 ((if io_size o =? 0 then sz else io_size o) * loops o)).
