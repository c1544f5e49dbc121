(** Model of the zoned and sequence random distributions: options.c:76-134, 209-251, 1195-1395, zone-dist.c and io_u.c:102-334.
    A string is the list of its character codes.

    Simplifications:
    - the option has no blanks around it and errno is not ERANGE before it is parsed (C40);
    - fields that the kind of zones does not use are 0 (they are not initialised);
    - there is no random map: init.c:1037-1038 turns it off for these distributions. *)
From Coq Require Import ZArith List Bool String.
From Verif Require Import CBase CStr FloatZ UnitsModel.
Import ListNotations.
Open Scope Z_scope.

(** strsep(&str, ":") until the end. *)
Fixpoint fields (sep : Z) (s : list Z) : list (list Z) :=
  match s with
  | [] => [[]]
  | c :: t => if c =? sep then [] :: fields sep t else match fields sep t with f :: fs => (c :: f) :: fs | [] => [[c]] end
  end.
(** strchr, strstr with one character: what is before and after it. *)
Fixpoint cut (sep : Z) (s : list Z) : list Z * option (list Z) :=
  match s with
  | [] => ([], None)
  | c :: t => if c =? sep then ([], Some t) else let (a, b) := cut sep t in (c :: a, b)
  end.
(** glibc: atoi is strtol cut to an int. *)
Definition atoi (s : list Z) : Z := let '(v, _, _) := strtoll s 10 in let x := u32 v in if x <? 2 ^ 31 then x else x - 2 ^ 32.
Definition m1U : Z := 2 ^ 32 - 1.
(** options.c:102-105; the int becomes an unsigned long long. *)
Definition perc_of (s : list Z) : Z := let a := u64 (atoi s) in if 100 <? a then 100 else if a =? 0 then m1U else a.

(** One round of options.c:88-131 [split_parse_ddir]. *)
Definition decimal (kb : Z) (s : list Z) : option Z := check_str_bytes s kb false.
Definition entry (kb : Z) (absolute : bool) (f : list Z) : option (Z * Z) :=
  let (a, b) := cut 47 f in
  do p <- match b with
          | Some t => if absolute then do v <- decimal kb t; Some (u64 v) else Some (perc_of t)
          | None => Some (if absolute then 0 else m1U)
          end;
  do v <- decimal kb a; Some (u64 v, p).
Fixpoint entries (kb : Z) (absolute : bool) (max : nat) (fs : list (list Z)) : option (list (Z * Z)) :=
  match fs, max with
  | [], _ | [] :: _, _ | _, O => Some []
  | f :: fs', S m => do e <- entry kb absolute f; do l <- entries kb absolute m fs'; Some (e :: l)
  end.
Definition split_parse_ddir (kb : Z) (absolute : bool) (max : nat) (s : list Z) : option (list (Z * Z)) := entries kb absolute max (fields 58 s).

(** thread_options.h:44-45, 65-70. *)
Definition zonesplit_max : nat := 256.
Record zone := Zone { access_perc : Z; size_perc : Z; size : Z }.
Definition u8m1 : Z := 255.
Definition sum_but (l : list Z) : Z := fold_right (fun x a => if x =? u8m1 then a else x + a) 0 l.
Definition missing (l : list Z) : Z := fold_right (fun x a => if x =? u8m1 then a + 1 else a) 0 l.

(** options.c:1208-1273: the zones of the values read; [None]: rejected. *)
Definition zones_of (absolute : bool) (es : list (Z * Z)) : option (list zone) :=
  let zs := map (fun e => if absolute then Zone (u8 (fst e)) 0 (snd e) else Zone (u8 (fst e)) (u8 (snd e)) 0) es in
  let perc := sum_but (map access_perc zs) in
  let perc_missing := missing (map access_perc zs) in
  let sperc := if absolute then 0 else sum_but (map size_perc zs) in
  let sperc_missing := if absolute then 0 else missing (map size_perc zs) in
  if (100 <? perc) || (100 <? sperc) then None
  else if perc <? 100 then None
  else
    let one := (List.length zs =? 1)%nat in
    let perc := if (perc_missing =? 1) && one then 100 else perc in
    let sperc := if (sperc_missing =? 1) && one then 100 else sperc in
    Some (map (fun z => Zone (if access_perc z =? u8m1 then (100 - perc) / perc_missing else access_perc z)
                             (if negb absolute && (size_perc z =? u8m1) then (100 - sperc) / sperc_missing else size_perc z) (size z)) zs).
(** options.c:1195-1276 [zone_split_ddir]. *)
Definition zone_split_ddir (kb : Z) (absolute : bool) (s : list Z) : option (list zone) :=
  do es <- split_parse_ddir kb absolute zonesplit_max s;
  match es with [] => Some [] | _ => zones_of absolute es end.

(** options.c:209-251 [str_split_parse]: for reads, writes and trims. *)
Definition str_split_parse (kb : Z) (absolute : bool) (s : list Z) : option (list zone * list zone * list zone) :=
  let (r, rest) := cut 44 s in
  let '(w, t) := match rest with
                 | None => (r, r)
                 | Some o => let (w, d) := cut 44 o in match d with Some t => (w, t) | None => (w, w) end
                 end in
  do zt <- zone_split_ddir kb absolute t; do zw <- zone_split_ddir kb absolute w; do zr <- zone_split_ddir kb absolute r; Some (zr, zw, zt).

(** options.c:1278-1342 [parse_zoned_distribution]. *)
Definition pre (absolute : bool) : list Z := chars (if absolute then "zoned_abs:" else "zoned:").
Definition parse_zoned (kb : Z) (absolute : bool) (s : list Z) : option (list zone * list zone * list zone) :=
  if starts (pre absolute) s then str_split_parse kb absolute (skipn (List.length (pre absolute)) s) else None.

(** fio.h:189-194, zone-dist.c:5-30 [__td_zone_gen_index]: the entries of the table, in order. *)
Record index := Index { i_size_perc : Z; i_size_perc_prev : Z; i_size : Z; i_size_prev : Z }.
Fixpoint gen_index (zs : list zone) (sprev sprev_sz : Z) : list index :=
  match zs with
  | [] => []
  | z :: zs' =>
    repeat (Index (u8 (sprev + size_perc z)) (u8 sprev) (u64 (sprev_sz + size z)) sprev_sz) (Z.to_nat (access_perc z)) ++
    gen_index zs' (sprev + size_perc z) (u64 (sprev_sz + size z))
  end.
Definition no_index : index := Index 0 0 0 0.

(** io_u.c:102-147 [__get_next_rand_offset] with its random number: r / (rand_max + 1.0) is exact but for the conversion of r. *)
Inductive draw := Taus (b64 : bool) (r : Z) | Lfsr (off : Z).
Definition rand_offset (g : draw) (lastb : Z) : Z :=
  match g with
  | Taus b64 r => rne53 (rne53 lastb * rne53 r) / 2 ^ (if b64 then 64 else 32)
  | Lfsr off => off
  end.

(** io_u.c:234-290 [__get_next_rand_offset_zoned]; [v] is rand_between(1, 100). *)
Definition next_zoned (zs : list zone) (lastb v : Z) (g : draw) : option Z :=
  if lastb =? 0 then None
  else match zs with
  | [] => Some (rand_offset g lastb)
  | _ =>
    let zsi := nth (Z.to_nat (v - 1)) (gen_index zs 0 0) no_index in
    let stotal := i_size_perc_prev zsi in
    let send := i_size_perc zsi in
    if send =? m1U then Some (rand_offset g lastb)
    else
      let offset := u64 (stotal * lastb) / 100 in
      let lastb := u64 (lastb * u32 (send - stotal)) / 100 in
      Some (u64 (rand_offset g lastb + offset))
  end.

(** io_u.c:175-232 [__get_next_rand_offset_zoned_abs]. *)
Definition next_zoned_abs (zs : list zone) (ba lastb v : Z) (g : draw) : option Z :=
  if lastb =? 0 then None
  else match zs with
  | [] => Some (rand_offset g lastb)
  | _ =>
    let zsi := nth (Z.to_nat (v - 1)) (gen_index zs 0 0) no_index in
    let stotal := i_size_prev zsi / ba in
    let send := i_size zsi / ba in
    if send =? m1U then Some (rand_offset g lastb)
    else if lastb <? send then None
    else Some (u64 (rand_offset g (u64 (send - stotal)) + stotal))
  end.

(** options.c:1345-1395 [parse_sequence_distribution], on what follows the colon. *)
Definition fio_seq_max : nat := 64.
Definition parse_sequence (s : list Z) : option (list Z) :=
  let fs := fields 44 s in
  if (fio_seq_max <? List.length fs)%nat then None
  else if forallb (fun f => negb (List.length f =? 0)%nat && forallb digit f) fs then Some (map (fun f => u32 (atoi f)) fs) else None.
(** io_u.c:292-328 [__get_next_rand_offset_sequence]; [n] is io_issues. *)
Definition next_sequence (seq : list Z) (stride : bool) (io_size min_bs n : Z) : option Z :=
  match seq with
  | [] => None
  | _ =>
    let k := Z.of_nat (List.length seq) in
    let e := nth (Z.to_nat (n mod k)) seq 0 in
    let b := if stride then u64 (n / k * k + e) else e in
    if negb (io_size =? 0) && (io_size / min_bs <=? b) then None else Some b
  end.
