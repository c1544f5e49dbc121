(** Model of data placement: options.c:255-324 and dataplacement.c.  A string is the list of its character codes.

    Simplifications:
    - the option has no blanks around it (options.c:273-274 strip them);
    - the numbers of the scheme file are given, not its text (fscanf, dataplacement.c:163-165);
    - allocations succeed, and both queries of the device (dataplacement.c:71, 88) give the same handles. *)
From Coq Require Import ZArith List Bool String.
From Verif Require Import CBase CStr UnitsModel RandModel ZdModel.
Import ListNotations.
Open Scope Z_scope.

(** strtoull with base 0, C11 7.22.1.4, for strings without a minus sign. *)
Definition octdigit (c : Z) : bool := (48 <=? c) && (c <=? 55).
Definition strtoull0 (s : list Z) : Z :=
  let s := snd (span isspace s) in
  let s := match s with c :: t => if c =? 43 then t else s | [] => s end in
  let v := match s with
           | [] => 0
           | z :: t =>
             if z =? 48 then
               match t with
               | x :: d :: t' => if (tolower x =? 120) && hexdigit d then nval 16 (fst (span hexdigit (d :: t'))) else nval 8 (fst (span octdigit s))
               | _ => nval 8 (fst (span octdigit s))
               end
             else nval 10 (fst (span digit s))
           end in
  Z.min v (2 ^ 64 - 1).

(** options.c:283-298: the first and last of one element; [None]: rejected. *)
Fixpoint last_end (parts : list (list Z)) (e : Z) : Z :=
  match parts with
  | [] | [] :: _ => e
  | p :: parts' => last_end parts' (u32 (strtoull0 p))
  end.
Definition id_range (f : list Z) : option (Z * Z) :=
  let parts := fields 45 f in
  let e := last_end parts m1U in
  let s := u32 (strtoull0 (hd [] parts)) in
  let e := if e =? m1U then s else e in
  if e <? s then None else Some (s, e).
(** options.c:300-312 and dataplacement.h:8; [room] is how many more there may be. *)
Definition max_dp_ids : nat := 128.
Definition max_id : Z := 65535.
Fixpoint add_ids (room : nat) (s e : Z) : bool * list Z :=
  if e <? s then (true, [])
  else match room with
  | O => (false, [])
  | S r => if max_id <? s then (false, []) else let (ok, l) := add_ids r (s + 1) e in (ok, s :: l)
  end.
(** options.c:276-316. *)
Fixpoint id_list (room : nat) (fs : list (list Z)) : bool * list Z :=
  match fs with
  | [] | [] :: _ => (true, [])
  | f :: fs' =>
    match id_range f with
    | None => (false, [])
    | Some (s, e) =>
      let (ok, l) := add_ids room s e in
      if ok then let (ok', l') := id_list (room - List.length l) fs' in (ok', l ++ l') else (false, l)
    end
  end.
(** qsort with options.c:255-261 [fio_fdp_cmp]: equal numbers cannot be told apart. *)
Fixpoint insert (x : Z) (l : list Z) : list Z := match l with [] => [x] | y :: l' => if x <=? y then x :: l else y :: insert x l' end.
Definition sort (l : list Z) : list Z := fold_right insert [] l.
(** options.c:263-324 [str_fdp_pli_cb]: is the option valid, and its identifiers. *)
Definition parse_ids (s : list Z) : bool * list Z := let (ok, l) := id_list max_dp_ids (fields 44 s) in (ok, sort l).

(** dataplacement.c:41-134 [init_ruh_info]: the identifiers of a file; [dev] are those of the device, [None] an error. *)
Definition init_plis (fdp : bool) (dev ids : list Z) : option (list Z) :=
  if fdp then
    match ids with
    | [] => Some (firstn max_dp_ids dev)
    | _ => if forallb (fun i => i <? Z.of_nat (List.length dev)) ids then Some (map (fun i => nth (Z.to_nat i) dev 0) ids) else None
    end
  else match ids with [] => None | _ => Some ids end.

(** dataplacement.h:40-49, dataplacement.c:163-170. *)
Record scheme_entry := Entry { start_offset : Z; end_offset : Z; pli : Z }.
Definition max_scheme : nat := 32.
Definition init_scheme (es : list scheme_entry) : list scheme_entry := map (fun e => Entry (start_offset e) (end_offset e) (u16 (pli e))) (firstn max_scheme es).
(** dataplacement.c:236-252. *)
Fixpoint lookup (es : list scheme_entry) (offset : Z) : Z :=
  match es with
  | [] => 0
  | e :: es' => if (start_offset e <=? offset) && (offset <? end_offset e) then pli e else lookup es' offset
  end.

(** dataplacement.c:216-262 [dp_fill_dspec_data]: dtype, dspec and the new [pli_loc]; [r] is the random number; [None]: out of bounds. *)
Inductive select := Random | RoundRobin | Scheme.
Definition streams_dtype : Z := 1.
Definition fdp_dtype : Z := 2.
Definition fill (sel : select) (fdp : bool) (plis : list Z) (es : list scheme_entry) (loc : Z) (write : bool) (offset r : Z) : option (Z * Z * Z) :=
  if negb write then Some (0, 0, loc)
  else
    let dtype := if fdp then fdp_dtype else streams_dtype in
    match sel with
    | RoundRobin =>
      let loc := if Z.of_nat (List.length plis) <=? loc then 0 else loc in
      do p <- nth_error plis (Z.to_nat loc); Some (dtype, p, u32 (loc + 1))
    | Scheme => Some (dtype, lookup es offset, loc)
    | Random =>
      do v <- between false r 0 (u32 (Z.of_nat (List.length plis) - 1));
      do p <- nth_error plis (Z.to_nat v); Some (dtype, p, u32 v)
    end.
(** One I/O after the other. *)
Fixpoint fills (sel : select) (fdp : bool) (plis : list Z) (es : list scheme_entry) (loc : Z) (ios : list (bool * Z * Z)) : option (list (Z * Z)) :=
  match ios with
  | [] => Some []
  | (w, off, r) :: ios' =>
    do x <- fill sel fdp plis es loc w off r;
    do l <- fills sel fdp plis es (snd x) ios'; Some (fst x :: l)
  end.
