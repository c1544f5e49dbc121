(** Model of the parser half of lib/pattern.c and of lib/strntol.c.
    A C string is the list of its characters (codes 1..255) without the final NUL; a pointer into it
    is the remaining suffix. *)
From Coq Require Import ZArith List Bool.
From Verif Require Import CBase Mem.
Import ListNotations.
Open Scope Z_scope.

(** Characters used by the grammar. *)
Definition DQ : Z := 34.
Definition SQ : Z := 39.
Definition PC : Z := 37.
Definition c0 : Z := 48.
Definition is_x (c : Z) : bool := (c =? 120) || (c =? 88).
Definition is_digit (c : Z) : bool := (48 <=? c) && (c <=? 57).
(** [0-9a-fA-F] *)
Definition is_hex (c : Z) : bool :=
  is_digit c || ((97 <=? c) && (c <=? 102)) || ((65 <=? c) && (c <=? 70)).
Definition hex_val (c : Z) : Z :=
  if is_digit c then c - 48 else if 97 <=? c then c - 87 else c - 55.
(** C isspace in the "C" locale. *)
Definition is_space (c : Z) : bool := (c =? 32) || ((9 <=? c) && (c <=? 13)).

(** An output byte; [None] is a byte of the buffer that the parser reserved but did not store. *)
Definition cell : Type := option Z.

(** strchr: the number of characters before the first [c]. *)
Fixpoint find_char (c : Z) (s : list Z) : option nat :=
  match s with
  | [] => None
  | a :: s' => if a =? c then Some 0%nat else option_map S (find_char c s')
  end.

(** Length of the longest prefix of characters satisfying [p] (a "%[...]" conversion). *)
Fixpoint span (p : Z -> bool) (s : list Z) : nat :=
  match s with [] => 0%nat | a :: s' => if p a then S (span p s') else 0%nat end.

(** lib/pattern.c:159: sscanf(beg, "0%*[xX]%*[0-9a-fA-F]%n", &num) starting from num = 0. *)
Definition scan_hex_prefix (s : list Z) : nat :=
  match s with
  | a :: s1 =>
      if a =? c0 then
        let nx := span is_x s1 in
        if (nx =? 0)%nat then 0%nat
        else let nh := span is_hex (skipn nx s1) in
             if (nh =? 0)%nat then 0%nat else (1 + nx + nh)%nat
      else 0%nat
  | [] => 0%nat
  end.

(** strcasestr(s, "0x"): position of the first "0x" or "0X". *)
Fixpoint find_0x (s : list Z) : option nat :=
  match s with
  | a :: (b :: _) as s' =>
      if (a =? c0) && is_x b then Some 0%nat else option_map S (find_0x s')
  | _ => None
  end.

(** Value of a digit string, most significant first. *)
Definition dec_val (ds : list Z) : Z := fold_left (fun acc c => acc * 10 + (c - 48)) ds 0.

(** C strtol(s, &end, 10) for a 64-bit long: leading white space, sign, digits, saturation.
    Result: value and number of characters consumed (0 when there is no number). *)
Definition LONG_MAX : Z := 2 ^ 63 - 1.
Definition LONG_MIN : Z := - 2 ^ 63.
Definition strtol10 (s : list Z) : Z * nat :=
  let nsp := span is_space s in
  let s1 := skipn nsp s in
  let '(neg, s2) :=
    match s1 with
    | a :: s' => if a =? 45 then (true, s') else if a =? 43 then (false, s') else (false, s1)
    | [] => (false, s1)
    end in
  let nd := span is_digit s2 in
  if (nd =? 0)%nat then (0, 0%nat)
  else
    let v := dec_val (firstn nd s2) in
    let v' := if neg then - v else v in
    (Z.max LONG_MIN (Z.min LONG_MAX v'), (length s - length s2 + nd)%nat).

(** lib/strntol.c:7-33 [strntol](s, sz, &end, 10).  On saturation the C code leaves [end] pointing
    into its local buffer; the caller rejects the value before using it, so the count returned here in
    that case is never looked at. *)
Definition strntol (s : list Z) (sz : nat) : Z * nat :=
  let nsp := span (fun c => c =? 32) (firstn sz s) in
  let sz' := (sz - nsp)%nat in
  if (sz' =? 0)%nat || (24 <=? sz')%nat then (0, 0%nat)
  else
    let '(v, n) := strtol10 (firstn sz' (skipn nsp s)) in
    (v, (nsp + n)%nat).

Definition INT_MAX : Z := 2 ^ 31 - 1.
Definition INT_MIN : Z := - 2 ^ 31.

(** lib/pattern.c:184-188: bytes of [val] from the least significant while val && out_len; [None] when
    the room runs out.  Four steps are enough for an [unsigned int]. *)
Fixpoint emit_le (fuel : nat) (val : Z) (out_len : Z) : option (list cell) :=
  match fuel with
  | O => if val =? 0 then Some [] else None
  | S f =>
      if val =? 0 then Some []
      else if out_len =? 0 then None
      else do r <- emit_le f (Z.shiftr val 8) (out_len - 1); Some (Some (Z.land val 255) :: r)
  end.

(** sscanf(beg, "%1hhx" or "%2hhx", &out[i]): stores nothing when the first character is not a
    hexadecimal digit.  (Within the scanned range the characters are a run of x's followed by hex
    digits, so the optional sign and "0x" prefix of %x cannot occur.) *)
Definition scan_byte (w : nat) (s : list Z) : cell :=
  let n := span is_hex (firstn w s) in
  if (n =? 0)%nat then None
  else Some (fold_left (fun acc c => acc * 16 + hex_val c) (firstn n s) 0 mod 256).

(** lib/pattern.c:203-216, the hex loop: [num] characters left at [s]. An odd count first takes one
    character ("num++, beg--" then "num -= 2, beg += 2"). *)
Fixpoint emit_hex (fuel : nat) (s : list Z) (num : nat) (out_len : Z) : option (list cell) :=
  match fuel with
  | O => if (num =? 0)%nat then Some [] else None
  | S f =>
      if (num =? 0)%nat then Some []
      else if out_len =? 0 then None
      else if Nat.odd num
           then do r <- emit_hex f (skipn 1 s) (num - 1) (out_len - 1); Some (scan_byte 1 s :: r)
           else do r <- emit_hex f (skipn 2 s) (num - 2) (out_len - 1); Some (scan_byte 2 s :: r)
  end.

(** lib/pattern.c:146-222 [parse_number]; result: bytes and the rest of the input, [None] for NULL.
    (assert(num > 2) always holds: see scan_hex_prefix.) *)
Definition parse_number (beg : list Z) (out_len : Z) : option (list cell * list Z) :=
  if out_len =? 0 then None
  else
    let num := scan_hex_prefix beg in
    if (num =? 0)%nat then
      let '(lval, n) :=
        match find_0x beg with
        | Some (S k) => strntol beg (S k)
        | _ => strtol10 beg
        end in
      if (n =? 0)%nat || (INT_MAX <? lval) || (lval <? INT_MIN) then None
      else if lval =? 0 then Some ([Some 0], skipn n beg)
      else do bs <- emit_le 4 (u32 lval) out_len; Some (bs, skipn n beg)
    else
      let s := skipn 2 beg in
      let num1 := (num - 2)%nat in
      let num2 := match nth_error s (num1 - 1), nth_error s num1 with
                  | Some a, Some b => if (a =? c0) && is_x b then (num1 - 1)%nat else num1
                  | _, _ => num1
                  end in
      do bs <- emit_hex num2 s num2 out_len;
      Some (bs, skipn num2 s).

(** lib/pattern.c:105-128 [parse_string] *)
Definition parse_string (beg : list Z) (out_len : Z) : option (list cell * list Z) :=
  if out_len =? 0 then None
  else
    let s := skipn 1 beg in
    do n <- find_char DQ s;
    if out_len <? Z.of_nat n then None
    else Some (map Some (firstn n s), skipn (S n) s).

(** lib/pattern.c:28-91 [parse_file]; [files] gives the contents of the readable files, the same in
    both passes; reads are assumed not to fail. *)
Definition parse_file (files : list Z -> option (list Z)) (beg : list Z) (out_len : Z)
  : option (list cell * list Z) :=
  if out_len =? 0 then None
  else
    let s := skipn 1 beg in
    do n <- find_char SQ s;
    do content <- files (firstn n s);
    Some (map Some (firstn (Z.to_nat (Z.min (zlen content) out_len)) content), skipn (S n) s).

(** strncmp(in, fmt, strlen(fmt)) == 0 *)
Fixpoint is_prefix (p s : list Z) : bool :=
  match p, s with
  | [], _ => true
  | a :: p', b :: s' => (a =? b) && is_prefix p' s'
  | _, [] => false
  end.

(** lib/pattern.c:259-270: the first descriptor (name, length) whose name starts the input. *)
Fixpoint find_desc (descs : list (list Z * Z)) (s : list Z) : option (list Z * Z) :=
  match descs with
  | [] => None
  | d :: ds => if is_prefix (fst d) s then Some d else find_desc ds s
  end.

(** lib/pattern.c:245-282 [parse_format]; also returns the descriptor found.  NULL fmt_desc/fmt is
    represented by fmt_rem = 0. *)
Definition parse_format (descs : list (list Z * Z)) (fmt_rem : Z) (beg : list Z) (out_len : Z)
  : option (list cell * list Z * Z) :=
  if (out_len =? 0) || (fmt_rem =? 0) then None
  else
    do d <- find_desc descs beg;
    if out_len <? snd d then None
    else Some (repeat (Some 0) (Z.to_nat (snd d)), skipn (length (fst d)) beg, snd d).

(** Outcome of a call: [Abort] is a failed assert(), [Stuck] an out-of-bounds store or (never
    happening) exhausted recursion. *)
Inductive outcome (A : Type) := Ret (a : A) | Inval | Abort | Stuck.
Arguments Ret {A}. Arguments Inval {A}. Arguments Abort {A}. Arguments Stuck {A}.

(** State of the loop of [parse_and_fill_pattern]: the output buffer ([None] for NULL), the number of
    bytes filled so far, the remaining room, the formats parsed so far (offset, length; last first)
    and the remaining format slots. *)
Record pst := mkPst { p_out : option (list cell); p_total : Z; p_room : Z;
                      p_fmts : list (Z * Z); p_rem : Z }.

Section Driver.
Variable files : list Z -> option (list Z).
Variable descs : list (list Z * Z).

(** lib/pattern.c:356-371, the switch: bytes, rest of the input, and the length of a parsed format. *)
Definition parse_item (beg : list Z) (st : pst) : option (list cell * list Z * option Z) :=
  match beg with
  | a :: _ =>
      if a =? SQ then do (bs, r) <- parse_file files beg (p_room st); Some (bs, r, None)
      else if a =? DQ then do (bs, r) <- parse_string beg (p_room st); Some (bs, r, None)
      else if a =? PC then
        do (bs, r, l) <- parse_format descs (p_rem st) beg (p_room st); Some (bs, r, Some l)
      else do (bs, r) <- parse_number beg (p_room st); Some (bs, r, None)
  | [] => do (bs, r) <- parse_number beg (p_room st); Some (bs, r, None)
  end.

(** lib/pattern.c:349-393, the loop; in_len is the length of the remaining input.  fmt->off is
    "out - out_beg", which is 0 when the buffer is NULL. *)
Fixpoint fill_loop (fuel : nat) (beg : list Z) (st : pst) : outcome pst :=
  match fuel with
  | O => Stuck
  | S fuel' =>
      match parse_item beg st with
      | None => Inval
      | Some (bs, rest, fmt) =>
          let filled := zlen bs in
          let fmts := match fmt with
                      | Some l => (match p_out st with Some _ => p_total st | None => 0 end, l) :: p_fmts st
                      | None => p_fmts st end in
          let rem := match fmt with Some _ => p_rem st - 1 | None => p_rem st end in
          if filled =? 0 then Abort
          else if p_room st <? filled then Abort
          else
            match match p_out st with
                  | None => Some None
                  | Some buf => option_map Some (blit buf (Z.to_nat (p_total st)) bs)
                  end with
            | None => Stuck
            | Some out' =>
                let st' := mkPst out' (p_total st + filled) (p_room st - filled) fmts rem in
                match rest with [] => Ret st' | _ => fill_loop fuel' rest st' end
            end
      end
  end.

(** lib/pattern.c:334-398 [parse_and_fill_pattern]; [fmt_sz] is the value of the format counter on
    entry. Result: total, buffer, formats in order, format counter on return. *)
Definition parse_and_fill (inp : list Z) (out : option (list cell)) (out_len fmt_sz : Z)
  : outcome (Z * option (list cell) * list (Z * Z) * Z) :=
  if (zlen inp =? 0) || (out_len =? 0) then Inval
  else match fill_loop (S (length inp)) inp (mkPst out 0 out_len [] fmt_sz) with
       | Ret st => Ret (p_total st, p_out st, rev (p_fmts st), fmt_sz - p_rem st)
       | Inval => Inval | Abort => Abort | Stuck => Stuck
       end.

(** lib/pattern.h:17 *)
Definition MAX_PATTERN_SIZE : Z := 128 * 2 ^ 20.

(** lib/pattern.c:420-440 [parse_and_fill_pattern_alloc]: measure, allocate, parse again.  malloc is
    assumed to succeed; the fresh buffer is unspecified. *)
Definition parse_alloc (inp : list Z) (fmt_sz : Z)
  : outcome (Z * option (list cell) * list (Z * Z) * Z) :=
  match parse_and_fill inp None MAX_PATTERN_SIZE fmt_sz with
  | Ret (count, _, _, fmt_sz') =>
      parse_and_fill inp (Some (repeat None (Z.to_nat count))) count fmt_sz'
  | Inval => Inval | Abort => Abort | Stuck => Stuck
  end.
End Driver.

(** options.c:23-30: the only format is "%o", 8 bytes. *)
Definition fmt_desc : list (list Z * Z) := [([PC; 111], 8)].
