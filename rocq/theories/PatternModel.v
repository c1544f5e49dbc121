(** Model of the fill/compare half of lib/pattern.c and of its users in verify.c.
    Buffers are lists of bytes; a length argument of type [unsigned int] is a [Z] below 2^32;
    [None] is an out-of-bounds access. *)
From Coq Require Import ZArith List Bool.
From Verif Require Import CBase Mem.
Import ListNotations.
Open Scope Z_scope.

(** errno values: -EINVAL and -EILSEQ (asm-generic/errno*.h). *)
Definition EINVAL : Z := 22.
Definition EILSEQ : Z := 84.

(** lib/pattern.c:460-465, the doubling loop of [dup_pattern]; the fuel only makes the recursion
    structural ([None] if it ran out), "off <<= 1" is 32-bit.  [base] is the position of [out] in
    [buf]. *)
Fixpoint dup_loop (fuel : nat) (buf : list Z) (base left off len : Z) : option (list Z) :=
  if left =? 0 then Some buf
  else match fuel with
       | O => None
       | S fuel' =>
           do src <- slice buf (Z.to_nat base) (Z.to_nat len);
           do buf' <- blit buf (Z.to_nat (base + off)) src;
           let left' := u32 (left - len) in
           let off' := u32 (off * 2) in
           dup_loop fuel' buf' base left' off' (Z.min left' off')
       end.

(** lib/pattern.c:447-468 [dup_pattern] *)
Definition dup_pattern (buf : list Z) (base out_len pattern_len : Z) : option (list Z) :=
  if out_len <=? pattern_len then Some buf
  else let off := pattern_len in
       let left := u32 (out_len - off) in
       dup_loop (S (Z.to_nat out_len)) buf base left off (Z.min left off).

(** lib/pattern.c:477-491 [cpy_pattern]; [out] is the destination of [out_len] bytes at [base] in
    [buf].  NULL pointers are not represented.  Result: return value and the memory. *)
Definition cpy_pattern (pattern : list Z) (buf : list Z) (base out_len : Z) : option (Z * list Z) :=
  let pattern_len := zlen pattern in
  if (pattern_len =? 0) || (out_len =? 0) then Some (- EINVAL, buf)
  else
    let len := Z.min pattern_len out_len in
    do src <- slice pattern 0 (Z.to_nat len);
    do buf1 <- blit buf (Z.to_nat base) src;
    do buf2 <- dup_pattern buf1 base out_len pattern_len;
    Some (0, buf2).

(** memcmp(a + ao, b + bo, n) == 0; [None] when either range leaves its buffer. *)
Definition mem_eq (a : list Z) (ao : Z) (b : list Z) (bo : Z) (n : Z) : option bool :=
  do x <- slice a (Z.to_nat ao) (Z.to_nat n);
  do y <- slice b (Z.to_nat bo) (Z.to_nat n);
  Some (if list_eq_dec Z.eq_dec x y then true else false).

(** lib/pattern.c:505-536 [cmp_pattern]; the compared range is the [len] bytes at [base] in [buf]. *)
Definition cmp_pattern (pattern : list Z) (off : Z) (buf : list Z) (base len : Z) : option Z :=
  let psize := zlen pattern in
  do e1 <- (if psize <? len then mem_eq buf base buf (base + psize) (u32 (len - psize)) else Some true);
  if negb e1 then Some (- EILSEQ)
  else
    let size := if off =? 0 then 0 else Z.min len (u32 (psize - off)) in
    do e2 <- (if off =? 0 then Some true else mem_eq buf base pattern off size);
    if negb e2 then Some (- EILSEQ)
    else
      let base' := base + size in
      let len' := u32 (len - size) in
      if len' =? 0 then Some 0
      else
        do e3 <- mem_eq buf base' pattern 0 (Z.min len' (if off =? 0 then psize else off));
        Some (if e3 then 0 else - EILSEQ).

(** The [n] low bytes of [v], little-endian. *)
Fixpoint le_bytes (n : nat) (v : Z) : list Z :=
  match n with O => [] | S n' => v mod 256 :: le_bytes n' (v / 256) end.

(** verify.c:1644-1654 [paste_blockoff]: the little-endian 64-bit block offset, or a prefix of it. *)
Definition paste_blockoff (buf : list Z) (pos len offset : Z) : option (list Z) :=
  blit buf (Z.to_nat pos) (firstn (Z.to_nat (Z.min len 8)) (le_bytes 8 offset)).

(** lib/pattern.h:31-34 [struct pattern_fmt]: offset in the pattern and length of the descriptor
    (options.c:23-30: the only descriptor is %o, of 8 bytes, pasting the block offset). *)
Record pfmt := mkFmt { f_off : Z; f_len : Z }.

(** lib/pattern.c:546-570 [paste_format_inplace]; the pattern is at [base] in [buf], [priv] is the
    block offset of the I/O unit. *)
Fixpoint paste_loop (fmts : list pfmt) (buf : list Z) (base plen offset : Z) : option (list Z) :=
  match fmts with
  | [] => Some buf
  | f :: fmts' =>
      if plen <=? f_off f then Some buf
      else
        do buf' <- paste_blockoff buf (base + f_off f) (Z.min (plen - f_off f) (f_len f)) offset;
        paste_loop fmts' buf' base plen offset
  end.
Definition paste_format_inplace (fmts : list pfmt) (buf : list Z) (base plen offset : Z)
  : option (Z * list Z) :=
  if plen =? 0 then Some (- EINVAL, buf)
  else do b <- paste_loop fmts buf base plen offset; Some (0, b).

(** lib/pattern.c:580-600 [paste_format] *)
Definition paste_format (pattern : list Z) (fmts : list pfmt) (buf : list Z) (base out_len offset : Z)
  : option (Z * list Z) :=
  let pattern_len := zlen pattern in
  if (pattern_len =? 0) || (out_len =? 0) then Some (- EINVAL, buf)
  else
    let len := Z.min pattern_len out_len in
    do src <- slice pattern 0 (Z.to_nat len);
    do buf1 <- blit buf (Z.to_nat base) src;
    do (rc, buf2) <- paste_format_inplace fmts buf1 base len offset;
    if negb (rc =? 0) then Some (rc, buf2)
    else do buf3 <- dup_pattern buf2 base out_len pattern_len; Some (0, buf3).

(** verify.c:85-100, the loop of [fill_verify_pattern] (pattern configured, buffer not already
    filled); [p] is the position in the buffer, [done] is bytes_done, [off] is io_u->offset.  The
    fuel makes the recursion structural. *)
Fixpoint fill_loop (fuel : nat) (pattern : list Z) (fmts : list pfmt) (buf : list Z)
  (interval len done p off : Z) : option (list Z) :=
  if len <=? done then Some buf
  else match fuel with
       | O => None
       | S fuel' =>
           let t0 := p mod interval in
           let t1 := if t0 =? 0 then interval else t0 in
           let todo := Z.min t1 (u32 (len - done)) in
           do (_, buf') <- paste_format pattern fmts buf p todo off;
           fill_loop fuel' pattern fmts buf' interval len (u32 (done + todo)) (p + todo)
             (u64 (off + interval))
       end.

(** verify.c:50-104 [fill_verify_pattern] on the whole buffer of the I/O unit (p = io_u->buf, as in
    fill_pattern_headers, verify.c:112-121), with a pattern, first fill. *)
Definition fill_verify_pattern (pattern : list Z) (fmts : list pfmt) (interval_opt : Z)
  (offset : Z) (buf : list Z) : option (list Z) :=
  let len := zlen buf in
  let interval := if interval_opt =? 0 then len else interval_opt in
  fill_loop (S (Z.to_nat len)) pattern fmts buf interval len 0 0 offset.

(** verify.c:402-420: the byte-by-byte search of [check_pattern]. *)
Fixpoint slow_loop (n : nat) (pattern buf : list Z) (pos mod_ : Z) (rc : Z) : option Z :=
  match n with
  | O => Some rc
  | S n' =>
      do a <- znth buf pos;
      do b <- znth pattern mod_;
      if negb (a =? b) then Some EILSEQ
      else let m := mod_ + 1 in
           slow_loop n' pattern buf (pos + 1) (if m =? zlen pattern then 0 else m) rc
  end.

(** verify.c:392-425 [check_pattern] *)
Definition check_pattern (buf : list Z) (pos len mod_ : Z) (pattern : list Z) : option Z :=
  do rc <- cmp_pattern pattern mod_ buf pos len;
  if rc =? 0 then Some 0 else slow_loop (Z.to_nat len) pattern buf pos mod_ rc.

(** verify.c:492-511, the loop of [verify_io_u_pattern]. *)
Fixpoint vloop (fuel : nat) (pattern : list Z) (fmts : list pfmt) (buf : list Z)
  (interval len done pos mod_ todo off : Z) : option Z :=
  if len <=? done then Some 0
  else match fuel with
       | O => None
       | S fuel' =>
           do pattern' <- (if interval =? 0 then Some pattern
                           else option_map snd (paste_format_inplace fmts pattern 0 (zlen pattern) off));
           do rc <- check_pattern buf pos todo mod_ pattern';
           if negb (rc =? 0) then Some rc
           else let done' := u32 (done + todo) in
                vloop fuel' pattern' fmts buf interval len done' (pos + todo) 0
                  (Z.min (u32 (len - done')) interval) (u64 (off + interval))
       end.

(** verify.c:439-517 [verify_io_u_pattern] for header number [hdr_num]; [hdr_inc] is the value of
    get_hdr_inc and [header_size] that of __hdr_size (0 for pattern_hdr=0).  Result: 0 or an error.
    The pattern is the configured one or its private copy. *)
Definition verify_io_u_pattern (pattern : list Z) (fmts : list pfmt) (interval : Z)
  (hdr_inc header_size hdr_num offset : Z) (buf : list Z) : option Z :=
  let psize := zlen pattern in
  let pos := hdr_inc * hdr_num + header_size in
  let len := u32 (hdr_inc - header_size) in
  let extent := u32 (hdr_inc * hdr_num + header_size) in
  if interval =? 0 then
    do (_, pattern') <- paste_format_inplace fmts pattern 0 psize offset;
    vloop (S (Z.to_nat len)) pattern' fmts buf 0 len 0 pos (extent mod psize) len offset
  else
    let imod := extent mod interval in
    vloop (S (Z.to_nat len)) pattern fmts buf interval len 0 pos (imod mod psize)
      (Z.min len (interval - imod)) (u64 (offset + extent / interval * interval)).
