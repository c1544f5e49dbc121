(** Model of the block verification of verify.c: headers and checksums stored in a write buffer, and their check when the
    block is read back. The buffer of an I/O is the list of its bytes, in memory order of a little-endian machine.
    [None] is an access outside the buffer, a failed assertion, a memcpy between overlapping ranges or a loop that does
    not end. Simplification: the buffer has exactly the length of the I/O (fio allocates max_bs bytes). *)
From Coq Require Import ZArith List Bool.
From Verif Require Import CBase Mem CrcModel DigestModel PatternModel ZeroModel.
Import ListNotations.
Open Scope Z_scope.
Notation le_bytes := DigestModel.le_bytes.

(** enum verify types, verify.h:10-33. *)
Definition VERIFY_NONE := 0.
Definition VERIFY_HDR_ONLY := 1.
Definition VERIFY_MD5 := 2.
Definition VERIFY_CRC64 := 3.
Definition VERIFY_CRC32 := 4.
Definition VERIFY_CRC32C := 5.
Definition VERIFY_CRC32C_INTEL := 6.
Definition VERIFY_CRC16 := 7.
Definition VERIFY_CRC7 := 8.
Definition VERIFY_SHA256 := 9.
Definition VERIFY_SHA512 := 10.
Definition VERIFY_SHA3_224 := 11.
Definition VERIFY_SHA3_256 := 12.
Definition VERIFY_SHA3_384 := 13.
Definition VERIFY_SHA3_512 := 14.
Definition VERIFY_XXHASH := 15.
Definition VERIFY_SHA1 := 16.
Definition VERIFY_PATTERN := 17.
Definition VERIFY_PATTERN_NO_HDR := 18.
Definition VERIFY_NULL := 19.

(** The options read by this code (thread_options.h). [patn] is verify_pattern, [fmts] verify_fmt. The last four decide
    whether numberio is compared (verify.c:958-963). *)
Record cfg := mkCfg { verify : Z; verify_interval : Z; bs_unaligned : bool; verify_offset : Z; patn : list Z; fmts : list pfmt;
  pattern_interval : Z; verify_fatal : bool; header_seed : bool; thread_number : Z; trim_zero : bool;
  w_write : bool; w_fixed_bs : bool; w_time_based : bool; w_sequence : bool }.

(** struct io_u, the fields used. *)
Record iou := mkIou { io_off : Z; io_voff : Z; io_seed : Z; io_numberio : Z; io_sec : Z; io_nsec : Z; io_filled : Z }.

(** Access to [n] bytes at [p]. *)
Definition rd (buf : list Z) (p n : Z) : option (list Z) := slice buf (Z.to_nat p) (Z.to_nat n).
Definition wr (buf : list Z) (p : Z) (d : list Z) : option (list Z) := blit buf (Z.to_nat p) d.

(** The size of the checksum header, verify.c:161-214; [None] is assert(0). sizeof(struct verify_header) is 48, with the
    crc32 field at 44 and two padding bytes at 42, verify.h:53-65. *)
Definition HDR := 48.
Definition extra (vt : Z) : option Z :=
  if (vt =? VERIFY_NONE) || (vt =? VERIFY_HDR_ONLY) || (vt =? VERIFY_NULL) || (vt =? VERIFY_PATTERN) then Some 0
  else if vt =? VERIFY_MD5 then Some 16
  else if vt =? VERIFY_CRC64 then Some 8
  else if (vt =? VERIFY_CRC32C) || (vt =? VERIFY_CRC32) || (vt =? VERIFY_CRC32C_INTEL) then Some 4
  else if vt =? VERIFY_CRC16 then Some 2
  else if vt =? VERIFY_CRC7 then Some 1
  else if vt =? VERIFY_SHA256 then Some 64
  else if vt =? VERIFY_SHA512 then Some 128
  else if vt =? VERIFY_SHA3_224 then Some 28
  else if vt =? VERIFY_SHA3_256 then Some 32
  else if vt =? VERIFY_SHA3_384 then Some 48
  else if vt =? VERIFY_SHA3_512 then Some 64
  else if vt =? VERIFY_XXHASH then Some 4
  else if vt =? VERIFY_SHA1 then Some 20
  else None.
(** __hdr_size, verify.c:157-217. *)
Definition hdr_size_ (vt : Z) : option Z :=
  if vt =? VERIFY_PATTERN_NO_HDR then Some 0 else do e <- extra vt; Some (e + HDR).
(** hdr_size, verify.c:219-226; [p] is the header. *)
Definition hdr_size (c : cfg) (buf : list Z) (p : Z) : option Z :=
  if verify c =? VERIFY_PATTERN_NO_HDR then Some 0
  else do t <- znth buf (p + 3); hdr_size_ t.

(** get_hdr_inc, verify.c:99-113. *)
Definition get_hdr_inc (c : cfg) (buflen : Z) : Z :=
  if negb (verify_interval c =? 0) && (verify_interval c <=? buflen) && negb (bs_unaligned c) then verify_interval c else u32 buflen.

(** What fill_md5 ... fill_xxhash (verify.c:1127-1268) store behind the header for [data]; [old] is what was there before,
    which sha256 and sha512 use as their work area. A call for another type is [None]. *)
Definition csum (vt : Z) (old data : list Z) : option (list Z) :=
  if vt =? VERIFY_MD5 then
    do c <- md5_update md5_transform (md5_init (repeat 0 64)) data (zlen data); do h <- md5_final md5_transform c; Some (flat_map (le_bytes 4) h)
  else if vt =? VERIFY_CRC64 then do c <- fio_crc64 data; Some (le_bytes 8 c)
  else if vt =? VERIFY_CRC32 then do c <- fio_crc32 data; Some (le_bytes 4 c)
  else if (vt =? VERIFY_CRC32C) || (vt =? VERIFY_CRC32C_INTEL) then do c <- crc32c_sw data; Some (le_bytes 4 c)
  else if vt =? VERIFY_CRC16 then do c <- fio_crc16 data; Some (le_bytes 2 c)
  else if vt =? VERIFY_CRC7 then do c <- fio_crc7 data; Some (le_bytes 1 c)
  else if vt =? VERIFY_SHA256 then do c <- sha256_update sha256_transform (sha256_init old) data (zlen data); sha256_final sha256_transform c
  else if vt =? VERIFY_SHA512 then do c <- sha512_update sha512_transform (sha512_init old) data (zlen data); sha512_final sha512_transform c
  else if (VERIFY_SHA3_224 <=? vt) && (vt <=? VERIFY_SHA3_512) then
    let md := nth (Z.to_nat (vt - VERIFY_SHA3_224)) [28; 32; 48; 64] 0 in
    let r := sha3_rsiz md in
    let T := sha3_block (Z.to_nat (r / 8)) in
    do c <- sha3_update T r sha3_init data (zlen data); sha3_final T r (Z.to_nat md) c
  else if vt =? VERIFY_XXHASH then do s <- xxh_update (xxh_init 1 (repeat 0 16)) data; Some (le_bytes 4 (xxh_digest s))
  else if vt =? VERIFY_SHA1 then
    do c <- sha1_update sha1_block (sha1_init (repeat 0 64)) data (zlen data); do h <- sha1_final sha1_block c; Some (flat_map (le_bytes 4) h)
  else None.
(** The types that have a checksum. *)
Definition has_csum (vt : Z) : bool := (VERIFY_MD5 <=? vt) && (vt <=? VERIFY_SHA1).

(** memswp, verify.c:133-142. *)
Definition memswp (buf : list Z) (a b n : Z) : option (list Z) :=
  if 200 <? n then None
  else if n =? 0 then Some buf
  else if Z.abs (a - b) <? n then None
  else do x <- rd buf a n; do y <- rd buf b n; do buf <- wr buf a y; wr buf b x.

(** __fill_hdr, verify.c:1270-1287. *)
Definition fill_hdr_ (c : cfg) (io : iou) (buf : list Z) (p num len : Z) : option (list Z) :=
  do pad <- rd buf (p + 42) 2;
  let h44 := le_bytes 2 0xacca ++ [0x81; u8 (verify c)] ++ le_bytes 4 len ++ le_bytes 8 (io_seed io) ++
             le_bytes 8 (io_voff io + u32 (num * verify_interval c)) ++ le_bytes 4 (io_sec io) ++ le_bytes 4 (io_nsec io) ++
             le_bytes 8 (io_numberio io) ++ le_bytes 2 (thread_number c) ++ pad in
  do crc <- crc32c_sw h44;
  wr buf p (h44 ++ le_bytes 4 crc).
(** fill_hdr, verify.c:1290-1296. *)
Definition fill_hdr (c : cfg) (io : iou) (buf : list Z) (p num len : Z) : option (list Z) :=
  if negb (verify c =? VERIFY_PATTERN_NO_HDR) then fill_hdr_ c io buf p num len else Some buf.

(** populate_hdr, verify.c:1298-1401: the buffer and the error passed to td_verror (0 for none). *)
Definition populate_hdr (c : cfg) (io : iou) (buf : list Z) (p num len : Z) : option (list Z * Z) :=
  do buf <- fill_hdr c io buf p num len;
  do hs <- hdr_size c buf p;
  if len <=? hs then Some (buf, EINVAL)
  else
    do buf <- (if has_csum (verify c)
               then do data <- rd buf (p + hs) (len - hs);
                    do e <- extra (verify c);
                    do old <- rd buf (p + HDR) e;
                    do d <- csum (verify c) old data;
                    wr buf (p + HDR) d
               else if (verify c =? VERIFY_HDR_ONLY) || (verify c =? VERIFY_PATTERN) || (verify c =? VERIFY_PATTERN_NO_HDR) then Some buf
               else None);
    if negb (verify_offset c =? 0) && negb (hs =? 0) then do buf <- memswp buf p (p + verify_offset c) hs; Some (buf, 0)
    else Some (buf, 0).

(** The loop of fill_pattern_headers, verify.c:124-130. *)
Fixpoint hdr_loop (fuel : nat) (c : cfg) (io : iou) (buf : list Z) (inc num p err : Z) : option (list Z * Z) :=
  if zlen buf <=? p then Some (buf, err)
  else match fuel with
       | O => None
       | S fuel => do r <- populate_hdr c io buf p num inc; hdr_loop fuel c io (fst r) inc (u32 (num + 1)) (p + inc) (if err =? 0 then snd r else err)
       end.

(** fill_verify_pattern, verify.c:50-97, on the whole buffer: [rnd] are the bytes the random fill produces for the seed
    drawn [seed]. The pattern part is PatternModel.fill_verify_pattern. *)
Definition fill_payload (c : cfg) (io : iou) (buf rnd : list Z) (seed : Z) : option (list Z * iou) :=
  match patn c with
  | [] => Some (rnd, mkIou (io_off io) (io_voff io) seed (io_numberio io) (io_sec io) (io_nsec io) (io_filled io))
  | _ =>
      if (zlen (fmts c) =? 0) && (zlen buf <=? io_filled io) && (verify_offset c =? 0) then Some (buf, io)
      else do b <- fill_verify_pattern (patn c) (fmts c) (pattern_interval c) (io_off io) buf;
           Some (b, mkIou (io_off io) (io_voff io) (io_seed io) (io_numberio io) (io_sec io) (io_nsec io) (zlen buf))
  end.

(** populate_verify_io_u and fill_pattern_headers, verify.c:115-131 and 1407-1413: buffer, I/O unit and error. *)
Definition populate_verify_io_u (c : cfg) (io : iou) (buf rnd : list Z) (seed : Z) : option (list Z * iou * Z) :=
  if verify c =? VERIFY_NULL then Some (buf, io, 0)
  else
    do bi <- fill_payload c io buf rnd seed;
    let (buf, io) := (bi : list Z * iou) in
    do r <- hdr_loop (S (length buf)) c io buf (get_hdr_inc c (zlen buf)) 0 0 0;
    Some (fst r, io, snd r).

(** A little-endian field of [n] bytes. *)
Definition fld (buf : list Z) (p n : Z) : option Z := do b <- rd buf p n; Some (le_word b).

(** verify_header, verify.c:918-990; 0 or EILSEQ. All fields are read up front, the C reads them one by one; they are all inside
    the header. *)
Definition verify_header (c : cfg) (io : iou) (buf : list Z) (p num len : Z) : option Z :=
  do magic <- fld buf p 2; do version <- fld buf (p + 2) 1; do hlen <- fld buf (p + 4) 4; do seed <- fld buf (p + 8) 8;
  do off <- fld buf (p + 16) 8; do numberio <- fld buf (p + 32) 8; do hcrc <- fld buf (p + 44) 4; do h44 <- rd buf p 44;
  if negb (magic =? 0xacca) then Some EILSEQ
  else if negb (version =? 0x81) then Some EILSEQ
  else if negb (hlen =? len) then Some EILSEQ
  else if header_seed c && negb (seed =? io_seed io) then Some EILSEQ
  else if negb (off =? u64 (io_voff io + u32 (num * verify_interval c))) then Some EILSEQ
  else if w_write c && w_fixed_bs c && negb (w_time_based c) && w_sequence c && negb (numberio =? io_numberio io) then Some EILSEQ
  else do crc <- crc32c_sw h44; Some (if negb (crc =? hcrc) then EILSEQ else 0).

(** verify_io_u_md5 ... verify_io_u_xxhash, verify.c:519-828, through io_u_verify_off (verify.c:387-390): [stk] is what the
    uninitialised result buffer on the stack holds. *)
Definition verify_csum (c : cfg) (vt : Z) (stk buf : list Z) (p num : Z) : option Z :=
  do hlen <- fld buf (p + 4) 4;
  do hs <- hdr_size c buf p;
  do data <- rd buf (u32 (num * hlen) + hs) (u32 (hlen - hs));
  do e <- extra vt;
  do d <- csum vt (firstn (Z.to_nat e) stk) data;
  do good <- rd buf (p + HDR) e;
  Some (if list_eq_dec Z.eq_dec good d then 0 else EILSEQ).

(** The switch of verify_io_u, verify.c:1056-1113; [ret] is the value before it. *)
Definition verify_payload (c : cfg) (io : iou) (vt : Z) (stk buf : list Z) (p num inc ret : Z) : option Z :=
  let pat := do hs <- hdr_size_ (verify c);
             match patn c with
             | [] => None
             | _ => PatternModel.verify_io_u_pattern (patn c) (fmts c) (pattern_interval c) inc hs num (io_off io) buf
             end in
  if vt =? VERIFY_HDR_ONLY then match patn c with [] => Some ret | _ => pat end
  else if has_csum vt then verify_csum c vt stk buf p num
  else if (vt =? VERIFY_PATTERN) || (vt =? VERIFY_PATTERN_NO_HDR) then pat
  else Some EINVAL.

(** The loop of verify_io_u, verify.c:1025-1118: the value returned and whether it is returned at the header check
    (line 1050), past the end of the function. *)
Fixpoint verify_loop (fuel : nat) (c : cfg) (io : iou) (stk buf : list Z) (inc num p ret : Z) : option (Z * bool) :=
  if zlen buf <=? p then Some (ret, false)
  else match fuel with
       | O => None
       | S fuel =>
           if negb (ret =? 0) && verify_fatal c then Some (ret, false)
           else
             do hs <- hdr_size_ (verify c);
             do buf <- (if negb (verify_offset c =? 0) then memswp buf p (p + verify_offset c) hs else Some buf);
             do ret <- (if negb (verify c =? VERIFY_PATTERN_NO_HDR) then verify_header c io buf p num inc else Some ret);
             if negb (verify c =? VERIFY_PATTERN_NO_HDR) && negb (ret =? 0) then Some (ret, true)
             else
               do vt <- (if negb (verify c =? VERIFY_NONE) then Some (verify c) else znth buf (p + 3));
               do ret <- verify_payload c io vt stk buf p num inc ret;
               verify_loop fuel c io stk buf inc (u32 (num + 1)) (p + inc) ret
       end.

(** verify_io_u, verify.c:992-1125: the return value and whether the job is told to stop. [is_read], [fake], [in_dev],
    [trimmed] and [zeroed] are the conditions of lines 993-1020. *)
Definition verify_io_u (c : cfg) (io : iou) (is_read fake in_dev trimmed zeroed : bool) (stk buf : list Z) : option (Z * bool) :=
  let fin := fun r : Z => (r, negb (r =? 0) && verify_fatal c) in
  if (verify c =? VERIFY_NULL) || negb is_read then Some (0, false)
  else if fake then Some (0, false)
  else if in_dev then Some (0, false)
  else if trimmed then do r <- verify_trimmed (trim_zero c) buf (zlen buf); Some (fin (fst r))
  else if zeroed then do r <- verify_zero buf (zlen buf); Some (fin (fst r))
  else
    do r <- verify_loop (S (length buf)) c io stk buf (get_hdr_inc c (zlen buf)) 0 0 0;
    let (ret, early) := (r : Z * bool) in
    Some (if early then (ret, false) else fin ret).

(** gcd, init.c:608-614. *)
Fixpoint gcd_ (fuel : nat) (m n : Z) : option Z :=
  if n =? 0 then Some m else match fuel with O => None | S fuel => gcd_ fuel n (m mod n) end.
(** The interval chosen by fixup_options, init.c:894-915, for block sizes below 4 GiB; [rmin] is the smallest read size of a
    job that also reads, 0 for one that does not. *)
Definition fixup_interval (interval wmin wmax rmin : Z) : option Z :=
  let i := if negb (wmax =? wmin) && (interval =? 0) then wmin else interval in
  let i := if i >? wmin then wmin else if negb (rmin =? 0) && (i >? rmin) then rmin else i in
  if (i =? 0) || negb (wmin mod i =? 0) || negb (wmax mod i =? 0) then gcd_ (Z.to_nat wmax + 2) wmin wmax else Some i.
(** The check of the header offset, init.c:944-949 and options.c:3526. *)
Definition offset_accepted (offset interval : Z) : bool := ((offset =? 0) || (HDR <=? offset)) && (u64 (offset + HDR) <=? interval).
