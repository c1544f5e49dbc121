(** Model of the digest contexts of crc/md5.c, crc/sha1.c, crc/sha256.c, crc/sha512.c, crc/sha3.c and
    crc/xxhash.c for a little-endian host. Buffers are lists of bytes, [data] is the memory at the pointer
    argument and [len] the length argument; a read or write outside a buffer, and a loop that does not
    terminate, is [None]. *)
From Coq Require Import ZArith List Bool.
From Verif Require Import CBase Mem DigestTables.
Import ListNotations.
Open Scope Z_scope.

(** ** Words *)

(** The bytes of a word, least significant first. *)
Fixpoint le_bytes (n : nat) (w : Z) : list Z :=
  match n with O => [] | S n' => w mod 256 :: le_bytes n' (w / 256) end.
Definition be_bytes (n : nat) (w : Z) : list Z := rev (le_bytes n w).
Fixpoint le_word (bs : list Z) : Z := match bs with [] => 0 | b :: r => b + 256 * le_word r end.
Definition be_word (bs : list Z) : Z := le_word (rev bs).

(** [n] words of [k] bytes. *)
Definition words (k n : nat) (bs : list Z) : list (list Z) := map (fun i => firstn k (skipn (i * k) bs)) (seq 0 n).
Definition w32 := nth_default 0.
Definition rol32 (x r : Z) : Z := Z.lor (u32 (Z.shiftl x r)) (Z.shiftr x (32 - r)).
Definition ror32 (x r : Z) : Z := Z.lor (Z.shiftr x r) (u32 (Z.shiftl x (32 - r))).
Definition rol64 (x r : Z) : Z := Z.lor (u64 (Z.shiftl x r)) (Z.shiftr x (64 - r)).
Definition ror64 (x r : Z) : Z := Z.lor (Z.shiftr x r) (u64 (Z.shiftl x (64 - r))).
Definition not32 (x : Z) : Z := Z.lxor x (2 ^ 32 - 1).

(** ** Compression functions *)

(** F1..F4, crc/md5.h:11-14. *)
Definition md5_f (r : nat) (x y z : Z) : Z :=
  match r with
  | 0%nat => Z.lxor z (Z.land x (Z.lxor y z))
  | 1%nat => Z.lxor y (Z.land z (Z.lxor x y))
  | 2%nat => Z.lxor (Z.lxor x y) z
  | _ => Z.lxor y (Z.lor x (not32 z))
  end.

(** MD5STEP, crc/md5.h:16-17; the registers are passed in the order w x y z and rotated to z w x y. *)
Definition md5_step (inp : list Z) (st : nat * (Z * Z * Z * Z)) (s : nat * Z * Z) : nat * (Z * Z * Z * Z) :=
  let '(i, (w, x, y, z)) := st in
  let '(k, c, r) := s in
  let w1 := u32 (w + md5_f (i / 16) x y z + u32 (w32 inp k + c)) in
  let w2 := u32 (rol32 w1 r + x) in
  (S i, (z, w2, x, y)).

(** md5_transform, crc/md5.c:7-88. *)
Definition md5_transform (hash block : list Z) : list Z :=
  let inp := map le_word (words 4 16 block) in
  let '(_, (a, b, c, d)) :=
    fold_left (md5_step inp) md5_steps (0%nat, (w32 hash 0, w32 hash 1, w32 hash 2, w32 hash 3)) in
  [u32 (w32 hash 0 + a); u32 (w32 hash 1 + b); u32 (w32 hash 2 + c); u32 (w32 hash 3 + d)].

(** SHA_ROUND with the T_ macros, crc/sha1.c:92-105; [wn] is the window of the last 16 words (array),
    registers rotated to E A B C D after each round. *)
Definition sha1_fk (t : nat) (b c d : Z) : Z * Z :=
  if (t <? 20)%nat then (Z.lxor (Z.land (Z.lxor c d) b) d, 0x5a827999)
  else if (t <? 40)%nat then (Z.lxor (Z.lxor b c) d, 0x6ed9eba1)
  else if (t <? 60)%nat then (Z.land b c + Z.land d (Z.lxor b c), 0x8f1bbcdc)
  else (Z.lxor (Z.lxor b c) d, 0xca62c1d6).

Definition sha1_round (inp : list Z) (st : list Z * (Z * Z * Z * Z * Z)) (t : nat) :
  list Z * (Z * Z * Z * Z * Z) :=
  let '(arr, (a, b, c, d, e)) := st in
  let temp := if (t <? 16)%nat then w32 inp t
              else rol32 (Z.lxor (Z.lxor (w32 arr ((t + 13) mod 16)) (w32 arr ((t + 8) mod 16)))
                                 (Z.lxor (w32 arr ((t + 2) mod 16)) (w32 arr (t mod 16)))) 1 in
  let '(f, k) := sha1_fk t b c d in
  let e' := u32 (e + temp + rol32 a 5 + f + k) in
  (firstn (t mod 16) arr ++ temp :: skipn (S (t mod 16)) arr, (e', a, ror32 b 2, c, d)).

(** blk_SHA1Block, crc/sha1.c:110-216. *)
Definition sha1_block (hash block : list Z) : list Z :=
  let inp := map be_word (words 4 16 block) in
  let '(_, (a, b, c, d, e)) :=
    fold_left (sha1_round inp) (seq 0 80)
      (repeat 0 16, (w32 hash 0, w32 hash 1, w32 hash 2, w32 hash 3, w32 hash 4)) in
  [u32 (w32 hash 0 + a); u32 (w32 hash 1 + b); u32 (w32 hash 2 + c); u32 (w32 hash 3 + d); u32 (w32 hash 4 + e)].

(** Ch, Maj and the loop over W shared by crc/sha256.c:27-227 and crc/sha512.c:24-145: [add] wraps at the
    word size, [blend] is BLEND_OP, [e0] [e1] the rotations. *)
Definition ch (x y z : Z) : Z := Z.lxor z (Z.land x (Z.lxor y z)).
Definition maj (x y z : Z) : Z := Z.lor (Z.land x y) (Z.land z (Z.lor x y)).

Fixpoint sha2_W (m : Z) (s0 s1 : Z -> Z) (n : nat) (w : list Z) : list Z :=
  match n with
  | O => w
  | S n' => let l := length w in
      sha2_W m s0 s1 n' (w ++ [(s1 (w32 w (l - 2)) + w32 w (l - 7) + s0 (w32 w (l - 15)) + w32 w (l - 16)) mod m])
  end.

Definition sha2_round (m : Z) (e0 e1 : Z -> Z) (r : Z * Z * Z * Z * Z * Z * Z * Z) (kw : Z * Z) :=
  let '(a, b, c, d, e, f, g, h) := r in
  let t1 := (h + e1 e + ch e f g + fst kw + snd kw) mod m in
  let t2 := (e0 a + maj a b c) mod m in
  ((t1 + t2) mod m, a, b, c, (d + t1) mod m, e, f, g).

Definition sha2_transform (m : Z) (e0 e1 s0 s1 : Z -> Z) (wb n : nat) (ks hash block : list Z) : list Z :=
  let w := sha2_W m s0 s1 (n - 16) (map be_word (words wb 16 block)) in
  let '(a, b, c, d, e, f, g, h) :=
    fold_left (sha2_round m e0 e1) (combine ks w)
      (w32 hash 0, w32 hash 1, w32 hash 2, w32 hash 3, w32 hash 4, w32 hash 5, w32 hash 6, w32 hash 7) in
  [(w32 hash 0 + a) mod m; (w32 hash 1 + b) mod m; (w32 hash 2 + c) mod m; (w32 hash 3 + d) mod m;
   (w32 hash 4 + e) mod m; (w32 hash 5 + f) mod m; (w32 hash 6 + g) mod m; (w32 hash 7 + h) mod m].

Definition x3 (a b c : Z) : Z := Z.lxor (Z.lxor a b) c.

(** sha256_transform, crc/sha256.c:37-40 and 66-227. *)
Definition sha256_transform : list Z -> list Z -> list Z :=
  sha2_transform (2 ^ 32)
    (fun x => x3 (ror32 x 2) (ror32 x 13) (ror32 x 22)) (fun x => x3 (ror32 x 6) (ror32 x 11) (ror32 x 25))
    (fun x => x3 (ror32 x 7) (ror32 x 18) (Z.shiftr x 3)) (fun x => x3 (ror32 x 17) (ror32 x 19) (Z.shiftr x 10))
    4 64 sha256_K.

(** sha512_transform, crc/sha512.c:69-72 and 104-146. *)
Definition sha512_transform : list Z -> list Z -> list Z :=
  sha2_transform (2 ^ 64)
    (fun x => x3 (ror64 x 28) (ror64 x 34) (ror64 x 39)) (fun x => x3 (ror64 x 14) (ror64 x 18) (ror64 x 41))
    (fun x => x3 (ror64 x 1) (ror64 x 8) (Z.shiftr x 7)) (fun x => x3 (ror64 x 19) (ror64 x 61) (Z.shiftr x 6))
    8 80 sha512_K.

(** keccakf, crc/sha3.c:48-87. *)
Definition keccak_theta (st : list Z) : list Z :=
  let bc := map (fun i => Z.lxor (x3 (w32 st i) (w32 st (i + 5)) (w32 st (i + 10)))
                                 (Z.lxor (w32 st (i + 15)) (w32 st (i + 20)))) (seq 0 5) in
  map (fun k => let i := (k mod 5)%nat in
     Z.lxor (w32 st k) (Z.lxor (w32 bc ((i + 4) mod 5)) (rol64 (w32 bc ((i + 1) mod 5)) 1))) (seq 0 25).
Definition keccak_rhopi (st : list Z) : list Z :=
  snd (fold_left (fun ts jr => let '(t, s) := ts in let '(j, r) := jr in
         (w32 s j, firstn j s ++ rol64 t r :: skipn (S j) s))
       (combine keccakf_piln keccakf_rotc) (w32 st 1, st)).
Definition keccak_chi (st : list Z) : list Z :=
  map (fun k => let j := (k / 5 * 5)%nat in let i := (k mod 5)%nat in
     Z.lxor (w32 st k) (Z.land (not64 (w32 st (j + (i + 1) mod 5))) (w32 st (j + (i + 2) mod 5)))) (seq 0 25).
Definition keccak_round (st : list Z) (c : Z) : list Z :=
  match keccak_chi (keccak_rhopi (keccak_theta st)) with
  | [] => []
  | x :: r => Z.lxor x c :: r
  end.
Definition keccakf (st : list Z) : list Z := fold_left keccak_round keccakf_rndc st.

(** for (i = 0; i < rsizw; i++) st[i] ^= ((uint64_t * ) src)[i]; keccakf(st), crc/sha3.c:139-141. *)
Fixpoint xor_words (st ws : list Z) : list Z :=
  match st, ws with x :: st', w :: ws' => Z.lxor x w :: xor_words st' ws' | _, _ => st end.
Definition sha3_block (rsizw : nat) (st block : list Z) : list Z :=
  keccakf (xor_words st (map le_word (words 8 rsizw block))).

(** ** Contexts. [T] is the compression function, applied to a whole block. *)

Record ctx := mkCtx { st : list Z; buf : list Z; cnt : Z }.

Section MD5.
  Variable T : list Z -> list Z -> list Z.

  (** while (len >= sizeof(block)) ...; memcpy(block, data, len), crc/md5.c:118-125. *)
  Fixpoint md5_blocks (fuel : nat) (hash block data : list Z) (len : Z) : option (list Z * list Z) :=
    match fuel with
    | O => None
    | S f =>
        if 64 <=? len
        then do d <- slice data 0 64; do b <- blit block 0 d;
             md5_blocks f (T hash b) b (skipn 64 data) (u32 (len - 64))
        else do d <- slice data 0 (Z.to_nat len); do b <- blit block 0 d; Some (hash, b)
    end.

  (** fio_md5_update, crc/md5.c:98-126. *)
  Definition md5_update (c : ctx) (data : list Z) (len : Z) : option ctx :=
    let avail := u32 (64 - Z.land (cnt c) 0x3f) in
    let count := u64 (cnt c + len) in
    if len <? avail
    then do d <- slice data 0 (Z.to_nat len);
         do b <- blit (buf c) (Z.to_nat (64 - avail)) d; Some (mkCtx (st c) b count)
    else do d <- slice data 0 (Z.to_nat avail);
         do b <- blit (buf c) (Z.to_nat (64 - avail)) d;
         do hb <- md5_blocks (S (length data)) (T (st c) b) b (skipn (Z.to_nat avail) data) (u32 (len - avail));
         Some (mkCtx (fst hb) (snd hb) count).

  (** fio_md5_final, crc/md5.c:128-146. *)
  Definition md5_final (c : ctx) : option (list Z) :=
    let offset := Z.land (cnt c) 0x3f in
    let padding := 56 - (offset + 1) in
    do b1 <- blit (buf c) (Z.to_nat offset) [0x80];
    do hbpp <- (if padding <? 0
               then do b2 <- blit b1 (Z.to_nat (offset + 1)) (repeat 0 (Z.to_nat (u64 (padding + 8))));
                    Some (T (st c) b2, b2, 0, 56)
               else Some (st c, b1, offset + 1, padding));
    let '(h, b2, p, pad) := hbpp in
    do b3 <- blit b2 (Z.to_nat p) (repeat 0 (Z.to_nat pad));
    do b4 <- blit b3 56 (le_bytes 4 (u32 (u64 (Z.shiftl (cnt c) 3))));
    do b5 <- blit b4 60 (le_bytes 4 (u32 (Z.shiftr (cnt c) 29)));
    Some (T h b5).
End MD5.

(** fio_md5_init, crc/md5.c:90-96; byte_count is zeroed by the callers' initialiser. [b] is whatever the
    block holds. *)
Definition md5_iv : list Z := [0x67452301; 0xefcdab89; 0x98badcfe; 0x10325476].
Definition md5_init (b : list Z) : ctx := mkCtx md5_iv b 0.

Section SHA1.
  Variable T : list Z -> list Z -> list Z.

  (** while (len >= 64) ...; if (len) memcpy(W, data, len), crc/sha1.c:49-55. *)
  Fixpoint sha1_blocks (fuel : nat) (hash w data : list Z) (len : Z) : option (list Z * list Z) :=
    match fuel with
    | O => None
    | S f =>
        if 64 <=? len
        then do d <- slice data 0 64; sha1_blocks f (T hash d) w (skipn 64 data) (u64 (len - 64))
        else if len =? 0 then Some (hash, w)
        else do d <- slice data 0 (Z.to_nat len); do b <- blit w 0 d; Some (hash, b)
    end.

  (** fio_sha1_update, crc/sha1.c:28-56. *)
  Definition sha1_update (c : ctx) (data : list Z) (len : Z) : option ctx :=
    let lenW := Z.land (cnt c) 63 in
    let size := u64 (cnt c + len) in
    if lenW =? 0 then
      do hb <- sha1_blocks (S (length data)) (st c) (buf c) data len; Some (mkCtx (fst hb) (snd hb) size)
    else
      let left := 64 - lenW in
      let left := if len <? left then len else left in
      do d <- slice data 0 (Z.to_nat left);
      do b <- blit (buf c) (Z.to_nat lenW) d;
      let lenW := Z.land (lenW + left) 63 in
      let len := u64 (len - left) in
      if negb (lenW =? 0) then Some (mkCtx (st c) b size)
      else do hb <- sha1_blocks (S (length data)) (T (st c) b) b (skipn (Z.to_nat left) data) len;
           Some (mkCtx (fst hb) (snd hb) size).

  (** fio_sha1_final, crc/sha1.c:58-73. *)
  Definition sha1_final (c : ctx) : option (list Z) :=
    let padlen := be_bytes 4 (u32 (Z.shiftr (cnt c) 29)) ++ be_bytes 4 (u32 (u64 (Z.shiftl (cnt c) 3))) in
    let i := Z.land (cnt c) 63 in
    do c1 <- sha1_update c (0x80 :: repeat 0 63) (1 + Z.land 63 (55 - i));
    do c2 <- sha1_update c1 padlen 8;
    Some (st c2).
End SHA1.

(** fio_sha1_init, crc/sha1.c:15-26. *)
Definition sha1_iv : list Z := [0x67452301; 0xefcdab89; 0x98badcfe; 0x10325476; 0xc3d2e1f0].
Definition sha1_init (w : list Z) : ctx := mkCtx sha1_iv w 0.

Section SHA256.
  Variable T : list Z -> list Z -> list Z.

  (** do { transform(state, src); done += bs; src = data + done; } while (done + (bs - 1) < len), crc/sha256.c:260-264
      with bs = 64 and crc/sha3.c:135-145 with bs = rsiz. Returns the state and done. *)
  Fixpoint src_loop (bs : Z) (fuel : nat) (s src data : list Z) (done len : Z) : option (list Z * Z) :=
    match fuel with
    | O => None
    | S f =>
        do blk <- slice src 0 (Z.to_nat bs);
        let done := u32 (done + bs) in
        if u32 (done + (bs - 1)) <? len
        then src_loop bs f (T s blk) (skipn (Z.to_nat done) data) data done len
        else Some (T s blk, done)
    end.

  (** fio_sha256_update, crc/sha256.c:242-269. *)
  Definition sha256_update (c : ctx) (data : list Z) (len : Z) : option ctx :=
    let partial := Z.land (cnt c) 0x3f in
    let count := u32 (cnt c + len) in
    if 63 <? u32 (partial + len) then
      do r <- (if partial =? 0 then Some (0, buf c, data)
               else let done := u32 (- partial) in
                    do d <- slice data 0 (Z.to_nat (u32 (done + 64)));
                    do b <- blit (buf c) (Z.to_nat partial) d;
                    Some (done, b, b));
      let '(done, b, src) := r in
      do sd <- src_loop 64 (S (length data)) (st c) src data done len;
      do d <- slice (skipn (Z.to_nat (snd sd)) data) 0 (Z.to_nat (u32 (len - snd sd)));
      do b' <- blit b 0 d;
      Some (mkCtx (fst sd) b' count)
    else
      do d <- slice data 0 (Z.to_nat len);
      do b <- blit (buf c) (Z.to_nat partial) d;
      Some (mkCtx (st c) b count).

  (** fio_sha256_final, crc/sha256.c:271-292: sctx->buf[i] = sctx->state[i] stores one byte per word. *)
  Definition sha256_final (c : ctx) : option (list Z) :=
    let bits := u64 (Z.shiftl (cnt c) 3) in
    let index := Z.land (cnt c) 0x3f in
    let pad_len := if index <? 56 then 56 - index else 64 + 56 - index in
    do c1 <- sha256_update c (0x80 :: repeat 0 63) pad_len;
    do c2 <- sha256_update c1 (le_bytes 8 bits) 8;
    blit (buf c2) 0 (map u8 (firstn 8 (st c2))).
End SHA256.

(** fio_sha256_init, crc/sha256.c:42-49 and 229-240. *)
Definition sha256_iv : list Z :=
  [0x6a09e667; 0xbb67ae85; 0x3c6ef372; 0xa54ff53a; 0x510e527f; 0x9b05688c; 0x1f83d9ab; 0x5be0cd19].
Definition sha256_init (b : list Z) : ctx := mkCtx sha256_iv b 0.

(** sha512: the four words of count are [cnts], least significant first. *)
Record ctx512 := mkCtx512 { st5 : list Z; buf5 : list Z; cnt0 : Z; cnt1 : Z; cnt2 : Z; cnt3 : Z }.

Section SHA512.
  Variable T : list Z -> list Z -> list Z.

  (** for (i = part_len; i + 127 < len; i += 128) transform(&data[i]), crc/sha512.c:183-184. *)
  Fixpoint sha512_blocks (fuel : nat) (s data : list Z) (i len : Z) : option (list Z * Z) :=
    match fuel with
    | O => None
    | S f =>
        if u32 (i + 127) <? len
        then do d <- slice (skipn (Z.to_nat i) data) 0 128; sha512_blocks f (T s d) data (u32 (i + 128)) len
        else Some (s, i)
    end.

  (** fio_sha512_update, crc/sha512.c:161-197. *)
  Definition sha512_update (c : ctx512) (data : list Z) (len : Z) : option ctx512 :=
    let idx := Z.land (Z.shiftr (cnt0 c) 3) 0x7f in
    let l3 := u32 (Z.shiftl len 3) in
    let c0 := u32 (cnt0 c + l3) in
    let '(c1, c2, c3) :=
      if c0 <? l3 then
        let c1 := u32 (cnt1 c + 1) in
        let '(c2, c3) :=
          if c1 <? 1 then
            let c2 := u32 (cnt2 c + 1) in
            if c2 <? 1 then (c2, u32 (cnt3 c + 1)) else (c2, cnt3 c)
          else (cnt2 c, cnt3 c) in
        (u32 (c1 + Z.shiftr len 29), c2, c3)
      else (cnt1 c, cnt2 c, cnt3 c) in
    let part_len := 128 - idx in
    if part_len <=? len then
      do d <- slice data 0 (Z.to_nat part_len);
      do b <- blit (buf5 c) (Z.to_nat idx) d;
      do si <- sha512_blocks (S (length data)) (T (st5 c) b) data part_len len;
      do d2 <- slice (skipn (Z.to_nat (snd si)) data) 0 (Z.to_nat (u32 (len - snd si)));
      do b2 <- blit b 0 d2;
      Some (mkCtx512 (fst si) b2 c0 c1 c2 c3)
    else
      do d <- slice data 0 (Z.to_nat len);
      do b <- blit (buf5 c) (Z.to_nat idx) d;
      Some (mkCtx512 (st5 c) b c0 c1 c2 c3).

  (** fio_sha512_final, crc/sha512.c:199-254. *)
  Definition sha512_final (c : ctx512) : option (list Z) :=
    let bits := be_bytes 4 (cnt3 c) ++ be_bytes 4 (cnt2 c) ++ be_bytes 4 (cnt1 c) ++ be_bytes 4 (cnt0 c) in
    let index := Z.land (Z.shiftr (cnt0 c) 3) 0x7f in
    let pad_len := if index <? 112 then 112 - index else 128 + 112 - index in
    do c1 <- sha512_update c (0x80 :: repeat 0 127) pad_len;
    do c2 <- sha512_update c1 bits 16;
    blit (buf5 c2) 0 (flat_map (be_bytes 8) (firstn 8 (st5 c2))).
End SHA512.

(** fio_sha512_init, crc/sha512.c:75-82 and 148-159. *)
Definition sha512_iv : list Z :=
  [0x6a09e667f3bcc908; 0xbb67ae8584caa73b; 0x3c6ef372fe94f82b; 0xa54ff53a5f1d36f1;
   0x510e527fade682d1; 0x9b05688c2b3e6c1f; 0x1f83d9abfb41bd6b; 0x5be0cd19137e2179].
Definition sha512_init (b : list Z) : ctx512 := mkCtx512 sha512_iv b 0 0 0 0.

Section SHA3.
  (** [T] absorbs a block of [rsiz] bytes. [cnt] holds the field partial. *)
  Variable T : list Z -> list Z -> list Z.
  Variable rsiz : Z.

  (** fio_sha3_update, crc/sha3.c:119-153. *)
  Definition sha3_update (c : ctx) (data : list Z) (len : Z) : option ctx :=
    if rsiz - 1 <? u32 (cnt c + len) then
      do r <- (if cnt c =? 0 then Some (0, buf c, data)
               else let done := u32 (- cnt c) in
                    do d <- slice data 0 (Z.to_nat (u32 (done + rsiz)));
                    do b <- blit (buf c) (Z.to_nat (cnt c)) d;
                    Some (done, b, b));
      let '(done, b, src) := r in
      do sd <- src_loop T rsiz (S (length data)) (st c) src data done len;
      let n := u32 (len - snd sd) in
      do d <- slice (skipn (Z.to_nat (snd sd)) data) 0 (Z.to_nat n);
      do b' <- blit b 0 d;
      Some (mkCtx (fst sd) b' n)
    else
      do d <- slice data 0 (Z.to_nat len);
      do b <- blit (buf c) (Z.to_nat (cnt c)) d;
      Some (mkCtx (st c) b (u32 (cnt c + len))).

  (** fio_sha3_final, crc/sha3.c:155-172. *)
  Definition sha3_final (md_len : nat) (c : ctx) : option (list Z) :=
    do b1 <- blit (buf c) (Z.to_nat (cnt c)) [0x06];
    do b2 <- blit b1 (Z.to_nat (cnt c + 1)) (repeat 0 (Z.to_nat (rsiz - (cnt c + 1))));
    do x <- znth b2 (rsiz - 1);
    do b3 <- blit b2 (Z.to_nat (rsiz - 1)) [Z.lor x 0x80];
    do blk <- slice b3 0 (Z.to_nat rsiz);
    Some (firstn md_len (flat_map (le_bytes 8) (T (st c) blk))).
End SHA3.

(** fio_sha3_init, crc/sha3.c:89-97; buf has SHA3_224_BLOCK_SIZE bytes, crc/sha3.h:33. *)
Definition sha3_init : ctx := mkCtx (repeat 0 25) (repeat 0 144) 0.
Definition sha3_rsiz (md_len : Z) : Z := 200 - 2 * md_len.

(** ** xxhash *)

(** crc/xxhash.c:123-127. *)
Definition P1 : Z := 2654435761.
Definition P2 : Z := 2246822519.
Definition P3 : Z := 3266489917.
Definition P4 : Z := 668265263.
Definition P5 : Z := 374761393.

(** v += XXH_readLE32(p) * PRIME32_2; v = XXH_rotl32(v, 13); v *= PRIME32_1 for the four lanes of a
    16-byte stripe, crc/xxhash.c:183-189, 308-312 and 327-333. *)
Definition xxh_lane (v w : Z) : Z := u32 (rol32 (u32 (v + u32 (w * P2))) 13 * P1).
Definition xxh_stripe (v stripe : list Z) : list Z :=
  map (fun vw => xxh_lane (fst vw) (snd vw)) (combine v (map le_word (words 4 4 stripe))).

(** The four lanes for a seed, crc/xxhash.c:177-180 and 267-270. *)
Definition xxh_v0 (seed : Z) : list Z := [u32 (u32 (seed + P1) + P2); u32 (seed + P2); u32 (seed + 0); u32 (seed - P1)].

(** while (p <= bEnd - 4) ...; while (p < bEnd) ...; crc/xxhash.c:200-213 and 378-391. *)
Fixpoint xxh_bytes (h : Z) (p : list Z) : Z :=
  match p with
  | [] => h
  | b :: r => xxh_bytes (u32 (rol32 (u32 (h + u32 (b * P5))) 11 * P1)) r
  end.
Fixpoint xxh_tail (h : Z) (p : list Z) : Z :=
  match p with
  | b0 :: b1 :: b2 :: b3 :: r => xxh_tail (u32 (rol32 (u32 (h + u32 (le_word [b0; b1; b2; b3] * P3))) 17 * P4)) r
  | _ => xxh_bytes h p
  end.

(** crc/xxhash.c:214-220 and 393-397. *)
Definition xxh_avalanche (h : Z) : Z :=
  let h := u32 (Z.lxor h (Z.shiftr h 15) * P2) in
  let h := u32 (Z.lxor h (Z.shiftr h 13) * P3) in
  Z.lxor h (Z.shiftr h 16).

(** crc/xxhash.c:191 and 370. *)
Definition xxh_merge (v : list Z) : Z :=
  u32 (rol32 (w32 v 0) 1 + rol32 (w32 v 1) 7 + rol32 (w32 v 2) 12 + rol32 (w32 v 3) 18).

(** do { stripe } while (p <= limit), crc/xxhash.c:181-189 and 325-333; [p] is what lies between the pointer and
    bEnd. *)
Fixpoint xxh_stripes (fuel : nat) (v p : list Z) : option (list Z * list Z) :=
  match fuel with
  | O => None
  | S f =>
      do s <- slice p 0 16;
      let p := skipn 16 p in
      if (16 <=? length p)%nat then xxh_stripes f (xxh_stripe v s) p else Some (xxh_stripe v s, p)
  end.

(** XXH32_endian_align, crc/xxhash.c:165-221, with len = |data|. *)
Definition xxh32 (data : list Z) (seed : Z) : option Z :=
  do hp <- (if (16 <=? length data)%nat
            then do vp <- xxh_stripes (S (length data)) (xxh_v0 seed) data; Some (xxh_merge (fst vp), snd vp)
            else Some (u32 (seed + P5), data));
  Some (xxh_avalanche (xxh_tail (u32 (fst hp + u32 (zlen data))) (snd hp))).

(** struct XXH_state32_t, crc/xxhash.h:68-78. *)
Record xxh_state := mkXxh { x_total : Z; x_seed : Z; x_v : list Z; x_memsize : Z; x_mem : list Z }.

(** XXH32_init and XXH32_resetState, crc/xxhash.c:263-282; [m] is the unset memory. *)
Definition xxh_init (seed : Z) (m : list Z) : xxh_state := mkXxh 0 seed (xxh_v0 seed) 0 m.

(** XXH32_update_endian, crc/xxhash.c:285-345, with len = |data| as an int. *)
Definition xxh_update (s : xxh_state) (data : list Z) : option xxh_state :=
  let len := zlen data in
  let total := u64 (x_total s + len) in
  if x_memsize s + len <? 16 then
    do m <- blit (x_mem s) (Z.to_nat (x_memsize s)) data;
    Some (mkXxh total (x_seed s) (x_v s) (x_memsize s + len) m)
  else
    do r <- (if x_memsize s =? 0 then Some (x_v s, x_mem s, data)
             else do d <- slice data 0 (Z.to_nat (16 - x_memsize s));
                  do m <- blit (x_mem s) (Z.to_nat (x_memsize s)) d;
                  Some (xxh_stripe (x_v s) m, m, skipn (Z.to_nat (16 - x_memsize s)) data));
    let '(v, m, p) := r in
    do vp <- (if (16 <=? length p)%nat then xxh_stripes (S (length p)) v p else Some (v, p));
    match snd vp with
    | [] => Some (mkXxh total (x_seed s) (fst vp) 0 m)
    | p => do m' <- blit m 0 p; Some (mkXxh total (x_seed s) (fst vp) (zlen p) m')
    end.

(** XXH32_intermediateDigest_endian, crc/xxhash.c:361-400. *)
Definition xxh_digest (s : xxh_state) : Z :=
  let h := if 16 <=? x_total s then xxh_merge (x_v s) else u32 (x_seed s + P5) in
  xxh_avalanche (xxh_tail (u32 (h + u32 (x_total s))) (firstn (Z.to_nat (x_memsize s)) (x_mem s))).
