(** What a block that passes verification looks like, byte for byte. *)
From Coq Require Import ZArith List Bool.
From Verif Require Import CBase CrcSpec DigestModel DigestSpec PatternModel PatternSpec VerifyModel.
Import ListNotations.
Open Scope Z_scope.

(** The little-endian number in the [n] bytes at [p]. *)
Fixpoint number (b : list Z) (p n : nat) : Z :=
  match n with O => 0 | S n => nth p b 0 + 256 * number b (S p) n end.

(** Bytes of checksum each type stores behind its 48-byte header. *)
Definition csum_bytes (vt : Z) : nat :=
  nth (Z.to_nat vt) [0; 0; 16; 8; 4; 4; 4; 2; 1; 64; 128; 28; 32; 48; 64; 4; 20; 0; 0; 0]%nat 0%nat.
Definition header_bytes (vt : Z) : nat := if vt =? 18 then 0%nat else (48 + csum_bytes vt)%nat.

(** [d] is the checksum of type [vt] of [data]. *)
Definition is_csum (vt : Z) (data d : list Z) : Prop :=
  match vt with
  | 2 => d = flat_map (le_bytes 4) (absorb 64 md5_transform md5_iv (md5_message data))
  | 3 => exists r, d = le_bytes 8 (reflect 64 r) /\ is_crc 64 0xad93d23594c935a9 0 (lsb_first data) r
  | 4 => exists r, d = le_bytes 4 r /\ is_crc 32 0x04C11DB7 0 (msb_first data) r
  | 5 | 6 => exists r, d = le_bytes 4 (reflect 32 r) /\ is_crc 32 0x1EDC6F41 (2 ^ 32 - 1) (lsb_first data) r
  | 7 => exists r, d = le_bytes 2 (reflect 16 r) /\ is_crc 16 0x8005 0 (lsb_first data) r
  | 8 => exists r, d = [r] /\ is_crc 7 0x09 0 (msb_first data) r
  | 9 => d = map u8 (absorb 64 sha256_transform sha256_iv (sha256_fio_message data)) ++ skipn 8 (last_bytes 64 (sha256_fio_message data))
  | 10 => d = flat_map (be_bytes 8) (absorb 128 sha512_transform sha512_iv (sha512_message data)) ++ skipn 64 (last_bytes 128 (sha512_message data))
  | 11 | 12 | 13 | 14 =>
      let r := 200 - 2 * Z.of_nat (csum_bytes vt) in
      d = firstn (csum_bytes vt) (flat_map (le_bytes 8) (absorb (Z.to_nat r) (sha3_block (Z.to_nat (r / 8))) (repeat 0 25) (data ++ sha3_pad r data)))
  | 15 => exists h, d = le_bytes 4 h /\ xxh32 data 1 = Some h
  | 16 => d = flat_map (le_bytes 4) (absorb 64 sha1_block sha1_iv (sha1_message data))
  | _ => False
  end.

(** A block as it is with the header at its front, from the image on the media where the header is at [vo]. *)
Definition unswap (vo hs : nat) (b : list Z) : list Z :=
  if (vo =? 0)%nat || (hs =? 0)%nat then b
  else firstn hs (skipn vo b) ++ firstn (vo - hs) (skipn hs b) ++ firstn hs b ++ skipn (vo + hs) b.

(** The header of block [k] of [inc] bytes is the one expected. *)
Definition good_header (c : cfg) (io : iou) (k inc : nat) (b : list Z) : Prop :=
  verify c = 18 \/
  (number b 0 2 = 0xacca /\ number b 2 1 = 0x81 /\ number b 4 4 = Z.of_nat inc /\
   number b 16 8 = (io_voff io + Z.of_nat k * verify_interval c) mod 2 ^ 64 /\
   (header_seed c = true -> number b 8 8 = io_seed io) /\
   (w_write c = true -> w_fixed_bs c = true -> w_time_based c = false -> w_sequence c = true -> number b 32 8 = io_numberio io) /\
   exists r, number b 44 4 = reflect 32 r /\ is_crc 32 0x1EDC6F41 (2 ^ 32 - 1) (lsb_first (firstn 44 b)) r).

(** Its payload is: the checksum is that of the data behind the header whose type is stored in the header, or the bytes are
    those of the pattern. *)
Definition good_payload (c : cfg) (fields : list nat) (io : iou) (k inc : nat) (b : list Z) : Prop :=
  if has_csum (verify c)
  then is_csum (verify c) (skipn (header_bytes (nth 3 b 0)) b) (firstn (csum_bytes (verify c)) (skipn 48 b))
  else patn c <> [] ->
       forall j, (header_bytes (verify c) <= j < inc)%nat ->
         nth j b 0 = block_byte (patn c) fields (Z.to_nat (pattern_interval c)) (io_off io) (inc * k + j).

(** Block [k] of a buffer. *)
Definition vblock (inc : nat) (buf : list Z) (k : nat) : list Z := firstn inc (skipn (k * inc) buf).

(** The options of a job that verifies, with blocks of [inc] bytes: a type other than none and null, room for a payload, the
    header offset clear of the header at the front and inside the block, and a pattern if the type needs one. *)
Definition job_ok (c : cfg) (fields : list nat) (inc : nat) : Prop :=
  1 <= verify c <= 18 /\ (header_bytes (verify c) < inc)%nat /\ Z.of_nat inc < 2 ^ 29 /\
  0 <= verify_offset c /\
  (verify_offset c = 0 \/ header_bytes (verify c) = 0%nat \/
   (Z.of_nat (header_bytes (verify c)) <= verify_offset c /\ verify_offset c + Z.of_nat (header_bytes (verify c)) <= Z.of_nat inc)) /\
  (17 <= verify c -> patn c <> []) /\ zlen (patn c) < 2 ^ 32 /\ fmts c = fmts_of fields /\ fields_ok 0 fields (length (patn c)) /\
  0 <= pattern_interval c < 2 ^ 32.

(** The fields of an I/O unit are in the range of their C types (offsets are at most loff_t). *)
Definition io_ok (io : iou) : Prop :=
  0 <= io_off io < 2 ^ 63 /\ 0 <= io_voff io < 2 ^ 64 /\ 0 <= io_seed io < 2 ^ 64 /\ 0 <= io_numberio io < 2 ^ 64.

(** The block as the check sees it. *)
Definition seen (c : cfg) (b : list Z) : list Z := unswap (Z.to_nat (verify_offset c)) (header_bytes (verify c)) b.
(** The type a header names is one fio knows, with a header that fits. *)
Definition known_type (inc : nat) (b : list Z) : Prop := nth 3 b 0 <= 19 /\ (header_bytes (nth 3 b 0%Z) <= inc)%nat.
