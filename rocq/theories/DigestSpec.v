(** What a digest is: a compression function folded over the blocks of the padded message. Nothing here
    mentions contexts or chunks. *)
From Coq Require Import ZArith List.
From Verif Require Import CBase DigestModel.
Import ListNotations.
Open Scope Z_scope.

(** The number of whole blocks of [B] bytes, the i-th block, the fold over all of them, and what is left. *)
Definition nfull (B : nat) (m : list Z) : nat := (length m / B)%nat.
Definition block (B : nat) (m : list Z) (i : nat) : list Z := firstn B (skipn (i * B) m).
Definition absorb (B : nat) (T : list Z -> list Z -> list Z) (s m : list Z) : list Z :=
  fold_left T (map (block B m) (seq 0 (nfull B m))) s.
Definition rest (B : nat) (m : list Z) : list Z := skipn (nfull B m * B) m.

(** Merkle-Damgaard padding (RFC 1321 3.1, FIPS 180-4 5.1): a one bit and zeros up to [L] bytes before a
    multiple of [B]. *)
Definition md_pad (B L : Z) (m : list Z) : list Z := 0x80 :: repeat 0 (Z.to_nat ((B - L - 1 - zlen m) mod B)).

(** FIPS 202 padding of SHA-3 to a multiple of the rate: bits 01 1 0* 1. *)
Definition sha3_pad (rate : Z) (m : list Z) : list Z :=
  let k := rate - zlen m mod rate in
  if k =? 1 then [0x86] else 0x06 :: repeat 0 (Z.to_nat (k - 2)) ++ [0x80].

(** The messages after padding and length. *)
Definition md5_message (m : list Z) : list Z := m ++ md_pad 64 8 m ++ le_bytes 8 (8 * zlen m mod 2 ^ 64).
Definition sha1_message (m : list Z) : list Z := m ++ md_pad 64 8 m ++ be_bytes 8 (8 * zlen m mod 2 ^ 64).
Definition sha512_message (m : list Z) : list Z := m ++ md_pad 128 16 m ++ be_bytes 16 (8 * zlen m mod 2 ^ 128).
(** fio appends the length in host byte order and counts bytes modulo 2^32. *)
Definition sha256_fio_message (m : list Z) : list Z :=
  m ++ md_pad 64 8 m ++ le_bytes 8 (8 * (zlen m mod 2 ^ 32)).

(** The last [n] bytes. *)
Definition last_bytes (n : nat) (m : list Z) : list Z := skipn (length m - n) m.

(** Feeding the chunks one after the other. *)
Fixpoint feed {C : Type} (upd : C -> list Z -> option C) (c : C) (chunks : list (list Z)) : option C :=
  match chunks with
  | [] => Some c
  | d :: r => do c' <- upd c d; feed upd c' r
  end.
