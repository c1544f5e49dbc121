(** Model of the table driven CRC functions of crc/. A buffer of [len] bytes is a list of [len] bytes;
    a table access outside the table is [None]. *)
From Coq Require Import ZArith List.
From Verif Require Import CBase CrcTables.
Import ListNotations.
Open Scope Z_scope.

(** while (len--) crc = f(crc, *p++); the loop shape of all functions below. *)
Fixpoint bytes_loop (f : Z -> Z -> option Z) (crc : Z) (buf : list Z) : option Z :=
  match buf with
  | [] => Some crc
  | b :: r => do c <- f crc b; bytes_loop f c r
  end.

(** crc7_byte, crc/crc7.h:6-9; fio_crc7, crc/crc7.c:46-53. *)
Definition crc7_byte (crc data : Z) : option Z :=
  znth crc7_syndrome_table (Z.lxor (Z.shiftl crc 1) data).
Definition fio_crc7 (buf : list Z) : option Z := bytes_loop crc7_byte 0 buf.

(** crc16_byte, crc/crc16.h:22-26; fio_crc16, crc/crc16.c:46-54. *)
Definition crc16_byte (crc data : Z) : option Z :=
  do t <- znth crc16_table (Z.land (Z.lxor crc data) 0xff);
  Some (u16 (Z.lxor (Z.shiftr crc 8) t)).
Definition fio_crc16 (buf : list Z) : option Z := bytes_loop crc16_byte 0 buf.

(** fio_crc32, crc/crc32.c:75-84. *)
Definition crc32_byte (crc data : Z) : option Z :=
  do t <- znth crctab (Z.land (Z.lxor (Z.shiftr crc 24) data) 0xff);
  Some (Z.lxor (u32 (Z.shiftl crc 8)) t).
Definition fio_crc32 (buf : list Z) : option Z := bytes_loop crc32_byte 0 buf.

(** crc32c_sw, crc/crc32c.c:116-124. *)
Definition crc32c_byte (crc data : Z) : option Z :=
  do t <- znth crc32c_table (Z.land (Z.lxor crc data) 0xff);
  Some (Z.lxor t (Z.shiftr crc 8)).
Definition crc32c_sw (buf : list Z) : option Z := bytes_loop crc32c_byte (2 ^ 32 - 1) buf.

(** fio_crc64, crc/crc64.c:107-115. *)
Definition crc64_byte (crc data : Z) : option Z :=
  do t <- znth crctab64 (Z.land (Z.lxor crc data) 0xff);
  Some (Z.lxor t (Z.shiftr crc 8)).
Definition fio_crc64 (buf : list Z) : option Z := bytes_loop crc64_byte 0 buf.

(** fio_crc64_nvme (without ISA-L), crc/crc64.c:135-147. *)
Definition crc64_nvme_byte (crc data : Z) : option Z :=
  do t <- znth crc64nvmetable (Z.lxor (Z.land crc 0xff) data);
  Some (Z.lxor (Z.shiftr crc 8) t).
Definition fio_crc64_nvme (crc : Z) (buf : list Z) : option Z :=
  do c <- bytes_loop crc64_nvme_byte (not64 crc) buf; Some (not64 c).

(** fio_crc_t10dif (without ISA-L), crc/crct10dif_common.c:79-89. *)
Definition t10dif_byte (crc data : Z) : option Z :=
  do t <- znth t10_dif_crc_table (Z.land (Z.lxor (Z.shiftr crc 8) data) 0xff);
  Some (u16 (Z.lxor (Z.shiftl crc 8) t)).
Definition fio_crc_t10dif (crc : Z) (buf : list Z) : option Z := bytes_loop t10dif_byte crc buf.

(** crc32c_intel (64-bit), crc/crc32c-intel.c:24-73. The instruction CRC32 is a parameter: [hw8 crc b]
    for the byte form, [hw64 crc q] for the form with a 64-bit operand loaded little-endian. *)
Section Intel.
  Variable hw8 : Z -> Z -> Z.
  Variable hw64 : Z -> Z -> Z.

  (** A little-endian load. *)
  Fixpoint le_load (bs : list Z) : Z :=
    match bs with [] => 0 | b :: r => Z.lor b (Z.shiftl (le_load r) 8) end.

  (** while (iquotient--), lines 57-64. *)
  Fixpoint intel_words (n : nat) (crc : Z) (p : list Z) : Z * list Z :=
    match n with
    | O => (crc, p)
    | S n' => intel_words n' (hw64 crc (le_load (firstn 8 p))) (skipn 8 p)
    end.

  (** [length / SCALE_F] and [length % SCALE_F] are stored in unsigned int. *)
  Definition crc32c_intel (buf : list Z) : Z :=
    let q := u32 (zlen buf / 8) in
    let r := u32 (zlen buf mod 8) in
    let '(crc, p) := intel_words (Z.to_nat q) (2 ^ 32 - 1) buf in
    fold_left hw8 (firstn (Z.to_nat r) p) crc.
End Intel.
