(** C17, C18: CRCs. *)
From Coq Require Import ZArith List Lia Bool.
From Verif Require Import CBase CrcTables CrcModel CrcSpec CrcProofs.
Import ListNotations.
Open Scope Z_scope.

(** The remainder, hence the CRC, is unique: the theorems below determine the returned value. *)
Theorem C17_crc_unique : forall w p init bs r r', 0 <= w -> 0 <= p < 2 ^ w ->
  is_crc w p init bs r -> is_crc w p init bs r' -> r = r'.
Proof. intros w p init bs r r' Hw Hp. apply rem_unique; auto. Qed.

(** x^7 + x^3 + 1 *)
Theorem C17_crc7 : forall buf, bytes buf ->
  exists r, fio_crc7 buf = Some r /\ is_crc 7 0x09 0 (msb_first buf) r.
Proof. intros buf Hb. apply loop_msb_crc; auto; try lia. exact crc7_step. Qed.

(** x^16 + x^15 + x^2 + 1, bits reflected *)
Theorem C17_crc16 : forall buf, bytes buf ->
  exists r, fio_crc16 buf = Some (reflect 16 r) /\ is_crc 16 0x8005 0 (lsb_first buf) r.
Proof. intros buf Hb. apply (loop_lsb_crc 16 0x8005 crc16_byte buf 0); auto; try lia. exact crc16_step. Qed.

(** The POSIX cksum polynomial, without the length suffix and complement *)
Theorem C17_crc32 : forall buf, bytes buf ->
  exists r, fio_crc32 buf = Some r /\ is_crc 32 0x04C11DB7 0 (msb_first buf) r.
Proof. intros buf Hb. apply loop_msb_crc; auto; try lia. exact crc32_step. Qed.

(** Castagnoli, reflected, register starting with all ones, not complemented at the end *)
Theorem C17_crc32c : forall buf, bytes buf ->
  exists r, crc32c_sw buf = Some (reflect 32 r) /\ is_crc 32 0x1EDC6F41 (2 ^ 32 - 1) (lsb_first buf) r.
Proof.
  intros buf Hb. apply (loop_lsb_crc 32 0x1EDC6F41 crc32c_byte buf (2 ^ 32 - 1)); auto; try lia. exact crc32c_step.
Qed.

Theorem C17_crc64 : forall buf, bytes buf ->
  exists r, fio_crc64 buf = Some (reflect 64 r) /\ is_crc 64 0xad93d23594c935a9 0 (lsb_first buf) r.
Proof.
  intros buf Hb. apply (loop_lsb_crc 64 0xad93d23594c935a9 crc64_byte buf 0); auto; try lia. exact crc64_step.
Qed.

(** NVMe: complemented before and after, continuing from the previous checksum [seed] *)
Theorem C17_crc64_nvme : forall seed buf, 0 <= seed < 2 ^ 64 -> bytes buf ->
  exists r, fio_crc64_nvme seed buf = Some (not64 (reflect 64 r)) /\
    is_crc 64 0xad93d23594c93659 (reflect 64 (not64 seed)) (lsb_first buf) r.
Proof.
  intros seed buf Hs Hb. apply not64_range in Hs.
  destruct (loop_lsb_crc 64 0xad93d23594c93659 crc64_nvme_byte buf (not64 seed)) as (r & E & C); auto; try lia.
  - exact nvme_step.
  - exists r. unfold fio_crc64_nvme. rewrite E. auto.
Qed.

Theorem C17_t10dif : forall seed buf, 0 <= seed < 2 ^ 16 -> bytes buf ->
  exists r, fio_crc_t10dif seed buf = Some r /\ is_crc 16 0x8BB7 seed (msb_first buf) r.
Proof. intros seed buf Hs Hb. apply loop_msb_crc; auto; try lia. exact t10_step. Qed.

(** The checksums with a seed argument can be computed piecewise. *)
Theorem C17_chain : forall seed a b,
  fio_crc_t10dif seed (a ++ b) = (do c <- fio_crc_t10dif seed a; fio_crc_t10dif c b) /\
  fio_crc64_nvme seed (a ++ b) = (do c <- fio_crc64_nvme seed a; fio_crc64_nvme c b).
Proof. intros. split; [apply bytes_loop_app|apply nvme_chain]. Qed.

(** The SSE4.2 path returns what the table path returns, whatever the length modulo 8. *)
Theorem C17_crc32c_hw : forall hw8 hw64 buf, crc32_insn 8 hw8 -> crc32_insn 64 hw64 ->
  bytes buf -> zlen buf < 2 ^ 35 -> crc32c_sw buf = Some (crc32c_intel hw8 hw64 buf).
Proof. intros hw8 hw64 buf H8 H64. apply intel_sw; auto. Qed.

(** At 2^35 bytes the 32-bit word count wraps to 0 and no byte is looked at: two different buffers of that
    length get the same checksum. *)
Theorem C17_crc32c_hw_wrap_refuted : forall hw8 hw64,
  exists a b, bytes a /\ bytes b /\ zlen a = zlen b /\ crc32c_sw a <> crc32c_sw b /\
    crc32c_intel hw8 hw64 a = crc32c_intel hw8 hw64 b.
Proof.
  intros hw8 hw64. destruct (Z_of_nat_complete (2 ^ 35 - 1) ltac:(lia)) as [n Hn].
  assert (B : forall x, byte x -> bytes (x :: repeat 0 n)).
  { intros x Hx. constructor; auto. apply Forall_forall. intros y Hy. apply repeat_spec in Hy. subst. split; lia. }
  assert (L : forall x, zlen (x :: repeat 0 n) = 2 ^ 35).
  { intros x. unfold zlen. cbn [length]. rewrite repeat_length. lia. }
  exists (0 :: repeat 0 n), (1 :: repeat 0 n). split; [|split; [|split; [|split]]].
  - apply B. split; lia.
  - apply B. split; lia.
  - rewrite !L. auto.
  - apply (loop_lsb_burst 32 0x1EDC6F41 crc32c_byte); try lia; auto; try (apply B; split; lia).
    + exact crc32c_step.
    + apply (lsb_byte_burst 4 [] [0] [1] (repeat 0 n)); auto; try (repeat constructor; lia). congruence.
  - rewrite !intel_long by auto. auto.
Qed.

(** ** C18 *)

(** Bits are consecutive in the order the CRC processes them: most significant bit of each byte first for
    crc7, crc32 and T10-DIF, least significant first for the reflected ones. *)
Theorem C18_burst_msb : forall a b, bytes a -> bytes b ->
  (burst 7 (msb_first a) (msb_first b) -> fio_crc7 a <> fio_crc7 b) /\
  (burst 32 (msb_first a) (msb_first b) -> fio_crc32 a <> fio_crc32 b) /\
  (forall seed, 0 <= seed < 2 ^ 16 -> burst 16 (msb_first a) (msb_first b) ->
     fio_crc_t10dif seed a <> fio_crc_t10dif seed b).
Proof.
  intros a b Ha Hb. repeat split.
  - apply (loop_msb_burst 7 9 crc7_byte); try lia; auto. exact crc7_step.
  - apply (loop_msb_burst 32 0x04C11DB7 crc32_byte); try lia; auto. exact crc32_step.
  - intros seed Hs. apply (loop_msb_burst 16 0x8BB7 t10dif_byte); try lia; auto. exact t10_step.
Qed.

Theorem C18_burst_lsb : forall a b, bytes a -> bytes b ->
  (burst 16 (lsb_first a) (lsb_first b) -> fio_crc16 a <> fio_crc16 b) /\
  (burst 32 (lsb_first a) (lsb_first b) -> crc32c_sw a <> crc32c_sw b) /\
  (burst 64 (lsb_first a) (lsb_first b) -> fio_crc64 a <> fio_crc64 b) /\
  (forall seed, 0 <= seed < 2 ^ 64 -> burst 64 (lsb_first a) (lsb_first b) ->
     fio_crc64_nvme seed a <> fio_crc64_nvme seed b).
Proof.
  intros a b Ha Hb. repeat split.
  - apply (loop_lsb_burst 16 0x8005 crc16_byte); try lia; auto. exact crc16_step.
  - apply (loop_lsb_burst 32 0x1EDC6F41 crc32c_byte); try lia; auto. exact crc32c_step.
  - apply (loop_lsb_burst 64 0xad93d23594c935a9 crc64_byte); try lia; auto. exact crc64_step.
  - intros seed Hs B E. apply not64_range in Hs.
    assert (N : bytes_loop crc64_nvme_byte (not64 seed) a <> bytes_loop crc64_nvme_byte (not64 seed) b).
    { apply (loop_lsb_burst 64 0xad93d23594c93659 crc64_nvme_byte); try lia; auto. exact nvme_step. }
    apply N. unfold fio_crc64_nvme in E.
    destruct (bytes_loop crc64_nvme_byte (not64 seed) a), (bytes_loop crc64_nvme_byte (not64 seed) b); try discriminate; auto.
    injection E as E. rewrite <- (not64_invol z), <- (not64_invol z0), E. auto.
Qed.

(** Corollary in bytes: any change confined to w/8 consecutive bytes is detected. *)
Theorem C18_bytes : forall pre x y post, bytes (pre ++ x ++ post) -> bytes (pre ++ y ++ post) ->
  length x = length y -> x <> y ->
  ((length x <= 2)%nat -> fio_crc16 (pre ++ x ++ post) <> fio_crc16 (pre ++ y ++ post)) /\
  ((length x <= 4)%nat -> fio_crc32 (pre ++ x ++ post) <> fio_crc32 (pre ++ y ++ post)) /\
  ((length x <= 4)%nat -> crc32c_sw (pre ++ x ++ post) <> crc32c_sw (pre ++ y ++ post)) /\
  ((length x <= 8)%nat -> fio_crc64 (pre ++ x ++ post) <> fio_crc64 (pre ++ y ++ post)).
Proof.
  intros pre x y post Ha Hb L N.
  assert (Hx : bytes x) by (unfold bytes in *; rewrite !Forall_app in Ha; tauto).
  assert (Hy : bytes y) by (unfold bytes in *; rewrite !Forall_app in Hb; tauto).
  repeat split; intros K.
  - apply (C18_burst_lsb _ _ Ha Hb). apply (lsb_byte_burst 2); auto.
  - apply (C18_burst_msb _ _ Ha Hb). apply (msb_byte_burst 4); auto.
  - apply (C18_burst_lsb _ _ Ha Hb). apply (lsb_byte_burst 4); auto.
  - apply (C18_burst_lsb _ _ Ha Hb). apply (lsb_byte_burst 8); auto.
Qed.

(** ** Examples: "123456789", whose checks are published. *)
Definition digits : list Z := [49; 50; 51; 52; 53; 54; 55; 56; 57].
Example digits_bytes : bytes digits.
Proof. repeat constructor; lia. Qed.
Example ex_crc7 : fio_crc7 digits = Some 0x75. Proof. vm_compute. reflexivity. Qed.
Example ex_crc16 : fio_crc16 digits = Some 0xbb3d. Proof. vm_compute. reflexivity. Qed.
Example ex_crc32c : option_map (fun c => Z.lxor c (2 ^ 32 - 1)) (crc32c_sw digits) = Some 0xe3069283.
Proof. vm_compute. reflexivity. Qed.
Example ex_t10 : fio_crc_t10dif 0 digits = Some 0xd0db. Proof. vm_compute. reflexivity. Qed.
Example ex_nvme : fio_crc64_nvme 0 digits = Some 0xae8b14860a799888. Proof. vm_compute. reflexivity. Qed.

(** A model of the CRC32 instruction exists. *)
Example ex_insn : forall n, crc32_insn n (fun crc q => rrun (reflect 32 0x1EDC6F41) crc (low_first n q)).
Proof.
  intros n crc q Hc Hq. exists (mrun 32 0x1EDC6F41 (reflect 32 crc) (low_first n q)). split.
  - apply (rrun_reflect 32); lia.
  - apply mrun_rem; try lia. apply (reflect_range 32).
Qed.

Example ex_burst : burst 16 (lsb_first [1; 2; 3; 4]) (lsb_first [1; 0xfd; 0x33; 4]).
Proof.
  apply (lsb_byte_burst 2 [1] [2; 3] [0xfd; 0x33] [4]); auto; try (repeat constructor; lia). congruence.
Qed.

(** One bit beyond the guaranteed window an error can escape: xor with the generator itself (17 bits). *)
Example ex_escape : fio_crc_t10dif 0 [0; 0; 0; 0] = fio_crc_t10dif 0 [0; 1; 0x8b; 0xb7].
Proof. vm_compute. reflexivity. Qed.

Print Assumptions C17_crc_unique.
Print Assumptions C17_crc7.
Print Assumptions C17_crc16.
Print Assumptions C17_crc32.
Print Assumptions C17_crc32c.
Print Assumptions C17_crc64.
Print Assumptions C17_crc64_nvme.
Print Assumptions C17_t10dif.
Print Assumptions C17_chain.
Print Assumptions C17_crc32c_hw.
Print Assumptions C17_crc32c_hw_wrap_refuted.
Print Assumptions C18_burst_msb.
Print Assumptions C18_burst_lsb.
Print Assumptions C18_bytes.
