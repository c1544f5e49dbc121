(** C08: pattern fill and compare.  Statements use only [PatternSpec]. *)
From Coq Require Import ZArith List Lia.
From Verif Require Import CBase Mem PatternModel PatternSpec PatternProofs.
Import ListNotations.
Open Scope Z_scope.

(** Filling a buffer (here [out_len] bytes at [base] in memory [buf]) stores the pattern repeated,
    byte [i] being byte [i mod |pattern|] of the pattern, and touches nothing else. *)
Theorem C08_fill : forall pattern buf base out_len,
  (0 < length pattern)%nat -> zlen pattern < 2 ^ 32 ->
  (0 < out_len)%nat -> Z.of_nat out_len < 2 ^ 32 -> (base + out_len <= length buf)%nat ->
  exists buf', cpy_pattern pattern buf (Z.of_nat base) (Z.of_nat out_len) = Some (0, buf') /\
    length buf' = length buf /\
    (forall i, (i < out_len)%nat -> nth (base + i) buf' 0 = nth (i mod length pattern) pattern 0) /\
    (forall j, (j < base \/ base + out_len <= j)%nat -> nth j buf' 0 = nth j buf 0).
Proof. exact cpy_ok. Qed.

(** Comparing accepts a buffer exactly when every byte is the expected one, for every phase. *)
Theorem C08_compare : forall pattern off buf base len,
  zlen pattern < 2 ^ 32 -> (off < length pattern)%nat ->
  Z.of_nat len < 2 ^ 32 -> (base + len <= length buf)%nat ->
  exists rc, cmp_pattern pattern (Z.of_nat off) buf (Z.of_nat base) (Z.of_nat len) = Some rc /\
    (rc = 0 \/ rc = - EILSEQ) /\
    (rc = 0 <-> forall i, (i < len)%nat ->
       nth (base + i) buf 0 = nth ((off + i) mod length pattern) pattern 0).
Proof. intros. apply cmp_ok; auto. lia. Qed.

(** A write buffer filled for verification holds the specified block contents. *)
Theorem C08_block_fill : forall pattern fields interval offset buf,
  (0 < length pattern)%nat -> zlen pattern < 2 ^ 32 -> fields_ok 0 fields (length pattern) ->
  Z.of_nat interval < 2 ^ 32 -> zlen buf < 2 ^ 32 -> 0 <= offset < 2 ^ 63 ->
  exists buf', fill_verify_pattern pattern (fmts_of fields) (Z.of_nat interval) offset buf = Some buf' /\
    length buf' = length buf /\
    (forall j, (j < length buf)%nat -> nth j buf' 0 = block_byte pattern fields interval offset j).
Proof. exact fill_ok. Qed.

(** Verification of header piece [hnum] of a block read back accepts exactly the buffers whose payload
    bytes (the piece without its header) are the specified ones. *)
Theorem C08_block_verify : forall pattern fields interval hdr_inc hsize hnum offset buf,
  (0 < length pattern)%nat -> zlen pattern < 2 ^ 32 -> fields_ok 0 fields (length pattern) ->
  Z.of_nat interval < 2 ^ 32 -> zlen buf < 2 ^ 32 -> 0 <= offset < 2 ^ 63 ->
  (hsize <= hdr_inc)%nat -> (hdr_inc * hnum + hdr_inc <= length buf)%nat ->
  exists rc, verify_io_u_pattern pattern (fmts_of fields) (Z.of_nat interval) (Z.of_nat hdr_inc)
               (Z.of_nat hsize) (Z.of_nat hnum) offset buf = Some rc /\
    (rc = 0 <-> forall j, (hdr_inc * hnum + hsize <= j < hdr_inc * hnum + hdr_inc)%nat ->
       nth j buf 0 = block_byte pattern fields interval offset j).
Proof. exact verify_ok. Qed.

(** Non-vacuity: a 13-byte pattern with one offset field, 21-byte pieces, a 50-byte block. *)
Definition ex_pat : list Z := [1; 2; 3; 0; 0; 0; 0; 0; 0; 0; 0; 4; 5].
Example C08_hyp : fields_ok 0 [3%nat] (length ex_pat).
Proof. cbn. split; [lia|]. split; [lia|exact I]. Qed.
Example C08_ex :
  match fill_verify_pattern ex_pat (fmts_of [3%nat]) 21 4096 (repeat 255 50) with
  | Some b => firstn 34 b =
      [1;2;3;0;16;0;0;0;0;0;0;4;5;1;2;3;0;16;0;0;0; 1;2;3;21;16;0;0;0;0;0;0;4;5] /\
      verify_io_u_pattern ex_pat (fmts_of [3%nat]) 21 25 4 1 4096 b = Some 0 /\
      verify_io_u_pattern ex_pat (fmts_of [3%nat]) 21 25 4 1 4096 (upd b 49 9) = Some 84
  | None => False
  end.
Proof. vm_compute. auto. Qed.
Example C08_ex_cmp : cmp_pattern [1;2;3;4;5] 3 [4;5;1;2;3;4;5;1] 0 8 = Some 0 /\
  cmp_pattern [1;2;3;4;5] 3 [4;5;1;2;3;4;5;2] 0 8 = Some (-84).
Proof. vm_compute. auto. Qed.

Print Assumptions C08_fill.
Print Assumptions C08_compare.
Print Assumptions C08_block_fill.
Print Assumptions C08_block_verify.
