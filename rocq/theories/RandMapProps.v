(** Property C04: random I/O with a random map touches every block exactly once per pass. *)
From Coq Require Import ZArith List Lia Bool Permutation.
From Verif Require Import CBase FloatZ AxmapModel RandMapModel RandMapSpec RandMapProofs.
Import ListNotations.
Open Scope Z_scope.

(** C04.  For every region of [n] whole blocks and every stream of random numbers, the first [n] I/Os
    are a permutation of the blocks of the region, and the next request reports the end.  No call goes
    out of bounds. *)
Theorem C04_every_block_once : forall o f rs,
  good_file o f -> ro_time_based o = false ->
  Forall (good_pair o) rs -> length rs = Z.to_nat (rf_io_size f / ro_bs o) ->
  exists ax ios, fill_many o f (init_random_map o f) rs = Some (ax, ios) /\
    Permutation ios (all_ios (rf_offset f) (ro_bs o) (Z.to_nat (rf_io_size f / ro_bs o))) /\
    forall r, good_draw o (fst r) -> fill_io_u o f ax r = Some (ax, NoMore).
Proof.
  intros o f rs Hf HT HG HL. destruct (one_pass o f Hf rs HG HL) as (ax & ios & E & P & N).
  exists ax, ios. auto.
Qed.
Print Assumptions C04_every_block_once.

(** C04 for jobs that keep running until a deadline: the I/Os form consecutive complete passes. *)
Theorem C04_time_based_passes : forall o f k rs,
  good_file o f -> ro_time_based o = true ->
  Forall (good_pair o) rs -> length rs = (k * Z.to_nat (rf_io_size f / ro_bs o))%nat ->
  exists ax ios, fill_many o f (init_random_map o f) rs = Some (ax, ios) /\
    passes (rf_offset f) (ro_bs o) (Z.to_nat (rf_io_size f / ro_bs o)) k ios.
Proof. intros o f k rs Hf HT HG HL. apply all_passes; auto. Qed.
Print Assumptions C04_time_based_passes.

(** A case that meets the hypotheses, with draws that collide. *)
Example C04_nonvacuous :
  let o := mkROpts 4096 false false in
  let f := mkRFile 8192 (3 * 4096 + 17) (2 ^ 30) in
  let rs := [(2 ^ 31, 0); (2 ^ 31, 5); (2 ^ 32 - 1, 7)] in
  good_file o f /\ Forall (good_pair o) rs /\
  option_map snd (fill_many o f (init_random_map o f) (rs ++ [(9, 9)])) =
    Some [Issued 12288 4096; Issued 16384 4096; Issued 8192 4096; NoMore].
Proof.
  split; [|split].
  - unfold good_file. cbn [ro_bs rf_offset rf_io_size rf_real_size].
    change ((3 * 4096 + 17) / 4096) with 3. lia.
  - repeat apply Forall_cons; try apply Forall_nil; unfold good_pair, good_draw; cbn [ro_use64 fst snd]; lia.
  - vm_compute. reflexivity.
Qed.

(** Finding.  The 64-bit generator scales its draw with double arithmetic; the draws within 2^10 of
    2^64 round up and select block [n], one past the last block, for every region size. *)
Theorem C04_draw64_overrun_refuted : forall lastb r,
  0 < lastb < 2 ^ 53 -> 2 ^ 64 - 2 ^ 10 <= r < 2 ^ 64 -> draw64 lastb r = lastb.
Proof. exact draw64_overrun. Qed.
Print Assumptions C04_draw64_overrun_refuted.

(** Finding, consequence.  With a map whose size is a multiple of 64 such a draw makes the membership
    query read outside the map. *)
Theorem C04_draw64_out_of_bounds_refuted :
  exists o f r, good_file o f /\ ro_use64 o = true /\ 0 <= r < 2 ^ 64 /\
    fill_io_u o f (init_random_map o f) (r, r) = None.
Proof.
  exists (mkROpts 4096 true false), (mkRFile 0 (64 * 4096) (64 * 4096)), (2 ^ 64 - 1).
  split; [|split; [reflexivity|split; [lia|vm_compute; reflexivity]]].
  unfold good_file. cbn [ro_bs rf_offset rf_io_size rf_real_size].
  change (64 * 4096 / 4096) with 64. lia.
Qed.

(** Finding.  With a block size range the last I/O may end in the partial block at the end of the file.
    That I/O lies inside the file, but marking it goes outside the map. *)
Theorem C04_mark_partial_tail_refuted :
  exists o f offset buflen, good_file o f /\ ro_bs o <= buflen /\
    offset + buflen <= rf_offset f + rf_io_size f /\ (offset - rf_offset f) mod ro_bs o = 0 /\
    mark_random_map o f (init_random_map o f) offset buflen = None.
Proof.
  exists (mkROpts 4096 false false), (mkRFile 0 (64 * 4096 + 2048) (64 * 4096 + 2048)), (63 * 4096), 6144.
  split; [|split; [cbn; lia|split; [cbn; lia|split; vm_compute; reflexivity]]].
  unfold good_file. cbn [ro_bs rf_offset rf_io_size rf_real_size].
  change ((64 * 4096 + 2048) / 4096) with 64. lia.
Qed.
