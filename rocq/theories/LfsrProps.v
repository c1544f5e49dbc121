(** Property C05: the LFSR generator is a permutation of the block range. *)
From Coq Require Import ZArith List Lia Bool Permutation.
From Verif Require Import CBase LfsrModel LfsrSpec LfsrProofs.
Import ListNotations.
Open Scope Z_scope.

(** C05.  For every number of blocks below 2^63, every accepted seed and every spin, the generator
    delivers each block number exactly once and then reports the end. *)
Theorem C05_permutation : forall nums seed sp fl, 1 <= nums < 2 ^ 63 -> 0 <= sp <= 15 ->
  lfsr_init nums seed sp = Some fl ->
  exists fl' vs, draws (Z.to_nat nums) fl = Some (fl', vs) /\ Permutation vs (below nums) /\ ended fl'.
Proof. intros nums seed sp fl Hn Hs E. exact (init_draws nums seed sp fl Hn Hs E). Qed.
Print Assumptions C05_permutation.

(** C05 across resets, as fio uses the generator: every pass is again a permutation. *)
Theorem C05_every_pass : forall nums seed fl k, 1 <= nums < 2 ^ 63 ->
  lfsr_init nums seed 0 = Some fl ->
  exists ps, all_passes k nums seed fl = Some ps /\
    Forall (fun p => Permutation p (below nums)) ps /\ length ps = k.
Proof. intros nums seed fl k Hn E. exact (init_passes nums seed fl k Hn E). Qed.
Print Assumptions C05_every_pass.

(** Which seeds are accepted: all but those whose low bits are all ones. *)
Theorem C05_accepted_seeds : forall nums seed sp, 1 <= nums < 2 ^ 63 -> 0 <= sp <= 15 ->
  exists w, is_width nums w /\ (lfsr_init nums seed sp = None <-> seed mod 2 ^ w = 2 ^ w - 1).
Proof. exact init_fails_iff. Qed.
Print Assumptions C05_accepted_seeds.

(** Ranges that do not fit in 63 bits are rejected rather than mishandled. *)
Theorem C05_too_large_rejected : forall nums seed sp, 2 ^ 63 <= nums -> lfsr_init nums seed sp = None.
Proof. intros nums seed sp H. unfold lfsr_init. rewrite find_big; auto. Qed.
Print Assumptions C05_too_large_rejected.

(** A case that meets the hypotheses, with values beyond the range skipped and a cyclic spin. *)
Example C05_nonvacuous :
  match lfsr_init 10 5 0 with Some fl => all_passes 2 10 5 fl | None => None end =
    Some [[1; 8; 0; 4; 6; 7; 3; 9; 2; 5]; [1; 8; 0; 4; 6; 7; 3; 9; 2; 5]].
Proof. vm_compute. reflexivity. Qed.
Example C05_nonvacuous_spin :
  match lfsr_init 15 5 2 with Some fl => option_map snd (draws 15 fl) | None => None end =
    Some [8; 6; 13; 9; 5; 0; 7; 14; 12; 10; 4; 11; 3; 2; 1].
Proof. vm_compute. reflexivity. Qed.

(** Finding.  Some seeds are refused for every range size, so a run with such a seed cannot start;
    for fewer than 8 blocks this is one seed in eight. *)
Theorem C05_seed_refused_refuted : forall nums sp, 1 <= nums < 2 ^ 63 -> 0 <= sp <= 15 ->
  lfsr_init nums (2 ^ 64 - 1) sp = None.
Proof.
  intros nums sp Hn Hs. destruct (init_fails_iff nums (2 ^ 64 - 1) sp Hn Hs) as (w & Is & H).
  apply H. clear H. destruct Is as (Hw & _). replace (2 ^ 64 - 1) with (Z.ones 64) by (rewrite Z.ones_equiv; lia).
  rewrite <- Z.land_ones by lia. rewrite Z.land_comm, Z.land_ones by lia.
  rewrite Z.mod_small; rewrite Z.ones_equiv; [lia|].
  assert (2 ^ w <= 2 ^ 63) by (apply Z.pow_le_mono_r; lia).
  assert (0 < 2 ^ w) by (apply Z.pow_pos_nonneg; lia). lia.
Qed.
Print Assumptions C05_seed_refused_refuted.
