(** C14 and C43: running statistics and averaged logs. *)
From Coq Require Import ZArith List Lia Bool QArith Qcanon Permutation.
From Verif Require Import CBase IoStatModel IoStatSpec IoStatProofs.
Import ListNotations.
Open Scope Z_scope.

(** C14: samples added one by one to a fresh statistic yield their exact count, extremes, mean and sum
    of squared deviations. *)
Theorem C14_samples : forall xs, Forall u64_ok xs -> zlen xs < 2 ^ 64 ->
  is_stat_of xs (fold_left add_stat_sample xs reset_io_stat).
Proof.
  intros xs F Hl. apply J_is; auto. apply (fold_J xs [] reset_io_stat); auto. apply J_reset.
Qed.
Print Assumptions C14_samples.

(** C14: merging the statistics of two jobs gives the statistic of the pooled samples, as long as the
    product of the two sample counts fits in 64 bits. *)
Theorem C14_merge : forall xs ys a b, Forall u64_ok xs -> Forall u64_ok ys ->
  zlen xs + zlen ys < 2 ^ 64 -> zlen xs * zlen ys < 2 ^ 64 ->
  is_stat_of xs a -> is_stat_of ys b -> is_stat_of (xs ++ ys) (sum_stat a b false).
Proof.
  intros xs ys a b Fx Fy Hs Hp Ha Hb. apply J_is; [apply Forall_app; auto|].
  apply sum_J; auto; apply is_J; auto.
Qed.
Print Assumptions C14_merge.

(** C14: any tree of merges of any number of jobs gives the statistic of the pooled samples. *)
Theorem C14_merge_tree : forall t, Forall u64_ok (pooled t) -> zlen (pooled t) < 2 ^ 33 ->
  is_stat_of (pooled t) (run_merges t).
Proof. intros t F Hl. apply J_is; auto. apply merges_J; auto. Qed.
Print Assumptions C14_merge_tree.

(** C14: the result does not depend on the order of the samples, on how they are divided between jobs
    or on the order of merging: the statistics are equal in every field. *)
Theorem C14_order : forall t t', Forall u64_ok (pooled t) -> zlen (pooled t) < 2 ^ 33 ->
  Permutation (pooled t) (pooled t') -> run_merges t = run_merges t'.
Proof.
  intros t t' F Hl P. apply (stat_perm (pooled t) (pooled t')); auto; apply C14_merge_tree; auto.
  - eapply Permutation_Forall; eauto.
  - unfold zlen in *. rewrite <- (Permutation_length P). auto.
Qed.
Print Assumptions C14_order.

(** C14: what is printed: nothing without samples, else the extremes, the mean and the sample variance
    (sum of squared deviations over n - 1, zero for one sample). *)
Theorem C14_report : forall xs st, Forall u64_ok xs -> is_stat_of xs st ->
  match calc_lat st with
  | None => xs = []
  | Some (mn, mx, m, v) => least xs mn /\ greatest xs mx /\ m = avg xs /\
      (zlen xs = 1 -> v = qz 0) /\ (1 < zlen xs -> v = (sqdev xs / (qz (zlen xs) - qz 1))%Qc)
  end.
Proof.
  intros xs st F H. unfold calc_lat. destruct xs as [|x xs0] eqn:E.
  - cbn in H. subst. reflexivity.
  - rewrite <- E in *. apply is_stat_ne in H; [|congruence]. destruct H as (Hs & Hn & Hx & Hm & HS).
    destruct (Z.eqb_spec (samples st) 0) as [C|C]; [rewrite Hs in C; apply zlen_nil_iff; auto|].
    split; [auto|]. split; [auto|]. split; [auto|]. rewrite Hs, HS. split; intros L.
    + rewrite L. reflexivity.
    + destruct (Z.ltb_spec 1 (zlen xs)); [reflexivity|lia].
Qed.
Print Assumptions C14_report.

(** C14: bandwidth and iops statistics of a group are the sums of those of the jobs. *)
Theorem C14_pure_sum : forall a b, samples a <> 0 -> samples b <> 0 ->
  0 <= min_val a -> 0 <= min_val b -> 0 <= max_val a -> 0 <= max_val b ->
  min_val a + min_val b < 2 ^ 64 -> max_val a + max_val b < 2 ^ 64 ->
  let r := sum_stat a b true in
  min_val r = min_val a + min_val b /\ max_val r = max_val a + max_val b /\
  mean r = (mean a + mean b)%Qc /\ S r = (S a + S b)%Qc.
Proof.
  intros a b Ha Hb H1 H2 H3 H4 H5 H6. unfold sum_stat.
  destruct (Z.eqb_spec (samples b) 0); [congruence|]. destruct (Z.eqb_spec (samples a) 0); [congruence|].
  cbn [negb min_val max_val mean S]. rewrite !u64_small by lia. auto.
Qed.

(** C14: the bound on the product is needed: two jobs with 2^32 samples each, all 0 in one and all 1 in
    the other, merge to a deviation of zero. *)
Lemma tot_repeat k n : tot (repeat k n) = (qz (Z.of_nat n) * qz k)%Qc.
Proof.
  induction n as [|n IH]; [unfold tot; cbn; rewrite qz_0; ring|].
  cbn [repeat]. unfold tot in *. cbn [map sumq fold_right]. change (fold_right Qcplus (qz 0) ?l) with (sumq l).
  rewrite IH, Nat2Z.inj_succ. replace (Z.succ (Z.of_nat n)) with (Z.of_nat n + 1) by lia. rewrite qz_add, qz_1. ring.
Qed.
Lemma sq_repeat k n : sq (repeat k n) = (qz (Z.of_nat n) * (qz k * qz k))%Qc.
Proof.
  induction n as [|n IH]; [unfold sq; cbn; rewrite qz_0; ring|].
  cbn [repeat]. unfold sq in *. cbn [map sumq fold_right]. change (fold_right Qcplus (qz 0) ?l) with (sumq l).
  rewrite IH, Nat2Z.inj_succ. replace (Z.succ (Z.of_nat n)) with (Z.of_nat n + 1) by lia. rewrite qz_add, qz_1. ring.
Qed.
Lemma fold_min_repeat k n : 0 <= k < 2 ^ 64 -> (n <> 0)%nat -> fold_right Z.min (2 ^ 64 - 1) (repeat k n) = k.
Proof.
  intros Hk Hn. destruct n as [|n]; [congruence|]. clear Hn. induction n as [|n IH].
  - cbn [repeat fold_right]. lia.
  - change (repeat k (Datatypes.S (Datatypes.S n))) with (k :: repeat k (Datatypes.S n)). cbn [fold_right]. rewrite IH. lia.
Qed.
Lemma fold_max_repeat k n : 0 <= k < 2 ^ 64 -> (n <> 0)%nat -> fold_right Z.max 0 (repeat k n) = k.
Proof.
  intros Hk Hn. destruct n as [|n]; [congruence|]. clear Hn. induction n as [|n IH].
  - cbn [repeat fold_right]. lia.
  - change (repeat k (Datatypes.S (Datatypes.S n))) with (k :: repeat k (Datatypes.S n)). cbn [fold_right]. rewrite IH. lia.
Qed.

Lemma merge_overflow n : Z.of_nat n = 2 ^ 32 ->
  Forall u64_ok (repeat 0 n) /\ Forall u64_ok (repeat 1 n) /\
  zlen (repeat 0 n) = 2 ^ 32 /\ zlen (repeat 1 n) = 2 ^ 32 /\
  ~ is_stat_of (repeat 0 n ++ repeat 1 n)
      (sum_stat (fold_left add_stat_sample (repeat 0 n) reset_io_stat)
                (fold_left add_stat_sample (repeat 1 n) reset_io_stat) false).
Proof.
  intros HnZ. assert (Hn : (n <> 0)%nat) by lia.
  assert (F0 : Forall u64_ok (repeat 0 n)) by (apply Forall_forall; intros x Hx; apply repeat_spec in Hx; subst; unfold u64_ok; lia).
  assert (F1 : Forall u64_ok (repeat 1 n)) by (apply Forall_forall; intros x Hx; apply repeat_spec in Hx; subst; unfold u64_ok; lia).
  assert (L0 : zlen (repeat 0 n) = 2 ^ 32) by (unfold zlen; rewrite repeat_length; auto).
  assert (L1 : zlen (repeat 1 n) = 2 ^ 32) by (unfold zlen; rewrite repeat_length; auto).
  do 4 (split; auto). intros H. apply is_J in H; [|apply Forall_app; auto].
  pose proof (fold_J (repeat 0 n) [] reset_io_stat F0 ltac:(cbn [app]; lia) J_reset) as Ja.
  pose proof (fold_J (repeat 1 n) [] reset_io_stat F1 ltac:(cbn [app]; lia) J_reset) as Jb.
  cbn [app] in Ja, Jb.
  set (a := fold_left add_stat_sample (repeat 0 n) reset_io_stat) in *.
  set (b := fold_left add_stat_sample (repeat 1 n) reset_io_stat) in *.
  destruct Ja as (As & _ & _ & _ & Am & AS). destruct Jb as (Bs & _ & _ & _ & Bm & BS).
  assert (N : qz (2 ^ 32) <> 0%Qc) by (apply qz_nz; lia).
  rewrite L0, tot_repeat, HnZ in Am. rewrite L1, tot_repeat, HnZ in Bm.
  assert (Am' : mean a = 0%Qc).
  { replace (mean a) with (qz (2 ^ 32) * mean a / qz (2 ^ 32))%Qc by (field; auto). rewrite Am, qz_0. field. auto. }
  assert (Bm' : mean b = 1%Qc).
  { replace (mean b) with (qz (2 ^ 32) * mean b / qz (2 ^ 32))%Qc by (field; auto). rewrite Bm, qz_1. field. auto. }
  rewrite L0, sq_repeat, HnZ, Am', qz_0 in AS. rewrite L1, sq_repeat, HnZ, Bm', qz_1 in BS.
  destruct H as (_ & _ & _ & _ & Hm & HS).
  rewrite zlen_app, L0, L1 in *. rewrite sq_app, !sq_repeat, HnZ in HS. rewrite qz_0, qz_1 in HS.
  revert HS Hm. unfold sum_stat. rewrite As, Bs. cbn [Z.eqb negb]. unfold sum_stat0. rewrite As, Bs.
  change (2 ^ 32 =? 0) with false. cbn [negb mean S].
  change (u64 (2 ^ 32 * 2 ^ 32)) with 0. change (u64 (2 ^ 32 + 2 ^ 32)) with (2 ^ 33).
  change (2 ^ 32 + 2 ^ 32) with (2 ^ 33).
  assert (N33 : qz (2 ^ 33) = (qz 2 * qz (2 ^ 32))%Qc) by (rewrite <- qz_mul; reflexivity).
  assert (N2 : qz 2 <> 0%Qc) by (apply qz_nz; lia).
  rewrite AS, BS, Am', Bm', qz_0, N33. intros HS _.
  assert (E : (qz (2 ^ 32) / qz 2)%Qc = 0%Qc).
  { assert (T : qz 2 = (1 + 1)%Qc) by (rewrite <- qz_1, <- qz_add; reflexivity).
    match type of HS with ?l = ?r => assert (L : l = 0%Qc) by (field; split; auto); assert (R : r = (qz (2 ^ 32) / qz 2)%Qc) end.
    { rewrite T. field. rewrite <- ?T. auto. }
    rewrite <- R, <- HS. exact L. }
  apply N. replace (qz (2 ^ 32)) with (qz (2 ^ 32) / qz 2 * qz 2)%Qc by (field; auto). rewrite E. ring.
Qed.

Theorem C14_merge_overflow_refuted : exists xs ys,
  Forall u64_ok xs /\ Forall u64_ok ys /\ zlen xs = 2 ^ 32 /\ zlen ys = 2 ^ 32 /\
  ~ is_stat_of (xs ++ ys) (sum_stat (fold_left add_stat_sample xs reset_io_stat)
                                    (fold_left add_stat_sample ys reset_io_stat) false).
Proof.
  destruct (Z_of_nat_complete (2 ^ 32) ltac:(lia)) as [n Hn].
  exists (repeat 0 n), (repeat 1 n). apply merge_overflow. auto.
Qed.
Print Assumptions C14_merge_overflow_refuted.

(** C14: the reset at the end of the ramp time leaves the sync latency statistics in place although the
    sync count is cleared: the reported sync latency includes syncs done during the ramp. *)
Theorem C14_ramp_sync_refuted : exists ts, sync_stat (reset_io_stats ts) <> reset_io_stat /\
  total_sync (reset_io_stats ts) = 0 /\ clat_stat0 (reset_io_stats ts) = reset_io_stat.
Proof.
  exists (mkTs reset_io_stat (add_stat_sample reset_io_stat 5) 1). split; [|auto].
  intros E. apply (f_equal samples) in E. discriminate E.
Qed.

(** Concrete cases. *)
Example C14_samples_ex : Forall u64_ok [3; 1; 4; 1; 5] /\ is_stat_of [3; 1; 4; 1; 5]
  (mkStat 5 1 5 (Q2Qc (14 # 5)) (Q2Qc (64 # 5))).
Proof.
  split; [repeat constructor; unfold u64_ok; lia|]. unfold is_stat_of, least, greatest.
  cbn [samples min_val max_val mean S]. split; [reflexivity|]. split; [cbn; intuition lia|].
  split; [cbn; intuition lia|]. split; apply Qc_is_canon; reflexivity.
Qed.
Example C14_tree_ex : let t := Merge (Merge (Job [3]) (Job [1; 4])) (Job [1; 5]) in
  Permutation (pooled t) (pooled (Merge (Job [5; 4; 1]) (Job [3; 1]))) /\ zlen (pooled t) < 2 ^ 33 /\
  calc_lat (run_merges t) = Some (1, 5, Q2Qc (14 # 5), Q2Qc (16 # 5)).
Proof.
  cbn [pooled app]. split; [|split; [reflexivity|vm_compute; f_equal; f_equal; apply Qc_is_canon; reflexivity]].
  transitivity [5; 3; 1; 4; 1]; [apply Permutation_sym, (Permutation_app_comm [5] [3; 1; 4; 1])|].
  constructor. transitivity [4; 3; 1; 1].
  - apply Permutation_sym. apply (Permutation_cons_app [3; 1] [1] 4). reflexivity.
  - constructor. apply perm_swap.
Qed.

(** C43: with log averaging, the samples are divided into consecutive non-empty groups, one per log
    entry and in order; no sample is lost or counted twice; each entry holds the mean of its group
    rounded to the nearest integer and/or its maximum, as configured. *)
Theorem C43_partition : forall avg_msec inline lm ss t,
  Forall u64_ok (map snd ss) -> zlen ss < 2 ^ 64 ->
  exists groups, concat groups = ss /\
    Forall2 (describes lm) groups (entries (finalize_log (run_log avg_msec inline lm log0 ss) t lm)).
Proof. exact log_partition. Qed.
Print Assumptions C43_partition.

(** C43: if the clock does not go back, a latency log gets at most one entry per averaging period. *)
Theorem C43_one_per_period : forall avg_msec lm ss, 0 < avg_msec < 2 ^ 64 -> nondecreasing 0 (map fst ss) ->
  increasing (map (fun e => fst (fst e) / avg_msec) (entries (run_log avg_msec true lm log0 ss))).
Proof.
  intros am lm ss Ha Hn. destruct (run_log_time am lm ss log0 0 Ha Hn) as (now & I & _).
  - unfold TInv, times. cbn [entries log0 map avg_last increasing]. repeat split; auto; try lia.
    intros t [].
  - unfold times in I. rewrite map_map in I. exact I.
Qed.
Print Assumptions C43_one_per_period.

Example C43_ex : let ss := [(100, 4); (300, 7); (1005, 9); (1500, 2); (2100, 3)] in
  nondecreasing 0 (map fst ss) /\
  entries (finalize_log (run_log 1000 true LogBoth log0 ss) 2200 LogBoth) = [(1005, 7, 9); (2100, 3, 3)].
Proof. split; [cbn; lia|vm_compute; reflexivity]. Qed.
