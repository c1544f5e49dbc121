(** C12 and C13: latency buckets and percentiles. *)
From Coq Require Import ZArith List Lia Bool Permutation.
From Verif Require Import CBase PlatModel PlatSpec PlatProofs.
Import ListNotations.
Open Scope Z_scope.

(** C12: a value recorded below 2^34 nsec is reported with a relative error of at most 1/128, and any
    64-bit value falls in one of the buckets of the table. *)
Theorem C12_error : forall v, 0 <= v < 2 ^ 34 ->
  exists r, plat_idx_to_val (plat_val_to_idx v) = Some r /\ 128 * Z.abs (r - v) <= v.
Proof. exact bucket_error. Qed.

(** The bucket number is a valid index, and larger values never fall in smaller buckets. *)
Theorem C12_index : forall v w, 0 <= v <= w -> w < 2 ^ 64 ->
  0 <= plat_val_to_idx v <= plat_val_to_idx w /\ plat_val_to_idx w < PLAT_NR.
Proof.
  intros v w H Hw. pose proof (idx_mono v w H). pose proof (idx_range v). pose proof (idx_range w). lia.
Qed.

(** The representative of every bucket lies in that bucket, so that re-recording reported values
    (merging, exporting and re-reading histograms) does not move them. *)
Theorem C12_representative : forall i, 0 <= i < PLAT_NR ->
  exists r, plat_idx_to_val i = Some r /\ 0 <= r < 2 ^ 34 /\ plat_val_to_idx r = i.
Proof. exact bucket_fix. Qed.

(** Distinct values below 128 are never confused; larger ones share a bucket only if close. *)
Theorem C12_same_bucket : forall v w, 0 <= v <= w -> w < 2 ^ 34 ->
  plat_val_to_idx v = plat_val_to_idx w -> 64 * (w - v) <= v.
Proof.
  intros v w H Hw E. destruct (Z_lt_ge_dec v 128) as [L|G].
  - rewrite (idx_small v) in E by lia. destruct (Z_lt_ge_dec w 128) as [L'|G'].
    + rewrite idx_small in E by lia. lia.
    + rewrite idx_big in E by lia. destruct (grp_facts w) as (? & ? & ? & ?); [lia|]. unfold PLAT_NR in E. lia.
  - rewrite !idx_big in E by lia. pose proof (grp_limit v ltac:(lia)). pose proof (grp_limit w ltac:(lia)).
    destruct (grp_facts v) as (V1 & V2 & V3 & V4); [lia|].
    destruct (grp_facts w) as (W1 & W2 & W3 & W4); [lia|].
    assert (grp v = grp w) by lia. assert (quo v = quo w) by lia. rewrite <- H2, <- H3 in W4.
    assert (E6 : 2 ^ (grp v + 6) = 64 * 2 ^ grp v)
      by (replace (grp v + 6) with (6 + grp v) by lia; rewrite Z.pow_add_r by lia; auto).
    nia.
Qed.

(** The largest trackable group absorbs everything above: the report saturates, it never wraps. *)
Theorem C12_saturates : forall v, 2 ^ 34 <= v < 2 ^ 64 -> plat_val_to_idx v = PLAT_NR - 1.
Proof.
  intros v H. pose proof (idx_mono (2 ^ 34 - 1) v ltac:(lia)) as M. pose proof (idx_range v ltac:(lia)).
  change (plat_val_to_idx (2 ^ 34 - 1)) with (PLAT_NR - 1) in M. lia.
Qed.

(** C13: for every list of samples recorded into an empty histogram and every percentile list, the
    reported values are the bucket representatives of the exact nearest-rank percentiles, in
    non-decreasing order, with their minimum and maximum. *)
Theorem C13_percentiles : forall xs plist,
  Forall (fun x => 0 <= x < 2 ^ 64) xs -> xs <> [] -> zlen xs < 2 ^ 64 ->
  (* the percentiles requested: those before the terminating zero entry, at most 20 *)
  (length plist <= 20)%nat -> Forall pct_ok plist ->
  exists plat ps vals minv maxv,
    add_samples (repeat 0 (Z.to_nat PLAT_NR)) xs = Some plat /\
    calc_clat_percentiles plat (zlen xs) plist = Some (ps, vals, minv, maxv, true) /\
    Permutation plist ps /\ sorted ps /\
    Forall2 (fun p v => exists x, is_percentile p xs x /\ plat_idx_to_val (plat_val_to_idx x) = Some v /\
                                  (x < 2 ^ 34 -> 128 * Z.abs (v - x) <= x)) ps vals /\
    (forall j v w, nth_error vals j = Some v -> nth_error vals (S j) = Some w -> v <= w) /\
    (forall v, In v vals -> minv <= v <= maxv) /\
    (plist <> [] -> In minv vals /\ In maxv vals).
Proof.
  intros xs plist HX Hne HN HL HO.
  assert (HX' : Forall (fun x => 0 <= x) xs) by (eapply Forall_impl; [|exact HX]; cbv beta; intros; lia).
  assert (N0 : 0 < zlen xs) by (destruct xs; [congruence|]; unfold zlen; cbn [length]; lia).
  assert (CZ : cut_zero 20 plist = plist).
  { clear -HL HO. revert HL. generalize 20%nat. induction HO as [|p l [P1 P2] Hl IH]; intros n Hn.
    - destruct n; auto.
    - destruct n; [cbn in Hn; lia|]. cbn [cut_zero]. destruct (Z.eqb_spec (pnum p) 0); [lia|]. f_equal.
      apply IH. cbn in Hn. lia. }
  destruct (hist_ok xs HX' HN) as (plat & EA & LA & NA).
  destruct (calc_ok xs plat plist HX' ltac:(lia) LA NA ltac:(rewrite CZ; auto)) as (ps & vals & EC & EP & ES & EF).
  rewrite CZ in EP.
  exists plat, ps, vals, (vmin ones64 vals), (vmax 0 vals).
  assert (PO : Forall pct_ok ps).
  { apply Forall_forall. intros q Hq. rewrite Forall_forall in HO. apply HO.
    eapply Permutation_in; [symmetry; exact EP|exact Hq]. }
  assert (RB : forall v, In v vals -> 0 <= v < 2 ^ 34).
  { intros v Hv. clear -EF Hv. induction EF as [|p w ps vals (b & B1 & B2 & ->) EF IH]; [destruct Hv|].
    destruct Hv as [<-|Hv]; auto.
    destruct (bucket_fix (Z.of_nat b)) as (r & E & R & _); [unfold PLAT_NR in *; lia|].
    unfold rep. rewrite E. lia. }
  split; [exact EA|]. split; [exact EC|]. split; [exact EP|]. split; [exact ES|]. split.
  - eapply Forall2_impl_in; [|exact EF]. intros p v Hp (b & B1 & B2 & ->). cbv beta.
    rewrite Forall_forall in PO. specialize (PO p Hp).
    destruct (percentile_exists p xs PO Hne) as (x & Hx). exists x. split; [exact Hx|].
    pose proof (percentile_bucket p xs x PO HX' Hx) as FB.
    assert (Eb : b = nidx x) by (eapply first_bucket_unique; eauto).
    assert (0 <= x < 2 ^ 64) by (rewrite Forall_forall in HX; apply HX; apply Hx).
    assert (Ei : plat_val_to_idx x = Z.of_nat b).
    { rewrite Eb. unfold nidx. pose proof (idx_range x). lia. }
    rewrite Ei, (rep_some b B2). split; [auto|]. intros Hlt.
    destruct (bucket_error x ltac:(lia)) as (r & Er & Hr). rewrite Ei, (rep_some b B2) in Er.
    inversion Er; subst r. auto.
  - split.
    + apply (sorted_vals (cum xs) (zlen xs) ltac:(lia) ps vals PO ES EF).
    + split.
      * intros v Hv. split; [apply vmin_le; auto|apply vmax_ge; auto].
      * intros Hp. assert (vals <> []).
        { intros ->. inversion EF; subst. apply Permutation_sym, Permutation_nil in EP. congruence. }
        destruct vals as [|v0 vals0] eqn:EV; [congruence|]. rewrite <- EV in *.
        assert (I0 : In v0 vals) by (rewrite EV; left; auto). split.
        -- destruct (vmin_in vals ones64) as [E|]; auto. pose proof (vmin_le vals ones64 v0 I0).
           specialize (RB v0 I0). rewrite E in H0. unfold ones64 in H0. lia.
        -- destruct (vmax_in vals 0) as [E|]; auto. pose proof (vmax_ge vals 0 v0 I0).
           specialize (RB v0 I0). rewrite E in *. replace 0 with v0 by lia. auto.
Qed.

(** The exact percentile is unique, so the theorem above determines the report. *)
Theorem C13_unique : forall p xs x y, is_percentile p xs x -> is_percentile p xs y -> x = y.
Proof. exact percentile_unique. Qed.

(** The list given to the routine ends at its first zero entry, or after 20 entries. *)
Theorem C13_list_end : forall plat nr l r, (length l < 20)%nat -> Forall (fun p => pnum p <> 0) l ->
  calc_clat_percentiles plat nr (l ++ mkPct 0 1 :: r) = calc_clat_percentiles plat nr l.
Proof.
  intros plat nr l r HL HO. unfold calc_clat_percentiles.
  replace (cut_zero 20 (l ++ mkPct 0 1 :: r)) with (cut_zero 20 l); auto.
  revert HL HO. generalize 20%nat. induction l as [|p l IH]; intros n HL HO.
  - destruct n; auto.
  - destruct n; [cbn in HL; lia|]. inversion HO; subst. cbn [app cut_zero].
    destruct (Z.eqb_spec (pnum p) 0); auto. f_equal. apply IH; auto. cbn in HL. lia.
Qed.

(** Non-vacuity: 100 samples 1000, 2000, ..., 100000; median, 99th and 99.9th percentiles. *)
Definition c13_xs : list Z := map (fun k => Z.of_nat k * 1000) (seq 1 100).
Definition c13_ps : list pct := [mkPct 99 1; mkPct 50 1; mkPct 999 10].
Example C13_case :
  match add_samples (repeat 0 (Z.to_nat PLAT_NR)) c13_xs with
  | Some plat => calc_clat_percentiles plat (zlen c13_xs) c13_ps
  | None => None
  end = Some ([mkPct 50 1; mkPct 99 1; mkPct 999 10], [49920; 98816; 99840], 49920, 99840, true).
Proof. vm_compute. reflexivity. Qed.
Example C13_hyps : Forall (fun x => 0 <= x < 2 ^ 64) c13_xs /\ c13_xs <> [] /\ Forall pct_ok c13_ps.
Proof.
  split; [|split; [discriminate|]].
  - apply Forall_forall. intros x Hx. apply in_map_iff in Hx. destruct Hx as (k & <- & Hk).
    apply in_seq in Hk. lia.
  - unfold c13_ps, pct_ok. constructor; [cbn; lia|]. constructor; [cbn; lia|]. constructor; [cbn; lia|auto].
Qed.
Example C12_case : plat_val_to_idx 1234567 = 971 /\ plat_idx_to_val 971 = Some 1236992.
Proof. vm_compute. auto. Qed.

Print Assumptions C12_error.
Print Assumptions C12_index.
Print Assumptions C12_representative.
Print Assumptions C12_same_bucket.
Print Assumptions C12_saturates.
Print Assumptions C13_percentiles.
Print Assumptions C13_unique.
Print Assumptions C13_list_end.
