(** C49: the search for a queue depth that meets a latency target finds it. *)
From Coq Require Import ZArith List Lia Bool.
From Verif Require Import CBase FloatZ BuflenProofs LatModel LatSpec LatProofs.
Import ListNotations.
Open Scope Z_scope.

(** In every run the depth is from one to the I/O depth of the job. *)
Theorem C49_bounds c es : ok c -> 1 <= qd (run c (start c) es) <= iodepth c.
Proof.
  intros HO. destruct (run_sane c es HO (start c) (start_sane c HO)) as (H1 & H2 & _). lia.
Qed.

(** No I/O is issued while as many as the depth are in flight. *)
Theorem C49_in_flight c es cur : ok c -> queue_full (run c (start c) es) false true cur = false -> cur < qd (run c (start c) es) <= iodepth c.
Proof.
  intros HO H. unfold queue_full in H. cbn [negb] in H. apply Z.leb_gt in H. pose proof (C49_bounds c es HO). lia.
Qed.

(** Missing the target lowers the depth, or ends the job at depth one; meeting it never lowers the depth. *)
Theorem C49_down c s : ok c -> sane c s -> 1 < qd s -> fst (fail s) = false /\ 1 <= qd (snd (fail s)) < qd s.
Proof.
  intros HO HS H. pose proof (fail_sane c s HO HS) as (S1 & _).
  pose proof (fail_fields c s HO HS ltac:(lia)) as (E0 & E1 & _). destruct HS as (H1 & H2 & H3 & _).
  split; [exact E0|]. split; [lia|]. rewrite E1. destruct (Z.eqb_spec (qd s) (low s)); half.
Qed.

Theorem C49_floor s : qd s = 1 -> fail s = (true, s).
Proof. intros H. unfold fail. now rewrite H. Qed.

Theorem C49_up c s : ok c -> sane c s -> qd s <= qd (success c s).
Proof.
  intros HO HS. pose proof (success_fields c s HO HS) as (E1 & _). rewrite E1. now apply nq_bounds.
Qed.

(** The depth changes only at the end of a window, or with a late I/O when all are to be in time. *)
Theorem C49_steady c s e : e = Check false \/ e = Complete false \/ (exists l, e = Complete l /\ strict c = false) ->
  qd (snd (step c s e)) = qd s /\ fst (step c s e) = false.
Proof.
  intros [->|[->|(l & -> & H)]]; [split; reflexivity|split; reflexivity|].
  destruct l; cbn [step]; [|split; reflexivity]. unfold late. rewrite H. split; reflexivity.
Qed.

(** ** The verdict on a window *)

(** The counts of a window are consistent. *)
Theorem C49_counts c es : ok c -> Z.of_nat (length es) < 2 ^ 32 - 1 ->
  let s := run c (start c) es in 0 <= failed s <= blocks s - ios s.
Proof.
  intros HO HL. apply (run_counted c HO es (start c)); [now apply start_sane|unfold counted; cbn; lia|cbn; lia].
Qed.

(** A window is good if the share in time is the percentile or more, up to a relative error of 2^-51. *)
Theorem C49_verdict c n f : 0 < n < 2 ^ 53 -> 0 <= f <= n -> 0 <= pk c ->
  (enough c n f = true -> pm c * n * 2 ^ 51 <= (2 ^ 51 + 1) * (100 * (n - f)) * 2 ^ pk c) /\
  (pm c * n * 2 ^ 51 <= (2 ^ 51 - 1) * (100 * (n - f)) * 2 ^ pk c -> enough c n f = true).
Proof. apply enough_spec. Qed.

(** When all are in time the window is good, for every percentile, without any error. *)
Theorem C49_verdict_all c n : 0 < n < 2 ^ 64 -> 0 <= pk c -> pm c <= 100 * 2 ^ pk c -> enough c n 0 = true.
Proof.
  intros Hn Hk Hp. unfold enough. destruct (Z.eqb_spec n 0); [lia|].
  replace (u64 (n - 0)) with n by (rewrite Z.sub_0_r; symmetry; apply Z.mod_small; lia).
  pose proof (rne53_error n ltac:(lia)) as (R0 & R1 & R2). set (a := rne53 n) in *. assert (A : 0 < a) by lia.
  unfold div53. destruct (Z.eqb_spec a 0); [lia|]. replace (56 + Z.log2 a - Z.log2 a) with 56 by lia.
  rewrite (Z.mul_comm a), Z.div_mul, Z.mod_mul by lia. cbn [Z.eqb].
  replace (2 * 2 ^ 56 + 0) with (1 * 2 ^ 57) by reflexivity. rewrite rne53_exact by lia.
  replace (1 * 2 ^ 57 * 100) with (100 * 2 ^ 57) by reflexivity. rewrite rne53_exact by lia.
  apply Z.leb_le. change (56 + 1) with 57. nia.
Qed.

(** When no I/O completes the window is bad. *)
Theorem C49_verdict_none c f : enough c 0 f = false.
Proof. reflexivity. Qed.

(** ** Finding the depth *)

(** On a device that meets the target up to depth [T], the search ends at [T], or at the depth of the
    job if that is lower, after a number of windows logarithmic in the depth. [T] one below the depth
    of the job is excepted. *)
Theorem C49_finds c T k : ok c -> latency_run c = false -> 1 <= T -> T <> iodepth c - 1 -> iodepth c <= 2 ^ Z.of_nat k ->
  exists n, (n <= 3 * k + 3)%nat /\ done (windows c T n (start c)) = true /\ qd (windows c T n (start c)) = Z.min T (iodepth c).
Proof.
  intros HO HR HT HN HK.
  assert (F : fresh (start c)) by (split; reflexivity).
  destruct (Z_le_gt_dec (iodepth c) T) as [L|L].
  - rewrite Z.min_r by lia. apply (ends_mono c T (k + 2)); [lia|]. apply phase_top; auto; try (cbn [start init qd low high stable]; lia). now apply start_sane.
  - rewrite Z.min_l by lia.
    destruct (phase_a c T k HO ltac:(lia) HK k (start c)) as (m & Hm & S1 & S2 & S3 & S4 & S5 & S6 & S7); auto; try (cbn [start init qd low high stable]; lia).
    { now apply start_sane. }
    destruct (last_two c T _ HO S1 HR S2 S3 S4 S6 S7) as (i & Hi & D1 & D2).
    exists (i + m)%nat. split; [lia|].
    assert (E : windows c T (i + m) (start c) = windows c T i (windows c T m (start c))).
    { clear. induction i as [|i IH]; [reflexivity|]. exact (f_equal (window c T) IH). }
    rewrite E. now split.
Qed.

(** A job that is to go on settles after as many windows. *)
Theorem C49_settles c T k : ok c -> 1 <= T <= iodepth c - 2 -> iodepth c <= 2 ^ Z.of_nat k ->
  exists n, (n <= 3 * k + 1)%nat /\ sane c (windows c T n (start c)) /\ settled c T (windows c T n (start c)).
Proof.
  intros HO HT HK.
  destruct (phase_a c T k HO HT HK k (start c)) as (m & Hm & S1 & S2 & S3 & S4 & S5 & S6 & S7); auto; try (cbn [start init qd low high stable]; lia).
  { now apply start_sane. }
  { now split. }
  exists m. split; [lia|]. split; [exact S1|]. left. destruct S1 as (S1 & _). lia.
Qed.

(** One below the depth of the job: the search never ends. *)
Theorem C49_swings_refuted c n : ok c -> 2 <= iodepth c ->
  end_run (windows c (iodepth c - 1) n (start c)) = false /\ done (windows c (iodepth c - 1) n (start c)) = false.
Proof.
  intros HO HD.
  assert (S : forall s, swings c s -> swings c (windows c (iodepth c - 1) n s)).
  { induction n as [|m IH]; intros s HS; [exact HS|]. rewrite windows_S. apply IH. now apply swing. }
  destruct (S (start c)) as (_ & _ & _ & _ & _ & F1 & F2).
  - split; [now apply start_sane|]. cbn. repeat split; lia.
  - now split.
Qed.

(** A job that is to go on does go on ... *)
Theorem C49_goes_on c es : latency_run c = true -> done (run c (start c) es) = false.
Proof.
  intros HR. assert (G : forall es s, done s = false -> done (run c s es) = false).
  { clear es. induction es as [|e es IH]; intros s H; [exact H|]. cbn [run fold_left]. apply IH.
    destruct e as [l|x]; cbn [step snd].
    - destruct l; [|exact H]. unfold late. destruct (strict c); [|exact H]. unfold fail. cbn [qd]. destruct (qd s =? 1); exact H.
    - unfold check. destruct (negb x); [exact H|]. destruct (enough _ _ _).
      + unfold success. rewrite HR. cbn [negb andb]. exact H.
      + unfold fail. destruct (qd s =? 1); exact H. }
  apply G. reflexivity.
Qed.

(** ... and once it has settled it stays within two of the depth. *)
Theorem C49_stays c T s n : ok c -> 1 <= T <= iodepth c - 2 -> sane c s -> settled c T s ->
  T <= qd (windows c T n s) <= T + 2.
Proof.
  intros HO HT HS HX.
  assert (G : sane c (windows c T n s) /\ settled c T (windows c T n s)).
  { revert s HS HX. induction n as [|n IH]; intros s HS HX; [now split|]. rewrite windows_S. apply IH.
    - unfold window. destruct (qd s <=? T); [now apply success_sane|now apply fail_sane].
    - now apply settled_step. }
  destruct G as (_ & [G|G]); lia.
Qed.

(** The end is declared only after a good window that did not change the depth, in the final run. *)
Theorem C49_end c s : ok c -> sane c s -> done s = false -> done (success c s) = true ->
  end_run s = true /\ qd (success c s) = qd s /\ latency_run c = false.
Proof.
  intros HO HS HD H. pose proof (success_fields c s HO HS) as (E1 & _ & _ & _ & _ & E6 & _). rewrite H, HD in E6. cbn [orb] in E6.
  symmetry in E6. apply andb_true_iff in E6. destruct E6 as [E6 E7]. apply andb_true_iff in E6. destruct E6 as [E6 E8].
  apply Z.eqb_eq in E8. rewrite E1. split; [exact E7|]. split; [exact E8|]. now apply negb_true_iff.
Qed.

(** When all are to be in time, as many late I/Os in a row as the depth end the job, whatever
    the lower depths would have done. *)
Theorem C49_storm_refuted c : ok c -> strict c = true ->
  forall k s, sane c s -> qd s = Z.of_nat k ->
  exists i, (i < k)%nat /\ fst (step c (run c s (repeat (Complete true) i)) (Complete true)) = true.
Proof.
  intros HO HX. induction k as [k IH] using (well_founded_induction lt_wf). intros s HS HQ.
  pose proof HS as (S1 & _).
  destruct (Z.eq_dec (qd s) 1) as [E|N].
  - exists 0%nat. split; [lia|]. cbn. unfold late. rewrite HX. unfold fail. cbn [qd]. now rewrite E.
  - set (s1 := St (qd s) (high s) (low s) (stable s) (end_run s) (done s) (blocks s + 1) (ios s) (failed s)).
    assert (HS1 : sane c s1) by exact HS.
    destruct (C49_down c s1 HO HS1) as (D1 & D2); [cbn; lia|].
    assert (E1 : snd (step c s (Complete true)) = snd (fail s1)) by (cbn [step]; unfold late; rewrite HX; reflexivity).
    change (qd s1) with (qd s) in D2.
    destruct (IH (Z.to_nat (qd (snd (fail s1))))) with (s := snd (fail s1)) as (i & Hi & H).
    + lia.
    + now apply fail_sane.
    + lia.
    + exists (S i). split; [lia|]. cbn [repeat run fold_left]. rewrite E1. exact H.
Qed.

(** ** Cases *)

Definition c16 : cfg := Cfg 16 false 99 0.
Definition good (n : nat) : list event := repeat (Complete false) n ++ [Check true].
Definition bad (n : nat) : list event := repeat (Complete true) n ++ [Check true].

(** Depth 16, target met up to 5. *)
Example ex_finds : map (fun n => qd (windows c16 5 n (start c16))) (seq 0 8) = [1; 2; 4; 8; 6; 5; 5; 5] /\
  map (fun n => done (windows c16 5 n (start c16))) (seq 5 3) = [false; false; true].
Proof. vm_compute. split; reflexivity. Qed.

(** Target met up to 15: up and down for ever. *)
Example ex_swings : map (fun n => qd (windows c16 15 n (start c16))) (seq 0 14) = [1; 2; 4; 8; 16; 12; 16; 14; 16; 15; 16; 15; 16; 15].
Proof. vm_compute. reflexivity. Qed.

(** A bad window after the final run has begun: it ends with the statistics of three depths. *)
Theorem C49_mixed_refuted :
  let s1 := run c16 (start c16) (good 3 ++ good 3 ++ good 3 ++ good 3 ++ good 3) in
  let s2 := run c16 s1 (bad 3) in
  let s3 := run c16 s2 (bad 3 ++ good 3) in
  (qd s1, end_run s1, done s1) = (16, true, false) /\ (qd s2, end_run s2, done s2) = (15, true, false) /\
  (qd s3, end_run s3, done s3) = (14, true, true).
Proof. vm_compute. repeat split; reflexivity. Qed.

Example ex_verdict : enough c16 1000 10 = true /\ enough c16 1000 11 = false /\ enough (Cfg 16 false 999 3) 8 0 = false.
Proof. vm_compute. repeat split; reflexivity. Qed.

(** Eight late I/Os at depth eight. *)
Example ex_storm : let c := Cfg 64 false 100 0 in let s := run c (start c) (good 1 ++ good 1 ++ good 1) in
  qd s = 8 /\ map (fun i => qd (run c s (repeat (Complete true) i))) (seq 0 8) = [8; 6; 5; 4; 3; 2; 1; 1].
Proof. vm_compute. split; reflexivity. Qed.

Print Assumptions C49_bounds.
Print Assumptions C49_verdict.
Print Assumptions C49_verdict_all.
Print Assumptions C49_finds.
Print Assumptions C49_swings_refuted.
Print Assumptions C49_stays.
Print Assumptions C49_storm_refuted.
