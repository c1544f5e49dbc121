(** C28: the latency, depth and submission distributions count every I/O once, in the documented entry. *)
From Coq Require Import ZArith List Bool QArith Lia Lqa.
From Verif Require Import CBase BucketsModel BucketsSpec BucketsProofs.
Import ListNotations.
Open Scope Z_scope.

(** States reached by a job after [k] events. *)
Definition reached (s : st) : Prop := exists es, Forall ev_ok es /\ Z.of_nat (length es) + 1 < 2 ^ 64 /\ run init es = Some s.
Lemma reached_ok s : reached s -> exists k, ok k s /\ 0 <= k /\ k + 1 < 2 ^ 64.
Proof.
  intros (es & F & L & R). destruct (run_ok es 0 init ok_init F ltac:(lia)) as (s' & R' & O & _). rewrite R in R'. inversion R'; subst. exists (0 + Z.of_nat (length es)). split; auto. lia.
Qed.
(** The run itself never fails an assert or leaves an array. *)
Theorem C28_safe es : Forall ev_ok es -> Z.of_nat (length es) < 2 ^ 64 -> exists s, run init es = Some s.
Proof. intros F L. destruct (run_ok es 0 init ok_init F ltac:(lia)) as (s & R & _). eauto. Qed.

(** Every latency belongs to exactly one entry of the three tables. *)
Theorem C28_latency_entry ns : 0 <= ns -> exists t i, lat_entry t i ns /\ forall t' i', lat_entry t' i' ns -> t' = t /\ i' = i.
Proof. intros H. exists (table_of ns), (entry_of ns). destruct (entry_of_ok ns H) as (_ & E). split; auto. intros t' i' E'. eapply lat_entry_unique; eauto. Qed.
(** An I/O that completes adds one to that entry and changes nothing else. *)
Theorem C28_latency s ns : reached s -> 0 <= ns < 2 ^ 64 -> exists s' t i, mark_latency s ns = Some s' /\ lat_entry t i ns /\
  added (tbl t s) (tbl t s') i 1 /\ (forall t', t' <> t -> tbl t' s' = tbl t' s) /\ dmap s' = dmap s /\ smap s' = smap s /\ cmap s' = cmap s.
Proof.
  intros R H. destruct (reached_ok s R) as (k & O & K0 & K). destruct (mark_latency_ok k s ns O ltac:(lia) K) as (s' & E & A & B & (R1 & R2 & R3 & _) & _). exists s', (table_of ns), (entry_of ns).
  destruct (entry_of_ok ns ltac:(lia)) as (_ & L). repeat (split; [auto|]). auto.
Qed.
(** After any run each entry holds the number of I/Os whose latency is in its range, and the three tables together
    hold the number of I/Os. *)
Theorem C28_latency_run es s : Forall ev_ok es -> Z.of_nat (length es) < 2 ^ 64 -> run init es = Some s ->
  (forall t i n, counted (fun e => exists ns, e = ELat ns /\ lat_entry t i ns) es n -> nth i (tbl t s) 0 = n) /\
  (forall n, counted (fun e => exists ns, e = ELat ns) es n -> total (lat_n s) + total (lat_u s) + total (lat_m s) = n).
Proof.
  intros F L R. destruct (run_ok es 0 init ok_init F ltac:(lia)) as (s' & R' & O & A & B & _). rewrite R in R'. inversion R'; subst s'. split.
  - intros t i n C. rewrite (A t i n C). destruct t; cbn [tbl init lat_n lat_u lat_m]; unfold zeros; rewrite nth_repeat; lia.
  - intros n C. pose proof (B n C) as X. unfold lat_total in X. cbn in X. lia.
Qed.

(** Every depth from 1 belongs to exactly one entry. *)
Theorem C28_depth_entry d : 1 <= d -> exists i, in_depth i d /\ forall i', in_depth i' d -> i' = i.
Proof. intros H. exists (Z.to_nat (depth_idx d)). destruct (depth_idx_ok d H) as (_ & E). split; auto. intros i' E'. eapply depth_unique; eauto. Qed.
(** An event changes at most one entry of the depths, the one of the depth it saw. *)
Theorem C28_depth s e : reached s -> ev_ok e -> exists s', step s e = Some s' /\
  (dmap s' = dmap s \/ exists d i n, depth_of e = Some d /\ in_depth i d /\ 0 < n /\ added (dmap s) (dmap s') i n).
Proof.
  intros R H. destruct (reached_ok s R) as (k & O & K0 & K). destruct (step_ok k s e O H K) as (s' & E & _ & EF). exists s'. split; auto.
  destruct (f_dep _ _ _ EF) as [D|(d & n & D1 & D2 & D3 & D4)]; [left; auto|right]. exists d, (Z.to_nat (depth_idx d)), n. destruct (depth_idx_ok d D2) as (_ & X). auto.
Qed.
(** A synchronous I/O is counted at once; a queued one when its batch is committed, with all of the batch at the depth
    of that moment. *)
Theorem C28_depth_done s c d depth : reached s -> 1 <= depth < 2 ^ 32 -> exists s' i, queue_completed s c d false depth = Some s' /\ in_depth i depth /\ added (dmap s) (dmap s') i 1.
Proof.
  intros R H. destruct (reached_ok s R) as (k & O & K0 & K). destruct (done_ok k s c d false depth O H K) as (s' & E & O' & EF). exists s', (Z.to_nat (depth_idx depth)). split; auto. destruct (depth_idx_ok depth ltac:(lia)) as (IB & X). split; auto.
  assert (Q : queued s' = queued s). { unfold queue_completed, mark_submit, mark_complete, mark_depth, counts in E. cbn [negb] in E.
    repeat match type of E with context [bump ?a ?b ?c] => destruct (bump a b c); cbn in E; try discriminate | context [if c then _ else _] => destruct c; cbn in E | context [match d with Rw => _ | Sync => _ end] => destruct d; cbn in E end; inversion E; subst; reflexivity. }
  assert (T : total (dmap s') = total (dmap s) + 1) by (pose proof (f_bal _ _ _ EF) as B; destruct d; cbn in B; lia).
  destruct (f_dep _ _ _ EF) as [D|(d' & n & D1 & D2 & D3 & D4)]; [rewrite D in T; lia|]. cbn in D1. inversion D1; subst d'. replace 1 with n; auto.
  destruct D4 as (L1 & L2 & L3 & L4). assert (X2 : dmap s' = upd (dmap s) (Z.to_nat (depth_idx depth)) (nth (Z.to_nat (depth_idx depth)) (dmap s) 0 + n)).
  { apply (nth_ext _ _ 0 0); [rewrite upd_length; auto|]. intros i Hi. destruct (Nat.eq_dec i (Z.to_nat (depth_idx depth))) as [->|N]; [rewrite upd_nth_same; auto|rewrite upd_nth_other; auto]. }
  rewrite X2, total_upd in T by auto. lia.
Qed.
Theorem C28_depth_commit s depth : reached s -> 1 <= depth < 2 ^ 32 -> 1 <= queued s -> exists s' i, commit s depth = Some s' /\ in_depth i depth /\ added (dmap s) (dmap s') i (queued s) /\ queued s' = 0.
Proof.
  intros R H Q. destruct (reached_ok s R) as (k & O & K0 & K). destruct (commit_ok s depth (o_d _ _ O) ltac:(lia) ltac:(lia)) as (s' & E & _ & _ & _ & _ & _ & _ & C & _); [pose proof (o_dep _ _ O); lia|]. destruct (C ltac:(lia)).
  exists s', (Z.to_nat (depth_idx depth)). destruct (depth_idx_ok depth ltac:(lia)) as (_ & X). auto.
Qed.
(** After any run, the depths hold the reads, writes, trims and syncs issued, less those still waiting for a commit, plus
    the syncs queued while the job was in TD_FSYNCING. *)
Theorem C28_depth_run es s rw sy stray : Forall ev_ok es -> Z.of_nat (length es) < 2 ^ 64 -> run init es = Some s ->
  counted (fun e => is_rw e = true) es rw -> counted (fun e => is_sync e = true) es sy -> counted (fun e => is_stray e = true) es stray ->
  total_rw s = rw /\ total_sync s = sy /\ total (dmap s) + queued s = rw + sy + stray.
Proof.
  intros F L R C1 C2 C3. destruct (run_ok es 0 init ok_init F ltac:(lia)) as (s' & R' & O & _ & _ & _ & _ & _ & _ & A & B & C). rewrite R in R'. inversion R'; subst s'.
  pose proof (A _ C1) as A1. pose proof (B _ C2) as B1. pose proof (C _ C3) as D. cbn in A1, B1, D. lia.
Qed.

(** Submissions and completions: each belongs to one entry, and after any run an entry holds the number of those in its range. *)
Theorem C28_submit_entry n : 0 <= n -> exists i, in_submit i n /\ forall i', in_submit i' n -> i' = i.
Proof. intros H. exists (Z.to_nat (map_idx n)). destruct (map_idx_ok n H) as (_ & E). split; auto. intros i' E'. eapply submit_unique; eauto. Qed.
Theorem C28_submit_run es s : Forall ev_ok es -> Z.of_nat (length es) < 2 ^ 64 -> run init es = Some s ->
  (forall i n, counted (fun e => exists nr, submits e = Some nr /\ in_submit i nr) es n -> nth i (smap s) 0 = n) /\
  (forall n, counted (fun e => submits e <> None) es n -> total_submit s = n) /\
  (forall i n, counted (fun e => exists nr, completes e = Some nr /\ in_submit i nr) es n -> nth i (cmap s) 0 = n) /\
  (forall n, counted (fun e => completes e <> None) es n -> total_complete s = n).
Proof.
  intros F L R. destruct (run_ok es 0 init ok_init F ltac:(lia)) as (s' & R' & O & _ & _ & A & B & C & D & _). rewrite R in R'. inversion R'; subst s'.
  split; [|split; [|split]].
  - intros i n X. rewrite (A _ _ X). cbn [init smap]. unfold zeros. rewrite nth_repeat. lia.
  - intros n X. rewrite (B _ X). reflexivity.
  - intros i n X. rewrite (C _ _ X). cbn [init cmap]. unfold zeros. rewrite nth_repeat. lia.
  - intros n X. rewrite (D _ X). reflexivity.
Qed.

(** Group reporting adds the entries one by one. *)
Theorem C28_merge : forall a b, length a = length b -> Forall (fun v => 0 <= v) a -> Forall (fun v => 0 <= v) b -> total a + total b < 2 ^ 64 ->
  length (add_arrays a b) = length a /\ (forall i, nth i (add_arrays a b) 0 = nth i a 0 + nth i b 0) /\ total (add_arrays a b) = total a + total b.
Proof.
  induction a as [|x a IH]; intros [|y b] HL FA FB T; try discriminate; cbn [add_arrays length total] in *.
  - split; auto. split; auto. intros [|i]; reflexivity.
  - inversion FA; inversion FB; subst. assert (PA : 0 <= total a) by (clear - H2; induction H2; cbn; lia). assert (PB : 0 <= total b) by (clear - H6; induction H6; cbn; lia).
    destruct (IH b ltac:(lia) H2 H6 ltac:(lia)) as (L & N & S). unfold u64. rewrite Z.mod_small by lia. split; [lia|]. split; [|lia]. intros [|i]; cbn [nth]; auto.
Qed.

(** Printed percentages: of the true total they add up to 100, up to the rounding up of small non-empty entries. *)
Theorem C28_percent_sum least l : (0 <= least)%Q -> Forall (fun v => 0 <= v) l -> 0 < total l ->
  (100 <= qtotal (map (percent least (total l)) l) <= 100 + inject_Z (Z.of_nat (length l)) * least)%Q.
Proof.
  intros HL F T. destruct (percents_total least (total l) HL T l F) as (A & B). assert (HZ : ~ (inject_Z (total l) == 0)%Q) by (change 0%Q with (inject_Z 0); rewrite inject_Z_injective; lia).
  assert (E : (inject_Z (total l) / inject_Z (total l) * 100 == 100)%Q) by (field; auto). rewrite E in A, B. split; auto.
Qed.
(** Each is the exact share, except that a non-empty entry shows at least the smallest printable value. *)
Theorem C28_percent least t v : (0 <= least)%Q -> 0 < t -> 0 <= v -> let p := (inject_Z v / inject_Z t * 100)%Q in
  (p <= percent least t v <= p + least)%Q /\ (v = 0 -> (percent least t v == 0)%Q) /\ (v <> 0 -> (least <= percent least t v)%Q) /\ ((least <= p)%Q -> (percent least t v == p)%Q).
Proof.
  intros HL HT HV p. destruct (percent_bounds least t v HL HT HV) as (A & B & C). fold p in A, B. assert (HZ : ~ (inject_Z t == 0)%Q) by (change 0%Q with (inject_Z 0); rewrite inject_Z_injective; lia).
  split; auto. split; [|split; auto].
  - intros ->. unfold percent. destruct (Z.eqb_spec t 0); [lia|]. cbv zeta. rewrite andb_false_r. field. auto.
  - intros L. unfold percent. destruct (Z.eqb_spec t 0); [lia|]. cbv zeta. fold p. apply Qle_bool_iff in L. rewrite L. reflexivity.
Qed.

(** The depth percentages divide by the reads, writes and trims (show_thread_status_normal, ddir_rw_sum) but the depths also
    hold the syncs: a job that issues one fsync per write prints 200%. *)
Theorem C28_depth_percent_refuted : exists es s, Forall ev_ok es /\ run init es = Some s /\ (qtotal (calc_dist (dmap s) (total_rw s)) == 200)%Q.
Proof.
  exists [EDone true Rw false 1; EDone true Sync false 1], (mkSt (zeros 10) (zeros 10) (zeros 12) [2; 0; 0; 0; 0; 0; 0] [0; 2; 0; 0; 0; 0; 0] [0; 2; 0; 0; 0; 0; 0] 2 2 1 1 0).
  split; [repeat (apply Forall_cons; [cbn; lia|]); apply Forall_nil|]. split; vm_compute; reflexivity.
Qed.
(** The first entry of the terse output adds 100 * n / total without the guard for an empty job: 0 / 0. *)
Theorem C28_terse_empty_refuted : exists s, reached s /\ terse_first s = None.
Proof. exists init. split; [exists []; split; [apply Forall_nil|split; [vm_compute; reflexivity|reflexivity]]|reflexivity]. Qed.

(** Concrete runs that meet the hypotheses. *)
Definition demo : list ev := [ELat 999; ELat 1000; ELat 1999999; ELat 2500000000; EQueued false Rw false 3 2; EQueued false Sync false 4 2; EDone true Rw false 70; ESubmit 5; EComplete 70].
Example demo_ok : Forall ev_ok demo.
Proof. repeat (apply Forall_cons; [cbn; lia|]); apply Forall_nil. Qed.
Example demo_run : run init demo = Some (mkSt [0; 0; 0; 0; 0; 0; 0; 0; 0; 1] [1; 0; 0; 0; 0; 0; 0; 0; 0; 0] [1; 0; 0; 0; 0; 0; 0; 0; 0; 0; 0; 1] [0; 0; 2; 0; 0; 0; 1] [0; 1; 1; 0; 0; 0; 0] [0; 1; 0; 0; 0; 0; 1] 2 2 2 1 0).
Proof. vm_compute. reflexivity. Qed.
Example demo_counted : counted (fun e => is_rw e = true) demo 2.
Proof. unfold demo. do 4 (apply cnt_no; [discriminate|]). apply (cnt_yes _ _ _ 1); [reflexivity|]. apply cnt_no; [discriminate|]. apply (cnt_yes _ _ _ 0); [reflexivity|]. do 2 (apply cnt_no; [discriminate|]). apply cnt_nil. Qed.
Example demo_entry : lat_entry Tm 11 2500000000 /\ in_depth 2 4 /\ in_submit 2 5.
Proof.
  split; [|split].
  - split; [lia|]. change (2500000000 / 1000000) with 2500. split; [cbn; lia|]. split; [|discriminate]. intros j l Hj E. do 11 (destruct j as [|j]; [cbn in E; inversion E; lia|]). lia.
  - split; [exists 4; split; [reflexivity|lia]|]. intros l E. inversion E. lia.
  - split; [cbn; lia|]. split; [intros l E; inversion E; lia|]. intros j l Hj E. inversion Hj; subst. inversion E. lia.
Qed.

Print Assumptions C28_safe.
Print Assumptions C28_latency_entry.
Print Assumptions C28_latency.
Print Assumptions C28_latency_run.
Print Assumptions C28_depth_entry.
Print Assumptions C28_depth.
Print Assumptions C28_depth_done.
Print Assumptions C28_depth_commit.
Print Assumptions C28_depth_run.
Print Assumptions C28_submit_entry.
Print Assumptions C28_submit_run.
Print Assumptions C28_merge.
Print Assumptions C28_percent_sum.
Print Assumptions C28_percent.
Print Assumptions C28_depth_percent_refuted.
Print Assumptions C28_terse_empty_refuted.
