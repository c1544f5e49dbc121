(** Property C56: jobs are started once, when their options allow it, and all are waited for. *)
From Coq Require Import ZArith List Lia Bool.
From Verif Require Import CBase JobsModel JobsSpec JobsProofs.
Import ListNotations.
Open Scope Z_scope.

(** No job is created twice. *)
Theorem C56_once os s l : run os s l -> NoDup l.
Proof. intros H. apply (run_created os s l H). Qed.
(** The counters are those of the jobs that have been created but not released, and released but not reaped. *)
Theorem C56_counts os s l : Z.of_nat (List.length os) < 2 ^ 32 -> run os s l ->
  let count p := Z.of_nat (List.length (filter p (jobs s))) in
  nr_started s = count (fun j => match st j with Created | Initialized => true | _ => false end) /\ nr_running s = count (fun j => match st j with Running | Exited => true | _ => false end) /\
  0 <= nr_started s + nr_running s <= Z.of_nat (List.length os).
Proof.
  intros L R. destruct (run_inv os s l L R) as [LEN ST RU _ _ _ _]. cbv zeta. rewrite ST, RU.
  pose proof (cs_total (jobs s)) as T. rewrite LEN in T. pose proof (cs_nonneg NotCreated (jobs s)). pose proof (cs_nonneg Reaped (jobs s)). pose proof (cs_nonneg Created (jobs s)). pose proof (cs_nonneg Initialized (jobs s)). pose proof (cs_nonneg Running (jobs s)). pose proof (cs_nonneg Exited (jobs s)).
  split; [|split; [|lia]]; clear; induction (jobs s) as [|j js IH]; try reflexivity.
  - cbn [cs fold_right filter]. fold (cs Created js) (cs Initialized js). destruct (st j); cbn [is List.length]; lia.
  - cbn [cs fold_right filter]. fold (cs Running js) (cs Exited js). destruct (st j); cbn [is List.length]; lia.
Qed.
(** A job with stonewall is created only when no other is between its creation and its end. *)
Theorem C56_stonewall os s l s' i : Z.of_nat (List.length os) < 2 ^ 32 -> run os s l -> step s (Some i) s' ->
  forall j, nth_error (jobs s) i = Some j -> stonewall (o j) = true -> forall k x, nth_error (jobs s) k = Some x -> ~ active x.
Proof.
  intros L R S j E W k x X (A1 & A2). destruct (run_inv os s l L R) as [_ ST RU _ _ _ _]. inversion S as [? ? ? SC|]; subst. destruct (creates s s' i SC) as (j' & E' & _ & _ & _ & _ & WB & _). rewrite E in E'. injection E' as <-. destruct (WB W) as (Z1 & Z2).
  pose proof (cs_nonneg Created (jobs s)). pose proof (cs_nonneg Initialized (jobs s)). pose proof (cs_nonneg Running (jobs s)). pose proof (cs_nonneg Exited (jobs s)).
  pose proof (cs_zero Created (jobs s) k x ltac:(lia) X). pose proof (cs_zero Initialized (jobs s) k x ltac:(lia) X). pose proof (cs_zero Running (jobs s) k x ltac:(lia) X). pose proof (cs_zero Exited (jobs s) k x ltac:(lia) X). destruct (st x); congruence.
Qed.
(** No job is created before a stonewall that is in front of it, if that has no other reason to wait and is not terminated. *)
Theorem C56_behind os s l s' i w j : Z.of_nat (List.length os) < 2 ^ 32 -> run os s l -> step s (Some i) s' -> (w < i)%nat -> nth_error (jobs s) w = Some j ->
  stonewall (o j) = true -> start_delay (o j) = 0 -> waits (o j) = [] -> terminate j = false -> st j <> NotCreated.
Proof.
  intros L R S LT E W D WT TJ. destruct (run_inv os s l L R) as [_ _ _ _ _ WL _]. inversion S as [? ? ? SC|]; subst. destruct (creates s s' i SC) as (j' & _ & PC & _). rewrite PC in WL. apply (WL w j LT E). unfold plain_wall. auto.
Qed.
(** start_delay and wait_for are kept, and a terminated job is not created. *)
Theorem C56_delay_and_wait s s' i : step s (Some i) s' -> exists j, nth_error (jobs s) i = Some j /\ st j = NotCreated /\ terminate j = false /\ start_delay (o j) <= now s /\
  forall w x, In w (waits (o j)) -> nth_error (jobs s) w = Some x -> st x = Exited \/ st x = Reaped.
Proof.
  intros S. inversion S as [? ? ? SC|]; subst. destruct (creates s s' i SC) as (j & E & _ & SJ & TJ & D & _ & WR & _). exists j. split; [exact E|]. split; [exact SJ|]. split; [exact TJ|]. split; [exact D|].
  intros w x I X. unfold waitee_running in WR. destruct (before_exit (st x)) eqn:B; [|destruct (st x); try discriminate; auto].
  assert (Y : existsb (fun w => match nth_error (jobs s) w with Some j => before_exit (st j) | None => false end) (waits (o j)) = true) by (apply existsb_exists; exists w; rewrite X; auto). congruence.
Qed.
(** If nothing is terminated, every job has ended and was reaped when the main process is done. *)
Theorem C56_done os s l : Z.of_nat (List.length os) < 2 ^ 32 -> run os s l -> pc s = Done -> (forall i j, nth_error (jobs s) i = Some j -> terminate j = false) ->
  forall i j, nth_error (jobs s) i = Some j -> st j = Reaped.
Proof.
  intros L R P NT i j E. destruct (run_inv os s l L R) as [_ ST RU TD _ _ FI]. rewrite P in FI. destruct FI as (T0 & R0). specialize (TD NT).
  pose proof (cs_nonneg NotCreated (jobs s)). pose proof (cs_nonneg Created (jobs s)). pose proof (cs_nonneg Initialized (jobs s)). pose proof (cs_nonneg Running (jobs s)). pose proof (cs_nonneg Exited (jobs s)).
  pose proof (cs_zero NotCreated (jobs s) i j ltac:(lia) E). pose proof (cs_zero Created (jobs s) i j ltac:(lia) E). pose proof (cs_zero Initialized (jobs s) i j ltac:(lia) E). pose proof (cs_zero Running (jobs s) i j ltac:(lia) E). pose proof (cs_zero Exited (jobs s) i j ltac:(lia) E). destruct (st j); congruence.
Qed.
(** The main process waits only for jobs that set themselves up. *)
Theorem C56_never_stuck s : sched s = None -> pc s = Done \/ (pc s = Wait /\ exists i j, nth_error (jobs s) i = Some j /\ st j = Created).
Proof.
  intros E. unfold sched in E. destruct (pc s) as [i| |i|i|i|]; auto.
  - destruct (nth_error (jobs s) i) as [j|]; [|discriminate]. destruct (st j); try discriminate. destruct (terminate j); [discriminate|]. destruct (_ <? _); [discriminate|]. destruct (_ && _); [discriminate|]. destruct (waitee_running _ _); discriminate.
  - right. split; [reflexivity|]. destruct (existsb _ (jobs s)) eqn:X; [|discriminate]. apply existsb_exists in X. destruct X as (j & I & C). apply In_nth_error in I. destruct I as (i & I). exists i, j. split; [exact I|]. destruct (st j); congruence.
  - destruct (nth_error (jobs s) i) as [j|]; [|discriminate]. destruct (st j); discriminate.
  - destruct (nth_error (jobs s) i) as [j|]; [|discriminate]. destruct (st j); discriminate.
  - destruct (nth_error (jobs s) i) as [j|]; [|discriminate]. destruct (st j); discriminate.
Qed.
(** When all jobs created so far are reaped and all delays are over, the next round creates the first one left, if jobs wait for earlier
    ones only (init.c:1573-1600). *)
Fixpoint rounds (k : nat) (s : state) : option state := match k with O => Some s | S k' => do x <- sched s; rounds k' (fst x) end.
Theorem C56_progress os s l i j : Z.of_nat (List.length os) < 2 ^ 32 -> run os s l -> pc s = Scan 0 -> (forall k x, nth_error (jobs s) k = Some x -> ~ active x) ->
  nth_error (jobs s) i = Some j -> st j = NotCreated -> terminate j = false -> start_delay (o j) <= now s -> (forall w, In w (waits (o j)) -> (w < i)%nat) ->
  (forall k x, (k < i)%nat -> nth_error (jobs s) k = Some x -> st x <> NotCreated) -> exists s1 s2, rounds i s = Some s1 /\ sched s1 = Some (s2, Some i).
Proof.
  intros L R P NA E SJ TJ D WT FIRST. destruct (run_inv os s l L R) as [_ ST RU _ _ _ _].
  assert (Z : forall r, r <> NotCreated -> r <> Reaped -> cs r (jobs s) = 0).
  { intros r N1 N2. assert (NA' : forall x, In x (jobs s) -> st x = NotCreated \/ st x = Reaped) by (intros x I; apply In_nth_error in I; destruct I as (k & I); specialize (NA k x I); unfold active in NA; destruct (st x); auto; exfalso; apply NA; split; discriminate).
    clear - NA' N1 N2. induction (jobs s) as [|x js IH]; [reflexivity|]. cbn [cs fold_right]. fold (cs r js). rewrite IH by (intros y Y; apply NA'; right; auto). destruct (NA' x (or_introl eq_refl)) as [Q|Q]; rewrite Q; destruct r; cbn; congruence. }
  assert (W : waitee_running (jobs s) (waits (o j)) = false).
  { unfold waitee_running. destruct (existsb _ (waits (o j))) eqn:X; [|reflexivity]. apply existsb_exists in X. destruct X as (w & I & B). destruct (nth_error (jobs s) w) as [x|] eqn:EX; [|discriminate]. specialize (FIRST w x (WT w I) EX). specialize (NA w x EX). unfold active in NA. exfalso. apply NA. split; [exact FIRST|]. intros Q. rewrite Q in B. discriminate. }
  assert (K : forall d k s0, (k + d = i)%nat -> s0 = at_pc s (Scan k) -> rounds d s0 = Some (at_pc s (Scan i))).
  { induction d as [|d IH]; intros k s0 KD ->; [replace k with i by lia; reflexivity|]. cbn [rounds]. assert (SC : sched (at_pc s (Scan k)) = Some (at_pc s (Scan (S k)), None)).
    { unfold sched. cbn [at_pc pc jobs]. assert (LK : (k < List.length (jobs s))%nat) by (assert (i < List.length (jobs s))%nat by (apply nth_error_Some; congruence); lia). destruct (nth_error (jobs s) k) as [x|] eqn:EX; [|apply nth_error_None in EX; lia].
      specialize (FIRST k x ltac:(lia) EX). destruct (st x); try congruence; reflexivity. }
    rewrite SC. cbn [fst]. apply (IH (S k)); [lia|reflexivity]. }
  exists (at_pc s (Scan i)). eexists. split; [apply (K i 0%nat); [lia|]; destruct s; cbn in P; subst; reflexivity|].
  unfold sched. cbn [at_pc pc jobs now nr_started nr_running todo]. rewrite E, SJ, TJ. destruct (Z.ltb_spec (now s) (start_delay (o j))); [lia|]. rewrite ST, RU, !Z by discriminate. cbn [Z.add Z.eqb negb orb]. rewrite andb_false_r, W. reflexivity.
Qed.

(** What does not hold. A terminated job that has not been created is taken off the count again in every round: here the second job, which
    nobody terminated, is never created. *)
Lemma more os s l k s' : run os s l -> rounds k s = Some s' -> exists l', run os s' l'.
Proof.
  revert s l. induction k as [|k IH]; intros s l R E; cbn [rounds] in E; [injection E as <-; eauto|]. destruct (sched s) as [[s1 c]|] eqn:SC; [|discriminate]. cbn [fst] in E. eapply IH; [|exact E]. eapply Rstep; [exact R|]. apply Main. exact SC.
Qed.
Lemma event os s l e s' : run os s l -> happens s e = Some s' -> exists l', run os s' l'.
Proof. intros R E. eexists. eapply Rstep; [exact R|]. eapply Event. exact E. Qed.
Theorem C56_terminated_refuted : exists os s l, run os s l /\ pc s = Done /\ exists j, nth_error (jobs s) 1 = Some j /\ st j = NotCreated /\ terminate j = false.
Proof.
  set (os := [(Opts 10 false [], true); (Opts 20 false [], true)]). destruct (event os _ _ (Terminate 0) _ (Rinit os) eq_refl) as (l1 & R1).
  match type of R1 with run _ ?s _ => destruct (more os s l1 (2 * 10) _ R1 ltac:(vm_compute; reflexivity)) as (l2 & R2) end.
  exists os. eexists. exists l2. split; [exact R2|]. split; [reflexivity|]. eexists. split; [reflexivity|]. split; reflexivity.
Qed.
(** With two of them the count may wrap, and the main process goes on when there is nothing left to do. *)
Theorem C56_wrap_refuted : exists os s l, run os s l /\ (forall i j, nth_error (jobs s) i = Some j -> terminate j = true \/ st j = Reaped) /\ pc s = Scan 0 /\ 2 ^ 31 < todo s.
Proof.
  set (os := [(Opts 10 false [], true); (Opts 10 false [], true); (Opts 20 false [], true)]). destruct (event os _ _ (Terminate 0) _ (Rinit os) eq_refl) as (l1 & R1). destruct (event os _ _ (Terminate 1) _ R1 eq_refl) as (l2 & R2).
  match type of R2 with run _ ?s _ => destruct (more os s l2 13 _ R2 ltac:(vm_compute; reflexivity)) as (l3 & R3) end. destruct (event os _ _ (Tick 20) _ R3 eq_refl) as (l4 & R4).
  match type of R4 with run _ ?s _ => destruct (more os s l4 4 _ R4 ltac:(vm_compute; reflexivity)) as (l5 & R5) end. destruct (event os _ _ (Ready 2) _ R5 eq_refl) as (l6 & R6).
  match type of R6 with run _ ?s _ => destruct (more os s l6 5 _ R6 ltac:(vm_compute; reflexivity)) as (l7 & R7) end. destruct (event os _ _ (Ends 2) _ R7 eq_refl) as (l8 & R8).
  match type of R8 with run _ ?s _ => destruct (more os s l8 4 _ R8 ltac:(vm_compute; reflexivity)) as (l9 & R9) end.
  exists os. eexists. exists l9. split; [exact R9|]. split; [|split; [reflexivity|vm_compute; reflexivity]].
  intros i j E. destruct i as [|[|[|i]]]; cbn in E; try (injection E as <-; cbn; auto); destruct i; discriminate.
Qed.
(** A stonewall with a start_delay does not hold back the jobs behind it. *)
Theorem C56_delayed_wall_refuted : exists os s l s', run os s l /\ step s (Some 1%nat) s' /\ exists j, nth_error (jobs s) 0 = Some j /\ stonewall (o j) = true /\ terminate j = false /\ st j = NotCreated.
Proof.
  set (os := [(Opts 10 true [], true); (Opts 0 false [], true)]). destruct (more os _ _ 1 _ (Rinit os) ltac:(vm_compute; reflexivity)) as (l1 & R1).
  exists os. eexists. exists l1. eexists. split; [exact R1|]. split; [apply Main; vm_compute; reflexivity|]. eexists. split; [reflexivity|]. split; [reflexivity|split; reflexivity].
Qed.

(** Two jobs, a stonewall and one behind it, to the end. *)
Fixpoint quiet (k : nat) (s : state) : option state := match k with O => Some s | S k' => match sched s with Some (s', None) => quiet k' s' | _ => None end end.
Example C56_ex : exists s l, run [(Opts 0 false [], true); (Opts 0 true [], true); (Opts 0 false [1%nat], true)] s l /\ pc s = Scan 1 /\ l = [0%nat] /\
  (exists j, nth_error (jobs s) 0 = Some j /\ st j = Reaped) /\ exists s', step s (Some 1%nat) s'.
Proof.
  set (os := [(Opts 0 false [], true); (Opts 0 true [], true); (Opts 0 false [1%nat], true)]).
  assert (M : forall s l s', run os s l -> sched s = Some (s', None) -> run os s' l) by (intros s l s' R E; exact (Rstep os s s' None l R (Main s s' None E))).
  assert (EV : forall s l s' e, run os s l -> happens s e = Some s' -> run os s' l) by (intros s l s' e R E; exact (Rstep os s s' None l R (Event s s' e E))).
  assert (MR : forall k s l s', run os s l -> quiet k s = Some s' -> run os s' l).
  { induction k as [|k IH]; intros s l s' R E; cbn [quiet] in E; [injection E as <-; exact R|]. destruct (sched s) as [[s2 [c|]]|] eqn:SC; try discriminate. apply (IH s2 l s'); [apply (M s l s2 R SC)|exact E]. }
  pose proof (Rstep os _ _ _ _ (Rinit os) (Main (init os) _ (Some 0%nat) eq_refl)) as R1. cbn [app] in R1.
  match type of R1 with run _ ?s _ => pose proof (EV s _ _ (Ready 0) R1 eq_refl) as R2 end.
  match type of R2 with run _ ?s _ => pose proof (MR 6%nat s _ _ R2 ltac:(vm_compute; reflexivity)) as R3 end.
  match type of R3 with run _ ?s _ => pose proof (EV s _ _ (Ends 0) R3 eq_refl) as R4 end.
  match type of R4 with run _ ?s _ => pose proof (MR 5%nat s _ _ R4 ltac:(vm_compute; reflexivity)) as R5 end.
  eexists. eexists. split; [exact R5|]. split; [reflexivity|]. split; [reflexivity|]. split; [eexists; split; reflexivity|]. eexists. apply Main. vm_compute. reflexivity.
Qed.

Print Assumptions C56_once.
Print Assumptions C56_stonewall.
Print Assumptions C56_behind.
Print Assumptions C56_delay_and_wait.
Print Assumptions C56_done.
Print Assumptions C56_progress.
