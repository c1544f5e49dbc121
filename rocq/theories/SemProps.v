(** C45: semaphores count, wake their waiters and time out as asked. *)
From Coq Require Import ZArith List Lia Bool Arith.
From Verif Require Import SemModel SemSpec SemProofs.
Import ListNotations.
Open Scope Z_scope.

(** Every trace is that of an atomic counting semaphore, whose value is the
    semaphore's; a thread that is outside has returned from what it called. *)
Theorem C45_atomic : forall c s, 0 <= v0 c -> reach c any s ->
  exists f, legal (v0 c) (tr s) (value s) f /\ (forall j, f j = Out <-> pc s j = PIdle).
Proof.
  intros c s V R. destruct (i_legal _ _ (reach_inv _ _ _ V R)) as (f & F1 & F2). exists f. split; [ exact F1 | ].
  intros j. rewrite F2. destruct (pc s j); cbn [phase_of]; split; congruence.
Qed.

(** The value is the initial one plus ups minus downs, and not negative. *)
Theorem C45_value : forall c s, 0 <= v0 c -> reach c any s -> value s = v0 c - sumz (tr s) /\ 0 <= value s.
Proof.
  intros c s V R. pose proof (reach_inv _ _ _ V R) as I. destruct (i_legal _ _ I) as (f & F1 & F2).
  split; [ exact (legal_value _ _ _ _ F1) | exact (i_val _ _ I) ].
Qed.

(** The statements between lock and unlock exclude each other. *)
Theorem C45_exclusive : forall c s i j, 0 <= v0 c -> reach c any s -> holds (pc s i) = true -> holds (pc s j) = true -> i = j.
Proof.
  intros c s i j V R H1 H2. pose proof (reach_inv _ _ _ V R) as I.
  apply (t_lock _ _ _ (i_tok _ _ I i)) in H1. apply (t_lock _ _ _ (i_tok _ _ I j)) in H2. congruence.
Qed.

(** [waiters] counts the threads in their wait: nobody waits uncounted, and it is
    zero when all have left. *)
Theorem C45_waiters : forall c s, 0 <= v0 c -> reach c any s ->
  waiters s = cnt counted (pc s) (threads c) /\ (forall i, asleep (pc s i) = true -> 0 < waiters s) /\
  ((forall i, pc s i = PIdle) -> waiters s = 0).
Proof.
  intros c s V R. pose proof (reach_inv _ _ _ V R) as I. pose proof (i_wai _ _ I) as W.
  split; [ exact W | split ].
  - intros i A. rewrite W. apply (cnt_pos counted (pc s) (threads c) i).
    + destruct (le_lt_dec (threads c) i) as [G|G]; [ | exact G ]. rewrite (t_far _ _ _ (i_tok _ _ I i) G) in A. discriminate.
    + destruct (pc s i); try discriminate. reflexivity.
  - intros H. rewrite W. apply cnt_none. intros i. rewrite H. reflexivity.
Qed.

(** As long as some thread is inside and awake, some thread can go on. *)
Theorem C45_progress : forall c s, 0 <= v0 c -> reach c any s -> quiet c s \/ exists s', own c s s'.
Proof. intros c s V R. apply progress. exact (reach_inv _ _ _ V R). Qed.

(** Without further calls, spurious wake-ups and timeouts, all activity ends after
    at most eleven steps per thread, however the threads are scheduled. *)
Theorem C45_ends : forall c n s s', owns c n s s' -> (n <= 11 * threads c)%nat.
Proof.
  intros c n s s' O. pose proof (owns_less c n s s' O). pose proof (tot_bound (pc s) (threads c)). lia.
Qed.
Theorem C45_settles : forall c s, 0 <= v0 c -> reach c any s -> exists n s', owns c n s s' /\ quiet c s'.
Proof. intros c s V R. apply (settles c (tot (pc s) (threads c)) s (le_n _)). exact (reach_inv _ _ _ V R). Qed.

(** When all activity has ceased, nobody sleeps while a unit is there. *)
Theorem C45_no_lost_wakeup : forall c s, 0 <= v0 c -> reach c (well_used c) s -> quiet c s -> 0 < value s ->
  forall i, (i < threads c)%nat -> pc s i = PIdle.
Proof.
  intros c s V R Q P i N. destruct (Q i N) as [H|H]; [ exact H | ].
  destruct (reach_woke c s V R P (ex_intro _ i (conj N H))) as (k & K1 & K2).
  destruct (Q k K1) as [E|E]; [ rewrite E in K2; discriminate | destruct (pc s k); discriminate ].
Qed.

(** A timed down that fails does so after its time, if either the wait does not
    time out early or both clocks are the same. *)
Theorem C45_not_early : forall c s i ms, 0 <= v0 c -> reach c any s -> honest c = true \/ same c = true ->
  pc s i = PUnlock (Timed ms) false -> base s i + ms * 1000000 <= mono s.
Proof.
  intros c s i ms V R H P. pose proof (t_late _ _ _ (i_tok _ _ (reach_inv _ _ _ V R) i)) as T. rewrite P in T. exact (T H).
Qed.

(** The deadline is the time plus the milliseconds, and a valid [timespec]. *)
Theorem C45_deadline : forall sec nsec ms s n, 0 <= nsec < 1000000000 -> 0 <= ms -> deadline sec nsec ms = (s, n) ->
  s * 1000000000 + n = sec * 1000000000 + nsec + ms * 1000000 /\ 0 <= n < 1000000000.
Proof.
  intros sec nsec ms s n N M D. unfold deadline in D.
  assert (E : ms * 1000000 = 1000000000 * (ms / 1000) + (ms * 1000000) mod 1000000000).
  { replace 1000000000 with (1000 * 1000000) by reflexivity. rewrite Z.mul_mod_distr_r by lia.
    pose proof (Z.div_mod ms 1000 ltac:(lia)). lia. }
  pose proof (Z.mod_pos_bound (ms * 1000000) 1000000000 ltac:(lia)) as B.
  set (k := (ms * 1000000) mod 1000000000) in *. clearbody k. set (q := ms / 1000) in *. clearbody q.
  destruct (1000000000 <=? nsec + k) eqn:C; [ apply Z.leb_le in C | apply Z.leb_gt in C ]; injection D as <- <-; lia.
Qed.

(** With two waiters a wake-up is lost: two ups in a row signal only once, since
    the second sees a value that is not zero, and one waiter sleeps on although a
    unit is there and nobody is left to wake it. *)
Definition c_lost : cfg := MkCfg 3 0 true true.
Definition asleep_by (i : nat) : list act := [ACall i Down; AOwn i; AOwn i; AOwn i; AOwn i].
Definition run_lost : list act :=
  asleep_by 0 ++ asleep_by 1 ++
  [ACall 2 Up; AOwn 2; AOwn 2; AOwn 2; ASig 2 0; AOwn 2] ++
  [ACall 2 Up; AOwn 2; AOwn 2; AOwn 2; AOwn 2; AOwn 2] ++
  [AOwn 0; AOwn 0; AOwn 0; AOwn 0; AOwn 0].
Theorem C45_lost_wakeup_refuted : exists s, reach c_lost any s /\ quiet c_lost s /\ value s = 1 /\
  pc s 1 = PSleep Down /\ forall s', ~ own c_lost s s'.
Proof.
  destruct (run c_lost run_lost (init c_lost)) as [ s | ] eqn:E; [ | vm_compute in E; discriminate ].
  exists s. assert (R : reach c_lost any s).
  { apply (run_reach c_lost run_lost (init c_lost)); [ apply RInit; exact Logic.I | exact E ]. }
  split; [ exact R | ]. vm_compute in E. injection E as <-.
  assert (P : forall i, (i < 3)%nat -> i = 0%nat \/ i = 1%nat \/ i = 2%nat) by (intros; lia).
  split; [ | split; [ reflexivity | split; [ reflexivity | ] ] ].
  - intros i N. destruct (P i N) as [ -> | [ -> | -> ] ]; cbn; auto.
  - intros s' O. destruct O as [ i s' N A | i j o N Q J S | i N Q S ];
      destruct (P i N) as [ -> | [ -> | -> ] ]; try (vm_compute in A; discriminate); vm_compute in Q; discriminate.
Qed.

(** Where the condition variable has the monotonic clock, the second look at the
    time compares the time of day with the monotonic clock, so it does not catch
    an early timeout (a second asked for, none passed) ... *)
Definition c_early : cfg := MkCfg 1 0 false false.
Definition run_early : list act :=
  [AClk 5000000000 1700000000000000000; ACall 0 (Timed 1000); AOwn 0; AOwn 0; AOwn 0; AOwn 0; ATime 0; AOwn 0; AOwn 0; AOwn 0].
Theorem C45_double_check_refuted : exists s, reach c_early any s /\ pc s 0 = PUnlock (Timed 1000) false /\ base s 0 = mono s.
Proof.
  destruct (run c_early run_early (init c_early)) as [ s | ] eqn:E; [ | vm_compute in E; discriminate ].
  exists s. split; [ apply (run_reach c_early run_early (init c_early)); [ apply RInit; exact Logic.I | exact E ] | ].
  vm_compute in E. injection E as <-. split; reflexivity.
Qed.

(** ... and drops a true one where the time of day is behind: the time has passed,
    the wait says so, and the thread sleeps again. *)
Definition c_late : cfg := MkCfg 1 0 true false.
Definition run_late : list act :=
  [AClk 5000000000 0; ACall 0 (Timed 1000); AOwn 0; AOwn 0; AOwn 0; AOwn 0; AClk 9000000000 4000000000; ATime 0; AOwn 0; AOwn 0; AOwn 0; AOwn 0].
Theorem C45_timeout_dropped_refuted : exists s, reach c_late any s /\ pc s 0 = PSleep (Timed 1000) /\
  base s 0 + 1000 * 1000000 < mono s /\ quiet c_late s.
Proof.
  destruct (run c_late run_late (init c_late)) as [ s | ] eqn:E; [ | vm_compute in E; discriminate ].
  exists s. split; [ apply (run_reach c_late run_late (init c_late)); [ apply RInit; exact Logic.I | exact E ] | ].
  vm_compute in E. injection E as <-. split; [ reflexivity | split; [ vm_compute; reflexivity | ] ].
  intros i N. cbn in N. assert (i = 0%nat) as -> by lia. right. reflexivity.
Qed.

(** A run: a waiter is woken by an up, takes the unit and returns; a trylock then
    fails. *)
Definition c_ex : cfg := MkCfg 2 0 true true.
Definition run_ex : list act :=
  asleep_by 0 ++ [ACall 1 Up; AOwn 1; AOwn 1; AOwn 1; ASig 1 0; AOwn 1] ++ [AOwn 0; AOwn 0; AOwn 0; AOwn 0; AOwn 0] ++
  [ACall 1 Try; AOwn 1; AOwn 1; AOwn 1].
Example C45_run : match run c_ex run_ex (init c_ex) with
  | Some s => value s = 0 /\ waiters s = 0 /\ lck s = None /\
      rev (tr s) = [Call 0 Down; Call 1 Up; Eff 1 Up true; Ret 1 Up true; Eff 0 Down true; Ret 0 Down true;
                    Call 1 Try; Eff 1 Try false; Ret 1 Try false]%nat
  | None => False end.
Proof. vm_compute. auto. Qed.
(** ... and a prefix of it with a sleeper and a unit, all of it [well_used]. *)
Example C45_used : exists s, reach c_ex (well_used c_ex) s /\ value s = 1 /\ waiters s = 1.
Proof.
  assert (G : forall l s s', reach c_ex (well_used c_ex) s ->
    (fix go l s := match l with [] => Some s | a :: l' => match do1 c_ex a s with
       Some s1 => if value s1 <=? 1 then go l' s1 else None | None => None end end) l s = Some s' -> reach c_ex (well_used c_ex) s').
  { induction l as [ | a l IH ]; intros s s' R H; [ injection H as <-; exact R | ].
    destruct (do1 c_ex a s) as [ s1 | ] eqn:D; [ | discriminate ]. destruct (value s1 <=? 1) eqn:V; [ | discriminate ].
    apply (IH s1); [ | exact H ]. eapply RStep; [ exact R | exact (do1_step _ _ _ _ D) | left; apply Z.leb_le; exact V ]. }
  eexists. split; [ | split ].
  - apply (G (asleep_by 0 ++ [ACall 1 Up; AOwn 1; AOwn 1; AOwn 1; ASig 1 0]) (init c_ex)).
    + apply RInit. left. vm_compute. discriminate.
    + vm_compute. reflexivity.
  - reflexivity.
  - reflexivity.
Qed.
Example C45_dl : deadline 5 999999999 1501 = (7, 500999999).
Proof. reflexivity. Qed.

Print Assumptions C45_atomic.
Print Assumptions C45_value.
Print Assumptions C45_exclusive.
Print Assumptions C45_waiters.
Print Assumptions C45_progress.
Print Assumptions C45_ends.
Print Assumptions C45_settles.
Print Assumptions C45_no_lost_wakeup.
Print Assumptions C45_not_early.
Print Assumptions C45_deadline.
Print Assumptions C45_lost_wakeup_refuted.
Print Assumptions C45_double_check_refuted.
Print Assumptions C45_timeout_dropped_refuted.
