(** C50: flow control keeps the I/Os of jobs in the proportion of their weights. *)
From Coq Require Import ZArith List Lia Bool.
From Verif Require Import CBase FloatZ FlowModel FlowSpec FlowProofs.
Import ListNotations.
Open Scope Z_scope.

(** In every interleaving, with jobs joining and leaving, the counter of the group is one more than
    the I/Os of its jobs, and its weight is the sum of theirs. *)
Theorem C50_counters l g : run fresh l = Some g -> adds_up g.
Proof. apply run_adds_up. unfold adds_up. cbn. auto. Qed.

(** When the last job leaves the counter is one again (the assertion at flow.c:107). *)
Theorem C50_last l g : run fresh l = Some g -> jobs g = [] -> counter g = 1 /\ total g = 0.
Proof. intros H E. destruct (C50_counters l g H) as (A1 & A2 & _). rewrite E in *. cbn in *. lia. Qed.

(** There is always a job that need not wait. *)
Theorem C50_progress l g : run fresh l = Some g -> jobs g <> [] ->
  exists i j, nth_error (jobs g) i = Some j /\ stalls (count j) (counter g) (weight j) (total g) = false.
Proof.
  intros H NE. destruct (C50_counters l g H) as (A1 & A2 & A3).
  pose proof (sum_pending (jobs g)) as SP.
  assert (SC : 0 <= sum count (jobs g)) by (apply sum_nonneg; eapply Forall_impl; [|exact A3]; cbn; lia).
  destruct (existsb (fun j => negb (stalls (count j) (counter g) (weight j) (total g))) (jobs g)) eqn:EX.
  - apply existsb_exists in EX. destruct EX as (j & I & S). apply In_nth_error in I. destruct I as (i & I).
    exists i, j. split; [exact I|]. now apply negb_true_iff.
  - exfalso.
    assert (ALL : Forall (fun j => stalls (count j) (counter g) (weight j) (total g) = true) (jobs g)).
    { apply Forall_forall. intros j I. destruct (stalls (count j) (counter g) (weight j) (total g)) eqn:S; [reflexivity|].
      assert (X : existsb (fun j => negb (stalls (count j) (counter g) (weight j) (total g))) (jobs g) = true).
      { apply existsb_exists. exists j. split; [exact I|]. now rewrite S. }
      congruence. }
    assert (TP : forall l, l <> [] -> Forall (fun j => 1 <= weight j /\ 0 <= count j) l -> 1 <= sum weight l).
    { clear. intros l NE F. destruct F as [|x l Hx F]; [congruence|]. unfold sum. cbn [fold_right].
      assert (0 <= fold_right (fun j a => weight j + a) 0 l) by (apply (sum_nonneg weight); eapply Forall_impl; [|exact F]; cbn; lia). lia. }
    pose proof (TP _ NE A3) as T1.
    assert (S : forall l, l <> [] -> Forall (fun j => 1 <= weight j /\ 0 <= count j) l ->
      Forall (fun j => stalls (count j) (counter g) (weight j) (total g) = true) l -> sum weight l * counter g < sum count l * total g).
    { assert (S0 : forall l, Forall (fun j => 1 <= weight j /\ 0 <= count j) l ->
        Forall (fun j => stalls (count j) (counter g) (weight j) (total g) = true) l -> sum weight l * counter g + Z.of_nat (length l) <= sum count l * total g).
      { intros m F1. induction F1 as [|x m (W & C) F1 IH]; intros F2; [unfold sum; cbn; lia|]. inversion F2; subst.
        pose proof (stalls_true (count x) (counter g) (weight x) (total g) C ltac:(lia) ltac:(lia) ltac:(lia) H2) as B.
        specialize (IH H3). unfold sum in *. cbn [fold_right length]. rewrite Nat2Z.inj_succ, !Z.mul_add_distr_r. lia. }
      intros m NM F1 F2. specialize (S0 m F1 F2). destruct m; [congruence|]. cbn [length] in S0. lia. }
    specialize (S _ NE A3 ALL). rewrite <- A2 in S. nia.
Qed.

(** A group that has just been formed. *)
Definition formed (ws : list Z) : list action := map Join ws.

Lemma formed_even ws g : run fresh (formed ws) = Some g ->
  even_handed g /\ counter g = 1 /\ Forall (fun j => count j = 0 /\ at_ j = Idle) (jobs g).
Proof.
  intros H. pose proof (C50_counters _ _ H) as A.
  assert (G : forall ws g0 g, counter g0 = 1 -> Forall (fun j => count j = 0 /\ at_ j = Idle) (jobs g0) ->
     run g0 (formed ws) = Some g -> counter g = 1 /\ Forall (fun j => count j = 0 /\ at_ j = Idle) (jobs g)).
  { clear. induction ws as [|w ws IH]; intros g0 g C F H; cbn in H; [injection H as <-; auto|].
    destruct (w <=? 0); [discriminate|]. refine (IH _ _ _ _ H); cbn; [exact C|]. apply Forall_app. split; [exact F|]. constructor; [auto|constructor]. }
  destruct (G ws fresh g eq_refl ltac:(constructor) H) as (C & F). split; [|split; assumption]. split; [exact A|].
  destruct A as (_ & A2 & A3).
  assert (T0 : 0 <= total g) by (rewrite A2; apply sum_nonneg; eapply Forall_impl; [|exact A3]; cbn; lia).
  rewrite Forall_forall in *. intros j I. specialize (A3 j I). destruct (F j I) as (F1 & F2).
  unfold job_ok, not_ahead. rewrite F2, F1, C. lia.
Qed.

(** Whatever the interleaving, no job is ahead of its share of the I/Os by more than one. *)
Theorem C50_share ws l g0 g j : run fresh (formed ws) = Some g0 -> Forall goes l -> run g0 l = Some g ->
  total g0 < 2 ^ 64 -> Z.of_nat (length l) < 2 ^ 64 - 1 -> In j (jobs g) ->
  2 ^ 50 * (count j * total g) <= (2 ^ 50 + 1) * (weight j * counter g) + 2 ^ 50 * total g.
Proof.
  intros H0 HL H HT HN I. destruct (formed_even ws g0 H0) as (E & C & _).
  destruct (run_even l HL g0 g E HT ltac:(lia) H) as ((A & J) & T & _).
  assert (CP : 1 <= counter g).
  { destruct A as (A1 & _ & A3). assert (0 <= sum count (jobs g)) by (apply sum_nonneg; eapply Forall_impl; [|exact A3]; cbn; lia).
    pose proof (sum_pending (jobs g)). lia. }
  assert (T0 : 0 <= total g) by (destruct A as (_ & A2 & A3); rewrite A2; apply sum_nonneg; eapply Forall_impl; [|exact A3]; cbn; lia).
  rewrite Forall_forall in J. specialize (J j I). unfold job_ok, not_ahead in J. destruct (at_ j); [exact J|apply J|lia|lia].
Qed.

(** Nor behind it by more than twice the number of jobs. *)
Theorem C50_share_lower ws l g0 g i j : run fresh (formed ws) = Some g0 -> Forall goes l -> run g0 l = Some g ->
  total g0 < 2 ^ 64 -> Z.of_nat (length l) < 2 ^ 64 - 1 -> nth_error (jobs g) i = Some j ->
  2 ^ 50 * (weight j * counter g) <= 2 ^ 50 * (count j * total g) + (total g - weight j) * counter g
    + 2 ^ 50 * (2 * Z.of_nat (length (jobs g)) * total g).
Proof.
  intros H0 HL H HT HN I. destruct (formed_even ws g0 H0) as (E & C & _).
  destruct (run_even l HL g0 g E HT ltac:(lia) H) as (EV & T & _).
  assert (T1 : 1 <= total g).
  { destruct EV as ((_ & A2 & A3) & _). rewrite A2. clear - A3 I. revert i I. induction A3 as [|x m Hx A3 IH]; intros [|i] I; try discriminate.
    - unfold sum. cbn [fold_right]. assert (0 <= fold_right (fun j a => weight j + a) 0 m) by (apply (sum_nonneg weight); eapply Forall_impl; [|exact A3]; cbn; lia). lia.
    - specialize (IH i I). unfold sum in *. cbn [fold_right]. lia. }
  exact (sum_bound g i j EV T1 I).
Qed.

(** A job that is ahead of its share waits, for instance when another has joined. *)
Theorem C50_waits c f w t : 0 <= c -> 0 < f < 2 ^ 64 -> 0 <= w -> 0 < t < 2 ^ 64 ->
  (2 ^ 50 + 1) * (w * f) < 2 ^ 50 * (c * t) -> stalls c f w t = true.
Proof.
  intros Hc Hf Hw Ht H. destruct (stalls c f w t) eqn:S; [reflexivity|]. pose proof (stalls_false c f w t Hc Hf Hw Ht S). lia.
Qed.

(** ... and one that is not does not. *)
Theorem C50_goes c f w t : 0 <= c -> 0 < f -> 0 <= w -> 0 < t -> c * t <= w * f -> stalls c f w t = false.
Proof.
  intros Hc Hf Hw Ht H. destruct (stalls c f w t) eqn:S; [|reflexivity]. pose proof (stalls_true c f w t Hc Hf Hw Ht S). lia.
Qed.

(** Jobs are members from before they start: as long as one of them does no I/O, the others
    together get no more than about 2 * (number of jobs) * (total weight) / (its weight). *)
Theorem C50_absent_refuted ws l g0 g i j : run fresh (formed ws) = Some g0 -> Forall goes l -> run g0 l = Some g ->
  total g0 < 2 ^ 64 -> Z.of_nat (length l) < 2 ^ 64 - 1 -> nth_error (jobs g) i = Some j -> count j = 0 ->
  (2 ^ 50 * weight j - (total g - weight j)) * counter g <= 2 ^ 50 * (2 * Z.of_nat (length (jobs g)) * total g).
Proof.
  intros H0 HL H HT HN I Z0. pose proof (C50_share_lower ws l g0 g i j H0 HL H HT HN I) as B. rewrite Z0 in B. lia.
Qed.

(** ** Cases *)

Fixpoint rounds (n : nat) (one : list action) : list action := match n with O => [] | S n' => one ++ rounds n' one end.
Definition after (ws : list Z) (l : list action) : option (Z * Z * list Z) :=
  match run fresh (formed ws ++ l) with Some g => Some (counter g, total g, map count (jobs g)) | None => None end.

(** Weights 1 and 3, steps interleaved. *)
Example ex_share : after [1; 3] (rounds 400 [Go 0%nat; Go 1%nat]) = Some (135, 4, [34; 100]).
Proof. vm_compute. reflexivity. Qed.

(** The second job has not been started: the first does two I/Os and then waits for ever. *)
Example ex_absent : after [1; 1] (rounds 400 [Go 0%nat]) = Some (3, 2, [2; 0]).
Proof. vm_compute. reflexivity. Qed.

(** A job leaves. *)
Example ex_leave : after [2] (rounds 40 [Go 0%nat] ++ [Leave 0%nat]) = Some (1, 0, []) /\
  after [1; 3] (rounds 16 [Go 0%nat; Go 1%nat] ++ [Leave 0%nat; Go 0%nat]) <> None.
Proof. vm_compute. split; [reflexivity|discriminate]. Qed.

Print Assumptions C50_counters.
Print Assumptions C50_progress.
Print Assumptions C50_share.
Print Assumptions C50_share_lower.
Print Assumptions C50_absent_refuted.
