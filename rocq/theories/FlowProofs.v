(** Proofs about flow control. *)
From Coq Require Import ZArith List Lia Bool.
From Verif Require Import CBase FloatZ FlowModel FlowSpec.
Import ListNotations.
Open Scope Z_scope.

(** ** Doubles *)

Lemma rne53_form x : 2 ^ 53 <= x -> exists e, e = Z.log2 x - 52 /\ 1 <= e /\ 2 ^ (e + 52) <= rne53 x <= 2 ^ (e + 53).
Proof.
  intros H. exists (Z.log2 x - 52). split; [reflexivity|].
  assert (L : 53 <= Z.log2 x) by (apply Z.log2_le_pow2; lia). split; [lia|].
  unfold rne53. destruct (Z.ltb_spec x (2 ^ 53)); [lia|]. cbv zeta. set (e := Z.log2 x - 52).
  pose proof (Z.log2_spec x ltac:(lia)) as [S1 S2]. replace (Z.log2 x) with (e + 52) in * by lia.
  replace (Z.succ (e + 52)) with (e + 53) in S2 by lia.
  assert (PE : 0 < 2 ^ e) by (apply Z.pow_pos_nonneg; lia).
  rewrite Z.pow_add_r in S1, S2 by lia.
  assert (Q1 : 2 ^ 52 <= x / 2 ^ e) by (apply Z.div_le_lower_bound; lia).
  assert (Q2 : x / 2 ^ e < 2 ^ 53) by (apply Z.div_lt_upper_bound; lia).
  rewrite !Z.pow_add_r by lia.
  match goal with |- context [?q * 2 ^ e] => set (q' := q) end.
  assert (B : 2 ^ 52 <= q' <= 2 ^ 53) by (unfold q'; destruct (_ <? _); [lia|]; destruct (_ && _); lia).
  nia.
Qed.

Lemma rne53_mono x y : 0 <= x <= y -> rne53 x <= rne53 y.
Proof.
  intros H. destruct (Z_lt_ge_dec y (2 ^ 53)) as [Y|Y].
  { rewrite !rne53_small by lia. lia. }
  destruct (rne53_form y ltac:(lia)) as (ey & Ey & Y1 & Y2).
  destruct (Z_lt_ge_dec x (2 ^ 53)) as [X|X].
  { rewrite (rne53_small x) by lia. apply Z.le_trans with (2 ^ 53); [lia|].
    apply Z.le_trans with (2 ^ (ey + 52)); [apply Z.pow_le_mono_r; lia|lia]. }
  destruct (rne53_form x ltac:(lia)) as (ex & Ex & X1 & X2).
  assert (L : Z.log2 x <= Z.log2 y) by (apply Z.log2_le_mono; lia).
  destruct (Z.eq_dec (Z.log2 x) (Z.log2 y)) as [E|E].
  - unfold rne53. destruct (Z.ltb_spec x (2 ^ 53)); [lia|]. destruct (Z.ltb_spec y (2 ^ 53)); [lia|].
    rewrite E. set (e := Z.log2 y - 52) in *. cbv zeta.
    assert (PE : 0 < 2 ^ e) by (apply Z.pow_pos_nonneg; lia).
    apply Z.mul_le_mono_nonneg_r; [lia|].
    assert (Q : x / 2 ^ e <= y / 2 ^ e) by (apply Z.div_le_mono; lia).
    pose proof (Z.div_mod x (2 ^ e) ltac:(lia)) as DX. pose proof (Z.div_mod y (2 ^ e) ltac:(lia)) as DY.
    pose proof (Z.mod_pos_bound x (2 ^ e) PE) as MX. pose proof (Z.mod_pos_bound y (2 ^ e) PE) as MY.
    destruct (Z.eq_dec (x / 2 ^ e) (y / 2 ^ e)) as [EQ|NQ].
    + assert (R : x mod 2 ^ e <= y mod 2 ^ e) by (rewrite EQ in DX; lia). rewrite EQ.
      destruct (Z.ltb_spec (x mod 2 ^ e) (2 ^ (e - 1))); destruct (Z.ltb_spec (y mod 2 ^ e) (2 ^ (e - 1)));
      destruct (Z.eqb_spec (x mod 2 ^ e) (2 ^ (e - 1))); destruct (Z.eqb_spec (y mod 2 ^ e) (2 ^ (e - 1)));
      destruct (Z.even (y / 2 ^ e)); cbn [andb]; lia.
    + match goal with |- ?a <= ?b => assert (a <= x / 2 ^ e + 1); [|assert (y / 2 ^ e <= b)] end.
      * destruct (_ <? _); [lia|]. destruct (_ && _); lia.
      * clear. destruct (y mod 2 ^ e <? 2 ^ (e - 1)); [apply Z.le_refl|]. destruct (_ && _); lia.
      * lia.
  - apply Z.le_trans with (2 ^ (ex + 53)); [lia|]. apply Z.le_trans with (2 ^ (ey + 52)); [apply Z.pow_le_mono_r; lia|lia].
Qed.

(** The quotient before rounding. *)
Definition sticky (a b : Z) : Z := 2 * (a * 2 ^ 200 / b) + (if (a * 2 ^ 200) mod b =? 0 then 0 else 1).

Lemma sticky_close a b : 0 <= a -> 0 < b -> Z.abs (sticky a b * b - a * 2 ^ 201) <= b /\ 0 <= sticky a b.
Proof.
  intros Ha Hb. unfold sticky. set (x := a * 2 ^ 200). replace (a * 2 ^ 201) with (2 * x) by (unfold x; ring).
  pose proof (Z.div_mod x b ltac:(lia)) as D. pose proof (Z.mod_pos_bound x b Hb) as M.
  assert (Q : 0 <= x / b) by (apply Z.div_pos; [unfold x; nia|lia]).
  destruct (Z.eqb_spec (x mod b) 0); split; try lia; apply Z.abs_le; nia.
Qed.

Lemma sticky_mono a b c d : 0 <= a -> 0 < b -> 0 <= c -> 0 < d -> a * d <= c * b -> sticky a b <= sticky c d.
Proof.
  intros Ha Hb Hc Hd H. unfold sticky. set (x := a * 2 ^ 200). set (y := c * 2 ^ 200).
  assert (XY : x * d <= y * b) by (unfold x, y; nia).
  pose proof (Z.div_mod x b ltac:(lia)) as DX. pose proof (Z.mod_pos_bound x b Hb) as MX.
  pose proof (Z.div_mod y d ltac:(lia)) as DY. pose proof (Z.mod_pos_bound y d Hd) as MY.
  assert (Q : x / b <= y / d).
  { apply Z.div_le_lower_bound; [lia|]. apply Z.mul_le_mono_pos_r with b; [lia|]. nia. }
  destruct (Z.eq_dec (x / b) (y / d)) as [E|E].
  - rewrite E. destruct (Z.eqb_spec (x mod b) 0); destruct (Z.eqb_spec (y mod d) 0); try lia.
    exfalso. rewrite e, Z.add_0_r in DY. rewrite E in DX. nia.
  - destruct (x mod b =? 0); destruct (y mod d =? 0); lia.
Qed.

Lemma fdiv_mono a b c d : 0 <= a -> 0 < b -> 0 <= c -> 0 < d -> a * d <= c * b -> fdiv a b <= fdiv c d.
Proof.
  intros Ha Hb Hc Hd H. change (rne53 (sticky a b) <= rne53 (sticky c d)). apply rne53_mono.
  split; [now apply sticky_close|now apply sticky_mono].
Qed.

Lemma fdiv_error a b : 0 <= a -> 0 < b < 2 ^ 64 ->
  2 ^ 52 * Z.abs (fdiv a b * b - a * 2 ^ 201) <= a * 2 ^ 201.
Proof.
  intros Ha Hb. change (fdiv a b) with (rne53 (sticky a b)).
  destruct (Z.eq_dec a 0) as [->|Na].
  { unfold sticky. change (0 * 2 ^ 200) with 0. rewrite Zdiv_0_l, Zmod_0_l. cbn. lia. }
  destruct (sticky_close a b Ha ltac:(lia)) as (C1 & C2). set (y := sticky a b) in *.
  pose proof (rne53_error y C2) as (R0 & R1 & R2).
  assert (M1 : 2 ^ 53 * (rne53 y * b - y * b) <= y * b) by nia.
  assert (M2 : 2 ^ 53 * (y * b - rne53 y * b) <= y * b) by nia.
  assert (P : 2 ^ 201 <= a * 2 ^ 201) by nia.
  revert C1 M1 M2. generalize (rne53 y * b) (y * b). intros u v C1 M1 M2.
  change (2 ^ 201) with (2 ^ 64 * 2 ^ 137) in *. lia.
Qed.

(** A job that has to wait really is ahead of its share. *)
Lemma stalls_true c f w t : 0 <= c -> 0 < f -> 0 <= w -> 0 < t -> stalls c f w t = true -> w * f < c * t.
Proof.
  intros Hc Hf Hw Ht H. apply Z.ltb_lt in H. apply Z.nle_gt. intros L.
  pose proof (fdiv_mono c f w t Hc Hf Hw Ht ltac:(lia)). lia.
Qed.

(** A job that goes on is not, but for rounding. *)
Lemma stalls_false c f w t : 0 <= c -> 0 < f < 2 ^ 64 -> 0 <= w -> 0 < t < 2 ^ 64 -> stalls c f w t = false ->
  2 ^ 50 * (c * t) <= (2 ^ 50 + 1) * (w * f).
Proof.
  intros Hc Hf Hw Ht H. apply Z.ltb_ge in H.
  pose proof (fdiv_error c f Hc Hf) as E1. pose proof (fdiv_error w t Hw Ht) as E2.
  set (u := fdiv c f) in *. set (v := fdiv w t) in *.
  assert (B1 : (2 ^ 52 - 1) * (c * 2 ^ 201) <= 2 ^ 52 * (u * f)) by lia.
  assert (B2 : 2 ^ 52 * (v * t) <= (2 ^ 52 + 1) * (w * 2 ^ 201)) by lia.
  assert (B3 : (u * f) * t <= (v * t) * f).
  { replace (u * f * t) with (u * (f * t)) by ring. replace (v * t * f) with (v * (f * t)) by ring.
    apply Z.mul_le_mono_nonneg_r; [apply Z.mul_nonneg_nonneg; lia|exact H]. }
  assert (C1 : (2 ^ 52 - 1) * (c * 2 ^ 201) * t <= 2 ^ 52 * (u * f) * t) by (apply Z.mul_le_mono_nonneg_r; lia).
  assert (C2 : 2 ^ 52 * (v * t) * f <= (2 ^ 52 + 1) * (w * 2 ^ 201) * f) by (apply Z.mul_le_mono_nonneg_r; lia).
  assert (C3 : (2 ^ 52 - 1) * (c * t) * 2 ^ 201 <= (2 ^ 52 + 1) * (w * f) * 2 ^ 201).
  { replace ((2 ^ 52 - 1) * (c * t) * 2 ^ 201) with ((2 ^ 52 - 1) * (c * 2 ^ 201) * t) by ring.
    replace ((2 ^ 52 + 1) * (w * f) * 2 ^ 201) with ((2 ^ 52 + 1) * (w * 2 ^ 201) * f) by ring.
    replace (2 ^ 52 * (u * f) * t) with (2 ^ 52 * (u * f * t)) in C1 by ring.
    replace (2 ^ 52 * (v * t) * f) with (2 ^ 52 * (v * t * f)) in C2 by ring. lia. }
  apply Z.mul_le_mono_pos_r in C3; [|reflexivity].
  assert (0 <= c * t) by nia. assert (0 <= w * f) by nia. lia.
Qed.

(** ** Lists of jobs *)

Lemma sum_upd f l i j j' : nth_error l i = Some j -> sum f (upd l i j') = sum f l - f j + f j'.
Proof.
  revert i. induction l as [|x l IH]; intros [|i] H; try discriminate.
  - injection H as ->. unfold sum. cbn. lia.
  - specialize (IH i H). unfold sum in *. cbn. lia.
Qed.

Lemma sum_del f l i j : nth_error l i = Some j -> sum f (del l i) = sum f l - f j.
Proof.
  revert i. induction l as [|x l IH]; intros [|i] H; try discriminate.
  - injection H as ->. unfold sum. cbn. lia.
  - specialize (IH i H). unfold sum in *. cbn. lia.
Qed.

Lemma sum_app f a b : sum f (a ++ b) = sum f a + sum f b.
Proof. unfold sum. induction a as [|x a IH]; cbn; lia. Qed.

Lemma Forall_upd (P : job -> Prop) l i j : Forall P l -> P j -> Forall P (upd l i j).
Proof.
  intros H Hj. revert i. induction H as [|x l Hx H IH]; intros [|i]; cbn; auto.
Qed.

Lemma Forall_del (P : job -> Prop) l i : Forall P l -> Forall P (del l i).
Proof. intros H. revert i. induction H as [|x l Hx H IH]; intros [|i]; cbn; auto. Qed.

Lemma Forall_nth (P : job -> Prop) l i j : Forall P l -> nth_error l i = Some j -> P j.
Proof. intros H E. rewrite Forall_forall in H. apply H. now apply nth_error_In in E. Qed.

Lemma sum_nonneg f l : Forall (fun j => 0 <= f j) l -> 0 <= sum f l.
Proof. unfold sum. induction 1; cbn; lia. Qed.

Lemma pending_range j : 0 <= pending j <= 1.
Proof. unfold pending. destruct (at_ j); lia. Qed.

Lemma sum_pending l : 0 <= sum pending l <= Z.of_nat (length l).
Proof.
  unfold sum. induction l as [|j l IH]; cbn [fold_right length]; [lia|]. pose proof (pending_range j). lia.
Qed.

Lemma step_adds_up g a g' : adds_up g -> step g a = Some g' -> adds_up g'.
Proof.
  intros (A1 & A2 & A3) H. destruct a as [i|w|i]; cbn [step] in H.
  - destruct (nth_error (jobs g) i) as [j|] eqn:E; [|discriminate].
    pose proof (Forall_nth _ _ _ _ A3 E) as (W & C).
    assert (PJ : pending j = match at_ j with Half => 1 | _ => 0 end) by reflexivity.
    assert (PI : forall w c, pending (Job w c Idle) = 0) by reflexivity.
    assert (PL : forall w c f, pending (Job w c (Loaded f)) = 0) by reflexivity.
    assert (PP : forall w c, pending (Job w c Passed) = 0) by reflexivity.
    assert (PH : forall w c, pending (Job w c Half) = 1) by reflexivity.
    unfold adds_up. destruct (at_ j) eqn:EA; injection H as <-; cbn [counter total jobs];
    rewrite ?(sum_upd _ _ _ j) by exact E; cbn [count weight].
    + rewrite PL. split; [lia|]. split; [lia|]. apply Forall_upd; [exact A3|cbn; lia].
    + destruct (stalls _ _ _ _); rewrite ?PI, ?PP; (split; [lia|]; split; [lia|]; apply Forall_upd; [exact A3|cbn; lia]).
    + rewrite PH. split; [lia|]. split; [lia|]. apply Forall_upd; [exact A3|cbn; lia].
    + rewrite PI. split; [lia|]. split; [lia|]. apply Forall_upd; [exact A3|cbn; lia].
  - destruct (Z.leb_spec w 0); [discriminate|]. injection H as <-. unfold adds_up. cbn [counter total jobs].
    assert (S1 : sum count [Job w 0 Idle] = 0) by reflexivity. assert (S2 : sum pending [Job w 0 Idle] = 0) by reflexivity.
    assert (S3 : sum weight [Job w 0 Idle] = w) by (unfold sum; cbn; lia).
    rewrite !sum_app, S1, S2, S3. split; [lia|]. split; [lia|]. apply Forall_app. split; [exact A3|]. constructor; [cbn; lia|constructor].
  - destruct (nth_error (jobs g) i) as [[w c p]|] eqn:E; [|discriminate]. destruct p; try discriminate. injection H as <-.
    unfold adds_up. cbn [counter total jobs]. rewrite ?(sum_del _ _ _ _ E). cbn [count weight].
    assert (PI : pending (Job w c Idle) = 0) by reflexivity. rewrite PI.
    split; [lia|]. split; [lia|]. now apply Forall_del.
Qed.

Lemma run_adds_up l : forall g g', adds_up g -> run g l = Some g' -> adds_up g'.
Proof.
  induction l as [|a l IH]; intros g g' A H; cbn [run] in H; [injection H as <-; exact A|].
  destruct (step g a) as [g1|] eqn:E; [|discriminate]. apply (IH g1); [|exact H]. exact (step_adds_up g a g1 A E).
Qed.

(** ** Shares *)

(** Snapshots are not newer than the counter, and jobs about to be counted were not ahead. *)
Definition job_ok (g : group) (j : job) : Prop :=
  match at_ j with
  | Idle => not_ahead g j
  | Loaded f => not_ahead g j /\ 0 < f <= counter g
  | Passed | Half => 2 ^ 50 * (count j * total g) <= (2 ^ 50 + 1) * (weight j * counter g)
  end.

Definition even_handed (g : group) : Prop := adds_up g /\ Forall (job_ok g) (jobs g).

Lemma job_ok_grow g g' j : total g' = total g -> counter g <= counter g' -> 1 <= weight j -> job_ok g j -> job_ok g' j.
Proof.
  intros HT HC HW H. unfold job_ok, not_ahead in *. rewrite HT.
  assert (weight j * counter g <= weight j * counter g') by nia.
  destruct (at_ j); [|destruct H as (H & F); split; [|lia]| |]; nia.
Qed.

Lemma step_even g a g' : goes a -> even_handed g -> total g < 2 ^ 64 -> counter g < 2 ^ 64 -> step g a = Some g' -> even_handed g'.
Proof.
  intros HG (A & J) HT HC H. split; [exact (step_adds_up g a g' A H)|].
  destruct A as (A1 & A2 & A3). destruct a as [i|w|i]; [|destruct HG|destruct HG]. cbn [step] in H.
  destruct (nth_error (jobs g) i) as [j|] eqn:E; [|discriminate].
  pose proof (Forall_nth _ _ _ _ A3 E) as (W & C). pose proof (Forall_nth _ _ _ _ J E) as JO.
  assert (CP : 1 <= counter g).
  { assert (0 <= sum count (jobs g)) by (apply sum_nonneg; eapply Forall_impl; [|exact A3]; cbn; lia). pose proof (sum_pending (jobs g)). lia. }
  assert (TP : 1 <= total g).
  { assert (S : forall l k x, Forall (fun j => 1 <= weight j /\ 0 <= count j) l -> nth_error l k = Some x -> weight x <= sum weight l).
    { clear. induction l as [|y l IH]; intros [|k] x F N; try discriminate; inversion F; subst; unfold sum in *; cbn [fold_right].
      - injection N as ->. assert (0 <= fold_right (fun j a => weight j + a) 0 l).
        { apply (sum_nonneg weight). eapply Forall_impl; [|eassumption]. cbn; lia. } lia.
      - specialize (IH k x H2 N). lia. }
    pose proof (S _ _ _ A3 E). lia. }
  assert (GR : forall g2, total g2 = total g -> counter g <= counter g2 -> Forall (job_ok g2) (jobs g)).
  { intros g2 T2 C2. rewrite Forall_forall in *. intros x I. apply (job_ok_grow g); auto. now apply A3. }
  unfold job_ok in JO. destruct (at_ j) as [|f| |] eqn:EA; injection H as <-; cbn [jobs].
  - apply Forall_upd; [apply GR; cbn; lia|]. unfold job_ok, not_ahead in *. cbn. split; [exact JO|lia].
  - destruct JO as (JO & F). destruct (stalls (count j) f (weight j) (total g)) eqn:ES.
    + apply Forall_upd; [apply GR; cbn; lia|]. unfold job_ok, not_ahead in *. cbn. exact JO.
    + apply Forall_upd; [apply GR; cbn; lia|]. unfold job_ok. cbn [at_ count weight total counter].
      pose proof (stalls_false (count j) f (weight j) (total g) C ltac:(lia) ltac:(lia) ltac:(lia) ES) as B.
      assert (weight j * f <= weight j * counter g) by nia. lia.
  - apply Forall_upd; [apply GR; cbn; lia|]. unfold job_ok. cbn [at_ count weight total counter]. nia.
  - apply Forall_upd; [apply GR; cbn; lia|]. unfold job_ok, not_ahead. cbn [at_ count weight total counter].
    replace ((count j + 1) * total g) with (count j * total g + total g) by ring. lia.
Qed.

Lemma step_goes g a g' : goes a -> step g a = Some g' -> total g' = total g /\ counter g <= counter g' <= counter g + 1 /\ length (jobs g') = length (jobs g).
Proof.
  intros HG H. destruct a as [i|w|i]; [|destruct HG|destruct HG]. cbn [step] in H.
  destruct (nth_error (jobs g) i) as [j|]; [|discriminate].
  assert (L : forall l k x, length (upd l k x) = length l) by (induction l as [|y l IH]; intros [|k] x; cbn; auto).
  destruct (at_ j); injection H as <-; cbn; rewrite L; lia.
Qed.

Lemma run_even l : Forall goes l -> forall g g', even_handed g -> total g < 2 ^ 64 -> counter g + Z.of_nat (length l) < 2 ^ 64 ->
  run g l = Some g' -> even_handed g' /\ total g' = total g /\ length (jobs g') = length (jobs g).
Proof.
  intros HL. induction HL as [|a l Ha HL IH]; intros g g' A HT HC H; cbn [run] in H; [injection H as <-; auto|].
  destruct (step g a) as [g1|] eqn:E; [|discriminate]. cbn [length] in HC.
  destruct (step_goes g a g1 Ha E) as (T1 & C1 & L1).
  pose proof (step_even g a g1 Ha A HT ltac:(lia) E) as A1.
  destruct (IH g1 g' A1 ltac:(lia) ltac:(lia) H) as (B1 & B2 & B3). split; [exact B1|]. split; congruence.
Qed.

(** The sum over all jobs but one. *)
Lemma sum_bound g i j : even_handed g -> 1 <= total g -> nth_error (jobs g) i = Some j ->
  2 ^ 50 * (weight j * counter g) <= 2 ^ 50 * (count j * total g) + (total g - weight j) * counter g
    + 2 ^ 50 * (2 * Z.of_nat (length (jobs g)) * total g).
Proof.
  intros ((A1 & A2 & A3) & J) TP E.
  assert (CP : 1 <= counter g).
  { assert (0 <= sum count (jobs g)) by (apply sum_nonneg; eapply Forall_impl; [|exact A3]; cbn; lia). pose proof (sum_pending (jobs g)). lia. }
  assert (NA : Forall (not_ahead g) (jobs g)).
  { eapply Forall_impl; [|exact J]. intros x Hx. unfold job_ok in Hx. destruct (at_ x); [exact Hx|apply Hx| |]; unfold not_ahead; nia. }
  assert (SB : forall l, Forall (not_ahead g) l ->
    2 ^ 50 * (sum count l * total g) <= (2 ^ 50 + 1) * (sum weight l * counter g) + 2 ^ 50 * (Z.of_nat (length l) * total g)).
  { induction 1 as [|x l Hx H IH]; [unfold sum; cbn; lia|]. unfold not_ahead in Hx. unfold sum in *. cbn [fold_right length].
    rewrite Nat2Z.inj_succ. rewrite !Z.mul_add_distr_r. replace (Z.succ (Z.of_nat (length l)) * total g) with (Z.of_nat (length l) * total g + total g) by ring. lia. }
  specialize (SB (del (jobs g) i) (Forall_del _ _ _ NA)).
  rewrite !(sum_del _ _ _ _ E) in SB. pose proof (sum_pending (jobs g)) as SP.
  assert (LD : (S (length (del (jobs g) i)) = length (jobs g))%nat).
  { clear - E. revert i E. generalize (jobs g). induction l as [|x l IH]; intros [|i] E; try discriminate; cbn; [reflexivity|]. f_equal. exact (IH i E). }
  rewrite <- A2 in SB. set (n := Z.of_nat (length (jobs g))) in *.
  assert (LD' : Z.of_nat (length (del (jobs g) i)) = n - 1) by lia. rewrite LD' in SB.
  set (p := sum pending (jobs g)) in *. assert (SC : sum count (jobs g) = counter g - 1 - p) by lia. rewrite SC in SB.
  assert (PT : p * total g <= n * total g) by nia.
  lia.
Qed.
