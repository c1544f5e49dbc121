(** Proofs about the shift-register generator. *)
From Coq Require Import ZArith Znumtheory List Lia Bool FinFun Permutation.
From Verif Require Import CBase Orbit LfsrModel LfsrAlgebra LfsrCerts LfsrSpec.
Import ListNotations.
Open Scope Z_scope.

Ltac inv H := inversion H; subst; clear H.

Lemma iter_S {A} (f : A -> A) k x : Nat.iter (S k) f x = f (Nat.iter k f x).
Proof. reflexivity. Qed.

(** ** One step of the register is the Galois shift on the complement *)

Lemma lor_add_hi m a : 1 <= m -> 0 <= a < 2 ^ (m - 1) -> Z.lor a (2 ^ (m - 1)) = a + 2 ^ (m - 1).
Proof.
  intros Hm Ha. rewrite <- Z.lxor_lor.
  - rewrite <- Z.add_nocarry_lxor; auto.
    apply Z.bits_inj'. intros i Hi. rewrite Z.land_spec, Z.pow2_bits_eqb, Z.testbit_0_l by lia.
    destruct (Z.eqb_spec (m - 1) i) as [<-|]; [|apply andb_false_r].
    rewrite (testbit_above (m - 1) a) by lia. auto.
  - apply Z.bits_inj'. intros i Hi. rewrite Z.land_spec, Z.pow2_bits_eqb, Z.testbit_0_l by lia.
    destruct (Z.eqb_spec (m - 1) i) as [<-|]; [|apply andb_false_r].
    rewrite (testbit_above (m - 1) a) by lia. auto.
Qed.

Lemma compl_lxor m w : 0 <= m -> 0 <= w < 2 ^ m -> 2 ^ m - 1 - w = Z.lxor w (Z.ones m).
Proof.
  intros Hm Hw. rewrite Z.ones_equiv.
  assert (E : Z.lxor w (Z.ones m) + w = Z.ones m).
  { assert (D : Z.land (Z.lxor w (Z.ones m)) w = 0).
    { apply Z.bits_inj'. intros i Hi. rewrite Z.land_spec, Z.lxor_spec, Z.testbit_0_l, testbit_ones by lia.
      destruct (Z.leb_spec 0 i), (Z.ltb_spec i m); simpl; try lia.
      - destruct (Z.testbit w i); auto.
      - rewrite (testbit_above m w) by lia. auto. }
    rewrite Z.add_nocarry_lxor by auto.
    rewrite Z.lxor_comm, <- Z.lxor_assoc, Z.lxor_nilpotent, Z.lxor_0_l. auto. }
  rewrite Z.ones_equiv in E. lia.
Qed.

Lemma shiftr1_range m w : 1 <= m -> 0 <= w < 2 ^ m -> 0 <= Z.shiftr w 1 < 2 ^ (m - 1).
Proof.
  intros Hm Hw. rewrite Z.shiftr_div_pow2 by lia. change (2 ^ 1) with 2.
  replace (2 ^ m) with (2 * 2 ^ (m - 1)) in Hw by (rewrite <- Z.pow_succ_r by lia; f_equal; lia).
  split; [apply Z.div_pos; lia|apply Z.div_lt_upper_bound; lia].
Qed.

Lemma step_galois fl m v : 1 <= m <= 64 -> cached_bit fl = 2 ^ (m - 1) ->
  0 <= xormask fl < 2 ^ m -> 0 <= v < 2 ^ m ->
  2 ^ m - 1 - lfsr_step fl v = divx (xormask fl) (2 ^ m - 1 - v).
Proof.
  intros Hm Hc Hx Hv. unfold lfsr_step, divx. rewrite Hc.
  pose proof (shiftr1_range m v ltac:(lia) Hv) as Hs.
  assert (HH : 0 < 2 ^ (m - 1)) by (apply Z.pow_pos_nonneg; lia).
  assert (HF : 2 ^ m = 2 * 2 ^ (m - 1)) by (rewrite <- Z.pow_succ_r by lia; f_equal; lia).
  assert (R1 : 0 <= Z.lor (Z.shiftr v 1) (2 ^ (m - 1)) < 2 ^ m) by (rewrite lor_add_hi by lia; lia).
  assert (HL : Z.land v 1 = Z.b2z (Z.odd v)).
  { rewrite <- Z.bit0_odd. change 1 with (Z.ones 1) at 1. rewrite Z.land_ones by lia.
    change (2 ^ 1) with 2. symmetry. apply Z.bit0_mod. }
  assert (HA : Z.land (u64 (Z.land v 1 - 1)) (xormask fl) = if Z.odd v then 0 else xormask fl).
  { rewrite HL. destruct (Z.odd v); cbn [Z.b2z]; [reflexivity|].
    change (u64 (0 - 1)) with (Z.ones 64). rewrite Z.land_comm, Z.land_ones by lia.
    apply Z.mod_small. split; [lia|].
    apply Z.lt_le_trans with (2 ^ m); [lia|apply Z.pow_le_mono_r; lia]. }
  rewrite HA. set (x := if Z.odd v then 0 else xormask fl).
  assert (Hxr : 0 <= x < 2 ^ m) by (unfold x; destruct (Z.odd v); lia).
  rewrite compl_lxor; [|lia|apply lxor_range; auto; lia].
  assert (HO : Z.odd (2 ^ m - 1 - v) = negb (Z.odd v)).
  { rewrite !Z.odd_sub, HF, Z.odd_mul. simpl. destruct (Z.odd v); auto. }
  rewrite HO.
  assert (HS : Z.shiftr (2 ^ m - 1 - v) 1 = 2 ^ m - 1 - Z.lor (Z.shiftr v 1) (2 ^ (m - 1))).
  { rewrite lor_add_hi by lia. rewrite !Z.shiftr_div_pow2 by lia. change (2 ^ 1) with 2.
    set (H := 2 ^ (m - 1)) in *. clearbody H. rewrite HF.
    assert (0 <= v mod 2 < 2) by (apply Z.mod_pos_bound; lia).
    pose proof (Z.div_mod v 2 ltac:(lia)).
    symmetry. apply Z.div_unique with (1 - v mod 2); lia. }
  rewrite HS, compl_lxor by (try lia; auto).
  replace (if negb (Z.odd v) then xormask fl else 0) with x by (unfold x; destruct (Z.odd v); auto).
  rewrite !Z.lxor_assoc. f_equal. apply Z.lxor_comm.
Qed.

(** ** The orbit of the register *)

Definition good (fl : lfsr) (m : Z) : Prop :=
  3 <= m <= 63 /\ cached_bit fl = 2 ^ (m - 1) /\
  exists l, Forall prime l /\ cert m (xormask fl) l = true.

Definition V (fl : lfsr) (v : Z) (i : nat) : Z := Nat.iter i (lfsr_step fl) v.

Lemma V_compl fl m v i : good fl m -> 0 <= v < 2 ^ m - 1 ->
  2 ^ m - 1 - V fl v i = Nat.iter i (divx (xormask fl)) (2 ^ m - 1 - v) /\ 0 <= V fl v i < 2 ^ m - 1.
Proof.
  intros (Hm & Hc & l & HP & HC) Hv. destruct (cert_ok _ _ _ HC HP) as (_ & Hx & HR & _).
  assert (0 < 2 ^ (m - 1)) by (apply Z.pow_pos_nonneg; lia).
  induction i as [|i IH].
  - unfold V. simpl. lia.
  - destruct IH as [E R]. unfold V in *. rewrite iter_S.
    set (w := Nat.iter i (lfsr_step fl) v) in *.
    assert (E2 : 2 ^ m - 1 - lfsr_step fl w = Nat.iter (S i) (divx (xormask fl)) (2 ^ m - 1 - v)).
    { rewrite step_galois with (m := m); try lia; auto. rewrite E. reflexivity. }
    split; [exact E2|].
    pose proof (HR (2 ^ m - 1 - v) (S i) ltac:(lia)) as B. rewrite <- E2 in B. lia.
Qed.

Lemma V_inj fl m v i j : good fl m -> 0 <= v < 2 ^ m - 1 -> V fl v i = V fl v j ->
  Z.of_nat i mod (2 ^ m - 1) = Z.of_nat j mod (2 ^ m - 1).
Proof.
  intros G Hv E. destruct (V_compl fl m v i G Hv) as [Ei _]. destruct (V_compl fl m v j G Hv) as [Ej _].
  destruct G as (Hm & Hc & l & HP & HC). destruct (cert_ok _ _ _ HC HP) as (_ & Hx & _ & HI).
  apply HI with (2 ^ m - 1 - v); [lia|]. congruence.
Qed.

(** A schedule of positions that is injective modulo the period visits every value once. *)
Lemma sched_perm fl m v (pos : nat -> nat) : good fl m -> 0 <= v < 2 ^ m - 1 ->
  (forall i j, (1 <= i <= Z.to_nat (2 ^ m - 1))%nat -> (1 <= j <= Z.to_nat (2 ^ m - 1))%nat ->
     Z.of_nat (pos i) mod (2 ^ m - 1) = Z.of_nat (pos j) mod (2 ^ m - 1) -> i = j) ->
  Permutation (map (fun i => V fl v (pos i)) (seq 1 (Z.to_nat (2 ^ m - 1)))) (below (2 ^ m - 1)).
Proof.
  intros G Hv HI. apply NoDup_Permutation_bis.
  - assert (K : forall (l : list nat) (f : nat -> Z),
       (forall i j, In i l -> In j l -> f i = f j -> i = j) -> NoDup l -> NoDup (map f l)).
    { induction l as [|a l IH]; intros f Hf ND; simpl; [constructor|]. inv ND. constructor.
      - rewrite in_map_iff. intros (x & Ex & Ix). apply H1.
        rewrite (Hf a x); auto; [left; auto|right; auto].
      - apply IH; auto. intros; apply Hf; auto; right; auto. }
    apply K; [|apply seq_NoDup]. intros i j Ii Ij E. apply in_seq in Ii, Ij.
    apply HI; try lia. apply V_inj with fl v; auto.
  - unfold below. rewrite !map_length, !seq_length. auto.
  - intros x Hx. apply in_map_iff in Hx. destruct Hx as (i & <- & _).
    destruct (V_compl fl m v (pos i) G Hv) as [_ R]. unfold below. apply in_map_iff.
    exists (Z.to_nat (V fl v (pos i))). split; [lia|]. apply in_seq. lia.
Qed.

Lemma filter_below n N : 0 <= n <= N -> filter (fun x => x <=? n - 1) (below N) = below n.
Proof.
  intros H. unfold below. replace (Z.to_nat N) with (Z.to_nat n + Z.to_nat (N - n))%nat by lia.
  rewrite seq_app, map_app, filter_app. simpl plus.
  assert (A : forall l, Forall (fun x => x <= n - 1) l -> filter (fun x => x <=? n - 1) l = l).
  { induction l as [|x l IH]; intros F; auto. inv F. simpl.
    destruct (Z.leb_spec x (n - 1)); [f_equal; auto|lia]. }
  assert (B : forall l, Forall (fun x => n - 1 < x) l -> filter (fun x => x <=? n - 1) l = []).
  { induction l as [|x l IH]; intros F; auto. inv F. simpl.
    destruct (Z.leb_spec x (n - 1)); [lia|auto]. }
  rewrite A, B, app_nil_r; auto; apply Forall_map, Forall_forall; intros x Hx; apply in_seq in Hx; lia.
Qed.

(** ** Running the generator *)

Fixpoint nat_loop (k : nat) (fl : lfsr) : lfsr + lfsr :=
  match k with
  | O => inl fl
  | S k' => let fl' := lfsr_iter fl in if last_val fl' >? max_val fl' then nat_loop k' fl' else inr fl'
  end.

Lemma nat_loop_add a : forall b fl, nat_loop (a + b) fl =
  match nat_loop a fl with inl fl' => nat_loop b fl' | r => r end.
Proof.
  induction a; intros b fl; cbn [nat_loop plus]; auto. cbv zeta.
  destruct (last_val (lfsr_iter fl) >? max_val (lfsr_iter fl)); auto.
Qed.

Lemma loop_nat p : forall fl, lfsr_loop p fl = nat_loop (Pos.to_nat p) fl.
Proof.
  induction p; intros fl; cbn [lfsr_loop].
  - rewrite Pos2Nat.inj_xI. cbn [nat_loop]. cbv zeta.
    destruct (last_val (lfsr_iter fl) >? max_val (lfsr_iter fl)); auto.
    replace (2 * Pos.to_nat p)%nat with (Pos.to_nat p + Pos.to_nat p)%nat by lia.
    rewrite nat_loop_add, IHp. destruct (nat_loop (Pos.to_nat p) (lfsr_iter fl)); auto.
  - rewrite Pos2Nat.inj_xO.
    replace (2 * Pos.to_nat p)%nat with (Pos.to_nat p + Pos.to_nat p)%nat by lia.
    rewrite nat_loop_add, IHp. destruct (nat_loop (Pos.to_nat p) fl); auto.
  - reflexivity.
Qed.

Lemma max_val_iter fl : max_val (lfsr_iter fl) = max_val fl.
Proof.
  unfold lfsr_iter. destruct (cycle_length fl =? 0); auto. destruct (cycle_length fl - 1 =? 0); auto.
Qed.
Lemma num_vals_iter fl : num_vals (lfsr_iter fl) = num_vals fl.
Proof.
  unfold lfsr_iter. destruct (cycle_length fl =? 0); auto. destruct (cycle_length fl - 1 =? 0); auto.
Qed.
Lemma max_val_iters k fl : max_val (Nat.iter k lfsr_iter fl) = max_val fl.
Proof. induction k; simpl; auto. rewrite max_val_iter. auto. Qed.
Lemma num_vals_iters k fl : num_vals (Nat.iter k lfsr_iter fl) = num_vals fl.
Proof. induction k; simpl; auto. rewrite num_vals_iter. auto. Qed.
Lemma bump_iter fl : lfsr_iter (bump fl) = bump (lfsr_iter fl).
Proof.
  unfold lfsr_iter. cbn [cycle_length bump].
  destruct (cycle_length fl =? 0); auto. destruct (cycle_length fl - 1 =? 0); auto.
Qed.
Lemma bump_iters k fl : Nat.iter k lfsr_iter (bump fl) = bump (Nat.iter k lfsr_iter fl).
Proof. induction k; simpl; auto. rewrite IHk. apply bump_iter. Qed.

Lemma iter_shift {A} (f : A -> A) k x : Nat.iter k f (f x) = Nat.iter (S k) f x.
Proof. induction k; simpl; auto. simpl in IHk. rewrite IHk. auto. Qed.

(** The values produced by the next [K] loop iterations. *)
Definition vals (fl : lfsr) (K : nat) : list Z :=
  map (fun j => last_val (Nat.iter j lfsr_iter fl)) (seq 1 K).

Lemma vals_S fl K : vals fl (S K) = last_val (lfsr_iter fl) :: vals (lfsr_iter fl) K.
Proof.
  unfold vals. cbn [seq map]. f_equal. rewrite <- seq_shift, map_map. apply map_ext. intros a.
  rewrite iter_shift. auto.
Qed.

Lemma vals_bump fl K : vals (bump fl) K = vals fl K.
Proof. unfold vals. apply map_ext. intros. rewrite bump_iters. auto. Qed.

Definition keep (n : Z) (x : Z) : bool := x <=? n.

Lemma nat_loop_first : forall K fl v rest, filter (keep (max_val fl)) (vals fl K) = v :: rest ->
  exists k, (1 <= k <= K)%nat /\ nat_loop K fl = inr (Nat.iter k lfsr_iter fl) /\
    last_val (Nat.iter k lfsr_iter fl) = v /\
    filter (keep (max_val fl)) (vals (Nat.iter k lfsr_iter fl) (K - k)) = rest.
Proof.
  induction K; intros fl v rest H; [discriminate|].
  rewrite vals_S in H. cbn [filter] in H. unfold keep at 1 in H.
  cbn [nat_loop]. cbv zeta. rewrite max_val_iter.
  destruct (Z.leb_spec (last_val (lfsr_iter fl)) (max_val fl)) as [L|L];
    rewrite Z.gtb_ltb; destruct (Z.ltb_spec (max_val fl) (last_val (lfsr_iter fl))) as [L2|L2]; try lia.
  - inv H. exists 1%nat. simpl. rewrite Nat.sub_0_r. split; [lia|auto].
  - rewrite <- (max_val_iter fl) in H. destruct (IHK _ _ _ H) as (k & Hk & E1 & E2 & E3).
    exists (S k). rewrite <- iter_shift. rewrite max_val_iter in E3. split; [lia|auto].
Qed.

Lemma nat_loop_more a b fl x : (a <= b)%nat -> nat_loop a fl = inr x -> nat_loop b fl = inr x.
Proof. intros H E. replace b with (a + (b - a))%nat by lia. rewrite nat_loop_add, E. auto. Qed.

Lemma pow64_nat K : Z.of_nat K <= 2 ^ 64 -> (K <= Pos.to_nat (2 ^ 64))%nat.
Proof. intros H. apply Nat2Z.inj_le. rewrite positive_nat_Z. exact H. Qed.

(** Number of iterations used is not observable; what is drawn is the filtered value stream. *)
Lemma draws_filter : forall n fl K, Z.of_nat K <= 2 ^ 64 ->
  0 <= num_vals fl -> num_vals fl + Z.of_nat n <= max_val fl + 1 -> max_val fl < 2 ^ 64 - 1 ->
  length (filter (keep (max_val fl)) (vals fl K)) = n ->
  exists fl' k, draws n fl = Some (fl', filter (keep (max_val fl)) (vals fl K)) /\
    (k <= K)%nat /\ (n <= k)%nat /\ fl' = Nat.iter n bump (Nat.iter k lfsr_iter fl).
Proof.
  induction n; intros fl K HK H0 Hn HM HL.
  - destruct (filter (keep (max_val fl)) (vals fl K)); [|discriminate].
    exists fl, 0%nat. simpl. split; [auto|split; [lia|split; [lia|auto]]].
  - destruct (filter (keep (max_val fl)) (vals fl K)) as [|v rest] eqn:E; [discriminate|].
    cbn [length] in HL. inv HL.
    assert (E' : filter (keep (max_val (bump fl))) (vals (bump fl) K) = v :: rest)
      by (rewrite vals_bump; auto).
    destruct (nat_loop_first K (bump fl) v rest E') as (k & Hk & L1 & L2 & L3).
    cbn [draws]. unfold lfsr_next. cbv zeta.
    assert (C : num_vals fl >? max_val fl = false) by (rewrite Z.gtb_ltb; apply Z.ltb_ge; lia).
    rewrite C, loop_nat. rewrite (nat_loop_more _ _ _ _ (pow64_nat K HK) L1), L2.
    set (fl1 := Nat.iter k lfsr_iter (bump fl)) in *.
    assert (M1 : max_val fl1 = max_val fl) by (unfold fl1; rewrite max_val_iters; auto).
    assert (N1 : num_vals fl1 = num_vals fl + 1).
    { unfold fl1. rewrite num_vals_iters. cbn [num_vals bump]. unfold u64. apply Z.mod_small. lia. }
    cbn [max_val bump] in L3.
    destruct (IHn fl1 (K - k)%nat) as (fl2 & k2 & D & Hk2 & Hn2 & E2); try lia.
    { rewrite M1, L3. auto. }
    rewrite M1, L3 in D. fold (draws (length rest) fl1). rewrite D.
    exists fl2, (k + k2)%nat. split; [auto|split; [lia|split; [lia|]]].
    rewrite E2. unfold fl1. rewrite bump_iters, bump_iters.
    assert (Q : forall j x, Nat.iter j bump (bump x) = Nat.iter (S j) bump x) by (intros; apply iter_shift).
    rewrite Q. f_equal. rewrite (Nat.add_comm k), nat_iter_add. auto.
Qed.

(** A value stream that is a permutation of 0..N-1 yields a permutation of 0..n-1 and then ends. *)
Lemma draws_perm fl N n : 1 <= n <= N -> N <= 2 ^ 64 -> num_vals fl = 0 -> max_val fl = n - 1 ->
  n < 2 ^ 64 -> Permutation (vals fl (Z.to_nat N)) (below N) ->
  exists fl' vs k, draws (Z.to_nat n) fl = Some (fl', vs) /\ Permutation vs (below n) /\ ended fl' /\
    (1 <= k)%nat /\ fl' = Nat.iter (Z.to_nat n) bump (Nat.iter k lfsr_iter fl).
Proof.
  intros Hn HN H0 HM Hn64 HP.
  assert (PF : Permutation (filter (keep (max_val fl)) (vals fl (Z.to_nat N))) (below n)).
  { rewrite <- (filter_below n N) by lia. rewrite HM.
    change (keep (n - 1)) with (fun x => x <=? n - 1). clear - HP.
    induction HP; simpl; auto.
    - destruct (x <=? n - 1); auto.
    - destruct (x <=? n - 1), (y <=? n - 1); auto. apply perm_swap.
    - apply perm_trans with (filter (fun x : Z => x <=? n - 1) l'); auto. }
  assert (LB : length (below n) = Z.to_nat n) by (unfold below; rewrite map_length, seq_length; auto).
  destruct (draws_filter (Z.to_nat n) fl (Z.to_nat N)) as (fl' & k & D & Hk & Hnk & E); try lia.
  { rewrite (Permutation_length PF). auto. }
  exists fl', (filter (keep (max_val fl)) (vals fl (Z.to_nat N))), k.
  split; [auto|split; [auto|split; [|split; [lia|auto]]]].
  unfold ended, lfsr_next. cbv zeta.
  assert (NB : forall j x, num_vals x = 0 -> Z.of_nat j < 2 ^ 64 ->
     num_vals (Nat.iter j bump x) = Z.of_nat j /\ max_val (Nat.iter j bump x) = max_val x).
  { induction j; intros x Hx Hj; [simpl; auto|]. destruct (IHj x Hx ltac:(lia)) as [A B].
    rewrite iter_S. cbn [num_vals bump max_val]. split; [|auto].
    rewrite A. unfold u64. rewrite Z.mod_small; lia. }
  destruct (NB (Z.to_nat n) (Nat.iter k lfsr_iter fl)) as [A B].
  { rewrite num_vals_iters. auto. }
  { lia. }
  rewrite <- E in A, B. rewrite max_val_iters in B. rewrite A, B, HM.
  exists (bump fl').
  assert (C : Z.of_nat (Z.to_nat n) >? n - 1 = true) by (rewrite Z.gtb_ltb; apply Z.ltb_lt; lia).
  rewrite C. auto.
Qed.

(** ** Positions visited by the loop *)

Definition same_reg (a b : lfsr) : Prop :=
  xormask a = xormask b /\ cached_bit a = cached_bit b /\ max_val a = max_val b /\
  cached_cycle_length a = cached_cycle_length b /\ spin a = spin b.

Lemma same_iter fl : same_reg (lfsr_iter fl) fl.
Proof.
  unfold same_reg, lfsr_iter. destruct (cycle_length fl =? 0); [simpl; tauto|].
  destruct (cycle_length fl - 1 =? 0); simpl; tauto.
Qed.
Lemma same_iters k fl : same_reg (Nat.iter k lfsr_iter fl) fl.
Proof.
  induction k; [unfold same_reg; simpl; tauto|]. rewrite iter_S.
  pose proof (same_iter (Nat.iter k lfsr_iter fl)) as H. unfold same_reg in *.
  intuition congruence.
Qed.

Lemma step_same a b v : same_reg a b -> lfsr_step a v = lfsr_step b v.
Proof. intros (A & B & _). unfold lfsr_step. rewrite A, B. auto. Qed.

Lemma V_same a b v i : same_reg a b -> V a v i = V b v i.
Proof. intros S. unfold V. induction i; simpl; auto. rewrite IHi. apply step_same; auto. Qed.

Lemma V_add fl v i j : V fl (V fl v i) j = V fl v (j + i).
Proof. unfold V. rewrite nat_iter_add. auto. Qed.

Lemma steps_V fl sp v : 0 <= sp <= 15 -> lfsr_steps fl sp v = V fl v (Z.to_nat (sp + 1)).
Proof. intros H. unfold lfsr_steps. destruct (Z.leb_spec sp 15); [auto|lia]. Qed.

(** After a reset with no cycle correction pending: stride [spin + 1]. *)
Lemma pos_plain fl s : spin fl = s -> 0 <= s <= 15 -> cycle_length fl = 0 ->
  forall j, last_val (Nat.iter j lfsr_iter fl) = V fl (last_val fl) (j * Z.to_nat (s + 1)) /\
            cycle_length (Nat.iter j lfsr_iter fl) = 0.
Proof.
  intros Hs Hr Hc. induction j as [|j [E C]]; [simpl; auto|].
  rewrite iter_S.
  pose proof (same_iters j fl) as SR. pose proof SR as (_ & _ & _ & _ & SP).
  unfold lfsr_iter at 1 3. rewrite C. cbn [Z.eqb with_val last_val cycle_length].
  rewrite SP, Hs, E, steps_V by lia. rewrite (V_same _ fl _ _ SR), V_add.
  split; auto.
Qed.

(** A fresh generator without cycle: one extra step first. *)
Lemma pos_first fl s : spin fl = s -> 0 <= s <= 15 -> cycle_length fl = 1 ->
  cached_cycle_length fl = 0 ->
  forall j, last_val (Nat.iter (S j) lfsr_iter fl) =
    V fl (last_val fl) (j * Z.to_nat (s + 1) + (if s + 1 <=? 15 then Z.to_nat (s + 2) else 0)) /\
    cycle_length (Nat.iter (S j) lfsr_iter fl) = 0.
Proof.
  intros Hs Hr Hc Hcc. induction j as [|j [E C]].
  - cbn [Nat.iter nat_rect]. unfold lfsr_iter. rewrite Hc. cbn [Z.eqb with_val last_val cycle_length].
    change (1 - 1 =? 0) with true. cbn [last_val cycle_length with_val]. rewrite Hs. split; auto.
    unfold lfsr_steps. destruct (s + 1 <=? 15); [|reflexivity].
    unfold V. simpl plus. f_equal. f_equal. lia.
  - set (fl1 := Nat.iter (S j) lfsr_iter fl) in *.
    change (Nat.iter (S (S j)) lfsr_iter fl) with (lfsr_iter fl1).
    pose proof (same_iters (S j) fl) as SR. fold fl1 in SR. pose proof SR as (_ & _ & _ & _ & SP).
    unfold lfsr_iter. rewrite C. cbn [Z.eqb with_val last_val cycle_length].
    rewrite SP, Hs, E, steps_V by lia. rewrite (V_same _ fl _ _ SR), V_add.
    split; auto. f_equal. cbn [Nat.mul]. lia.
Qed.

(** A fresh generator with cycle length [L]: one extra step per completed cycle. *)
Lemma pos_cycle fl s L : spin fl = s -> 0 <= s -> s + 1 <= 15 -> (1 <= L)%nat ->
  cycle_length fl = Z.of_nat L + 1 -> cached_cycle_length fl = Z.of_nat L ->
  forall j, last_val (Nat.iter (S j) lfsr_iter fl) =
    V fl (last_val fl) (S j * Z.to_nat (s + 1) + j / L) /\
    cycle_length (Nat.iter (S j) lfsr_iter fl) = Z.of_nat (L - j mod L).
Proof.
  intros Hs Hr1 Hr2 HL Hc Hcc. induction j as [|j [E C]].
  - rewrite Nat.div_0_l, Nat.mod_0_l by lia.
    cbn [Nat.iter nat_rect]. unfold lfsr_iter. rewrite Hc.
    destruct (Z.eqb_spec (Z.of_nat L + 1) 0); [lia|].
    destruct (Z.eqb_spec (Z.of_nat L + 1 - 1) 0); [lia|].
    cbn [last_val cycle_length with_val]. rewrite Hs, steps_V by lia. split; [f_equal; lia|lia].
  - set (fl1 := Nat.iter (S j) lfsr_iter fl) in *.
    change (Nat.iter (S (S j)) lfsr_iter fl) with (lfsr_iter fl1).
    pose proof (same_iters (S j) fl) as SR. fold fl1 in SR. pose proof SR as (_ & _ & _ & SC & SP).
    pose proof (Nat.mod_upper_bound j L ltac:(lia)) as MB.
    pose proof (Nat.div_mod j L ltac:(lia)) as DM.
    unfold lfsr_iter. rewrite C.
    destruct (Z.eqb_spec (Z.of_nat (L - j mod L)) 0); [lia|].
    destruct (Z.eqb_spec (Z.of_nat (L - j mod L) - 1) 0); cbn [last_val cycle_length with_val].
    + rewrite SP, SC, Hs, Hcc, E, steps_V by lia. rewrite (V_same _ fl _ _ SR), V_add.
      assert (D2 : (S j / L = S (j / L))%nat) by (symmetry; apply Nat.div_unique with 0%nat; lia).
      assert (M2 : (S j mod L = 0)%nat) by (symmetry; apply Nat.mod_unique with (S (j / L)); lia).
      rewrite D2, M2. split; [f_equal; lia|lia].
    + rewrite SP, Hs, E, steps_V by lia. rewrite (V_same _ fl _ _ SR), V_add.
      assert (D2 : (S j / L = j / L)%nat) by (symmetry; apply Nat.div_unique with (S (j mod L)); lia).
      assert (M2 : (S j mod L = S (j mod L))%nat) by (symmetry; apply Nat.mod_unique with (j / L)%nat; lia).
      rewrite D2, M2. split; [f_equal; lia|lia].
Qed.

(** ** Initialisation *)

Lemma taps_nth i : (i < 64)%nat -> znth lfsr_taps (Z.of_nat i) = Some (taps_of i).
Proof.
  intros H. unfold taps_of. rewrite (znth_nth lfsr_taps (Z.of_nat i) []).
  - rewrite Nat2Z.id. auto.
  - change (zlen lfsr_taps) with 64. lia.
Qed.

Lemma find_from_ok : forall k i size, (i + k = 64)%nat -> (3 <= i)%nat ->
  (i = 3%nat \/ 2 ^ (Z.of_nat i - 1) <= size) -> size < 2 ^ 63 ->
  exists w, (3 <= w <= 63)%nat /\ find_lfsr_from k (Z.of_nat i) size = Some (taps_of w) /\
    is_width size (Z.of_nat w) \/ (k = 0)%nat.
Proof.
  induction k; intros i size Hik Hi Hp Hs; [exists 3%nat; auto|].
  cbn [find_lfsr_from]. rewrite Z.shiftl_mul_pow2, Z.mul_1_l, Z.gtb_ltb by lia.
  destruct (Z.ltb_spec size (2 ^ Z.of_nat i)) as [L|L].
  - exists i. left. split; [lia|]. split; [apply taps_nth; lia|]. unfold is_width.
    split; [lia|split; [auto|]]. destruct Hp; [left; lia|right; auto].
  - destruct (Nat.eq_dec i 63) as [->|N].
    { exfalso. change (2 ^ Z.of_nat 63) with (2 ^ 63) in L. lia. }
    replace (Z.of_nat i + 1) with (Z.of_nat (S i)) by lia.
    destruct (IHk (S i) size) as (w & [(Hw & E & Is)|K0]); try lia.
    + right. replace (Z.of_nat (S i) - 1) with (Z.of_nat i) by lia. auto.
    + exists w. left. auto.
Qed.

Lemma find_ok size : size < 2 ^ 63 -> exists w, (3 <= w <= 63)%nat /\
  find_lfsr size = Some (taps_of w) /\ is_width size (Z.of_nat w).
Proof.
  intros Hs. unfold find_lfsr. destruct (find_from_ok 61 3 size) as (w & [H|H]); auto; try lia.
  exists w. auto.
Qed.

Lemma find_big size : 2 ^ 63 <= size -> find_lfsr size = None.
Proof.
  intros Hs. unfold find_lfsr.
  assert (G : forall k i, (i + k = 64)%nat -> find_lfsr_from k (Z.of_nat i) size = None).
  { induction k; intros i Hi; auto. cbn [find_lfsr_from].
    rewrite Z.shiftl_mul_pow2, Z.mul_1_l, Z.gtb_ltb by lia.
    assert (2 ^ Z.of_nat i <= 2 ^ 63) by (apply Z.pow_le_mono_r; lia).
    destruct (Z.ltb_spec size (2 ^ Z.of_nat i)); [lia|].
    replace (Z.of_nat i + 1) with (Z.of_nat (S i)) by lia. apply IHk. lia. }
  apply (G 61%nat 3%nat). auto.
Qed.

(** The cycle length computed by prepare_spin. *)
Lemma spin_cycle_ok N s : 0 < N < 2 ^ 63 -> 0 <= s <= 15 ->
  let c := spin_cycle (Z.to_nat s) 1 (N / (s + 1)) (N mod (s + 1)) s in
  (c = 0 /\ forall i, 1 <= i <= s -> ~ (s + 1 | N * i)) \/
  (exists i0, 1 <= i0 <= s /\ (s + 1) * c = N * i0 /\ forall i, 1 <= i < i0 -> ~ (s + 1 | N * i)).
Proof.
  intros HN Hs.
  assert (DM : N = (s + 1) * (N / (s + 1)) + N mod (s + 1)) by (apply Z.div_mod; lia).
  assert (MB : 0 <= N mod (s + 1) < s + 1) by (apply Z.mod_pos_bound; lia).
  set (x := N / (s + 1)) in *. set (y := N mod (s + 1)) in *.
  assert (Hx : 0 <= x) by (apply Z.div_pos; lia).
  clearbody x y.
  assert (DV : forall i, (s + 1 | N * i) <-> (y * i) mod (s + 1) = 0).
  { intros i. rewrite DM. rewrite <- (Z.mod_divide _ (s + 1)) by lia.
    replace (((s + 1) * x + y) * i) with (y * i + (x * i) * (s + 1)) by ring.
    rewrite Z.mod_add by lia. tauto. }
  assert (G : forall k i, 1 <= i -> i + Z.of_nat k = s + 1 ->
     (forall j, 1 <= j < i -> ~ (s + 1 | N * j)) ->
     let c := spin_cycle k i x y s in
     (c = 0 /\ forall i, 1 <= i <= s -> ~ (s + 1 | N * i)) \/
     (exists i0, 1 <= i0 <= s /\ (s + 1) * c = N * i0 /\ forall i, 1 <= i < i0 -> ~ (s + 1 | N * i))).
  { induction k; intros i Hi Hk HB.
    - left. split; [reflexivity|]. intros j Hj. apply HB. lia.
    - cbn [spin_cycle]. cbv zeta.
      assert (U : u64 (y * i) = y * i) by (unfold u64; apply Z.mod_small; nia).
      rewrite U. destruct (Z.eqb_spec ((y * i) mod (s + 1)) 0) as [E|E].
      + right. exists i. split; [lia|]. split; [|exact HB].
        assert (X1 : 0 <= x * i <= N) by nia.
        assert (Y1 : (s + 1) * (y * i / (s + 1)) = y * i).
        { pose proof (Z.div_mod (y * i) (s + 1) ltac:(lia)). lia. }
        assert (Y2 : 0 <= y * i / (s + 1) <= y * i) by nia.
        unfold u64.
        rewrite (Z.mod_small (x * i)) by lia. rewrite Z.mod_small by nia.
        rewrite Z.mul_add_distr_l, Y1, DM. ring.
      + apply IHk; try lia. intros j Hj. destruct (Z.eq_dec j i) as [->|]; [|apply HB; lia].
        rewrite DV. auto. }
  apply G; try lia. 
Qed.

Lemma width_pow_odd m : 3 <= m -> rel_prime 16 (2 ^ m - 1).
Proof.
  intros Hm. apply bezout_rel_prime. destruct (Z.eq_dec m 3) as [->|].
  - apply Bezout_intro with (u := -3) (v := 7). reflexivity.
  - apply Bezout_intro with (u := 2 ^ (m - 4)) (v := -1).
    replace (2 ^ (m - 4) * 16) with (2 ^ m); [lia|].
    change 16 with (2 ^ 4). rewrite <- Z.pow_add_r by lia. f_equal. lia.
Qed.

(** Strides that meet no cycle are coprime to the period. *)
Lemma no_cycle_coprime N s : 0 < N -> 0 <= s -> (forall i, 1 <= i <= s -> ~ (s + 1 | N * i)) ->
  rel_prime (s + 1) N.
Proof.
  intros HN Hs H. apply Zgcd_1_rel_prime.
  pose proof (Z.gcd_nonneg (s + 1) N) as G0.
  destruct (Z.gcd_divide_l (s + 1) N) as [a Ha]. destruct (Z.gcd_divide_r (s + 1) N) as [b Hb].
  set (g := Z.gcd (s + 1) N) in *. clearbody g.
  destruct (Z.eq_dec g 1) as [|N1]; auto. exfalso.
  assert (g <> 0) by (intros ->; lia).
  apply (H a); [nia|]. exists b. rewrite Hb. nia.
Qed.

Lemma stride_inj N s e i j : 0 < N -> 0 <= s -> rel_prime (s + 1) N -> 1 <= i <= N -> 1 <= j <= N ->
  (i * (s + 1) + e) mod N = (j * (s + 1) + e) mod N -> i = j.
Proof.
  intros HN Hs R Hi Hj E.
  assert (D : (N | (s + 1) * (i - j))).
  { apply Z.mod_divide; [lia|].
    replace ((s + 1) * (i - j)) with (i * (s + 1) + e - (j * (s + 1) + e)) by ring.
    rewrite Zminus_mod, E, Z.sub_diag. reflexivity. }
  apply Gauss in D; [|apply rel_prime_sym; auto].
  destruct D as [q Hq]. assert (q = 0) by nia. lia.
Qed.

Lemma cycle_inj N s i0 L i j : 0 < N -> 1 <= i0 <= s -> (s + 1) * L = N * i0 ->
  (forall k, 1 <= k < i0 -> ~ (s + 1 | N * k)) -> 1 <= i <= N -> 1 <= j <= N ->
  (i * (s + 1) + (i - 1) / L) mod N = (j * (s + 1) + (j - 1) / L) mod N -> i = j.
Proof.
  intros HN Hi0 HL HM Hi Hj E.
  assert (HL0 : 0 < L) by nia.
  assert (Min : forall e, (s + 1 | N * e) -> (i0 | e)).
  { intros e D. apply Z.mod_divide; [lia|].
    pose proof (Z.mod_pos_bound e i0 ltac:(lia)) as B.
    destruct (Z.eq_dec (e mod i0) 0) as [|N0]; auto. exfalso. apply (HM (e mod i0)); [lia|].
    rewrite Z.mod_eq by lia. rewrite Z.mul_sub_distr_l. apply Z.divide_sub_r; auto.
    exists (L * (e / i0)). rewrite Z.mul_assoc, <- HL. ring. }
  destruct (Min (s + 1)) as [g Hg]; [exists N; ring|].
  assert (HgL : g * L = N) by nia.
  assert (Hg0 : 0 < g) by nia.
  set (b := (i - 1) / L) in *. set (b' := (j - 1) / L) in *.
  assert (Hb : 0 <= b < g).
  { unfold b. split; [apply Z.div_pos; lia|apply Z.div_lt_upper_bound; nia]. }
  assert (Hb' : 0 <= b' < g).
  { unfold b'. split; [apply Z.div_pos; lia|apply Z.div_lt_upper_bound; nia]. }
  assert (D : (N | (s + 1) * (i - j) + (b - b'))).
  { apply Z.mod_divide; [lia|].
    replace ((s + 1) * (i - j) + (b - b')) with (i * (s + 1) + b - (j * (s + 1) + b')) by ring.
    rewrite Zminus_mod, E, Z.sub_diag. reflexivity. }
  assert (Dg : (g | b - b')).
  { destruct D as [q Hq].
    exists (q * L - i0 * (i - j)). rewrite Hg, <- HgL in Hq.
    replace ((q * L - i0 * (i - j)) * g) with (q * (g * L) - g * i0 * (i - j)) by ring. rewrite <- Hq. ring. }
  assert (Eb : b = b').
  { destruct Dg as [q Hq]. assert (q = 0) by nia. lia. }
  rewrite Eb, Z.sub_diag, Z.add_0_r in D. destruct D as [e He].
  destruct (Min e) as [f Hf]; [exists (i - j); lia|].
  assert (F : i - j = L * f) by nia.
  unfold b, b' in Eb.
  pose proof (Z.div_mod (i - 1) L ltac:(lia)). pose proof (Z.div_mod (j - 1) L ltac:(lia)).
  pose proof (Z.mod_pos_bound (i - 1) L HL0). pose proof (Z.mod_pos_bound (j - 1) L HL0).
  rewrite Eb in H. assert (f = 0) by nia. nia.
Qed.

(** ** What lfsr_init establishes *)

Definition fresh (fl : lfsr) (m nums seed s : Z) : Prop :=
  good fl m /\ is_width nums m /\ spin fl = s /\ num_vals fl = 0 /\ max_val fl = nums - 1 /\
  last_val fl = Z.land seed (2 ^ m - 1) /\ last_val fl <> 2 ^ m - 1 /\
  cycle_length fl = cached_cycle_length fl + 1 /\
  cached_cycle_length fl =
    spin_cycle (Z.to_nat s) 1 ((2 ^ m - 1) / (s + 1)) ((2 ^ m - 1) mod (s + 1)) s.

Lemma bitmask_val m : 3 <= m <= 63 -> u64 (u64 (Z.shiftl (2 ^ (m - 1)) 1) - 1) = 2 ^ m - 1.
Proof.
  intros Hm. rewrite Z.shiftl_mul_pow2 by lia. rewrite <- Z.pow_add_r by lia.
  replace (m - 1 + 1) with m by lia.
  assert (1 <= 2 ^ m) by (pose proof (Z.pow_pos_nonneg 2 m); lia).
  assert (2 ^ m <= 2 ^ 63) by (apply Z.pow_le_mono_r; lia).
  unfold u64. rewrite (Z.mod_small (2 ^ m)) by lia. apply Z.mod_small. lia.
Qed.

Lemma spin_cycle_range N s : 0 < N < 2 ^ 63 -> 0 <= s <= 15 ->
  0 <= spin_cycle (Z.to_nat s) 1 (N / (s + 1)) (N mod (s + 1)) s <= N.
Proof.
  intros HN Hs. destruct (spin_cycle_ok N s HN Hs) as [[-> _]|(i0 & Hi & E & _)]; [lia|]. nia.
Qed.

Lemma init_eq nums seed s : 1 <= nums < 2 ^ 63 -> 0 <= s <= 15 ->
  exists m, is_width nums m /\
  ((Z.land seed (2 ^ m - 1) = 2 ^ m - 1 /\ lfsr_init nums seed s = None) \/
   (exists fl, lfsr_init nums seed s = Some fl /\ fresh fl m nums seed s)).
Proof.
  intros Hn Hs. destruct (find_ok nums ltac:(lia)) as (w & Hw & EF & Is). exists (Z.of_nat w).
  split; auto. destruct (width_ok w Hw) as ((l & HP & HC) & T0).
  set (m := Z.of_nat w) in *.
  assert (Hm : 3 <= m <= 63) by (unfold m; lia).
  assert (C : Z.shiftl 1 (m - 1) = 2 ^ (m - 1)) by (rewrite Z.shiftl_mul_pow2 by lia; lia).
  unfold lfsr_init. rewrite EF, T0. unfold prepare_spin. cbn [cached_bit xormask last_val max_val num_vals].
  rewrite C, bitmask_val by auto. rewrite Z.gtb_ltb.
  destruct (Z.ltb_spec 15 s) as [|_]; [lia|].
  unfold lfsr_reset. cbn [cached_bit xormask last_val max_val num_vals cycle_length cached_cycle_length spin].
  rewrite bitmask_val by auto.
  assert (P1 : 2 ^ 3 <= 2 ^ m) by (apply Z.pow_le_mono_r; lia).
  assert (P2 : 2 ^ m <= 2 ^ 63) by (apply Z.pow_le_mono_r; lia).
  change (2 ^ 3) with 8 in P1.
  destruct (Z.eqb_spec (Z.land seed (2 ^ m - 1)) (2 ^ m - 1)) as [E|E]; cbn [negb].
  - left. auto.
  - right. eexists. split; [reflexivity|]. unfold fresh.
    cbn [cached_bit xormask last_val max_val num_vals cycle_length cached_cycle_length spin].
    split. { unfold good. cbn [cached_bit xormask]. split; [auto|]. split; [auto|]. exists l. auto. }
    split; [auto|]. split; [auto|]. split; [auto|].
    split. { unfold u64. apply Z.mod_small. lia. }
    split; [auto|]. split; [auto|]. split; [|auto].
    unfold u64. apply Z.mod_small.
    pose proof (spin_cycle_range (2 ^ m - 1) s ltac:(lia) Hs). lia.
Qed.

Lemma last_range m seed : 0 <= m -> 0 <= Z.land seed (2 ^ m - 1) < 2 ^ m.
Proof.
  intros Hm. replace (2 ^ m - 1) with (Z.ones m) by (rewrite Z.ones_equiv; lia).
  rewrite Z.land_ones by lia. apply Z.mod_pos_bound. apply Z.pow_pos_nonneg; lia.
Qed.

Lemma vals_map fl K (pos : nat -> nat) :
  (forall j, last_val (Nat.iter (S j) lfsr_iter fl) = V fl (last_val fl) (pos (S j))) ->
  vals fl K = map (fun i => V fl (last_val fl) (pos i)) (seq 1 K).
Proof.
  intros H. unfold vals. apply map_ext_in. intros j Hj. apply in_seq in Hj.
  destruct j as [|j]; [lia|]. apply H.
Qed.

Lemma fresh_perm fl m nums seed s : fresh fl m nums seed s -> 0 <= s <= 15 ->
  Permutation (vals fl (Z.to_nat (2 ^ m - 1))) (below (2 ^ m - 1)).
Proof.
  intros (G & Is & Hsp & Hnv & Hmv & Hlv & Hne & Hcy & Hcc) Hs.
  pose proof G as (Hm & _).
  assert (P1 : 2 ^ 3 <= 2 ^ m) by (apply Z.pow_le_mono_r; lia). change (2 ^ 3) with 8 in P1.
  assert (P2 : 2 ^ m <= 2 ^ 63) by (apply Z.pow_le_mono_r; lia).
  pose proof (last_range m seed ltac:(lia)) as LR. rewrite <- Hlv in LR.
  destruct (spin_cycle_ok (2 ^ m - 1) s ltac:(lia) Hs) as [[E NC]|(i0 & Hi0 & E & HM)].
  - assert (C1 : cached_cycle_length fl = 0) by (rewrite Hcc; auto).
    assert (C2 : cycle_length fl = 1) by lia.
    set (e := if s + 1 <=? 15 then Z.to_nat (s + 2) else 0%nat).
    rewrite (vals_map fl _ (fun i => ((i - 1) * Z.to_nat (s + 1) + e)%nat)).
    + apply sched_perm; auto; [lia|]. intros i j Hi Hj EE.
      assert (CP : rel_prime (s + 1) (2 ^ m - 1)) by (apply no_cycle_coprime; auto; lia).
      apply Nat2Z.inj.
      apply (stride_inj (2 ^ m - 1) s (Z.of_nat e - (s + 1)) (Z.of_nat i) (Z.of_nat j)); try lia; auto.
      rewrite !Nat2Z.inj_add, !Nat2Z.inj_mul, !Nat2Z.inj_sub in EE by lia.
      rewrite Z2Nat.id in EE by lia.
      replace (Z.of_nat i * (s + 1) + (Z.of_nat e - (s + 1)))
        with ((Z.of_nat i - Z.of_nat 1) * (s + 1) + Z.of_nat e) by (simpl Z.of_nat; ring).
      replace (Z.of_nat j * (s + 1) + (Z.of_nat e - (s + 1)))
        with ((Z.of_nat j - Z.of_nat 1) * (s + 1) + Z.of_nat e) by (simpl Z.of_nat; ring).
      exact EE.
    + intros j. cbn [Nat.sub]. rewrite Nat.sub_0_r. apply pos_first; auto.
  - set (c := spin_cycle _ _ _ _ _) in *.
    assert (Hc : 0 < c) by nia.
    assert (H15 : s + 1 <= 15).
    { destruct (Z.eq_dec s 15) as [->|]; [|lia]. exfalso.
      assert (D : (16 | (2 ^ m - 1) * i0)) by (exists c; lia).
      apply Gauss in D; [|apply width_pow_odd; lia]. apply Z.divide_pos_le in D; lia. }
    set (L := Z.to_nat c). assert (HcL : c = Z.of_nat L) by (unfold L; lia).
    rewrite (vals_map fl _ (fun i => (i * Z.to_nat (s + 1) + (i - 1) / L)%nat)).
    + apply sched_perm; auto; [lia|]. intros i j Hi Hj EE.
      apply Nat2Z.inj.
      apply (cycle_inj (2 ^ m - 1) s i0 c (Z.of_nat i) (Z.of_nat j)); try lia; auto.
      rewrite !Nat2Z.inj_add, !Nat2Z.inj_mul, !Nat2Z.inj_div, !Nat2Z.inj_sub in EE by lia.
      rewrite Z2Nat.id in EE by lia. rewrite <- HcL in EE. exact EE.
    + intros j. replace (S j - 1)%nat with j by lia. apply pos_cycle; auto; try lia; unfold L in *; lia.
Qed.

Lemma width_bound nums m : is_width nums m -> 1 <= nums -> nums <= 2 ^ m - 1.
Proof. intros (H & L & _) Hn. lia. Qed.

Theorem init_draws nums seed s fl : 1 <= nums < 2 ^ 63 -> 0 <= s <= 15 ->
  lfsr_init nums seed s = Some fl ->
  exists fl' vs, draws (Z.to_nat nums) fl = Some (fl', vs) /\ Permutation vs (below nums) /\ ended fl'.
Proof.
  intros Hn Hs E. destruct (init_eq nums seed s Hn Hs) as (m & Is & [[_ N]|(fl0 & E0 & F)]); [congruence|].
  assert (fl0 = fl) by congruence. subst fl0.
  pose proof (fresh_perm fl m nums seed s F Hs) as PM.
  destruct F as (G & _ & Hsp & Hnv & Hmv & _). pose proof G as (Hm & _).
  assert (P2 : 2 ^ m <= 2 ^ 63) by (apply Z.pow_le_mono_r; lia).
  pose proof (width_bound nums m Is ltac:(lia)).
  destruct (draws_perm fl (2 ^ m - 1) nums) as (fl' & vs & k & D & PV & EN & _); auto; try lia.
  exists fl', vs. auto.
Qed.

(** Later passes, as fio runs them (spin 0). *)
Definition plain (fl : lfsr) (m nums : Z) : Prop :=
  good fl m /\ is_width nums m /\ spin fl = 0 /\ max_val fl = nums - 1 /\ cycle_length fl = 0.

Lemma good_same a b m : same_reg a b -> good b m -> good a m.
Proof.
  intros (A & B & _) (Hm & Hc & Hl). unfold good. rewrite A, B. auto.
Qed.

Lemma bumps_fields j fl : let b := Nat.iter j bump fl in
  same_reg b fl /\ cycle_length b = cycle_length fl /\ last_val b = last_val fl.
Proof.
  induction j; cbn [Nat.iter nat_rect]; cbv zeta; [unfold same_reg; auto 10|].
  destruct IHj as (A & B & C). unfold same_reg in *. cbn. intuition congruence.
Qed.

Lemma plain_draws fl m nums seed : plain fl m nums -> 1 <= nums < 2 ^ 63 ->
  Z.land seed (2 ^ m - 1) <> 2 ^ m - 1 ->
  let fl0 := fst (lfsr_reset fl seed) in
  exists fl' vs, draws (Z.to_nat nums) fl0 = Some (fl', vs) /\ Permutation vs (below nums) /\
    ended fl' /\ plain fl' m nums.
Proof.
  intros (G & Is & Hsp & Hmv & Hcy) Hn Hne. cbv zeta. pose proof G as (Hm & Hcb & _).
  set (fl0 := fst (lfsr_reset fl seed)).
  assert (L0 : last_val fl0 = Z.land seed (2 ^ m - 1)).
  { unfold fl0, lfsr_reset. cbn [fst last_val]. rewrite Hcb, bitmask_val by lia. auto. }
  assert (SR : same_reg fl0 fl) by (unfold fl0, lfsr_reset, same_reg; cbn; auto).
  assert (C0 : cycle_length fl0 = 0) by exact Hcy.
  assert (S0 : spin fl0 = 0) by exact Hsp.
  assert (P1 : 2 ^ 3 <= 2 ^ m) by (apply Z.pow_le_mono_r; lia). change (2 ^ 3) with 8 in P1.
  assert (P2 : 2 ^ m <= 2 ^ 63) by (apply Z.pow_le_mono_r; lia).
  pose proof (last_range m seed ltac:(lia)) as LR. rewrite <- L0 in LR, Hne.
  pose proof (width_bound nums m Is ltac:(lia)).
  assert (PM : Permutation (vals fl0 (Z.to_nat (2 ^ m - 1))) (below (2 ^ m - 1))).
  { rewrite (vals_map fl0 _ (fun i => (i * Z.to_nat (0 + 1))%nat)).
    - apply sched_perm; [apply good_same with fl; auto|lia|]. intros i j Hi Hj EE.
      apply Nat2Z.inj.
      apply (stride_inj (2 ^ m - 1) 0 0 (Z.of_nat i) (Z.of_nat j)); try lia.
      + apply rel_prime_1.
      + rewrite !Z.add_0_r. rewrite !Nat2Z.inj_mul, Z2Nat.id in EE by lia. exact EE.
    - intros j. apply pos_plain; auto; lia. }
  destruct (draws_perm fl0 (2 ^ m - 1) nums) as (fl' & vs & k & D & PV & EN & Hk & EF); auto; try lia.
  exists fl', vs. split; [auto|split; [auto|split; [auto|]]].
  destruct (bumps_fields (Z.to_nat nums) (Nat.iter k lfsr_iter fl0)) as (SB & CB & _).
  rewrite <- EF in SB, CB.
  pose proof (same_iters k fl0) as SI.
  assert (SF : same_reg fl' fl) by (unfold same_reg in *; intuition congruence).
  unfold plain. split; [apply good_same with fl; auto|]. split; [auto|].
  destruct SF as (_ & _ & S3 & _ & S5).
  split; [congruence|split; [congruence|]].
  rewrite CB. apply (pos_plain fl0 0 S0 ltac:(lia) C0 k).
Qed.

Lemma first_plain nums seed fl : 1 <= nums < 2 ^ 63 -> lfsr_init nums seed 0 = Some fl ->
  exists m fl' vs, draws (Z.to_nat nums) fl = Some (fl', vs) /\ Permutation vs (below nums) /\
    ended fl' /\ plain fl' m nums.
Proof.
  intros Hn E. destruct (init_eq nums seed 0 Hn ltac:(lia)) as (m & Is & [[_ N]|(fl0 & E0 & F)]); [congruence|].
  assert (fl0 = fl) by congruence. subst fl0.
  pose proof (fresh_perm fl m nums seed 0 F ltac:(lia)) as PM.
  destruct F as (G & _ & Hsp & Hnv & Hmv & _ & _ & Hcy & Hcc). pose proof G as (Hm & _).
  cbn [Z.to_nat spin_cycle] in Hcc.
  assert (P2 : 2 ^ m <= 2 ^ 63) by (apply Z.pow_le_mono_r; lia).
  pose proof (width_bound nums m Is ltac:(lia)).
  destruct (draws_perm fl (2 ^ m - 1) nums) as (fl' & vs & k & D & PV & EN & Hk & EF); auto; try lia.
  exists m, fl', vs. split; [auto|split; [auto|split; [auto|]]].
  destruct (bumps_fields (Z.to_nat nums) (Nat.iter k lfsr_iter fl)) as (SB & CB & _).
  rewrite <- EF in SB, CB.
  pose proof (same_iters k fl) as SI.
  assert (SF : same_reg fl' fl) by (unfold same_reg in *; intuition congruence).
  unfold plain. split; [apply good_same with fl; auto|]. split; [auto|].
  destruct SF as (_ & _ & S3 & _ & S5).
  split; [congruence|split; [congruence|]].
  rewrite CB. destruct k as [|k]; [lia|].
  apply (pos_first fl 0 Hsp ltac:(lia) ltac:(lia) Hcc k).
Qed.

Lemma plain_passes m nums seed : 1 <= nums < 2 ^ 63 -> Z.land seed (2 ^ m - 1) <> 2 ^ m - 1 ->
  forall k fl, plain fl m nums ->
  exists ps, all_passes k nums seed (fst (lfsr_reset fl seed)) = Some ps /\
    Forall (fun p => Permutation p (below nums)) ps /\ length ps = k.
Proof.
  intros Hn Hne. induction k; intros fl HP.
  - exists []. simpl. auto.
  - cbn [all_passes]. destruct (plain_draws fl m nums seed HP Hn Hne) as (fl' & vs & D & PV & _ & HP').
    rewrite D. destruct (IHk fl' HP') as (ps & E & F & L). rewrite E. exists (vs :: ps).
    split; auto. split; [constructor; auto|simpl; auto].
Qed.

Lemma init_passes nums seed fl k : 1 <= nums < 2 ^ 63 -> lfsr_init nums seed 0 = Some fl ->
  exists ps, all_passes k nums seed fl = Some ps /\
    Forall (fun p => Permutation p (below nums)) ps /\ length ps = k.
Proof.
  intros Hn E. destruct k as [|k]; [exists []; simpl; auto|].
  destruct (init_eq nums seed 0 Hn ltac:(lia)) as (m & Is & [[_ N]|(fl0 & E0 & F)]); [congruence|].
  destruct (first_plain nums seed fl Hn E) as (m' & fl' & vs & D & PV & _ & HP).
  assert (m' = m).
  { destruct HP as (_ & (A1 & A2 & A3) & _). destruct Is as (B1 & B2 & B3).
    destruct (Z.lt_trichotomy m m') as [L|[|L]]; auto; exfalso.
    - assert (2 ^ m <= 2 ^ (m' - 1)) by (apply Z.pow_le_mono_r; lia). lia.
    - assert (2 ^ m' <= 2 ^ (m - 1)) by (apply Z.pow_le_mono_r; lia). lia. }
  subst m'. assert (fl0 = fl) by congruence. subst fl0.
  destruct F as (_ & _ & _ & _ & _ & L1 & L2 & _).
  cbn [all_passes]. rewrite D.
  destruct (plain_passes m nums seed Hn ltac:(congruence) k fl' HP) as (ps & E2 & F2 & L3).
  rewrite E2. exists (vs :: ps). split; auto. split; [constructor; auto|simpl; auto].
Qed.

Lemma init_fails_iff nums seed s : 1 <= nums < 2 ^ 63 -> 0 <= s <= 15 ->
  exists w, is_width nums w /\ (lfsr_init nums seed s = None <-> seed mod 2 ^ w = 2 ^ w - 1).
Proof.
  intros Hn Hs. destruct (init_eq nums seed s Hn Hs) as (m & Is & H). exists m. split; auto.
  assert (Hm : 3 <= m) by (destruct Is; lia).
  assert (EL : Z.land seed (2 ^ m - 1) = seed mod 2 ^ m).
  { rewrite <- Z.land_ones by lia. f_equal. rewrite Z.ones_equiv. lia. }
  rewrite <- EL. destruct H as [[A B]|(fl & A & F)].
  - tauto.
  - destruct F as (_ & _ & _ & _ & _ & L1 & L2 & _). split; [congruence|]. intros. congruence.
Qed.
