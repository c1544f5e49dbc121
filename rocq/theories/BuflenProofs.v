From Coq Require Import ZArith List Bool Lia Permutation.
From Verif Require Import CBase FloatZ BuflenModel BuflenSpec.
Import ListNotations.
Open Scope Z_scope.

Lemma pow2_shape m : is_power_of_2 m = true -> 0 < m -> m = 2 ^ Z.log2 m.
Proof.
  unfold is_power_of_2. rewrite andb_true_iff. intros (_ & H) P. apply Z.eqb_eq in H.
  destruct (Z.log2_spec m P) as (L1 & L2). destruct (Z.eq_dec m (2 ^ Z.log2 m)) as [E|E]; auto. exfalso.
  assert (K : Z.log2 (m - 1) = Z.log2 m) by (apply Z.log2_unique; [apply Z.log2_nonneg|]; lia).
  assert (P1 : 0 < m - 1). { assert (1 <= 2 ^ Z.log2 m) by (apply Z.lt_pred_le; apply Z.pow_pos_nonneg; [lia|apply Z.log2_nonneg]). lia. }
  assert (B : Z.testbit (Z.land m (m - 1)) (Z.log2 m) = true) by (rewrite Z.land_spec, Z.bit_log2 by lia; rewrite <- K, Z.bit_log2 by lia; reflexivity).
  rewrite H, Z.bits_0 in B. discriminate.
Qed.
Lemma round_down m x : is_power_of_2 m = true -> 0 < m -> Z.ldiff x (m - 1) = x - x mod m.
Proof.
  intros H P. rewrite (pow2_shape m H P). pose proof (Z.log2_nonneg m) as K. replace (2 ^ Z.log2 m - 1) with (Z.ones (Z.log2 m)) by (rewrite Z.ones_equiv; lia).
  rewrite Z.ldiff_ones_r by auto. rewrite Z.shiftr_div_pow2, Z.shiftl_mul_pow2 by auto. pose proof (Z.pow_pos_nonneg 2 (Z.log2 m) ltac:(lia) K). pose proof (Z.div_mod x (2 ^ Z.log2 m) ltac:(lia)). lia.
Qed.
Lemma align_len_eq o x : 0 < b_min o -> align_len o x = Z.min (if b_unaligned o then x else x - x mod b_min o) (b_max o).
Proof.
  intros P. unfold align_len. cbv zeta. set (y := if negb (b_unaligned o) then _ else x).
  assert (E : y = if b_unaligned o then x else x - x mod b_min o). { unfold y. destruct (b_unaligned o); cbn [negb]; auto. destruct (is_power_of_2 (b_min o)) eqn:E; auto. apply round_down; auto. }
  rewrite <- E. destruct (Z.gtb_spec y (b_max o)); lia.
Qed.

(** What the options must satisfy: sizes from 1, and the entries of a split between the two bounds with a percentage. *)
Definition good (o : bopts) : Prop :=
  1 <= b_min o /\ b_min o <= b_max o /\ (forall bs p, In (bs, p) (b_split o) -> b_min o <= bs <= b_max o /\ 0 <= p) /\ (b_split o <> [] -> exists bs p, In (bs, p) (b_split o) /\ p <> 0).

Lemma align_range o x : good o -> b_min o <= x -> b_min o <= align_len o x <= b_max o /\ (b_unaligned o = false -> (b_min o | align_len o x) \/ align_len o x = b_max o).
Proof.
  intros (P & L & _) H. rewrite align_len_eq by lia. destruct (b_unaligned o); [split; [lia|discriminate]|].
  pose proof (Z.div_mod x (b_min o) ltac:(lia)) as D. pose proof (Z.mod_pos_bound x (b_min o) ltac:(lia)) as B. pose proof (Z.div_le_lower_bound x (b_min o) 1 ltac:(lia) ltac:(lia)).
  split; [nia|]. intros _. destruct (Z.min_spec (x - x mod b_min o) (b_max o)) as [(_ & ->)|(_ & ->)]; auto. left. exists (x / b_min o). lia.
Qed.

Lemma div_le r p q : 0 < p -> 0 <= q -> (r / p <= q <-> r < p * (q + 1)).
Proof. intros P Q. split; intros H. - pose proof (Z.div_mod r p ltac:(lia)). pose proof (Z.mod_pos_bound r p P). nia. - assert (r / p < q + 1) by (apply Z.div_lt_upper_bound; lia). lia. Qed.

(** The loop over the entries follows the rule. The running sum is kept as the share of an entry in front. *)
Lemma split_loop_rule o fits r : 0 <= r -> forall es acc len, (forall bs p, In (bs, p) es -> 0 <= p) -> 0 <= acc ->
  let q := rand_max o / 100 in let res := split_loop o fits r acc len es in
  (exists i p, nth_error es i = Some (res, p) /\ p <> 0 /\ r < (acc + cum es i) * (q + 1) /\ fits res = true /\
     forall j b p', (j < i)%nat -> nth_error es j = Some (b, p') -> p' <> 0 -> r < (acc + cum es j) * (q + 1) -> fits b = false) \/
  ((forall j b p', nth_error es j = Some (b, p') -> p' <> 0 -> r < (acc + cum es j) * (q + 1) -> fits b = false) /\
   ((exists i p, nth_error es i = Some (res, p) /\ p <> 0 /\ forall j b p', (i < j)%nat -> nth_error es j = Some (b, p') -> p' = 0) \/
    (res = len /\ forall j b p', nth_error es j = Some (b, p') -> p' = 0))).
Proof.
  intros R. assert (Q : 0 <= rand_max o / 100) by (unfold rand_max, rand_bits; destruct (b_64 o); vm_compute; discriminate).
  induction es as [|[bs p] es IH]; intros acc len HP HA; cbv zeta; cbn [split_loop].
  - right. split; [intros [|j] b p' H; discriminate|]. right. split; auto. intros [|j] b p' H; discriminate.
  - assert (Hp : 0 <= p) by (apply (HP bs p); left; auto). assert (HP' : forall b p', In (b, p') es -> 0 <= p') by (intros b p' H; apply (HP b p'); right; auto).
    destruct (Z.eqb_spec p 0) as [Z0|Z0].
    + subst p. specialize (IH acc len HP' HA). cbv zeta in IH. destruct IH as [(i & p & A1 & A2 & A3 & A4 & A5)|(A1 & A2)].
      * left. exists (S i), p. cbn [nth_error cum]. repeat (split; auto). intros [|j] b p' Hj E N L; cbn [nth_error cum] in *; [inversion E; subst; lia|]. apply (A5 j b p'); auto; lia.
      * right. split; [intros [|j] b p' E N L; cbn [nth_error cum] in *; [inversion E; subst; lia|apply (A1 j b p'); auto; lia]|]. destruct A2 as [(i & p & B1 & B2 & B3)|(B1 & B2)].
        -- left. exists (S i), p. split; auto. split; auto. intros [|j] b p' Hj E; [lia|]. apply (B3 j b p'); auto; lia.
        -- right. split; auto. intros [|j] b p' E; cbn in E; [inversion E; auto|eauto].
    + assert (D : forall x, (x / (acc + p) <=? rand_max o / 100) = true <-> x < (acc + p) * (rand_max o / 100 + 1)) by (intros x; rewrite Z.leb_le; apply div_le; lia).
      destruct ((r / (acc + p) <=? rand_max o / 100) && fits bs) eqn:C.
      * apply andb_true_iff in C. destruct C as (C1 & C2). left. exists 0%nat, p. cbn [nth_error cum]. split; auto. split; auto. split; [apply D in C1; rewrite Z.add_0_r; auto|]. split; auto. intros j b p' Hj. lia.
      * assert (F : r < (acc + p) * (rand_max o / 100 + 1) -> fits bs = false) by (intros X; apply D in X; rewrite X in C; auto).
        specialize (IH (acc + p) bs HP' ltac:(lia)). cbv zeta in IH. destruct IH as [(i & p2 & A1 & A2 & A3 & A4 & A5)|(A1 & A2)].
        -- left. exists (S i), p2. cbn [nth_error cum]. split; auto. split; auto. split; [replace (acc + (p + cum es i)) with (acc + p + cum es i) by lia; auto|]. split; auto.
           intros [|j] b p' Hj E N L; cbn [nth_error cum] in *; [inversion E; subst; apply F; rewrite Z.add_0_r in L; auto|]. apply (A5 j b p'); auto; [lia|]. replace (acc + p + cum es j) with (acc + (p + cum es j)) by lia. auto.
        -- right. split; [intros [|j] b p' E N L; cbn [nth_error cum] in *; [inversion E; subst; apply F; rewrite Z.add_0_r in L; auto|apply (A1 j b p'); auto; replace (acc + p + cum es j) with (acc + (p + cum es j)) by lia; auto]|].
           destruct A2 as [(i & p2 & B1 & B2 & B3)|(B1 & B2)].
           ++ left. exists (S i), p2. split; auto. split; auto. intros [|j] b p' Hj E; [lia|]. apply (B3 j b p'); auto; lia.
           ++ left. exists 0%nat, p. cbn [nth_error]. rewrite B1. split; auto. split; auto. intros [|j] b p' Hj E; [lia|]. eauto.
Qed.
Lemma split_loop_ok o fits r : good o -> b_split o <> [] -> 0 <= r -> let res := split_loop o fits r 0 0 (b_split o) in split_rule (b_split o) fits (rand_max o / 100) r res /\ exists p, In (res, p) (b_split o).
Proof.
  intros (_ & _ & G & NZ) NE R. destruct (split_loop_rule o fits r R (b_split o) 0 0 (fun bs p H => proj2 (G bs p H)) ltac:(lia)) as [(i & p & A1 & A2 & A3 & A4 & A5)|(A1 & A2)]; cbn [Z.add] in *.
  - split; [|exists p; eapply nth_error_In; eauto]. left. exists i. split; [exists p; auto|]. intros j b Hj (p' & B1 & B2 & B3 & B4). rewrite (A5 j b p' Hj B1 B2 B3) in B4. discriminate.
  - destruct A2 as [(i & p & B1 & B2 & B3)|(_ & B2)].
    + split; [|exists p; eapply nth_error_In; eauto]. right. split; [intros j b (p' & C1 & C2 & C3 & C4); rewrite (A1 j b p' C1 C2 C3) in C4; discriminate|]. exists i, p. auto.
    + exfalso. destruct (NZ NE) as (bs & p & I & N). apply In_nth_error in I. destruct I as (j & E). exact (N (B2 j bs p E)).
Qed.

Lemma draw_range_ge o r : good o -> 0 <= r -> b_min o <= draw_range o r.
Proof.
  intros (P & L & _) R. unfold draw_range. assert (0 <= rne53 (rne53 (b_max o) * rne53 r)) by (apply rne53_nonneg; apply Z.mul_nonneg_nonneg; apply rne53_nonneg; lia).
  assert (0 < 2 ^ rand_bits o) by (unfold rand_bits; destruct (b_64 o); reflexivity). pose proof (Z.div_pos _ (2 ^ rand_bits o) H H0). lia.
Qed.
Lemma one_len_ok o fits r : good o -> 0 <= r -> b_min o <= one_len o fits r <= b_max o /\ (b_unaligned o = false -> (b_min o | one_len o fits r) \/ one_len o fits r = b_max o).
Proof.
  intros G R. unfold one_len. apply align_range; auto. destruct (b_split o) as [|e es] eqn:E; [apply draw_range_ge; auto|].
  destruct (split_loop_ok o fits r G ltac:(rewrite E; discriminate) R) as (_ & p & I). rewrite <- E. destruct G as (_ & _ & G & _). apply G in I. lia.
Qed.
Lemma len_loop_inv o fits rs n : len_loop o fits rs = Some n -> exists r, In r rs /\ n = one_len o fits r /\ fits n = true.
Proof. induction rs as [|r rs IH]; cbn [len_loop]; [discriminate|]. destruct (fits (one_len o fits r)) eqn:F; [intros H; inversion H; subst; exists r; split; [left; auto|auto]|]. intros H. destruct (IH H) as (r' & I & X). exists r'. split; [right; auto|auto]. Qed.

(** Draws over a range. *)
Lemma rne53_exact a j : 0 <= a < 2 ^ 53 -> 0 <= j -> rne53 (a * 2 ^ j) = a * 2 ^ j.
Proof.
  intros A J. unfold rne53. destruct (Z.ltb_spec (a * 2 ^ j) (2 ^ 53)) as [H|H]; auto. cbv zeta. assert (PJ : 0 < 2 ^ j) by (apply Z.pow_pos_nonneg; lia).
  assert (PA : 0 < a). { destruct (Z.eq_dec a 0) as [->|]; [rewrite Z.mul_0_l in H; lia|lia]. } rewrite Z.log2_mul_pow2 by lia.
  assert (LA : Z.log2 a < 53) by (apply Z.log2_lt_pow2; lia).
  assert (LB : 53 <= j + Z.log2 a). { rewrite <- Z.log2_mul_pow2 by lia. change 53 with (Z.log2 (2 ^ 53)). apply Z.log2_le_mono. auto. }
  set (e := j + Z.log2 a - 52). assert (E : a * 2 ^ j = a * 2 ^ (j - e) * 2 ^ e) by (rewrite <- Z.mul_assoc, <- Z.pow_add_r by (unfold e; lia); do 2 f_equal; lia).
  assert (PE : 0 < 2 ^ e) by (apply Z.pow_pos_nonneg; unfold e; lia). rewrite E, Z.mod_mul, Z.div_mul by lia. assert (HE : 0 < 2 ^ (e - 1)) by (apply Z.pow_pos_nonneg; unfold e; lia).
  destruct (Z.ltb_spec 0 (2 ^ (e - 1))); [auto|lia].
Qed.
Lemma draw_bucket m n r : 1 <= m -> 1 <= n <= 2 ^ 21 -> n * m < 2 ^ 53 -> 0 <= r < 2 ^ 32 -> rne53 (n * m * r) / (2 ^ 32 * m) = n * r / 2 ^ 32.
Proof.
  intros M N B R. set (k := n * r / 2 ^ 32). pose proof (Z.div_mod (n * r) (2 ^ 32) ltac:(lia)) as D. pose proof (Z.mod_pos_bound (n * r) (2 ^ 32) ltac:(lia)) as T. fold k in D. set (t := n * r mod 2 ^ 32) in *.
  assert (X : n * m * r = m * (2 ^ 32 * k + t)) by nia. assert (KN : 0 <= k <= n) by (split; [apply Z.div_pos; nia|apply Z.div_le_upper_bound; nia]).
  destruct (rne53_error (n * m * r) ltac:(nia)) as (E0 & E1 & E2). set (y := rne53 (n * m * r)) in *.
  assert (U : 2 ^ 53 * (y - n * m * r) < 2 ^ 53 * m). { apply Z.le_lt_trans with (n * m * r); auto. assert (n * r < 2 ^ 21 * 2 ^ 32) by nia. change (2 ^ 53) with (2 ^ 21 * 2 ^ 32). nia. }
  assert (V : 2 ^ 53 * (n * m * r - y) < 2 ^ 53 * m). { apply Z.le_lt_trans with (n * m * r); auto. assert (n * r < 2 ^ 21 * 2 ^ 32) by nia. change (2 ^ 53) with (2 ^ 21 * 2 ^ 32). nia. }
  assert (Y1 : y - n * m * r < m) by lia. assert (Y2 : n * m * r - y < m) by lia.
  symmetry. apply Z.div_unique with (y - 2 ^ 32 * m * k); [|lia]. left. assert (G : 0 <= y - 2 ^ 32 * m * k).
  { destruct (Z.eq_dec t 0) as [T0|T0].
    - unfold y. rewrite X, T0. replace (m * (2 ^ 32 * k + 0)) with (m * k * 2 ^ 32) by ring. rewrite rne53_exact by nia. lia.
    - assert (m * 1 <= m * t) by nia. nia. }
  split; auto. assert (m * t <= m * (2 ^ 32 - 1)) by nia. nia.
Qed.
Lemma uniform_len o fits n r : 1 <= b_min o -> b_split o = [] -> b_unaligned o = false -> b_64 o = false -> b_max o = n * b_min o -> 1 <= n <= 2 ^ 21 -> b_max o < 2 ^ 53 -> 0 <= r < 2 ^ 32 ->
  one_len o fits r = (n * r / 2 ^ 32 + 1) * b_min o.
Proof.
  intros M ES EU E6 EM N B R. unfold one_len. rewrite ES, align_len_eq, EU by lia. unfold draw_range, rand_bits. rewrite E6, (rne53_small (b_max o)), (rne53_small r) by lia. rewrite EM in *. set (m := b_min o) in *.
  rewrite <- (draw_bucket m n r) by lia. set (y := rne53 (n * m * r)). assert (K : n * r / 2 ^ 32 < n) by (apply Z.div_lt_upper_bound; nia). rewrite <- (draw_bucket m n r) in K by lia. fold y in K.
  rewrite <- Z.div_div by lia. rewrite <- Z.div_div in K by lia. set (z := y / 2 ^ 32) in *. assert (E : m + z - (m + z) mod m = (z / m + 1) * m).
  { replace (m + z) with (z + 1 * m) by ring. rewrite Z.mod_add by lia. pose proof (Z.div_mod z m ltac:(lia)). lia. }
  rewrite E. apply Z.min_l. nia.
Qed.

Lemma cum_step : forall es i j bs p, (forall b q, In (b, q) es -> 0 <= q) -> (i < j)%nat -> nth_error es j = Some (bs, p) -> cum es i <= cum es j - p.
Proof.
  induction es as [|[b q] es IH]; intros i j bs p H L E; [destruct j; discriminate|]. destruct j as [|j]; [lia|]. cbn [nth_error] in E. cbn [cum]. assert (HQ : 0 <= q) by (apply (H b q); left; auto).
  assert (H' : forall b' q', In (b', q') es -> 0 <= q') by (intros b' q' X; apply (H b' q'); right; auto). destruct i as [|i].
  - assert (A : forall es j, (forall b q, In (b, q) es -> 0 <= q) -> nth_error es j = Some (bs, p) -> p <= cum es j).
    { clear. induction es as [|[b q] es IH]; intros [|j] H E; try discriminate; cbn [nth_error cum] in *; [inversion E; lia|]. assert (0 <= q) by (apply (H b q); left; auto). specialize (IH j (fun b' q' X => H b' q' (or_intror X)) E). lia. }
    specialize (A es j H' E). lia.
  - specialize (IH i j bs p H' ltac:(lia) E). lia.
Qed.

(** The percentages of a split. *)
Lemma sum_ext A (f g : A -> Z) l : (forall x, In x l -> f x = g x) -> sum f l = sum g l.
Proof. induction l as [|x l IH]; cbn; auto. intros H. rewrite (H x), IH; auto. Qed.
Lemma sum_map A B (f : A -> Z) (g : B -> A) l : sum f (map g l) = sum (fun x => f (g x)) l.
Proof. induction l; cbn; auto. rewrite IHl. auto. Qed.
Lemma sum_perm A (f : A -> Z) l l' : Permutation l l' -> sum f l = sum f l'.
Proof. induction 1; cbn; lia. Qed.
Lemma insert_perm e l : Permutation (insert e l) (e :: l).
Proof. induction l as [|x l IH]; cbn; auto. destruct (bs_cmp e x <=? 0); auto. eapply perm_trans; [apply perm_skip, IH|apply perm_swap]. Qed.
Lemma sort_perm l : Permutation (sort l) l.
Proof. induction l as [|x l IH]; cbn; auto. eapply perm_trans; [apply insert_perm|auto]. Qed.
Lemma list_min_le : forall l x, In x l -> list_min l <= x.
Proof. unfold list_min. induction l as [|y l IH]; intros x []; cbn [fold_right]; [subst; lia|]. specialize (IH x H). lia. Qed.
Lemma list_max_ge : forall l x, In x l -> x <= list_max l.
Proof. unfold list_max. induction l as [|y l IH]; intros x []; cbn [fold_right]; [subst; lia|]. specialize (IH x H). lia. Qed.
