(** Refinement proofs for the I/O unit stack and ring. *)
From Coq Require Import ZArith List Lia Bool.
From Verif Require Import CBase Mem IouqModel IouqSpec.
Import ListNotations.
Open Scope Z_scope.

(** ** Stack *)

Definition q_abs (q : queue) (s : list Z) : Prop :=
  0 <= q_max q < 2 ^ 32 /\ zlen (q_ios q) = q_max q /\ q_nr q = zlen s /\ q_nr q <= q_max q /\
  forall i, (i < length s)%nat -> nth i (q_ios q) None = Some (nth i (rev s) 0).

Lemma q_run_ok os : forall q s, q_abs q s ->
  match stack_run (q_max q) s os with
  | Some (s', r) => exists q', q_run q os = Some (q', r) /\ q_abs q' s' /\ q_max q' = q_max q
  | None => q_run q os = None
  end.
Proof.
  induction os as [|[x|] os IH]; intros q s H; cbn [stack_run q_run].
  - exists q. auto.
  - pose proof H as (Hm & Hl & Hn & Hle & Hc). unfold io_u_qpush. rewrite Hn.
    destruct (Z.ltb_spec (zlen s) (q_max q)) as [L|L]; [|auto].
    pose proof (zlen_nonneg s) as Z0.
    rewrite zupd_some by lia. set (q' := mkQ _ _ _).
    assert (H' : q_abs q' (x :: s)).
    { unfold q_abs, q'. cbn [q_max q_ios q_nr]. split; [auto|].
      split; [unfold zlen in *; rewrite upd_length; auto|].
      assert (ZS : zlen (x :: s) = zlen s + 1) by (unfold zlen; simpl length; lia).
      split; [unfold u32; rewrite Z.mod_small; lia|].
      split; [unfold u32; rewrite Z.mod_small; lia|].
      intros i Hi. simpl length in Hi. cbn [rev].
      unfold zlen in *. rewrite Nat2Z.id. 
      destruct (Nat.eq_dec i (length s)) as [->|N].
      - rewrite upd_nth_same by lia. rewrite app_nth2; rewrite rev_length; [|lia].
        rewrite Nat.sub_diag. auto.
      - rewrite upd_nth_other by lia. rewrite app_nth1 by (rewrite rev_length; lia). apply Hc. lia. }
    specialize (IH q' (x :: s) H'). change (q_max q') with (q_max q) in IH. exact IH.
  - pose proof H as (Hm & Hl & Hn & Hle & Hc). unfold io_u_qpop. rewrite Hn.
    destruct s as [|x s].
    + change (zlen [] =? 0) with true. cbn [zlen]. specialize (IH q [] H).
      destruct (stack_run (q_max q) [] os) as [[s' r]|].
      * destruct IH as (q' & E & A). rewrite E. exists q'. auto.
      * rewrite IH. auto.
    + assert (ZS : zlen (x :: s) = zlen s + 1) by (unfold zlen; simpl length; lia).
      pose proof (zlen_nonneg s) as Z0.
      destruct (Z.eqb_spec (zlen (x :: s)) 0); [lia|].
      assert (EX : znth (q_ios q) (zlen (x :: s) - 1) = Some (Some x)).
      { rewrite (znth_nth (q_ios q) _ None) by lia. f_equal.
        replace (Z.to_nat (zlen (x :: s) - 1)) with (length s) by (unfold zlen; simpl length; lia).
        rewrite Hc by (simpl; lia). cbn [rev].
        rewrite app_nth2; rewrite rev_length; [|lia]. rewrite Nat.sub_diag. auto. }
      rewrite EX, zupd_some by lia. set (q' := mkQ _ _ _).
      assert (H' : q_abs q' s).
      { unfold q_abs, q'. cbn [q_max q_ios q_nr]. split; [auto|].
        split; [unfold zlen in *; rewrite upd_length; auto|]. split; [lia|]. split; [lia|].
        intros i Hi. rewrite upd_nth_other by (unfold zlen; simpl length; lia).
        rewrite Hc by (simpl; lia). cbn [rev]. rewrite app_nth1 by (rewrite rev_length; lia). auto. }
      specialize (IH q' s H'). change (q_max q') with (q_max q) in IH.
      destruct (stack_run (q_max q) s os) as [[s' r]|].
      * destruct IH as (q2 & E & A). rewrite E. exists q2. auto.
      * rewrite IH. auto.
Qed.

Lemma qinit_abs nr : 0 <= nr < 2 ^ 32 -> q_abs (io_u_qinit nr) [].
Proof.
  intros H. unfold q_abs, io_u_qinit. cbn [q_max q_ios q_nr]. split; [lia|].
  split; [unfold zlen; rewrite repeat_length; lia|]. split; [reflexivity|]. split; [lia|].
  intros i Hi. simpl in Hi. lia.
Qed.

(** ** Rounding up to a power of two *)

Definition window (x y w : Z) : Prop :=
  forall i, 0 <= i -> (Z.testbit y i = true <-> exists j, i <= j < i + w /\ Z.testbit x j = true).

Lemma window_1 x : window x x 1.
Proof.
  intros i Hi. split.
  - intros H. exists i. split; [lia|auto].
  - intros (j & Hj & E). replace i with j by lia. auto.
Qed.

Lemma window_double x y w : 0 < w -> window x y w -> window x (Z.lor y (Z.shiftr y w)) (2 * w).
Proof.
  intros Hw H i Hi. rewrite Z.lor_spec, Z.shiftr_spec, orb_true_iff by lia.
  rewrite (H i), (H (i + w)) by lia. split.
  - intros [(j & Hj & E)|(j & Hj & E)]; exists j; split; auto; lia.
  - intros (j & Hj & E). destruct (Z_lt_le_dec j (i + w)); [left|right]; exists j; split; auto; lia.
Qed.

Lemma smear_ones x : 0 < x < 2 ^ 32 -> smear x = 2 ^ (Z.log2 x + 1) - 1.
Proof.
  intros Hx. assert (W : window x (smear x) 32).
  { unfold smear. cbv zeta. pose proof (window_1 x) as W.
    apply (window_double _ _ 1) in W; [|lia]. apply (window_double _ _ (2 * 1)) in W; [|lia].
    apply (window_double _ _ (2 * (2 * 1))) in W; [|lia].
    apply (window_double _ _ (2 * (2 * (2 * 1)))) in W; [|lia].
    apply (window_double _ _ (2 * (2 * (2 * (2 * 1))))) in W; [|lia]. exact W. }
  replace (2 ^ (Z.log2 x + 1) - 1) with (Z.ones (Z.log2 x + 1)) by (rewrite Z.ones_equiv; lia).
  pose proof (Z.log2_nonneg x) as L0.
  assert (L1 : Z.log2 x < 32) by (apply Z.log2_lt_pow2; lia).
  apply Z.bits_inj'. intros i Hi. rewrite testbit_ones by lia.
  destruct (Z.leb_spec 0 i); [|lia]. cbn [andb].
  destruct (Z.ltb_spec i (Z.log2 x + 1)).
  - apply W; auto. exists (Z.log2 x). split; [lia|apply Z.bit_log2; lia].
  - destruct (Z.testbit (smear x) i) eqn:E; auto. exfalso. apply W in E; auto.
    destruct E as (j & Hj & E). rewrite Z.bits_above_log2 in E by lia. discriminate.
Qed.

Lemma land_pred_pow2 m : 0 < m -> (Z.land m (m - 1) = 0 <-> m = 2 ^ Z.log2 m).
Proof.
  intros Hm. pose proof (Z.log2_spec m Hm) as [A B]. pose proof (Z.log2_nonneg m) as L.
  rewrite Z.pow_succ_r in B by lia. split.
  - intros E. destruct (Z.eq_dec m (2 ^ Z.log2 m)) as [|N]; auto. exfalso.
    assert (T1 : Z.testbit m (Z.log2 m) = true) by (apply Z.bit_log2; auto).
    assert (T2 : Z.testbit (m - 1) (Z.log2 m) = true).
    { replace (Z.log2 m) with (Z.log2 (m - 1)); [apply Z.bit_log2; lia|].
      apply Z.log2_unique; [lia|]. rewrite Z.pow_succ_r by lia. lia. }
    assert (T : Z.testbit (Z.land m (m - 1)) (Z.log2 m) = true) by (rewrite Z.land_spec, T1, T2; auto).
    rewrite E, Z.testbit_0_l in T. discriminate.
  - intros E. rewrite E at 1 2. set (k := Z.log2 m) in *. clearbody k.
    replace (2 ^ k - 1) with (Z.ones k) by (rewrite Z.ones_equiv; lia).
    rewrite Z.land_ones by lia. apply Z.mod_same. pose proof (Z.pow_pos_nonneg 2 k). lia.
Qed.

Lemma ring_size_ok nr : 1 <= nr < 2 ^ 31 ->
  exists k, 1 <= k <= 31 /\ ring_size nr = 2 ^ k /\ nr + 1 <= 2 ^ k.
Proof.
  intros Hn. unfold ring_size. cbv zeta.
  assert (E1 : u32 (nr + 1) = nr + 1) by (unfold u32; apply Z.mod_small; lia). rewrite E1.
  assert (E2 : u32 (nr + 1 - 1) = nr) by (unfold u32; rewrite Z.mod_small; lia). rewrite E2.
  assert (EL : Z.land (nr + 1) nr = Z.land (nr + 1) (nr + 1 - 1)) by (f_equal; lia). rewrite EL.
  destruct (Z.eqb_spec (Z.land (nr + 1) (nr + 1 - 1)) 0) as [E|E].
  - apply land_pred_pow2 in E; [|lia]. exists (Z.log2 (nr + 1)). split; [|split; [exact E|rewrite <- E; lia]].
    split; [apply Z.log2_le_pow2; lia|].
    assert (Z.log2 (nr + 1) <= 31); [|lia].

    assert (Z.log2 (nr + 1) <= Z.log2 (2 ^ 31)) by (apply Z.log2_le_mono; lia).
    rewrite Z.log2_pow2 in H by lia. auto.
  - rewrite smear_ones by lia. exists (Z.log2 nr + 1).
    pose proof (Z.log2_nonneg nr). pose proof (Z.log2_spec nr ltac:(lia)) as [_ B].
    assert (Z.log2 nr < 31) by (apply Z.log2_lt_pow2; lia).
    split; [lia|].
    assert (2 ^ (Z.log2 nr + 1) <= 2 ^ 31) by (apply Z.pow_le_mono_r; lia).
    split; [|unfold Z.succ in B; lia].
    unfold u32. rewrite Z.sub_add. apply Z.mod_small. lia.
Qed.

(** ** Ring *)

Definition r_abs (cap : Z) (r : ring) (s : list Z) : Prop :=
  (exists k, 1 <= k <= 31 /\ r_max r = 2 ^ k) /\ zlen (r_ring r) = r_max r /\
  0 <= r_head r < r_max r /\ 0 <= r_tail r < r_max r /\
  cap + 1 <= r_max r /\ zlen s <= cap /\
  r_head r = (r_tail r + zlen s) mod r_max r /\
  forall i, (i < length s)%nat ->
    nth (Z.to_nat ((r_tail r + Z.of_nat i) mod r_max r)) (r_ring r) None = Some (nth i s 0).

Lemma ring_mask r k x : 1 <= k <= 31 -> r_max r = 2 ^ k -> 0 <= x < 2 ^ 31 ->
  Z.land (u32 (x + 1)) (u32 (r_max r - 1)) = (x + 1) mod r_max r.
Proof.
  intros Hk E Hx. rewrite E.
  assert (2 ^ 1 <= 2 ^ k) by (apply Z.pow_le_mono_r; lia).
  assert (2 ^ k <= 2 ^ 31) by (apply Z.pow_le_mono_r; lia).
  unfold u32. rewrite !(Z.mod_small _ (2 ^ 32)) by lia.
  replace (2 ^ k - 1) with (Z.ones k) by (rewrite Z.ones_equiv; lia). apply Z.land_ones. lia.
Qed.

Lemma mod_inj s a i j : 0 < s -> 0 <= i < s -> 0 <= j < s -> (a + i) mod s = (a + j) mod s -> i = j.
Proof.
  intros Hs Hi Hj E.
  assert (D : (i - j) mod s = 0).
  { replace (i - j) with (a + i - (a + j)) by ring. rewrite Zminus_mod, E, Z.sub_diag. reflexivity. }
  apply Z.mod_divide in D; [|lia]. destruct D as [q Hq]. assert (q = 0) by nia. lia.
Qed.

Lemma r_run_ok cap os : forall r s, r_abs cap r s ->
  match queue_run cap s os with
  | Some (s', out) => exists r', r_run r os = Some (r', out) /\ r_abs cap r' s'
  | None => True
  end.
Proof.
  induction os as [|[x|] os IH]; intros r s H; cbn [queue_run r_run].
  - exists r. auto.
  - destruct (Z.ltb_spec (zlen s) cap) as [L|L]; [|auto].
    pose proof H as ((k & Hk & Hmax) & Hl & Hh & Ht & Hcap & Hs & Hhd & Hc).
    assert (M2 : 2 ^ k <= 2 ^ 31) by (apply Z.pow_le_mono_r; lia).
    pose proof (zlen_nonneg s) as Z0.
    unfold io_u_rpush.
    assert (NF : u32 (r_head r + 1) =? r_tail r = false).
    { apply Z.eqb_neq. unfold u32. rewrite Z.mod_small by lia. intros E.
      assert (E2 : (r_tail r + 0) mod r_max r = (r_tail r + (zlen s + 1)) mod r_max r).
      { rewrite Z.add_0_r, Z.add_assoc, <- Zplus_mod_idemp_l, <- Hhd, E. auto. }
      apply mod_inj in E2; lia. }
    rewrite NF. cbn [negb]. rewrite zupd_some by lia.
    rewrite (ring_mask r k) by (auto; lia). set (r' := mkR _ _ _ _).
    assert (ZS : zlen (s ++ [x]) = zlen s + 1) by (unfold zlen; rewrite app_length; simpl; lia).
    assert (H' : r_abs cap r' (s ++ [x])).
    { unfold r_abs, r'. cbn [r_max r_ring r_head r_tail]. split; [exists k; auto|].
      split; [unfold zlen in *; rewrite upd_length; auto|].
      split; [apply Z.mod_pos_bound; lia|]. split; [lia|]. split; [lia|]. split; [lia|].
      split. { rewrite ZS, Z.add_assoc, Hhd, Zplus_mod_idemp_l. auto. }
      intros i Hi. rewrite app_length in Hi. simpl in Hi.
      destruct (Nat.eq_dec i (length s)) as [->|N].
      - rewrite app_nth2, Nat.sub_diag by lia. unfold zlen in Hhd. rewrite <- Hhd.
        rewrite upd_nth_same; auto. unfold zlen in *. lia.
      - rewrite app_nth1 by lia. rewrite upd_nth_other; [apply Hc; lia|].
        intros E. apply Z2Nat.inj in E; [|lia|apply Z.mod_pos_bound; lia].
        rewrite Hhd in E. apply mod_inj in E; unfold zlen in *; lia. }
    exact (IH r' (s ++ [x]) H').
  - pose proof H as ((k & Hk & Hmax) & Hl & Hh & Ht & Hcap & Hs & Hhd & Hc).
    assert (M2 : 2 ^ k <= 2 ^ 31) by (apply Z.pow_le_mono_r; lia).
    unfold io_u_rpop. destruct s as [|x s].
    + change (zlen []) with 0 in Hhd. rewrite Z.add_0_r, Z.mod_small in Hhd by lia.
      rewrite Hhd, Z.eqb_refl. cbn [negb]. specialize (IH r [] H).
      destruct (queue_run cap [] os) as [[s' o]|]; auto.
      destruct IH as (r' & E & A). rewrite E. exists r'. auto.
    + assert (ZS : zlen (x :: s) = zlen s + 1) by (unfold zlen; simpl length; lia).
      pose proof (zlen_nonneg s) as Z0.
      destruct (Z.eqb_spec (r_head r) (r_tail r)) as [E|E].
      { exfalso. rewrite Hhd in E.
        assert (E2 : (r_tail r + zlen (x :: s)) mod r_max r = (r_tail r + 0) mod r_max r)
          by (rewrite E, Z.add_0_r, Z.mod_small; lia).
        apply mod_inj in E2; lia. }
      cbn [negb].
      assert (EX : znth (r_ring r) (r_tail r) = Some (Some x)).
      { rewrite (znth_nth (r_ring r) _ None) by lia. f_equal. specialize (Hc 0%nat ltac:(simpl; lia)).
        simpl Z.of_nat in Hc. rewrite Z.add_0_r, Z.mod_small in Hc by lia. auto. }
      rewrite EX. rewrite (ring_mask r k) by (auto; lia). set (r' := mkR _ _ _ _).
      assert (H' : r_abs cap r' s).
      { unfold r_abs, r'. cbn [r_max r_ring r_head r_tail]. split; [exists k; auto|].
        split; [auto|]. split; [auto|]. split; [apply Z.mod_pos_bound; lia|].
        split; [lia|]. split; [lia|].
        split. { rewrite Hhd, ZS, Zplus_mod_idemp_l. f_equal. ring. }
        intros i Hi. rewrite Zplus_mod_idemp_l. specialize (Hc (S i) ltac:(simpl; lia)).
        replace (r_tail r + 1 + Z.of_nat i) with (r_tail r + Z.of_nat (S i)) by lia. exact Hc. }
      specialize (IH r' s H'). destruct (queue_run cap s os) as [[s' o]|]; auto.
      destruct IH as (r2 & E2 & A). rewrite E2. exists r2. auto.
Qed.

Lemma rinit_abs nr : 1 <= nr < 2 ^ 31 -> r_abs nr (io_u_rinit nr) [].
Proof.
  intros H. destruct (ring_size_ok nr H) as (k & Hk & E & L).
  assert (P : 0 < 2 ^ k) by (apply Z.pow_pos_nonneg; lia).
  unfold r_abs, io_u_rinit. cbn [r_max r_ring r_head r_tail]. rewrite E.
  split; [exists k; auto|]. split; [unfold zlen; rewrite repeat_length; lia|].
  split; [lia|]. split; [lia|]. split; [lia|]. split; [change (zlen (@nil Z)) with 0; lia|].
  split; [change (zlen (@nil Z)) with 0; rewrite Z.mod_small; lia|].
  intros i Hi. simpl in Hi. lia.
Qed.
