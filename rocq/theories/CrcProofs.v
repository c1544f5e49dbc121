(** Proofs about CRCs. *)
From Coq Require Import ZArith List Lia Bool.
From Verif Require Import CBase CrcTables CrcModel CrcSpec.
Import ListNotations.
Open Scope Z_scope.

(** ** Bit lemmas *)

Lemma dbl_bits a i : 0 <= i -> Z.testbit (2 * a) i = (0 <? i) && Z.testbit a (i - 1).
Proof.
  intros Hi. destruct (Z.ltb_spec 0 i); cbn [andb].
  - rewrite <- (Z.double_bits_succ a (i - 1)). f_equal. lia.
  - replace i with 0 by lia. apply Z.testbit_even_0.
Qed.

Lemma dbl_lxor a b : 2 * Z.lxor a b = Z.lxor (2 * a) (2 * b).
Proof.
  apply Z.bits_inj'. intros i Hi. rewrite Z.lxor_spec, !dbl_bits, Z.lxor_spec by auto.
  destruct (0 <? i); auto.
Qed.

Lemma mul_pow2_lxor a b n : 0 <= n -> Z.lxor a b * 2 ^ n = Z.lxor (a * 2 ^ n) (b * 2 ^ n).
Proof. intros. rewrite <- !Z.shiftl_mul_pow2 by auto. apply Z.shiftl_lxor. Qed.

Lemma mul_pow2_bits a n i : 0 <= n -> 0 <= i -> Z.testbit (a * 2 ^ n) i = (n <=? i) && Z.testbit a (i - n).
Proof.
  intros Hn Hi. rewrite <- Z.shiftl_mul_pow2 by auto. rewrite Z.shiftl_spec by auto.
  destruct (Z.leb_spec n i); auto. rewrite Z.testbit_neg_r by lia. auto.
Qed.

Lemma if_lxor (b c : bool) (x : Z) : Z.lxor (if b then x else 0) (if c then x else 0) = if xorb b c then x else 0.
Proof. destruct b, c; cbn [xorb]; rewrite ?Z.lxor_nilpotent, ?Z.lxor_0_r, ?Z.lxor_0_l; auto. Qed.

Lemma lxor_swap a b c d : Z.lxor (Z.lxor a b) (Z.lxor c d) = Z.lxor (Z.lxor a c) (Z.lxor b d).
Proof. rewrite !Z.lxor_assoc. f_equal. rewrite <- !Z.lxor_assoc. f_equal. apply Z.lxor_comm. Qed.

(** ** Uniqueness of the remainder *)

Fixpoint zipx (a b : list bool) : list bool :=
  match a, b with
  | [], _ => b
  | _, [] => a
  | x :: a', y :: b' => xorb x y :: zipx a' b'
  end.

Lemma pmul_zipx g : forall a b, pmul (zipx a b) g = Z.lxor (pmul a g) (pmul b g).
Proof.
  induction a as [|x a IH]; intros b; cbn [zipx pmul]; [rewrite Z.lxor_0_l; auto|].
  destruct b as [|y b]; cbn [zipx pmul]; [rewrite Z.lxor_0_r; auto|].
  rewrite IH, dbl_lxor, <- if_lxor. apply lxor_swap.
Qed.

Lemma pmul_nonneg q g : 0 <= g -> 0 <= pmul q g.
Proof.
  intros Hg. induction q as [|b q IH]; cbn [pmul]; [lia|].
  apply Z.lxor_nonneg. destruct b; lia.
Qed.

Lemma gen_bits w p i : 0 <= p < 2 ^ w -> 0 <= w -> 0 <= i ->
  Z.testbit (2 ^ w + p) i = if i <? w then Z.testbit p i else i =? w.
Proof.
  intros Hp Hw Hi. assert (E : 2 ^ w + p = Z.lor (2 ^ w) p).
  { rewrite <- Z.lxor_lor. apply Z.add_nocarry_lxor.
    all: apply Z.bits_inj'; intros j Hj; rewrite Z.land_spec, Z.bits_0;
      destruct (Z.eqb_spec j w) as [->|N];
      [rewrite (testbit_above w p) by lia; apply andb_false_r | rewrite Z.pow2_bits_false by auto; auto]. }
  rewrite E, Z.lor_spec. destruct (Z.ltb_spec i w).
  - rewrite Z.pow2_bits_false by lia. auto.
  - rewrite (testbit_above w p) by lia. rewrite orb_false_r, Z.pow2_bits_eqb by auto. apply Z.eqb_sym.
Qed.

Lemma pmul_small w p q : 0 <= w -> 0 <= p < 2 ^ w -> pmul q (2 ^ w + p) < 2 ^ w -> pmul q (2 ^ w + p) = 0.
Proof.
  intros Hw Hp. assert (Hg : 0 <= 2 ^ w + p) by (assert (0 < 2 ^ w) by (apply Z.pow_pos_nonneg; lia); lia).
  induction q as [|b q IH]; cbn [pmul]; [auto|]. intros H.
  set (m := pmul q (2 ^ w + p)) in *. assert (Hm0 : 0 <= m) by (apply pmul_nonneg; auto).
  assert (T : 0 <= Z.lxor (if b then 2 ^ w + p else 0) (2 * m)) by (apply Z.lxor_nonneg; destruct b; lia).
  assert (Hm : m < 2 ^ w).
  { apply testbit_lt_pow2; auto. intros i Hi.
    pose proof (testbit_above w _ (i + 1) (conj T H) ltac:(lia)) as B.
    rewrite Z.lxor_spec, dbl_bits in B by lia. replace (i + 1 - 1) with i in B by lia.
    replace (0 <? i + 1) with true in B by (symmetry; apply Z.ltb_lt; lia). cbn [andb] in B.
    replace (Z.testbit (if b then 2 ^ w + p else 0) (i + 1)) with false in B.
    - rewrite xorb_false_l in B. auto.
    - destruct b; [|rewrite Z.bits_0; auto]. rewrite gen_bits by lia.
      destruct (Z.ltb_spec (i + 1) w); [lia|]. destruct (Z.eqb_spec (i + 1) w); [lia|auto]. }
  specialize (IH Hm). rewrite IH in H |- *. rewrite Z.mul_0_r, Z.lxor_0_r in H |- *.
  destruct b; auto. lia.
Qed.

Lemma rem_unique w p m r r' : 0 <= w -> 0 <= p < 2 ^ w ->
  is_rem w (2 ^ w + p) m r -> is_rem w (2 ^ w + p) m r' -> r = r'.
Proof.
  intros Hw Hp [Hr [q Hq]] [Hr' [q' Hq']].
  assert (E : Z.lxor r r' = pmul (zipx q q') (2 ^ w + p)).
  { rewrite pmul_zipx, <- Hq, <- Hq'. rewrite lxor_swap, Z.lxor_nilpotent, Z.lxor_0_l. auto. }
  apply Z.lxor_eq. rewrite E. apply pmul_small; auto. rewrite <- E. apply lxor_range; auto.
Qed.

(** ** The bit-serial register, most significant bit first *)

Definition mstep (w p s : Z) (b : bool) : Z :=
  Z.lxor ((2 * s) mod 2 ^ w) (if xorb (Z.testbit s (w - 1)) b then p else 0).
Definition mrun (w p s : Z) (bs : list bool) : Z := fold_left (mstep w p) bs s.

Definition byte_bits (b : Z) : list bool := map (Z.testbit b) [7; 6; 5; 4; 3; 2; 1; 0].

Fixpoint xorl (a b : list bool) : list bool :=
  match a, b with x :: a', y :: b' => xorb x y :: xorl a' b' | _, _ => [] end.

Lemma xorl_self a : xorl a a = repeat false (length a).
Proof. induction a as [|x a IH]; cbn; auto. rewrite xorb_nilpotent, IH. auto. Qed.

Lemma xorl_false : forall a b, length a = length b -> xorl a b = repeat false (length a) -> a = b.
Proof.
  induction a as [|x a IH]; intros [|y b] L E; cbn [xorl repeat length] in *; try discriminate; auto.
  injection E as E1 E2. apply xorb_eq in E1. subst. f_equal. apply IH; [lia|assumption].
Qed.

Lemma stream_cons b bs : stream_poly (b :: bs) = Z.b2z b * 2 ^ zlen bs + stream_poly bs.
Proof.
  unfold stream_poly. cbn [fold_left]. rewrite Z.mul_0_r, Z.add_0_l.
  assert (G : forall l a, fold_left (fun a b => 2 * a + Z.b2z b) l a = a * 2 ^ zlen l + fold_left (fun a b => 2 * a + Z.b2z b) l 0).
  { induction l as [|x l IH]; intros a.
    - cbn. lia.
    - cbn [fold_left]. rewrite IH, (IH (2 * 0 + Z.b2z x)).
      replace (zlen (x :: l)) with (1 + zlen l) by (unfold zlen; cbn [length]; lia).
      pose proof (zlen_nonneg l). rewrite Z.pow_add_r by lia. change (2 ^ 1) with 2. ring. }
  apply G.
Qed.

Lemma stream_zero bs : stream_poly bs = 0 -> bs = repeat false (length bs).
Proof.
  induction bs as [|b bs IH]; [auto|]. rewrite stream_cons. intros H.
  assert (N : forall l, 0 <= stream_poly l).
  { intros l. induction l as [|x l IHl]; [reflexivity|]. rewrite stream_cons.
    pose proof (zlen_nonneg l). assert (0 < 2 ^ zlen l) by (apply Z.pow_pos_nonneg; lia). destruct x; cbn [Z.b2z]; nia. }
  pose proof (N bs). pose proof (zlen_nonneg bs). assert (0 < 2 ^ zlen bs) by (apply Z.pow_pos_nonneg; lia).
  destruct b; cbn [Z.b2z] in H; [nia|]. cbn [repeat length]. f_equal. apply IH. lia.
Qed.

Lemma stream_bound bs : 0 <= stream_poly bs < 2 ^ zlen bs.
Proof.
  induction bs as [|b bs IH]; [cbn; lia|]. rewrite stream_cons.
  replace (zlen (b :: bs)) with (1 + zlen bs) by (unfold zlen; cbn [length]; lia).
  pose proof (zlen_nonneg bs). rewrite Z.pow_add_r by lia. change (2 ^ 1) with 2.
  destruct b; cbn [Z.b2z]; lia.
Qed.

Lemma byte_stream b : byte b -> stream_poly (byte_bits b) = b.
Proof.
  intros Hb. unfold byte in Hb.
  assert (C : forallb (fun n => stream_poly (byte_bits (Z.of_nat n)) =? Z.of_nat n) (seq 0 256) = true) by (vm_compute; reflexivity).
  rewrite forallb_forall in C. specialize (C (Z.to_nat b)). rewrite Z2Nat.id in C by lia.
  apply Z.eqb_eq. apply C. apply in_seq. change (2 ^ 8) with 256 in Hb. lia.
Qed.

Section MSB.
  Variables w p : Z.
  Hypothesis Hw : 1 <= w.
  Hypothesis Hp : 0 <= p < 2 ^ w.

  Lemma pow_w_pos : 0 < 2 ^ w.
  Proof. apply Z.pow_pos_nonneg; lia. Qed.

  Lemma mstep_range s b : 0 <= mstep w p s b < 2 ^ w.
  Proof.
    apply lxor_range; [lia| |].
    - apply Z.mod_pos_bound. apply pow_w_pos.
    - pose proof pow_w_pos. destruct (xorb _ b); lia.
  Qed.

  Lemma mrun_range s bs : 0 <= s < 2 ^ w -> 0 <= mrun w p s bs < 2 ^ w.
  Proof.
    revert s. induction bs as [|b bs IH]; intros s Hs; cbn [mrun fold_left]; auto.
    apply IH. apply mstep_range.
  Qed.

  Lemma mstep_split s b : 0 <= s < 2 ^ w ->
    Z.lxor (2 * s) (Z.b2z b * 2 ^ w) =
    Z.lxor (mstep w p s b) (if xorb (Z.testbit s (w - 1)) b then 2 ^ w + p else 0).
  Proof.
    intros Hs. unfold mstep. rewrite Z.lxor_assoc.
    apply Z.bits_inj'. intros i Hi. rewrite !Z.lxor_spec, mod_pow2_testbit by lia.
    rewrite mul_pow2_bits by lia.
    assert (B : Z.testbit (Z.b2z b) (i - w) = (i =? w) && b).
    { destruct (Z.eqb_spec i w) as [->|N]; cbn [andb].
      - rewrite Z.sub_diag. destruct b; reflexivity.
      - destruct (Z_lt_le_dec i w); [apply Z.testbit_neg_r; lia|].
        destruct b; [|apply Z.bits_0]. apply (testbit_above 1); [cbn; lia|lia]. }
    rewrite B. clear B.
    assert (D : Z.testbit (2 * s) i = (0 <? i) && Z.testbit s (i - 1)) by (apply dbl_bits; auto).
    destruct (Z.ltb_spec i w) as [L|G]; cbn [andb].
    - destruct (Z.eqb_spec i w); [lia|]. cbn [andb].
      replace (w <=? i) with false by (symmetry; apply Z.leb_gt; lia). cbn [andb]. rewrite xorb_false_r.
      destruct (xorb (Z.testbit s (w - 1)) b).
      + rewrite gen_bits by lia. replace (i <? w) with true by (symmetry; apply Z.ltb_lt; lia).
        rewrite xorb_nilpotent, xorb_false_r. auto.
      + rewrite !Z.bits_0. cbn. rewrite xorb_false_r. auto.
    - replace (w <=? i) with true by (symmetry; apply Z.leb_le; lia). cbn [andb]. rewrite xorb_false_l.
      destruct (Z.eqb_spec i w) as [->|N].
      + rewrite D. replace (0 <? w) with true by (symmetry; apply Z.ltb_lt; lia). cbn [andb].
        destruct (Z.testbit s (w - 1)), b; cbn [xorb]; rewrite ?Z.bits_0; auto;
          rewrite (testbit_above w p) by lia; rewrite gen_bits by lia;
          destruct (Z.ltb_spec w w); try lia; rewrite Z.eqb_refl; auto.
      + rewrite D. rewrite (testbit_above w s) by lia. rewrite andb_false_r.
        destruct (xorb (Z.testbit s (w - 1)) b); [|rewrite !Z.bits_0; auto].
        rewrite (testbit_above w p), gen_bits by lia. destruct (Z.ltb_spec i w); [lia|].
        destruct (Z.eqb_spec i w); [lia|auto].
  Qed.

  (** The remainder invariant. *)
  Lemma mrun_rem init bs : 0 <= init < 2 ^ w ->
    is_crc w p init bs (mrun w p init bs).
  Proof.
    intros Hi. unfold is_crc, is_rem. split; [apply mrun_range; auto|].
    induction bs as [|b bs IH] using rev_ind.
    - exists []. cbn. rewrite Z.mul_1_r. apply Z.lxor_nilpotent.
    - destruct IH as [q Hq]. unfold mrun in *. rewrite fold_left_app. cbn [fold_left].
      set (s := fold_left (mstep w p) bs init) in *.
      assert (Hs : 0 <= s < 2 ^ w) by (apply mrun_range; auto).
      exists (xorb (Z.testbit s (w - 1)) b :: q). cbn [pmul]. rewrite <- Hq.
      assert (E1 : stream_poly (bs ++ [b]) = Z.lxor (2 * stream_poly bs) (Z.b2z b)).
      { unfold stream_poly. rewrite fold_left_app. cbn [fold_left].
        set (m := fold_left _ bs 0). destruct b; cbn [Z.b2z].
        - apply Z.add_nocarry_lxor. apply Z.bits_inj'. intros i Hi'. rewrite Z.land_spec, Z.bits_0, dbl_bits by auto.
          destruct (Z.ltb_spec 0 i); [|auto]. rewrite (testbit_above 1 1); [apply andb_false_r|cbn; lia|lia].
        - rewrite Z.lxor_0_r. lia. }
      assert (E2 : zlen (bs ++ [b]) = zlen bs + 1) by (unfold zlen; rewrite app_length; cbn [length]; lia).
      pose proof (zlen_nonneg bs). rewrite E1, E2, Z.pow_add_r by lia.
      rewrite mul_pow2_lxor by lia.
      pose proof (mstep_split s b Hs) as Sp.
      rewrite !dbl_lxor.
      replace (init * (2 ^ zlen bs * 2 ^ 1)) with (2 * (init * 2 ^ zlen bs)) by (change (2 ^ 1) with 2; ring).
      replace (2 * stream_poly bs * 2 ^ w) with (2 * (stream_poly bs * 2 ^ w)) by ring.
      set (A := 2 * (stream_poly bs * 2 ^ w)) in *. set (B := 2 * (init * 2 ^ zlen bs)) in *.
      set (T := if xorb _ b then _ else 0) in *. set (S' := mstep w p s b) in *. set (Bw := Z.b2z b * 2 ^ w) in *.
      replace T with (Z.lxor (Z.lxor (2 * s) Bw) S').
      2:{ rewrite Sp. rewrite (Z.lxor_comm S' T), Z.lxor_assoc, Z.lxor_nilpotent, Z.lxor_0_r. auto. }
      apply Z.bits_inj'. intros i Hi'. rewrite !Z.lxor_spec.
      destruct (Z.testbit A i), (Z.testbit B i), (Z.testbit S' i), (Z.testbit Bw i), (Z.testbit (2 * s) i); reflexivity.
  Qed.

  (** Linearity. *)
  Lemma mod_lxor a b : Z.lxor a b mod 2 ^ w = Z.lxor (a mod 2 ^ w) (b mod 2 ^ w).
  Proof.
    apply Z.bits_inj'. intros i Hi. rewrite Z.lxor_spec, !mod_pow2_testbit, Z.lxor_spec by lia.
    destruct (i <? w); auto.
  Qed.

  Lemma mstep_lin s t a b : mstep w p (Z.lxor s t) (xorb a b) = Z.lxor (mstep w p s a) (mstep w p t b).
  Proof.
    unfold mstep. rewrite dbl_lxor, mod_lxor, Z.lxor_spec.
    rewrite lxor_swap, if_lxor. f_equal.
    destruct (Z.testbit s (w - 1)), (Z.testbit t (w - 1)), a, b; auto.
  Qed.

  Lemma mrun_lin : forall a b s t, length a = length b ->
    mrun w p (Z.lxor s t) (xorl a b) = Z.lxor (mrun w p s a) (mrun w p t b).
  Proof.
    induction a as [|x a IH]; intros [|y b] s t L; cbn in L; try discriminate; cbn [xorl mrun fold_left]; auto.
    rewrite mstep_lin. apply IH. lia.
  Qed.



  Hypothesis Podd : Z.testbit p 0 = true.

  (** A register that steps to a word with a clear lowest bit had no feedback. *)
  Lemma mstep_inv s b : 0 <= s < 2 ^ w -> Z.testbit (mstep w p s b) 0 = false ->
    Z.testbit s (w - 1) = b /\ mstep w p s b = (2 * s) mod 2 ^ w.
  Proof.
    intros Hs B. unfold mstep in *. rewrite Z.lxor_spec, mod_pow2_testbit, dbl_bits in B by lia.
    cbn [Z.ltb] in B. replace (0 <? 0) with false in B by reflexivity. cbn [andb] in B. rewrite andb_false_r, xorb_false_l in B.
    destruct (xorb (Z.testbit s (w - 1)) b) eqn:E; [congruence|].
    apply xorb_eq in E. rewrite Z.lxor_0_r. auto.
  Qed.

  Lemma double_mod s : 0 <= s < 2 ^ w -> (2 * s) mod 2 ^ w = 2 * s - Z.b2z (Z.testbit s (w - 1)) * 2 ^ w.
  Proof.
    intros Hs. assert (E : 2 ^ w = 2 * 2 ^ (w - 1)) by (rewrite <- Z.pow_succ_r by lia; f_equal; lia).
    assert (P1 : 0 < 2 ^ (w - 1)) by (apply Z.pow_pos_nonneg; lia).
    destruct (Z.testbit s (w - 1)) eqn:B; cbn [Z.b2z].
    - assert (2 ^ (w - 1) <= s).
      { destruct (Z_lt_le_dec s (2 ^ (w - 1))); auto. rewrite (testbit_above (w - 1)) in B by lia. discriminate. }
      symmetry. apply Z.mod_unique with 1; lia.
    - assert (s < 2 ^ (w - 1)).
      { apply testbit_lt_pow2; try lia. intros i Hi. destruct (Z.eq_dec i (w - 1)) as [->|]; auto.
        apply (testbit_above w); lia. }
      rewrite Z.mod_small; lia.
  Qed.


  (** The only register that a short stream clears is the one holding that stream in its top bits. *)
  Lemma mrun_clears bs : forall s, 0 <= s < 2 ^ w -> zlen bs <= w -> mrun w p s bs = 0 ->
    s = stream_poly bs * 2 ^ (w - zlen bs).
  Proof.
    induction bs as [|b bs IH]; intros s Hs Hl H.
    - cbn in *. subst. auto.
    - replace (zlen (b :: bs)) with (zlen bs + 1) in * by (unfold zlen; cbn [length]; lia).
      pose proof (zlen_nonneg bs) as Lb. cbn [mrun fold_left] in H.
      specialize (IH (mstep w p s b) (mstep_range s b) ltac:(lia) H).
      assert (B0 : Z.testbit (mstep w p s b) 0 = false).
      { rewrite IH, mul_pow2_bits by lia. destruct (Z.leb_spec (w - zlen bs) 0); [lia|auto]. }
      destruct (mstep_inv s b Hs B0) as [M1 M2]. rewrite M2, double_mod in IH by auto. rewrite M1 in IH.
      rewrite stream_cons. replace (w - zlen bs) with (1 + (w - (zlen bs + 1))) in IH by lia.
      rewrite Z.pow_add_r in IH by lia. change (2 ^ 1) with 2 in IH.
      assert (E : 2 ^ w = 2 * (2 ^ zlen bs * 2 ^ (w - (zlen bs + 1)))).
      { rewrite <- Z.pow_add_r, <- Z.pow_succ_r by lia. f_equal. lia. }
      rewrite E in IH. lia.
  Qed.

  Lemma mrun_zero_inj s n : 0 <= s < 2 ^ w -> mrun w p s (repeat false n) = 0 -> s = 0.
  Proof.
    revert s. induction n as [|n IH]; intros s Hs H; cbn in H; auto.
    apply IH in H; [|apply mstep_range].
    assert (B : mrun w p s [false] = 0) by exact H.
    apply mrun_clears in B; auto.
  Qed.


  (** Bursts are detected. *)
  Lemma mrun_app s a b : mrun w p s (a ++ b) = mrun w p (mrun w p s a) b.
  Proof. apply fold_left_app. Qed.

  Lemma mrun_burst init a b : 0 <= init < 2 ^ w -> burst (Z.to_nat w) a b ->
    mrun w p init a <> mrun w p init b.
  Proof.
    intros Hi (pre & x & y & post & -> & -> & Lxy & Lw & N) E. apply N. clear N.
    rewrite !mrun_app in E. set (s := mrun w p init pre) in *.
    assert (Hs : 0 <= s < 2 ^ w) by (apply mrun_range; auto).
    pose proof (mrun_lin post post (mrun w p s x) (mrun w p s y) eq_refl) as L1.
    rewrite E, Z.lxor_nilpotent, xorl_self in L1. apply mrun_zero_inj in L1.
    2:{ apply lxor_range; try lia; apply mrun_range; auto. }
    rewrite <- mrun_lin in L1 by auto. rewrite Z.lxor_nilpotent in L1.
    assert (Lx : length (xorl x y) = length x).
    { clear - Lxy. revert y Lxy. induction x as [|a x IH]; intros [|b y] L; cbn in *; try discriminate; auto. }
    assert (Hl : zlen (xorl x y) <= w) by (unfold zlen; rewrite Lx; lia).
    pose proof pow_w_pos.
    apply mrun_clears in L1; auto; [|lia].
    assert (0 < 2 ^ (w - zlen (xorl x y))) by (apply Z.pow_pos_nonneg; lia).
    assert (S0 : stream_poly (xorl x y) = 0) by nia.
    apply stream_zero in S0. rewrite Lx in S0. apply xorl_false; auto.
  Qed.
End MSB.

(** ** One byte at a time, most significant bit first *)


Section MSBytes.
  Variables w p : Z.
  Hypothesis Hw : 8 <= w.
  Hypothesis Hp : 0 <= p < 2 ^ w.
  Let run0 s n := mrun w p s (repeat false n).

  (** Words whose top bits are clear are only shifted. *)
  Lemma mstep_shift x y : 0 <= y < 2 ^ (w - 1) -> mstep w p (Z.lxor x y) false = Z.lxor (mstep w p x false) (2 * y).
  Proof.
    intros Hy. replace false with (xorb false false) at 1 by auto. rewrite mstep_lin by lia. f_equal.
    assert (E : 2 ^ w = 2 * 2 ^ (w - 1)) by (rewrite <- Z.pow_succ_r by lia; f_equal; lia).
    unfold mstep. rewrite (testbit_above (w - 1) y) by lia. cbn [xorb]. rewrite Z.lxor_0_r. apply Z.mod_small. lia.
  Qed.

  Lemma run0_shift n : forall x y, 0 <= y < 2 ^ (w - Z.of_nat n) -> Z.of_nat n <= w ->
    run0 (Z.lxor x y) n = Z.lxor (run0 x n) (y * 2 ^ Z.of_nat n).
  Proof.
    unfold run0. induction n as [|n IH]; intros x y Hy Hn.
    - cbn. rewrite Z.mul_1_r. auto.
    - cbn [repeat mrun fold_left]. rewrite mstep_shift.
      + change (fold_left (mstep w p) ?l ?s) with (mrun w p s l). rewrite IH.
        * f_equal. rewrite Nat2Z.inj_succ, Z.pow_succ_r by lia. lia.
        * replace (w - Z.of_nat n) with (1 + (w - Z.of_nat (S n))) by lia. rewrite Z.pow_add_r by lia.
          change (2 ^ 1) with 2. lia.
        * lia.
      + split; [lia|]. apply Z.lt_le_trans with (2 ^ (w - Z.of_nat (S n))); [lia|].
        apply Z.pow_le_mono_r; lia.
  Qed.

  (** Feeding bits is the same as adding them to the top of the register. *)
  Lemma mstep_feed s b : mstep w p s b = mstep w p (Z.lxor s (Z.b2z b * 2 ^ (w - 1))) false.
  Proof.
    unfold mstep. rewrite Z.lxor_spec, xorb_false_r, mul_pow2_bits, Z.sub_diag by lia.
    rewrite Z.leb_refl. cbn [andb]. replace (Z.testbit (Z.b2z b) 0) with b by (destruct b; auto).
    f_equal. rewrite dbl_lxor, (mod_lxor w) by lia.
    replace (2 * (Z.b2z b * 2 ^ (w - 1))) with (Z.b2z b * 2 ^ w).
    2:{ replace w with (1 + (w - 1)) at 1 by lia. rewrite Z.pow_add_r by lia. ring. }
    rewrite Z.mod_mul by (assert (0 < 2 ^ w) by (apply Z.pow_pos_nonneg; lia); lia).
    rewrite Z.lxor_0_r. auto.
  Qed.


  Lemma mrun_feed bs : forall s, zlen bs <= w ->
    mrun w p s bs = run0 (Z.lxor s (stream_poly bs * 2 ^ (w - zlen bs))) (length bs).
  Proof.
    unfold run0. induction bs as [|b bs IH]; intros s Hl.
    - cbn. rewrite Z.lxor_0_r. auto.
    - replace (zlen (b :: bs)) with (zlen bs + 1) in * by (unfold zlen; cbn [length]; lia).
      pose proof (zlen_nonneg bs). cbn [mrun fold_left length repeat].
      change (fold_left (mstep w p) ?l ?s) with (mrun w p s l).
      rewrite IH by lia. f_equal. rewrite mstep_feed, stream_cons.
      pose proof (stream_bound bs) as SB.
      replace ((Z.b2z b * 2 ^ zlen bs + stream_poly bs) * 2 ^ (w - (zlen bs + 1)))
        with (Z.lxor (Z.b2z b * 2 ^ (w - 1)) (stream_poly bs * 2 ^ (w - (zlen bs + 1)))).
      + rewrite <- Z.lxor_assoc. rewrite (mstep_shift _ (stream_poly bs * 2 ^ (w - (zlen bs + 1)))).
        * f_equal. replace (w - zlen bs) with (1 + (w - (zlen bs + 1))) by lia. rewrite Z.pow_add_r by lia.
          change (2 ^ 1) with 2. ring.
        * replace (w - 1) with (zlen bs + (w - (zlen bs + 1))) by lia. rewrite Z.pow_add_r by lia.
          assert (0 < 2 ^ (w - (zlen bs + 1))) by (apply Z.pow_pos_nonneg; lia). nia.
      + rewrite <- Z.add_nocarry_lxor.
        * rewrite Z.mul_add_distr_r. f_equal. rewrite <- Z.mul_assoc, <- Z.pow_add_r by lia. f_equal. f_equal. lia.
        * apply Z.bits_inj'. intros i Hi. rewrite Z.land_spec, Z.bits_0, !mul_pow2_bits by lia.
          destruct (Z.leb_spec (w - 1) i); [|auto]. cbn [andb].
          rewrite (testbit_above (zlen bs) (stream_poly bs)) by lia. rewrite !andb_false_r. auto.
  Qed.


  (** The table entry for a top byte. *)
  Variable tab : list Z.
  Hypothesis Htab : forall i, 0 <= i < 256 -> znth tab i = Some (run0 (i * 2 ^ (w - 8)) 8).

  Lemma msb_byte s b : 0 <= s < 2 ^ w -> byte b ->
    exists t, znth tab (Z.land (Z.lxor (Z.shiftr s (w - 8)) b) 0xff) = Some t /\
      mrun w p s (byte_bits b) = Z.lxor ((s * 2 ^ 8) mod 2 ^ w) t.
  Proof.
    intros Hs Hb. unfold byte in Hb.
    rewrite mrun_feed by (cbn; lia). rewrite byte_stream by auto.
    change (length (byte_bits b)) with 8%nat. change (zlen (byte_bits b)) with 8.
    set (i := Z.lxor (Z.shiftr s (w - 8)) b).
    assert (Hi : 0 <= i < 2 ^ 8).
    { apply lxor_range; try lia. rewrite Z.shiftr_div_pow2 by lia.
      assert (0 < 2 ^ (w - 8)) by (apply Z.pow_pos_nonneg; lia). split; [apply Z.div_pos; lia|].
      apply Z.div_lt_upper_bound; try lia. rewrite <- Z.pow_add_r by lia. replace (w - 8 + 8) with w by lia. lia. }
    assert (E255 : Z.land i 0xff = i).
    { change 0xff with (Z.ones 8). rewrite Z.land_ones by lia. apply Z.mod_small; auto. }
    rewrite E255. exists (run0 (i * 2 ^ (w - 8)) 8). split; [apply Htab; change (2 ^ 8) with 256 in Hi; auto|].
    rewrite (Z.lxor_comm ((s * 2 ^ 8) mod 2 ^ w)).
    assert (E : Z.lxor s (b * 2 ^ (w - 8)) = Z.lxor (i * 2 ^ (w - 8)) (s mod 2 ^ (w - 8))).
    { unfold i. rewrite mul_pow2_lxor by lia. rewrite Z.lxor_assoc, (Z.lxor_comm (b * _)), <- Z.lxor_assoc.
      f_equal. apply Z.bits_inj'. intros j Hj.
      rewrite Z.lxor_spec, mul_pow2_bits, mod_pow2_testbit, Z.shiftr_div_pow2 by lia.
      destruct (Z.leb_spec (w - 8) j), (Z.ltb_spec j (w - 8)); try lia; cbn [andb].
      - rewrite Z.div_pow2_bits by lia. replace (j - (w - 8) + (w - 8)) with j by lia. rewrite xorb_false_r. auto.
      - rewrite xorb_false_l. auto. }
    rewrite E. assert (P8 : 0 < 2 ^ (w - 8)) by (apply Z.pow_pos_nonneg; lia).
    rewrite run0_shift; [|change (Z.of_nat 8) with 8; apply Z.mod_pos_bound; auto|cbn; lia].
    f_equal. change (Z.of_nat 8) with 8.
    replace (2 ^ w) with (2 ^ (w - 8) * 2 ^ 8) by (rewrite <- Z.pow_add_r by lia; f_equal; lia).
    rewrite Z.mul_mod_distr_r by lia. auto.
  Qed.
End MSBytes.

(** ** Reflection *)

Lemma stream_bits bs i : 0 <= i < zlen bs ->
  Z.testbit (stream_poly bs) i = nth (length bs - 1 - Z.to_nat i) bs false.
Proof.
  revert i. induction bs as [|b bs IH]; intros i Hi; [cbn in Hi; lia|].
  rewrite stream_cons. replace (zlen (b :: bs)) with (zlen bs + 1) in Hi by (unfold zlen; cbn [length]; lia).
  pose proof (stream_bound bs) as SB. pose proof (zlen_nonneg bs).
  assert (E : Z.b2z b * 2 ^ zlen bs + stream_poly bs = Z.lor (Z.b2z b * 2 ^ zlen bs) (stream_poly bs)).
  { rewrite <- Z.lxor_lor. 1: apply Z.add_nocarry_lxor.
    all: apply Z.bits_inj'; intros j Hj; rewrite Z.land_spec, Z.bits_0, mul_pow2_bits by lia;
      destruct (Z.leb_spec (zlen bs) j); auto; rewrite (testbit_above (zlen bs) (stream_poly bs)) by lia; apply andb_false_r. }
  rewrite E, Z.lor_spec, mul_pow2_bits by lia. unfold zlen in *. cbn [length].
  destruct (Z.leb_spec (Z.of_nat (length bs)) i).
  - replace i with (Z.of_nat (length bs)) by lia. rewrite Z.sub_diag, Nat2Z.id.
    replace (S (length bs) - 1 - length bs)%nat with 0%nat by lia. cbn [nth].
    rewrite (testbit_above (Z.of_nat (length bs)) (stream_poly bs)) by lia. destruct b; auto.
  - cbn [andb orb]. rewrite IH by lia.
    replace (S (length bs) - 1 - Z.to_nat i)%nat with (S (length bs - 1 - Z.to_nat i)) by lia. auto.
Qed.

Lemma low_first_len n q : zlen (low_first n q) = Z.of_nat n.
Proof. unfold zlen, low_first. rewrite map_length, seq_length. auto. Qed.

Lemma low_first_nth n q k : (k < n)%nat -> nth k (low_first n q) false = Z.testbit q (Z.of_nat k).
Proof.
  intros. unfold low_first. apply nth_error_nth. rewrite nth_error_map.
  rewrite (nth_error_nth' _ 0%nat) by (rewrite seq_length; auto). rewrite seq_nth by auto. auto.
Qed.

Lemma reflect_bits w r i : 0 <= i ->
  Z.testbit (reflect w r) i = (i <? Z.of_nat w) && Z.testbit r (Z.of_nat w - 1 - i).
Proof.
  intros Hi. change (reflect w r) with (stream_poly (low_first w r)).
  pose proof (stream_bound (low_first w r)) as SB. rewrite low_first_len in SB.
  destruct (Z.ltb_spec i (Z.of_nat w)); cbn [andb].
  - rewrite stream_bits by (rewrite low_first_len; lia).
    replace (length (low_first w r)) with w by (unfold low_first; rewrite map_length, seq_length; auto).
    rewrite low_first_nth by lia. f_equal. lia.
  - apply (testbit_above (Z.of_nat w)); auto.
Qed.

Lemma reflect_range w r : 0 <= reflect w r < 2 ^ Z.of_nat w.
Proof.
  change (reflect w r) with (stream_poly (low_first w r)).
  rewrite <- (low_first_len w r). apply stream_bound.
Qed.

Lemma reflect_invol w r : 0 <= r < 2 ^ Z.of_nat w -> reflect w (reflect w r) = r.
Proof.
  intros Hr. apply Z.bits_inj'. intros i Hi. rewrite reflect_bits by auto.
  destruct (Z.ltb_spec i (Z.of_nat w)); cbn [andb].
  - rewrite reflect_bits by lia. replace (Z.of_nat w - 1 - i <? Z.of_nat w) with true by (symmetry; apply Z.ltb_lt; lia).
    cbn [andb]. f_equal. lia.
  - symmetry. apply (testbit_above (Z.of_nat w)); auto.
Qed.

Lemma reflect_inj w a b : 0 <= a < 2 ^ Z.of_nat w -> 0 <= b < 2 ^ Z.of_nat w -> reflect w a = reflect w b -> a = b.
Proof. intros Ha Hb E. rewrite <- (reflect_invol w a), <- (reflect_invol w b) by auto. rewrite E. auto. Qed.

(** ** The register of a reflected CRC *)

Definition rstep (p' s : Z) (b : bool) : Z :=
  Z.lxor (s / 2) (if xorb (Z.testbit s 0) b then p' else 0).
Definition rrun (p' s : Z) (bs : list bool) : Z := fold_left (rstep p') bs s.

Lemma half_bits a i : 0 <= i -> Z.testbit (a / 2) i = Z.testbit a (i + 1).
Proof. intros. change 2 with (2 ^ 1). rewrite Z.div_pow2_bits by lia. auto. Qed.

Lemma reflect_step w p s b : (1 <= w)%nat -> 0 <= p < 2 ^ Z.of_nat w -> 0 <= s < 2 ^ Z.of_nat w ->
  reflect w (mstep (Z.of_nat w) p s b) = rstep (reflect w p) (reflect w s) b.
Proof.
  intros Hw Hp Hs. apply Z.bits_inj'. intros i Hi. unfold mstep, rstep.
  rewrite reflect_bits, Z.lxor_spec by auto.
  rewrite (Z.lxor_spec (reflect w s / 2)), half_bits, reflect_bits by lia.
  rewrite (reflect_bits w s 0) by lia. rewrite Z.sub_0_r.
  replace (0 <? Z.of_nat w) with true by (symmetry; apply Z.ltb_lt; lia). cbn [andb].
  destruct (Z.ltb_spec i (Z.of_nat w)) as [L|G]; cbn [andb].
  - rewrite mod_pow2_testbit, dbl_bits by lia.
    replace (Z.of_nat w - 1 - i <? Z.of_nat w) with true by (symmetry; apply Z.ltb_lt; lia). cbn [andb].
    f_equal.
    + destruct (Z.ltb_spec 0 (Z.of_nat w - 1 - i)), (Z.ltb_spec (i + 1) (Z.of_nat w)); try lia; cbn [andb]; auto.
      f_equal. lia.
    + destruct (xorb _ b); [|rewrite !Z.bits_0; auto]. rewrite reflect_bits by auto.
      replace (i <? Z.of_nat w) with true by (symmetry; apply Z.ltb_lt; lia). auto.
  - replace (i + 1 <? Z.of_nat w) with false by (symmetry; apply Z.ltb_ge; lia). cbn [andb]. rewrite xorb_false_l.
    destruct (xorb _ b); [|rewrite !Z.bits_0; auto]. rewrite reflect_bits by auto.
    replace (i <? Z.of_nat w) with false by (symmetry; apply Z.ltb_ge; lia). auto.
Qed.

Lemma reflect_run w p : (1 <= w)%nat -> 0 <= p < 2 ^ Z.of_nat w -> forall bs s, 0 <= s < 2 ^ Z.of_nat w ->
  reflect w (mrun (Z.of_nat w) p s bs) = rrun (reflect w p) (reflect w s) bs.
Proof.
  intros Hw Hp. induction bs as [|b bs IH]; intros s Hs; [auto|].
  cbn [mrun rrun fold_left]. rewrite <- reflect_step by auto. apply IH. apply mstep_range; auto. lia.
Qed.

(** ** One byte at a time, least significant bit first *)

Definition byte_lbits (b : Z) : list bool := map (Z.testbit b) [0; 1; 2; 3; 4; 5; 6; 7].
Definition lsb_val (bs : list bool) : Z := fold_right (fun b a => Z.lxor (Z.b2z b) (2 * a)) 0 bs.

Lemma rstep_shift p' x y b : rstep p' (Z.lxor x (2 * y)) b = Z.lxor (rstep p' x b) y.
Proof.
  unfold rstep. rewrite Z.lxor_spec, (dbl_bits y 0) by lia. cbn [Z.ltb andb].
  replace (0 <? 0) with false by auto. cbn [andb]. rewrite xorb_false_r.
  replace (Z.lxor x (2 * y) / 2) with (Z.lxor (x / 2) y).
  - rewrite !Z.lxor_assoc. f_equal. apply Z.lxor_comm.
  - apply Z.bits_inj'. intros i Hi. rewrite half_bits, !Z.lxor_spec, half_bits, dbl_bits by lia.
    replace (0 <? i + 1) with true by (symmetry; apply Z.ltb_lt; lia). cbn [andb]. f_equal. f_equal. lia.
Qed.

Lemma rstep_feed p' s b : rstep p' s b = rstep p' (Z.lxor s (Z.b2z b)) false.
Proof.
  unfold rstep. rewrite Z.lxor_spec, xorb_false_r.
  replace (Z.testbit (Z.b2z b) 0) with b by (destruct b; auto). f_equal.
  apply Z.bits_inj'. intros i Hi. rewrite !half_bits, Z.lxor_spec by auto.
  replace (Z.testbit (Z.b2z b) (i + 1)) with false; [rewrite xorb_false_r; auto|].
  symmetry. apply (testbit_above 1); destruct b; cbn; lia.
Qed.

Lemma rrun_feed p' bs : forall s, rrun p' s bs = rrun p' (Z.lxor s (lsb_val bs)) (repeat false (length bs)).
Proof.
  induction bs as [|b bs IH]; intros s; [cbn; rewrite Z.lxor_0_r; auto|].
  cbn [rrun fold_left length repeat]. change (fold_left (rstep p') ?l ?s) with (rrun p' s l).
  rewrite IH. f_equal. cbn [lsb_val fold_right]. fold (lsb_val bs).
  rewrite <- Z.lxor_assoc, rstep_shift, <- rstep_feed. auto.
Qed.

Lemma rrun_shift p' n : forall x y, rrun p' (Z.lxor x (y * 2 ^ Z.of_nat n)) (repeat false n) =
  Z.lxor (rrun p' x (repeat false n)) y.
Proof.
  induction n as [|n IH]; intros x y; [cbn; rewrite Z.mul_1_r; auto|].
  cbn [rrun fold_left repeat]. rewrite Nat2Z.inj_succ, Z.pow_succ_r by lia.
  replace (y * (2 * 2 ^ Z.of_nat n)) with (2 * (y * 2 ^ Z.of_nat n)) by ring. rewrite rstep_shift. apply IH.
Qed.

Lemma byte_lval b : byte b -> lsb_val (byte_lbits b) = b.
Proof.
  intros Hb. unfold byte in Hb.
  assert (C : forallb (fun n => lsb_val (byte_lbits (Z.of_nat n)) =? Z.of_nat n) (seq 0 256) = true) by (vm_compute; reflexivity).
  rewrite forallb_forall in C. specialize (C (Z.to_nat b)). rewrite Z2Nat.id in C by lia.
  apply Z.eqb_eq. apply C. apply in_seq. change (2 ^ 8) with 256 in Hb. lia.
Qed.

Lemma lsb_byte p' tab s b : (forall i, 0 <= i < 256 -> znth tab i = Some (rrun p' i (repeat false 8))) ->
  byte b -> exists t, znth tab (Z.land (Z.lxor s b) 0xff) = Some t /\
    rrun p' s (byte_lbits b) = Z.lxor t (Z.shiftr s 8).
Proof.
  intros Htab Hb. rewrite rrun_feed, byte_lval by auto. change (length (byte_lbits b)) with 8%nat.
  set (x := Z.lxor s b). change 0xff with (Z.ones 8). rewrite Z.land_ones by lia.
  exists (rrun p' (x mod 2 ^ 8) (repeat false 8)). split.
  - apply Htab. change 256 with (2 ^ 8). apply Z.mod_pos_bound. lia.
  - assert (E : x = Z.lxor (x mod 2 ^ 8) ((Z.shiftr s 8) * 2 ^ Z.of_nat 8)).
    { change (Z.of_nat 8) with 8. apply Z.bits_inj'. intros i Hi.
      rewrite Z.lxor_spec, mod_pow2_testbit, mul_pow2_bits by lia.
      destruct (Z.ltb_spec i 8), (Z.leb_spec 8 i); try lia; cbn [andb].
      - rewrite xorb_false_r. auto.
      - rewrite xorb_false_l, Z.shiftr_spec by lia. replace (i - 8 + 8) with i by lia. unfold x. rewrite Z.lxor_spec.
        rewrite (testbit_above 8 b) by (unfold byte in Hb; lia). apply xorb_false_r. }
    rewrite E at 1. apply rrun_shift.
Qed.

(** ** Tables *)

Definition msb_table_ok (w p : Z) (tab : list Z) : bool :=
  forallb (fun n => match znth tab (Z.of_nat n) with
                    | Some t => t =? mrun w p (Z.of_nat n * 2 ^ (w - 8)) (repeat false 8)
                    | None => false end) (seq 0 256).
Definition lsb_table_ok (p' : Z) (tab : list Z) : bool :=
  forallb (fun n => match znth tab (Z.of_nat n) with
                    | Some t => t =? rrun p' (Z.of_nat n) (repeat false 8)
                    | None => false end) (seq 0 256).

Lemma msb_table w p tab : msb_table_ok w p tab = true -> forall i, 0 <= i < 256 ->
  znth tab i = Some (mrun w p (i * 2 ^ (w - 8)) (repeat false 8)).
Proof.
  unfold msb_table_ok. rewrite forallb_forall. intros H i Hi. specialize (H (Z.to_nat i)).
  rewrite Z2Nat.id in H by lia. assert (I : In (Z.to_nat i) (seq 0 256)) by (apply in_seq; lia).
  specialize (H I). destruct (znth tab i); [|discriminate]. apply Z.eqb_eq in H. congruence.
Qed.

Lemma lsb_table p' tab : lsb_table_ok p' tab = true -> forall i, 0 <= i < 256 ->
  znth tab i = Some (rrun p' i (repeat false 8)).
Proof.
  unfold lsb_table_ok. rewrite forallb_forall. intros H i Hi. specialize (H (Z.to_nat i)).
  rewrite Z2Nat.id in H by lia. assert (I : In (Z.to_nat i) (seq 0 256)) by (apply in_seq; lia).
  specialize (H I). destruct (znth tab i); [|discriminate]. apply Z.eqb_eq in H. congruence.
Qed.

Lemma crc32_tab_ok : msb_table_ok 32 0x04C11DB7 crctab = true.
Proof. vm_compute. reflexivity. Qed.
Lemma t10_tab_ok : msb_table_ok 16 0x8BB7 t10_dif_crc_table = true.
Proof. vm_compute. reflexivity. Qed.
Lemma crc16_tab_ok : lsb_table_ok (reflect 16 0x8005) crc16_table = true.
Proof. vm_compute. reflexivity. Qed.
Lemma crc32c_tab_ok : lsb_table_ok (reflect 32 0x1EDC6F41) crc32c_table = true.
Proof. vm_compute. reflexivity. Qed.
Lemma crc64_tab_ok : lsb_table_ok (reflect 64 0xad93d23594c935a9) crctab64 = true.
Proof. vm_compute. reflexivity. Qed.
Lemma nvme_tab_ok : lsb_table_ok (reflect 64 0xad93d23594c93659) crc64nvmetable = true.
Proof. vm_compute. reflexivity. Qed.

Lemma crc7_tab_ok s b : 0 <= s < 2 ^ 7 -> byte b ->
  znth crc7_syndrome_table (Z.lxor (Z.shiftl s 1) b) = Some (mrun 7 9 s (byte_bits b)).
Proof.
  intros Hs Hb. unfold byte in Hb.
  assert (C : forallb (fun n => forallb (fun m =>
    match znth crc7_syndrome_table (Z.lxor (Z.shiftl (Z.of_nat n) 1) (Z.of_nat m)) with
    | Some t => t =? mrun 7 9 (Z.of_nat n) (byte_bits (Z.of_nat m)) | None => false end) (seq 0 256)) (seq 0 128) = true)
    by (vm_compute; reflexivity).
  rewrite forallb_forall in C. specialize (C (Z.to_nat s)). rewrite Z2Nat.id in C by lia.
  assert (I : In (Z.to_nat s) (seq 0 128)) by (apply in_seq; change (2 ^ 7) with 128 in Hs; lia).
  specialize (C I). rewrite forallb_forall in C. specialize (C (Z.to_nat b)). rewrite Z2Nat.id in C by lia.
  assert (J : In (Z.to_nat b) (seq 0 256)) by (apply in_seq; change (2 ^ 8) with 256 in Hb; lia).
  specialize (C J). destruct (znth _ _); [|discriminate]. apply Z.eqb_eq in C. congruence.
Qed.

(** ** Whole buffers *)

Lemma loop_msb w p f : 1 <= w -> 0 <= p < 2 ^ w ->
  (forall s b, 0 <= s < 2 ^ w -> byte b -> f s b = Some (mrun w p s (byte_bits b))) ->
  forall buf s, bytes buf -> 0 <= s < 2 ^ w -> bytes_loop f s buf = Some (mrun w p s (msb_first buf)).
Proof.
  intros Hw Hp Hf. induction buf as [|b buf IH]; intros s Hb Hs; [auto|].
  inversion Hb; subst. cbn [bytes_loop]. rewrite Hf by auto.
  rewrite IH by (auto; apply mrun_range; auto).
  change (msb_first (b :: buf)) with (byte_bits b ++ msb_first buf). rewrite mrun_app. auto.
Qed.

Lemma rrun_app p' s a b : rrun p' s (a ++ b) = rrun p' (rrun p' s a) b.
Proof. apply fold_left_app. Qed.

Lemma rrun_range w p bs s : (1 <= w)%nat -> 0 <= p < 2 ^ Z.of_nat w -> 0 <= s < 2 ^ Z.of_nat w ->
  0 <= rrun (reflect w p) s bs < 2 ^ Z.of_nat w.
Proof.
  intros Hw Hp Hs. rewrite <- (reflect_invol w s) by auto. rewrite <- reflect_run; auto; try apply reflect_range.
Qed.

Lemma loop_lsb w p f : (1 <= w)%nat -> 0 <= p < 2 ^ Z.of_nat w ->
  (forall s b, 0 <= s < 2 ^ Z.of_nat w -> byte b -> f s b = Some (rrun (reflect w p) s (byte_lbits b))) ->
  forall buf s, bytes buf -> 0 <= s < 2 ^ Z.of_nat w ->
    bytes_loop f s buf = Some (rrun (reflect w p) s (lsb_first buf)).
Proof.
  intros Hw Hp Hf. induction buf as [|b buf IH]; intros s Hb Hs; [auto|].
  inversion Hb; subst. cbn [bytes_loop]. rewrite Hf by auto.
  rewrite IH by (auto; apply rrun_range; auto).
  change (lsb_first (b :: buf)) with (byte_lbits b ++ lsb_first buf). rewrite rrun_app. auto.
Qed.

Lemma rrun_reflect w p s bs : (1 <= w)%nat -> 0 <= p < 2 ^ Z.of_nat w -> 0 <= s < 2 ^ Z.of_nat w ->
  rrun (reflect w p) s bs = reflect w (mrun (Z.of_nat w) p (reflect w s) bs).
Proof. intros. rewrite reflect_run, reflect_invol; auto. apply reflect_range. Qed.

Lemma loop_lsb_crc w p f buf s : (1 <= w)%nat -> 0 <= p < 2 ^ Z.of_nat w ->
  (forall s b, 0 <= s < 2 ^ Z.of_nat w -> byte b -> f s b = Some (rrun (reflect w p) s (byte_lbits b))) ->
  bytes buf -> 0 <= s < 2 ^ Z.of_nat w ->
  exists r, bytes_loop f s buf = Some (reflect w r) /\
    is_crc (Z.of_nat w) p (reflect w s) (lsb_first buf) r.
Proof.
  intros Hw Hp Hf Hb Hs. exists (mrun (Z.of_nat w) p (reflect w s) (lsb_first buf)). split.
  - rewrite (loop_lsb w p) by auto. f_equal. apply rrun_reflect; auto.
  - apply mrun_rem; auto; [lia|apply reflect_range].
Qed.

Lemma loop_msb_crc w p f buf s : 1 <= w -> 0 <= p < 2 ^ w ->
  (forall s b, 0 <= s < 2 ^ w -> byte b -> f s b = Some (mrun w p s (byte_bits b))) ->
  bytes buf -> 0 <= s < 2 ^ w ->
  exists r, bytes_loop f s buf = Some r /\ is_crc w p s (msb_first buf) r.
Proof.
  intros Hw Hp Hf Hb Hs. exists (mrun w p s (msb_first buf)). split.
  - apply loop_msb; auto.
  - apply mrun_rem; auto.
Qed.

Ltac ranges := cbv; split; congruence.

Lemma crc7_step s b : 0 <= s < 2 ^ 7 -> byte b -> crc7_byte s b = Some (mrun 7 9 s (byte_bits b)).
Proof. apply crc7_tab_ok. Qed.

Lemma crc32_step s b : 0 <= s < 2 ^ 32 -> byte b -> crc32_byte s b = Some (mrun 32 0x04C11DB7 s (byte_bits b)).
Proof.
  intros Hs Hb. unfold crc32_byte.
  destruct (msb_byte 32 0x04C11DB7 ltac:(lia) crctab (msb_table _ _ _ crc32_tab_ok) s b Hs Hb) as (t & E1 & E2).
  change (32 - 8) with 24 in E1. rewrite E1, E2. rewrite Z.shiftl_mul_pow2 by lia. auto.
Qed.

Lemma t10_step s b : 0 <= s < 2 ^ 16 -> byte b -> t10dif_byte s b = Some (mrun 16 0x8BB7 s (byte_bits b)).
Proof.
  intros Hs Hb. unfold t10dif_byte.
  destruct (msb_byte 16 0x8BB7 ltac:(lia) t10_dif_crc_table (msb_table _ _ _ t10_tab_ok) s b Hs Hb) as (t & E1 & E2).
  change (16 - 8) with 8 in E1. rewrite E1. rewrite E2, Z.shiftl_mul_pow2 by lia. f_equal.
  unfold u16. change (2 ^ 16) with (2 ^ 16). rewrite (mod_lxor 16) by lia. f_equal.
  assert (Ht : 0 <= t < 2 ^ 16).
  { assert (M : mrun 16 0x8BB7 s (byte_bits b) = Z.lxor ((s * 2 ^ 8) mod 2 ^ 16) t) by exact E2.
    assert (T : t = Z.lxor ((s * 2 ^ 8) mod 2 ^ 16) (mrun 16 0x8BB7 s (byte_bits b))).
    { rewrite M, <- Z.lxor_assoc, Z.lxor_nilpotent, Z.lxor_0_l. auto. }
    rewrite T. apply lxor_range; [lia|apply Z.mod_pos_bound; lia|apply mrun_range; lia]. }
  apply Z.mod_small. auto.
Qed.

Lemma crc16_step s b : 0 <= s < 2 ^ Z.of_nat 16 -> byte b -> crc16_byte s b = Some (rrun (reflect 16 0x8005) s (byte_lbits b)).
Proof.
  intros Hs Hb. unfold crc16_byte.
  destruct (lsb_byte _ crc16_table s b (lsb_table _ _ crc16_tab_ok) Hb) as (t & E1 & E2).
  rewrite E1. rewrite Z.lxor_comm, <- E2. f_equal. apply Z.mod_small. apply (rrun_range 16 0x8005); [lia|cbv; split; congruence|auto].
Qed.

Lemma crc32c_step s b : 0 <= s < 2 ^ Z.of_nat 32 -> byte b -> crc32c_byte s b = Some (rrun (reflect 32 0x1EDC6F41) s (byte_lbits b)).
Proof.
  intros Hs Hb. unfold crc32c_byte.
  destruct (lsb_byte _ crc32c_table s b (lsb_table _ _ crc32c_tab_ok) Hb) as (t & E1 & E2).
  rewrite E1, E2. auto.
Qed.

Lemma crc64_step s b : 0 <= s < 2 ^ Z.of_nat 64 -> byte b -> crc64_byte s b = Some (rrun (reflect 64 0xad93d23594c935a9) s (byte_lbits b)).
Proof.
  intros Hs Hb. unfold crc64_byte.
  destruct (lsb_byte _ crctab64 s b (lsb_table _ _ crc64_tab_ok) Hb) as (t & E1 & E2).
  rewrite E1, E2. auto.
Qed.

Lemma nvme_step s b : 0 <= s < 2 ^ Z.of_nat 64 -> byte b -> crc64_nvme_byte s b = Some (rrun (reflect 64 0xad93d23594c93659) s (byte_lbits b)).
Proof.
  intros Hs Hb. unfold crc64_nvme_byte.
  destruct (lsb_byte _ crc64nvmetable s b (lsb_table _ _ nvme_tab_ok) Hb) as (t & E1 & E2).
  replace (Z.lxor (Z.land s 255) b) with (Z.land (Z.lxor s b) 255).
  - rewrite E1, E2, Z.lxor_comm. auto.
  - apply Z.bits_inj'. intros i Hi. rewrite Z.land_spec, !Z.lxor_spec, Z.land_spec.
    change 255 with (Z.ones 8). destruct (Z_lt_le_dec i 8).
    + rewrite Z.ones_spec_low by lia. rewrite !andb_true_r. auto.
    + rewrite Z.ones_spec_high by lia. rewrite !andb_false_r. rewrite (testbit_above 8 b) by (unfold byte in Hb; lia). auto.
Qed.

(** ** Bursts *)

Lemma loop_msb_burst w p f a b s : 1 <= w -> 0 <= p < 2 ^ w -> Z.testbit p 0 = true ->
  (forall s b, 0 <= s < 2 ^ w -> byte b -> f s b = Some (mrun w p s (byte_bits b))) ->
  bytes a -> bytes b -> 0 <= s < 2 ^ w -> burst (Z.to_nat w) (msb_first a) (msb_first b) ->
  bytes_loop f s a <> bytes_loop f s b.
Proof.
  intros Hw Hp Ho Hf Ha Hb Hs B E. rewrite !(loop_msb w p f) in E by auto.
  injection E as E. revert E. apply mrun_burst; auto.
Qed.

Lemma loop_lsb_burst w p f a b s : (1 <= w)%nat -> 0 <= p < 2 ^ Z.of_nat w -> Z.testbit p 0 = true ->
  (forall s b, 0 <= s < 2 ^ Z.of_nat w -> byte b -> f s b = Some (rrun (reflect w p) s (byte_lbits b))) ->
  bytes a -> bytes b -> 0 <= s < 2 ^ Z.of_nat w -> burst w (lsb_first a) (lsb_first b) ->
  bytes_loop f s a <> bytes_loop f s b.
Proof.
  intros Hw Hp Ho Hf Ha Hb Hs B E. rewrite !(loop_lsb w p f) in E by auto.
  injection E as E. rewrite !rrun_reflect in E by auto.
  apply reflect_inj in E; [|apply mrun_range; auto; try lia; apply reflect_range|apply mrun_range; auto; try lia; apply reflect_range].
  revert E. apply mrun_burst; auto; try lia. apply reflect_range. rewrite Nat2Z.id. auto.
Qed.

(** Changing at most w/8 consecutive bytes is a burst in both bit orders. *)
Lemma flat_map_len {A} (f : Z -> list A) k : (forall b, length (f b) = k) -> forall l, length (flat_map f l) = (k * length l)%nat.
Proof. intros H. induction l as [|x l IH]; cbn [flat_map length]; [lia|]. rewrite app_length, H, IH. lia. Qed.

Lemma byte_bits_inj f (g : list bool -> Z) : (forall b, byte b -> g (f b) = b) -> (forall b, length (f b) = 8%nat) ->
  forall x y, bytes x -> bytes y -> flat_map f x = flat_map f y -> x = y.
Proof.
  intros Hg Hl. induction x as [|a x IH]; intros [|b y] Hx Hy E; cbn [flat_map] in E; auto.
  - apply (f_equal (@length bool)) in E. rewrite app_length, Hl in E. cbn in E. lia.
  - apply (f_equal (@length bool)) in E. rewrite app_length, Hl in E. cbn in E. lia.
  - inversion Hx; inversion Hy; subst.
    assert (E1 : firstn 8 (f a ++ flat_map f x) = firstn 8 (f b ++ flat_map f y)) by (rewrite E; auto).
    assert (E2 : skipn 8 (f a ++ flat_map f x) = skipn 8 (f b ++ flat_map f y)) by (rewrite E; auto).
    rewrite !firstn_app, !Hl, Nat.sub_diag, !firstn_O, !app_nil_r, !firstn_all2 in E1 by (rewrite Hl; auto).
    rewrite !skipn_app, !Hl, Nat.sub_diag, !skipn_O, !skipn_all2 in E2 by (rewrite Hl; auto). cbn [app] in E2.
    f_equal; [|apply IH; auto]. rewrite <- (Hg a), <- (Hg b) by auto. rewrite E1. auto.
Qed.

Lemma byte_burst f (g : list bool -> Z) k pre x y post : (forall b, byte b -> g (f b) = b) -> (forall b, length (f b) = 8%nat) ->
  bytes x -> bytes y -> length x = length y -> (length x <= k)%nat -> x <> y ->
  burst (8 * k) (flat_map f (pre ++ x ++ post)) (flat_map f (pre ++ y ++ post)).
Proof.
  intros Hg Hl Hx Hy L Lk N. exists (flat_map f pre), (flat_map f x), (flat_map f y), (flat_map f post).
  rewrite !flat_map_app, !(flat_map_len f 8 Hl). repeat split; auto; try lia.
  intros E. apply N. eapply byte_bits_inj; eauto.
Qed.

Lemma msb_byte_burst k pre x y post : bytes x -> bytes y -> length x = length y -> (length x <= k)%nat -> x <> y ->
  burst (8 * k) (msb_first (pre ++ x ++ post)) (msb_first (pre ++ y ++ post)).
Proof. intros. apply (byte_burst byte_bits stream_poly); auto. apply byte_stream. Qed.

Lemma lsb_byte_burst k pre x y post : bytes x -> bytes y -> length x = length y -> (length x <= k)%nat -> x <> y ->
  burst (8 * k) (lsb_first (pre ++ x ++ post)) (lsb_first (pre ++ y ++ post)).
Proof. intros. apply (byte_burst byte_lbits lsb_val); auto. apply byte_lval. Qed.

(** ** Chaining *)

Lemma bytes_loop_app f : forall a b s, bytes_loop f s (a ++ b) = do c <- bytes_loop f s a; bytes_loop f c b.
Proof. induction a as [|x a IH]; intros b s; cbn; auto. destruct (f s x); auto. Qed.

Lemma not64_invol c : not64 (not64 c) = c.
Proof. unfold not64. rewrite Z.lxor_assoc, Z.lxor_nilpotent, Z.lxor_0_r. auto. Qed.

Lemma nvme_chain s a b : fio_crc64_nvme s (a ++ b) = do c <- fio_crc64_nvme s a; fio_crc64_nvme c b.
Proof.
  unfold fio_crc64_nvme. rewrite bytes_loop_app. destruct (bytes_loop _ (not64 s) a); auto. rewrite not64_invol. auto.
Qed.

(** ** The hardware path *)

Section IntelProof.
  Variables hw8 hw64 : Z -> Z -> Z.
  Hypothesis H8 : crc32_insn 8 hw8.
  Hypothesis H64 : crc32_insn 64 hw64.
  Let P := reflect 32 0x1EDC6F41.

  Lemma insn_run n hw crc q : crc32_insn n hw -> 0 <= crc < 2 ^ 32 -> 0 <= q < 2 ^ Z.of_nat n ->
    hw crc q = rrun P crc (low_first n q).
  Proof.
    intros H Hc Hq. destruct (H crc q Hc Hq) as (r & E & C). rewrite E. unfold P.
    rewrite rrun_reflect by (first [lia | exact Hc | cbv; split; congruence]). f_equal.
    apply (rem_unique 32 0x1EDC6F41 _ _ _ ltac:(lia) ltac:(lia) C).
    apply mrun_rem; try lia. apply (reflect_range 32).
  Qed.

  Lemma le_load_range : forall bs, bytes bs -> 0 <= le_load bs < 2 ^ (8 * zlen bs).
  Proof.
    induction bs as [|b bs IH]; intros Hb; [cbn; lia|]. inversion Hb; subst. specialize (IH H2).
    cbn [le_load]. replace (zlen (b :: bs)) with (zlen bs + 1) by (unfold zlen; cbn [length]; lia).
    pose proof (zlen_nonneg bs). unfold byte in H1. apply lor_range; try lia.
    - split; [lia|]. apply Z.lt_le_trans with (2 ^ 8); [lia|]. apply Z.pow_le_mono_r; lia.
    - rewrite Z.shiftl_mul_pow2 by lia. replace (8 * (zlen bs + 1)) with (8 * zlen bs + 8) by lia.
      rewrite Z.pow_add_r by lia. nia.
  Qed.

  Lemma low_first_app n m q : low_first (n + m) q = low_first n q ++ low_first m (Z.shiftr q (Z.of_nat n)).
  Proof.
    unfold low_first. rewrite seq_app, map_app. f_equal. cbn [Nat.add].
    replace n with (0 + n)%nat at 1 by lia.
    assert (G : forall k s, map (fun i => Z.testbit q (Z.of_nat i)) (seq (s + n) k) =
                            map (fun i => Z.testbit (Z.shiftr q (Z.of_nat n)) (Z.of_nat i)) (seq s k)).
    { induction k as [|k IH]; intros s; cbn [seq map]; auto. f_equal.
      - rewrite Z.shiftr_spec by lia. f_equal. lia.
      - apply (IH (S s)). }
    apply G.
  Qed.

  Lemma low_first_load : forall bs, bytes bs -> low_first (8 * length bs) (le_load bs) = lsb_first bs.
  Proof.
    induction bs as [|b bs IH]; intros Hb; [auto|]. inversion Hb; subst. cbn [length].
    replace (8 * S (length bs))%nat with (8 + 8 * length bs)%nat by lia. rewrite low_first_app.
    change (lsb_first (b :: bs)) with (byte_lbits b ++ lsb_first bs).
    cbn [le_load]. unfold byte in H1. f_equal.
    - unfold low_first, byte_lbits. cbn [seq map].
      assert (E : forall i, 0 <= i < 8 -> Z.testbit (Z.lor b (Z.shiftl (le_load bs) 8)) i = Z.testbit b i).
      { intros i Hi. rewrite Z.lor_spec, Z.shiftl_spec by lia. rewrite (Z.testbit_neg_r _ (i - 8)) by lia. apply orb_false_r. }
      cbn [Z.of_nat Pos.of_succ_nat Pos.succ]. rewrite !E by lia. auto.
    - rewrite <- IH by auto. f_equal. apply Z.bits_inj'. intros i Hi.
      rewrite Z.shiftr_spec, Z.lor_spec, Z.shiftl_spec by lia. rewrite (testbit_above 8 b) by lia.
      cbn [orb]. f_equal. lia.
  Qed.

  Lemma rrunP_range s bs : 0 <= s < 2 ^ 32 -> 0 <= rrun P s bs < 2 ^ 32.
  Proof. intros. apply (rrun_range 32); [lia|cbv; split; congruence|auto]. Qed.

  Lemma skip_add {A} : forall a b (l : list A), skipn b (skipn a l) = skipn (a + b) l.
  Proof. induction a as [|a IH]; intros b [|x l]; cbn; auto. apply skipn_nil. Qed.

  Lemma intel_words_run n : forall s p, bytes p -> (8 * n <= length p)%nat -> 0 <= s < 2 ^ 32 ->
    intel_words hw64 n s p = (rrun P s (lsb_first (firstn (8 * n) p)), skipn (8 * n) p).
  Proof.
    induction n as [|n IH]; intros s p Hp Hl Hs; [auto|]. cbn [intel_words].
    assert (L8 : length (firstn 8 p) = 8%nat) by (rewrite firstn_length; lia).
    assert (B8 : bytes (firstn 8 p)).
    { unfold bytes in *. rewrite <- (firstn_skipn 8 p) in Hp. apply Forall_app in Hp. tauto. }
    assert (Bs : bytes (skipn 8 p)).
    { unfold bytes in *. rewrite <- (firstn_skipn 8 p) in Hp. apply Forall_app in Hp. tauto. }
    pose proof (le_load_range _ B8) as R. unfold zlen in R. rewrite L8 in R.
    rewrite (insn_run 64) by auto. rewrite IH; auto; [|rewrite skipn_length; lia|apply rrunP_range; auto].
    replace (8 * S n)%nat with (8 + 8 * n)%nat by lia.
    pose proof (low_first_load _ B8) as LF. rewrite L8 in LF. change (8 * 8)%nat with 64%nat in LF. rewrite LF.
    f_equal.
    - rewrite <- rrun_app. f_equal. unfold lsb_first. rewrite <- flat_map_app. f_equal.
      rewrite <- (firstn_skipn 8 p) at 3. rewrite firstn_app, L8. replace (8 + 8 * n - 8)%nat with (8 * n)%nat by lia.
      f_equal. symmetry. apply firstn_all2. lia.
    - apply skip_add.
  Qed.

  Lemma hw8_run : forall l s, bytes l -> 0 <= s < 2 ^ 32 -> fold_left hw8 l s = rrun P s (lsb_first l).
  Proof.
    induction l as [|b l IH]; intros s Hb Hs; [auto|]. inversion Hb; subst. cbn [fold_left].
    rewrite (insn_run 8) by auto. rewrite IH by (auto; apply rrunP_range; auto).
    change (lsb_first (b :: l)) with (byte_lbits b ++ lsb_first l). rewrite rrun_app. auto.
  Qed.

  Lemma intel_sw buf : bytes buf -> zlen buf < 2 ^ 35 -> crc32c_sw buf = Some (crc32c_intel hw8 hw64 buf).
  Proof.
    intros Hb Hl. pose proof (zlen_nonneg buf). unfold crc32c_sw.
    rewrite (loop_lsb 32 0x1EDC6F41 crc32c_byte ltac:(lia) ltac:(cbv; split; congruence) crc32c_step) by (auto; cbv; split; congruence).
    f_equal. unfold crc32c_intel.
    assert (Q : zlen buf / 8 < 2 ^ 32) by (apply Z.div_lt_upper_bound; lia).
    assert (Q0 : 0 <= zlen buf / 8) by (apply Z.div_pos; lia).
    pose proof (Z.mod_pos_bound (zlen buf) 8 ltac:(lia)).
    pose proof (Z.div_mod (zlen buf) 8 ltac:(lia)) as DM.
    unfold u32. rewrite !Z.mod_small by lia.
    set (q := Z.to_nat (zlen buf / 8)). set (r := Z.to_nat (zlen buf mod 8)).
    assert (L : length buf = (8 * q + r)%nat) by (unfold zlen in *; lia).
    rewrite intel_words_run; auto; try lia.
    rewrite (firstn_all2 (skipn (8 * q) buf)) by (rewrite skipn_length; lia).
    rewrite hw8_run; [|unfold bytes in *; rewrite <- (firstn_skipn (8 * q) buf) in Hb; apply Forall_app in Hb; tauto
                      |apply rrunP_range; lia].
    rewrite <- rrun_app. f_equal. unfold lsb_first. rewrite <- flat_map_app, firstn_skipn. auto.
  Qed.
End IntelProof.

(** A buffer of 2^35 bytes is not looked at. *)
Lemma intel_long hw8 hw64 buf : zlen buf = 2 ^ 35 -> crc32c_intel hw8 hw64 buf = 2 ^ 32 - 1.
Proof. intros E. unfold crc32c_intel. rewrite E. reflexivity. Qed.
