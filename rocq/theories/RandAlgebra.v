(** Linear maps over GF(2): matrices as lists of columns, and the period of
    iterated maps. *)
From Coq Require Import ZArith List Lia Bool Znumtheory.
From Verif Require Import CBase Orbit LfsrCerts.
Import ListNotations.
Open Scope Z_scope.

Fixpoint apply (M : list Z) (v : Z) : Z :=
  match M with
  | [] => 0
  | c :: M' => let t := apply M' (Z.div2 v) in if Z.odd v then Z.lxor c t else t
  end.

Lemma div2_lxor : forall a b, Z.div2 (Z.lxor a b) = Z.lxor (Z.div2 a) (Z.div2 b).
Proof. intros a b. rewrite !Z.div2_spec. apply Z.shiftr_lxor. Qed.
Lemma odd_lxor : forall a b, Z.odd (Z.lxor a b) = xorb (Z.odd a) (Z.odd b).
Proof. intros a b. rewrite <- !Z.bit0_odd. apply Z.lxor_spec. Qed.

Lemma lxor_swap : forall a b c d, Z.lxor (Z.lxor a b) (Z.lxor c d) = Z.lxor (Z.lxor a c) (Z.lxor b d).
Proof.
  intros a b c d. rewrite !Z.lxor_assoc. f_equal. rewrite <- !Z.lxor_assoc. rewrite (Z.lxor_comm b c). reflexivity.
Qed.

Lemma apply_lxor : forall M a b, apply M (Z.lxor a b) = Z.lxor (apply M a) (apply M b).
Proof.
  induction M as [ | c M IH ]; intros a b; cbn [apply]; [ reflexivity | ].
  rewrite div2_lxor, odd_lxor, IH. destruct (Z.odd a), (Z.odd b); cbn [xorb].
  - rewrite lxor_swap, Z.lxor_nilpotent, Z.lxor_0_l. reflexivity.
  - rewrite Z.lxor_assoc. reflexivity.
  - rewrite <- !Z.lxor_assoc. rewrite (Z.lxor_comm c). reflexivity.
  - reflexivity.
Qed.
Lemma apply_0 : forall M, apply M 0 = 0.
Proof. induction M as [ | c M IH ]; cbn [apply]; [ reflexivity | exact IH ]. Qed.

Fixpoint cols (f : Z -> Z) (w : nat) : list Z :=
  match w with O => [] | S w' => f 1 :: cols (fun v => f (2 * v)) w' end.

Definition linear (w : nat) (f : Z -> Z) : Prop :=
  forall a b, 0 <= a < 2 ^ Z.of_nat w -> 0 <= b < 2 ^ Z.of_nat w -> f (Z.lxor a b) = Z.lxor (f a) (f b).

Lemma pow_S : forall w, 2 ^ Z.of_nat (S w) = 2 * 2 ^ Z.of_nat w.
Proof. intros w. rewrite Nat2Z.inj_succ, Z.pow_succ_r by lia. reflexivity. Qed.
Lemma pow_ge1 : forall w : nat, 1 <= 2 ^ Z.of_nat w.
Proof. intros w. pose proof (Z.pow_pos_nonneg 2 (Z.of_nat w) ltac:(lia) ltac:(lia)). lia. Qed.

Lemma lxor_double : forall a b, Z.lxor (2 * a) (2 * b) = 2 * Z.lxor a b.
Proof.
  intros a b. replace (2 * a) with (Z.shiftl a 1) by (rewrite Z.shiftl_mul_pow2 by lia; lia).
  replace (2 * b) with (Z.shiftl b 1) by (rewrite Z.shiftl_mul_pow2 by lia; lia).
  replace (2 * Z.lxor a b) with (Z.shiftl (Z.lxor a b) 1) by (rewrite Z.shiftl_mul_pow2 by lia; lia).
  symmetry. apply Z.shiftl_lxor.
Qed.
Lemma split_low : forall v, v = Z.lxor (if Z.odd v then 1 else 0) (2 * Z.div2 v).
Proof.
  intros v. apply Z.bits_inj'. intros n N. rewrite Z.lxor_spec.
  replace (2 * Z.div2 v) with (Z.shiftl (Z.div2 v) 1) by (rewrite Z.shiftl_mul_pow2 by lia; lia).
  rewrite Z.shiftl_spec by lia. destruct (Z.eq_dec n 0) as [ -> | X ].
  - rewrite Z.bit0_odd. rewrite (Z.testbit_neg_r _ (0 - 1)) by lia. rewrite xorb_false_r. destruct (Z.odd v); reflexivity.
  - assert (E : Z.testbit (if Z.odd v then 1 else 0) n = false).
    { destruct (Z.odd v); [ | apply Z.bits_0 ]. apply (Z.bits_above_log2 1); cbn; lia. }
    rewrite E, Z.div2_spec, Z.shiftr_spec by lia. replace (n - 1 + 1) with n by lia. destruct (Z.testbit v n); reflexivity.
Qed.
Lemma div2_range : forall v w, 0 <= v < 2 ^ Z.of_nat (S w) -> 0 <= Z.div2 v < 2 ^ Z.of_nat w.
Proof.
  intros v w V. rewrite pow_S in V. rewrite Z.div2_div. split; [ apply Z.div_pos; lia | apply Z.div_lt_upper_bound; lia ].
Qed.

Lemma lin_0 : forall w f, linear w f -> f 0 = 0.
Proof.
  intros w f L. pose proof (L 0 0) as H. pose proof (pow_ge1 w). specialize (H ltac:(lia) ltac:(lia)).
  change (Z.lxor 0 0) with 0 in H. rewrite Z.lxor_nilpotent in H. exact H.
Qed.
Lemma lin_cols : forall w f v, linear w f -> 0 <= v < 2 ^ Z.of_nat w -> f v = apply (cols f w) v.
Proof.
  induction w as [ | w IH ]; intros f v L V.
  - cbn in V. assert (v = 0) as -> by lia. rewrite (lin_0 0 f L). reflexivity.
  - cbn [cols apply]. pose proof (div2_range v w V) as D. pose proof (pow_ge1 w) as G.
    rewrite <- (IH (fun x => f (2 * x)) (Z.div2 v)); [ | | exact D ].
    + rewrite (split_low v) at 1. rewrite L.
      * destruct (Z.odd v); [ reflexivity | ]. rewrite (lin_0 _ f L). rewrite Z.lxor_0_l. reflexivity.
      * rewrite pow_S. destruct (Z.odd v); lia.
      * rewrite pow_S. lia.
    + intros a b A B. rewrite <- lxor_double. apply L; rewrite pow_S; lia.
Qed.

Definition mmul (A B : list Z) : list Z := map (apply A) B.
Lemma apply_mmul : forall A B v, apply (mmul A B) v = apply A (apply B v).
Proof.
  intros A. induction B as [ | c B IH ]; intros v; cbn [mmul map apply].
  - rewrite apply_0. reflexivity.
  - fold (mmul A B). rewrite IH. destruct (Z.odd v); [ rewrite apply_lxor | ]; reflexivity.
Qed.
Fixpoint mpow (M : list Z) (p : positive) : list Z :=
  match p with
  | xH => M
  | xO q => let x := mpow M q in mmul x x
  | xI q => let x := mpow M q in mmul M (mmul x x)
  end.
Lemma apply_mpow : forall M p v, apply (mpow M p) v = iterz (Zpos p) (apply M) v.
Proof.
  intros M p. induction p as [ p IH | p IH | ]; intros v; cbn [mpow].
  - rewrite !apply_mmul, !IH. rewrite <- iterz_add by lia. rewrite <- iterz_succ by lia. f_equal. lia.
  - rewrite apply_mmul, !IH. rewrite <- iterz_add by lia. f_equal. lia.
  - reflexivity.
Qed.
Fixpoint madd (A B : list Z) : list Z :=
  match A, B with a :: A', b :: B' => Z.lxor a b :: madd A' B' | _, _ => [] end.
Lemma apply_madd : forall A B v, length A = length B -> apply (madd A B) v = Z.lxor (apply A v) (apply B v).
Proof.
  induction A as [ | a A IH ]; intros [ | b B ] v L; try discriminate; cbn [madd apply]; [ reflexivity | ].
  rewrite IH by (cbn in L; lia). destruct (Z.odd v); [ apply lxor_swap | reflexivity ].
Qed.
Definition ident (k : nat) : list Z := cols (fun v => v) k.
Lemma apply_ident : forall k v, 0 <= v < 2 ^ Z.of_nat k -> apply (ident k) v = v.
Proof. intros k v V. symmetry. apply (lin_cols k (fun x => x)); [ intros a b _ _; reflexivity | exact V ]. Qed.
Fixpoint meqb (A B : list Z) : bool :=
  match A, B with [], [] => true | a :: A', b :: B' => (a =? b) && meqb A' B' | _, _ => false end.
Lemma meqb_ok : forall A B, meqb A B = true -> A = B.
Proof.
  induction A as [ | a A IH ]; intros [ | b B ] H; try discriminate; [ reflexivity | ].
  cbn [meqb] in H. apply andb_true_iff in H. destruct H as (H1 & H2). apply Z.eqb_eq in H1. rewrite H1, (IH B H2). reflexivity.
Qed.

Lemma lxor_range : forall k a b, 0 <= a < 2 ^ Z.of_nat k -> 0 <= b < 2 ^ Z.of_nat k -> 0 <= Z.lxor a b < 2 ^ Z.of_nat k.
Proof.
  intros k a b A B. assert (P : 0 <= Z.lxor a b) by (apply Z.lxor_nonneg; lia). split; [ exact P | ].
  destruct (Z.eq_dec (Z.lxor a b) 0) as [ -> | X ]; [ pose proof (pow_ge1 k); lia | ].
  destruct (Nat.eq_dec k 0) as [ -> | K0 ]; [ cbn in A, B; assert (a = 0) by lia; assert (b = 0) by lia; subst; cbn in X; congruence | ].
  apply Z.log2_lt_pow2; [ lia | ].
  assert (LG : forall x, 0 <= x < 2 ^ Z.of_nat k -> Z.log2 x < Z.of_nat k).
  { intros x H. destruct (Z.eq_dec x 0) as [ -> | Y ]; [ cbn; lia | ]. apply Z.log2_lt_pow2; lia. }
  pose proof (Z.log2_lxor a b ltac:(lia) ltac:(lia)). pose proof (LG a A). pose proof (LG b B). lia.
Qed.

(** ** A component of a generator *)
Section Comp.
Variables (T : Z -> Z) (j k : nat) (N : positive) (fs : list Z).
Let w : nat := (k + j)%nat.
Definition core (s : Z) : Z := Z.shiftr s (Z.of_nat j).
Definition C (u : Z) : Z := core (T (Z.shiftl u (Z.of_nat j))).

(** What is checked by computation: the low bits do not matter; [C] has order [N];
    [C^(N/q) - 1] is invertible for each prime factor [q] of [N]. *)
Definition check : bool :=
  (Zpos N =? pprod fs) && (1 <? Zpos N) && forallb known fs && forallb (fun c => c =? 0) (cols T j) &&
  let M := cols C k in
  meqb (mpow M N) (ident k) &&
  forallb (fun q => meqb (mpow (madd (mpow M (Z.to_pos (Zpos N / q))) (ident k)) N) (ident k)) fs.

Hypothesis T_lin : linear w T.
Hypothesis T_range : forall s, 0 <= s < 2 ^ Z.of_nat w -> 0 <= T s < 2 ^ Z.of_nat w.
Hypothesis checked : check = true.

Lemma pow_w : 2 ^ Z.of_nat w = 2 ^ Z.of_nat k * 2 ^ Z.of_nat j.
Proof. unfold w. rewrite Nat2Z.inj_add, Z.pow_add_r by lia. reflexivity. Qed.
Lemma core_range : forall s, 0 <= s < 2 ^ Z.of_nat w -> 0 <= core s < 2 ^ Z.of_nat k.
Proof.
  intros s S. unfold core. rewrite Z.shiftr_div_pow2 by lia. pose proof (pow_ge1 j). rewrite pow_w in S.
  split; [ apply Z.div_pos; lia | apply Z.div_lt_upper_bound; lia ].
Qed.
Lemma up_range : forall u, 0 <= u < 2 ^ Z.of_nat k -> 0 <= Z.shiftl u (Z.of_nat j) < 2 ^ Z.of_nat w.
Proof. intros u U. rewrite Z.shiftl_mul_pow2 by lia. rewrite pow_w. pose proof (pow_ge1 j).
  split; [ apply Z.mul_nonneg_nonneg; lia | apply Z.mul_lt_mono_pos_r; lia ]. Qed.
Lemma j_le_w : 2 ^ Z.of_nat j <= 2 ^ Z.of_nat w.
Proof. rewrite pow_w. pose proof (pow_ge1 j). pose proof (pow_ge1 k). rewrite <- (Z.mul_1_l (2 ^ Z.of_nat j)) at 1. apply Z.mul_le_mono_nonneg_r; lia. Qed.

Lemma low_zero : forall v, 0 <= v < 2 ^ Z.of_nat j -> T v = 0.
Proof.
  intros v V. rewrite (lin_cols j T v); [ | | exact V ].
  - unfold check in checked. rewrite !andb_true_iff in checked. destruct checked as ((((_ & _) & _) & H) & _).
    revert v V H. generalize (cols T j). clear. intros M v _ H. revert v. induction M as [ | c M IH ]; intros v; [ reflexivity | ].
    cbn [forallb] in H. apply andb_true_iff in H. destruct H as (H1 & H2). apply Z.eqb_eq in H1. subst c.
    cbn [apply]. rewrite (IH H2). destruct (Z.odd v); reflexivity.
  - intros a b A B. apply T_lin; pose proof j_le_w; lia.
Qed.
Lemma T_core : forall s, 0 <= s < 2 ^ Z.of_nat w -> T s = T (Z.shiftl (core s) (Z.of_nat j)).
Proof.
  intros s S. pose proof (pow_ge1 j) as J.
  assert (M : 0 <= s mod 2 ^ Z.of_nat j < 2 ^ Z.of_nat j) by (apply Z.mod_pos_bound; lia).
  assert (E : s = Z.lxor (Z.shiftl (core s) (Z.of_nat j)) (s mod 2 ^ Z.of_nat j)).
  { apply Z.bits_inj'. intros n Hn. rewrite Z.lxor_spec. unfold core. rewrite Z.shiftl_spec by lia.
    destruct (Z_lt_le_dec n (Z.of_nat j)) as [L|L].
    - rewrite (Z.testbit_neg_r _ (n - Z.of_nat j)) by lia. rewrite Z.mod_pow2_bits_low by lia. destruct (Z.testbit s n); reflexivity.
    - rewrite Z.shiftr_spec by lia. rewrite Z.mod_pow2_bits_high by lia. replace (n - Z.of_nat j + Z.of_nat j) with n by lia.
      destruct (Z.testbit s n); reflexivity. }
  rewrite E at 1. rewrite T_lin.
  - rewrite (low_zero _ M). apply Z.lxor_0_r.
  - apply up_range. apply core_range. exact S.
  - pose proof j_le_w. lia.
Qed.
Lemma core_T : forall s, 0 <= s < 2 ^ Z.of_nat w -> core (T s) = C (core s).
Proof. intros s S. unfold C. rewrite <- T_core by exact S. reflexivity. Qed.
Lemma C_range : forall u, 0 <= u < 2 ^ Z.of_nat k -> 0 <= C u < 2 ^ Z.of_nat k.
Proof. intros u U. unfold C. apply core_range. apply T_range. apply up_range. exact U. Qed.
Lemma C_lin : linear k C.
Proof.
  intros a b A B. unfold C, core. rewrite Z.shiftl_lxor. rewrite T_lin by (apply up_range; assumption). apply Z.shiftr_lxor.
Qed.
Lemma C_cols : forall n u, 0 <= n -> 0 <= u < 2 ^ Z.of_nat k ->
  iterz n (apply (cols C k)) u = iterz n C u /\ 0 <= iterz n C u < 2 ^ Z.of_nat k.
Proof.
  intros n u Hn U. revert n Hn. apply natlike_ind.
  - rewrite !iterz_0. auto.
  - intros n Hn (IH1 & IH2). change (Z.succ n) with (n + 1). rewrite !iterz_succ by lia. rewrite IH1. split.
    + symmetry. apply lin_cols; [ exact C_lin | exact IH2 ].
    + apply C_range. exact IH2.
Qed.
Lemma C_pow : forall p u, 0 <= u < 2 ^ Z.of_nat k -> apply (mpow (cols C k) p) u = iterz (Zpos p) C u.
Proof. intros p u U. rewrite apply_mpow. apply C_cols; [ lia | exact U ]. Qed.

Lemma chk : Zpos N = pprod fs /\ 1 < Zpos N /\ Forall prime fs /\
  mpow (cols C k) N = ident k /\
  (forall q, In q fs -> mpow (madd (mpow (cols C k) (Z.to_pos (Zpos N / q))) (ident k)) N = ident k).
Proof.
  unfold check in checked. rewrite !andb_true_iff in checked. destruct checked as ((((H1 & H2) & H3) & _) & (H4 & H5)).
  split; [ apply Z.eqb_eq; exact H1 | split; [ apply Z.ltb_lt; exact H2 | split; [ | split ] ] ].
  - rewrite forallb_forall in H3. apply Forall_forall. intros q Q. apply known_prime. exact (H3 q Q).
  - apply meqb_ok. exact H4.
  - intros q Q. rewrite forallb_forall in H5. apply meqb_ok. exact (H5 q Q).
Qed.
Lemma C_N : forall u, 0 <= u < 2 ^ Z.of_nat k -> iterz (Zpos N) C u = u.
Proof. intros u U. rewrite <- C_pow by exact U. destruct chk as (_ & _ & _ & -> & _). apply apply_ident. exact U. Qed.
Lemma C_inj : forall a b, 0 <= a < 2 ^ Z.of_nat k -> 0 <= b < 2 ^ Z.of_nat k -> C a = C b -> a = b.
Proof.
  intros a b A B E. rewrite <- (C_N a A), <- (C_N b B). destruct chk as (_ & N1 & _).
  replace (Zpos N) with (Zpos N - 1 + 1) by lia. rewrite !iterz_succ_r by lia. rewrite E. reflexivity.
Qed.
Lemma C_0 : C 0 = 0.
Proof. apply (lin_0 k). exact C_lin. Qed.

(** The order at a point other than zero is exactly [N]. *)
Lemma C_min : forall u n, 0 < u < 2 ^ Z.of_nat k -> 0 <= n -> iterz n C u = u -> (Zpos N | n).
Proof.
  intros u n U Hn E. destruct chk as (F & N1 & PR & _ & INV).
  assert (U' : 0 <= u < 2 ^ Z.of_nat k) by lia.
  assert (M : forall d, 0 < d < Zpos N -> iterz d C u <> u).
  { rewrite F. apply (exact_order C u Z.eq_dec fs PR); [ rewrite <- F; lia | rewrite <- F; apply C_N; exact U' | ].
    intros q Q X. rewrite <- F in X. specialize (INV q Q).
    assert (QP : prime q) by (rewrite Forall_forall in PR; exact (PR q Q)). pose proof (prime_ge_2 q QP) as Q2.
    assert (QD : (q | Zpos N)) by (rewrite F; apply in_divides_pprod; exact Q).
    assert (QN : 0 < Zpos N / q) by (apply Z.div_str_pos; split; [ lia | apply Z.divide_pos_le; [ lia | exact QD ] ]).
    set (A := madd (mpow (cols C k) (Z.to_pos (Zpos N / q))) (ident k)) in *.
    assert (Z0 : apply A u = 0).
    { unfold A. rewrite apply_madd.
      - rewrite C_pow by exact U'. rewrite Z2Pos.id by exact QN. rewrite X. rewrite apply_ident by exact U'. apply Z.lxor_nilpotent.
      - assert (LC : forall f n, length (cols f n) = n) by (intros f m; revert f; induction m as [ | m IH ]; intros f; cbn [cols length]; [ reflexivity | rewrite IH; reflexivity ]).
        assert (LP : forall p, length (mpow (cols C k) p) = k).
        { induction p as [ p IH | p IH | ]; cbn [mpow]; unfold mmul; rewrite ?map_length; auto. }
        unfold ident. rewrite LP, LC. reflexivity. }
    assert (IT : forall m, 0 <= m -> iterz m (apply A) 0 = 0).
    { apply natlike_ind; [ reflexivity | ]. intros m Hm IH. change (Z.succ m) with (m + 1). rewrite iterz_succ, IH by lia. apply apply_0. }
    assert (V : iterz (Zpos N) (apply A) u = u) by (rewrite <- apply_mpow, INV; apply apply_ident; exact U').
    replace (Zpos N) with (Zpos N - 1 + 1) in V by lia. rewrite iterz_succ_r in V by lia. rewrite Z0, IT in V by lia. lia. }
  apply (min_period_divides C u (Zpos N)); auto; [ lia | ]. apply C_N. exact U'.
Qed.

(** The states from which the component never stops. *)
Definition alive (s : Z) : Prop := 0 <= s < 2 ^ Z.of_nat w /\ 2 ^ Z.of_nat j <= s.
Lemma alive_core : forall s, alive s <-> 0 <= s < 2 ^ Z.of_nat w /\ 0 < core s.
Proof.
  intros s. unfold alive, core. rewrite Z.shiftr_div_pow2 by lia. pose proof (pow_ge1 j) as J. split.
  - intros (A & B). split; [ exact A | ]. apply Z.div_str_pos. lia.
  - intros (A & B). split; [ exact A | ]. destruct (Z_lt_le_dec s (2 ^ Z.of_nat j)) as [L|L]; [ | exact L ].
    rewrite Z.div_small in B by lia. lia.
Qed.
Lemma iter_range : forall s n, 0 <= s < 2 ^ Z.of_nat w -> 0 <= n -> 0 <= iterz n T s < 2 ^ Z.of_nat w.
Proof.
  intros s n S Hn. revert n Hn. apply natlike_ind; [ exact S | ]. intros n Hn IH. change (Z.succ n) with (n + 1).
  rewrite iterz_succ by lia. apply T_range. exact IH.
Qed.
Lemma iter_core : forall s n, 0 <= s < 2 ^ Z.of_nat w -> 0 <= n -> core (iterz n T s) = iterz n C (core s).
Proof.
  intros s n S Hn. revert n Hn. apply natlike_ind; [ reflexivity | ]. intros n Hn IH. change (Z.succ n) with (n + 1).
  rewrite !iterz_succ by lia. rewrite core_T by (apply iter_range; assumption). rewrite IH. reflexivity.
Qed.
Lemma alive_T : forall s, alive s -> alive (T s).
Proof.
  intros s A. apply alive_core in A. destruct A as (S & P). apply alive_core. split; [ apply T_range; exact S | ].
  rewrite core_T by exact S. pose proof (C_range _ (core_range s S)) as R. pose proof (pow_ge1 k).
  destruct (Z.eq_dec (C (core s)) 0) as [E|E]; [ | lia ].
  rewrite <- C_0 in E. apply C_inj in E; [ lia | apply core_range; exact S | lia ].
Qed.
Lemma alive_iter : forall s n, alive s -> 0 <= n -> alive (iterz n T s).
Proof.
  intros s n A Hn. revert n Hn. apply natlike_ind; [ exact A | ]. intros n Hn IH. change (Z.succ n) with (n + 1).
  rewrite iterz_succ by lia. apply alive_T. exact IH.
Qed.

Lemma comp_period : forall s n, 0 <= s < 2 ^ Z.of_nat w -> 1 <= n -> iterz (n + Zpos N) T s = iterz n T s.
Proof.
  intros s n S Hn. replace (n + Zpos N) with (n - 1 + Zpos N + 1) by lia. replace n with (n - 1 + 1) at 2 by lia.
  rewrite !iterz_succ by lia. rewrite (T_core (iterz (n - 1 + Zpos N) T s)) by (apply iter_range; [ exact S | lia ]).
  rewrite (T_core (iterz (n - 1) T s)) by (apply iter_range; [ exact S | lia ]).
  rewrite !iter_core by (exact S || lia). rewrite iterz_add by lia. rewrite C_N by (apply core_range; exact S). reflexivity.
Qed.
Lemma comp_period_mul : forall s n m, 0 <= s < 2 ^ Z.of_nat w -> 1 <= n -> 0 <= m -> iterz (n + Zpos N * m) T s = iterz n T s.
Proof.
  intros s n m S Hn Hm. revert m Hm. apply natlike_ind; [ f_equal; lia | ]. intros m Hm IH.
  replace (n + Zpos N * Z.succ m) with (n + Zpos N * m + Zpos N) by lia. rewrite comp_period by (exact S || lia). exact IH.
Qed.
Lemma comp_min : forall s n d, alive s -> 0 <= n -> 0 <= d -> iterz (n + d) T s = iterz n T s -> (Zpos N | d).
Proof.
  intros s n d A Hn Hd E. apply alive_core in A. destruct A as (S & P).
  assert (E' : iterz n C (iterz d C (core s)) = iterz n C (core s)).
  { rewrite <- iterz_add by lia. rewrite <- !iter_core by (exact S || lia). rewrite E. reflexivity. }
  assert (CI : forall m a b, 0 <= m -> 0 <= a < 2 ^ Z.of_nat k -> 0 <= b < 2 ^ Z.of_nat k -> iterz m C a = iterz m C b -> a = b).
  { intros m a b Hm Ha Hb. revert m Hm. apply (natlike_ind (fun m => iterz m C a = iterz m C b -> a = b)); [ auto | ].
    intros m Hm IH X. change (Z.succ m) with (m + 1) in X. rewrite !iterz_succ in X by lia.
    apply C_inj in X; [ exact (IH X) | apply C_cols; assumption | apply C_cols; assumption ]. }
  pose proof (core_range s S) as CR.
  apply (C_min (core s) d); [ lia | exact Hd | ].
  apply (CI n); [ exact Hn | apply C_cols; [ exact Hd | exact CR ] | exact CR | exact E' ].
Qed.

(** The sum with a sequence of another period repeats only where this component
    does. *)
Lemma comp_sum : forall s (g : Z -> Z) R d, alive s -> 0 < R -> rel_prime (Zpos N) R -> 0 <= d ->
  (forall n, 1 <= n -> g (n + R) = g n) ->
  (forall n, 1 <= n -> Z.lxor (iterz (n + d) T s) (g (n + d)) = Z.lxor (iterz n T s) (g n)) -> (Zpos N | d).
Proof.
  intros s g R d A HR RP Hd PG E. assert (S : 0 <= s < 2 ^ Z.of_nat w) by (destruct A; assumption).
  set (a := fun n => Z.lxor (iterz (n + d) T s) (iterz n T s)).
  set (b := fun n => Z.lxor (g (n + d)) (g n)).
  assert (AB : forall n, 1 <= n -> a n = b n).
  { intros n Hn. specialize (E n Hn). unfold a, b.
    assert (X : Z.lxor (Z.lxor (iterz (n + d) T s) (g (n + d))) (Z.lxor (iterz n T s) (g n)) = 0) by (rewrite E; apply Z.lxor_nilpotent).
    rewrite lxor_swap in X. apply Z.lxor_eq in X. exact X. }
  assert (AN : forall n m, 1 <= n -> 0 <= m -> a (n + Zpos N * m) = a n).
  { intros n m Hn Hm. unfold a. replace (n + Zpos N * m + d) with (n + d + Zpos N * m) by lia. rewrite !comp_period_mul by (exact S || lia). reflexivity. }
  assert (PGm : forall n m, 1 <= n -> 0 <= m -> g (n + R * m) = g n).
  { intros n m Hn Hm. revert m Hm. apply natlike_ind; [ f_equal; lia | ]. intros m Hm IH.
    replace (n + R * Z.succ m) with (n + R * m + R) by lia. rewrite PG by nia. exact IH. }
  assert (AR : forall n m, 1 <= n -> 0 <= m -> a (n + R * m) = a n).
  { intros n m Hn Hm. rewrite !AB by nia. unfold b. replace (n + R * m + d) with (n + d + R * m) by lia. rewrite !PGm by lia. reflexivity. }
  assert (A1 : a 2 = a 1).
  { apply rel_prime_bezout in RP. destruct RP as [ x y B ].
    (* x N + y R = 1; shift x and y to be non-negative and non-positive *)
    set (x' := x + R * Z.abs x + R * Z.abs y). set (y' := Zpos N * Z.abs x + Zpos N * Z.abs y - y).
    assert (X0 : 0 <= x') by (unfold x'; nia). assert (Y0 : 0 <= y') by (unfold y'; nia).
    assert (EQ : 1 + Zpos N * x' = 2 + R * y') by (unfold x', y'; nia).
    rewrite <- (AR 2 y') by lia. rewrite <- EQ. apply AN; lia. }
  assert (AS : a 2 = T (a 1)).
  { unfold a. replace (2 + d) with (1 + d + 1) by lia. change 2 with (1 + 1) at 1. rewrite !iterz_succ by lia.
    symmetry. apply T_lin; apply iter_range; (exact S || lia). }
  assert (AG : 0 <= a 1 < 2 ^ Z.of_nat w) by (unfold a; apply lxor_range; apply iter_range; (exact S || lia)).
  assert (Z0 : a 1 = 0).
  { destruct (Z.eq_dec (core (a 1)) 0) as [C0|C0].
    - rewrite <- A1, AS, T_core by exact AG. rewrite C0, Z.shiftl_0_l. apply (lin_0 w). exact T_lin.
    - exfalso. pose proof (core_range _ AG) as CR.
      assert (X : (Zpos N | 1)).
      { apply (C_min (core (a 1)) 1); [ lia | lia | ]. change 1 with (0 + 1) at 1. rewrite iterz_succ, iterz_0 by lia.
        rewrite <- core_T by exact AG. rewrite <- AS, A1. reflexivity. }
      destruct chk as (_ & N1 & _). apply Z.divide_pos_le in X; lia. }
  unfold a in Z0. apply Z.lxor_eq in Z0. apply (comp_min s 1 d); (assumption || lia).
Qed.
End Comp.
