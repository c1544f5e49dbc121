(** Proofs about the printing of numbers, for C53. *)
From Coq Require Import ZArith List Lia Bool String.
From Verif Require Import CBase CStr FloatZ FlowProofs UnitsModel UnitsSpec UnitsProofs N2sModel N2sSpec.
Import ListNotations.
Open Scope Z_scope.

(** Decimal digits. *)
Lemma dec_digits_ : forall f n, 0 <= n -> (Z.to_nat (Z.log2 n) < f)%nat -> digits (dec_ f n) n.
Proof.
  induction f as [|f IH]; intros n Hn Hf; [lia|]. cbn [dec_]. destruct (Z.ltb_spec n 10) as [L|L]; [apply D1; lia|].
  pose proof (log2_div10 n L) as L10. replace n with (10 * (n / 10) + n mod 10) at 3 by (pose proof (Z.div_mod n 10); lia).
  apply DN; [apply IH; [apply Z.div_pos; lia|lia]|pose proof (Z.mod_pos_bound n 10); lia].
Qed.
Lemma dec_spec n : 0 <= n -> digits (dec n) n.
Proof. intros H. apply dec_digits_; [auto|lia]. Qed.

Lemma len_ : forall f n, 0 <= n -> (Z.to_nat (Z.log2 n) < f)%nat ->
  1 <= strlen (dec_ f n) /\ n < 10 ^ strlen (dec_ f n) /\ (strlen (dec_ f n) = 1 \/ 10 ^ (strlen (dec_ f n) - 1) <= n).
Proof.
  induction f as [|f IH]; intros n Hn Hf; [lia|]. cbn [dec_]. destruct (Z.ltb_spec n 10) as [L|L].
  - change (strlen [48 + n]) with 1. split; [lia|]. split; [lia|left; lia].
  - pose proof (log2_div10 n L) as L10. destruct (IH (n / 10)) as (A & B & C); [apply Z.div_pos; lia|lia|].
    assert (E : strlen (dec_ f (n / 10) ++ [48 + n mod 10]) = strlen (dec_ f (n / 10)) + 1) by (unfold strlen; rewrite app_length; cbn [List.length]; lia).
    rewrite E. set (l := strlen (dec_ f (n / 10))) in *. pose proof (Z.div_mod n 10 ltac:(lia)) as D. pose proof (Z.mod_pos_bound n 10 ltac:(lia)) as M.
    split; [lia|]. split; [rewrite Z.pow_add_r by lia; lia|]. right. replace (l + 1 - 1) with l by lia. destruct C as [C|C].
    + rewrite C. lia.
    + replace l with (l - 1 + 1) by lia. rewrite Z.pow_add_r by lia. lia.
Qed.
Lemma len_dec n : 0 <= n -> 1 <= strlen (dec n) /\ n < 10 ^ strlen (dec n) /\ (strlen (dec n) = 1 \/ 10 ^ (strlen (dec n) - 1) <= n).
Proof. intros H. apply len_; [auto|lia]. Qed.
Lemma len_le n l : 0 <= n -> 1 <= l -> (strlen (dec n) <= l <-> n < 10 ^ l).
Proof.
  intros Hn Hl. destruct (len_dec n Hn) as (A & B & C). split; intros H.
  - apply Z.lt_le_trans with (1 := B). apply Z.pow_le_mono_r; lia.
  - destruct C as [C|C]; [lia|]. destruct (Z_le_gt_dec (strlen (dec n)) l) as [X|X]; [auto|]. exfalso.
    assert (10 ^ l <= 10 ^ (strlen (dec n) - 1)) by (apply Z.pow_le_mono_r; lia). lia.
Qed.

Lemma padded_spec : forall d n, 0 <= n < 10 ^ Z.of_nat (S d) -> digits (padded (S d) n) n.
Proof.
  induction d as [|d IH]; intros n H.
  - cbn [padded app]. change (10 ^ Z.of_nat 1) with 10 in H. rewrite Z.mod_small by lia. apply D1. lia.
  - pose proof (Z.div_mod n 10 ltac:(lia)) as D. pose proof (Z.mod_pos_bound n 10 ltac:(lia)) as M.
    change (padded (S (S d)) n) with (padded (S d) (n / 10) ++ [48 + n mod 10]).
    assert (G : digits (padded (S d) (n / 10) ++ [48 + n mod 10]) (10 * (n / 10) + n mod 10)); [|rewrite <- D in G; exact G]. apply DN; [|lia]. apply IH.
    rewrite (Nat2Z.inj_succ (S d)), Z.pow_succ_r in H by lia. split; [apply Z.div_pos; lia|]. apply Z.div_lt_upper_bound; lia.
Qed.
Lemma padded_len : forall d n, List.length (padded d n) = d.
Proof. induction d as [|d IH]; intros n; cbn [padded]; [reflexivity|]. rewrite app_length, IH. cbn [List.length]. lia. Qed.

Lemma rhe_spec a b : 0 <= a -> 0 < b -> 0 <= rhe a b /\ half_of (rhe a b * b) a b.
Proof.
  intros Ha Hb. unfold rhe, half_of. cbv zeta. pose proof (Z.div_mod a b ltac:(lia)) as D. pose proof (Z.mod_pos_bound a b Hb) as M.
  assert (Q : 0 <= a / b) by (apply Z.div_pos; lia). set (q := a / b) in *. set (r := a mod b) in *. clearbody q r.
  assert (X : q * b - a = - r) by lia. assert (Y : (q + 1) * b - a = b - r) by lia.
  destruct (Z.ltb_spec (2 * r) b); [split; [auto|]; rewrite X; lia|]. destruct (Z.eqb_spec (2 * r) b); cbn [andb].
  - destruct (Z.even q); (split; [lia|]); rewrite ?X, ?Y; lia.
  - split; [lia|]. rewrite Y. lia.
Qed.

(** The fraction: there are at most 1024 remainders and two numbers of decimals. *)
Definition frac (d : nat) (m t : Z) : Z := rhe (fdiv m t * 10 ^ Z.of_nat d) (2 ^ 201).
Definition frac_ok (t : Z) (d : nat) (m : Z) : bool :=
  let r := frac d m t in (0 <=? r) && (r <=? 10 ^ Z.of_nat d) && (2 * Z.abs (r * t - m * 10 ^ Z.of_nat d) <=? t).
Lemma frac_all : forallb (fun t => forallb (fun d => forallb (fun k => if Z.of_nat k <? t then frac_ok t d (Z.of_nat k) else true) (seq 0 1024)) [1; 2]%nat) [1000; 1024] = true.
Proof. vm_compute. reflexivity. Qed.
Lemma frac_spec p d m : (d = 1 \/ d = 2)%nat -> 0 <= m < thousand p ->
  0 <= frac d m (thousand p) <= 10 ^ Z.of_nat d /\ half_of (frac d m (thousand p) * thousand p) (m * 10 ^ Z.of_nat d) (thousand p).
Proof.
  intros D M. pose proof frac_all as A. rewrite forallb_forall in A. specialize (A (thousand p)).
  assert (T : In (thousand p) [1000; 1024]) by (destruct p; cbn; tauto). specialize (A T). rewrite forallb_forall in A.
  assert (Id : In d [1; 2]%nat) by (destruct D as [-> | ->]; [left|right; left]; reflexivity). specialize (A d Id). rewrite forallb_forall in A. specialize (A (Z.to_nat m)).
  assert (I : In (Z.to_nat m) (seq 0 1024)) by (apply in_seq; destruct p; cbn [thousand] in M; lia). specialize (A I). rewrite Z2Nat.id in A by lia.
  destruct (Z.ltb_spec m (thousand p)); [|lia]. unfold frac_ok in A. cbv zeta in A. rewrite !andb_true_iff, !Z.leb_le in A. unfold half_of. tauto.
Qed.
Lemma fixed_frac d m t : fixed d (fdiv m t) 201 = dec (frac d m t / 10 ^ Z.of_nat d) ++ [46] ++ padded d (frac d m t mod 10 ^ Z.of_nat d).
Proof. reflexivity. Qed.
(** Below one the fraction starts with 0, otherwise with 1. *)
Lemma fixed_cases d m p : (d = 1 \/ d = 2)%nat -> 0 <= m < thousand p -> exists c r, fixed d (fdiv m (thousand p)) 201 = [48 + c] ++ [46] ++ padded d r /\
  0 <= r < 10 ^ Z.of_nat d /\ (c = 0 \/ c = 1 /\ r = 0) /\ frac d m (thousand p) = c * 10 ^ Z.of_nat d + r.
Proof.
  intros D M. rewrite fixed_frac. destruct (frac_spec p d m D M) as (F & _). set (x := frac d m (thousand p)) in *. assert (P : 0 < 10 ^ Z.of_nat d) by (apply Z.pow_pos_nonneg; lia).
  set (T := 10 ^ Z.of_nat d) in *. destruct (Z.eq_dec x T) as [E|E].
  - exists 1, 0. rewrite E, Z.div_same, Z.mod_same by lia. split; [reflexivity|]. split; [lia|]. split; [right; auto|lia].
  - exists 0, x. rewrite Z.div_small, Z.mod_small by lia. split; [reflexivity|]. split; [lia|]. split; [left; auto|lia].
Qed.

(** The loop of divisions. *)
Lemma div_loop_spec t ml : 0 < t -> 1 <= ml -> forall f n mo i, 0 <= n -> 0 <= i <= nr_prefixes -> (Z.to_nat (nr_prefixes - i) <= f)%nat ->
  exists k, 0 <= k /\ let '(q, m, i') := div_loop f t ml n mo i in i' = i + k /\ i' <= nr_prefixes /\ 0 <= q /\
    (k = 0 /\ q = n /\ m = mo \/ 0 < k /\ exists p, p = n / t ^ (k - 1) /\ 10 ^ ml <= p /\ q = p / t /\ m = Some (p mod t)) /\
    (q < 10 ^ ml \/ i' = nr_prefixes).
Proof.
  intros Ht Hm. induction f as [|f IH]; intros n mo i Hn Hi Hf; cbn [div_loop].
  - exists 0. split; [lia|]. split; [lia|]. split; [lia|]. split; [auto|]. split; [left; auto|]. right. unfold nr_prefixes in *. lia.
  - destruct (Z.leb_spec nr_prefixes i) as [L|L].
    + exists 0. split; [lia|]. split; [lia|]. split; [lia|]. split; [auto|]. split; [left; auto|right; lia].
    + destruct (Z.leb_spec (strlen (dec n)) ml) as [E|E].
      * exists 0. split; [lia|]. split; [lia|]. split; [lia|]. split; [auto|]. split; [left; auto|left; apply len_le; auto].
      * assert (G : 10 ^ ml <= n). { destruct (Z_lt_le_dec n (10 ^ ml)) as [X|X]; [|auto]. apply len_le in X; auto; lia. }
        destruct (IH (n / t) (Some (n mod t)) (i + 1)) as (k & K & H); [apply Z.div_pos; lia|lia|lia|]. exists (k + 1). split; [lia|].
        destruct (div_loop f t ml (n / t) (Some (n mod t)) (i + 1)) as ((q, m), i'). destruct H as (A & B & C & D & F).
        split; [lia|]. split; [auto|]. split; [auto|]. split; [|auto]. right. split; [lia|]. replace (k + 1 - 1) with k by lia. destruct D as [(D1 & D2 & D3)|(D1 & p & D2 & D3 & D4 & D5)].
        -- exists n. subst k q m. rewrite Z.pow_0_r, Z.div_1_r. auto.
        -- exists p. split; [|auto]. rewrite D2, Z.div_div by (try lia; apply Z.pow_pos_nonneg; lia). f_equal. replace k with (Z.succ (k - 1)) at 2 by lia. rewrite Z.pow_succ_r by lia. reflexivity.
Qed.

Lemma thousand_spec p : thousand p = si_or_iec p.
Proof. destruct p; reflexivity. Qed.
Lemma base_spec p j : 0 <= j <= 3 -> base_loop 32 (thousand p ^ j) (thousand p) 0 = j.
Proof. intros H. assert (j = 0 \/ j = 1 \/ j = 2 \/ j = 3) as [-> | [->|[->| ->]]] by lia; destruct p; vm_compute; reflexivity. Qed.
Lemma prefix_spec p k : 0 <= k <= 6 -> exists n, prefix_name p k n /\ prefix p k = codes n.
Proof.
  intros H. assert (k = 0 \/ k = 1 \/ k = 2 \/ k = 3 \/ k = 4 \/ k = 5 \/ k = 6) as [-> | [->|[-> | [->|[-> | [->| ->]]]]]] by lia; eexists; (split; [constructor|destruct p; reflexivity]).
Qed.

(** Powers of ten. *)
Lemma pow_split a b : 0 <= a -> 0 <= b -> 10 ^ (a + b) = 10 ^ a * 10 ^ b.
Proof. intros. apply Z.pow_add_r; auto. Qed.

Lemma unitstr_spec u : unitstr u = codes (unit_name u).
Proof. destruct u; reflexivity. Qed.
Lemma in_units_spec u n : 0 <= n -> n * factor u < 2 ^ 64 -> in_units u n = n * factor u.
Proof. intros H L. destruct u; unfold in_units, factor in *; try lia; unfold u64; rewrite Z.mod_small; lia. Qed.

(** From the error of the last division to that of the whole number. *)
Lemma scale_error t k n p v d : 0 < t -> 0 < k -> 0 <= n -> p = n / t ^ (k - 1) -> 0 < d -> half_of (v * t) (p * d) t ->
  near_half_of (v * t ^ k) (n * d) (t ^ k) (d * t ^ (k - 1)).
Proof.
  intros T K N P D H. unfold half_of, near_half_of in *. set (s := t ^ (k - 1)) in *. assert (S0 : 0 < s) by (apply Z.pow_pos_nonneg; lia).
  assert (E : t ^ k = t * s) by (unfold s; replace k with (Z.succ (k - 1)) at 1 by lia; rewrite Z.pow_succ_r by lia; reflexivity). rewrite E.
  pose proof (Z.div_mod n s ltac:(lia)) as M. pose proof (Z.mod_pos_bound n s S0) as B. rewrite <- P in M.
  replace (v * (t * s) - n * d) with (s * (v * t - p * d) - d * (n mod s)) by (rewrite M at 2; ring).
  assert (X : Z.abs (s * (v * t - p * d)) = s * Z.abs (v * t - p * d)) by (rewrite Z.abs_mul; lia).
  assert (Y : 0 <= d * (n mod s) < d * s) by (split; [apply Z.mul_nonneg_nonneg; lia|apply Z.mul_lt_mono_pos_l; lia]).
  assert (W : s * (2 * Z.abs (v * t - p * d)) <= s * t) by (apply Z.mul_le_mono_nonneg_l; lia). lia.
Qed.
(** Without decimals the number is rounded half up, whatever was cut off by the earlier divisions. *)
Lemma round_error p k n c q m : 0 < k -> 0 <= n -> (c = 1 \/ c = 0) -> let t := thousand p in let x := n / t ^ (k - 1) in q = x / t -> m = x mod t ->
  (c = 1 <-> t / 2 <= m) -> half_of ((q + c) * t ^ k) n (t ^ k).
Proof.
  intros K N C t x Q M H. unfold half_of. set (s := t ^ (k - 1)) in *. assert (T : t = 2 * (t / 2) /\ 0 < t) by (unfold t; destruct p; vm_compute; auto). assert (S0 : 0 < s) by (apply Z.pow_pos_nonneg; lia).
  assert (E : t ^ k = t * s) by (unfold s; replace k with (Z.succ (k - 1)) at 1 by lia; rewrite Z.pow_succ_r by lia; reflexivity). rewrite E.
  pose proof (Z.div_mod n s ltac:(lia)) as D1. pose proof (Z.mod_pos_bound n s S0) as B1. fold x in D1. pose proof (Z.div_mod x t ltac:(lia)) as D2. pose proof (Z.mod_pos_bound x t ltac:(lia)) as B2. rewrite <- Q, <- M in D2. rewrite <- M in B2.
  set (h := t / 2) in *. set (r := n mod s) in *. clearbody h r x s t. destruct T as (T & T0). rewrite D2 in D1. subst t.
  replace ((q + c) * (2 * h * s) - n) with (c * (2 * h * s) - (m * s + r)) by (rewrite D1; ring). destruct C as [C|C]; subst c.
  - assert (h <= m) by (apply H; reflexivity). assert (h * s <= m * s) by (apply Z.mul_le_mono_nonneg_r; lia). assert (m * s + s <= 2 * h * s) by (replace (m * s + s) with ((m + 1) * s) by ring; apply Z.mul_le_mono_nonneg_r; lia). lia.
  - assert (m < h) by (destruct (Z_le_gt_dec h m) as [X|X]; [apply H in X; lia|lia]). assert (m * s + s <= h * s) by (replace (m * s + s) with ((m + 1) * s) by ring; apply Z.mul_le_mono_nonneg_r; lia). assert (0 <= m * s) by (apply Z.mul_nonneg_nonneg; lia). lia.
Qed.

(** Carrying may make the number longer, and then it is a power of ten. *)
Lemma carry_len q l : 0 <= q -> strlen (dec q) = l -> strlen (dec (q + 1)) <= l \/ strlen (dec (q + 1)) = l + 1 /\ q + 1 = 10 ^ l.
Proof.
  intros Q L. destruct (len_dec q Q) as (A & B & _). rewrite L in *. destruct (Z_lt_le_dec (q + 1) (10 ^ l)) as [X|X]; [left; apply len_le; lia|].
  right. assert (E : q + 1 = 10 ^ l) by lia. split; [|auto]. assert (strlen (dec (q + 1)) <= l + 1) by (apply len_le; [lia|lia|]; rewrite pow_split by lia; change (10 ^ 1) with 10; pose proof (Z.pow_pos_nonneg 10 l); lia).
  destruct (Z_le_gt_dec (strlen (dec (q + 1))) l) as [Y|Y]; [apply len_le in Y; lia|lia].
Qed.

Lemma mul_half a b c u : 0 < c -> half_of a b u -> half_of (a * c) (b * c) (u * c).
Proof. intros C H. unfold half_of in *. replace (a * c - b * c) with ((a - b) * c) by ring. rewrite Z.abs_mul. rewrite (Z.abs_eq c) by lia. assert ((2 * Z.abs (a - b)) * c <= u * c) by (apply Z.mul_le_mono_nonneg_r; lia). lia. Qed.
Lemma mul_near a b c u e : 0 < c -> near_half_of a b u e -> near_half_of (a * c) (b * c) (u * c) (e * c).
Proof. intros C H. unfold near_half_of in *. replace (a * c - b * c) with ((a - b) * c) by ring. rewrite Z.abs_mul. rewrite (Z.abs_eq c) by lia. assert ((2 * Z.abs (a - b)) * c < (u + 2 * e) * c) by (apply Z.mul_lt_mono_pos_r; lia). lia. Qed.

Lemma num2str_spec num ml j p u : 0 <= num -> num * factor u < 2 ^ 64 -> 1 <= ml -> 0 <= j <= 3 -> num * factor u < 10 ^ ml * thousand p ^ (6 - j) ->
  exists v d k w, means (num2str num ml (thousand p ^ j) p u) p (unit_name u) v d k w /\ rounded num ml j p u v d k w.
Proof.
  intros N0 N1 ML J FIT. unfold num2str. cbv zeta. rewrite (base_spec p j J), (in_units_spec u num N0 N1). set (n := num * factor u) in *.
  assert (Nn : 0 <= n) by (unfold n; destruct u; cbn [factor]; lia). assert (T0 : 1 < thousand p <= 1024) by (destruct p; cbn; lia).
  destruct (div_loop_spec (thousand p) ml ltac:(lia) ML 8 n None j Nn ltac:(unfold nr_prefixes; lia) ltac:(unfold nr_prefixes; lia)) as (e & E0 & H).
  destruct (div_loop 8 (thousand p) ml n None j) as ((q, m), i). destruct H as (I & I7 & Q & D & F). subst i. unfold nr_prefixes in *.
  assert (L7 : j + e < 7).
  { destruct (Z_lt_le_dec (j + e) 7) as [X|X]; [auto|]. exfalso. destruct D as [(D & _)|(D & x & Dx & Dy & _)]; [lia|]. replace (e - 1) with (6 - j) in Dx by lia.
    assert (x < 10 ^ ml); [|lia]. subst x. apply Z.div_lt_upper_bound; [apply Z.pow_pos_nonneg; lia|]. lia. }
  destruct F as [F|F]; [|lia]. replace (7 <=? j + e) with false by (symmetry; apply Z.leb_gt; lia).
  destruct (prefix_spec p (j + e) ltac:(lia)) as (nm & PN & PE). rewrite PE, unitstr_spec.
  unfold rounded. cbv zeta. fold n. change (si_or_iec p) with (thousand p). assert (TJ : 0 < thousand p ^ j) by (apply Z.pow_pos_nonneg; lia).
  assert (TE : thousand p ^ (j + e) = thousand p ^ e * thousand p ^ j) by (rewrite Z.pow_add_r by lia; ring).
  destruct D as [(D1 & D2 & D3)|(D1 & x & D2 & D3 & D4 & D5)].
  - subst m e q. exists n, 0, (j + 0), (strlen (dec n)). split.
    + exists nm, (dec n), n. split; [auto|]. split; [apply dec_spec; auto|]. left. split; [auto|]. split; [auto|]. split; reflexivity.
    + rewrite Z.add_0_r. split; [lia|]. split; [lia|]. split; [tauto|]. split; [auto|]. split; [intros _; unfold half_of; rewrite Z.sub_diag; cbn; lia|]. split; [lia|]. split; [lia|]. left. apply len_le; auto.
  - subst m. set (md := x mod thousand p) in *. assert (MD : 0 <= md < thousand p) by (apply Z.mod_pos_bound; lia).
    assert (X0 : 0 <= x) by (pose proof (Z.pow_pos_nonneg 10 ml); lia). pose proof (Z.div_mod x (thousand p) ltac:(lia)) as DX. rewrite <- D4 in DX. fold md in DX.
    assert (XN : x <= n) by (rewrite D2; apply Z.div_le_upper_bound; [apply Z.pow_pos_nonneg; lia|]; rewrite <- (Z.mul_1_l n) at 1; apply Z.mul_le_mono_nonneg_r; [auto|]; pose proof (Z.pow_pos_nonneg (thousand p) (e - 1)); lia).
    assert (KJ : j + e = j <-> n < 10 ^ ml) by lia. assert (KJ2 : forall P, j + e = j -> P) by (intros P X; exfalso; lia).
    destruct (len_dec q Q) as (A & B & C). remember (strlen (dec q)) as l eqn:EL.
    assert (LM : l <= ml) by (rewrite EL; apply len_le; auto).
    destruct (Z.leb_spec (ml - l) 1) as [R|R].
    + set (c := if thousand p / 2 <=? md then 1 else 0). assert (QC : (if thousand p / 2 <=? md then q + 1 else q) = q + c) by (unfold c; destruct (thousand p / 2 <=? md); lia). rewrite QC.
      assert (C1 : c = 1 \/ c = 0) by (unfold c; destruct (thousand p / 2 <=? md); auto). assert (C2 : c = 1 <-> thousand p / 2 <= md) by (unfold c; destruct (Z.leb_spec (thousand p / 2) md); split; intros; auto; lia).
      exists (q + c), 0, (j + e), (strlen (dec (q + c))). split.
      * exists nm, (dec (q + c)), (q + c). split; [auto|]. split; [apply dec_spec; lia|]. left. split; [auto|]. split; [auto|]. split; reflexivity.
      * split; [lia|]. split; [lia|]. split; [auto|]. split; [apply KJ2|]. split.
        { intros _. rewrite TE, Z.mul_assoc. apply mul_half; [auto|]. apply (round_error p e n c q md); auto; subst x; auto. }
        split; [lia|]. split.
        { intros M3 _. destruct C as [C|C]; [|apply Z.le_trans with (m := 10 ^ (l - 1)); [apply Z.pow_le_mono_r; lia|lia]]. lia. }
        destruct C1 as [C1|C1]; rewrite C1; [|left; rewrite Z.add_0_r; rewrite <- EL; lia]. destruct (carry_len q l Q (eq_sym EL)) as [Y|(Y & Z)]; [left; lia|]. destruct (Z_le_gt_dec (l + 1) ml) as [G|G]; [left; lia|].
        right. split; [lia|]. exists l. auto.
    + assert (R3 : ml - l <= 3).
      { destruct (Z_le_gt_dec ml 4) as [G|G]; [lia|]. assert (X4 : 10 ^ (ml - 4) <= q).
        { rewrite D4. apply Z.div_le_lower_bound; [lia|]. apply Z.le_trans with (m := 1024 * 10 ^ (ml - 4)); [apply Z.mul_le_mono_nonneg_r; [apply Z.pow_nonneg|]; lia|].
          apply Z.le_trans with (m := 10 ^ ml); [|lia]. replace ml with (4 + (ml - 4)) at 2 by lia. rewrite pow_split by lia. apply Z.mul_le_mono_nonneg_r; [apply Z.pow_nonneg; lia|cbn; lia]. }
        destruct (Z_le_gt_dec (ml - l) 3) as [Y|Y]; [auto|]. exfalso. assert (10 ^ l <= 10 ^ (ml - 4)) by (apply Z.pow_le_mono_r; lia). lia. }
      set (d := Z.to_nat (ml - l - 1)). assert (Dd : (d = 1 \/ d = 2)%nat) by (unfold d; lia). assert (Ed : Z.of_nat d = ml - l - 1) by (unfold d; lia).
      destruct (fixed_cases d md p Dd MD) as (c & r & FX & RB & CR & FE). rewrite FX. destruct (frac_spec p d md Dd MD) as (_ & HF). rewrite FE in HF.
      change (hd 0 ([48 + c] ++ [46] ++ padded d r)) with (48 + c). change (skipn 2 ([48 + c] ++ [46] ++ padded d r)) with (padded d r).
      assert (QC : (if 48 + c =? 49 then q + 1 else q) = q + c) by (destruct (Z.eqb_spec (48 + c) 49); lia). rewrite QC. clear QC FX.
      assert (Td : 10 <= 10 ^ Z.of_nat d) by (destruct Dd as [-> | ->]; cbn; lia).
      exists ((q + c) * 10 ^ Z.of_nat d + r), (Z.of_nat d), (j + e), (strlen (dec (q + c)) + 1 + Z.of_nat d). split.
      * exists nm, (dec (q + c)), (q + c). split; [auto|]. split; [apply dec_spec; lia|]. right. exists (padded d r), r. split; [lia|].
        split; [destruct d as [|d']; [lia|apply padded_spec; auto]|]. split; [rewrite padded_len; auto|]. split; [auto|]. split; reflexivity.
      * split; [lia|]. split; [lia|]. split; [auto|]. split; [apply KJ2|]. split; [lia|]. split.
        { intros _. replace (n * thousand p ^ j * 10 ^ Z.of_nat d) with (n * 10 ^ Z.of_nat d * thousand p ^ j) by ring. rewrite TE. rewrite Z.mul_assoc.
          replace (10 ^ Z.of_nat d * thousand p ^ (j + e - 1)) with (10 ^ Z.of_nat d * thousand p ^ (e - 1) * thousand p ^ j) by (replace (j + e - 1) with (e - 1 + j) by lia; rewrite (Z.pow_add_r (thousand p)) by lia; ring).
          apply mul_near; [auto|]. apply (scale_error _ e n x); auto; try lia. unfold half_of in *. rewrite DX.
          replace (((q + c) * 10 ^ Z.of_nat d + r) * thousand p - (thousand p * q + md) * 10 ^ Z.of_nat d) with ((c * 10 ^ Z.of_nat d + r) * thousand p - md * 10 ^ Z.of_nat d) by ring. exact HF. }
        split.
        { intros M3 _. assert (QP : 1 <= q + c).
          { destruct (Z.eq_dec q 0) as [Q0|Q0]; [|lia]. rewrite Q0 in *. assert (c = 1); [|lia]. destruct CR as [CR|(CR & _)]; [|auto]. exfalso.
            assert (l = 1) by (rewrite EL; reflexivity). assert (md = x) by lia. assert (10 ^ 3 <= 10 ^ ml) by (apply Z.pow_le_mono_r; lia). change (10 ^ 3) with 1000 in *.
            unfold half_of in HF. subst c. rewrite Z.mul_0_l, Z.add_0_l in HF. destruct p; cbn [thousand] in *; [|lia]. assert (ml = 3). { destruct (Z.eq_dec ml 3); [auto|]. assert (10 ^ 4 <= 10 ^ ml) by (apply Z.pow_le_mono_r; lia). change (10 ^ 4) with 10000 in *. lia. }
            assert (Z.of_nat d = 1) by lia. rewrite H3 in *. change (10 ^ 1) with 10 in *. lia. }
          assert (LQ : 10 ^ (l - 1) <= q + c) by (destruct C as [C|C]; [rewrite C; cbn; lia|lia]). replace (ml - 2) with (l - 1 + Z.of_nat d) by lia. rewrite pow_split by lia. assert (10 ^ (l - 1) * 10 ^ Z.of_nat d <= (q + c) * 10 ^ Z.of_nat d) by (apply Z.mul_le_mono_nonneg_r; lia). lia. }
        destruct CR as [CR|(CR & R0)]; [left; rewrite CR, Z.add_0_r, <- EL; lia|]. rewrite CR, R0. destruct (carry_len q l Q (eq_sym EL)) as [Y|(Y & Z)]; [left; lia|].
        right. split; [lia|]. exists (l + Z.of_nat d). rewrite Z, pow_split by lia. lia.
Qed.

(** [bytes2str_simple]. *)
Lemma unit_loop_spec b : forall f u, 0 <= u <= 6 -> (Z.to_nat (6 - u) < f)%nat -> (u = 0 \/ 1024 ^ u <= b) ->
  let u' := unit_loop f b u in 0 <= u' <= 6 /\ (u' = 0 \/ 1024 ^ u' <= b) /\ (b < 1024 ^ (u' + 1) \/ u' = 6).
Proof.
  induction f as [|f IH]; intros u U F H; [lia|]. cbn [unit_loop]. unfold nr_prefixes. destruct (Z.leb_spec (1024 * 1024 ^ u) b) as [L|L]; cbn [andb].
  - destruct (Z.ltb_spec u (7 - 1)) as [V|V].
    + apply IH; [lia|lia|]. right. rewrite Z.pow_add_r by lia. change (1024 ^ 1) with 1024. lia.
    + cbv zeta. split; [lia|]. split; [auto|right; lia].
  - cbv zeta. split; [lia|]. split; [auto|]. left. rewrite Z.pow_add_r by lia. change (1024 ^ 1) with 1024. lia.
Qed.
Lemma pow1024 u : 0 <= u -> 2 ^ (10 * u) = 1024 ^ u.
Proof. intros H. rewrite Z.pow_mul_r by lia. reflexivity. Qed.

Lemma rne53_pow k : 0 <= k <= 63 -> rne53 (2 ^ k) = 2 ^ k.
Proof.
  intros K. pose proof (Z.pow_pos_nonneg 2 k ltac:(lia) ltac:(lia)). unfold rne53. destruct (Z.ltb_spec (2 ^ k) (2 ^ 53)) as [L|L]; [reflexivity|]. rewrite Z.log2_pow2 by lia.
  assert (53 <= k) by (destruct (Z_le_gt_dec 53 k); [auto|]; exfalso; assert (2 ^ k < 2 ^ 53) by (apply Z.pow_lt_mono_r; lia); lia).
  assert (E : 2 ^ k = 2 ^ 52 * 2 ^ (k - 52)) by (rewrite <- Z.pow_add_r by lia; f_equal; lia). assert (P : 0 < 2 ^ (k - 52)) by (apply Z.pow_pos_nonneg; lia).
  assert (P2 : 0 < 2 ^ (k - 52 - 1)) by (apply Z.pow_pos_nonneg; lia).
  rewrite E, Z.mod_mul, Z.div_mul by lia. destruct (Z.ltb_spec 0 (2 ^ (k - 52 - 1))); [reflexivity|lia].
Qed.
Lemma bytes2str_spec x : 0 <= x < 2 ^ 64 -> exists v k, means_spaced (bytes2str_simple x) v k /\ 0 <= k <= 6 /\
  2 ^ 53 * (2 * Z.abs (v * 1024 ^ k - 100 * x)) <= 2 ^ 53 * 1024 ^ k + 2 * 100 * x /\
  (k = 0 \/ 2 ^ 53 * 1024 ^ k <= (2 ^ 53 + 1) * x) /\ (x < 1024 ^ (k + 1) \/ k = 6) /\ strlen (bytes2str_simple x) <= 11.
Proof.
  intros X. unfold bytes2str_simple. cbv zeta. destruct (rne53_error x ltac:(lia)) as (B0 & B1 & B2). set (b := rne53 x) in *.
  destruct (unit_loop_spec b 8 0 ltac:(lia) ltac:(lia) ltac:(auto)) as (U & L & H). set (u := unit_loop 8 b 0) in *.
  assert (P : 0 < 1024 ^ u) by (apply Z.pow_pos_nonneg; lia). unfold fixed. change (10 ^ Z.of_nat 2) with 100. rewrite pow1024 by lia.
  destruct (rhe_spec (b * 100) (1024 ^ u) ltac:(lia) P) as (R0 & R). set (r := rhe (b * 100) (1024 ^ u)) in *. unfold half_of in R.
  assert (D := Z.div_mod r 100 ltac:(lia)). assert (M := Z.mod_pos_bound r 100 ltac:(lia)). assert (Q0 : 0 <= r / 100) by (apply Z.div_pos; lia).
  destruct (prefix_spec true u U) as (nm & PN & PE). rewrite PE. exists r, u. split.
  { exists nm, (dec (r / 100)), (r / 100), (padded 2 (r mod 100)), (r mod 100). split; [auto|]. split; [apply dec_spec; auto|]. split; [apply (padded_spec 1); change (10 ^ Z.of_nat 2) with 100; auto|].
    split; [rewrite padded_len; reflexivity|]. split; [lia|]. rewrite <- !app_assoc. reflexivity. }
  split; [lia|]. split; [lia|]. split; [destruct L as [L|L]; [auto|right; lia]|].
  assert (BU : b <= 1024 ^ (u + 1)).
  { destruct H as [H|H]; [lia|]. rewrite H. apply Z.le_trans with (m := 2 ^ 70); [|cbn; lia]. lia. }
  split.
  { destruct H as [H|H]; [|auto]. destruct (Z.eq_dec u 6) as [E|E]; [auto|]. left. destruct (Z_lt_le_dec x (1024 ^ (u + 1))) as [Y|Y]; [auto|]. exfalso.
    assert (Y2 : rne53 (1024 ^ (u + 1)) <= b) by (apply rne53_mono; split; [apply Z.pow_nonneg; lia|auto]). rewrite <- pow1024 in Y2, H by lia. rewrite rne53_pow in Y2 by lia. lia. }
  assert (R4 : r <= 102400).
  { rewrite Z.pow_add_r in BU by lia. change (1024 ^ 1) with 1024 in BU. destruct (Z_le_gt_dec r 102400) as [Y|Y]; [auto|]. exfalso. assert (102401 * 1024 ^ u <= r * 1024 ^ u) by (apply Z.mul_le_mono_nonneg_r; lia). lia. }
  assert (L4 : strlen (dec (r / 100)) <= 4) by (apply len_le; [auto|lia|]; change (10 ^ 4) with 10000; apply Z.div_lt_upper_bound; lia).
  assert (PL : (List.length (codes nm) <= 2)%nat) by (destruct PN; cbn; lia). unfold strlen in *. rewrite !app_length, padded_len. cbn [List.length chars]. lia.
Qed.
