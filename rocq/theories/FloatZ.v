(** IEEE-754 double arithmetic on non-negative integers scaled by powers of two, in [Z].
    Trusted reading of C: unsigned to double conversion and double multiplication round to the nearest
    value with 53 significant bits, ties to even; scaling by a power of two is exact (no overflow or
    underflow occurs in the ranges used). *)
From Coq Require Import ZArith Lia Bool.
Open Scope Z_scope.

(** Round a non-negative integer to 53 significant bits, ties to even. *)
Definition rne53 (x : Z) : Z :=
  if x <? 2 ^ 53 then x
  else
    let e := Z.log2 x - 52 in
    let q := x / 2 ^ e in
    let r := x mod 2 ^ e in
    let half := 2 ^ (e - 1) in
    let q' := if r <? half then q
              else if (r =? half) && Z.even q then q else q + 1 in
    q' * 2 ^ e.

Lemma rne53_small x : x < 2 ^ 53 -> rne53 x = x.
Proof. intros. unfold rne53. destruct (Z.ltb_spec x (2 ^ 53)); auto; lia. Qed.

(** The rounding error is at most half a unit in the last place, hence at most x * 2^-53. *)
Lemma rne53_error x : 0 <= x ->
  0 <= rne53 x /\ 2 ^ 53 * (rne53 x - x) <= x /\ 2 ^ 53 * (x - rne53 x) <= x.
Proof.
  intros Hx. unfold rne53. destruct (Z.ltb_spec x (2 ^ 53)) as [H|H]; [lia|].
  set (e := Z.log2 x - 52).
  assert (Hl : 53 <= Z.log2 x).
  { change 53 with (Z.log2 (2 ^ 53)). apply Z.log2_le_mono; auto. }
  assert (He : 1 <= e) by (unfold e; lia).
  destruct (Z.log2_spec x ltac:(lia)) as [L1 L2].
  assert (Hlog : Z.log2 x = e + 52) by (unfold e; lia). clearbody e.
  rewrite Hlog in *. rewrite Z.pow_add_r in L1 by lia.
  set (p := 2 ^ e) in *. set (h := 2 ^ (e - 1)).
  assert (Hp : p = 2 * h).
  { unfold p, h. replace e with (Z.succ (e - 1)) at 1 by lia. rewrite Z.pow_succ_r by lia. auto. }
  assert (Hh : 0 < h) by (apply Z.pow_pos_nonneg; lia).
  pose proof (Z.div_mod x p ltac:(lia)) as D. pose proof (Z.mod_pos_bound x p ltac:(lia)) as B.
  set (q := x / p) in *. set (r := x mod p) in *. clearbody q r. change (2 ^ 52) with 4503599627370496 in L1.
  change (2 ^ 53) with 9007199254740992.
  assert (Hq : 0 <= q) by nia.
  assert (X1 : q * p - x = - r) by lia. assert (X2 : (q + 1) * p - x = p - r) by lia.
  assert (Y : 0 <= q * p) by nia.
  destruct (Z.ltb_spec r h); [lia|].
  destruct (Z.eqb_spec r h); cbn [andb]; [destruct (Z.even q); lia|lia].
Qed.

Lemma rne53_nonneg x : 0 <= x -> 0 <= rne53 x.
Proof. intros H. apply (rne53_error x H). Qed.
