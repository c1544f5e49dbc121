(** C27: floating point values survive the wire encoding. *)
From Coq Require Import ZArith Bool Lia.
From Verif Require Import CBase Ieee754Model Ieee754Spec Ieee754Proofs.
Open Scope Z_scope.

(** A normal double is encoded as its IEEE 754 interchange format, whatever the precision of long double and of float expressions. *)
Theorem C27_encoding p q fuel s m e : 53 <= p -> 2 <= q -> (1024 <= fuel)%nat -> normal m e -> pack p q fuel (FNum s m e) = Word (binary64 s m e) /\ 0 < binary64 s m e < 2 ^ 64.
Proof. intros Hp Hq HF (Hm & He). split; [apply pack_norm; auto; lia|]. unfold binary64. destruct s; lia. Qed.
(** Decoding gives the same number. The two machines may differ in the precision of long double. *)
Theorem C27_round_trip p p' q fuel s m e : 53 <= p -> 53 <= p' -> 2 <= q -> (1025 <= fuel)%nat -> normal m e ->
  exists w, pack p q fuel (FNum s m e) = Word w /\ 0 <= w < 2 ^ 64 /\ unpack p' fuel w = Some (FNum s m e).
Proof.
  intros Hp Hp' Hq HF N. destruct (C27_encoding p q fuel s m e Hp Hq ltac:(lia) N) as (E & B). exists (binary64 s m e). split; [exact E|]. split; [lia|]. destruct N. apply unpack_ok; auto; lia.
Qed.
(** Zero is kept; the sign of a negative zero is not. *)
Theorem C27_zero p p' q fuel s : pack p q fuel (FZero s) = Word 0 /\ unpack p' fuel 0 = Some (FZero false).
Proof. split; reflexivity. Qed.
(** Every word with an exponent field of a normal number decodes to that number. *)
Theorem C27_decode p fuel w : 53 <= p -> (1025 <= fuel)%nat -> 0 <= w < 2 ^ 64 -> 1 <= (w / 2 ^ 52) mod 2 ^ 11 <= 2046 ->
  exists s m e, normal m e /\ w = binary64 s m e /\ unpack p fuel w = Some (FNum s m e).
Proof.
  intros Hp HF Hw Hx. set (x := (w / 2 ^ 52) mod 2 ^ 11) in *. set (f := w mod 2 ^ 52). set (b := w / 2 ^ 63).
  assert (B : 0 <= b < 2) by (unfold b; split; [apply Z.div_pos; lia|apply Z.div_lt_upper_bound; lia]).
  assert (F : 0 <= f < 2 ^ 52) by (apply Z.mod_pos_bound; lia).
  assert (E : w = b * 2 ^ 63 + x * 2 ^ 52 + f).
  { pose proof (Z.div_mod w (2 ^ 52) ltac:(lia)) as D1. pose proof (Z.div_mod (w / 2 ^ 52) (2 ^ 11) ltac:(lia)) as D2. rewrite Z.div_div in D2 by lia. change (2 ^ 52 * 2 ^ 11) with (2 ^ 63) in D2. fold b x in D2. fold f in D1. lia. }
  assert (W : w = binary64 (b =? 1) (f + 2 ^ 52) (x - 1075)) by (unfold binary64; destruct (Z.eqb_spec b 1); lia).
  exists (b =? 1), (f + 2 ^ 52), (x - 1075). split; [unfold normal; lia|]. split; [exact W|]. rewrite W at 1. apply unpack_ok; auto; try lia.
Qed.

(** Below the normal range: 2^-1023 is decoded as zero, and half of it shifts a negative exponent. *)
Theorem C27_subnormal_refuted : (exists w, pack 64 24 1100 (FNum false (2 ^ 52) (- 1075)) = Word w /\ unpack 64 1100 w = Some (FZero false)) /\
  pack 64 24 1100 (FNum false (2 ^ 52) (- 1076)) = UB.
Proof. split; [exists 0; split|]; vm_compute; reflexivity. Qed.
(** An infinity is never encoded: the loop that normalises it does not end. The percent criterion of the steady state
    (steadystate.c:132) is infinite or a NaN when the mean is below 1, and the server encodes it (server.c:1834). *)
Theorem C27_infinity_refuted p q s : (forall fuel, pack p q fuel (FInf s) = Loop) /\ forall fuel, pack p q fuel FNan = UB.
Proof. split; [exact down_inf_loop|reflexivity]. Qed.

(** 1/10, 3.0 and the largest double, with an 80-bit long double. *)
Example C27_ex_tenth : normal 7205759403792794 (- 56) /\ pack 64 24 1100 (FNum false 7205759403792794 (- 56)) = Word 4591870180066957722 /\
  unpack 64 1100 4591870180066957722 = Some (FNum false 7205759403792794 (- 56)).
Proof. split; [unfold normal; lia|]. split; vm_compute; reflexivity. Qed.
Example C27_ex_three : pack 53 53 1100 (FNum true (3 * 2 ^ 51) (- 51)) = Word (2 ^ 63 + 1024 * 2 ^ 52 + 2 ^ 51).
Proof. vm_compute. reflexivity. Qed.
Example C27_ex_max : normal (2 ^ 53 - 1) 971 /\ pack 113 113 1100 (FNum false (2 ^ 53 - 1) 971) = Word (2047 * 2 ^ 52 - 1).
Proof. split; [unfold normal; lia|vm_compute; reflexivity]. Qed.

Print Assumptions C27_encoding.
Print Assumptions C27_round_trip.
Print Assumptions C27_zero.
Print Assumptions C27_decode.
Print Assumptions C27_subnormal_refuted.
Print Assumptions C27_infinity_refuted.
