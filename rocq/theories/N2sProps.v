(** Property C53: the numbers in reports mean what was measured. *)
From Coq Require Import ZArith List Lia Bool String.
From Verif Require Import CBase CStr UnitsModel UnitsSpec UnitsProofs UnitsProps N2sModel N2sSpec N2sProofs.
Import ListNotations.
Open Scope Z_scope.

(** The number read from the string of [num2str] is that of the caller to half of its last digit. *)
Theorem C53_value num ml j p u : 0 <= num -> num * factor u < 2 ^ 64 -> 1 <= ml -> 0 <= j <= 3 -> num * factor u < 10 ^ ml * si_or_iec p ^ (6 - j) ->
  exists v d k w, means (num2str num ml (si_or_iec p ^ j) p u) p (unit_name u) v d k w /\ rounded num ml j p u v d k w.
Proof. intros A B C D E. apply (num2str_spec num ml j p u); auto. Qed.
(** With at least two characters every 64-bit number that is not in units of a thousand meets the last condition. *)
Theorem C53_always ml p n : 2 <= ml -> 0 <= n < 2 ^ 64 -> n < 10 ^ ml * si_or_iec p ^ (6 - 0).
Proof.
  intros M N. assert (10 ^ 2 <= 10 ^ ml) by (apply Z.pow_le_mono_r; lia). apply Z.lt_le_trans with (m := 10 ^ 2 * si_or_iec p ^ 6); [destruct p; cbn; lia|]. apply Z.mul_le_mono_nonneg_r; [apply Z.pow_nonneg; destruct p; cbn; lia|auto].
Qed.
(** Different numbers that fit are shown differently. *)
Lemma digits_inj a n : digits a n -> forall m, digits a m -> n = m.
Proof. intros H m K. destruct (digits_ok a n H) as (_ & _ & X & _). destruct (digits_ok a m K) as (_ & _ & Y & _). lia. Qed.

(** A number of bytes shown without decimals is read back by the option parser, with the standard meaning of the units
    (kb_base=1000), as the number shown; up to peta. *)
Theorem C53_reads_back num ml p : 0 <= num < 2 ^ 64 -> 2 <= ml -> exists v d k w, means (num2str num ml 1 p Byte) p "B" v d k w /\ rounded num ml 0 p Byte v d k w /\
  (d = 0 -> k <= 5 -> v * si_or_iec p ^ k < 2 ^ 63 -> check_str_bytes (num2str num ml 1 p Byte) 1000 false = Some (v * si_or_iec p ^ k)).
Proof.
  intros N M. destruct (C53_value num ml 0 p Byte) as (v & d & k & w & A & B); [lia|cbn [factor]; lia|lia|lia|cbn [factor]; apply C53_always; lia|]. rewrite Z.pow_0_r in A.
  exists v, d, k, w. split; [exact A|]. split; [exact B|]. intros D K F. destruct A as (nm & a & V & PN & DG & [(_ & E1 & E2 & _)|(b & X & D0 & _)]); [|lia]. rewrite E2. subst V.
  assert (KR : 0 <= k <= 5) by (destruct B as (B & _); lia).
  assert (V0 : 0 <= v) by (destruct (digits_ok a v DG) as (_ & _ & _ & H); exact H).
  assert (G : exists s, size_suffix 1000 s (si_or_iec p ^ k) /\ not_iec_short s /\ spells (codes s) (codes nm ++ codes "B")).
  { assert (k = 0 \/ k = 1 \/ k = 2 \/ k = 3 \/ k = 4 \/ k = 5) as KK by lia.
    destruct KK as [-> | [-> | [-> | [-> | [-> | ->]]]]]; inversion PN; subst nm;
      [exists "b"%string|exists (if p then "kib" else "kb")%string|exists (if p then "mib" else "mb")%string|exists (if p then "gib" else "gb")%string|exists (if p then "tib" else "tb")%string|exists (if p then "pib" else "pb")%string].
    - split; [apply Sb|]. split; [intros []; discriminate|]. spell.
    - destruct p; (split; [first [exact (Siecb 1000 UnitsSpec.K)|exact (Ssib 1000 UnitsSpec.K)]|]); (split; [intros []; discriminate|]); spell.
    - destruct p; (split; [first [exact (Siecb 1000 UnitsSpec.M)|exact (Ssib 1000 UnitsSpec.M)]|]); (split; [intros []; discriminate|]); spell.
    - destruct p; (split; [first [exact (Siecb 1000 UnitsSpec.G)|exact (Ssib 1000 UnitsSpec.G)]|]); (split; [intros []; discriminate|]); spell.
    - destruct p; (split; [first [exact (Siecb 1000 UnitsSpec.T)|exact (Ssib 1000 UnitsSpec.T)]|]); (split; [intros []; discriminate|]); spell.
    - destruct p; (split; [first [exact (Siecb 1000 UnitsSpec.P)|exact (Ssib 1000 UnitsSpec.P)]|]); (split; [intros []; discriminate|]); spell. }
  destruct G as (s & S1 & S2 & S3). pose proof (C40_size_suffixes a v s (si_or_iec p ^ k) (codes nm ++ codes "B") [] 1000 false (Nplain a v DG) (or_introl eq_refl) S1 S2 S3 (or_introl eq_refl)) as R.
  rewrite app_nil_r in R. apply R; [|discriminate]. unfold fits. assert (0 <= v * si_or_iec p ^ k) by (apply Z.mul_nonneg_nonneg; [auto|apply Z.pow_nonneg; destruct p; cbn; lia]). lia.
Qed.
(** With decimals the parser takes the integral part without its unit; it knows no exa. *)
Theorem C53_reads_back_refuted : num2str 12345 4 1 true Byte = codes "12.1KiB" /\ check_str_bytes (codes "12.1KiB") 1000 false = Some 12 /\
  num2str (2 ^ 63) 1 1 true Byte = codes "8EiB" /\ check_str_bytes (codes "8EiB") 1000 false = Some 8.
Proof. split; [|split; [|split]]; vm_compute; reflexivity. Qed.

(** [bytes2str_simple]: the error is at most half of a hundredth of the unit and the rounding to double, the unit is the largest that
    leaves at least one, and the string fits in a buffer of 12 bytes. *)
Theorem C53_bytes x : 0 <= x < 2 ^ 64 -> exists v k, means_spaced (bytes2str_simple x) v k /\ 0 <= k <= 6 /\
  2 ^ 53 * (2 * Z.abs (v * 1024 ^ k - 100 * x)) <= 2 ^ 53 * 1024 ^ k + 2 * 100 * x /\
  (k = 0 \/ 2 ^ 53 * 1024 ^ k <= (2 ^ 53 + 1) * x) /\ (x < 1024 ^ (k + 1) \/ k = 6) /\ Z.of_nat (List.length (bytes2str_simple x)) <= 11.
Proof. apply bytes2str_spec. Qed.

(** The number may be longer than asked for. *)
Theorem C53_length_refuted : num2str 9999500 4 1 false None_ = codes "10000k" /\ num2str 10239 4 1 true None_ = codes "10.00Ki".
Proof. split; vm_compute; reflexivity. Qed.
(** With one or two characters (significant_figures=2) numbers of three digits are shown as nothing or as a thousand. *)
Theorem C53_small_refuted n : 100 <= n < 1000 -> num2str n 2 1 false Persec = codes (if n <? 500 then "0k/s" else "1k/s").
Proof.
  intros N. unfold num2str. cbn [in_units thousand]. change (base_loop 32 1 1000 0) with 0. cbv zeta.
  assert (A : strlen (dec n) <=? 2 = false) by (apply Z.leb_gt; destruct (Z_le_gt_dec (strlen (dec n)) 2) as [X|X]; [apply len_le in X; lia|lia]).
  change (div_loop 8 1000 2 n None 0) with (if strlen (dec n) <=? 2 then (n, None, 0) else div_loop 7 1000 2 (n / 1000) (Some (n mod 1000)) 1). rewrite A.
  rewrite Z.div_small, Z.mod_small by lia. change (div_loop 7 1000 2 0 (Some n) 1) with (0, Some n, 1). cbv iota beta. change (2 - strlen (dec 0) <=? 1) with true. cbv iota.
  change (1000 / 2) with 500. destruct (Z.leb_spec 500 n); destruct (Z.ltb_spec n 500); try lia; vm_compute; reflexivity.
Qed.
(** A number that does not fit with the largest prefix loses its prefix. *)
Theorem C53_huge_refuted : num2str (10 ^ 19) 1 1 false Byte = codes "0B" /\ num2str (2 ^ 64 - 1) 4 1024 true Byte = codes "16.0B".
Proof. split; vm_compute; reflexivity. Qed.
(** Eight times a number of bytes wraps. *)
Theorem C53_bits_refuted : num2str (2 ^ 61) 4 1 true Bitpersec = codes "0bit/s".
Proof. vm_compute. reflexivity. Qed.
(** The caller says that the number is in units of 1024 (eta.c:662-663), but with kb_base=1000 it is shown as if in units of 1000. *)
Theorem C53_kib_refuted num u : num2str num 4 1024 false u = num2str num 4 1000 false u.
Proof. reflexivity. Qed.

(** Cases that meet the hypotheses. *)
Example C53_ex_value : num2str 1234567 4 1 false Bytepersec = codes "1235kB/s" /\ num2str 99949 4 1 false None_ = codes "99.9k" /\ num2str 10000 4 1 true Byte = codes "9.77KiB" /\
  num2str 20000 4 1024 true Bitpersec = codes "156Mibit/s" /\ num2str 9999 4 1 false Persec = codes "9999/s".
Proof. split; [|split; [|split; [|split]]]; vm_compute; reflexivity. Qed.
Example C53_ex_back : check_str_bytes (num2str 1234567 4 1 true Byte) 1000 false = Some (1206 * 1024).
Proof. vm_compute. reflexivity. Qed.
Example C53_ex_bytes : bytes2str_simple 1536 = codes "1.50 KiB" /\ bytes2str_simple (2 ^ 64 - 1) = codes "16.00 EiB" /\ bytes2str_simple 1048575 = codes "1024.00 KiB".
Proof. split; [|split]; vm_compute; reflexivity. Qed.

Print Assumptions C53_value.
Print Assumptions C53_reads_back.
Print Assumptions C53_bytes.
Print Assumptions C53_small_refuted.
