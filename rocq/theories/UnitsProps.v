(** C40: numbers with unit suffixes mean what the documentation says. *)
From Coq Require Import ZArith List Bool Lia String Ascii.
From Verif Require Import CBase CStr UnitsModel UnitsSpec UnitsProofs.
Import ListNotations.
Open Scope Z_scope.

Ltac all_small := match goal with |- small ?l => let x := eval vm_compute in l in change (Forall (fun a => 97 <= a <= 122) x) end; repeat (apply Forall_cons; [lia|]); apply Forall_nil.
Lemma size_small kb w m : size_suffix kb w m -> small (codes w) /\ ~ In 120 (codes w) /\ (kb = 1000 \/ kb = 1024 -> 1 <= m).
Proof.
  intros H. destruct H as [| |p|p|p|p]; try destruct p; (split; [all_small|]; split; [intros I; vm_compute in I; intuition discriminate|]); intros [-> | ->]; vm_compute; discriminate.
Qed.
Lemma time_small sec w m : time_suffix sec w m -> small (codes w) /\ ~ In 120 (codes w) /\ 1 <= m.
Proof. intros H. destruct H; (split; [all_small|]; split; [intros I; vm_compute in I; intuition discriminate|]); try lia. destruct sec; lia. Qed.
Lemma ends_suffix w u t : small w -> spells w u -> tail_ok t -> ends_number (u ++ t).
Proof.
  intros S U T c r X. destruct u as [|b u].
  - cbn in X. destruct T as [->|(c' & r' & -> & Q)]; [discriminate|]. injection X as X1 X2. subst. apply sep_not_digit. auto.
  - injection X as X1 X2. subst b. apply alpha_not_digit. exact (spells_alpha w (c :: u) c u S U eq_refl).
Qed.
Lemma bytes_value s v w u t m kb stale : number s v -> small (codes w) -> ~ In 120 (codes w) -> spells (codes w) u -> follows t -> fits v -> fits (v * m) -> (stale = true -> v <> 2 ^ 63 - 1) ->
  (match codes w with [] => (1, false) | _ => get_mult_bytes_ (Some (codes w)) (fio_get_kb_base kb) end) = (m, false) -> check_str_bytes (s ++ u ++ t) kb stale = Some (v * m).
Proof.
  intros N S X U T F1 F2 ST M. destruct (follows_ok t T) as (T1 & T2). unfold check_str_bytes.
  rewrite (decimal_number s v (u ++ t) true _ false stale N (ends_suffix _ _ _ S U T1) (no_x_app _ _ (spells_no_x _ _ S X U) T2) F1 ST).
  rewrite (mult_bytes_number s v (codes w) u t (fio_get_kb_base kb) N S U T1), M. rewrite (s64_fits _ F2). reflexivity.
Qed.

(** Sizes: a signed decimal number with a documented suffix, in any mixture of small and capital letters, alone or in front of a separator,
    gives the number times the documented multiplier. [stale] is an ERANGE left in errno from before. The suffixes ki, mi, gi, ti and pi
    without a b are excluded: see below. *)
Theorem C40_size_suffixes s v w m u t kb stale : number s v -> (kb = 1000 \/ kb = 1024) -> size_suffix kb w m -> not_iec_short w -> spells (codes w) u -> follows t ->
  fits (v * m) -> (stale = true -> v <> 2 ^ 63 - 1) -> check_str_bytes (s ++ u ++ t) kb stale = Some (v * m).
Proof.
  intros N K S NI U T F ST. destruct (size_small kb w m S) as (S1 & S2 & S3). specialize (S3 K). apply (bytes_value s v w u t m kb stale N S1 S2 U T (fits_factor v m S3 F) F ST).
  destruct S as [| |p|p|p|p]; [| | | |exfalso; apply (NI p); reflexivity|]; try destruct p; destruct K as [-> | ->]; vm_compute; reflexivity.
Qed.

(** When kb_base is not set the multipliers are those of kb_base=1024. *)
Theorem C40_default_base s stale : check_str_bytes s 0 stale = check_str_bytes s 1024 stale.
Proof. reflexivity. Qed.

(** The short forms ki, mi, gi, ti, pi are documented as 1024 (kb_base=1000) but always read as k, m, g, t, p. *)
Theorem C40_short_iec_read_as_si s v p u t kb stale : number s v -> (kb = 1000 \/ kb = 1024) -> spells (codes (letter p ++ "i")) u -> follows t ->
  fits (v * si kb ^ exponent p) -> (stale = true -> v <> 2 ^ 63 - 1) -> check_str_bytes (s ++ u ++ t) kb stale = Some (v * si kb ^ exponent p).
Proof.
  intros N K U T F ST. destruct (size_small kb _ _ (Siec kb p)) as (S1 & S2 & _). assert (S3 : 1 <= si kb ^ exponent p) by (destruct (size_small kb _ _ (Ssi kb p)) as (_ & _ & Q); auto).
  apply (bytes_value s v _ u t _ kb stale N S1 S2 U T (fits_factor v _ S3 F) F ST). destruct p; destruct K as [-> | ->]; vm_compute; reflexivity.
Qed.
Theorem C40_short_iec_refuted : exists s v w m, number s v /\ size_suffix 1000 w m /\ check_str_bytes (s ++ codes w) 1000 false = Some 4000 /\ v * m = 4096.
Proof. exists [52], 4, "ki"%string, 1024. split; [apply Nplain, (D1 4); lia|]. split; [exact (Siec 1000 K)|]. split; [vm_compute; reflexivity|reflexivity]. Qed.

(** Times: the same for the documented time suffixes except the word sec. *)
Theorem C40_time_suffixes s v w m u sec stale : number s v -> time_suffix sec w m -> w <> "sec"%string -> spells (codes w) u ->
  fits (v * m) -> (stale = true -> v <> 2 ^ 63 - 1) -> check_str_time (s ++ u) sec stale = Some (v * m).
Proof.
  intros N S NS U F ST. destruct (time_small sec w m S) as (S1 & S2 & S3). unfold check_str_time.
  assert (E : ends_number u) by (rewrite <- (app_nil_r u); apply (ends_suffix (codes w)); auto; left; reflexivity).
  rewrite (decimal_number s v u false _ sec stale N E (spells_no_x _ _ S1 S2 U) (fits_factor v m S3 F) ST). rewrite (mult_time_number s v (codes w) u sec N S1 U).
  assert (M : (match codes w with [] => if sec then 1000000 else 1 | _ :: _ => get_mult_time (codes w) sec end) = m) by (destruct S; try congruence; destruct sec; vm_compute; reflexivity).
  rewrite M, (s64_fits _ F). reflexivity.
Qed.
(** 10sec is documented as ten seconds and read as ten microseconds, for every number. *)
Theorem C40_sec_read_as_microseconds s v u seconds stale : number s v -> spells (codes "sec") u -> fits v -> (stale = true -> v <> 2 ^ 63 - 1) -> check_str_time (s ++ u) seconds stale = Some v.
Proof.
  intros N U F ST. destruct (time_small seconds _ _ (Tsec seconds)) as (S1 & S2 & _). unfold check_str_time.
  assert (E : ends_number u) by (rewrite <- (app_nil_r u); apply (ends_suffix (codes "sec")); auto; left; reflexivity).
  rewrite (decimal_number s v u false _ seconds stale N E (spells_no_x _ _ S1 S2 U) F ST). rewrite (mult_time_number s v (codes "sec") u seconds N S1 U).
  change (match codes "sec" with [] => if seconds then 1000000 else 1 | _ :: _ => get_mult_time (codes "sec") seconds end) with 1. rewrite Z.mul_1_r, (s64_fits _ F). reflexivity.
Qed.
Theorem C40_sec_refuted : exists s v m, number s v /\ time_suffix true "sec" m /\ check_str_time (s ++ codes "sec") true false = Some 9 /\ v * m = 9000000.
Proof. exists [57], 9, 1000000. split; [apply Nplain, (D1 9); lia|]. split; [apply Tsec|]. split; [vm_compute; reflexivity|reflexivity]. Qed.

(** More generally no word is refused: every word other than s, m, h, d and those that start with us or ms stands for one microsecond. *)
Theorem C40_unknown_time_word s v w u seconds stale : number s v -> small w -> ~ In 120 w -> w <> [] -> spells w u -> fits v -> (stale = true -> v <> 2 ^ 63 - 1) ->
  w <> codes "s" -> w <> codes "m" -> w <> codes "h" -> w <> codes "d" -> (forall r, w <> codes "ms" ++ r) -> check_str_time (s ++ u) seconds stale = Some v.
Proof.
  intros N S1 S2 NE U F ST A1 A2 A3 A4 A5. unfold check_str_time.
  assert (E : ends_number u) by (rewrite <- (app_nil_r u); apply (ends_suffix w); auto; left; reflexivity).
  rewrite (decimal_number s v u false _ seconds stale N E (spells_no_x _ _ S1 S2 U) F ST). rewrite (mult_time_number s v w u seconds N S1 U).
  assert (M : get_mult_time w seconds = 1).
  { assert (SW : forall lit l, starts lit l = true -> exists r, l = lit ++ r).
    { induction lit as [|a lit IH]; intros l H; [exists l; reflexivity|]. destruct l as [|b l]; [discriminate|]. cbn [starts] in H. apply andb_true_iff in H. destruct H as (H1 & H2). apply Z.eqb_eq in H1. destruct (IH l H2) as (r & ->). exists r. subst b. reflexivity. }
    assert (SA : forall a l, same a l = true -> l = a).
    { induction a as [|x a IH]; intros [|y l] H; cbn [same] in H; try discriminate; [reflexivity|]. apply andb_true_iff in H. destruct H as (H1 & H2). apply Z.eqb_eq in H1. rewrite (IH l H2), H1. reflexivity. }
    destruct w as [|x w]; [congruence|]. assert (K : skip_time (x :: w) = x :: w).
    { inversion S1 as [|? ? R _]; subst. cbn [skip_time]. assert (D : digit x = false) by (unfold digit; apply andb_false_iff; right; apply Z.leb_gt; lia). rewrite D. destruct (Z.eqb_spec x 43); [lia|]. destruct (Z.eqb_spec x 45); [lia|]. reflexivity. }
    unfold get_mult_time. rewrite K. assert (A : isalpha x = true) by (inversion S1 as [|? ? R _]; subst; unfold isalpha; apply orb_true_iff; right; apply andb_true_iff; rewrite !Z.leb_le; lia). rewrite A. cbn [negb].
    assert (ML : map tolower (x :: w) = x :: w) by (apply spells_lower; [exact S1|]; clear; induction (x :: w); constructor; auto). rewrite ML.
    destruct (starts (chars "us") (x :: w) || starts (chars "usec") (x :: w)); [reflexivity|].
    destruct (starts (chars "ms") (x :: w)) eqn:M1; [exfalso; destruct (SW _ _ M1) as (r & R); exact (A5 r R)|].
    destruct (starts (chars "msec") (x :: w)) eqn:M2; [exfalso; destruct (SW _ _ M2) as (r & R); exact (A5 (codes "ec" ++ r) R)|]. cbn [orb].
    destruct (same (chars "s") (x :: w)) eqn:M3; [exfalso; exact (A1 (SA _ _ M3))|]. destruct (same (chars "m") (x :: w)) eqn:M4; [exfalso; exact (A2 (SA _ _ M4))|].
    destruct (same (chars "h") (x :: w)) eqn:M5; [exfalso; exact (A3 (SA _ _ M5))|]. destruct (same (chars "d") (x :: w)) eqn:M6; [exfalso; exact (A4 (SA _ _ M6))|]. reflexivity. }
  rewrite M. destruct w; [congruence|]. rewrite Z.mul_1_r, (s64_fits _ F). reflexivity.
Qed.

(** Percentages n% are handed on as -1 - n. *)
Theorem C40_percent s v t kb stale : number s v -> 0 <= v <= 100 -> follows t -> check_str_bytes (s ++ [37] ++ t) kb stale = Some (-1 - v).
Proof.
  intros N R T. destruct (follows_ok t T) as (T1 & T2). unfold check_str_bytes. assert (E : ends_number ([37] ++ t)) by (intros c r X; injection X as X _; subst c; reflexivity).
  assert (NX : no_x ([37] ++ t)) by (apply no_x_app; [split; cbn; intuition lia|auto]).
  rewrite (decimal_number s v ([37] ++ t) true _ false stale N E NX) by (unfold fits; lia).
  assert (G : get_mult_bytes (s ++ [37] ++ t) (fio_get_kb_base kb) = (1, true)).
  { unfold get_mult_bytes. rewrite (skip_bytes_number s v ([37] ++ t) N E). destruct (Z.ltb_spec (Z.of_nat (List.length (s ++ [37] ++ t))) 2) as [L|L]; [|reflexivity]. exfalso.
    destruct (number_form s v N) as (sg & ds & n & -> & D & _). destruct (digits_ok ds n D) as (A & _). rewrite !app_length in L. destruct ds; [congruence|]. cbn [List.length] in L. lia. }
  rewrite G, s64_fits by (unfold fits; lia). reflexivity.
Qed.

(** Hexadecimal sizes, without a suffix. *)
Theorem C40_hexadecimal s v kb stale : hexnumber s v -> fits v -> (stale = true -> v <> 2 ^ 63 - 1) -> check_str_bytes s kb stale = Some v.
Proof.
  intros H F ST. unfold check_str_bytes, str_to_decimal. rewrite (hex_base s v H), (strtoll_hex s v H F), (hex_mult s v (fio_get_kb_base kb) H).
  assert (NE : s <> []) by (destruct (hex_form s v H) as (sg & x & ds & n & -> & _); destruct sg; discriminate). destruct s as [|c s]; [congruence|]. rewrite andb_false_r. cbn [orb].
  rewrite Z.mul_1_r, (s64_fits v F). destruct (Z.eqb_spec v (2 ^ 63 - 1)) as [V|V]; [|reflexivity]. destruct stale; [exfalso; apply ST; auto|reflexivity].
Qed.
(** A hexadecimal number of seconds is taken as microseconds, and a suffix behind a hexadecimal number is ignored. *)
Theorem C40_hexadecimal_seconds_refuted s v : hexnumber s v -> fits v -> check_str_time s true false = Some v.
Proof.
  intros H F. unfold check_str_time, str_to_decimal. rewrite (hex_base s v H), (strtoll_hex s v H F), (hex_time s v H).
  assert (NE : s <> []) by (destruct (hex_form s v H) as (sg & x & ds & n & -> & _); destruct sg; discriminate). destruct s as [|c s]; [congruence|]. rewrite !andb_false_r.
  rewrite Z.mul_1_r, (s64_fits v F). reflexivity.
Qed.
Theorem C40_hexadecimal_suffix_refuted : check_str_bytes (codes "0x10k") 1024 false = Some 16.
Proof. vm_compute. reflexivity. Qed.

(** A string that does not start with a number is refused. *)
Theorem C40_no_number_refused c t kilo kb sec stale : isspace c = false -> digit c = false -> c <> 43 -> c <> 45 -> no_x (c :: t) -> str_to_decimal (c :: t) kilo kb sec stale = None.
Proof.
  intros A B P M X. unfold str_to_decimal. rewrite (base10 _ X), strtoll_base10. cbn [span]. rewrite A. cbn [snd]. apply Z.eqb_neq in P, M. rewrite P, M. unfold strtoll10. cbn [span]. rewrite B. reflexivity.
Qed.
(** A number above the largest long long is refused; a product above it silently wraps, and a number below the smallest is limited. *)
Theorem C40_too_large_refused s v r kilo kb sec stale : number s v -> ends_number r -> no_x r -> 2 ^ 63 <= v -> str_to_decimal (s ++ r) kilo kb sec stale = None.
Proof.
  intros N E X V. unfold str_to_decimal. rewrite (base10 (s ++ r) (no_x_app _ _ (no_x_number s v N) X)). rewrite (strtoll_number s v r N E).
  destruct (Z.ltb_spec v (- 2 ^ 63)); [lia|]. destruct (Z.ltb_spec (2 ^ 63 - 1) v); [|lia]. destruct (s ++ r); reflexivity.
Qed.
Theorem C40_wrapped_product_refuted : check_str_bytes (codes "16384p") 1024 false = Some 0.
Proof. vm_compute. reflexivity. Qed.
Theorem C40_limited_negative_refuted : check_str_bytes (codes "-9223372036854775809") 1024 false = Some (- 2 ^ 63).
Proof. vm_compute. reflexivity. Qed.
(** errno is not cleared before strtoll, so the largest long long is refused after an earlier range error. *)
Theorem C40_stale_errno_refuted : check_str_bytes (codes "9223372036854775807") 1024 true = None /\ check_str_bytes (codes "9223372036854775807") 1024 false = Some (2 ^ 63 - 1).
Proof. split; vm_compute; reflexivity. Qed.

(** Cases that meet the hypotheses. *)
Ltac spell := match goal with |- spells ?a ?b => let x := eval vm_compute in a in let y := eval vm_compute in b in change (spells x y) end;
  repeat (apply Forall2_cons; [first [left; reflexivity|right; split; [lia|reflexivity]]|]); apply Forall2_nil.
Lemma n_128 : number (codes "-128") (-128).
Proof. apply (Nminus (codes "128") 128). apply (DN (codes "12") 12 8); [|lia]. apply (DN (codes "1") 1 2); [|lia]. apply (D1 1). lia. Qed.
Example C40_ex_size : check_str_bytes (codes "-128KiB,4k") 1000 false = Some (-131072).
Proof.
  exact (C40_size_suffixes (codes "-128") (-128) "kib" 1024 (codes "KiB") (codes ",4k") 1000 false n_128 (or_introl eq_refl) (Siecb 1000 K) (fun p => ltac:(destruct p; discriminate))
    ltac:(spell) ltac:(right; exists 44, (codes "4k"); split; [reflexivity|]; split; [right; right; left; reflexivity|]; split; intros I; vm_compute in I; intuition discriminate) ltac:(unfold fits; lia) ltac:(discriminate)).
Qed.
Example C40_ex_time : check_str_time (codes "-128MSec") true true = Some (-128000).
Proof.
  exact (C40_time_suffixes (codes "-128") (-128) "msec" 1000 (codes "MSec") true true n_128 (Tmsec true) ltac:(discriminate) ltac:(spell) ltac:(unfold fits; lia) ltac:(lia)).
Qed.
Example C40_ex_min : check_str_time (codes "-128min") true false = Some (-128).
Proof.
  apply (C40_unknown_time_word (codes "-128") (-128) (codes "min") (codes "min") true false n_128 ltac:(all_small) ltac:(intros I; vm_compute in I; intuition discriminate) ltac:(discriminate) ltac:(spell) ltac:(unfold fits; lia)); try discriminate.
Qed.
Example C40_ex_percent : check_str_bytes (codes "50%") 0 false = Some (-51).
Proof. vm_compute. reflexivity. Qed.
Example C40_ex_hex : check_str_bytes (codes "0x1F") 0 false = Some 31.
Proof.
  apply (C40_hexadecimal _ 31); [|unfold fits; lia|discriminate]. apply (Hplain 120 (codes "1F") 31); [auto|]. apply (HN (codes "1") 1 70 15); [apply (H1 49 1); left; lia|right; lia].
Qed.
Print Assumptions C40_size_suffixes.
Print Assumptions C40_short_iec_read_as_si.
Print Assumptions C40_time_suffixes.
Print Assumptions C40_sec_read_as_microseconds.
Print Assumptions C40_percent.
Print Assumptions C40_unknown_time_word.
Print Assumptions C40_hexadecimal.
Print Assumptions C40_hexadecimal_seconds_refuted.
Print Assumptions C40_no_number_refused.
Print Assumptions C40_too_large_refused.
