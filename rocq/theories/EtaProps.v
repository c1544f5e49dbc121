(** Property C59: the status line says what it should and fits. *)
From Coq Require Import ZArith List Lia Bool.
From Verif Require Import CBase EtaModel EtaSpec EtaProofs.
Import ListNotations.
Open Scope Z_scope.

(** The condensed letters of any number of jobs can be read back. *)
Theorem C59_read_back l : l <> [] -> Z.of_nat (List.length l) < 2 ^ 32 -> expand (condensed l) Start = Some l.
Proof.
  intros NE L. destruct l as [|c l]; [congruence|]. cbn [condensed List.length] in *. destruct (condense_ends l c 1) as (b & E). rewrite E, removelast_snoc. rewrite (condense_expand l c 1 b ltac:(lia) ltac:(lia) E). reflexivity.
Qed.
(** So no two states of the jobs look the same. *)
Theorem C59_unambiguous l l' : Z.of_nat (List.length l) < 2 ^ 32 -> Z.of_nat (List.length l') < 2 ^ 32 -> condensed l = condensed l' -> l = l'.
Proof.
  intros L L' E. assert (Z0 : forall x : list Z, Z.of_nat (List.length x) < 2 ^ 32 -> x = [] \/ expand (condensed x) Start = Some x) by (intros x X; destruct x; [auto|right; apply C59_read_back; [discriminate|auto]]).
  destruct (Z0 l L) as [->|A], (Z0 l' L') as [->|B]; [reflexivity| | |congruence]; [rewrite <- E in B; cbn in B; discriminate|rewrite E in A; cbn in A; discriminate].
Qed.
(** It fits, with the NUL, into the five characters that there are for each job. *)
Theorem C59_fits l : l <> [] -> Z.of_nat (List.length l) < 2 ^ 32 -> Z.of_nat (List.length (condensed l)) + 1 <= 5 * Z.of_nat (List.length l).
Proof.
  intros NE L. destruct l as [|c l]; [congruence|]. cbn [condensed List.length] in *. pose proof (condense_length l c 1 ltac:(lia) ltac:(lia)) as C. destruct (condense_ends l c 1) as (b & E). rewrite E in *. rewrite removelast_snoc. rewrite app_length in C. cbn [List.length] in C. lia.
Qed.
(** Before the last comma is removed it fits as well. *)
Theorem C59_fits_before c l : Z.of_nat (List.length (c :: l)) < 2 ^ 32 -> Z.of_nat (List.length (condense l c 1)) <= 5 * Z.of_nat (List.length (c :: l)).
Proof. intros L. cbn [List.length] in *. pose proof (condense_length l c 1 ltac:(lia) ltac:(lia)). lia. Qed.
(** What a letter says. *)
Theorem C59_letters t t' : letter t = letter t' ->
  (rs t = rs t' \/ (In (rs t) [Initialized; SettingUp] /\ In (rs t') [Initialized; SettingUp])) /\ (rs t = Running -> random t = random t') /\
  (rs t = Reaped -> err t = err t' /\ (err t = false -> sig t = sig t')).
Proof.
  intros E. assert (T : of_td t = of_td t') by (rewrite <- !letter_tells, E; reflexivity). clear E. unfold of_td in T. destruct t as [r1 e1 g1 rd1 wr1 x1 mr1 mw1], t' as [r2 e2 g2 rd2 wr2 x2 mr2 mw2]. cbn [rs err sig random] in *.
  destruct r1; destruct r2; try discriminate T; cbn [In]; (split; [tauto|]); (split; [|]); try discriminate; intros _; [congruence|]. destruct e1, e2; try discriminate T; split; congruence.
Qed.
(** Times can be read back. *)
Theorem C59_time eta : 0 <= eta < 86400 * 2 ^ 32 -> seconds (eta_to_str eta) 0 0 = eta.
Proof.
  intros R. unfold eta_to_str. destruct (Z.eqb_spec eta (2 ^ 64 - 1)); [lia|]. cbv zeta. set (s := eta mod 60). set (m := eta / 60 mod 60). set (h := eta / 60 / 60 mod 24). assert (D0 : 0 <= eta / 60 / 60 / 24 < 2 ^ 32) by (rewrite !Z.div_div by lia; split; [apply Z.div_pos; lia|apply Z.div_lt_upper_bound; lia]). rewrite (u32_id _ D0). set (d := eta / 60 / 60 / 24) in *.
  assert (EQ : eta = d * 86400 + h * 3600 + m * 60 + s) by (unfold d, h, m, s; pose proof (Z.div_mod eta 60 ltac:(lia)); pose proof (Z.div_mod (eta / 60) 60 ltac:(lia)); pose proof (Z.div_mod (eta / 60 / 60) 24 ltac:(lia)); lia).
  assert (S0 : 0 <= s < 60) by (apply Z.mod_pos_bound; lia). assert (M0 : 0 <= m < 60) by (apply Z.mod_pos_bound; lia). assert (H0 : 0 <= h < 24) by (apply Z.mod_pos_bound; lia). clearbody s m h d.
  destruct (pu2_val s ltac:(lia)) as (SA & SB & _). destruct (pu2_val m ltac:(lia)) as (MA & MB & _). destruct (pu2_val h ltac:(lia)) as (HA & HB & _). destruct (pu2_val d ltac:(lia)) as (DA & DB & _).
  assert (T : forall t, seconds (pu2 m ++ [109; 58] ++ pu2 s ++ [115]) 0 t = t + m * 60 + s) by (intros t; rewrite seconds_digits by auto; rewrite MB; cbn [app seconds is_digit andb Z.leb Z.eqb Z.compare Pos.compare Pos.compare_cont Pos.eqb]; rewrite seconds_digits by auto; rewrite SB; reflexivity).
  assert (TH : forall t, seconds (pu2 h ++ [104; 58] ++ pu2 m ++ [109; 58] ++ pu2 s ++ [115]) 0 t = t + h * 3600 + m * 60 + s) by (intros t; rewrite seconds_digits by auto; rewrite HB; cbn [app seconds is_digit andb Z.leb Z.eqb Z.compare Pos.compare Pos.compare_cont Pos.eqb]; apply T).
  destruct (Z.eqb_spec d 0) as [->|ND]; cbn [app].
  - destruct (Z.eqb_spec h 0) as [->|]; cbn [andb app]; [rewrite T; lia|]. rewrite <- app_assoc, TH. lia.
  - rewrite andb_false_r, <- !app_assoc. rewrite seconds_digits by auto. rewrite DB. cbn [app seconds is_digit andb Z.leb Z.eqb Z.compare Pos.compare Pos.compare_cont Pos.eqb]. pose proof (TH (0 + d * 86400)) as Q. cbn [app] in Q. rewrite Q. lia.
Qed.
(** The units are without gaps: minutes and seconds always, hours from an hour on, days from a day on. *)
Theorem C59_units eta : 0 <= eta < 86400 * 2 ^ 32 ->
  filter (fun c => negb (is_digit c || (c =? 58))) (eta_to_str eta) = (if 86400 <=? eta then [100] else []) ++ (if 3600 <=? eta then [104] else []) ++ [109; 115].
Proof.
  intros R. unfold eta_to_str. destruct (Z.eqb_spec eta (2 ^ 64 - 1)); [lia|]. cbv zeta. set (s := eta mod 60). set (m := eta / 60 mod 60). set (h := eta / 60 / 60 mod 24). assert (D0 : 0 <= eta / 60 / 60 / 24 < 2 ^ 32) by (rewrite !Z.div_div by lia; split; [apply Z.div_pos; lia|apply Z.div_lt_upper_bound; lia]). rewrite (u32_id _ D0). set (d := eta / 60 / 60 / 24) in *.
  assert (EQ : eta = d * 86400 + h * 3600 + m * 60 + s) by (unfold d, h, m, s; pose proof (Z.div_mod eta 60 ltac:(lia)); pose proof (Z.div_mod (eta / 60) 60 ltac:(lia)); pose proof (Z.div_mod (eta / 60 / 60) 24 ltac:(lia)); lia).
  assert (S0 : 0 <= s < 60) by (apply Z.mod_pos_bound; lia). assert (M0 : 0 <= m < 60) by (apply Z.mod_pos_bound; lia). assert (H0 : 0 <= h < 24) by (apply Z.mod_pos_bound; lia). clearbody s m h d.
  destruct (pu2_val s ltac:(lia)) as (SA & _). destruct (pu2_val m ltac:(lia)) as (MA & _). destruct (pu2_val h ltac:(lia)) as (HA & _). destruct (pu2_val d ltac:(lia)) as (DA & _).
  assert (FD : forall ds, all_digits ds -> filter (fun c => negb (is_digit c || (c =? 58))) ds = []) by (intros ds A; induction A as [|x ds X A IH]; [reflexivity|]; cbn [filter]; rewrite X; exact IH).
  destruct (Z.eqb_spec d 0), (Z.eqb_spec h 0); destruct (Z.leb_spec 86400 eta), (Z.leb_spec 3600 eta); try lia; cbn [andb]; rewrite ?filter_app, ?(FD _ SA), ?(FD _ MA), ?(FD _ HA), ?(FD _ DA); reflexivity.
Qed.
(** And fit into the 128 characters of their callers. *)
Theorem C59_time_fits eta : 0 <= eta < 2 ^ 64 -> (List.length (eta_to_str eta) < 128)%nat.
Proof.
  intros R. unfold eta_to_str. destruct (_ =? _); [cbn; lia|]. cbv zeta. assert (U : 0 <= u32 (eta / 60 / 60 / 24) < 2 ^ 32) by (apply Z.mod_pos_bound; lia). pose proof (Z.mod_pos_bound eta 60 ltac:(lia)). pose proof (Z.mod_pos_bound (eta / 60) 60 ltac:(lia)). pose proof (Z.mod_pos_bound (eta / 60 / 60) 24 ltac:(lia)).
  destruct (pu2_val (u32 (eta / 60 / 60 / 24)) U) as (_ & _ & A). destruct (pu2_val (eta mod 60) ltac:(lia)) as (_ & _ & B). destruct (pu2_val (eta / 60 mod 60) ltac:(lia)) as (_ & _ & C). destruct (pu2_val (eta / 60 / 60 mod 24) ltac:(lia)) as (_ & _ & D).
  destruct (_ =? 0), (_ =? 0); cbn [andb app]; repeat rewrite app_length; cbn [List.length]; repeat rewrite app_length; cbn [List.length]; repeat rewrite app_length; cbn [List.length]; lia.
Qed.

(** Cases: PPR, and twelve jobs that were reaped. *)
Example C59_ex : condensed [80; 80; 82] = [80; 40; 50; 41; 44; 82; 40; 49; 41] /\ condensed (repeat 95 12) = [95; 40; 49; 50; 41].
Proof. split; vm_compute; reflexivity. Qed.
Example C59_ex_back : expand (condensed [80; 80; 82; 95; 95]) Start = Some [80; 80; 82; 95; 95].
Proof. apply C59_read_back; [discriminate|cbn; lia]. Qed.
(** 02d:00h:01m:09s. *)
Example C59_ex_time : eta_to_str (2 * 86400 + 69) = [48; 50; 100; 58; 48; 48; 104; 58; 48; 49; 109; 58; 48; 57; 115].
Proof. vm_compute. reflexivity. Qed.
Example C59_ex_letters : map letter [Td Running false false true true true 100 0; Td Running false false false true false 50 50; Td Reaped false true true false false 50 50] = [114; 87; 75].
Proof. reflexivity. Qed.
(** A letter does not say if a job mixes reads and writes: with 100% reads it looks like a reader. *)
Theorem C59_mix_refuted : ~ (forall t t', letter t = letter t' -> rs t = Running -> wr t = wr t').
Proof. intros H. specialize (H (Td Running false false true true true 100 0) (Td Running false false true false true 50 50) eq_refl eq_refl). discriminate. Qed.
(** Beyond 2^32 days they are cut. *)
Theorem C59_days_refuted : ~ (forall eta, 0 <= eta < 2 ^ 64 - 1 -> seconds (eta_to_str eta) 0 0 = eta).
Proof. intros H. specialize (H (86400 * 2 ^ 32) ltac:(lia)). vm_compute in H. discriminate. Qed.

Print Assumptions C59_read_back. Print Assumptions C59_unambiguous. Print Assumptions C59_fits. Print Assumptions C59_fits_before. Print Assumptions C59_letters. Print Assumptions C59_time. Print Assumptions C59_units. Print Assumptions C59_time_fits. Print Assumptions C59_mix_refuted. Print Assumptions C59_days_refuted.
