(** Property C54: the zoned and sequence distributions access what they are told. *)
From Coq Require Import ZArith List Lia Bool String Permutation.
From Verif Require Import CBase CStr FloatZ UnitsModel UnitsSpec UnitsProofs UnitsProps ZdModel ZdSpec ZdProofs.
Import ListNotations.
Open Scope Z_scope.

(** The option. *)
Lemma join_no sep l c : ~ In c (codes sep) -> Forall (fun x => ~ In c x) l -> ~ In c (join sep l).
Proof. intros S F. induction F as [|x l X F IH]; [intros []|]. cbn [join]. destruct l as [|y l]; [exact X|]. rewrite !in_app_iff. intuition. Qed.
Lemma split_percent kb ts l : kb_ok kb -> sensible l -> Forall2 written ts l -> zone_split_ddir kb false (join ":" ts) = Some (map pzone (filled l)) /\ ~ In 44 (join ":" ts).
Proof.
  intros K SN F. pose proof SN as (N & LN & S & B & _). assert (P : Forall (fun z => 0 <= fst z) l) by (clear - F; induction F as [|t z ts l W F IH]; constructor; auto; destruct W; cbn; eapply digits_nonneg; eauto).
  assert (A : Forall (fun z => fst z < 2 ^ 63) l). { rewrite Forall_forall in *. intros z I. assert (fst z <= sum (map fst l)) by (apply sum_in; [apply Forall_map, Forall_forall; auto|apply in_map; auto]). lia. }
  assert (LE : List.length ts = List.length l) by (clear - F; induction F; cbn [List.length]; congruence). split.
  - unfold zone_split_ddir. rewrite (split_parse kb false ts (map coded l)); [|destruct ts; [destruct l; [congruence|discriminate]|discriminate]| | |lia].
    + destruct l as [|z l]; [congruence|]. cbn [map]. change (coded z :: map coded l) with (map coded (z :: l)). apply zones_percent; auto.
    + clear - F. induction F as [|t z ts l W F IH]; constructor; auto. apply (written_no t z 58 W). lia.
    + clear - F K A B. induction F as [|t z ts l W F IH]; [constructor|]. cbn [map]. constructor.
      * split; [apply (written_no t z 58 W); lia|]. apply (entry_written kb t z K W); [exact (Forall_inv A)|exact (Forall_inv B)].
      * apply IH; eapply Forall_inv_tail; eauto.
  - apply join_no; [intros [X44|[]]; discriminate|]. clear - F. induction F as [|t z ts l W F IH]; constructor; auto. apply (written_no t z 44 W). lia.
Qed.
Lemma suffix_letters kb w m u : size_suffix kb w m -> spells (codes w) u -> Forall (fun c => 65 <= c) u.
Proof.
  intros S U. assert (W : Forall (fun c => 97 <= c) (codes w)). { assert (X : forallb (fun c => 97 <=? c) (codes w) = true) by (destruct S as [| |p|p|p|p]; try destruct p; reflexivity). rewrite Forall_forall. rewrite forallb_forall in X. intros c I. apply X in I. lia. }
  clear - U W. unfold spells in U. induction U as [|a b v u R U IH]; constructor; [pose proof (Forall_inv W) as W0; cbv beta in W0; lia|]. apply IH. eapply Forall_inv_tail; eauto.
Qed.
Lemma suffix_factor kb w m : kb_ok kb -> size_suffix kb w m -> 0 <= m.
Proof. intros K S. destruct S as [| |p|p|p|p]; try lia; destruct K as [-> | ->]; destruct p; vm_compute; discriminate. Qed.
Lemma entry_abs kb t z : kb_ok kb -> written_abs kb t z -> fst z < 2 ^ 63 -> (t <> [] /\ entry kb true t = Some z) /\ ~ In 58 t /\ ~ In 44 t /\ 0 <= fst z /\ 0 <= snd z < 2 ^ 63.
Proof.
  intros K (a & d & n & w & m & u & -> & D1 & D2 & S & NI & U & E & L) A. destruct z as [za zb]. cbn [fst snd] in *. pose proof (digits_nonneg _ _ D1). pose proof (digits_nonneg _ _ D2). pose proof (suffix_factor kb w m K S).
  assert (0 <= zb) by (rewrite E; apply Z.mul_nonneg_nonneg; lia). pose proof (suffix_letters kb w m u S U) as UL. pose proof (digits_nonnil _ _ D1) as NN.
  assert (NU : forall c, c < 65 -> ~ In c u) by (intros c C I; rewrite Forall_forall in UL; apply UL in I; lia).
  assert (NT : forall c, c = 58 \/ c = 44 -> ~ In c (item a (d ++ u))).
  { intros c C. unfold item. change (codes "/") with [47]. rewrite !in_app_iff. pose proof (digits_not_in a za c D1 ltac:(lia)). pose proof (digits_not_in d n c D2 ltac:(lia)). pose proof (NU c ltac:(lia)). intros [X|[X|[X|X]]]; auto. cbn in X. destruct X as [X|[]]. lia. }
  split; [|split; [apply NT; auto|split; [apply NT; auto|split; lia]]]. split; [unfold item; destruct a; [congruence|discriminate]|].
  unfold entry, item. change (codes "/") with [47]. cbn [app]. rewrite (cut_app 47 a (d ++ u)) by (apply (digits_not_in a za 47 D1); lia). cbv iota beta.
  assert (DD : decimal kb (d ++ u) = Some zb). { unfold decimal. rewrite E. replace (d ++ u) with (d ++ u ++ []) by (rewrite app_nil_r; reflexivity). apply (C40_size_suffixes d n w m u [] kb false); auto; [constructor; auto|left; reflexivity|unfold fits; lia|discriminate]. }
  rewrite DD, (decimal_digits kb a za K D1 A). cbv iota beta. rewrite !u64_id by lia. reflexivity.
Qed.
Lemma split_absolute kb ts l : kb_ok kb -> l <> [] -> (List.length l <= 256)%nat -> sum (map fst l) = 100 -> Forall2 (written_abs kb) ts l -> zone_split_ddir kb true (join ":" ts) = Some (map azone l) /\ ~ In 44 (join ":" ts).
Proof.
  intros K N LN S F. assert (P : Forall (fun z => 0 <= fst z) l). { clear - F. induction F as [|t z ts l W F IH]; constructor; auto. destruct W as (a & d & n & w & m & u & _ & D & _). eapply digits_nonneg; eauto. }
  assert (A : Forall (fun z => fst z < 2 ^ 63) l). { rewrite Forall_forall in *. intros z I. assert (fst z <= sum (map fst l)) by (apply sum_in; [apply Forall_map, Forall_forall; auto|apply in_map; auto]). lia. }
  assert (X : Forall2 (fun t z => (t <> [] /\ entry kb true t = Some z) /\ ~ In 58 t /\ ~ In 44 t /\ 0 <= fst z /\ 0 <= snd z < 2 ^ 63) ts l).
  { clear - K F A. induction F as [|t z ts l W F IH]; constructor; [apply (entry_abs kb t z K W (Forall_inv A))|apply IH; eapply Forall_inv_tail; eauto]. }
  assert (LE : List.length ts = List.length l) by (clear - F; induction F; cbn [List.length]; congruence). split.
  - unfold zone_split_ddir. rewrite (split_parse kb true ts l); [|destruct ts; [destruct l; [congruence|discriminate]|discriminate]| | |lia].
    + destruct l as [|z l]; [congruence|]. apply zones_absolute; auto. clear - X. set (l' := z :: l) in *. clearbody l'. induction X; constructor; intuition.
    + clear - X. induction X; constructor; intuition.
    + clear - X. induction X; constructor; intuition.
  - apply join_no; [intros [X44|[]]; discriminate|]. clear - X. induction X; constructor; intuition.
Qed.
Lemma three kb ab r w t zr zw zt : ~ In 44 r -> ~ In 44 w -> zone_split_ddir kb ab r = Some zr -> zone_split_ddir kb ab w = Some zw -> zone_split_ddir kb ab t = Some zt ->
  parse_zoned kb ab (pre ab ++ r) = Some (zr, zr, zr) /\ parse_zoned kb ab (pre ab ++ r ++ codes "," ++ w) = Some (zr, zw, zw) /\ parse_zoned kb ab (pre ab ++ r ++ codes "," ++ w ++ codes "," ++ t) = Some (zr, zw, zt).
Proof.
  intros NR NW R W T. assert (ST : forall x, parse_zoned kb ab (pre ab ++ x) = str_split_parse kb ab x) by (intros x; destruct ab; reflexivity). rewrite !ST. change (codes ",") with [44]. cbn [app]. unfold str_split_parse.
  rewrite (cut_none 44 r NR), !(cut_app 44 r) by auto. cbv iota beta. rewrite (cut_none 44 w NW), (cut_app 44 w t) by auto. cbv iota beta. rewrite R, W, T. auto.
Qed.

(** A list of percentages is read as it is written, for all directions; sizes left out get even shares of what is left. *)
Theorem C54_percentages kb ts l : kb = 1000 \/ kb = 1024 -> sensible l -> Forall2 written ts l ->
  let zs := map (fun z => Zone (fst z) (snd z) 0) (filled l) in parse_zoned kb false (codes "zoned:" ++ join ":" ts) = Some (zs, zs, zs).
Proof. intros K S F. destruct (split_percent kb ts l K S F) as (E & N). destruct (three kb false _ _ _ _ _ _ N N E E E) as (A & _). exact A. Qed.
(** The directions may differ. *)
Theorem C54_directions kb tr lr tw lw tt lt : kb = 1000 \/ kb = 1024 -> sensible lr -> sensible lw -> sensible lt -> Forall2 written tr lr -> Forall2 written tw lw -> Forall2 written tt lt ->
  let zones l := map (fun z => Zone (fst z) (snd z) 0) (filled l) in
  parse_zoned kb false (codes "zoned:" ++ join ":" tr ++ codes "," ++ join ":" tw) = Some (zones lr, zones lw, zones lw) /\
  parse_zoned kb false (codes "zoned:" ++ join ":" tr ++ codes "," ++ join ":" tw ++ codes "," ++ join ":" tt) = Some (zones lr, zones lw, zones lt).
Proof.
  intros K S1 S2 S3 F1 F2 F3. destruct (split_percent kb tr lr K S1 F1) as (E1 & N1). destruct (split_percent kb tw lw K S2 F2) as (E2 & N2). destruct (split_percent kb tt lt K S3 F3) as (E3 & N3).
  destruct (three kb false _ _ _ _ _ _ N1 N2 E1 E2 E3) as (_ & A). exact A.
Qed.
(** So are sizes in bytes. *)
Theorem C54_bytes kb ts l : kb = 1000 \/ kb = 1024 -> l <> [] -> (List.length l <= 256)%nat -> sum (map fst l) = 100 -> Forall2 (written_abs kb) ts l ->
  let zs := map (fun z => Zone (fst z) 0 (snd z)) l in parse_zoned kb true (codes "zoned_abs:" ++ join ":" ts) = Some (zs, zs, zs).
Proof. intros K N LN S F. destruct (split_absolute kb ts l K N LN S F) as (E & NI). destruct (three kb true _ _ _ _ _ _ NI NI E E E) as (A & _). exact A. Qed.

(** The 100 numbers are divided as the percentages say: every one stands for just one zone. *)
Theorem C54_shares l : Forall (fun z => 0 <= fst z /\ 0 <= snd z) l -> sum (map fst l) = 100 ->
  forall v, 1 <= v <= 100 -> (exists i s b, chosen l v i s b) /\ (forall i s b i' s' b', chosen l v i s b -> chosen l v i' s' b' -> i = i').
Proof.
  intros P S v V. split; [apply all_chosen; auto; lia|]. intros i s b i' s' b' (a & E & _ & R) (a' & E' & _ & R').
  assert (MONO : forall i j a b, (i < j)%nat -> nth_error l i = Some (a, b) -> fst (before l i) + a <= fst (before l j)).
  { clear - P. induction P as [|z l X P IH]; intros i j a b L E; [destruct i; discriminate|]. destruct j as [|j]; [lia|]. rewrite before_cons. cbn [fst]. destruct i as [|i]; cbn [nth_error] in E.
    - injection E as ->. pose proof (before_nonneg l j P). change (fst (before ((a, b) :: l) 0)) with 0. cbn [fst]. lia.
    - rewrite before_cons. cbn [fst]. specialize (IH i j a b ltac:(lia) E). lia. }
  destruct (Nat.lt_trichotomy i i') as [L|[L|L]]; [|exact L|]; [pose proof (MONO i i' a b L E)|pose proof (MONO i' i a' b' L E')]; lia.
Qed.

(** The access is inside the zone that the number stands for, and inside the file. *)
Theorem C54_inside l blocks v i s b (is64 : bool) r : Forall (fun z => 0 <= fst z /\ 0 <= snd z) l -> sum (map snd l) <= 100 -> chosen l v i s b -> 0 < blocks < 2 ^ 53 -> 100 <= b * blocks ->
  0 <= r < (if is64 then 2 ^ 64 - 2 ^ 10 else 2 ^ 32) ->
  exists x, next_zoned (map (fun z => Zone (fst z) (snd z) 0) l) blocks v (Taus is64 r) = Some x /\ s * blocks / 100 <= x < (s + b) * blocks / 100 /\ x < blocks.
Proof.
  intros P S C L B R. apply (zoned_inside l blocks v i s b (Taus is64 r)); auto; [|destruct is64; exact R]. split; [|exact P]. intros ->. destruct C as (a & E & _). destruct i; discriminate.
Qed.
(** With sizes in bytes, too; a zone that ends beyond the file is an error. *)
Theorem C54_inside_bytes l ba blocks v i s b (is64 : bool) r : Forall (fun z => 0 <= fst z /\ 0 <= snd z) l -> sum (map snd l) < 2 ^ 64 -> chosen l v i s b -> 0 < blocks < 2 ^ 53 -> 0 < ba -> s mod ba = 0 -> b mod ba = 0 -> 0 < b ->
  s + b <= blocks * ba -> s + b <> (2 ^ 32 - 1) * ba -> 0 <= r < (if is64 then 2 ^ 64 - 2 ^ 10 else 2 ^ 32) ->
  exists x, next_zoned_abs (map (fun z => Zone (fst z) 0 (snd z)) l) ba blocks v (Taus is64 r) = Some x /\ s <= x * ba /\ (x + 1) * ba <= s + b.
Proof.
  intros P S C L BA M1 M2 B0 FIT NE R. apply Z.mod_divide in M1; [|lia]. apply Z.mod_divide in M2; [|lia]. destruct M1 as (q1 & E1). destruct M2 as (q2 & E2).
  assert (ZO : zones_ok l) by (split; [|exact P]; intros ->; destruct C as (a & E & _); destruct i; discriminate).
  assert (D1 : s / ba = q1) by (rewrite E1; apply Z.div_mul; lia). assert (DS : s + b = (q1 + q2) * ba) by (rewrite E1, E2; ring). assert (D2 : (s + b) / ba = q1 + q2) by (rewrite DS; apply Z.div_mul; lia).
  assert (Q2 : 0 < q2) by (apply (Z.mul_pos_cancel_r q2 ba); lia). assert (QL : q1 + q2 <= blocks) by (apply (Z.mul_le_mono_pos_r _ _ ba); lia).
  destruct (zoned_abs_cases l ba blocks v i s b (Taus is64 r) ZO S C L BA) as (_ & A). { rewrite D2. intros Q. apply NE. rewrite DS, Q. reflexivity. }
  destruct A as (x & EX & X1); [lia|lia|destruct is64; exact R|]. rewrite D1, D2 in X1. exists x. split; [exact EX|]. rewrite DS, E1. split; apply Z.mul_le_mono_nonneg_r; lia.
Qed.
Theorem C54_beyond l ba blocks v i s b g : Forall (fun z => 0 <= fst z /\ 0 <= snd z) l -> sum (map snd l) < 2 ^ 64 -> chosen l v i s b -> 0 < blocks < 2 ^ 53 -> 0 < ba -> (s + b) / ba <> 2 ^ 32 - 1 -> blocks < (s + b) / ba ->
  next_zoned_abs (map (fun z => Zone (fst z) 0 (snd z)) l) ba blocks v g = None.
Proof.
  intros P S C L BA NE B. assert (ZO : zones_ok l) by (split; [|exact P]; intros ->; destruct C as (a & E & _); destruct i; discriminate).
  destruct (zoned_abs_cases l ba blocks v i s b g ZO S C L BA NE) as (A & _). apply A. exact B.
Qed.

(** A sequence is read as it is written, and repeated. *)
Theorem C54_sequence ts seq io bs n : ts <> [] -> (List.length ts <= 64)%nat -> Forall2 digits ts seq -> Forall (fun e => e < 2 ^ 31) seq -> 0 <= n -> io = 0 \/ Forall (fun e => e < io / bs) seq ->
  parse_sequence (join "," ts) = Some seq /\ next_sequence seq false io bs n = Some (nth (Z.to_nat (n mod Z.of_nat (List.length seq))) seq 0).
Proof.
  intros N L F B H I. split; [apply (parse_sequence_ok ts seq); auto|]. apply next_plain; auto. intros ->. inversion F; congruence.
Qed.
(** With stride, an order of the first blocks becomes an order of all: every one is accessed once. *)
Theorem C54_stride seq io bs m : seq <> [] -> Permutation seq (map Z.of_nat (List.seq 0 (List.length seq))) -> 0 <= io < 2 ^ 64 -> 0 < bs -> Z.of_nat m * Z.of_nat (List.length seq) <= io / bs ->
  Permutation (map (fun n => next_sequence seq true io bs (Z.of_nat n)) (List.seq 0 (m * List.length seq))) (map (fun n => Some (Z.of_nat n)) (List.seq 0 (m * List.length seq))).
Proof. intros N P IO BS M. pose proof (stride_covers seq io bs N P IO BS m M) as H. unfold range in H. rewrite !map_map in H. exact H. Qed.

(** What does not hold. A single zone without a size is empty, and everything is on the first block. *)
Theorem C54_single_refuted : exists zs, parse_zoned 1024 false (codes "zoned:100/") = Some (zs, zs, zs) /\ zs = [Zone 100 0 0] /\ forall v r, 1 <= v <= 100 -> next_zoned zs 1000 v (Taus false r) = Some 0.
Proof.
  exists [Zone 100 0 0]. split; [vm_compute; reflexivity|]. split; [reflexivity|]. intros v r V. unfold next_zoned. cbn [Z.eqb]. cbv iota. cbv zeta.
  assert (E : nth (Z.to_nat (v - 1)) (gen_index [Zone 100 0 0] 0 0) no_index = no_index).
  { cbn [gen_index access_perc size_perc size]. rewrite app_nil_r. change (Index (u8 (0 + 0)) (u8 0) (u64 (0 + 0)) 0) with no_index. apply nth_repeat. }
  rewrite E. reflexivity.
Qed.
(** A zone whose share of the file is less than a block takes a block of its neighbour, even one beyond the file. *)
Theorem C54_small_refuted : exists zs, parse_zoned 1024 false (codes "zoned:50/100:50/") = Some (zs, zs, zs) /\ forall r, next_zoned zs 1000 51 (Taus false r) = Some 1000.
Proof. exists [Zone 50 100 0; Zone 50 0 0]. split; [vm_compute; reflexivity|]. intros r. reflexivity. Qed.
(** Blocks between two zones are never accessed: the third block of 150 is neither of the second percent nor of the third. *)
Theorem C54_gap_refuted : exists l : list (Z * Z), sum (map fst l) = 100 /\ sum (map snd l) = 100 /\ forall v r, 1 <= v <= 100 -> 0 <= r < 2 ^ 32 -> next_zoned (map (fun z => Zone (fst z) (snd z) 0) l) 150 v (Taus false r) <> Some 2.
Proof.
  exists (repeat (1, 1) 100). split; [reflexivity|]. split; [reflexivity|]. intros v r V R E. set (l := repeat (1, 1) 100) in *.
  destruct (all_chosen l) with (v := v) as (i & s & b & C); [apply Forall_forall; intros z I; apply repeat_spec in I; subst z; cbn; lia|cbn; lia|].
  assert (NB : b = 1) by (destruct C as (a & EN & _); apply nth_error_In, repeat_spec in EN; congruence). assert (ZO : zones_ok l) by (split; [discriminate|]; apply Forall_forall; intros z I; apply repeat_spec in I; subst z; cbn; lia).
  assert (RS : 0 <= rand_offset (Taus false r) 1 < 1) by (apply rand_offset_below; [exact R|lia]).
  destruct (index_percent l v i s b ZO ltac:(cbn; lia) C) as (S0 & _ & S1 & I1 & I2). change (map (fun z => Zone (fst z) (snd z) 0) l) with (map pzone l) in E. unfold next_zoned in E. change (150 =? 0) with false in E. cbv iota in E.
  remember (map pzone l) as zs. assert (NZ : zs <> []) by (subst zs; discriminate). destruct zs as [|z0 zs]; [congruence|]. cbv zeta in E. rewrite I1, I2 in E. subst b.
  destruct (Z.eqb_spec (s + 1) m1U) as [Q|Q]; [unfold m1U in Q; lia|]. replace (s + 1 - s) with 1 in E by lia. change (u32 1) with 1 in E. change (u64 (150 * 1) / 100) with 1 in E. rewrite (u64_id (s * 150)) in E by lia.
  assert (RE : rand_offset (Taus false r) 1 = 0) by lia. rewrite RE in E. assert (0 <= s * 150 / 100 <= 150) by (split; [apply Z.div_pos; lia|apply Z.div_le_upper_bound; lia]). rewrite u64_id in E by lia. injection E as E.
  pose proof (Z.div_mod (s * 150) 100 ltac:(lia)). pose proof (Z.mod_pos_bound (s * 150) 100 ltac:(lia)). lia.
Qed.
(** Percentages are taken modulo 256, negative sizes are all of the file. *)
Theorem C54_nonsense_refuted : exists zs, parse_zoned 1024 false (codes "zoned:356/-5") = Some (zs, zs, zs) /\ zs = [Zone 100 100 0].
Proof. eexists. split; vm_compute; reflexivity. Qed.
(** The second example of the manual, HOWTO.rst:1620, is rejected. *)
Theorem C54_manual_refuted : parse_zoned 1024 true (codes "zoned_abs=60/20G:30/100G:10/500g") = None /\ parse_zoned 1024 true (codes "zoned_abs:60/20G:30/100G:10/500g") <> None.
Proof. split; vm_compute; [reflexivity|discriminate]. Qed.
(** With random_generator=lfsr the zone only moves the offset, which is anywhere in the file. *)
Theorem C54_lfsr_refuted : next_zoned [Zone 90 10 0; Zone 10 90 0] 1000 50 (Lfsr 999) = Some 999 /\ next_zoned [Zone 90 10 0; Zone 10 90 0] 1000 95 (Lfsr 999) = Some 1099.
Proof. split; vm_compute; reflexivity. Qed.
(** The largest 64-bit random numbers give the block after the zone. *)
Theorem C54_last_refuted : next_zoned [Zone 100 100 0] 1000 1 (Taus true (2 ^ 64 - 1)) = Some 1000.
Proof. vm_compute. reflexivity. Qed.
(** A zone that ends at block 2^32-1 is ignored. *)
Theorem C54_marker_refuted : next_zoned_abs [Zone 100 0 ((2 ^ 32 - 1) * 512)] 512 (2 ^ 40) 1 (Taus false (2 ^ 31)) = Some (2 ^ 39).
Proof. vm_compute. reflexivity. Qed.
(** Elements of a sequence are taken modulo 2^32. *)
Theorem C54_wrap_refuted : parse_sequence (codes "4294967298") = Some [2].
Proof. vm_compute. reflexivity. Qed.

(** The first example of the manual. *)
Example C54_manual_ex : parse_zoned 1024 false (codes "zoned:60/10:30/20:8/30:2/40") = (let z := [Zone 60 10 0; Zone 30 20 0; Zone 8 30 0; Zone 2 40 0] in Some (z, z, z)) /\ chosen [(60, 10); (30, 20); (8, 30); (2, 40)] 61 1 10 20.
Proof. split; [vm_compute; reflexivity|]. exists 30. cbn. split; [reflexivity|lia]. Qed.
Example C54_percentages_ex : sensible [(60, Some 10); (30, Some 20); (8, None); (2, None)] /\ filled [(60, Some 10); (30, Some 20); (8, None); (2, None)] = [(60, 10); (30, 20); (8, 35); (2, 35)] /\ written (codes "60/10") (60, Some 10) /\ written (codes "8/") (8, None).
Proof.
  assert (D6 : digits [54] 6) by (apply (D1 6); lia). assert (D60 : digits [54; 48] 60) by (apply (DN [54] 6 0 D6); lia). assert (D10 : digits [49; 48] 10) by (apply (DN [49] 1 0); [apply (D1 1); lia|lia]). assert (D8 : digits [56] 8) by (apply (D1 8); lia).
  split; [|split; [reflexivity|split; [exact (Wboth _ _ _ _ D60 D10)|exact (Wblank _ _ D8)]]]. unfold sensible. split; [discriminate|]. split; [cbn; lia|]. split; [reflexivity|]. split; [|split; [cbn; lia|right; cbn; lia]].
  apply Forall_forall. intros z I. cbn in I. destruct I as [<-|[<-|[<-|[<-|[]]]]]; cbn; lia.
Qed.
Example C54_stride_ex : map (next_sequence [2; 0; 1] true (9 * 4096) 4096) [0; 1; 2; 3; 4; 5; 8; 9] = [Some 2; Some 0; Some 1; Some 5; Some 3; Some 4; Some 7; None].
Proof. vm_compute. reflexivity. Qed.

Print Assumptions C54_percentages.
Print Assumptions C54_bytes.
Print Assumptions C54_inside.
Print Assumptions C54_inside_bytes.
Print Assumptions C54_stride.
