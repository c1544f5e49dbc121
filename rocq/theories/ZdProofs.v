(** Proofs about the zoned and sequence distributions, for C54. *)
From Coq Require Import ZArith List Lia Bool String Permutation.
From Verif Require Import CBase CStr FloatZ FlowProofs UnitsModel UnitsSpec UnitsProofs UnitsProps ZdModel ZdSpec.
Import ListNotations.
Open Scope Z_scope.

(** Splitting of strings. *)
Lemma fields_app sep x t : ~ In sep x -> fields sep (x ++ sep :: t) = x :: fields sep t.
Proof.
  induction x as [|c x IH]; intros H; cbn [app fields].
  - rewrite Z.eqb_refl. reflexivity.
  - destruct (Z.eqb_spec c sep) as [E|E]; [exfalso; apply H; left; auto|]. rewrite IH by (intros I; apply H; right; auto). reflexivity.
Qed.
Lemma fields_one sep x : ~ In sep x -> fields sep x = [x].
Proof.
  induction x as [|c x IH]; intros H; cbn [fields]; [reflexivity|]. destruct (Z.eqb_spec c sep) as [E|E]; [exfalso; apply H; left; auto|]. rewrite IH by (intros I; apply H; right; auto). reflexivity.
Qed.
Lemma fields_join sep s l : codes s = [sep] -> l <> [] -> Forall (fun x => ~ In sep x) l -> fields sep (join s l) = l.
Proof.
  intros S N F. induction F as [|x l X F IH]; [congruence|]. cbn [join]. destruct l as [|y l]; [apply fields_one; auto|].
  rewrite S. cbn [app]. rewrite fields_app by auto. f_equal. apply IH. discriminate.
Qed.
Lemma cut_app sep x t : ~ In sep x -> cut sep (x ++ sep :: t) = (x, Some t).
Proof.
  induction x as [|c x IH]; intros H; cbn [app cut]; [rewrite Z.eqb_refl; reflexivity|]. destruct (Z.eqb_spec c sep) as [E|E]; [exfalso; apply H; left; auto|]. rewrite IH by (intros I; apply H; right; auto). reflexivity.
Qed.
Lemma cut_none sep x : ~ In sep x -> cut sep x = (x, None).
Proof. induction x as [|c x IH]; intros H; cbn [cut]; [reflexivity|]. destruct (Z.eqb_spec c sep) as [E|E]; [exfalso; apply H; left; auto|]. rewrite IH by (intros I; apply H; right; auto). reflexivity. Qed.

Lemma digits_not_in a A c : digits a A -> (c < 48 \/ 57 < c) -> ~ In c a.
Proof. intros H R I. destruct (digits_ok a A H) as (_ & D & _). unfold all_digits in D. rewrite Forall_forall in D. apply D, digit_range in I. lia. Qed.
Lemma digits_nonneg a A : digits a A -> 0 <= A.
Proof. intros H. destruct (digits_ok a A H) as (_ & _ & _ & X). exact X. Qed.
Lemma digits_nonnil a A : digits a A -> a <> [].
Proof. intros H. destruct (digits_ok a A H) as (X & _). exact X. Qed.

Definition kb_ok (kb : Z) : Prop := kb = 1000 \/ kb = 1024.
Lemma decimal_digits kb a A : kb_ok kb -> digits a A -> A < 2 ^ 63 -> decimal kb a = Some A.
Proof.
  intros K D L. pose proof (digits_nonneg a A D). unfold decimal. pose proof (C40_size_suffixes a A "" 1 [] [] kb false (Nplain a A D) K (Snone kb)) as H1.
  rewrite !app_nil_r in H1. rewrite Z.mul_1_r in H1. apply H1; try (unfold fits; lia); try discriminate.
  - intros p E. destruct p; discriminate.
  - constructor.
  - left. reflexivity.
Qed.
Lemma atoi_digits b B : digits b B -> B < 2 ^ 31 -> atoi b = B.
Proof.
  intros D L. pose proof (digits_nonneg b B D). unfold atoi. pose proof (strtoll_number b B [] (Nplain b B D)) as S1. rewrite app_nil_r in S1. rewrite S1 by (intros c t E; discriminate).
  destruct (Z.ltb_spec B (- 2 ^ 63)); [lia|]. destruct (Z.ltb_spec (2 ^ 63 - 1) B); [lia|]. cbv zeta. unfold u32. rewrite Z.mod_small by lia. destruct (Z.ltb_spec B (2 ^ 31)); lia.
Qed.
Lemma perc_digits b B : digits b B -> 1 <= B <= 100 -> perc_of b = B.
Proof. intros D L. unfold perc_of. rewrite (atoi_digits b B D) by lia. unfold u64. rewrite Z.mod_small by lia. cbv zeta. destruct (Z.ltb_spec 100 B); [lia|]. destruct (Z.eqb_spec B 0); lia. Qed.

Lemma u64_id x : 0 <= x < 2 ^ 64 -> u64 x = x.
Proof. intros H. unfold u64. apply Z.mod_small. lia. Qed.

Definition coded (z : Z * option Z) : Z * Z := (fst z, match snd z with Some b => b | None => m1U end).
Lemma entry_written kb t z : kb_ok kb -> written t z -> fst z < 2 ^ 63 -> match snd z with Some b => 1 <= b <= 100 | None => True end -> entry kb false t = Some (coded z).
Proof.
  intros K W L B. unfold entry, coded. destruct W as [a A b B0 D1 D2|a A D1|a A D1]; cbn [fst snd] in *; pose proof (digits_nonneg _ _ D1); pose proof (digits_not_in a A 47 D1 ltac:(lia)) as N.
  - unfold item. change (codes "/") with [47]. cbn [app]. rewrite (cut_app 47 a b N). cbv iota beta. rewrite (perc_digits b B0 D2 B), (decimal_digits kb a A K D1 L), u64_id by lia. reflexivity.
  - unfold item. change (codes "/") with [47]. cbn [app]. rewrite (cut_app 47 a [] N). cbv iota beta. rewrite (decimal_digits kb a A K D1 L), u64_id by lia. reflexivity.
  - rewrite (cut_none 47 a N). cbv iota beta. rewrite (decimal_digits kb a A K D1 L), u64_id by lia. reflexivity.
Qed.
Lemma written_no t z c : written t z -> (c < 47 \/ 57 < c) -> ~ In c t /\ t <> [].
Proof.
  intros W R. destruct W as [a A b B D1 D2|a A D1|a A D1]; pose proof (digits_not_in a A c D1 ltac:(lia)) as N; pose proof (digits_nonnil _ _ D1) as NN; unfold item; change (codes "/") with [47].
  - pose proof (digits_not_in b B c D2 ltac:(lia)). split; [rewrite in_app_iff; cbn; intuition lia|]. destruct a; [congruence|discriminate].
  - split; [rewrite in_app_iff; cbn; intuition lia|]. destruct a; [congruence|discriminate].
  - auto.
Qed.
(** Any reading of the single fields gives the reading of the list. *)
Lemma entries_all kb ab : forall fs es m, Forall2 (fun f e => f <> [] /\ entry kb ab f = Some e) fs es -> (List.length fs <= m)%nat -> entries kb ab m fs = Some es.
Proof.
  intros fs es m F. revert m. induction F as [|f e fs es (N & E) F IH]; intros m L; [destruct m; reflexivity|]. destruct m as [|m]; [cbn in L; lia|]. destruct f as [|c f]; [congruence|].
  cbn [entries]. rewrite E. rewrite IH by (cbn in L; lia). reflexivity.
Qed.
Lemma split_parse kb ab fs es : fs <> [] -> Forall (fun x => ~ In 58 x) fs -> Forall2 (fun f e => f <> [] /\ entry kb ab f = Some e) fs es -> (List.length fs <= 256)%nat ->
  split_parse_ddir kb ab zonesplit_max (join ":" fs) = Some es.
Proof. intros N F E L. unfold split_parse_ddir. rewrite (fields_join 58 ":" fs eq_refl N F). apply entries_all; auto. Qed.

(** Sums. *)
Lemma sum_nonneg l : Forall (fun x => 0 <= x) l -> 0 <= sum l.
Proof. intros H. induction H; cbn [sum]; lia. Qed.
Lemma sum_in l x : Forall (fun x => 0 <= x) l -> In x l -> x <= sum l.
Proof. intros H. induction H as [|y l Y H IH]; intros I; [destruct I|]. cbn [sum]. pose proof (sum_nonneg l H). destruct I as [I|I]; [lia|specialize (IH I); lia]. Qed.
Lemma sum_but_plain l : Forall (fun x => x <> 255) l -> sum_but l = sum l /\ missing l = 0.
Proof. intros H. induction H as [|x l X H (A & B)]; [split; reflexivity|]. unfold sum_but, missing in *. cbn [fold_right sum]. destruct (Z.eqb_spec x u8m1); [unfold u8m1 in *; lia|]. lia. Qed.
Lemma missing_nonneg l : 0 <= missing l.
Proof. unfold missing. induction l as [|x l IH]; cbn [fold_right]; [lia|]. destruct (x =? u8m1); lia. Qed.

Lemma sizes_sum l : Forall (fun z => match snd z with Some b => 1 <= b <= 100 | None => True end) l ->
  sum_but (map (fun z => u8 (snd (coded z))) l) = given l /\ missing (map (fun z => u8 (snd (coded z))) l) = left_out l.
Proof.
  intros H. unfold given, left_out, sum_but, missing. induction H as [|[a o] l X H (A & B)]; [split; reflexivity|]. cbn [map fold_right sum coded fst snd] in *. destruct o as [b|]; cbn [snd].
  - assert (E : u8 b = b) by (unfold u8; apply Z.mod_small; lia). rewrite !E. destruct (Z.eqb_spec b u8m1) as [Q|Q]; [unfold u8m1 in Q; lia|]. rewrite A, B. lia.
  - change (u8 m1U) with 255. change (255 =? u8m1) with true. cbv iota. rewrite A, B. lia.
Qed.

Definition pzone (z : Z * Z) : zone := Zone (fst z) (snd z) 0.
Definition azone (z : Z * Z) : zone := Zone (fst z) 0 (snd z).
Lemma u8_id x : 0 <= x < 256 -> u8 x = x.
Proof. intros H. unfold u8. apply Z.mod_small. lia. Qed.
Lemma zones_percent l : Forall (fun z => 0 <= fst z) l -> sensible l -> zones_of false (map coded l) = Some (map pzone (filled l)).
Proof.
  intros P (N & LN & S & B & G & O). unfold zones_of. cbv zeta. rewrite !map_map. cbn [access_perc size_perc fst].
  assert (PF : Forall (fun x => 0 <= x) (map fst l)) by (apply Forall_map; exact P).
  assert (A8 : Forall (fun z => 0 <= fst z <= 100) l). { rewrite Forall_forall in *. intros z I. split; [apply P; auto|]. rewrite <- S. apply sum_in; [apply Forall_map, Forall_forall; auto|apply in_map; auto]. }
  assert (E1 : map (fun x => u8 (fst (coded x))) l = map fst l). { apply map_ext_in. intros z I. rewrite Forall_forall in A8. specialize (A8 z I). cbn [coded fst]. apply u8_id. lia. }
  rewrite E1. destruct (sum_but_plain (map fst l)) as (S1 & M1). { apply Forall_map. rewrite Forall_forall in *. intros z I. specialize (A8 z I). lia. }
  rewrite S1, M1, S. destruct (sizes_sum l B) as (S2 & M2). rewrite S2, M2. change (100 <? 100) with false. destruct (Z.ltb_spec 100 (given l)); [lia|]. cbn [orb andb]. change (0 =? 1) with false. cbn [andb].
  unfold filled. rewrite !map_map. rewrite map_length. replace ((left_out l =? 1) && (List.length l =? 1)%nat) with false.
  2: { symmetry. apply andb_false_iff. destruct O as [O|O]; [left; rewrite O; reflexivity|right; apply Nat.eqb_neq; lia]. }
  f_equal. apply map_ext_in. intros [a o] I. rewrite Forall_forall in A8, B. specialize (A8 _ I). specialize (B _ I). cbn [coded fst snd access_perc size_perc pzone size negb andb] in *.
  rewrite (u8_id a) by lia. destruct (Z.eqb_spec a u8m1) as [Q|Q]; [unfold u8m1 in Q; lia|]. unfold pzone. cbn [fst snd]. f_equal. destruct o as [b|].
  - rewrite u8_id by lia. destruct (Z.eqb_spec b u8m1) as [Q2|Q2]; [unfold u8m1 in Q2; lia|]. reflexivity.
  - change (u8 m1U =? u8m1) with true. reflexivity.
Qed.
Lemma zones_absolute l : l <> [] -> Forall (fun z => 0 <= fst z /\ 0 <= snd z < 2 ^ 63) l -> sum (map fst l) = 100 -> zones_of true l = Some (map azone l).
Proof.
  intros N P S. unfold zones_of. cbv zeta. rewrite !map_map. cbn [access_perc size_perc fst].
  assert (PF : Forall (fun x => 0 <= x) (map fst l)) by (apply Forall_map; eapply Forall_impl; [|exact P]; cbn; lia).
  assert (A8 : Forall (fun z => 0 <= fst z <= 100) l). { rewrite Forall_forall in *. intros z I. split; [apply P; auto|]. rewrite <- S. apply sum_in; [apply Forall_forall; auto|apply in_map; auto]. }
  assert (E1 : map (fun x => u8 (fst x)) l = map fst l). { apply map_ext_in. intros z I. rewrite Forall_forall in A8. specialize (A8 z I). apply u8_id. lia. }
  rewrite E1. destruct (sum_but_plain (map fst l)) as (S1 & M1). { apply Forall_map. rewrite Forall_forall in *. intros z I. specialize (A8 z I). lia. }
  rewrite S1, M1, S. change ((100 <? 100) || (100 <? 0)) with false. change (100 <? 100) with false. change (0 =? 1) with false. cbn [andb negb]. cbv iota. f_equal. apply map_ext_in. intros [a b] I.
  rewrite Forall_forall in A8. specialize (A8 _ I). cbn [fst snd access_perc size_perc size] in *. rewrite (u8_id a) by lia. destruct (Z.eqb_spec a u8m1) as [Q|Q]; [unfold u8m1 in Q; lia|]. reflexivity.
Qed.

(** The table. *)
Lemma nth_repeat_ {A} (x d : A) n i : (i < n)%nat -> nth i (repeat x n) d = x.
Proof. revert i. induction n as [|n IH]; intros i H; [lia|]. destruct i; cbn [repeat nth]; [reflexivity|apply IH; lia]. Qed.
Lemma before_cons z l i : before (z :: l) (S i) = (fst z + fst (before l i), snd z + snd (before l i)).
Proof. reflexivity. Qed.
Lemma before_nonneg l i : Forall (fun z => 0 <= fst z /\ 0 <= snd z) l -> 0 <= fst (before l i) /\ 0 <= snd (before l i).
Proof. intros H. revert i. induction H as [|z l X H IH]; intros i; [destruct i; cbn; lia|]. destruct i; [cbn; lia|]. rewrite before_cons. specialize (IH i). cbn [fst snd]. lia. Qed.
Lemma before_total l i z : Forall (fun z => 0 <= fst z /\ 0 <= snd z) l -> nth_error l i = Some z -> fst (before l i) + fst z <= sum (map fst l) /\ snd (before l i) + snd z <= sum (map snd l).
Proof.
  intros H. revert i. induction H as [|y l Y H IH]; intros i E; [destruct i; discriminate|].
  assert (0 <= sum (map fst l) /\ 0 <= sum (map snd l)) by (split; apply sum_nonneg, Forall_map; eapply Forall_impl; try exact H; cbn; lia).
  destruct i as [|i]; cbn [nth_error map sum] in *; [injection E as ->; cbn; lia|]. rewrite before_cons. cbn [fst snd]. specialize (IH i E). lia.
Qed.
Lemma table_nth f : forall l v i s b s0 z0, (forall z, access_perc (f z) = fst z) -> Forall (fun z => 0 <= fst z /\ 0 <= snd z) l -> chosen l v i s b ->
  exists a, nth_error l i = Some (a, b) /\ nth (Z.to_nat (v - 1)) (gen_index (map f l) s0 z0) no_index =
    (let z := f (a, b) in let sp := s0 + sum (map (fun z => size_perc (f z)) (firstn i l)) in let sz := fold_left (fun x z => u64 (x + size (f z))) (firstn i l) z0 in
     Index (u8 (sp + size_perc z)) (u8 sp) (u64 (sz + size z)) sz).
Proof.
  induction l as [|z l IH]; intros v i s b s0 z0 FA P (a & E & S & V); [destruct i; discriminate|].
  destruct z as [a0 b0]. cbn [map gen_index]. rewrite FA. cbn [fst]. pose proof (Forall_inv P) as P0. pose proof (Forall_inv_tail P) as P1. cbn [fst snd] in P0. destruct i as [|i]; cbn [nth_error] in E.
  - injection E as -> ->. cbn in V. exists a. split; [reflexivity|]. rewrite app_nth1 by (rewrite repeat_length; lia). rewrite nth_repeat_ by lia. cbn [firstn map sum fold_left]. rewrite Z.add_0_r. reflexivity.
  - rewrite before_cons in S, V. cbn [fst snd] in S, V. pose proof (before_nonneg l i P1) as BN.
    rewrite app_nth2 by (rewrite repeat_length; lia). rewrite repeat_length. replace (Z.to_nat (v - 1) - Z.to_nat a0)%nat with (Z.to_nat (v - a0 - 1)) by lia.
    destruct (IH (v - a0) i (snd (before l i)) b (s0 + size_perc (f (a0, b0))) (u64 (z0 + size (f (a0, b0)))) FA P1) as (a' & Q1 & Q2).
    { exists a. split; [exact E|]. split; [reflexivity|]. lia. }
    exists a'. split; [exact Q1|]. rewrite Q2. cbn [firstn map sum fold_left]. rewrite Z.add_assoc. reflexivity.
Qed.
Lemma all_chosen l : Forall (fun z => 0 <= fst z /\ 0 <= snd z) l -> forall v, 0 < v <= sum (map fst l) -> exists i s b, chosen l v i s b.
Proof.
  intros P. induction P as [|[a b] l X P IH]; intros v V; cbn [map sum fst snd] in *; [lia|]. destruct (Z_le_gt_dec v a) as [L|L].
  - exists 0%nat, 0, b. exists a. split; [reflexivity|]. split; [reflexivity|]. cbn. lia.
  - destruct (IH (v - a) ltac:(lia)) as (i & s & b' & a' & E & SE & V'). exists (S i), (b + s), b'. exists a'. split; [exact E|]. rewrite before_cons. cbn [fst snd]. lia.
Qed.
Lemma sizes_fold l : forall z0, Forall (fun z => 0 <= snd z) l -> 0 <= z0 -> z0 + sum (map snd l) < 2 ^ 64 -> fold_left (fun x z => u64 (x + size (azone z))) l z0 = z0 + sum (map snd l).
Proof.
  induction l as [|z l IH]; intros z0 P Z0 L; cbn [fold_left map sum]; [lia|]. pose proof (Forall_inv P) as P0. pose proof (Forall_inv_tail P) as P1.
  assert (0 <= sum (map snd l)) by (apply sum_nonneg, Forall_map; exact P1). cbn [map sum] in L. cbv beta in P0. cbn [azone size snd]. rewrite u64_id by lia. rewrite IH by (auto; lia). lia.
Qed.
Lemma firstn_forall {A} (P : A -> Prop) i l : Forall P l -> Forall P (firstn i l).
Proof. intros H. revert i. induction H; intros i; destruct i; cbn [firstn]; constructor; auto. Qed.

(** The draw within a zone. *)
Definition good_draw (g : draw) : Prop := match g with Taus false r => 0 <= r < 2 ^ 32 | Taus true r => 0 <= r < 2 ^ 64 - 2 ^ 10 | Lfsr _ => False end.
Lemma rand_offset_below g n : good_draw g -> 0 < n < 2 ^ 53 -> 0 <= rand_offset g n < n.
Proof.
  intros G N. destruct g as [b64 r|]; [|destruct G]. cbn [rand_offset]. rewrite (rne53_small n) by lia.
  assert (R : exists k, k = (if b64 then 64 else 32) /\ 0 <= rne53 r /\ (2 ^ 53 + 1) * (n * rne53 r) < 2 ^ 53 * (n * 2 ^ k)).
  { eexists. split; [reflexivity|]. destruct b64; cbn [good_draw] in G.
    - assert (M : rne53 r <= rne53 (2 ^ 64 - 2 ^ 10 - 1)) by (apply rne53_mono; lia). change (rne53 (2 ^ 64 - 2 ^ 10 - 1)) with (2 ^ 64 - 2 ^ 11) in M. split; [apply rne53_nonneg; lia|].
      assert (n * rne53 r <= n * (2 ^ 64 - 2 ^ 11)) by (apply Z.mul_le_mono_nonneg_l; lia). lia.
    - rewrite rne53_small by lia. split; [lia|]. assert (n * r <= n * (2 ^ 32 - 1)) by (apply Z.mul_le_mono_nonneg_l; lia). lia. }
  destruct R as (k & -> & R0 & R). destruct (rne53_error (n * rne53 r)) as (E0 & E1 & _); [apply Z.mul_nonneg_nonneg; lia|].
  assert (P : 0 < 2 ^ (if b64 then 64 else 32)) by (destruct b64; reflexivity). split; [apply Z.div_pos; lia|]. apply Z.div_lt_upper_bound; [auto|]. lia.
Qed.

Lemma floor_sum a b : 0 <= a -> 0 <= b -> a / 100 + b / 100 <= (a + b) / 100.
Proof. intros A B. apply Z.div_le_lower_bound; [lia|]. pose proof (Z.mul_div_le a 100). pose proof (Z.mul_div_le b 100). lia. Qed.

Definition zones_ok (l : list (Z * Z)) : Prop := l <> [] /\ Forall (fun z => 0 <= fst z /\ 0 <= snd z) l.
Lemma index_percent l v i s b : zones_ok l -> sum (map snd l) <= 100 -> chosen l v i s b -> 0 <= s /\ 0 <= b /\ s + b <= 100 /\
  i_size_perc (nth (Z.to_nat (v - 1)) (gen_index (map pzone l) 0 0) no_index) = s + b /\ i_size_perc_prev (nth (Z.to_nat (v - 1)) (gen_index (map pzone l) 0 0) no_index) = s.
Proof.
  intros (N & P) S C. destruct (table_nth pzone l v i s b 0 0 (fun z => eq_refl) P C) as (a & E & T). rewrite T. destruct C as (a' & E' & SB & _). rewrite E in E'. injection E' as <-.
  pose proof (before_total l i (a, b) P E) as (_ & B2). pose proof (before_nonneg l i P) as (_ & B3). cbn [snd] in B2. rewrite <- SB in *. assert (B0 : 0 <= b) by (rewrite Forall_forall in P; apply nth_error_In in E; apply (P _ E)).
  cbv zeta. cbn [i_size_perc i_size_perc_prev]. change (size_perc (pzone (a, b))) with b. assert (Q : 0 + sum (map (fun z => size_perc (pzone z)) (firstn i l)) = s) by (rewrite SB; reflexivity). rewrite Q. rewrite !u8_id by lia. lia.
Qed.
Lemma zoned_inside l L v i s b g : zones_ok l -> sum (map snd l) <= 100 -> chosen l v i s b -> 0 < L < 2 ^ 53 -> 100 <= b * L -> good_draw g ->
  exists x, next_zoned (map pzone l) L v g = Some x /\ s * L / 100 <= x < (s + b) * L / 100 /\ x < L.
Proof.
  intros Z S C HL BL G. pose proof Z as (N & P). destruct (index_percent l v i s b Z S C) as (S0 & B0 & SB & I1 & I2).
  unfold next_zoned. destruct (Z.eqb_spec L 0); [lia|]. destruct l as [|z l]; [congruence|]. set (zs := z :: l) in *. change (map pzone zs) with (pzone z :: map pzone l) at 1. cbv iota beta. cbv zeta. rewrite I1, I2.
  destruct (Z.eqb_spec (s + b) m1U) as [Q|Q]; [unfold m1U in Q; lia|]. replace (s + b - s) with b by lia. assert (UB : u32 b = b) by (unfold u32; apply Z.mod_small; lia). rewrite UB.
  assert (M1 : 0 <= s * L <= 100 * L) by (split; [apply Z.mul_nonneg_nonneg|apply Z.mul_le_mono_nonneg_r]; lia). assert (M2 : 0 <= L * b <= L * 100) by (split; [apply Z.mul_nonneg_nonneg|apply Z.mul_le_mono_nonneg_l]; lia).
  rewrite (u64_id (s * L)), (u64_id (L * b)) by lia. assert (NB : 0 < L * b / 100 < 2 ^ 53) by (split; [apply Z.div_str_pos; lia|apply Z.div_lt_upper_bound; lia]).
  pose proof (rand_offset_below g (L * b / 100) G NB) as R. assert (O : 0 <= s * L / 100 <= L) by (split; [apply Z.div_pos; lia|apply Z.div_le_upper_bound; lia]).
  rewrite u64_id by lia. eexists. split; [reflexivity|]. pose proof (floor_sum (s * L) (L * b) ltac:(lia) ltac:(lia)) as F. replace (s * L + L * b) with ((s + b) * L) in F by ring.
  assert ((s + b) * L / 100 <= L). { apply Z.div_le_upper_bound; [lia|]. apply Z.mul_le_mono_nonneg_r; lia. } lia.
Qed.

Lemma index_absolute l v i s b : zones_ok l -> sum (map snd l) < 2 ^ 64 -> chosen l v i s b -> 0 <= s /\ 0 <= b /\ s + b < 2 ^ 64 /\
  i_size (nth (Z.to_nat (v - 1)) (gen_index (map azone l) 0 0) no_index) = s + b /\ i_size_prev (nth (Z.to_nat (v - 1)) (gen_index (map azone l) 0 0) no_index) = s.
Proof.
  intros (N & P) S C. destruct (table_nth azone l v i s b 0 0 (fun z => eq_refl) P C) as (a & E & T). rewrite T. destruct C as (a' & E' & SB & _). rewrite E in E'. injection E' as <-.
  pose proof (before_total l i (a, b) P E) as (_ & B2). pose proof (before_nonneg l i P) as (_ & B3). cbn [snd] in B2. rewrite <- SB in *. assert (B0 : 0 <= b) by (rewrite Forall_forall in P; apply nth_error_In in E; apply (P _ E)).
  cbv zeta. cbn [i_size i_size_prev]. rewrite sizes_fold; [|eapply Forall_impl; [|apply firstn_forall, P]; cbn; lia|lia|].
  - cbn [before snd] in SB. rewrite <- SB. cbn [azone size snd]. rewrite u64_id by lia. lia.
  - cbn [before snd] in SB. rewrite <- SB. lia.
Qed.
Lemma zoned_abs_cases l ba L v i s b g : zones_ok l -> sum (map snd l) < 2 ^ 64 -> chosen l v i s b -> 0 < L < 2 ^ 53 -> 0 < ba -> (s + b) / ba <> 2 ^ 32 - 1 ->
  (L < (s + b) / ba -> next_zoned_abs (map azone l) ba L v g = None) /\
  ((s + b) / ba <= L -> s / ba < (s + b) / ba -> good_draw g -> exists x, next_zoned_abs (map azone l) ba L v g = Some x /\ s / ba <= x < (s + b) / ba).
Proof.
  intros Z S C HL HB NE. pose proof Z as (N & P). destruct (index_absolute l v i s b Z S C) as (S0 & B0 & SB & I1 & I2).
  unfold next_zoned_abs. destruct (Z.eqb_spec L 0); [lia|]. destruct l as [|z l]; [congruence|]. cbn [map] in *. cbv iota beta. cbv zeta. rewrite !I1, !I2.
  destruct (Z.eqb_spec ((s + b) / ba) m1U) as [Q|Q]; [unfold m1U in Q; lia|]. split; intros H.
  - destruct (Z.ltb_spec L ((s + b) / ba)); [reflexivity|lia].
  - intros LT G. destruct (Z.ltb_spec L ((s + b) / ba)); [lia|]. assert (0 <= s / ba) by (apply Z.div_pos; lia). rewrite (u64_id ((s + b) / ba - s / ba)) by lia.
    pose proof (rand_offset_below g ((s + b) / ba - s / ba) G ltac:(lia)) as R. rewrite u64_id by lia. eexists. split; [reflexivity|]. lia.
Qed.

(** Sequences. *)
Lemma digits_all a A : digits a A -> forallb digit a = true.
Proof. intros H. destruct (digits_ok a A H) as (_ & D & _). apply forallb_forall. unfold all_digits in D. rewrite Forall_forall in D. auto. Qed.
Lemma parse_sequence_ok fs seq : fs <> [] -> (List.length fs <= 64)%nat -> Forall2 digits fs seq -> Forall (fun e => e < 2 ^ 31) seq -> parse_sequence (join "," fs) = Some seq.
Proof.
  intros N L F B. unfold parse_sequence. assert (NI : Forall (fun x => ~ In 44 x) fs). { clear - F. induction F; constructor; auto. eapply digits_not_in; eauto. lia. }
  rewrite (fields_join 44 "," fs eq_refl N NI). cbv zeta. unfold fio_seq_max. destruct (Nat.ltb_spec 64 (List.length fs)); [lia|].
  assert (A : forallb (fun f => negb (List.length f =? 0)%nat && forallb digit f) fs = true).
  { apply forallb_forall. intros f I. clear - F I. induction F as [|x y fs seq D F IH]; [destruct I|]. destruct I as [->|I]; [|auto]. rewrite (digits_all f y D). pose proof (digits_nonnil f y D). destruct f; [congruence|reflexivity]. }
  rewrite A. f_equal. clear - F B. induction F as [|x y fs seq D F IH]; [reflexivity|]. pose proof (Forall_inv B) as B0. cbv beta in B0. pose proof (digits_nonneg x y D). cbn [map]. rewrite IH by (eapply Forall_inv_tail; eauto). f_equal.
  rewrite (atoi_digits x y D B0). unfold u32. apply Z.mod_small. lia.
Qed.
Lemma next_plain seq io bs n : seq <> [] -> 0 <= n -> io = 0 \/ Forall (fun e => e < io / bs) seq ->
  next_sequence seq false io bs n = Some (nth (Z.to_nat (n mod Z.of_nat (List.length seq))) seq 0).
Proof.
  intros N H F. unfold next_sequence. destruct seq as [|e seq]; [congruence|]. set (l := e :: seq) in *. cbv zeta. set (k := Z.of_nat (List.length l)).
  assert (K : 0 < k) by (unfold k, l; cbn [List.length]; lia). pose proof (Z.mod_pos_bound n k K) as M. assert (I : In (nth (Z.to_nat (n mod k)) l 0) l) by (apply nth_In; unfold k in *; lia).
  destruct F as [->|F]; [reflexivity|]. rewrite Forall_forall in F. specialize (F _ I). destruct (Z.leb_spec (io / bs) (nth (Z.to_nat (n mod k)) l 0)); [lia|]. rewrite andb_false_r. reflexivity.
Qed.
Definition range (n : nat) : list Z := map Z.of_nat (List.seq 0 n).
Lemma seq_as_map (l : list Z) : l = map (fun j => nth j l 0) (List.seq 0 (List.length l)).
Proof. induction l as [|x l IH]; [reflexivity|]. cbn [List.length List.seq map nth]. f_equal. rewrite <- seq_shift, map_map. exact IH. Qed.
Lemma next_stride seq io bs g j : (j < List.length seq)%nat -> 0 <= g -> Forall (fun e => 0 <= e < Z.of_nat (List.length seq)) seq -> (g + 1) * Z.of_nat (List.length seq) <= io / bs -> io < 2 ^ 64 -> 0 < bs -> 0 <= io ->
  next_sequence seq true io bs (g * Z.of_nat (List.length seq) + Z.of_nat j) = Some (g * Z.of_nat (List.length seq) + nth j seq 0).
Proof.
  intros J G F M IO BS I0. unfold next_sequence. destruct seq as [|e seq]; [cbn in J; lia|]. set (l := e :: seq) in *. cbv zeta. set (k := Z.of_nat (List.length l)) in *. assert (K : 0 < k) by lia.
  rewrite (Z.add_comm (g * k)), Z.mod_add, Z.div_add by lia. rewrite (Z.mod_small (Z.of_nat j)), (Z.div_small (Z.of_nat j)) by lia. rewrite Nat2Z.id. cbn [Z.add].
  assert (In (nth j l 0) l) as I by (apply nth_In; lia). rewrite Forall_forall in F. specialize (F _ I). assert (Q : io / bs <= io) by (apply Z.div_le_upper_bound; [lia|]; rewrite <- (Z.mul_1_l io) at 1; apply Z.mul_le_mono_nonneg_r; lia).
  assert (0 <= g * k) by (apply Z.mul_nonneg_nonneg; lia). replace ((g + 1) * k) with (g * k + k) in M by ring. rewrite u64_id by lia. destruct (Z.leb_spec (io / bs) (g * k + nth j l 0)); [lia|]. rewrite andb_false_r. reflexivity.
Qed.
Lemma range_app m k : range (m + k) = range m ++ map (fun x => Z.of_nat m + x) (range k).
Proof. unfold range. rewrite seq_app, map_app. f_equal. cbn [Nat.add]. rewrite map_map. rewrite <- (Nat.add_0_r m) at 1. generalize 0%nat. induction k as [|k IH]; intros s; [reflexivity|]. cbn [List.seq map]. f_equal; [lia|]. rewrite <- IH. f_equal. f_equal. lia. Qed.
Lemma stride_covers seq io bs : seq <> [] -> Permutation seq (range (List.length seq)) -> 0 <= io < 2 ^ 64 -> 0 < bs -> forall m, Z.of_nat m * Z.of_nat (List.length seq) <= io / bs ->
  Permutation (map (next_sequence seq true io bs) (range (m * List.length seq))) (map Some (range (m * List.length seq))).
Proof.
  intros N P IO BS. set (k := List.length seq) in *. assert (K : (0 < k)%nat) by (unfold k; destruct seq; [congruence|cbn; lia]).
  assert (F : Forall (fun e => 0 <= e < Z.of_nat k) seq). { rewrite Forall_forall. intros e I. apply (Permutation_in _ P) in I. unfold range in I. apply in_map_iff in I. destruct I as (j & <- & I). apply in_seq in I. lia. }
  induction m as [|m IH]; intros M; [reflexivity|]. cbn [Nat.mul]. rewrite Nat.add_comm, range_app, !map_app. apply Permutation_app; [apply IH; lia|].
  rewrite map_map. unfold range. rewrite !map_map. apply Permutation_trans with (l' := map (fun e => Some (Z.of_nat (m * k) + e)) seq).
  - assert (Q : forall f : Z -> option Z, map f seq = map (fun j => f (nth j seq 0)) (List.seq 0 k)) by (intros f; rewrite <- (map_map (fun j => nth j seq 0) f); f_equal; apply seq_as_map). rewrite Q. erewrite map_ext_in; [apply Permutation_refl|]. intros j J. apply in_seq in J. cbv beta. rewrite Nat2Z.inj_mul.
    unfold k. apply next_stride; fold k; auto; lia.
  - apply (Permutation_map (fun e => Some (Z.of_nat (m * k) + e))) in P. unfold range in P. rewrite map_map in P. exact P.
Qed.
