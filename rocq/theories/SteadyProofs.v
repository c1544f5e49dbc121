(** Proofs about the steady state detection: the window invariant, and the least squares line. *)
From Coq Require Import ZArith List Bool QArith Lia Lqa.
From Verif Require Import CBase Mem SteadyModel SteadySpec.
Import ListNotations.
Open Scope Z_scope.

(** ** Sums of windows *)
Lemma total_app a b : total (a ++ b) = total a + total b.
Proof. induction a as [|x a IH]; cbn [app total]; lia. Qed.
Lemma weighted_shift : forall l i, weighted (i + 1) l = weighted i l + total l.
Proof. induction l as [|y l IH]; intros i; cbn [weighted total]; [lia|]. rewrite IH. lia. Qed.
Lemma weighted_app a b : forall i, weighted i (a ++ b) = weighted i a + weighted (i + zlen a) b.
Proof.
  induction a as [|x a IH]; intros i; cbn [app weighted].
  - unfold zlen. cbn. rewrite Z.add_0_r. lia.
  - rewrite IH. replace (i + zlen (x :: a)) with (i + 1 + zlen a) by (unfold zlen; cbn [length]; lia). lia.
Qed.
Lemma total_slide o t x : total (t ++ [x]) = total (o :: t) - o + x.
Proof. rewrite total_app. cbn. lia. Qed.
Lemma weighted_slide o t x : weighted 0 (t ++ [x]) = weighted 0 (o :: t) - total (t ++ [x]) + (zlen t + 1) * x.
Proof. rewrite weighted_app, total_app. cbn [weighted total]. pose proof (weighted_shift t 0) as E. lia. Qed.
Lemma total_upd : forall l i v, (i < length l)%nat -> total (upd l i v) = total l - nth i l 0 + v.
Proof. induction l as [|x l IH]; intros [|i] v H; cbn in H; [lia|lia|cbn; lia|]. cbn [upd total nth]. rewrite IH by lia. lia. Qed.

Lemma last_n_snoc {A} n (l : list A) x : (1 <= n)%nat -> (n <= length l)%nat -> exists o t, last_n n l = o :: t /\ last_n n (l ++ [x]) = t ++ [x] /\ length t = (n - 1)%nat /\ nth_error l (length l - n) = Some o.
Proof.
  intros H1 H2. unfold last_n. pose proof (skipn_length (length l - n) l) as L. destruct (skipn (length l - n) l) as [|o t] eqn:E; cbn [length] in L; [lia|]. exists o, t. split; auto. split; [|split; [lia|]].
  - rewrite app_length. cbn [length]. replace (length l + 1 - n)%nat with (length l - n + 1)%nat by lia. rewrite skipn_app. replace (length l - n + 1 - length l)%nat with 0%nat by lia. cbn [skipn].
    f_equal. rewrite <- skipn_skipn' , E. reflexivity.
  - rewrite <- (Nat.add_0_r (length l - n)). rewrite <- nth_error_skipn, E. reflexivity.
Qed.
Lemma last_n_all {A} n (l : list A) : length l = n -> last_n n l = l.
Proof. intros <-. unfold last_n. rewrite Nat.sub_diag. reflexivity. Qed.
Lemma last_n_len {A} n (l : list A) : (n <= length l)%nat -> length (last_n n l) = n.
Proof. intros H. unfold last_n. rewrite skipn_length. lia. Qed.

(** ** The first window *)
Lemma u64_add_l a b : u64 (u64 a + b) = u64 (a + b).
Proof. unfold u64. apply Zplus_mod_idemp_l. Qed.
Lemma u64_add_r a b : u64 (a + u64 b) = u64 (a + b).
Proof. unfold u64. apply Zplus_mod_idemp_r. Qed.
Lemma u64_sub_l a b : u64 (u64 a - b) = u64 (a - b).
Proof. unfold u64. apply Zminus_mod_idemp_l. Qed.
Lemma u64_sub_r a b : u64 (a - u64 b) = u64 (a - b).
Proof. unfold u64. apply Zminus_mod_idemp_r. Qed.
Lemma skipn_znth (d : list Z) i : 0 <= i < zlen d -> skipn (Z.to_nat i) d = nth (Z.to_nat i) d 0 :: skipn (Z.to_nat (i + 1)) d.
Proof.
  intros H. replace (Z.to_nat (i + 1)) with (S (Z.to_nat i)) by lia. unfold zlen in H. assert (L : (Z.to_nat i < length d)%nat) by lia. revert L. generalize (Z.to_nat i). clear.
  induction d as [|x d IH]; intros [|k] L; cbn [length] in L; try lia; auto. cbn [skipn nth]. rewrite IH by lia. reflexivity.
Qed.
Lemma first_sums_ok n d : zlen d = n -> n < 2 ^ 31 -> forall fuel i sy sxy, 0 <= i -> i + Z.of_nat fuel = n ->
  first_sums fuel i n 0 d (u64 sy) (u64 sxy) = Some (u64 (sy + total (skipn (Z.to_nat i) d)), u64 (sxy + weighted i (skipn (Z.to_nat i) d))).
Proof.
  intros L HN. induction fuel as [|f IH]; intros i sy sxy Hi E; cbn [first_sums].
  - rewrite skipn_all2 by (unfold zlen in L; lia). cbn [total weighted]. rewrite !Z.add_0_r. reflexivity.
  - rewrite Z.add_0_l. unfold u32. rewrite (Z.mod_small i (2 ^ 32)) by lia. rewrite (Z.mod_small i n) by lia. rewrite (znth_nth d i 0) by lia.
    rewrite !u64_add_l, u64_add_r, IH by lia. rewrite (skipn_znth d i) by lia. cbn [total weighted]. f_equal. f_equal; f_equal; lia.
Qed.

(** ** The invariant *)
Definition vals (m : metric) (h : list meas) : list Z := map (value m) h.
Definition win (n : Z) (m : metric) (h : list meas) : list Z := last_n (Z.to_nat n) (vals m h).
Record inv (slope : bool) (c : cfg) (h : list meas) (s : ss) : Prop := mkInv {
  i_len : forall m, zlen (data m s) = c_n c;
  i_arr : forall m j, 0 <= j < zlen h -> zlen h - c_n c <= j -> nth (Z.to_nat (j mod c_n c)) (data m s) 0 = nth (Z.to_nat j) (vals m h) 0;
  i_tail : s_tail s = zlen h mod c_n c;
  i_start : zlen h < c_n c -> s_head s = 0 /\ s_full s = false /\ s_sum_xy s = 0;
  i_run : c_n c <= zlen h -> s_head s = (zlen h + 1) mod c_n c /\ s_full s = true /\
    s_sum_y s = u64 (total (win (c_n c) (c_metric c) h)) /\ (slope = true -> s_sum_xy s = u64 (weighted 0 (win (c_n c) (c_metric c) h))) /\
    s_oldest s = nth (Z.to_nat (zlen h - c_n c)) (vals (c_metric c) h) 0 /\
    forall m, total (data m s) = total (win (c_n c) m h)
}.
Lemma inv_init slope c : 1 <= c_n c -> inv slope c [] (init_ss (c_n c)).
Proof.
  intros H. assert (L : zlen (repeat 0 (Z.to_nat (c_n c))) = c_n c) by (unfold zlen; rewrite repeat_length; lia).
  constructor.
  - intros []; exact L.
  - intros m j Hj. unfold zlen in Hj. cbn in Hj. lia.
  - cbn. reflexivity.
  - cbn. auto.
  - unfold zlen. cbn [length]. lia.
Qed.

Lemma store_ok s x n : (forall m, zlen (data m s) = n) -> 0 <= s_tail s < n -> exists s', store s x = Some s' /\
  (forall m, data m s' = upd (data m s) (Z.to_nat (s_tail s)) (value m x)) /\ s_head s' = s_head s /\ s_tail s' = s_tail s /\ s_full s' = s_full s /\
  s_sum_y s' = s_sum_y s /\ s_sum_xy s' = s_sum_xy s /\ s_oldest s' = s_oldest s.
Proof.
  intros L T. unfold store. pose proof (L Iops) as L1. pose proof (L Bw) as L2. pose proof (L Lat) as L3. cbn [data] in *. rewrite !zupd_some by lia.
  eexists. split; [reflexivity|]. cbn. split; [intros []; reflexivity|]. auto 10.
Qed.
Lemma vals_snoc m h x : vals m (h ++ [x]) = vals m h ++ [value m x].
Proof. unfold vals. apply map_app. Qed.
Lemma vals_len m h : length (vals m h) = length h.
Proof. apply map_length. Qed.
Lemma mod_ne j k n : 1 <= n -> j < k -> k - n < j -> j mod n <> k mod n.
Proof. intros H1 H2 H3 E. pose proof (Z.div_mod j n ltac:(lia)). pose proof (Z.div_mod k n ltac:(lia)). assert (0 < n * (k / n - j / n) < n) by lia. assert (k / n - j / n < 1 \/ 1 <= k / n - j / n) by lia. nia. Qed.

(** The state after storing the measurement and updating the sums. *)
Record mid (slope : bool) (c : cfg) (h : list meas) (x : meas) (s : ss) : Prop := mkMid {
  d_len : forall m, zlen (data m s) = c_n c;
  d_arr : forall m j, 0 <= j < zlen h + 1 -> zlen h + 1 - c_n c <= j -> nth (Z.to_nat (j mod c_n c)) (data m s) 0 = nth (Z.to_nat j) (vals m (h ++ [x])) 0;
  d_tail : s_tail s = zlen h mod c_n c;
  d_head : s_head s = if zlen h <? c_n c then 0 else (zlen h + 1) mod c_n c
}.
Definition mid_sums (slope : bool) (c : cfg) (h : list meas) (x : meas) (s : ss) : Prop :=
  s_full s = true /\ s_sum_y s = u64 (total (win (c_n c) (c_metric c) (h ++ [x]))) /\
  (slope = true -> s_sum_xy s = u64 (weighted 0 (win (c_n c) (c_metric c) (h ++ [x])))) /\
  s_oldest s = nth (Z.to_nat (zlen h + 1 - c_n c)) (vals (c_metric c) (h ++ [x])) 0 /\ forall m, total (data m s) = total (win (c_n c) m (h ++ [x])).

Lemma store_mid slope c h s x : 1 <= c_n c < 2 ^ 31 -> inv slope c h s -> exists s1, store s x = Some s1 /\ mid slope c h x s1 /\
  s_full s1 = s_full s /\ s_sum_y s1 = s_sum_y s /\ s_sum_xy s1 = s_sum_xy s /\ s_oldest s1 = s_oldest s /\
  (c_n c <= zlen h + 1 -> forall m, total (data m s1) = total (win (c_n c) m (h ++ [x]))) /\ (zlen h + 1 = c_n c -> forall m, data m s1 = vals m (h ++ [x])).
Proof.
  intros HN [IL IA IT IS IR]. set (n := c_n c) in *. pose proof (zlen_nonneg h) as HK. set (k := zlen h) in *.
  assert (TB : 0 <= s_tail s < n) by (rewrite IT; apply Z.mod_pos_bound; lia).
  destruct (store_ok s x n IL TB) as (s1 & E & D & H1 & H2 & H3 & H4 & H5 & H6). exists s1. split; auto.
  assert (AR : forall m j, 0 <= j < k + 1 -> k + 1 - n <= j -> nth (Z.to_nat (j mod n)) (data m s1) 0 = nth (Z.to_nat j) (vals m (h ++ [x])) 0).
  { intros m j Hj1 Hj2. rewrite D, IT, vals_snoc. pose proof (Z.mod_pos_bound j n ltac:(lia)). pose proof (Z.mod_pos_bound k n ltac:(lia)). pose proof (IL m) as LM. unfold zlen in LM.
    assert (LK : Z.of_nat (length (vals m h)) = k) by (rewrite vals_len; reflexivity). destruct (Z.eq_dec j k) as [->|NE].
    - rewrite upd_nth_same by lia. rewrite app_nth2 by lia. replace (Z.to_nat k - length (vals m h))%nat with 0%nat by lia. reflexivity.
    - rewrite upd_nth_other. 2:{ pose proof (mod_ne j k n ltac:(lia) ltac:(lia) ltac:(lia)). lia. } rewrite app_nth1 by lia. apply IA; lia. }
  assert (LD : forall m, zlen (data m s1) = n) by (intros m; rewrite D; unfold zlen; rewrite upd_length; apply IL).
  assert (FIRST : k + 1 = n -> forall m, data m s1 = vals m (h ++ [x])).
  { intros F m. apply (list_ext 0).
    - rewrite vals_len, app_length. specialize (LD m). unfold zlen, k in *. cbn [length]. unfold zlen in *. lia.
    - intros i Hi. specialize (AR m (Z.of_nat i)). specialize (LD m). unfold zlen in LD. rewrite Z.mod_small in AR by lia. rewrite Nat2Z.id in AR. apply AR; lia. }
  split; [|split; auto; split; auto; split; auto; split; auto; split; auto].
  - constructor; [exact LD|exact AR|rewrite H2; exact IT|]. rewrite H1. fold k n. destruct (Z.ltb_spec k n); [apply IS; auto|apply IR; auto].
  - intros F m. destruct (Z.eq_dec (k + 1) n) as [E1|N1].
    + rewrite FIRST by auto. unfold win. rewrite last_n_all; auto. rewrite vals_len, app_length. unfold k, zlen in *. cbn [length]. lia.
    + rewrite D. destruct (IR ltac:(lia)) as (_ & _ & _ & _ & _ & TT). pose proof (IL m) as LM. unfold zlen in LM. rewrite total_upd by lia. rewrite TT, IT.
      destruct (last_n_snoc (Z.to_nat n) (vals m h) (value m x)) as (o & t & W1 & W2 & _ & W3); [lia|rewrite vals_len; unfold k, zlen in *; lia|].
      unfold win. rewrite vals_snoc, W1, W2, (total_slide o). f_equal. f_equal.
      rewrite <- (Z.add_0_r k) at 1. replace (k + 0) with (k - n + 1 * n) by lia. rewrite Z.mod_add by lia. rewrite IA by lia.
      rewrite vals_len in W3. replace (Z.to_nat (k - n)) with (length h - Z.to_nat n)%nat by (unfold k, zlen; lia). apply nth_error_nth. auto.
Qed.

Lemma sums_ok slope c h s x s1 : 1 <= c_n c < 2 ^ 31 -> inv slope c h s -> c_n c <= zlen h + 1 -> store s x = Some s1 ->
  exists s2, sums slope c s1 x = Some s2 /\ mid slope c h x s2 /\ mid_sums slope c h x s2.
Proof.
  intros HN I F E. destruct (store_mid slope c h s x HN I) as (s1' & E' & M & F1 & F2 & F3 & F4 & TT & FI). rewrite E in E'. inversion E'; subst s1'. destruct M as [ML MA MT MH].
  destruct I as [IL IA IT IS IR]. set (n := c_n c) in *. pose proof (zlen_nonneg h) as HK. set (k := zlen h) in *. unfold sums. fold n. set (m := c_metric c) in *.
  assert (HB : 0 <= s_head s1 < n) by (rewrite MH; destruct (k <? n); [lia|apply Z.mod_pos_bound; lia]).
  assert (OLD : znth (data m s1) (s_head s1) = Some (nth (Z.to_nat (k + 1 - n)) (vals m (h ++ [x])) 0)).
  { rewrite (znth_nth _ _ 0) by (rewrite ML; auto). f_equal. rewrite <- (MA m (k + 1 - n)) by lia. f_equal. rewrite MH. destruct (Z.ltb_spec k n).
    - replace (k + 1 - n) with 0 by lia. reflexivity.
    - rewrite <- (Z.mod_add (k + 1 - n) 1 n) by lia. f_equal. f_equal. lia. }
  assert (R : exists sy sxy, (if s_full s1 then
             let sy := u64 (u64 (s_sum_y s1 - s_oldest s1) + value m x) in
             Some (sy, if slope then u64 (u64 (s_sum_xy s1 - sy) + u64 (n * value m x)) else s_sum_xy s1)
           else do r <- first_sums (Z.to_nat n) 0 n (s_head s1) (data m s1) 0 (s_sum_xy s1); Some (fst r, if slope then snd r else s_sum_xy s1)) = Some (sy, sxy) /\
     sy = u64 (total (win n m (h ++ [x]))) /\ (slope = true -> sxy = u64 (weighted 0 (win n m (h ++ [x]))))).
  { destruct (Z.ltb_spec k n) as [L|L].
    - destruct (IS L) as (_ & S2 & S3). rewrite F1, S2, MH, F3, S3. change 0 with (u64 0) at 3 4. rewrite first_sums_ok by (auto; try lia; apply ML).
      cbn [skipn Z.to_nat fst snd]. rewrite !Z.add_0_l. rewrite FI by lia.
      assert (W : win n m (h ++ [x]) = vals m (h ++ [x])) by (unfold win; apply last_n_all; rewrite vals_len, app_length; unfold k, zlen in *; cbn [length]; lia).
      rewrite W. eexists. eexists. split; [reflexivity|]. split; auto. intros ->. auto.
    - destruct (IR L) as (_ & R2 & R3 & R4 & R5 & _). rewrite F1, R2, F2, R3, F4, R5. fold k n m.
      destruct (last_n_snoc (Z.to_nat n) (vals m h) (value m x)) as (o & t & W1 & W2 & W4 & W3); [lia|rewrite vals_len; unfold k, zlen in *; lia|].
      assert (EO : nth (Z.to_nat (k - n)) (vals m h) 0 = o).
      { rewrite vals_len in W3. replace (Z.to_nat (k - n)) with (length h - Z.to_nat n)%nat by (unfold k, zlen; lia). apply nth_error_nth. auto. }
      rewrite EO. unfold win. rewrite vals_snoc, W1, W2. cbv zeta. eexists. eexists. split; [reflexivity|].
      assert (SY : u64 (u64 (u64 (total (o :: t)) - o) + value m x) = u64 (total (t ++ [value m x]))) by (rewrite u64_sub_l, u64_add_l, (total_slide o); reflexivity).
      split; [exact SY|]. intros ->. rewrite SY, F3, (R4 eq_refl). fold n m. unfold win. rewrite W1, u64_sub_l, u64_sub_r, u64_add_r, u64_add_l, (weighted_slide o).
      replace (zlen t + 1) with n by (unfold zlen; lia). reflexivity. }
  destruct R as (sy & sxy & R0 & R1 & R2). cbv zeta in R0. cbv zeta. rewrite R0, OLD. eexists. split; [reflexivity|]. cbn [fst snd]. split.
  - constructor; cbn [s_tail s_head]; auto.
  - unfold mid_sums. cbn [s_full s_sum_y s_sum_xy s_oldest]. split; auto. split; auto. split; auto. split; [reflexivity|exact (TT F)].
Qed.

Lemma window_full_ok slope c h s s1 x : 1 <= c_n c < 2 ^ 31 -> inv slope c h s -> mid slope c h x s1 -> s_full s1 = s_full s ->
  window_full (c_n c) s1 = (c_n c <=? zlen h + 1).
Proof.
  intros HN [_ _ _ IS IR] [_ _ MT MH] F. unfold window_full. rewrite F. pose proof (zlen_nonneg h). destruct (Z.ltb_spec (zlen h) (c_n c)) as [L|L].
  - destruct (IS L) as (_ & -> & _). cbn [orb]. rewrite MT, MH, Z.mod_small, Z.sub_0_r by lia. unfold u32. rewrite !Z.mod_small by lia.
    destruct (Z.eqb_spec (zlen h) (c_n c - 1)); destruct (Z.leb_spec (c_n c) (zlen h + 1)); auto; lia.
  - destruct (IR L) as (_ & -> & _). cbn [orb]. symmetry. apply Z.leb_le. lia.
Qed.

Lemma data_advance sl n s m : data m (advance sl n s) = data m s.
Proof. destruct m; reflexivity. Qed.
Lemma advance_ok slope c h x s : 1 <= c_n c < 2 ^ 31 -> mid slope c h x s ->
  (if c_n c <=? zlen h + 1 then mid_sums slope c h x s else s_full s = false /\ s_sum_xy s = 0) ->
  inv slope c (h ++ [x]) (advance slope (c_n c) s).
Proof.
  intros HN [ML MA MT MH] MS. set (n := c_n c) in *. assert (LK : zlen (h ++ [x]) = zlen h + 1) by (unfold zlen; rewrite app_length; cbn; lia).
  pose proof (zlen_nonneg h) as HK. set (k := zlen h) in *. pose proof (Z.mod_pos_bound k n ltac:(lia)) as MB.
  assert (TL : u32 (s_tail s + 1) mod n = (k + 1) mod n) by (rewrite MT; unfold u32; rewrite (Z.mod_small (k mod n + 1)) by lia; apply Zplus_mod_idemp_l).
  assert (HD : s_head (advance slope n s) = if k + 1 <? n then 0 else (k + 2) mod n).
  { unfold advance. cbn [s_head]. rewrite TL, MH. destruct (Z.ltb_spec (k + 1) n) as [L|L].
    - replace (k <? n) with true by (symmetry; apply Z.ltb_lt; lia). rewrite (Z.mod_small (k + 1)) by lia. destruct slope; [destruct (Z.leb_spec (k + 1) 0)|destruct (Z.eqb_spec (k + 1) 0)]; auto; lia.
    - destruct (Z.ltb_spec k n) as [L2|L2].
      + assert (k + 1 = n) as E by lia. rewrite E, Z.mod_same by lia. replace (k + 2) with (1 + 1 * n) by lia. rewrite Z.mod_add by lia. destruct slope; reflexivity.
      + replace (if slope then _ else _) with true by (destruct slope; symmetry; [apply Z.leb_refl|apply Z.eqb_refl]).
        pose proof (Z.mod_pos_bound (k + 1) n ltac:(lia)). unfold u32. rewrite (Z.mod_small ((k + 1) mod n + 1)) by lia. rewrite Zplus_mod_idemp_l. f_equal. lia. }
  constructor; rewrite ?LK; fold n.
  - intros m. rewrite data_advance. auto.
  - intros m j Hj1 Hj2. rewrite data_advance. apply MA; auto; lia.
  - cbn [advance s_tail]. exact TL.
  - intros L. split; [rewrite HD; replace (k + 1 <? n) with true by (symmetry; apply Z.ltb_lt; lia); auto|]. replace (n <=? k + 1) with false in MS by (symmetry; apply Z.leb_gt; lia). exact MS.
  - intros L. replace (n <=? k + 1) with true in MS by (symmetry; apply Z.leb_le; lia). destruct MS as (S1 & S2 & S3 & S4 & S5).
    split; [rewrite HD; replace (k + 1 <? n) with false by (symmetry; apply Z.ltb_ge; lia); f_equal; lia|]. cbn [advance s_full s_sum_y s_sum_xy s_oldest].
    split; auto.
Qed.

(** One check. *)
Definition step (slope : bool) (c : cfg) (s : ss) (x : meas) := if slope then slope_step c s x else dev_step c s x.
Definition eval (slope : bool) (c : cfg) (s : ss) : crit := if slope then slope_crit c (s_sum_y s) (s_sum_xy s) else dev_crit c (data (c_metric c) s) (s_sum_y s).
Lemma step_ok slope c h s x : 1 <= c_n c < 2 ^ 31 -> inv slope c h s -> exists s' k, step slope c s x = Some (s', k) /\
  (zlen h + 1 < c_n c -> k = NotYet) /\
  (c_n c <= zlen h + 1 -> exists s2, mid slope c h x s2 /\ mid_sums slope c h x s2 /\ k = eval slope c s2 /\ (attained c k = true -> s' = s2)) /\
  (attained c k = false -> inv slope c (h ++ [x]) s').
Proof.
  intros HN I. destruct (store_mid slope c h s x HN I) as (s1 & E & M & F1 & F2 & F3 & F4 & TT & FI).
  pose proof (window_full_ok slope c h s s1 x HN I M F1) as WF.
  destruct (Z.leb_spec (c_n c) (zlen h + 1)) as [L|L].
  - destruct (sums_ok slope c h s x s1 HN I L E) as (s2 & E2 & M2 & S2).
    assert (ST : step slope c s x = Some (if attained c (eval slope c s2) then s2 else advance slope (c_n c) s2, eval slope c s2)).
    { unfold step, slope_step, dev_step, eval. destruct slope; rewrite E, WF, E2; reflexivity. }
    rewrite ST. eexists. eexists. split; [reflexivity|]. split; [lia|]. split.
    + intros _. exists s2. split; auto. split; auto. split; auto. intros ->. auto.
    + intros ->. apply advance_ok; auto. replace (c_n c <=? zlen h + 1) with true by (symmetry; apply Z.leb_le; lia). auto.
  - assert (ST : step slope c s x = Some (advance slope (c_n c) s1, NotYet)) by (unfold step, slope_step, dev_step; destruct slope; rewrite E, WF; reflexivity).
    rewrite ST. eexists. eexists. split; [reflexivity|]. split; auto. split; [lia|]. intros _. apply advance_ok; auto.
    replace (c_n c <=? zlen h + 1) with false by (symmetry; apply Z.leb_gt; lia). destruct I as [_ _ _ IS _]. pose proof (zlen_nonneg h). destruct (IS ltac:(lia)) as (_ & A & B). rewrite F1, F3. auto.
Qed.

(** ** The last check of a run *)
Lemma in_window slope c h x s m y : 1 <= c_n c < 2 ^ 31 -> mid slope c h x s -> c_n c <= zlen h + 1 -> In y (data m s) <-> In y (win (c_n c) m (h ++ [x])).
Proof.
  intros HN [ML MA _ _] F. set (n := c_n c) in *. pose proof (ML m) as LM. unfold zlen in LM. set (k := zlen h) in *.
  assert (LV : length (vals m (h ++ [x])) = Z.to_nat (k + 1)) by (rewrite vals_len, app_length; unfold k, zlen; cbn [length]; lia).
  assert (WN : forall i, (i < Z.to_nat n)%nat -> nth i (win n m (h ++ [x])) 0 = nth (Z.to_nat ((k + 1 - n + Z.of_nat i) mod n)) (data m s) 0).
  { intros i Hi. rewrite MA by lia. unfold win, last_n. rewrite nth_skipn. f_equal. rewrite LV. lia. }
  assert (WL : length (win n m (h ++ [x])) = Z.to_nat n) by (unfold win; apply last_n_len; lia).
  split; intros K; apply (In_nth _ _ 0) in K; destruct K as (i & Hi & <-).
  - set (j := (Z.of_nat i - (k + 1 - n)) mod n). pose proof (Z.mod_pos_bound (Z.of_nat i - (k + 1 - n)) n ltac:(lia)) as JB. fold j in JB.
    assert (EJ : Z.to_nat ((k + 1 - n + Z.of_nat (Z.to_nat j)) mod n) = i).
    { rewrite Z2Nat.id by lia. unfold j. rewrite Zplus_mod_idemp_r. replace (k + 1 - n + (Z.of_nat i - (k + 1 - n))) with (Z.of_nat i) by lia. rewrite Z.mod_small by lia. lia. }
    rewrite <- EJ, <- WN by lia. apply nth_In. lia.
  - rewrite WN by lia. apply nth_In. pose proof (Z.mod_pos_bound (k + 1 - n + Z.of_nat i) n ltac:(lia)). lia.
Qed.

(** ** Least squares over the rationals *)
Open Scope Q_scope.
Fixpoint rsum (a b i : Q) (l : list Z) : Q := match l with [] => 0 | y :: r => (inject_Z y - (a + b * i)) + rsum a b (i + 1) r end.
Fixpoint rxsum (a b i : Q) (l : list Z) : Q := match l with [] => 0 | y :: r => (inject_Z y - (a + b * i)) * i + rxsum a b (i + 1) r end.
Fixpoint dsum (da db i : Q) (l : list Z) : Q := match l with [] => 0 | y :: r => (da + db * i) * (da + db * i) + dsum da db (i + 1) r end.
Fixpoint qx (i : Q) (l : list Z) : Q := match l with [] => 0 | _ :: r => i + qx (i + 1) r end.
Fixpoint qxx (i : Q) (l : list Z) : Q := match l with [] => 0 | _ :: r => i * i + qxx (i + 1) r end.
Fixpoint qn (l : list Z) : Q := match l with [] => 0 | _ :: r => 1 + qn r end.
Fixpoint qy (l : list Z) : Q := match l with [] => 0 | y :: r => inject_Z y + qy r end.
Fixpoint qxy (i : Q) (l : list Z) : Q := match l with [] => 0 | y :: r => i * inject_Z y + qxy (i + 1) r end.

Lemma sse_diff a b a' b' : forall l i, sse a' b' i l == sse a b i l - (2#1) * (a' - a) * rsum a b i l - (2#1) * (b' - b) * rxsum a b i l + dsum (a' - a) (b' - b) i l.
Proof. induction l as [|y l IH]; intros i; cbn [sse rsum rxsum dsum]; [ring|]. rewrite IH. ring. Qed.
Lemma rsum_eq a b : forall l i, rsum a b i l == qy l - a * qn l - b * qx i l.
Proof. induction l as [|y l IH]; intros i; cbn [rsum qy qn qx]; [ring|]. rewrite IH. ring. Qed.
Lemma rxsum_eq a b : forall l i, rxsum a b i l == qxy i l - a * qx i l - b * qxx i l.
Proof. induction l as [|y l IH]; intros i; cbn [rxsum qxy qx qxx]; [ring|]. rewrite IH. ring. Qed.
Lemma sq_nonneg (x : Q) : 0 <= x * x.
Proof. destruct (Qlt_le_dec x 0); nra. Qed.
Lemma dsum_nonneg da db : forall l i, 0 <= dsum da db i l.
Proof. induction l as [|y l IH]; intros i; cbn [dsum]; [lra|]. specialize (IH (i + 1)). pose proof (sq_nonneg (da + db * i)). lra. Qed.
Lemma qn_eq : forall l, qn l == inject_Z (zlen l).
Proof. induction l as [|y l IH]; cbn [qn]; [reflexivity|]. rewrite IH. replace (zlen (y :: l)) with (1 + zlen l)%Z by (unfold zlen; cbn [length]; lia). rewrite inject_Z_plus. reflexivity. Qed.
Lemma qy_eq : forall l, qy l == inject_Z (total l).
Proof. induction l as [|y l IH]; cbn [qy total]; [reflexivity|]. rewrite IH, inject_Z_plus. reflexivity. Qed.
Lemma qxy_eq : forall l i, qxy (inject_Z i) l == inject_Z (weighted i l).
Proof.
  induction l as [|y l IH]; intros i; cbn [qxy weighted]; [reflexivity|].
  assert (E : inject_Z i + 1 == inject_Z (i + 1)) by (rewrite inject_Z_plus; reflexivity).
  assert (G : forall j j' l, j == j' -> qxy j l == qxy j' l) by (clear; intros j j' l; revert j j'; induction l as [|y l IH]; intros j j' H; cbn [qxy]; [reflexivity|]; rewrite (IH (j + 1) (j' + 1)); rewrite H; reflexivity).
  rewrite (G _ _ _ E), IH, inject_Z_plus, inject_Z_mult. reflexivity.
Qed.
Lemma qx_eq : forall l i, (2#1) * qx i l == (2#1) * qn l * i + qn l * (qn l - 1).
Proof. induction l as [|y l IH]; intros i; cbn [qx qn]; [ring|]. rewrite Qmult_plus_distr_r, IH. ring. Qed.
Lemma qxx_eq : forall l i, (6#1) * qxx i l == (6#1) * qn l * i * i + (6#1) * i * qn l * (qn l - 1) + (qn l - 1) * qn l * ((2#1) * qn l - 1).
Proof. induction l as [|y l IH]; intros i; cbn [qxx qn]; [ring|]. rewrite Qmult_plus_distr_r, IH. ring. Qed.

(** The slope of the normal equations is that of the best line, and of no other line. *)
Definition ls (l : list Z) : Q := (qxy 0 l - qx 0 l * qy l / qn l) / (qxx 0 l - qx 0 l * qx 0 l / qn l).
Lemma den_pos l : (2 <= length l)%nat -> 0 < qxx 0 l - qx 0 l * qx 0 l / qn l.
Proof.
  intros H. assert (N : inject_Z 2 <= qn l) by (rewrite qn_eq, <- Zle_Qle; unfold zlen; lia). change (inject_Z 2) with (2#1) in N.
  pose proof (qx_eq l 0) as X. pose proof (qxx_eq l 0) as XX. set (n := qn l) in *. set (x := qx 0 l) in *. set (xx := qxx 0 l) in *. clearbody n x xx.
  assert (EX : x == n * (n - 1) / (2#1)) by (setoid_replace x with ((2#1) * x / (2#1)) by field; rewrite X; field).
  assert (EXX : xx == (n - 1) * n * ((2#1) * n - 1) / (6#1)) by (setoid_replace xx with ((6#1) * xx / (6#1)) by field; rewrite XX; field).
  assert (E : xx - x * x / n == n * (n * n - 1) / (12#1)) by (rewrite EX, EXX; field; lra).
  rewrite E. assert (0 < n * (n * n - 1)) by (assert (0 < n * n - 1) by nra; nra). apply Qlt_shift_div_l; [reflexivity|]. rewrite Qmult_0_l. auto.
Qed.
Lemma ls_normal l : (2 <= length l)%nat -> exists a, rsum a (ls l) 0 l == 0 /\ rxsum a (ls l) 0 l == 0.
Proof.
  intros H. pose proof (den_pos l H) as D. assert (N : ~ qn l == 0) by (rewrite qn_eq; change 0 with (inject_Z 0); rewrite inject_Z_injective; unfold zlen; lia).
  exists ((qy l - ls l * qx 0 l) / qn l). rewrite rsum_eq, rxsum_eq. unfold ls. set (X := qx 0 l) in *. set (XX := qxx 0 l) in *. set (XY := qxy 0 l) in *. set (Y := qy l) in *. set (n := qn l) in *. clearbody X XX XY Y n.
  assert (D' : ~ XX * n - X * X == 0).
  { intros E. assert (XX - X * X / n == 0) by (setoid_replace (XX - X * X / n) with ((XX * n - X * X) / n) by (field; auto); rewrite E; field; auto). rewrite H0 in D. exact (Qlt_irrefl 0 D). }
  assert (D2 : ~ XX - X * X / n == 0) by (intros E2; rewrite E2 in D; exact (Qlt_irrefl 0 D)).
  split; field; auto.
Qed.
Lemma ls_fit l : (2 <= length l)%nat -> fit_slope l (ls l).
Proof.
  intros H. destruct (ls_normal l H) as (a & R0 & R1). exists a. intros a' b'. rewrite (sse_diff a (ls l) a' b'), R0, R1. pose proof (dsum_nonneg (a' - a) (b' - ls l) l 0). lra.
Qed.
Lemma ls_unique l b : (2 <= length l)%nat -> fit_slope l b -> b == ls l.
Proof.
  intros H (a' & M). destruct (ls_normal l H) as (a & R0 & R1). specialize (M a (ls l)). rewrite (sse_diff a (ls l) a' b), R0, R1 in M.
  destruct l as [|y0 [|y1 l]]; cbn [length] in H; try lia. set (l0 := y0 :: y1 :: l) in *. assert (D : dsum (a' - a) (b - ls l0) 0 l0 <= 0) by lra. clear M R0 R1. generalize dependent (ls l0). intros q D. unfold l0 in D. cbn [dsum] in D.
  set (da := a' - a) in *. set (db := b - q) in *.
  pose proof (dsum_nonneg da db l (0 + 1 + 1)). pose proof (sq_nonneg (da + db * 0)). pose proof (sq_nonneg (da + db * (0 + 1))).
  assert (Z0 : da * da <= 0) by (setoid_replace (da * da) with ((da + db * 0) * (da + db * 0)) by ring; lra).
  assert (Z1 : (da + db) * (da + db) <= 0) by (setoid_replace ((da + db) * (da + db)) with ((da + db * (0 + 1)) * (da + db * (0 + 1))) by ring; lra).
  assert (A0 : da == 0) by (destruct (Qlt_le_dec da 0); [nra|]; destruct (Qlt_le_dec 0 da); [nra|lra]).
  assert (A1 : da + db == 0) by (destruct (Qlt_le_dec (da + db) 0); [nra|]; destruct (Qlt_le_dec 0 (da + db)); [nra|lra]).
  unfold db in A1. lra.
Qed.
Close Scope Q_scope.

(** The sums set up at the start. *)
Lemma two_div n : 0 <= n -> exists q, n * (n - 1) = 2 * q.
Proof. intros H. pattern n. apply natlike_ind; auto; [exists 0; lia|]. intros x Hx (q & E). exists (q + x). unfold Z.succ. lia. Qed.
Lemma six_div n : 0 <= n -> exists q, (n - 1) * n * (2 * n - 1) = 6 * q.
Proof. intros H. pattern n. apply natlike_ind; auto; [exists 0; lia|]. intros x Hx (q & E). exists (q + x * x). unfold Z.succ. lia. Qed.
Lemma init_cfg_ok n m pct limit : 1 <= n <= 1024 -> exists c, init_cfg n m pct limit = Some c /\ c_n c = n /\ c_metric c = m /\ c_pct c = pct /\ c_limit c = limit /\
  2 * c_sum_x c = n * (n - 1) /\ 6 * c_sum_x_sq c = (n - 1) * n * (2 * n - 1).
Proof.
  intros H. unfold init_cfg, s32.
  assert (A : 0 <= n * (n - 1) <= 1024 * 1023) by nia. assert (B : 0 <= (n - 1) * n * (2 * n - 1) <= 1023 * 1024 * 2047) by nia.
  destruct (two_div n ltac:(lia)) as (q & Q1). destruct (six_div n ltac:(lia)) as (r & R1).
  rewrite !(proj2 (andb_true_iff _ _)) by (rewrite Z.leb_le, Z.ltb_lt; lia). eexists. split; [reflexivity|]. cbn [c_n c_metric c_pct c_limit c_sum_x c_sum_x_sq].
  rewrite Q1, R1. rewrite (Z.mul_comm 2 q), (Z.mul_comm 6 r), !Z.div_mul by lia. repeat split; auto; lia.
Qed.
Lemma s32_some z r : s32 z = Some r -> r = z /\ - 2 ^ 31 <= z < 2 ^ 31.
Proof. unfold s32. destruct (Z.leb_spec (- 2 ^ 31) z), (Z.ltb_spec z (2 ^ 31)); intros E; inversion E; split; auto; lia. Qed.
Lemma init_cfg_long n m pct limit : 1024 < n -> init_cfg n m pct limit = None.
Proof.
  intros H. destruct (init_cfg n m pct limit) as [c|] eqn:E; auto. exfalso. unfold init_cfg in E.
  destruct (s32 (n * (n - 1))) eqn:E1; [|discriminate]. destruct (s32 ((n - 1) * n)) eqn:E2; [|discriminate]. destruct (s32 (2 * n)) eqn:E3; [|discriminate].
  destruct (s32 (z1 - 1)) eqn:E4; [|discriminate]. destruct (s32 (z0 * z2)) eqn:E5; [|discriminate].
  apply s32_some in E2, E3, E4, E5. destruct E2 as (-> & _), E3 as (-> & _), E4 as (-> & _), E5 as (_ & B). nia.
Qed.

(** ** The results of a run *)
Definition reading (slope : bool) (c : cfg) (h : list meas) (k : crit) : Prop :=
  (zlen h < c_n c -> k = NotYet) /\
  (c_n c <= zlen h -> exists h' x s, h = h' ++ [x] /\ mid slope c h' x s /\ mid_sums slope c h' x s /\ k = eval slope c s).
Lemma run_trace slope c : 1 <= c_n c < 2 ^ 31 -> forall xs h s, inv slope c h s -> exists s' ks, run slope c s xs = Some (s', ks) /\
  (forall i k, nth_error ks i = Some k -> reading slope c (h ++ firstn (S i) xs) k /\ (attained c k = true -> S i = length ks)) /\
  (length ks <= length xs)%nat /\ ((length ks < length xs)%nat -> exists k, nth_error ks (length ks - 1) = Some k /\ attained c k = true) /\
  (forall m, zlen (data m s') = c_n c) /\
  (c_n c <= zlen h + zlen ks -> forall m, total (data m s') = total (win (c_n c) m (h ++ firstn (length ks) xs))).
Proof.
  intros HN. induction xs as [|x xs IH]; intros h s I; cbn [run].
  - exists s, []. split; auto. split; [intros [|i] k; discriminate|]. split; [auto|]. split; [cbn; lia|]. split; [apply I|]. cbn [length firstn]. rewrite app_nil_r. intros F. change (zlen []) with 0 in F. apply (i_run _ _ _ _ I). lia.
  - destruct (step_ok slope c h s x HN I) as (s1 & k & E & N1 & N2 & NX). unfold step in E. rewrite E. cbn [fst snd].
    assert (RD : reading slope c (h ++ [x]) k).
    { assert (L : zlen (h ++ [x]) = zlen h + 1) by (unfold zlen; rewrite app_length; cbn; lia). split; rewrite L; auto. intros F. destruct (N2 F) as (s2 & A & B & C & _). exists h, x, s2. auto. }
    destruct (attained c k) eqn:A.
    + exists s1, [k]. split; auto. split; [|split; [cbn; lia|split]].
      * intros [|i] k' Hk; cbn in Hk; [inversion Hk; subst; auto|destruct i; discriminate].
      * exists k. auto.
      * change (zlen [k]) with 1. cbn [length firstn]. destruct (Z.leb_spec (c_n c) (zlen h + 1)) as [F|F].
        -- destruct (N2 F) as (s2 & M1 & (_ & _ & _ & _ & M5) & _ & M4). rewrite (M4 eq_refl). split; [apply M1|auto].
        -- rewrite (N1 F) in A. discriminate.
    + destruct (IH (h ++ [x]) s1 (NX eq_refl)) as (s2 & ks & E2 & T1 & T2 & T3 & T4). rewrite E2. exists s2, (k :: ks). split; auto. split; [|split; [cbn [length]; lia|split]].
      * intros [|i] k' Hk; cbn [nth_error] in Hk; [inversion Hk; subst; split; auto; congruence|]. destruct (T1 i k' Hk) as (R1 & R2). rewrite <- app_assoc in R1. split; [exact R1|]. intros Q. cbn [length]. f_equal. auto.
      * cbn [length]. intros L. destruct (T3 ltac:(lia)) as (k' & K1 & K2). exists k'. split; auto. destruct ks; [discriminate|]. cbn [length] in *. replace (S (S (length ks)) - 1)%nat with (S (S (length ks) - 1)) by lia. exact K1.
      * destruct T4 as (T4 & T5). split; auto. cbn [length firstn]. rewrite <- app_assoc in T5. intros F. apply T5. unfold zlen in *. rewrite app_length. cbn [length] in *. lia.
Qed.

(** ** The criteria *)
Lemma Qabs_dist (q : Q) : (Qabs_ q == dist q 0)%Q.
Proof.
  unfold Qabs_, dist. destruct (Qlt_le_dec q 0) as [L|L].
  - replace (Qle_bool 0 q) with false. 2:{ symmetry. apply not_true_iff_false. rewrite Qle_bool_iff. lra. } cbn [negb]. lra.
  - replace (Qle_bool 0 q) with true by (symmetry; apply Qle_bool_iff; auto). cbn [negb]. lra.
Qed.
Lemma slope_value c w : 2 <= c_n c -> zlen w = c_n c -> 2 * c_sum_x c = c_n c * (c_n c - 1) -> 6 * c_sum_x_sq c = (c_n c - 1) * c_n c * (2 * c_n c - 1) ->
  let n := inject_Z (c_n c) in let sx := inject_Z (c_sum_x c) in
  let den := (inject_Z (c_sum_x_sq c) - sx * sx / n)%Q in
  Qeq_bool den 0 = false /\ ((inject_Z (weighted 0 w) - sx * inject_Z (total w) / n) / den == ls w)%Q.
Proof.
  intros HN LW SX SXX n sx den.
  assert (A : (qn w == n)%Q) by (rewrite qn_eq, LW; reflexivity).
  assert (B : (qx 0 w == sx)%Q).
  { pose proof (qx_eq w 0) as X. rewrite A in X. assert (X2 : ((2#1) * sx == n * (n - 1))%Q).
    { unfold sx, n. change (2#1)%Q with (inject_Z 2). change 1%Q with (inject_Z 1). unfold Qminus. rewrite <- inject_Z_opp, <- inject_Z_plus, <- !inject_Z_mult, SX. reflexivity. }
    lra. }
  assert (C : (qxx 0 w == inject_Z (c_sum_x_sq c))%Q).
  { pose proof (qxx_eq w 0) as X. rewrite A in X. assert (X2 : ((6#1) * inject_Z (c_sum_x_sq c) == (n - 1) * n * ((2#1) * n - 1))%Q).
    { unfold n. change (2#1)%Q with (inject_Z 2). change (6#1)%Q with (inject_Z 6). change 1%Q with (inject_Z 1). unfold Qminus. rewrite <- inject_Z_opp. rewrite <- !inject_Z_mult, <- !inject_Z_plus, <- !inject_Z_mult, SXX. reflexivity. }
    lra. }
  assert (D : (qxy 0 w == inject_Z (weighted 0 w))%Q) by (apply (qxy_eq w 0)).
  assert (DE : (den == qxx 0 w - qx 0 w * qx 0 w / qn w)%Q) by (unfold den; rewrite A, B, C; reflexivity).
  split.
  - apply not_true_iff_false. rewrite Qeq_bool_iff, DE. intros E. pose proof (den_pos w ltac:(unfold zlen in LW; lia)) as P. rewrite E in P. exact (Qlt_irrefl 0 P).
  - unfold ls. rewrite DE, A, B, D, (qy_eq w). reflexivity.
Qed.

Lemma max_dev_ok mean : forall d acc, (0 <= acc)%Q ->
  (acc <= max_dev d mean acc)%Q /\ (forall y, In y d -> (dist (inject_Z y) mean <= max_dev d mean acc)%Q) /\
  ((max_dev d mean acc == acc)%Q \/ exists y, In y d /\ (dist (inject_Z y) mean == max_dev d mean acc)%Q).
Proof.
  assert (AD : forall y, (Qabs_ (inject_Z y - mean) == dist (inject_Z y) mean)%Q).
  { intros y. rewrite Qabs_dist. unfold dist. destruct (Qlt_le_dec (inject_Z y - mean) 0), (Qlt_le_dec (inject_Z y) mean); lra. }
  assert (DN : forall y, (0 <= dist (inject_Z y) mean)%Q) by (intros y; unfold dist; destruct (Qlt_le_dec (inject_Z y) mean); lra).
  induction d as [|y d IH]; intros acc HA; cbn [max_dev].
  - split; [lra|]. split; [intros y []|left; reflexivity].
  - set (t := if negb (Qle_bool acc (Qabs_ (inject_Z y - mean))) then acc else Qabs_ (inject_Z y - mean)).
    assert (T : (acc <= t)%Q /\ (dist (inject_Z y) mean <= t)%Q /\ ((t == acc)%Q \/ (t == dist (inject_Z y) mean)%Q)).
    { unfold t. destruct (Qle_bool acc (Qabs_ (inject_Z y - mean))) eqn:E; cbn [negb].
      - apply Qle_bool_iff in E. specialize (AD y). split; [auto|]. split; [lra|right; auto].
      - assert (N : ~ (acc <= Qabs_ (inject_Z y - mean))%Q) by (rewrite <- Qle_bool_iff, E; discriminate). specialize (AD y). split; [lra|]. split; [lra|left; reflexivity]. }
    destruct T as (T1 & T2 & T3). destruct (IH t ltac:(lra)) as (H1 & H2 & H3). split; [lra|]. split.
    + intros z [->|Hz]; [lra|auto].
    + destruct H3 as [H3|(z & Hz & H3)]; [|right; exists z; split; [right; auto|auto]]. destruct T3 as [T3|T3]; [left; lra|right]. exists y. split; [left; auto|lra].
Qed.

Lemma total_nonneg : forall l, (forall y, In y l -> 0 <= y) -> 0 <= total l.
Proof. induction l as [|y l IH]; intros H; cbn [total]; [lia|]. pose proof (H y (or_introl eq_refl)). specialize (IH (fun z Hz => H z (or_intror Hz))). lia. Qed.
Lemma weighted_nonneg : forall l i, 0 <= i -> (forall y, In y l -> 0 <= y) -> 0 <= weighted i l.
Proof. induction l as [|y l IH]; intros i Hi H; cbn [weighted]; [lia|]. pose proof (H y (or_introl eq_refl)). specialize (IH (i + 1) ltac:(lia) (fun z Hz => H z (or_intror Hz))). nia. Qed.
Lemma u64_id z : 0 <= z < 2 ^ 64 -> u64 z = z.
Proof. intros H. apply Z.mod_small. auto. Qed.

Lemma slope_reading c h k : 2 <= c_n c < 2 ^ 31 -> 2 * c_sum_x c = c_n c * (c_n c - 1) -> 6 * c_sum_x_sq c = (c_n c - 1) * c_n c * (2 * c_n c - 1) ->
  reading true c h k -> c_n c <= zlen h -> (forall y, In y (win (c_n c) (c_metric c) h) -> 0 <= y) ->
  total (win (c_n c) (c_metric c) h) < 2 ^ 64 -> weighted 0 (win (c_n c) (c_metric c) h) < 2 ^ 64 -> slope_reads (c_pct c) (win (c_n c) (c_metric c) h) k.
Proof.
  intros HN SX SXX [_ R] L POS T1 T2. destruct (R L) as (h' & x & s & -> & M & (_ & S2 & S3 & _) & ->). set (w := win (c_n c) (c_metric c) (h' ++ [x])) in *.
  assert (LW : zlen w = c_n c). { unfold w, win, zlen. rewrite last_n_len; [lia|]. rewrite vals_len. unfold zlen in L. lia. }
  pose proof (total_nonneg w POS) as P1. pose proof (weighted_nonneg w 0 ltac:(lia) POS) as P2.
  specialize (S3 eq_refl). rewrite u64_id in S2, S3 by lia. unfold eval, slope_crit. rewrite S2, S3. cbv zeta.
  destruct (slope_value c w ltac:(lia) LW SX SXX) as (D1 & D2). cbv zeta in D1, D2. rewrite D1.
  exists (ls w). assert (L2 : (2 <= length w)%nat) by (unfold zlen in LW; lia). split; [apply ls_fit; auto|]. split; [intros b' Hb; apply ls_unique; auto|]. fold (zlen w). rewrite LW. cbv zeta.
  set (q := ((inject_Z (weighted 0 w) - inject_Z (c_sum_x c) * inject_Z (total w) / inject_Z (c_n c)) / (inject_Z (c_sum_x_sq c) - inject_Z (c_sum_x c) * inject_Z (c_sum_x c) / inject_Z (c_n c)))%Q) in *. clearbody q.
  assert (DQ : (dist q 0 == dist (ls w) 0)%Q) by (unfold dist; destruct (Qlt_le_dec q 0), (Qlt_le_dec (ls w) 0); lra).
  destruct (c_pct c).
  - assert (PM : 0 <= total w / c_n c) by (apply Z.div_pos; lia). destruct (Z.eqb_spec (total w / c_n c) 0) as [E|E]; [split; auto; congruence|]. split; [congruence|]. intros _. eexists. split; [reflexivity|]. rewrite Qabs_dist, <- DQ.
    set (m := total w / c_n c) in *. assert (MP : (0 < inject_Z m)%Q) by (change 0%Q with (inject_Z 0); rewrite <- Zlt_Qlt; lia). set (mq := inject_Z m) in *. clearbody mq.
    assert (DD : (dist (100 * q / mq) 0 == 100 * dist q 0 / mq)%Q).
    { assert (IP : (0 < / mq)%Q) by (apply Qinv_lt_0_compat; auto). unfold Qdiv. set (r := (/ mq)%Q) in *. clearbody r. unfold dist. destruct (Qlt_le_dec (100 * q * r) 0), (Qlt_le_dec q 0); nra. }
    rewrite DD. field. lra.
  - eexists. split; [reflexivity|]. rewrite Qabs_dist. exact DQ.
Qed.

Lemma dev_reading c h k : 1 <= c_n c < 2 ^ 31 -> reading false c h k -> c_n c <= zlen h -> (forall y, In y (win (c_n c) (c_metric c) h) -> 0 <= y) ->
  total (win (c_n c) (c_metric c) h) < 2 ^ 64 -> dev_reads (c_pct c) (win (c_n c) (c_metric c) h) k.
Proof.
  intros HN [_ R] L POS T1. destruct (R L) as (h' & x & s & -> & M & (_ & S2 & _) & ->). pose proof (fun y => in_window false c h' x s (c_metric c) y HN M) as IW.
  assert (L' : c_n c <= zlen h' + 1) by (unfold zlen in *; rewrite app_length in L; cbn in L; lia). specialize (fun y => IW y L').
  set (w := win (c_n c) (c_metric c) (h' ++ [x])) in *.
  assert (LW : zlen w = c_n c). { unfold w, win, zlen. rewrite last_n_len; [lia|]. rewrite vals_len. unfold zlen in L. lia. }
  pose proof (total_nonneg w POS) as P1. rewrite u64_id in S2 by lia. unfold eval, dev_crit. rewrite S2. cbv zeta.
  pose proof (d_len _ _ _ _ _ M (c_metric c)) as LD. rewrite firstn_all2 by (unfold zlen in LD; lia).
  set (m := (inject_Z (total w) / inject_Z (c_n c))%Q). set (d := max_dev (data (c_metric c) s) m 0).
  assert (NP : (0 < inject_Z (c_n c))%Q) by (change 0%Q with (inject_Z 0); rewrite <- Zlt_Qlt; lia).
  exists m, d. split; [|split].
  - unfold is_mean. fold (zlen w). rewrite LW. unfold m. field. lra.
  - destruct (max_dev_ok m (data (c_metric c) s) 0 ltac:(lra)) as (H1 & H2 & H3). fold d in H1, H2, H3. split; [intros y Hy; apply H2, IW, Hy|].
    destruct H3 as [H3|(y & Hy & H3)]; [|exists y; split; auto; apply IW; auto].
    destruct w as [|y w'] eqn:EW; [unfold zlen in LW; cbn in LW; lia|]. exists y. split; [left; auto|]. specialize (H2 y (proj2 (IW y) (or_introl eq_refl))).
    assert (DN : (0 <= dist (inject_Z y) m)%Q) by (unfold dist; destruct (Qlt_le_dec (inject_Z y) m); lra). lra.
  - destruct (c_pct c); [|eexists; split; [reflexivity|reflexivity]]. destruct (Qeq_bool m 0) eqn:E.
    + apply Qeq_bool_iff in E. split; auto. intros N. contradiction.
    + assert (N : ~ (m == 0)%Q) by (rewrite <- Qeq_bool_iff, E; discriminate). split; [intros; contradiction|]. intros _. eexists. split; [reflexivity|]. field. auto.
Qed.

Lemma fold_u64 : forall l a, fold_left (fun a y => u64 (a + y)) l (u64 a) = u64 (a + total l).
Proof. induction l as [|y l IH]; intros a; cbn [fold_left total]; [rewrite Z.add_0_r; auto|]. rewrite u64_add_l, IH. f_equal. lia. Qed.
Lemma mean_ok n (d w : list Z) : 1 <= n -> zlen d = n -> total d = total w -> (forall y, In y w -> 0 <= y) -> total w < 2 ^ 64 -> data_mean n d = Some (total w / n).
Proof.
  intros HN LM TT POS T. unfold data_mean. destruct (Z.eqb_spec n 0); [lia|].
  replace (n <=? zlen d) with true by (symmetry; apply Z.leb_le; lia). rewrite firstn_all2 by (unfold zlen in LM; lia).
  change 0 with (u64 0). rewrite fold_u64, Z.add_0_l, TT. rewrite u64_id; auto. pose proof (total_nonneg _ POS). lia.
Qed.
