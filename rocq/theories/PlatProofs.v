(** Proofs about the latency histogram. *)
From Coq Require Import ZArith List Lia Bool Arith Permutation.
From Verif Require Import CBase PlatModel PlatSpec.
Import ListNotations.
Open Scope Z_scope.

(** Group number and bucket quotient of a value of at least 128. *)
Definition grp (v : Z) : Z := Z.log2 v - 6.
Definition quo (v : Z) : Z := v / 2 ^ grp v.

Lemma grp_facts v : 128 <= v ->
  1 <= grp v /\ 2 ^ (grp v + 6) <= v < 2 ^ (grp v + 7) /\ 64 <= quo v < 128 /\
  quo v * 2 ^ grp v <= v < (quo v + 1) * 2 ^ grp v.
Proof.
  intros H. pose proof (Z.log2_spec v ltac:(lia)) as [L1 L2].
  assert (7 <= Z.log2 v) by (apply Z.log2_le_pow2; lia).
  unfold grp, quo. unfold grp. set (e := Z.log2 v - 6) in *.
  replace (e + 6) with (Z.log2 v) by lia. replace (e + 7) with (Z.succ (Z.log2 v)) by lia.
  assert (P : 0 < 2 ^ e) by (apply Z.pow_pos_nonneg; lia).
  assert (E1 : 2 ^ Z.log2 v = 64 * 2 ^ e)
    by (replace (Z.log2 v) with (6 + e) by lia; rewrite Z.pow_add_r by lia; auto).
  assert (E2 : 2 ^ Z.succ (Z.log2 v) = 128 * 2 ^ e)
    by (replace (Z.succ (Z.log2 v)) with (7 + e) by lia; rewrite Z.pow_add_r by lia; auto).
  pose proof (Z.div_mod v (2 ^ e) ltac:(lia)). pose proof (Z.mod_pos_bound v (2 ^ e) P).
  split; [lia|]. split; [lia|]. split.
  - split; [apply Z.div_le_lower_bound|apply Z.div_lt_upper_bound]; lia.
  - lia.
Qed.

Lemma idx_small v : 0 <= v < 128 -> plat_val_to_idx v = v.
Proof.
  intros H. unfold plat_val_to_idx, msb, PLAT_BITS. destruct (Z.eqb_spec v 0); [subst; auto|].
  destruct (Z.leb_spec (Z.log2 v) 6); auto.
  assert (Z.log2 v < 7) by (apply Z.log2_lt_pow2; lia). lia.
Qed.

Lemma idx_big v : 128 <= v -> plat_val_to_idx v = Z.min (grp v * 64 + quo v) (PLAT_NR - 1).
Proof.
  intros H. destruct (grp_facts v H) as (G1 & G2 & G3 & G4).
  unfold plat_val_to_idx, msb, PLAT_BITS. destruct (Z.eqb_spec v 0); [lia|].
  assert (7 <= Z.log2 v) by (apply Z.log2_le_pow2; lia).
  destruct (Z.leb_spec (Z.log2 v) 6); [lia|]. fold (grp v). cbv zeta.
  rewrite Z.shiftr_div_pow2 by lia. fold (quo v).
  change (PLAT_VAL - 1) with (Z.ones 6). rewrite Z.land_comm, Z.land_ones by lia.
  assert (M : quo v mod 2 ^ 6 = quo v - 64).
  { symmetry. apply Z.mod_unique with 1; change (2 ^ 6) with 64; lia. }
  rewrite M, Z.shiftl_mul_pow2 by lia. change (2 ^ 6) with 64.
  destruct (Z.ltb_spec ((grp v + 1) * 64 + (quo v - 64)) (PLAT_NR - 1)); lia.
Qed.

Lemma idx_range v : 0 <= v -> 0 <= plat_val_to_idx v < PLAT_NR.
Proof.
  intros H. unfold PLAT_NR. destruct (Z_lt_ge_dec v 128) as [Hlt_v|Hge_v].
  - rewrite idx_small by lia. lia.
  - rewrite idx_big by lia. destruct (grp_facts v) as (? & ? & ? & ?); [lia|]. unfold PLAT_NR. lia.
Qed.

Lemma idx_mono v w : 0 <= v <= w -> plat_val_to_idx v <= plat_val_to_idx w.
Proof.
  intros H. destruct (Z_lt_ge_dec w 128) as [Hlt_w|Hge_w].
  - rewrite !idx_small by lia. lia.
  - destruct (grp_facts w) as (W1 & W2 & W3 & W4); [lia|]. rewrite (idx_big w) by lia.
    unfold PLAT_NR. destruct (Z_lt_ge_dec v 128) as [Hlt_v|Hge_v].
    + rewrite idx_small by lia. lia.
    + destruct (grp_facts v) as (V1 & V2 & V3 & V4); [lia|]. rewrite (idx_big v) by lia. unfold PLAT_NR.
      assert (G : grp v <= grp w) by (unfold grp; pose proof (Z.log2_le_mono v w); lia).
      destruct (Z.eq_dec (grp v) (grp w)) as [E|E].
      * assert (quo v <= quo w).
        { unfold quo. rewrite E. apply Z.div_le_mono; [apply Z.pow_pos_nonneg|]; lia. }
        lia.
      * lia.
Qed.

Lemma idx_to_val_big g q : 1 <= g -> 64 <= q < 128 -> g * 64 + q < PLAT_NR ->
  plat_idx_to_val (g * 64 + q) = Some (q * 2 ^ g + 2 ^ (g - 1)).
Proof.
  intros Hg Hq HN. unfold plat_idx_to_val. destruct (Z.ltb_spec (g * 64 + q) PLAT_NR); [|lia].
  change (Z.shiftl PLAT_VAL 1) with 128. destruct (Z.ltb_spec (g * 64 + q) 128); [lia|].
  unfold PLAT_BITS, PLAT_VAL. rewrite Z.shiftr_div_pow2 by lia. change (2 ^ 6) with 64.
  assert (D : (g * 64 + q) / 64 = g + 1) by (symmetry; apply Z.div_unique with (q - 64); lia).
  assert (M : (g * 64 + q) mod 64 = q - 64) by (symmetry; apply Z.mod_unique with (g + 1); lia).
  rewrite D, M. replace (g + 1 - 1) with g by lia. rewrite Z.shiftl_mul_pow2 by lia.
  replace (g + 6) with (6 + g) by lia. rewrite Z.pow_add_r by lia. change (2 ^ 6) with 64.
  assert (E : 2 ^ g = 2 * 2 ^ (g - 1)).
  { replace g with (Z.succ (g - 1)) at 1 by lia. apply Z.pow_succ_r. lia. }
  f_equal. rewrite E.
  replace ((2 * (q - 64) + 1) * (2 * 2 ^ (g - 1))) with ((2 * (q - 64) + 1) * 2 ^ (g - 1) * 2) by lia.
  rewrite Z.div_mul by lia. lia.
Qed.

Lemma idx_to_val_some i : 0 <= i < PLAT_NR -> exists v, plat_idx_to_val i = Some v /\ 0 <= v.
Proof.
  intros H. unfold plat_idx_to_val. destruct (Z.ltb_spec i PLAT_NR); [|lia].
  destruct (_ <? _); [eauto with zarith|]. eexists. split; [reflexivity|].
  assert (0 <= Z.shiftl 1 (Z.shiftr i PLAT_BITS - 1 + PLAT_BITS)) by (apply Z.shiftl_nonneg; lia).
  assert (0 <= i mod PLAT_VAL) by (apply Z.mod_pos_bound; unfold PLAT_VAL; lia).
  assert (0 <= 2 ^ (Z.shiftr i PLAT_BITS - 1)) by (apply Z.pow_nonneg; lia).
  assert (0 <= (2 * (i mod PLAT_VAL) + 1) * 2 ^ (Z.shiftr i PLAT_BITS - 1) / 2); [|lia].
  apply Z.div_pos; [|lia]. apply Z.mul_nonneg_nonneg; lia.
Qed.

Lemma grp_limit v : 128 <= v < 2 ^ 34 -> grp v * 64 + quo v < PLAT_NR.
Proof.
  intros H. destruct (grp_facts v) as (G1 & G2 & G3 & G4); [lia|].
  assert (Z.log2 v < 34) by (apply Z.log2_lt_pow2; lia). unfold grp, PLAT_NR in *. lia.
Qed.

Lemma bucket_error v : 0 <= v < 2 ^ 34 ->
  exists r, plat_idx_to_val (plat_val_to_idx v) = Some r /\ 128 * Z.abs (r - v) <= v.
Proof.
  intros H. destruct (Z_lt_ge_dec v 128) as [Hlt_v|Hge_v].
  - rewrite idx_small by lia. exists v. split; [|rewrite Z.sub_diag; cbn; lia].
    unfold plat_idx_to_val, PLAT_NR. destruct (Z.ltb_spec v (29 * 64)); [|lia].
    change (Z.shiftl PLAT_VAL 1) with 128. destruct (Z.ltb_spec v 128); [auto|lia].
  - destruct (grp_facts v) as (G1 & G2 & G3 & G4); [lia|].
    pose proof (grp_limit v ltac:(lia)) as GL.
    rewrite idx_big by lia. rewrite Z.min_l by lia. rewrite idx_to_val_big by lia.
    eexists. split; [reflexivity|].
    assert (E : 2 ^ grp v = 2 * 2 ^ (grp v - 1)).
    { replace (grp v) with (Z.succ (grp v - 1)) at 1 by lia. apply Z.pow_succ_r. lia. }
    assert (E6 : 2 ^ (grp v + 6) = 64 * 2 ^ grp v)
      by (replace (grp v + 6) with (6 + grp v) by lia; rewrite Z.pow_add_r by lia; auto).
    lia.
Qed.

Lemma bucket_fix i : 0 <= i < PLAT_NR ->
  exists r, plat_idx_to_val i = Some r /\ 0 <= r < 2 ^ 34 /\ plat_val_to_idx r = i.
Proof.
  intros H. destruct (Z_lt_ge_dec i 128) as [Hlt_i|Hge_i].
  - exists i. unfold plat_idx_to_val. destruct (Z.ltb_spec i PLAT_NR); [|lia].
    change (Z.shiftl PLAT_VAL 1) with 128. destruct (Z.ltb_spec i 128); [|lia].
    split; [auto|]. split; [lia|]. apply idx_small. lia.
  - unfold PLAT_NR in H.
    set (g := i / 64 - 1). set (q := i mod 64 + 64).
    pose proof (Z.div_mod i 64 ltac:(lia)). pose proof (Z.mod_pos_bound i 64 ltac:(lia)).
    assert (Ei : i = g * 64 + q) by lia. assert (1 <= g) by lia. assert (g <= 27) by lia.
    rewrite Ei. rewrite idx_to_val_big by (unfold PLAT_NR; lia).
    set (r := q * 2 ^ g + 2 ^ (g - 1)).
    exists r. split; [auto|].
    assert (E : 2 ^ g = 2 * 2 ^ (g - 1)).
    { replace g with (Z.succ (g - 1)) at 1 by lia. apply Z.pow_succ_r. lia. }
    assert (0 < 2 ^ (g - 1)) by (apply Z.pow_pos_nonneg; lia).
    assert (P27 : 2 ^ g <= 2 ^ 27) by (apply Z.pow_le_mono_r; lia).
    assert (R : 64 * 2 ^ g <= r < 128 * 2 ^ g) by (unfold r; nia).
    split; [lia|].
    assert (LG : Z.log2 r = g + 6).
    { apply Z.log2_unique; [lia|]. replace (g + 6) with (6 + g) by lia.
      replace (Z.succ (6 + g)) with (7 + g) by lia. rewrite !Z.pow_add_r by lia. change (2 ^ 6) with 64.
      change (2 ^ 7) with 128. lia. }
    assert (GE : grp r = g) by (unfold grp; lia).
    assert (QE : quo r = q).
    { unfold quo. rewrite GE. symmetry. apply Z.div_unique with (2 ^ (g - 1)); [lia|]. unfold r. lia. }
    rewrite idx_big by lia. rewrite GE, QE. unfold PLAT_NR. lia.
Qed.

(** ** Histogram = counting *)

Definition nidx (x : Z) : nat := Z.to_nat (plat_val_to_idx x).
(** Number of samples in bucket [i], and in buckets at or below [i]. *)
Definition cnt (xs : list Z) (i : nat) : Z := zlen (filter (fun x => (nidx x =? i)%nat) xs).
Definition cum (xs : list Z) (i : nat) : Z := zlen (filter (fun x => (nidx x <=? i)%nat) xs).

Lemma nidx_lt x : 0 <= x -> (nidx x < Z.to_nat PLAT_NR)%nat.
Proof. intros H. pose proof (idx_range x H). unfold nidx. lia. Qed.

Lemma filter_le {A} (f : A -> bool) l : (length (filter f l) <= length l)%nat.
Proof. induction l; cbn; auto. destruct (f a); cbn; lia. Qed.

Lemma add_samples_ok : forall xs plat, length plat = Z.to_nat PLAT_NR -> Forall (fun x => 0 <= x) xs ->
  Forall (fun c => 0 <= c) plat -> Forall (fun c => c + zlen xs < 2 ^ 64) plat ->
  exists plat', add_samples plat xs = Some plat' /\ length plat' = length plat /\
    forall i, (i < length plat)%nat -> nth i plat' 0 = nth i plat 0 + cnt xs i.
Proof.
  induction xs as [|x xs IH]; intros plat HL HX HP HB.
  - exists plat. split; [auto|]. split; auto. intros i Hi. unfold cnt, zlen. cbn. lia.
  - inversion HX; subst. cbn [add_samples]. unfold add_sample.
    pose proof (idx_range x ltac:(auto)) as R. set (j := nidx x).
    assert (Ej : plat_val_to_idx x = Z.of_nat j) by (unfold j, nidx; lia). rewrite Ej in *.
    assert (Hj : (j < length plat)%nat) by lia.
    unfold znth. destruct (Z.ltb_spec (Z.of_nat j) 0); [lia|]. rewrite Nat2Z.id.
    destruct (nth_error plat j) as [c|] eqn:Ec; [|apply nth_error_None in Ec; lia].
    assert (Nc : nth j plat 0 = c) by (apply nth_error_nth; auto).
    unfold zupd. destruct (Z.leb_spec 0 (Z.of_nat j)); [|lia].
    destruct (Z.ltb_spec (Z.of_nat j) (Z.of_nat (length plat))); [|lia]. cbn [andb]. rewrite Nat2Z.id.
    assert (Hc : 0 <= c /\ c + zlen (x :: xs) < 2 ^ 64).
    { apply nth_error_In in Ec. rewrite Forall_forall in HP, HB. auto. }
    assert (U : u64 (c + 1) = c + 1).
    { unfold u64. apply Z.mod_small. unfold zlen in Hc. cbn [length] in Hc. lia. }
    rewrite U. destruct (IH (upd plat j (c + 1))) as (p' & E & L & N).
    + rewrite upd_length. auto.
    + auto.
    + apply Forall_forall. intros y Hy. apply In_nth with (d := 0) in Hy. destruct Hy as (k & Hk & <-).
      rewrite upd_length in Hk. destruct (Nat.eq_dec j k) as [<-|Ne].
      * rewrite upd_nth_same by auto. lia.
      * rewrite upd_nth_other by auto. rewrite Forall_forall in HP. apply HP. apply nth_In. auto.
    + apply Forall_forall. intros y Hy. apply In_nth with (d := 0) in Hy. destruct Hy as (k & Hk & <-).
      rewrite upd_length in Hk. unfold zlen in *. cbn [length] in Hc. destruct (Nat.eq_dec j k) as [<-|Ne].
      * rewrite upd_nth_same by auto. lia.
      * rewrite upd_nth_other by auto. rewrite Forall_forall in HB. cbn [length] in HB.
        specialize (HB (nth k plat 0) (nth_In _ _ Hk)). cbv beta in HB. lia.
    + exists p'. rewrite upd_length in *. split; [auto|]. split; [auto|]. intros i Hi. rewrite N by auto.
      unfold cnt, zlen. cbn [filter]. fold j.
      destruct (Nat.eqb_spec j i) as [<-|Ne].
      * rewrite upd_nth_same by auto. cbn [length]. lia.
      * rewrite upd_nth_other by auto. lia.
Qed.

Lemma cum_step xs i : cum xs (S i) = cum xs i + cnt xs (S i).
Proof.
  unfold cum, cnt, zlen. induction xs as [|x xs IH]; auto. cbn [filter].
  destruct (Nat.leb_spec (nidx x) (S i)), (Nat.leb_spec (nidx x) i), (Nat.eqb_spec (nidx x) (S i));
    cbn [length]; try lia.
Qed.
Lemma cum_0 xs : cum xs 0 = cnt xs 0.
Proof.
  unfold cum, cnt, zlen. induction xs as [|x xs IH]; auto. cbn [filter].
  destruct (Nat.leb_spec (nidx x) 0), (Nat.eqb_spec (nidx x) 0); cbn [length]; try lia.
Qed.
Lemma cum_mono xs i j : (i <= j)%nat -> cum xs i <= cum xs j.
Proof.
  intros H. induction H; [lia|]. rewrite cum_step. unfold cnt, zlen. lia.
Qed.
Lemma cum_le xs i : 0 <= cum xs i <= zlen xs.
Proof.
  unfold cum, zlen. pose proof (filter_le (fun x => (nidx x <=? i)%nat) xs). lia.
Qed.
Lemma cum_all xs : Forall (fun x => 0 <= x) xs -> cum xs (Z.to_nat PLAT_NR - 1) = zlen xs.
Proof.
  unfold cum, zlen. induction 1 as [|x l Hx Hl IH]; auto. cbn [filter].
  pose proof (nidx_lt x Hx). destruct (Nat.leb_spec (nidx x) (Z.to_nat PLAT_NR - 1)); [|lia].
  cbn [length]. lia.
Qed.

(** ** The percentile loop *)

(** [b] is the first bucket whose cumulated count reaches [p]. *)
Definition first_bucket (cumf : nat -> Z) (nr : Z) (p : pct) (b : nat) : Prop :=
  meets (cumf b) nr p = true /\ forall i, (i < b)%nat -> meets (cumf i) nr p = false.

Definition rep (b : nat) : Z := match plat_idx_to_val (Z.of_nat b) with Some v => v | None => 0 end.

Lemma rep_some b : (b < Z.to_nat PLAT_NR)%nat -> plat_idx_to_val (Z.of_nat b) = Some (rep b).
Proof.
  intros H. destruct (idx_to_val_some (Z.of_nat b)) as (v & E & _).
  - unfold PLAT_NR in *. lia.
  - unfold rep. rewrite E. auto.
Qed.

Definition vmin (m : Z) (vs : list Z) : Z := fold_left Z.min vs m.
Definition vmax (m : Z) (vs : list Z) : Z := fold_left Z.max vs m.

Lemma inner_ok sum nr i : (i < Z.to_nat PLAT_NR)%nat -> forall ps acc mn mx,
  Forall (fun p => pct_ok p) ps -> ps <> [] ->
  exists ps1 ps2, ps = ps1 ++ ps2 /\ Forall (fun p => meets sum nr p = true) ps1 /\
    match ps2 with [] => True | p :: _ => meets sum nr p = false end /\
    inner ps sum nr (Z.of_nat i) acc mn mx =
      Some (ps2, repeat (rep i) (length ps1) ++ acc, vmin mn (repeat (rep i) (length ps1)),
            vmax mx (repeat (rep i) (length ps1)), match ps2 with [] => true | _ => false end).
Proof.
  intros Hi. induction ps as [|p ps IH]; intros acc mn mx HO Hne; [congruence|].
  inversion HO as [|? ? [Hd Hp] HO']; subst. cbn [inner].
  destruct (meets sum nr p) eqn:M.
  - destruct (Z.leb_spec (pnum p) (100 * pden p)); [|lia]. rewrite rep_some by auto.
    assert (Emin : (if rep i <? mn then rep i else mn) = Z.min mn (rep i))
      by (destruct (Z.ltb_spec (rep i) mn); lia).
    assert (Emax : (if mx <? rep i then rep i else mx) = Z.max mx (rep i))
      by (destruct (Z.ltb_spec mx (rep i)); lia).
    rewrite Emin, Emax. destruct ps as [|p2 ps].
    + exists [p], []. split; [auto|]. split; [auto|]. split; [auto|]. cbn. auto.
    + destruct (IH (rep i :: acc) (Z.min mn (rep i)) (Z.max mx (rep i))) as (a & b & E & F1 & F2 & E2);
        auto; [congruence|].
      exists (p :: a), b. split; [rewrite E; auto|]. split; [auto|]. split; [auto|].
      rewrite E2. cbn [length repeat app].
      assert (RC : forall n, repeat (rep i) n ++ rep i :: acc = rep i :: repeat (rep i) n ++ acc).
      { induction n; cbn; auto. rewrite IHn. auto. }
      rewrite RC. reflexivity.
  - exists [], (p :: ps). split; [auto|]. split; [auto|]. split; [auto|]. cbn. auto.
Qed.

Lemma meets_mono s s' nr p : pct_ok p -> s <= s' -> meets s nr p = true -> meets s' nr p = true.
Proof. unfold meets. intros [H1 H2] H. rewrite !Z.leb_le. nia. Qed.

Lemma meets_sorted s nr p q : pct_ok p -> pct_ok q -> 0 <= nr ->
  pnum p * pden q <= pnum q * pden p -> meets s nr q = true -> meets s nr p = true.
Proof.
  unfold meets. intros [P1 P2] [Q1 Q2] Hn Hle. rewrite !Z.leb_le. intros H.
  assert (pnum p * nr * pden q <= s * 100 * pden p * pden q); [|nia].
  assert (pnum p * pden q * nr <= pnum q * pden p * nr) by nia.
  assert (pnum q * nr * pden p <= s * 100 * pden q * pden p) by nia. nia.
Qed.

(** The values found are those of the first buckets. *)
Lemma outer_ok nr (cumf : nat -> Z) : 0 <= nr < 2 ^ 64 ->
  (forall i j, (i <= j)%nat -> cumf i <= cumf j) -> 
  forall plat k ps acc mn mx (found : list pct),
  (k + length plat <= Z.to_nat PLAT_NR)%nat ->
  (forall i, (i < length plat)%nat -> nth i plat 0 = cumf (k + i)%nat - match (k + i)%nat with O => 0 | S j => cumf j end) ->
  (forall i, 0 <= cumf i <= nr) ->
  Forall pct_ok ps -> ps <> [] ->
  Forall2 (fun p v => exists b, first_bucket cumf nr p b /\ (b < Z.to_nat PLAT_NR)%nat /\ v = rep b) found (rev acc) ->
  (forall i, (i < k)%nat -> match ps with [] => True | p :: _ => meets (cumf i) nr p = false end) ->
  (forall i p (q : pct), (i < k)%nat -> In p ps -> meets (cumf i) nr p = false) ->
  mn = vmin ones64 (rev acc) -> mx = vmax 0 (rev acc) ->
  (exists i, (k <= i < k + length plat)%nat /\ forall p, In p ps -> meets (cumf i) nr p = true) ->
  sorted ps ->
  exists vals, outer plat ps (match k with O => 0 | S j => cumf j end) nr (Z.of_nat k) acc mn mx
    = Some (vals, vmin ones64 vals, vmax 0 vals, true) /\
    Forall2 (fun p v => exists b, first_bucket cumf nr p b /\ (b < Z.to_nat PLAT_NR)%nat /\ v = rep b) (found ++ ps) vals.
Proof.
  intros Hnr Hmono. induction plat as [|c plat IH];
    intros k ps acc mn mx found Hk Hpl Hc Hok Hne HF _ Hlow Hmn Hmx Hex Hsort.
  - destruct Hex as (i & Hi & _). cbn [length] in Hi. lia.
  - cbn [outer]. assert (Hk' : (k < Z.to_nat PLAT_NR)%nat) by (cbn [length] in Hk; lia).
    assert (SUM : u64 (match k with O => 0 | S j => cumf j end + c) = cumf k).
    { specialize (Hpl 0%nat ltac:(cbn; lia)). cbn [nth] in Hpl. rewrite Nat.add_0_r in Hpl.
      rewrite Hpl. specialize (Hc k). unfold u64.
      replace (match k with 0%nat => 0 | S j => cumf j end +
        (cumf k - match k with 0%nat => 0 | S j => cumf j end)) with (cumf k) by lia.
      apply Z.mod_small. lia. }
    rewrite SUM.
    destruct (inner_ok (cumf k) nr k Hk' ps acc mn mx Hok Hne) as (ps1 & ps2 & E & F1 & F2 & EI).
    rewrite EI.
    assert (HF' : Forall2 (fun p v => exists b, first_bucket cumf nr p b /\ (b < Z.to_nat PLAT_NR)%nat /\ v = rep b)
              (found ++ ps1) (rev (repeat (rep k) (length ps1) ++ acc))).
    { rewrite rev_app_distr. apply Forall2_app; auto.
      assert (RR : rev (repeat (rep k) (length ps1)) = repeat (rep k) (length ps1)).
      { clear. induction (length ps1) as [|n IHn]; auto. cbn [repeat rev]. rewrite IHn.
        clear. induction n; cbn; auto. f_equal. auto. }
      rewrite RR. assert (LOW1 : forall p, In p ps1 -> first_bucket cumf nr p k).
      { intros p Hp. split.
        - rewrite Forall_forall in F1. auto.
        - intros i Hi. apply (Hlow i p p); auto. rewrite E. apply in_or_app. auto. }
      clear -LOW1 Hk'. induction ps1 as [|p ps1 IH]; cbn [length repeat]; constructor.
      - exists k. split; [|auto]. apply LOW1. left. auto.
      - apply IH. intros q Hq. apply LOW1. right. auto. }
    assert (MN : vmin mn (repeat (rep k) (length ps1)) = vmin ones64 (rev (repeat (rep k) (length ps1) ++ acc))).
    { rewrite rev_app_distr. unfold vmin. rewrite fold_left_app. rewrite Hmn. unfold vmin. f_equal.
      clear. induction (length ps1) as [|n IHn]; auto. cbn [repeat rev]. rewrite <- IHn.
      clear. induction n; cbn; auto. f_equal. auto. }
    assert (MX : vmax mx (repeat (rep k) (length ps1)) = vmax 0 (rev (repeat (rep k) (length ps1) ++ acc))).
    { rewrite rev_app_distr. unfold vmax. rewrite fold_left_app. rewrite Hmx. unfold vmax. f_equal.
      clear. induction (length ps1) as [|n IHn]; auto. cbn [repeat rev]. rewrite <- IHn.
      clear. induction n; cbn; auto. f_equal. auto. }
    destruct ps2 as [|p2 ps2].
    + eexists. split; [rewrite MN, MX; reflexivity|]. rewrite app_nil_r in E. subst ps1. exact HF'.
    + assert (Hs2 : forall p, In p (p2 :: ps2) -> meets (cumf k) nr p = false).
      { assert (SO : sorted (p2 :: ps2)).
        { rewrite E in Hsort. clear -Hsort. induction ps1 as [|a l IH]; auto. apply IH.
          cbn [app] in Hsort. destruct (l ++ p2 :: ps2) eqn:Q; [destruct l; discriminate|].
          destruct Hsort as [_ H]. exact H. }
        assert (OK2 : Forall pct_ok (p2 :: ps2)).
        { rewrite E in Hok. apply Forall_app in Hok. tauto. }
        clear -SO OK2 F2 Hnr. revert p2 F2 SO OK2. induction ps2 as [|p3 ps IH]; intros p2 F2 SO OK2 p Hp.
        - destruct Hp as [<-|[]]. auto.
        - destruct Hp as [<-|Hp]; auto. destruct SO as [S1 S2].
          inversion OK2 as [|? ? O2 OK3]; subst. inversion OK3 as [|? ? O3 _]; subst.
          apply (IH p3); auto. destruct (meets (cumf k) nr p3) eqn:M; auto.
          rewrite <- F2. symmetry. apply (meets_sorted (cumf k) nr p2 p3); auto. lia. }
      replace (Z.of_nat k + 1) with (Z.of_nat (S k)) by lia.
      specialize (IH (S k) (p2 :: ps2) (repeat (rep k) (length ps1) ++ acc)
        (vmin mn (repeat (rep k) (length ps1))) (vmax mx (repeat (rep k) (length ps1))) (found ++ ps1)).
      cbv iota in IH.
      destruct IH as (vals & EV & FV); auto.
      * cbn [length] in Hk. lia.
      * intros i Hi. specialize (Hpl (S i) ltac:(cbn; lia)). cbn [nth] in Hpl.
        replace (S k + i)%nat with (k + S i)%nat by lia. exact Hpl.
      * rewrite E in Hok. apply Forall_app in Hok. tauto.
      * congruence.
      * intros i Hi. destruct (Nat.eq_dec i k) as [->|]; [apply Hs2; left; auto|].
        apply (Hlow i p2 p2); [lia|]. rewrite E. apply in_or_app. right. left. auto.
      * intros i p q Hi Hp. destruct (Nat.eq_dec i k) as [->|]; [apply Hs2; auto|].
        apply (Hlow i p p); [lia|]. rewrite E. apply in_or_app. auto.
      * destruct Hex as (i & Hi & Hall). exists i. cbn [length] in Hi. split.
        -- destruct (Nat.eq_dec i k) as [->|]; [|lia]. exfalso.
           specialize (Hall p2). rewrite E in Hall. rewrite (Hs2 p2 (or_introl eq_refl)) in Hall.
           assert (false = true); [|discriminate]. apply Hall. apply in_or_app. right. left. auto.
        -- intros p Hp. apply Hall. rewrite E. apply in_or_app. auto.
      * rewrite E in Hsort. clear -Hsort. induction ps1 as [|a l IH]; auto. apply IH.
        cbn [app] in Hsort. destruct (l ++ p2 :: ps2) eqn:Q; [destruct l; discriminate|].
        destruct Hsort as [_ H]. exact H.
      * exists vals. split; [exact EV|]. rewrite E, app_assoc. exact FV.
Qed.

Lemma insert_perm p l : Permutation (p :: l) (insert p l).
Proof.
  induction l as [|q l IH]; cbn [insert]; auto. destruct (pct_le p q); auto.
  rewrite perm_swap. constructor. auto.
Qed.
Lemma sort_perm l : Permutation l (sort_pcts l).
Proof.
  induction l as [|p l IH]; cbn; auto. rewrite <- insert_perm. constructor. auto.
Qed.

Lemma insert_sorted p l : pct_ok p -> Forall pct_ok l -> sorted l -> sorted (insert p l).
Proof.
  intros Hp. induction l as [|q l IH]; intros HO HS; cbn [insert]; [exact I|].
  inversion HO; subst. destruct (pct_le p q) eqn:C.
  - split; auto. apply Z.leb_le in C. auto.
  - assert (L : pnum q * pden p <= pnum p * pden q) by (unfold pct_le in C; apply Z.leb_gt in C; lia).
    destruct l as [|r l].
    + cbn. auto.
    + destruct HS as [S1 S2]. specialize (IH ltac:(auto) S2). cbn [insert] in IH |- *.
      destruct (pct_le p r) eqn:C2; split; auto.
Qed.
Lemma sort_sorted l : Forall pct_ok l -> sorted (sort_pcts l).
Proof.
  induction 1 as [|p l Hp Hl IH]; [exact I|]. cbn. apply insert_sorted; auto.
  apply Forall_forall. intros q Hq. rewrite Forall_forall in Hl. apply Hl.
  eapply Permutation_in; [symmetry; apply sort_perm|exact Hq].
Qed.

(** ** From buckets back to samples *)

Lemma list_min (l : list Z) : l <> [] -> exists m, In m l /\ forall y, In y l -> m <= y.
Proof.
  induction l as [|a l IH]; [congruence|]. intros _. destruct l as [|b l].
  - exists a. split; [left; auto|]. intros y [<-|[]]. lia.
  - destruct IH as (m & Hm & Hle); [congruence|]. destruct (Z_le_gt_dec a m).
    + exists a. split; [left; auto|]. intros y [<-|Hy]; [lia|]. specialize (Hle y Hy). lia.
    + exists m. split; [right; auto|]. intros y [<-|Hy]; [lia|auto].
Qed.
Lemma list_max (l : list Z) : l <> [] -> exists m, In m l /\ forall y, In y l -> y <= m.
Proof.
  induction l as [|a l IH]; [congruence|]. intros _. destruct l as [|b l].
  - exists a. split; [left; auto|]. intros y [<-|[]]. lia.
  - destruct IH as (m & Hm & Hle); [congruence|]. destruct (Z_le_gt_dec m a).
    + exists a. split; [left; auto|]. intros y [<-|Hy]; [lia|]. specialize (Hle y Hy). lia.
    + exists m. split; [right; auto|]. intros y [<-|Hy]; [lia|auto].
Qed.

Lemma filter_len_mono {A} (f g : A -> bool) l :
  (forall y, In y l -> f y = true -> g y = true) -> zlen (filter f l) <= zlen (filter g l).
Proof.
  unfold zlen. induction l as [|a l IH]; intros H; cbn; [lia|].
  assert (IH' : (Z.of_nat (length (filter f l)) <= Z.of_nat (length (filter g l)))).
  { apply IH. intros y Hy. apply H. right. auto. }
  specialize (H a (or_introl eq_refl)). destruct (f a).
  - rewrite H by auto. cbn. lia.
  - destruct (g a); cbn; lia.
Qed.
Lemma filter_all {A} (f : A -> bool) l : (forall y, In y l -> f y = true) -> filter f l = l.
Proof.
  induction l as [|a l IH]; intros H; cbn; auto. rewrite H by (left; auto). f_equal. apply IH.
  intros y Hy. apply H. right. auto.
Qed.

Lemma percentile_exists p xs : pct_ok p -> xs <> [] -> exists x, is_percentile p xs x.
Proof.
  intros [Hd Hp] Hne. destruct (list_max xs Hne) as (m & Hm & Hmax).
  set (P := fun x => pnum p * zlen xs <=? 100 * pden p * count_le xs x).
  assert (PM : P m = true).
  { unfold P, count_le. apply Z.leb_le. rewrite filter_all.
    - apply Z.mul_le_mono_nonneg_r; [unfold zlen|]; lia.
    - intros y Hy. apply Z.leb_le. auto. }
  destruct (list_min (filter P xs)) as (x & Hx & Hmin).
  { intros E. assert (In m (filter P xs)) by (apply filter_In; auto). rewrite E in H. destruct H. }
  apply filter_In in Hx. destruct Hx as [Hx1 Hx2]. exists x. split; [auto|]. split.
  - apply Z.leb_le. exact Hx2.
  - intros z Hz Hlt. destruct (P z) eqn:E.
    + specialize (Hmin z ltac:(apply filter_In; auto)). lia.
    + unfold P in E. apply Z.leb_gt in E. auto.
Qed.

Lemma percentile_unique p xs x y : is_percentile p xs x -> is_percentile p xs y -> x = y.
Proof.
  intros (X1 & X2 & X3) (Y1 & Y2 & Y3). destruct (Z.lt_trichotomy x y) as [L|[L|L]]; auto.
  - specialize (Y3 x X1 L). lia.
  - specialize (X3 y Y1 L). lia.
Qed.

Lemma percentile_bucket p xs x : pct_ok p -> Forall (fun x => 0 <= x) xs -> is_percentile p xs x ->
  first_bucket (cum xs) (zlen xs) p (nidx x).
Proof.
  intros [Hd Hp] HX (H1 & H2 & H3). rewrite Forall_forall in HX.
  assert (MI : forall y z, In y xs -> In z xs -> y <= z -> (nidx y <= nidx z)%nat).
  { intros y z Hy Hz L. unfold nidx. pose proof (idx_mono y z ltac:(specialize (HX y Hy); lia)). lia. }
  split.
  - unfold meets. apply Z.leb_le.
    assert (count_le xs x <= cum xs (nidx x)).
    { unfold count_le, cum. apply filter_len_mono. intros y Hy L. apply Z.leb_le in L.
      apply Nat.leb_le. auto. }
    nia.
  - intros i Hi. unfold meets. apply Z.leb_gt.
    destruct (filter (fun y => (nidx y <=? i)%nat) xs) as [|a l] eqn:EF.
    + unfold cum. rewrite EF. unfold zlen at 1. cbn [length].
      assert (0 < zlen xs) by (destruct xs; [destruct H1|]; unfold zlen; cbn [length]; lia). nia.
    + destruct (list_max (a :: l)) as (z & Hz & Hmax); [congruence|].
      rewrite <- EF in Hz, Hmax. apply filter_In in Hz. destruct Hz as [Hz1 Hz2].
      apply Nat.leb_le in Hz2.
      assert (z < x).
      { destruct (Z_lt_ge_dec z x) as [|G]; auto. specialize (MI x z H1 Hz1 ltac:(lia)). lia. }
      specialize (H3 z Hz1 H).
      assert (cum xs i <= count_le xs z).
      { unfold count_le, cum. apply filter_len_mono. intros y Hy L. apply Z.leb_le. apply Hmax.
        apply filter_In. auto. }
      nia.
Qed.

Lemma first_bucket_unique cumf nr p a b : first_bucket cumf nr p a -> first_bucket cumf nr p b -> a = b.
Proof.
  intros [A1 A2] [B1 B2]. destruct (Nat.lt_trichotomy a b) as [L|[L|L]]; auto.
  - rewrite (B2 a L) in A1. discriminate.
  - rewrite (A2 b L) in B1. discriminate.
Qed.

Lemma rep_mono a b : (a <= b < Z.to_nat PLAT_NR)%nat -> rep a <= rep b.
Proof.
  intros H. destruct (Nat.eq_dec a b) as [->|N]; [lia|].
  destruct (bucket_fix (Z.of_nat a)) as (ra & EA & RA & IA); [unfold PLAT_NR in *; lia|].
  destruct (bucket_fix (Z.of_nat b)) as (rb & EB & RB & IB); [unfold PLAT_NR in *; lia|].
  unfold rep. rewrite EA, EB. destruct (Z_le_gt_dec ra rb); auto.
  pose proof (idx_mono rb ra ltac:(lia)). lia.
Qed.

Lemma vmin_le : forall vs m v, In v vs -> vmin m vs <= v.
Proof.
  assert (D : forall vs m, vmin m vs <= m).
  { induction vs as [|a vs IH]; intros m; cbn; [lia|]. specialize (IH (Z.min m a)). unfold vmin in IH. lia. }
  induction vs as [|a vs IH]; intros m v []; cbn.
  - subst. specialize (D vs (Z.min m v)). unfold vmin in D. lia.
  - apply IH. auto.
Qed.
Lemma vmin_in : forall vs m, vmin m vs = m \/ In (vmin m vs) vs.
Proof.
  induction vs as [|a vs IH]; intros m; cbn; auto. destruct (IH (Z.min m a)) as [E|E]; unfold vmin in *; auto.
  rewrite E. destruct (Z_le_gt_dec m a); [left|right; left]; lia.
Qed.
Lemma vmax_ge : forall vs m v, In v vs -> v <= vmax m vs.
Proof.
  assert (D : forall vs m, m <= vmax m vs).
  { induction vs as [|a vs IH]; intros m; cbn; [lia|]. specialize (IH (Z.max m a)). unfold vmax in IH. lia. }
  induction vs as [|a vs IH]; intros m v []; cbn.
  - subst. specialize (D vs (Z.max m v)). unfold vmax in D. lia.
  - apply IH. auto.
Qed.
Lemma vmax_in : forall vs m, vmax m vs = m \/ In (vmax m vs) vs.
Proof.
  induction vs as [|a vs IH]; intros m; cbn; auto. destruct (IH (Z.max m a)) as [E|E]; unfold vmax in *; auto.
  rewrite E. destruct (Z_le_gt_dec a m); [left|right; left]; lia.
Qed.

Lemma cut_zero_spec : forall n l,
  exists r, l = cut_zero n l ++ r /\ (length (cut_zero n l) <= n)%nat /\
    Forall (fun p => pnum p <> 0) (cut_zero n l) /\
    (length (cut_zero n l) = n \/ match r with [] => True | p :: _ => pnum p = 0 end).
Proof.
  induction n as [|n IH]; intros l; cbn [cut_zero].
  - exists l. cbn. auto.
  - destruct l as [|p l]; [exists []; cbn; split; [auto|]; split; [lia|]; auto|].
    destruct (Z.eqb_spec (pnum p) 0) as [E|E].
    + exists (p :: l). cbn. split; [auto|]. split; [lia|]. auto.
    + destruct (IH l) as (r & E1 & E2 & E3 & E4). exists r. cbn. split; [f_equal; auto|].
      split; [lia|]. split; [auto|]. destruct E4; auto.
Qed.

Lemma hist_ok xs : Forall (fun x => 0 <= x) xs -> zlen xs < 2 ^ 64 ->
  exists plat, add_samples (repeat 0 (Z.to_nat PLAT_NR)) xs = Some plat /\
    length plat = Z.to_nat PLAT_NR /\ forall i, (i < Z.to_nat PLAT_NR)%nat -> nth i plat 0 = cnt xs i.
Proof.
  intros HX HN. set (n := Z.to_nat PLAT_NR).
  destruct (add_samples_ok xs (repeat 0 n)) as (plat & E & L & N).
  - apply repeat_length.
  - auto.
  - apply Forall_forall. intros c Hc. apply repeat_spec in Hc. lia.
  - apply Forall_forall. intros c Hc. apply repeat_spec in Hc. lia.
  - exists plat. rewrite repeat_length in *. split; [auto|]. split; [auto|]. intros i Hi.
    rewrite N by auto. rewrite nth_repeat. lia.
Qed.

Lemma Forall2_impl_in {A B} (R S : A -> B -> Prop) l m :
  (forall a b, In a l -> R a b -> S a b) -> Forall2 R l m -> Forall2 S l m.
Proof.
  intros H F. induction F; constructor.
  - apply H; auto. left. auto.
  - apply IHF. intros a b Ha. apply H. right. auto.
Qed.

Lemma calc_ok xs plat plist : Forall (fun x => 0 <= x) xs -> 0 < zlen xs < 2 ^ 64 ->
  length plat = Z.to_nat PLAT_NR -> (forall i, (i < Z.to_nat PLAT_NR)%nat -> nth i plat 0 = cnt xs i) ->
  Forall pct_ok (cut_zero 20 plist) ->
  exists ps vals, calc_clat_percentiles plat (zlen xs) plist = Some (ps, vals, vmin ones64 vals, vmax 0 vals, true) /\
    Permutation (cut_zero 20 plist) ps /\ sorted ps /\
    Forall2 (fun p v => exists b, first_bucket (cum xs) (zlen xs) p b /\ (b < Z.to_nat PLAT_NR)%nat /\ v = rep b) ps vals.
Proof.
  intros HX HN HL HP HO. unfold calc_clat_percentiles.
  set (ps := sort_pcts (cut_zero 20 plist)).
  assert (PP : Permutation (cut_zero 20 plist) ps) by apply sort_perm.
  assert (PS : sorted ps) by (apply sort_sorted; auto).
  assert (PO : Forall pct_ok ps).
  { apply Forall_forall. intros q Hq. rewrite Forall_forall in HO. apply HO.
    eapply Permutation_in; [symmetry; exact PP|exact Hq]. }
  clearbody ps. destruct ps as [|p0 ps0] eqn:EP.
  - exists [], []. cbn. auto.
  - rewrite <- EP in *. assert (Hne : ps <> []) by (rewrite EP; congruence).
    destruct (outer_ok (zlen xs) (cum xs) ltac:(lia) (cum_mono xs) plat 0%nat ps [] ones64 0 [])
      as (vals & EV & FV); auto.
    + rewrite HL. apply le_n.
    + intros i Hi. cbn [Nat.add]. rewrite HP by lia. destruct i.
      * rewrite cum_0. lia.
      * rewrite cum_step. lia.
    + intros i. apply cum_le.
    + constructor.
    + intros i Hi. exfalso. revert Hi. clear. lia.
    + intros i p q Hi. exfalso. revert Hi. clear. lia.
    + exists (Z.to_nat PLAT_NR - 1)%nat. split; [unfold PLAT_NR in *; lia|]. intros p Hp.
      rewrite cum_all by auto. unfold meets. apply Z.leb_le. rewrite Forall_forall in PO.
      destruct (PO p Hp) as [P1 P2]. nia.
    + cbv iota in EV. change (Z.of_nat 0) with 0 in EV. exists ps, vals. rewrite EV. cbn [app] in FV.
      split; [reflexivity|]. auto.
Qed.

Lemma sorted_vals cumf nr : 0 <= nr -> forall ps vals, Forall pct_ok ps -> sorted ps ->
  Forall2 (fun p v => exists b, first_bucket cumf nr p b /\ (b < Z.to_nat PLAT_NR)%nat /\ v = rep b) ps vals ->
  forall j v w, nth_error vals j = Some v -> nth_error vals (S j) = Some w -> v <= w.
Proof.
  intros Hn ps vals HO HS HF. induction HF as [|p v ps vals (b & B1 & B2 & ->) HF IH]; intros j v w E1 E2.
  - destruct j; discriminate.
  - inversion HO; subst. destruct j as [|j].
    + cbn in E1, E2. inversion E1; subst. destruct HF as [|q w' ps' vals' (c & C1 & C2 & ->) HF]; [discriminate|].
      inversion E2; subst. apply rep_mono. split; auto.
      destruct (le_lt_dec b c) as [|L]; auto. exfalso. destruct HS as [S1 S2].
      inversion H2; subst. destruct B1 as [_ B1]. specialize (B1 c L). destruct C1 as [C1 _].
      rewrite (meets_sorted _ _ p q) in B1; auto. discriminate.
    + cbn in E1, E2. apply (IH ltac:(auto)) with j; auto. destruct ps; [exact I|]. destruct HS; auto.
Qed.
