From Coq Require Import ZArith List Lia Bool.
From Verif Require Import CBase BitOpsModel BitOpsProofs AxmapModel AxmapSpec AxmapDriver.
Import ListNotations.
Open Scope Z_scope.

Ltac Zify.zify_post_hook ::= Z.div_mod_to_equations.

(** ** Arithmetic of words *)

Lemma bit_masks_spec n : 0 <= n <= 64 -> znth bit_masks n = Some (Z.ones n).
Proof.
  intros H. rewrite (znth_nth _ _ 0) by (change (zlen bit_masks) with 65; lia).
  f_equal. rewrite <- (Z2Nat.id n) at 2 by lia.
  assert (L : (Z.to_nat n < 65)%nat) by lia. revert L. generalize (Z.to_nat n). clear.
  intros m Hm. do 65 (destruct m as [|m]; [reflexivity|]). lia.
Qed.

Lemma shiftr6 x : Z.shiftr x 6 = x / 64.
Proof. rewrite Z.shiftr_div_pow2 by lia. reflexivity. Qed.

Lemma land63 x : Z.land x 63 = x mod 64.
Proof. change 63 with (Z.ones 6). rewrite Z.land_ones by lia. reflexivity. Qed.

Definition word64 (w : Z) : Prop := 0 <= w < 2 ^ 64.

(** Bit [j] of an array of 64-bit words. *)
Definition bit_at (m : list Z) (j : Z) : bool :=
  Z.testbit (nth (Z.to_nat (j / 64)) m 0) (j mod 64).

Lemma Forall_nth_word m k : Forall word64 m -> word64 (nth k m 0).
Proof.
  intros H. destruct (Nat.lt_ge_cases k (length m)).
  - rewrite Forall_forall in H. apply H. apply nth_In; auto.
  - rewrite nth_overflow by lia. unfold word64; lia.
Qed.

Lemma Forall_upd {A} (P : A -> Prop) l i v : Forall P l -> P v -> Forall P (upd l i v).
Proof.
  intros H Hv. revert i. induction H; destruct i; simpl; auto.
Qed.

Lemma zlen_upd {A} (l : list A) i v : zlen (upd l i v) = zlen l.
Proof. unfold zlen. rewrite upd_length. auto. Qed.

Lemma mask_testbit k bit i : 0 <= k -> 0 <= bit -> bit + k <= 64 ->
  Z.testbit (u64 (Z.shiftl (Z.ones k) bit)) i = (bit <=? i) && (i <? bit + k).
Proof.
  intros. unfold u64. rewrite mod_pow2_testbit by lia.
  destruct (Z_lt_le_dec i 0).
  - rewrite Z.testbit_neg_r by lia.
    destruct (Z.leb_spec bit i), (Z.ltb_spec i (bit + k)); simpl; try lia; apply andb_false_r.
  - rewrite Z.shiftl_spec, testbit_ones by lia.
    destruct (Z.ltb_spec i 64), (Z.leb_spec 0 (i - bit)), (Z.ltb_spec (i - bit) k),
      (Z.leb_spec bit i), (Z.ltb_spec i (bit + k)); simpl; auto; lia.
Qed.

Lemma u64_range x : 0 <= u64 x < 2 ^ 64.
Proof. unfold u64. apply Z.mod_pos_bound. lia. Qed.

Lemma u64_id x : 0 <= x < 2 ^ 64 -> u64 x = x.
Proof. intros. unfold u64. apply Z.mod_small; auto. Qed.

Lemma u32_id x : 0 <= x < 2 ^ 32 -> u32 x = x.
Proof. intros. unfold u32. apply Z.mod_small; auto. Qed.

(** ** axmap_set_fn on one word *)

(** [m] bits set from [bit]. *)
Definition or_range (w bit m : Z) : Z := Z.lor w (u64 (Z.shiftl (Z.ones m) bit)).

Lemma or_range_testbit w bit m i : 0 <= m -> 0 <= bit -> bit + m <= 64 ->
  Z.testbit (or_range w bit m) i = Z.testbit w i || ((bit <=? i) && (i <? bit + m)).
Proof. intros. unfold or_range. rewrite Z.lor_spec, mask_testbit; auto. Qed.

Lemma or_range_word w bit m : word64 w -> word64 (or_range w bit m).
Proof. intros. apply (lor_range 64); auto; try lia. apply u64_range. Qed.

Lemma axmap_set_fn_spec level m offset bit k sb :
  Forall word64 m -> 0 <= offset < zlen m -> 0 <= bit < 64 -> 1 <= k -> bit + k <= 64 ->
  let w := nth (Z.to_nat offset) m 0 in
  exists p, 0 <= p <= k /\
    (forall i, 0 <= i < p -> Z.testbit w (bit + i) = false) /\
    (p = k \/ Z.testbit w (bit + p) = true) /\
    ((p = 0 /\ (exists d', axmap_set_fn level m offset bit (mkSD k sb) = Some (m, d', true)
               /\ (sb = 0 -> sd_set_bits d' = 0))) \/
     (0 < p /\ axmap_set_fn level m offset bit (mkSD k sb)
      = Some (upd m (Z.to_nat offset) (or_range w bit p),
              mkSD 1 (match level with O => p | S _ => sb end),
              negb (or_range w bit p =? ones64)))).
Proof.
  intros HF Ho Hb Hk Hbk w. unfold axmap_set_fn. cbn [sd_nr_bits sd_set_bits].
  assert (Hw : word64 w) by (apply Forall_nth_word; auto).
  rewrite (u32_id (64 - bit)) by lia.
  replace (Z.min k (64 - bit)) with k by lia.
  rewrite bit_masks_spec by lia.
  rewrite (znth_nth _ _ 0) by auto. fold w.
  set (mask := u64 (Z.shiftl (Z.ones k) bit)).
  assert (Hm : 0 <= mask < 2 ^ 64) by apply u64_range.
  assert (Hmt : forall i, Z.testbit mask i = (bit <=? i) && (i <? bit + k))
    by (intros; apply mask_testbit; lia).
  set (ov := Z.land w mask).
  assert (Hov : 0 <= ov < 2 ^ 64) by (apply land_range; unfold word64 in *; lia).
  destruct (Z.eqb_spec ov mask) as [E|E].
  - exists 0. split; [lia|]. split; [intros; lia|]. split.
    + right. assert (T : Z.testbit mask (bit + 0) = true).
      { rewrite Hmt. destruct (Z.leb_spec bit (bit+0)), (Z.ltb_spec (bit+0) (bit+k)); auto; lia. }
      rewrite <- E in T. unfold ov in T. rewrite Z.land_spec in T. apply andb_true_iff in T. tauto.
    + left. split; auto. eexists; split; eauto.
  - destruct (Z.eqb_spec ov 0) as [E0|E0].
    + exists k. split; [lia|]. rewrite zero_bits in E0.
      assert (F : forall i, 0 <= i < k -> Z.testbit w (bit + i) = false).
      { intros i Hi. specialize (E0 (bit + i) ltac:(lia)). unfold ov in E0.
        rewrite Z.land_spec, Hmt in E0.
        destruct (Z.leb_spec bit (bit+i)), (Z.ltb_spec (bit+i) (bit+k)); try lia.
        simpl in E0. rewrite andb_true_r in E0. auto. }
      split; auto. split; [auto|]. right. split; [lia|].
      destruct (Z.eqb_spec mask 0) as [M0|M0].
      { exfalso. assert (T : Z.testbit mask bit = true).
        { rewrite Hmt. destruct (Z.leb_spec bit bit), (Z.ltb_spec bit (bit+k)); auto; lia. }
        rewrite M0, Z.testbit_0_l in T. discriminate. }
      fold ov. destruct (Z.eqb_spec ov 0) as [O0|O0].
      2:{ exfalso. apply O0. apply zero_bits. auto. }
      simpl. rewrite zupd_some by auto. reflexivity.
    + destruct (ffs64_spec ov ltac:(lia)) as (R & T & L).
      rewrite ffz64_not by lia.
      set (q := ffs64 ov) in *.
      pose proof T as T'. unfold ov in T'. rewrite Z.land_spec, Hmt in T'.
      apply andb_true_iff in T'. destruct T' as [T1 T2].
      apply andb_true_iff in T2. destruct T2 as [T2 T3].
      apply Z.leb_le in T2. apply Z.ltb_lt in T3.
      rewrite (u32_id (q - bit)) by lia.
      exists (q - bit). split; [lia|].
      assert (F : forall i, 0 <= i < q - bit -> Z.testbit w (bit + i) = false).
      { intros i Hi. specialize (L (bit + i) ltac:(lia)). unfold ov in L.
        rewrite Z.land_spec, Hmt in L.
        destruct (Z.leb_spec bit (bit+i)), (Z.ltb_spec (bit+i) (bit+k)); try lia.
        simpl in L. rewrite andb_true_r in L. auto. }
      split; auto. split; [right; replace (bit + (q - bit)) with q by lia; auto|].
      destruct (Z.eqb_spec (q - bit) 0) as [Q|Q].
      { left. split; auto. eexists; split; [reflexivity|]. intros ->. reflexivity. }
      right. split; [lia|].
      rewrite bit_masks_spec by lia.
      set (mask' := u64 (Z.shiftl (Z.ones (q - bit)) bit)).
      assert (Hmt' : forall i, Z.testbit mask' i = (bit <=? i) && (i <? bit + (q - bit)))
        by (intros; apply mask_testbit; lia).
      destruct (Z.eqb_spec mask' 0) as [M0|M0].
      { exfalso. assert (T' : Z.testbit mask' bit = true).
        { rewrite Hmt'. destruct (Z.leb_spec bit bit), (Z.ltb_spec bit (bit+(q-bit))); auto; lia. }
        rewrite M0, Z.testbit_0_l in T'. discriminate. }
      destruct (Z.eqb_spec (Z.land w mask') 0) as [O0|O0].
      2:{ exfalso. apply O0. apply zero_bits. intros i Hi. rewrite Z.land_spec, Hmt'.
          destruct (Z.leb_spec bit i), (Z.ltb_spec i (bit+(q-bit))); simpl; try apply andb_false_r.
          replace i with (bit + (i - bit)) by lia. rewrite F by lia. auto. }
      simpl. rewrite zupd_some by auto. reflexivity.
Qed.

(** ** Level invariant *)

Fixpoint wf_levels (cnt : Z) (levels : list (list Z)) : Prop :=
  match levels with
  | [] => True
  | m :: rest =>
      zlen m = (cnt + 63) / 64 /\ Forall word64 m /\
      (forall j, cnt <= j -> bit_at m j = false) /\
      match rest with
      | [] => True
      | up :: _ => forall j, 0 <= j < zlen m -> bit_at up j = (nth (Z.to_nat j) m 0 =? ones64)
      end /\ wf_levels (zlen m) rest
  end.

Definition level0 (ax : axmap) : list Z := hd [] (ax_levels ax).

Definition wf (ax : axmap) : Prop :=
  0 <= ax_nr_bits ax <= 2 ^ 62 /\ ax_levels ax <> [] /\ wf_levels (ax_nr_bits ax) (ax_levels ax).

(** The abstract set. *)
Definition abs (ax : axmap) : bset := fun b => (0 <=? b) && bit_at (level0 ax) b.

Lemma bit_at_upd m o w j : 0 <= o < zlen m -> 0 <= j ->
  bit_at (upd m (Z.to_nat o) w) j = if j / 64 =? o then Z.testbit w (j mod 64) else bit_at m j.
Proof.
  intros Ho Hj. unfold bit_at. destruct (Z.eqb_spec (j / 64) o) as [->|N].
  - rewrite upd_nth_same; auto. unfold zlen in Ho; lia.
  - rewrite upd_nth_other; auto. intros E. apply N. lia.
Qed.

Lemma bit_at_or_range m o bit p j :
  0 <= o < zlen m -> 0 <= bit -> 0 <= p -> bit + p <= 64 -> 0 <= j ->
  bit_at (upd m (Z.to_nat o) (or_range (nth (Z.to_nat o) m 0) bit p)) j =
  bit_at m j || ((64 * o + bit <=? j) && (j <? 64 * o + bit + p)).
Proof.
  intros. rewrite bit_at_upd by auto.
  destruct (Z.eqb_spec (j / 64) o) as [E|E].
  - rewrite or_range_testbit by lia. unfold bit_at. rewrite E. f_equal.
    destruct (Z.leb_spec bit (j mod 64)), (Z.leb_spec (64 * o + bit) j),
      (Z.ltb_spec (j mod 64) (bit + p)), (Z.ltb_spec j (64 * o + bit + p)); auto; lia.
  - destruct (Z.leb_spec (64 * o + bit) j), (Z.ltb_spec j (64 * o + bit + p)); simpl;
      try (rewrite orb_false_r; auto); exfalso; lia.
Qed.

Lemma full_word_bits m j : Forall word64 m -> 0 <= j ->
  (nth (Z.to_nat j) m 0 = ones64 <-> forall i, 64 * j <= i < 64 * j + 64 -> bit_at m i = true).
Proof.
  intros HF Hj. rewrite full64_iff by (apply Forall_nth_word; auto). split; intros H i Hi.
  - unfold bit_at. replace (i / 64) with j by lia. apply H. lia.
  - specialize (H (64 * j + i) ltac:(lia)). unfold bit_at in H.
    replace ((64 * j + i) / 64) with j in H by lia.
    replace ((64 * j + i) mod 64) with i in H by lia. auto.
Qed.

(** Propagation to the upper levels: bit [index] (previously clear) gets set. *)
Lemma handler_upper_ok levels : forall lvl cnt index sb,
  wf_levels cnt levels -> 0 <= index < cnt ->
  (match levels with [] => True | m :: _ => bit_at m index = false end) ->
  exists levels' d', axmap_handler_set (S lvl) levels index (mkSD 1 sb) = Some (levels', d') /\
    sd_set_bits d' = sb /\ wf_levels cnt levels' /\ length levels' = length levels /\
    (match levels, levels' with
     | m :: _, m' :: _ => forall j, 0 <= j -> bit_at m' j = bit_at m j || (j =? index)
     | _, _ => True end).
Proof.
  induction levels as [|m rest IH]; intros lvl cnt index sb Hwf Hi Hclear.
  - simpl. exists [], (mkSD 1 sb). repeat split; auto.
  - simpl in Hwf. destruct Hwf as (Hlen & HF & Hout & Hup & Hrest).
    simpl. rewrite shiftr6, land63.
    assert (Ho : 0 <= index / 64 < zlen m) by lia.
    assert (Hb : 0 <= index mod 64 < 64) by lia.
    destruct (axmap_set_fn_spec (S lvl) m (index / 64) (index mod 64) 1 sb HF Ho Hb ltac:(lia) ltac:(lia))
      as (p & Hp & Hfree & Hstop & Hres).
    assert (p = 1).
    { destruct (Z.eq_dec p 0) as [->|]; [|lia]. destruct Hstop as [|Hstop]; [lia|].
      rewrite Z.add_0_r in Hstop. unfold bit_at in Hclear. congruence. }
    subst p. destruct Hres as [[]|[_ Hres]]; [lia|].
    rewrite Hres. set (w := nth (Z.to_nat (index / 64)) m 0) in *.
    set (m' := upd m (Z.to_nat (index / 64)) (or_range w (index mod 64) 1)).
    assert (Hbits : forall j, 0 <= j -> bit_at m' j = bit_at m j || (j =? index)).
    { intros j Hj. unfold m', w. rewrite bit_at_or_range by lia. f_equal.
      destruct (Z.leb_spec (64 * (index / 64) + index mod 64) j),
        (Z.ltb_spec j (64 * (index / 64) + index mod 64 + 1)), (Z.eqb_spec j index); auto; lia. }
    assert (HF' : Forall word64 m').
    { apply Forall_upd; auto. apply or_range_word. apply Forall_nth_word; auto. }
    assert (Hout' : forall j, cnt <= j -> bit_at m' j = false).
    { intros j Hj. rewrite Hbits by lia. rewrite Hout by lia.
      destruct (Z.eqb_spec j index); auto; lia. }
    assert (Hlen' : zlen m' = zlen m) by apply zlen_upd.
    destruct (Z.eqb_spec (or_range w (index mod 64) 1) ones64) as [E|E]; cbn [negb].
    + (* word became full: continue upwards *)
      set (index' := if index =? 0 then index else index / 64).
      assert (Hi' : index' = index / 64).
      { unfold index'. destruct (Z.eqb_spec index 0) as [->|]; auto. }
      rewrite Hi'.
      assert (Hcl : match rest with [] => True | up :: _ => bit_at up (index / 64) = false end).
      { destruct rest as [|up rest']; auto. rewrite Hup by auto. fold w.
        apply Z.eqb_neq. intros C. rewrite full64_iff in C by (apply Forall_nth_word; auto).
        specialize (C (index mod 64) Hb). unfold bit_at in Hclear. fold w in Hclear. congruence. }
      destruct (IH (S lvl) (zlen m) (index / 64) sb Hrest Ho Hcl) as (rest' & d' & R1 & R2 & R3 & R4 & R5).
      rewrite R1. exists (m' :: rest'), d'. split; [auto|]. split; [auto|]. split; [|split; [|auto]].
      * simpl. rewrite Hlen'. repeat split; auto.
        destruct rest as [|up rs], rest' as [|up' rs']; simpl in R4; try discriminate; auto.
        intros j Hj. rewrite R5 by lia. rewrite Hup by auto.
        destruct (Z.eqb_spec j (index / 64)) as [->|Nj].
        -- unfold m'. rewrite upd_nth_same by (unfold zlen in Ho; lia). rewrite E.
           rewrite Z.eqb_refl. apply orb_true_r.
        -- rewrite orb_false_r. unfold m'. rewrite upd_nth_other by lia. auto.
      * simpl. congruence.
    + exists (m' :: rest), (mkSD 1 sb). split; [auto|]. split; [auto|]. split; [|split; [simpl; auto|auto]].
      simpl. rewrite Hlen'. repeat split; auto.
      destruct rest as [|up rs]; auto. intros j Hj. rewrite Hup by auto.
      destruct (Z.eq_dec j (index / 64)) as [->|Nj].
      * unfold m'. rewrite upd_nth_same by (unfold zlen in Ho; lia). fold w.
        transitivity false; [|symmetry; apply Z.eqb_neq; auto].
        apply Z.eqb_neq. intros C. rewrite full64_iff in C by (apply Forall_nth_word; auto).
        specialize (C (index mod 64) Hb). unfold bit_at in Hclear. fold w in Hclear. congruence.
      * unfold m'. rewrite upd_nth_other by lia. auto.
Qed.

(** Level 0 update of a run inside one word. *)
Lemma handler_level0_ok levels : forall cnt b k,
  levels <> [] -> wf_levels cnt levels -> 0 <= b -> b + k <= cnt -> 1 <= k -> b mod 64 + k <= 64 ->
  exists levels' d' p, axmap_handler_set 0 levels b (mkSD k 0) = Some (levels', d') /\
    sd_set_bits d' = p /\ 0 <= p <= k /\
    (forall i, 0 <= i < p -> bit_at (hd [] levels) (b + i) = false) /\
    (p = k \/ bit_at (hd [] levels) (b + p) = true) /\
    levels' <> [] /\ wf_levels cnt levels' /\
    (forall j, 0 <= j -> bit_at (hd [] levels') j =
       bit_at (hd [] levels) j || ((b <=? j) && (j <? b + p))).
Proof.
  intros cnt b k Hne Hwf Hb Hbk Hk Hin. destruct levels as [|m rest]; [congruence|]. clear Hne.
  cbn [hd]. simpl in Hwf. destruct Hwf as (Hlen & HF & Hout & Hup & Hrest).
  cbn [axmap_handler_set]. rewrite shiftr6, land63.
  assert (Ho : 0 <= b / 64 < zlen m) by lia.
  assert (Hbit : 0 <= b mod 64 < 64) by lia.
  destruct (axmap_set_fn_spec 0 m (b / 64) (b mod 64) k 0 HF Ho Hbit Hk Hin)
    as (p & Hp & Hfree & Hstop & Hres).
  set (w := nth (Z.to_nat (b / 64)) m 0) in *.
  assert (Hat : forall i, 0 <= i -> b mod 64 + i < 64 ->
            bit_at m (b + i) = Z.testbit w (b mod 64 + i)).
  { intros i Hi Hi2. unfold bit_at, w.
    replace ((b + i) / 64) with (b / 64) by lia. replace ((b + i) mod 64) with (b mod 64 + i) by lia. auto. }
  assert (Hfree' : forall i, 0 <= i < p -> bit_at m (b + i) = false).
  { intros i Hi. rewrite Hat by lia. apply Hfree; auto. }
  assert (Hstop' : p = k \/ bit_at m (b + p) = true).
  { destruct Hstop as [->|S]; auto. right. 
    destruct (Z_lt_le_dec (b mod 64 + p) 64).
    - rewrite Hat by lia. auto.
    - rewrite (testbit_above 64) in S; [discriminate|apply Forall_nth_word; auto|lia]. }
  destruct Hres as [[-> (d' & Hres & Hsb)]|[Hp0 Hres]]; rewrite Hres.
  - exists (m :: rest), d', 0. repeat split; auto; try lia; try discriminate.
    intros j Hj. cbn [hd]. destruct (Z.leb_spec b j), (Z.ltb_spec j (b + 0)); simpl;
      try (rewrite orb_false_r; auto); lia.
  - set (m' := upd m (Z.to_nat (b / 64)) (or_range w (b mod 64) p)).
    assert (Hbits : forall j, 0 <= j -> bit_at m' j = bit_at m j || ((b <=? j) && (j <? b + p))).
    { intros j Hj. unfold m', w. rewrite bit_at_or_range by lia. f_equal.
      destruct (Z.leb_spec (64 * (b / 64) + b mod 64) j), (Z.leb_spec b j),
        (Z.ltb_spec j (64 * (b / 64) + b mod 64 + p)), (Z.ltb_spec j (b + p)); auto; lia. }
    assert (HF' : Forall word64 m').
    { apply Forall_upd; auto. apply or_range_word. apply Forall_nth_word; auto. }
    assert (Hout' : forall j, cnt <= j -> bit_at m' j = false).
    { intros j Hj. rewrite Hbits by lia. rewrite Hout by lia.
      destruct (Z.leb_spec b j), (Z.ltb_spec j (b + p)); auto; lia. }
    assert (Hlen' : zlen m' = zlen m) by apply zlen_upd.
    assert (Hnotfull : (w =? ones64) = false).
    { apply Z.eqb_neq. intros C. rewrite full64_iff in C by (apply Forall_nth_word; auto).
      specialize (C (b mod 64) Hbit). rewrite <- (Z.add_0_r (b mod 64)) in C.
      rewrite Hfree in C by lia. discriminate. }
    destruct (Z.eqb_spec (or_range w (b mod 64) p) ones64) as [E|E]; cbn [negb].
    + set (index' := if b =? 0 then b else b / 64).
      assert (Hi' : index' = b / 64).
      { unfold index'. destruct (Z.eqb_spec b 0) as [->|]; auto. }
      rewrite Hi'.
      assert (Hcl : match rest with [] => True | up :: _ => bit_at up (b / 64) = false end).
      { destruct rest as [|up rest']; auto. rewrite Hup by auto. auto. }
      destruct (handler_upper_ok rest 0%nat (zlen m) (b / 64) p Hrest Ho Hcl)
        as (rest' & d' & R1 & R2 & R3 & R4 & R5).
      rewrite R1. exists (m' :: rest'), d', p.
      split; [auto|]. split; [auto|]. split; [lia|]. split; [auto|]. split; [auto|].
      split; [discriminate|]. split; [|auto].
      simpl. rewrite Hlen'. repeat split; auto.
      destruct rest as [|up rs], rest' as [|up' rs']; simpl in R4; try discriminate; auto.
      intros j Hj. rewrite R5 by lia. rewrite Hup by auto.
      destruct (Z.eqb_spec j (b / 64)) as [->|Nj].
      * unfold m'. rewrite upd_nth_same by (unfold zlen in Ho; lia). rewrite E.
        rewrite Z.eqb_refl. apply orb_true_r.
      * rewrite orb_false_r. unfold m'. rewrite upd_nth_other by lia. auto.
    + exists (m' :: rest), (mkSD 1 p), p.
      split; [auto|]. split; [auto|]. split; [lia|]. split; [auto|]. split; [auto|].
      split; [discriminate|]. split; [|auto].
      simpl. rewrite Hlen'. repeat split; auto.
      destruct rest as [|up rs]; auto. intros j Hj. rewrite Hup by auto.
      destruct (Z.eq_dec j (b / 64)) as [->|Nj].
      * unfold m'. rewrite upd_nth_same by (unfold zlen in Ho; lia). fold w.
        rewrite Hnotfull. symmetry. apply Z.eqb_neq. auto.
      * unfold m'. rewrite upd_nth_other by lia. auto.
Qed.

Lemma axmap_set_raw_ok ax b k :
  wf ax -> 0 <= b -> b + k <= ax_nr_bits ax -> 1 <= k -> b mod 64 + k <= 64 ->
  exists ax' d' p, axmap_set_raw ax b (mkSD k 0) = Some (ax', d') /\
    sd_set_bits d' = p /\ 0 <= p <= k /\
    (forall i, 0 <= i < p -> abs ax (b + i) = false) /\
    (p = k \/ abs ax (b + p) = true) /\
    wf ax' /\ ax_nr_bits ax' = ax_nr_bits ax /\
    (forall j, abs ax' j = add_range (abs ax) b p j).
Proof.
  intros (Hn & Hne & Hwf) Hb Hbk Hk Hin. unfold axmap_set_raw.
  destruct (Z.gtb_spec b (ax_nr_bits ax)); [lia|]. cbn [sd_nr_bits].
  rewrite (u64_id (b + k)) by lia.
  destruct (Z.gtb_spec (b + k) (ax_nr_bits ax)); [lia|].
  destruct (Z.gtb_spec k 64); [lia|].
  destruct (handler_level0_ok (ax_levels ax) _ b k Hne Hwf Hb Hbk Hk Hin)
    as (lv & d' & p & R1 & R2 & R3 & R4 & R5 & R6 & R7 & R8).
  rewrite R1. exists (mkAxmap (ax_nr_bits ax) lv), d', p.
  split; [auto|]. split; [auto|]. split; [lia|]. split.
  { intros i Hi. unfold abs, level0. rewrite R4 by auto. apply andb_false_r. }
  split. { destruct R5 as [->|R5]; auto. right. unfold abs, level0. rewrite R5.
           destruct (Z.leb_spec 0 (b + p)); auto; lia. }
  split; [repeat split; auto; cbn; lia|]. split; [reflexivity|].
  intros j. unfold abs, level0, add_range. cbn [ax_levels].
  destruct (Z.leb_spec 0 j); cbn [andb].
  - rewrite R8 by lia. apply orb_comm.
  - destruct (Z.leb_spec b j); simpl; auto; lia.
Qed.

(** ** Single mark *)
Lemma axmap_set_ok ax b : wf ax -> 0 <= b < ax_nr_bits ax ->
  exists ax', axmap_set ax b = Some ax' /\ wf ax' /\ ax_nr_bits ax' = ax_nr_bits ax /\
    forall j, abs ax' j = add_range (abs ax) b 1 j.
Proof.
  intros Hwf Hb. unfold axmap_set.
  destruct (axmap_set_raw_ok ax b 1 Hwf ltac:(lia) ltac:(lia) ltac:(lia) ltac:(lia))
    as (ax' & d' & p & R1 & R2 & R3 & R4 & R5 & R6 & R7 & R8).
  rewrite R1. exists ax'. repeat split; auto; try apply R6.
  intros j. rewrite R8. destruct (Z.eq_dec p 1) as [->|]; auto.
  assert (Hp0 : p = 0) by lia. rewrite Hp0 in *. destruct R5 as [|R5]; [lia|].
  unfold add_range. rewrite Z.add_0_r in R5.
  destruct (Z.leb_spec b j), (Z.ltb_spec j (b + 0)), (Z.ltb_spec j (b + 1)); simpl; auto; try lia.
  assert (j = b) by lia. subst j. rewrite R5. auto.
Qed.

(** ** Ranged mark *)

Lemma free_prefix_le s b k : (free_prefix s b k <= k)%nat.
Proof. revert b; induction k; simpl; intros; auto. destruct (s b); [lia|]. specialize (IHk (b+1)). lia. Qed.

Lemma free_prefix_unique s : forall k b p,
  0 <= p <= Z.of_nat k -> (forall i, 0 <= i < p -> s (b + i) = false) ->
  (p = Z.of_nat k \/ s (b + p) = true) -> Z.of_nat (free_prefix s b k) = p.
Proof.
  induction k; intros b p Hp Hf Hs; simpl.
  - lia.
  - destruct (s b) eqn:E.
    + destruct (Z.eq_dec p 0); [lia|]. rewrite <- (Z.add_0_r b) in E. rewrite Hf in E by lia. discriminate.
    + assert (p <> 0). { intros ->. destruct Hs as [|Hs]; [lia|]. rewrite Z.add_0_r in Hs. congruence. }
      rewrite Nat2Z.inj_succ. rewrite (IHk (b + 1) (p - 1)); try lia.
      * intros i Hi. replace (b + 1 + i) with (b + (1 + i)) by lia. apply Hf. lia.
      * destruct Hs as [|Hs]; [left; lia|right]. replace (b + 1 + (p - 1)) with (b + p) by lia. auto.
Qed.

Lemma free_prefix_ext s s' : forall k b, (forall i, 0 <= i < Z.of_nat k -> s (b + i) = s' (b + i)) ->
  free_prefix s b k = free_prefix s' b k.
Proof.
  induction k; intros b H; simpl; auto.
  assert (E : s b = s' b) by (rewrite <- (Z.add_0_r b); apply H; lia). rewrite E.
  destruct (s' b); auto. f_equal. apply IHk. intros i Hi.
  replace (b + 1 + i) with (b + (1 + i)) by lia. apply H. lia.
Qed.

Lemma free_prefix_app s : forall k1 k2 b,
  free_prefix s b (k1 + k2) =
  if Nat.eqb (free_prefix s b k1) k1 then (k1 + free_prefix s (b + Z.of_nat k1) k2)%nat
  else free_prefix s b k1.
Proof.
  induction k1; intros k2 b; cbn [Nat.add free_prefix].
  - replace (b + Z.of_nat 0) with b by lia. reflexivity.
  - destruct (s b) eqn:E; [reflexivity|]. rewrite IHk1. cbn [Nat.eqb].
    destruct (Nat.eqb_spec (free_prefix s (b + 1) k1) k1); auto.
    replace (b + Z.of_nat (S k1)) with (b + 1 + Z.of_nat k1) by lia. auto.
Qed.

Lemma axmap_set_nr_loop_ok : forall fuel ax b k acc,
  wf ax -> 0 <= b -> 1 <= k < 2 ^ 32 -> b + k <= ax_nr_bits ax -> (Z.to_nat k <= fuel)%nat ->
  0 <= acc -> acc + k < 2 ^ 32 ->
  exists ax', let p := Z.of_nat (free_prefix (abs ax) b (Z.to_nat k)) in
    axmap_set_nr_loop fuel ax b k acc = Some (ax', acc + p) /\
    wf ax' /\ ax_nr_bits ax' = ax_nr_bits ax /\ (forall j, abs ax' j = add_range (abs ax) b p j).
Proof.
  induction fuel; intros ax b k acc Hwf Hb Hk Hbk Hf Hacc Hacc2; [lia|].
  cbn [axmap_set_nr_loop].
  rewrite land63. assert (Hm : 0 <= b mod 64 < 64) by lia.
  rewrite (u32_id (64 - b mod 64)) by lia.
  set (ts := if k >? 64 - b mod 64 then 64 - b mod 64 else k).
  assert (Hts : ts = Z.min k (64 - b mod 64)) by (unfold ts; destruct (Z.gtb_spec k (64 - b mod 64)); lia).
  clearbody ts.
  destruct (axmap_set_raw_ok ax b ts Hwf Hb ltac:(lia) ltac:(lia) ltac:(lia))
    as (ax' & d' & p & R1 & R2 & R3 & R4 & R5 & R6 & R7 & R8).
  rewrite R1, R2. rewrite (u32_id (acc + p)) by lia.
  assert (Hp1 : Z.of_nat (free_prefix (abs ax) b (Z.to_nat ts)) = p).
  { apply free_prefix_unique; rewrite ?Z2Nat.id by lia; auto. }
  assert (Hsplit : Z.to_nat k = (Z.to_nat ts + Z.to_nat (k - ts))%nat) by lia.
  destruct (Z.eqb_spec p ts) as [E|E]; cbn [negb].
  - rewrite (u32_id (k - p)), (u64_id (b + p)) by (destruct Hwf; lia).
    destruct (Z.eqb_spec (k - p) 0) as [K|K].
    + exists ax'. assert (Hpk : Z.of_nat (free_prefix (abs ax) b (Z.to_nat k)) = p).
      { rewrite <- Hp1. do 3 f_equal. lia. }
      cbv zeta. rewrite Hpk. auto.
    + assert (b mod 64 + ts = 64) by lia.
      destruct (IHfuel ax' (b + p) (k - p) (acc + p) R6 ltac:(lia) ltac:(lia) ltac:(lia) ltac:(lia)
                 ltac:(lia) ltac:(lia)) as (ax2 & S1 & S2 & S3 & S4).
      assert (Hfp : Z.of_nat (free_prefix (abs ax) b (Z.to_nat k)) =
                p + Z.of_nat (free_prefix (abs ax') (b + p) (Z.to_nat (k - p)))).
      { rewrite Hsplit, free_prefix_app.
        destruct (Nat.eqb_spec (free_prefix (abs ax) b (Z.to_nat ts)) (Z.to_nat ts)); [|lia].
        rewrite Nat2Z.inj_add, !Z2Nat.id by lia. rewrite <- E. do 2 f_equal.
        apply free_prefix_ext. intros i Hi. rewrite R8. unfold add_range.
        destruct (Z.ltb_spec (b + p + i) (b + p)); [lia|]. rewrite andb_false_r. auto. }
      cbv zeta. rewrite Hfp. exists ax2. split; [rewrite S1; do 2 f_equal; lia|].
      split; auto. split; [congruence|].
      intros j. rewrite S4. unfold add_range. rewrite R8. unfold add_range.
      set (q := Z.of_nat _). assert (0 <= q) by (unfold q; lia).
      destruct (Z.leb_spec (b + p) j), (Z.ltb_spec j (b + p + q)), (Z.leb_spec b j),
        (Z.ltb_spec j (b + p)), (Z.ltb_spec j (b + (p + q))); simpl; auto; lia.
  - assert (Hfp : Z.of_nat (free_prefix (abs ax) b (Z.to_nat k)) = p).
    { rewrite Hsplit, free_prefix_app.
      destruct (Nat.eqb_spec (free_prefix (abs ax) b (Z.to_nat ts)) (Z.to_nat ts)); lia. }
    exists ax'. cbv zeta. rewrite Hfp. auto.
Qed.

Lemma add_range_0 s b j : add_range s b 0 j = s j.
Proof.
  unfold add_range. destruct (Z.leb_spec b j), (Z.ltb_spec j (b + 0)); simpl; auto; lia.
Qed.

Lemma axmap_set_nr_ok ax b k :
  wf ax -> 0 <= b < ax_nr_bits ax -> 0 <= k < 2 ^ 32 -> b + k <= ax_nr_bits ax ->
  exists ax', let p := Z.of_nat (free_prefix (abs ax) b (Z.to_nat k)) in
    axmap_set_nr ax b k = Some (ax', p) /\
    wf ax' /\ ax_nr_bits ax' = ax_nr_bits ax /\ (forall j, abs ax' j = add_range (abs ax) b p j).
Proof.
  intros Hwf Hb Hk Hbk. destruct (Z.eq_dec k 0) as [->|Hk0].
  - exists ax. unfold axmap_set_nr. change (Z.to_nat 0) with 0%nat. cbn [axmap_set_nr_loop free_prefix].
    rewrite land63, (u32_id (64 - b mod 64)) by lia.
    destruct (Z.gtb_spec 0 (64 - b mod 64)); [lia|].
    unfold axmap_set_raw. cbn [sd_nr_bits].
    destruct (Z.gtb_spec b (ax_nr_bits ax)); [lia|].
    rewrite (u64_id (b + 0)) by (destruct Hwf; lia).
    destruct (Z.gtb_spec (b + 0) (ax_nr_bits ax)); [lia|].
    change (0 >? 64) with false. cbv iota.
    assert (HH : axmap_handler_set 0 (ax_levels ax) b (mkSD 0 0) = Some (ax_levels ax, mkSD 0 0)).
    { destruct Hwf as (Hn & Hne & Hwf). destruct (ax_levels ax) as [|m rest]; [congruence|].
      cbn [axmap_handler_set]. rewrite shiftr6, land63. destruct Hwf as (Hlen & HF & _).
      unfold axmap_set_fn. cbn [sd_nr_bits sd_set_bits]. rewrite (u32_id (64 - b mod 64)) by lia.
      rewrite Z.min_l by lia. rewrite bit_masks_spec by lia. change (Z.ones 0) with 0.
      rewrite Z.shiftl_0_l. change (u64 0) with 0.
      rewrite (znth_nth _ _ 0) by lia. rewrite Z.land_0_r. reflexivity. }
    rewrite HH. cbn [sd_set_bits]. change (negb (0 =? 0)) with false. change (u32 (0 - 0)) with 0.
    change (0 =? 0) with true. cbv iota zeta. change (u32 (0 + 0)) with (Z.of_nat 0).
    split; [destruct ax; reflexivity|]. split; auto. split; auto.
    intros j. rewrite add_range_0. auto.
  - unfold axmap_set_nr.
    destruct (axmap_set_nr_loop_ok (S (Z.to_nat k)) ax b k 0 Hwf) as (ax' & H); try lia.
    exists ax'. cbv zeta in *. rewrite Z.add_0_l in H. auto.
Qed.

(** ** Reset and creation *)

Lemma bit_at_zeros n j : bit_at (repeat 0 n) j = false.
Proof.
  unfold bit_at. destruct (Nat.lt_ge_cases (Z.to_nat (j / 64)) n).
  - rewrite nth_repeat. apply Z.testbit_0_l.
  - rewrite nth_overflow by (rewrite repeat_length; lia). apply Z.testbit_0_l.
Qed.

Lemma nth_zeros n k : nth k (repeat 0 n) 0 = 0.
Proof. apply nth_repeat. Qed.

Lemma Forall_zeros n : Forall word64 (repeat 0 n).
Proof. apply Forall_forall. intros x Hx. apply repeat_spec in Hx. subst. unfold word64. lia. Qed.

Fixpoint sized (cnt : Z) (levels : list (list Z)) : Prop :=
  match levels with
  | [] => True
  | m :: rest => zlen m = (cnt + 63) / 64 /\ sized (zlen m) rest
  end.

Lemma wf_levels_sized levels : forall cnt, wf_levels cnt levels -> sized cnt levels.
Proof. induction levels; simpl; auto. intros cnt (H1 & _ & _ & _ & H2). auto. Qed.

Lemma sized_reset levels : forall cnt, sized cnt levels ->
  wf_levels cnt (map (fun m => repeat 0 (length m)) levels).
Proof.
  induction levels as [|m rest IH]; simpl; auto. intros cnt [H1 H2].
  assert (L : zlen (repeat 0 (length m)) = zlen m) by (unfold zlen; rewrite repeat_length; auto).
  rewrite L. split; [auto|]. split; [apply Forall_zeros|]. split; [intros; apply bit_at_zeros|].
  split; [|auto].
  destruct rest as [|up r]; simpl; auto. intros j Hj.
  rewrite bit_at_zeros, nth_zeros. reflexivity.
Qed.

Lemma alloc_levels_sized l : forall n, 0 <= n <= 2 ^ 62 -> sized n (alloc_levels l n).
Proof.
  induction l; intros n Hn; [exact I|]. cbn [alloc_levels sized].
  rewrite shiftr6, u64_id by lia.
  assert (L : zlen (repeat 0 (Z.to_nat ((n + 64 - 1) / 64))) = (n + 63) / 64).
  { unfold zlen. rewrite repeat_length, Z2Nat.id by lia. f_equal. lia. }
  split; [auto|]. rewrite L. replace ((n + 64 - 1) / 64) with ((n + 63) / 64) by (f_equal; lia).
  apply IHl. lia.
Qed.

Lemma abs_reset ax j : abs (axmap_reset ax) j = false.
Proof.
  unfold abs, level0, axmap_reset. cbn [ax_levels]. destruct (ax_levels ax); simpl.
  - unfold bit_at. simpl. destruct (Z.to_nat (j / 64)); simpl; rewrite Z.testbit_0_l; apply andb_false_r.
  - rewrite bit_at_zeros. apply andb_false_r.
Qed.

Lemma wf_reset_sized n levels : 0 <= n <= 2 ^ 62 -> levels <> [] -> sized n levels ->
  wf (axmap_reset (mkAxmap n levels)).
Proof.
  intros Hn Hne Hs. split; [cbn; lia|]. split.
  - cbn. destruct levels; [congruence|discriminate].
  - cbn [axmap_reset ax_nr_bits ax_levels]. apply sized_reset. auto.
Qed.

Lemma axmap_new_wf n : 0 <= n <= 2 ^ 62 -> wf (axmap_new n).
Proof.
  intros. unfold axmap_new. apply wf_reset_sized; auto.
  - discriminate.
  - apply alloc_levels_sized; auto.
Qed.

Lemma axmap_reset_wf ax : wf ax -> wf (axmap_reset ax).
Proof.
  intros (Hn & Hne & Hwf). destruct ax. apply wf_reset_sized; auto. apply wf_levels_sized; auto.
Qed.

(** ** Flat view of the level invariant *)

Definition lv (levels : list (list Z)) (i : nat) : list Z := nth i levels [].
Definition cnt_at (cnt : Z) (levels : list (list Z)) (i : nat) : Z :=
  match i with O => cnt | S j => zlen (lv levels j) end.

Lemma wf_levels_nth levels : forall cnt i, wf_levels cnt levels -> (i < length levels)%nat ->
  zlen (lv levels i) = (cnt_at cnt levels i + 63) / 64 /\ Forall word64 (lv levels i) /\
  (forall j, cnt_at cnt levels i <= j -> bit_at (lv levels i) j = false) /\
  ((S i < length levels)%nat -> forall j, 0 <= j < zlen (lv levels i) ->
      bit_at (lv levels (S i)) j = (nth (Z.to_nat j) (lv levels i) 0 =? ones64)).
Proof.
  induction levels as [|m rest IH]; intros cnt i Hwf Hi; [simpl in Hi; lia|].
  destruct Hwf as (H1 & H2 & H3 & H4 & H5). destruct i.
  - cbn [lv nth cnt_at]. repeat split; auto. intros Hl j Hj. destruct rest; [simpl in Hl; lia|].
    apply H4; auto.
  - destruct (IH (zlen m) i H5 ltac:(simpl in Hi; lia)) as (A & B & C & D).
    assert (E : cnt_at cnt (m :: rest) (S i) = cnt_at (zlen m) rest i) by (destruct i; reflexivity).
    rewrite E. repeat split; auto. intros. apply D; auto. simpl in H. lia.
Qed.

Lemma cnt_at_bound cnt levels i : wf_levels cnt levels -> 0 <= cnt -> (i <= length levels)%nat ->
  0 <= cnt_at cnt levels i /\ cnt_at cnt levels i <= cnt /\
  ((0 < i)%nat -> cnt_at cnt levels i <= (cnt + 63) / 64).
Proof.
  intros Hwf Hc. induction i; intros Hi; [cbn; lia|].
  destruct IHi as (A & B & C); [lia|].
  destruct (wf_levels_nth levels cnt i Hwf ltac:(lia)) as (L & _).
  cbn [cnt_at]. rewrite L. lia.
Qed.

(** [b / 64^i] is a valid bit index at level [i]. *)
Lemma up_index_range cnt levels b i : wf_levels cnt levels -> (i <= length levels)%nat -> 0 <= b < cnt ->
  0 <= b / 64 ^ Z.of_nat i < cnt_at cnt levels i.
Proof.
  intros Hwf Hi Hb. induction i.
  - cbn. rewrite Z.div_1_r. lia.
  - specialize (IHi ltac:(lia)).
    destruct (wf_levels_nth levels cnt i Hwf ltac:(lia)) as (L & _).
    rewrite Nat2Z.inj_succ, Z.pow_succ_r by lia.
    rewrite (Z.mul_comm 64 (64 ^ _)), <- Z.div_div by (try lia; apply Z.pow_pos_nonneg; lia).
    cbn [cnt_at]. rewrite L. set (x := b / 64 ^ Z.of_nat i) in *. clearbody x. lia.
Qed.

(** A block free at level 0 is free at every level above. *)
Lemma free_up cnt levels b i : wf_levels cnt levels -> (i < length levels)%nat -> 0 <= b < cnt ->
  bit_at (lv levels 0) b = false -> bit_at (lv levels i) (b / 64 ^ Z.of_nat i) = false.
Proof.
  intros Hwf Hi Hb Hf. induction i.
  - cbn. rewrite Z.div_1_r. auto.
  - specialize (IHi ltac:(lia)).
    destruct (wf_levels_nth levels cnt i Hwf ltac:(lia)) as (L & F & O & U).
    pose proof (up_index_range cnt levels b (S i) Hwf ltac:(lia) Hb) as R.
    rewrite U; auto. apply Z.eqb_neq. intros C.
    rewrite full_word_bits in C by (auto; lia).
    rewrite C in IHi; [discriminate|].
    rewrite Nat2Z.inj_succ, Z.pow_succ_r by lia.
    rewrite (Z.mul_comm 64 (64 ^ _)), <- Z.div_div by (try lia; apply Z.pow_pos_nonneg; lia).
    set (x := b / 64 ^ Z.of_nat i). clearbody x. clear. lia.
Qed.

(** ** isset *)

Lemma shiftr_pow64 b i : Z.shiftr b (6 * Z.of_nat i) = b / 64 ^ Z.of_nat i.
Proof.
  rewrite Z.shiftr_div_pow2 by lia. f_equal. rewrite Z.pow_mul_r by lia. reflexivity.
Qed.

Lemma land_bit_test w bit : 0 <= bit -> negb (Z.land w (Z.shiftl 1 bit) =? 0) = Z.testbit w bit.
Proof.
  intros Hb. rewrite Z.shiftl_1_l. destruct (Z.testbit w bit) eqn:E.
  - apply negb_true_iff. apply Z.eqb_neq. intros C.
    assert (T : Z.testbit (Z.land w (2 ^ bit)) bit = true).
    { rewrite Z.land_spec, E, Z.pow2_bits_true by lia. auto. }
    rewrite C, Z.testbit_0_l in T. discriminate.
  - apply negb_false_iff. apply Z.eqb_eq. apply zero_bits. intros i Hi.
    rewrite Z.land_spec, Z.pow2_bits_eqb by lia.
    destruct (Z.eqb_spec bit i) as [->|]; [rewrite E; auto|apply andb_false_r].
Qed.

Lemma isset_topdown_ok cnt levels b : wf_levels cnt levels -> 0 <= b < cnt ->
  forall n, (1 <= n <= length levels)%nat ->
  isset_topdown n levels b = Some (bit_at (lv levels 0) b).
Proof.
  intros Hwf Hb. induction n as [|i IH]; intros Hn; [lia|].
  cbn [isset_topdown]. rewrite shiftr_pow64, shiftr6, land63.
  set (x := b / 64 ^ Z.of_nat i) in *.
  assert (Hnth : nth_error levels i = Some (lv levels i)) by (apply nth_error_nth'; lia).
  rewrite Hnth.
  destruct (wf_levels_nth levels cnt i Hwf ltac:(lia)) as (L & F & O & U).
  pose proof (up_index_range cnt levels b i Hwf ltac:(lia) Hb) as R. fold x in R.
  rewrite (znth_nth _ _ 0) by lia. rewrite land_bit_test by lia.
  fold (bit_at (lv levels i) x).
  destruct (bit_at (lv levels i) x) eqn:E.
  - destruct (bit_at (lv levels 0) b) eqn:E0; auto.
    pose proof (free_up cnt levels b i Hwf ltac:(lia) Hb E0) as C. fold x in C. congruence.
  - destruct i.
    + cbn. unfold x in E. cbn in E. rewrite Z.div_1_r in E. rewrite E. auto.
    + rewrite IH by lia. auto.
Qed.

Lemma level0_lv ax : level0 ax = lv (ax_levels ax) 0.
Proof. unfold level0, lv. destruct (ax_levels ax); auto. Qed.

Lemma axmap_isset_ok ax b : wf ax -> 0 <= b < ax_nr_bits ax -> axmap_isset ax b = Some (abs ax b).
Proof.
  intros (Hn & Hne & Hwf) Hb. unfold axmap_isset.
  destruct (Z.leb_spec b (ax_nr_bits ax)); [|lia].
  rewrite (isset_topdown_ok (ax_nr_bits ax)); auto.
  - unfold abs. rewrite level0_lv. destruct (Z.leb_spec 0 b); auto; lia.
  - destruct (ax_levels ax); [congruence|simpl; lia].
Qed.

(** ** Finding free blocks *)

(** [j] is the first clear bit of [m] at or after [s]. *)
Definition first_clear (m : list Z) (s j : Z) : Prop :=
  s <= j < 64 * zlen m /\ bit_at m j = false /\ forall i, s <= i < j -> bit_at m i = true.

Lemma not_word_nonzero w : word64 w -> not64 w <> 0 ->
  let r := ffz64 (not64 (not64 w)) in
  0 <= r < 64 /\ Z.testbit w r = false /\ forall i, 0 <= i < r -> Z.testbit w i = true.
Proof.
  intros Hw Hn r. pose proof (not64_range w Hw) as Hr.
  unfold r. rewrite ffz64_not by lia.
  destruct (ffs64_spec (not64 w) ltac:(lia)) as (R & T & L).
  set (q := ffs64 (not64 w)) in *. split; [lia|].
  rewrite not64_testbit in T by auto. split.
  - apply andb_true_iff in T. destruct T as [_ T]. apply negb_true_iff in T. auto.
  - intros i Hi. specialize (L i Hi). rewrite not64_testbit in L by auto.
    destruct (Z.leb_spec 0 i), (Z.ltb_spec i 64); try lia. simpl in L.
    apply negb_false_iff in L. auto.
Qed.

Lemma masked_nonzero w bit : word64 w -> 0 <= bit < 64 ->
  let temp := Z.land (not64 (Z.ones bit)) (not64 w) in
  (temp <> 0 -> let r := ffz64 (not64 temp) in
     bit <= r < 64 /\ Z.testbit w r = false /\ forall i, bit <= i < r -> Z.testbit w i = true) /\
  (temp = 0 -> forall i, bit <= i < 64 -> Z.testbit w i = true).
Proof.
  intros Hw Hb temp.
  assert (Ho : 0 <= Z.ones bit < 2 ^ 64).
  { pose proof (ones_range bit ltac:(lia)). assert (2 ^ bit <= 2 ^ 64) by (apply Z.pow_le_mono_r; lia). lia. }
  assert (Ht : forall i, Z.testbit temp i =
      ((bit <=? i) && (i <? 64)) && negb (Z.testbit w i)).
  { intros i. unfold temp. rewrite Z.land_spec, !not64_testbit, testbit_ones by (auto; lia).
    destruct (Z.leb_spec 0 i), (Z.ltb_spec i 64), (Z.ltb_spec i bit), (Z.leb_spec bit i); simpl; auto; lia. }
  assert (Hr : 0 <= temp < 2 ^ 64).
  { apply land_range; [lia|apply not64_range; auto|]. pose proof (not64_range w Hw). lia. }
  split.
  - intros Hn r. unfold r. rewrite ffz64_not by lia.
    destruct (ffs64_spec temp ltac:(lia)) as (R & T & L).
    set (q := ffs64 temp) in *. rewrite Ht in T.
    apply andb_true_iff in T. destruct T as [T1 T2]. apply andb_true_iff in T1. destruct T1 as [T1 T3].
    apply Z.leb_le in T1. apply Z.ltb_lt in T3. apply negb_true_iff in T2.
    split; [lia|]. split; auto. intros i Hi. specialize (L i ltac:(lia)). rewrite Ht in L.
    destruct (Z.leb_spec bit i), (Z.ltb_spec i 64); try lia. simpl in L. apply negb_false_iff in L. auto.
  - intros E i Hi. assert (T : Z.testbit temp i = false) by (rewrite E; apply Z.testbit_0_l).
    rewrite Ht in T. destruct (Z.leb_spec bit i), (Z.ltb_spec i 64); try lia. simpl in T.
    apply negb_false_iff in T. auto.
Qed.

Lemma skipn_S_tl {A} n : forall l : list A, skipn (S n) l = tl (skipn n l).
Proof. induction n; intros [|a l]; try reflexivity. rewrite skipn_cons, IHn. reflexivity. Qed.

Lemma div64_add o r : 0 <= r < 64 -> (o * 64 + r) / 64 = o.
Proof. lia. Qed.
Lemma mod64_add o r : 0 <= r < 64 -> (o * 64 + r) mod 64 = r.
Proof. lia. Qed.

Lemma scan_free_ok m : Forall word64 m -> forall ws o, 0 <= o -> skipn (Z.to_nat o) m = ws ->
  (forall i, 64 * o <= i -> True) ->
  match scan_free ws o with
  | None => forall i, 64 * o <= i < 64 * zlen m -> bit_at m i = true
  | Some (o', t) => o <= o' < zlen m /\ t = not64 (nth (Z.to_nat o') m 0) /\ t <> 0 /\
      forall i, 64 * o <= i < 64 * o' -> bit_at m i = true
  end.
Proof.
  intros HF. induction ws as [|w ws IH]; intros o Ho Hs _; cbn [scan_free].
  - intros i Hi. exfalso.
    assert (L : length (skipn (Z.to_nat o) m) = 0%nat) by (rewrite Hs; auto).
    rewrite skipn_length in L. unfold zlen in Hi. lia.
  - assert (Hlt : (Z.to_nat o < length m)%nat).
    { destruct (Nat.lt_ge_cases (Z.to_nat o) (length m)); auto.
      rewrite skipn_all2 in Hs by lia. discriminate. }
    assert (Hw : nth (Z.to_nat o) m 0 = w).
    { rewrite <- (firstn_skipn (Z.to_nat o) m), Hs, app_nth2; rewrite firstn_length_le by lia; [|lia].
      rewrite Nat.sub_diag. reflexivity. }
    assert (Hs' : skipn (Z.to_nat (o + 1)) m = ws).
    { replace (Z.to_nat (o + 1)) with (1 + Z.to_nat o)%nat by lia.
      cbn [Nat.add]. rewrite skipn_S_tl, Hs. reflexivity. }
    assert (Hww : word64 w) by (rewrite <- Hw; apply Forall_nth_word; auto).
    destruct (Z.eqb_spec (not64 w) 0) as [E|E].
    + assert (Hfull : forall i, 64 * o <= i < 64 * o + 64 -> bit_at m i = true).
      { apply full_word_bits; auto. rewrite Hw. rewrite full64_iff by auto. intros i Hi.
        assert (T : Z.testbit (not64 w) i = false) by (rewrite E; apply Z.testbit_0_l).
        rewrite not64_testbit in T by auto. destruct (Z.leb_spec 0 i), (Z.ltb_spec i 64); try lia.
        simpl in T. apply negb_false_iff in T. auto. }
      specialize (IH (o + 1) ltac:(lia) Hs' ltac:(auto)).
      destruct (scan_free ws (o + 1)) as [[o' t]|].
      * destruct IH as (A & B & C & D). repeat split; auto; try lia.
        intros i Hi. destruct (Z_lt_le_dec i (64 * o + 64)); [apply Hfull; lia|apply D; lia].
      * intros i Hi. destruct (Z_lt_le_dec i (64 * o + 64)); [apply Hfull; lia|apply IH; lia].
    + unfold zlen. rewrite Hw. repeat split; auto; try lia; try (intros; lia).
Qed.

Lemma fff_loop_ok cnt levels bit_nr : wf_levels cnt levels -> 0 <= cnt <= 2 ^ 62 -> 0 <= bit_nr ->
  forall n index, (n <= length levels)%nat -> 0 <= index ->
  (n = length levels -> index = 0) ->
  ((n < length levels)%nat -> index < 64 * zlen (lv levels n) /\ bit_at (lv levels n) index = false /\
      bit_nr / 64 ^ Z.of_nat n <= index) ->
  (forall b, bit_nr <= b < cnt -> bit_at (lv levels 0) b = false -> index <= b / 64 ^ Z.of_nat n) ->
  (0 < length levels)%nat ->
  match fff_loop n levels bit_nr index with
  | None => False
  | Some None => forall b, bit_nr <= b < cnt -> bit_at (lv levels 0) b = true
  | Some (Some r) => bit_nr <= r /\ bit_at (lv levels 0) r = false /\
      forall b, bit_nr <= b < cnt -> bit_at (lv levels 0) b = false -> r <= b
  end.
Proof.
  intros Hwf Hcnt Hbn. induction n as [|i IH]; intros index Hn Hi Htop Hprev Hmin Hl.
  - cbn [fff_loop]. destruct Hprev as (A & B & C); [lia|]. cbn in C. rewrite Z.div_1_r in C.
    repeat split; auto. intros b Hb Hf. specialize (Hmin b Hb Hf). cbn in Hmin.
    rewrite Z.div_1_r in Hmin. auto.
  - cbn [fff_loop].
    assert (Hnth : nth_error levels i = Some (lv levels i)) by (apply nth_error_nth'; lia).
    rewrite Hnth, shiftr_pow64.
    destruct (wf_levels_nth levels cnt i Hwf ltac:(lia)) as (L & F & O & U).
    destruct (cnt_at_bound cnt levels i Hwf ltac:(lia) ltac:(lia)) as (B1 & B2 & B3).
    assert (Hidx : index <= 2 ^ 57).
    { destruct (Nat.eq_dec (S i) (length levels)) as [E|E]; [rewrite Htop by auto; lia|].
      destruct Hprev as (A & _); [lia|].
      destruct (wf_levels_nth levels cnt (S i) Hwf ltac:(lia)) as (L' & _).
      cbn [cnt_at] in L'. lia. }
    rewrite Z.shiftl_mul_pow2 by lia. change (2 ^ 6) with 64. rewrite u64_id by lia.
    set (base := bit_nr / 64 ^ Z.of_nat i).
    assert (Hpow : 0 < 64 ^ Z.of_nat i) by (apply Z.pow_pos_nonneg; lia).
    assert (Hbase : 0 <= base) by (apply Z.div_pos; lia).
    set (index2 := if index * 64 <? base then base else index * 64).
    assert (Hi2 : index2 = Z.max (index * 64) base)
      by (unfold index2; destruct (Z.ltb_spec (index * 64) base); lia).
    clearbody index2.
    assert (Hmin2 : forall b, bit_nr <= b < cnt -> bit_at (lv levels 0) b = false ->
       index2 <= b / 64 ^ Z.of_nat i < cnt_at cnt levels i /\
       bit_at (lv levels i) (b / 64 ^ Z.of_nat i) = false).
    { intros b Hb Hf. specialize (Hmin b Hb Hf).
      rewrite Nat2Z.inj_succ, Z.pow_succ_r in Hmin by lia.
      rewrite (Z.mul_comm 64 (64 ^ _)), <- Z.div_div in Hmin by lia.
      pose proof (up_index_range cnt levels b i Hwf ltac:(lia) ltac:(lia)) as R.
      assert (base <= b / 64 ^ Z.of_nat i) by (apply Z.div_le_mono; lia).
      split; [|apply free_up with cnt; auto; lia].
      set (x := b / 64 ^ Z.of_nat i) in *. clearbody x. lia. }
    rewrite shiftr6, land63.
    destruct (Z.geb_spec (index2 / 64) (zlen (lv levels i))) as [G|G].
    + intros b Hb. destruct (bit_at (lv levels 0) b) eqn:E; auto.
      destruct (Hmin2 b Hb E). exfalso. lia.
    + rewrite bit_masks_spec by lia. rewrite (znth_nth _ _ 0) by lia.
      set (w := nth (Z.to_nat (index2 / 64)) (lv levels i) 0).
      assert (Hw : word64 w) by (apply Forall_nth_word; auto).
      destruct (masked_nonzero w (index2 mod 64) Hw ltac:(lia)) as [M1 M2].
      set (temp := Z.land (not64 (Z.ones (index2 mod 64))) (not64 w)) in *.
      assert (Hword : forall j, index2 <= j < 64 * (index2 / 64) + 64 ->
          bit_at (lv levels i) j = Z.testbit w (j - 64 * (index2 / 64))).
      { intros j Hj. unfold bit_at, w. replace (j / 64) with (index2 / 64) by lia. f_equal. lia. }
      assert (Hfin : forall idx, first_clear (lv levels i) index2 idx ->
        match fff_loop i levels bit_nr idx with
        | None => False
        | Some None => forall b, bit_nr <= b < cnt -> bit_at (lv levels 0) b = true
        | Some (Some r) => bit_nr <= r /\ bit_at (lv levels 0) r = false /\
            forall b, bit_nr <= b < cnt -> bit_at (lv levels 0) b = false -> r <= b
        end).
      { intros idx (F1 & F2 & F3). apply IH; auto; try lia.
        - intros _. split; [lia|]. split; [auto|]. fold base. lia.
        - intros b Hb Hf. destruct (Hmin2 b Hb Hf) as [X Y].
          destruct (Z_lt_le_dec (b / 64 ^ Z.of_nat i) idx); auto.
          rewrite F3 in Y by lia. discriminate. }
      destruct (Z.eqb_spec temp 0) as [E|E]; cbn [negb].
      * specialize (M2 E).
        pose proof (scan_free_ok (lv levels i) F (skipn (Z.to_nat (index2 / 64 + 1)) (lv levels i))
                      (index2 / 64 + 1) ltac:(lia) eq_refl ltac:(auto)) as S.
        destruct (scan_free _ _) as [[o' t]|].
        -- destruct S as (S1 & S2 & S3 & S4).
           assert (Hw' : word64 (nth (Z.to_nat o') (lv levels i) 0)) by (apply Forall_nth_word; auto).
           rewrite S2 in S3. destruct (not_word_nonzero _ Hw' S3) as (N1 & N2 & N3).
           rewrite S2. set (r := ffz64 _) in *.
           rewrite Z.shiftl_mul_pow2 by lia. change (2 ^ 6) with 64. rewrite u64_id by lia.
           apply Hfin. split; [lia|]. split.
           ++ unfold bit_at. rewrite div64_add, mod64_add by lia. auto.
           ++ intros j Hj. destruct (Z_lt_le_dec j (64 * (index2 / 64) + 64)).
              { rewrite Hword by lia. apply M2. lia. }
              destruct (Z_lt_le_dec j (64 * o')); [apply S4; lia|].
              unfold bit_at. replace (j / 64) with o' by lia. apply N3. lia.
        -- intros b Hb. destruct (bit_at (lv levels 0) b) eqn:Eb; auto.
           destruct (Hmin2 b Hb Eb) as [X Y]. set (x := b / 64 ^ Z.of_nat i) in *. clearbody x.
           destruct (Z_lt_le_dec x (64 * (index2 / 64) + 64)).
           { rewrite Hword in Y by lia. rewrite M2 in Y by lia. discriminate. }
           rewrite S in Y by lia. discriminate.
      * specialize (M1 E). cbv zeta in M1. set (r := ffz64 (not64 temp)) in *.
        destruct M1 as (N1 & N2 & N3).
        rewrite Z.shiftl_mul_pow2 by lia. change (2 ^ 6) with 64. rewrite u64_id by lia.
        apply Hfin. split; [lia|]. split.
        -- rewrite Hword by lia. replace (index2 / 64 * 64 + r - 64 * (index2 / 64)) with r by lia. auto.
        -- intros j Hj. rewrite Hword by lia. apply N3. lia.
Qed.

Lemma fff_ok ax bit_nr : wf ax -> 0 <= bit_nr ->
  exists r, axmap_find_first_free ax bit_nr = Some r /\
   ((r = ones64 /\ forall b, bit_nr <= b < ax_nr_bits ax -> abs ax b = true) \/
    (bit_nr <= r < ax_nr_bits ax /\ abs ax r = false /\
     forall b, bit_nr <= b < ax_nr_bits ax -> abs ax b = false -> r <= b)).
Proof.
  intros (Hn & Hne & Hwf) Hb. unfold axmap_find_first_free.
  assert (Hl : (0 < length (ax_levels ax))%nat) by (destruct (ax_levels ax); [congruence|simpl; lia]).
  pose proof (fff_loop_ok _ _ bit_nr Hwf ltac:(lia) Hb (length (ax_levels ax)) 0
    ltac:(lia) ltac:(lia) ltac:(auto) ltac:(lia)) as R.
  assert (Habs : forall b, 0 <= b -> abs ax b = bit_at (lv (ax_levels ax) 0) b).
  { intros b H. unfold abs. rewrite level0_lv. destruct (Z.leb_spec 0 b); auto; lia. }
  specialize (R ltac:(intros; apply Z.div_pos; [lia|apply Z.pow_pos_nonneg; lia]) Hl).
  destruct (fff_loop _ _ _ _) as [[r|]|]; [| |tauto].
  - destruct R as (R1 & R2 & R3). destruct (Z.geb_spec r (ax_nr_bits ax)).
    + exists ones64. split; auto. left. split; auto. intros b H'. rewrite Habs by lia.
      destruct (bit_at _ b) eqn:E; auto. specialize (R3 b H' E). lia.
    + exists r. split; auto. right. split; [lia|]. split; [rewrite Habs by lia; auto|].
      intros b H'. rewrite Habs by lia. auto.
  - exists ones64. split; auto. left. split; auto. intros b H'. rewrite Habs by lia. auto.
Qed.

Lemma axmap_next_free_ok ax bit_nr : wf ax -> 0 <= bit_nr < ax_nr_bits ax ->
  exists r, axmap_next_free ax bit_nr = Some r /\
   let nb := (bit_nr + 1) mod ax_nr_bits ax in
   ((r = ones64 /\ forall b, 0 <= b < ax_nr_bits ax -> abs ax b = true) \/
    (0 <= r < ax_nr_bits ax /\ abs ax r = false /\
     forall b, 0 <= b < ax_nr_bits ax -> abs ax b = false ->
       cyc_dist (ax_nr_bits ax) nb r <= cyc_dist (ax_nr_bits ax) nb b)).
Proof.
  intros Hwf' Hb. pose proof Hwf' as (Hn & Hne & Hwf). set (n := ax_nr_bits ax) in *.
  unfold axmap_next_free. fold n. rewrite (u64_id (bit_nr + 1)) by lia.
  destruct (Z.geb_spec bit_nr n); [lia|].
  set (nb0 := if bit_nr + 1 =? n then 0 else bit_nr + 1).
  assert (Hnb : nb0 = (bit_nr + 1) mod n).
  { unfold nb0. destruct (Z.eqb_spec (bit_nr + 1) n) as [E|E].
    - rewrite E, Z.mod_same; lia.
    - rewrite Z.mod_small; lia. }
  rewrite <- Hnb. assert (Hnbr : 0 <= nb0 < n) by (rewrite Hnb; apply Z.mod_pos_bound; lia).
  clearbody nb0. clear Hnb. cbv zeta.
  rewrite shiftr6, land63, bit_masks_spec by lia.
  assert (Hl : (0 < length (ax_levels ax))%nat) by (destruct (ax_levels ax); [congruence|simpl; lia]).
  assert (Hnth : nth_error (ax_levels ax) 0 = Some (lv (ax_levels ax) 0)) by (apply nth_error_nth'; lia).
  rewrite Hnth.
  destruct (wf_levels_nth _ _ 0%nat Hwf Hl) as (L & F & O & _). cbn [cnt_at] in L, O.
  rewrite (znth_nth _ _ 0) by lia.
  assert (Habs : forall b, 0 <= b -> abs ax b = bit_at (lv (ax_levels ax) 0) b).
  { intros b H'. unfold abs. rewrite level0_lv. destruct (Z.leb_spec 0 b); auto; lia. }
  set (w := nth (Z.to_nat (nb0 / 64)) (lv (ax_levels ax) 0) 0).
  assert (Hw : word64 w) by (apply Forall_nth_word; auto).
  destruct (masked_nonzero w (nb0 mod 64) Hw ltac:(lia)) as [M1 _].
  set (temp := Z.land (not64 (Z.ones (nb0 mod 64))) (not64 w)) in *.
  set (first := if negb (temp =? 0) then _ else _).
  assert (Hfirst : exists r, first = Some r /\
     ((r = ones64 /\ forall b, nb0 <= b < n -> abs ax b = true) \/
      (nb0 <= r < n /\ abs ax r = false /\
       forall b, nb0 <= b < n -> abs ax b = false -> r <= b))).
  { unfold first. destruct (Z.eqb_spec temp 0) as [E|E]; cbn [negb].
    - apply fff_ok; auto. lia.
    - specialize (M1 E). cbv zeta in M1. set (r := ffz64 (not64 temp)) in *.
      destruct M1 as (N1 & N2 & N3).
      rewrite Z.shiftl_mul_pow2 by lia. change (2 ^ 6) with 64. rewrite u64_id by lia.
      assert (Hword : forall j, nb0 <= j < 64 * (nb0 / 64) + 64 ->
          bit_at (lv (ax_levels ax) 0) j = Z.testbit w (j - 64 * (nb0 / 64))).
      { intros j Hj. unfold bit_at, w. replace (j / 64) with (nb0 / 64) by lia. f_equal. lia. }
      assert (Hr : abs ax (nb0 / 64 * 64 + r) = false).
      { rewrite Habs, Hword by lia.
        replace (nb0 / 64 * 64 + r - 64 * (nb0 / 64)) with r by lia. auto. }
      assert (Hrm : forall b, nb0 <= b < nb0 / 64 * 64 + r -> abs ax b = true).
      { intros b Hb'. rewrite Habs, Hword by lia. apply N3. lia. }
      destruct (Z.geb_spec (nb0 / 64 * 64 + r) n).
      + eexists; split; eauto. left. split; auto. intros b Hb'. apply Hrm. lia.
      + eexists; split; eauto. right. split; [lia|]. split; auto. intros b Hb' Hf.
        destruct (Z_lt_le_dec b (nb0 / 64 * 64 + r)); auto. rewrite Hrm in Hf by lia. discriminate. }
  destruct Hfirst as (r & -> & Hr).
  assert (Hdist : forall b, 0 <= b < n ->
      cyc_dist n nb0 b = if nb0 <=? b then b - nb0 else b - nb0 + n).
  { intros b Hb'. unfold cyc_dist. destruct (Z.leb_spec nb0 b).
    - apply Z.mod_small; lia.
    - symmetry. apply Z.mod_unique with (-1); lia. }
  assert (Hones : n < ones64) by (unfold ones64; lia).
  destruct Hr as [[-> Hall]|(R1 & R2 & R3)].
  - rewrite Z.eqb_refl. destruct (Z.eqb_spec nb0 0) as [Z0|Z0]; cbn [negb andb].
    + eexists; split; eauto. left. split; auto. intros b Hb'. apply Hall. lia.
    + destruct (fff_ok ax 0 Hwf' ltac:(lia)) as (r & -> & Hr). exists r. split; auto. fold n in Hr.
      destruct Hr as [[-> Hall2]|(R1 & R2 & R3)]; [left; auto|].
      right. split; [lia|]. split; auto. intros b Hb' Hf.
      assert (r < nb0). { destruct (Z_lt_le_dec r nb0); auto. rewrite Hall in R2 by lia. discriminate. }
      assert (b < nb0). { destruct (Z_lt_le_dec b nb0); auto. rewrite Hall in Hf by lia. discriminate. }
      specialize (R3 b Hb' Hf). rewrite !Hdist by lia.
      destruct (Z.leb_spec nb0 r), (Z.leb_spec nb0 b); lia.
  - destruct (Z.eqb_spec r ones64); [lia|]. cbn [andb]. exists r. split; auto. right.
    split; [lia|]. split; auto. intros b Hb' Hf. rewrite !Hdist by lia.
    destruct (Z.leb_spec nb0 r); [|lia]. destruct (Z.leb_spec nb0 b); [|lia].
    specialize (R3 b ltac:(lia) Hf). lia.
Qed.

(** ** Histories *)

Lemma spec_step_ext s s' o : (forall x, s x = s' x) ->
  snd (spec_step s o) = snd (spec_step s' o) /\
  (forall x, fst (spec_step s o) x = fst (spec_step s' o) x).
Proof.
  intros H. destruct o; cbn; split; auto; intros; unfold add_range; rewrite ?H; auto.
  - rewrite (free_prefix_ext s s'); auto.
  - rewrite (free_prefix_ext s s'); auto.
Qed.

Lemma spec_run_ext ops : forall s s', (forall x, s x = s' x) ->
  snd (spec_run s ops) = snd (spec_run s' ops) /\
  (forall x, fst (spec_run s ops) x = fst (spec_run s' ops) x).
Proof.
  induction ops as [|o ops IH]; intros s s' H; cbn [spec_run]; [cbn; auto|].
  destruct (spec_step_ext s s' o H) as [E1 E2].
  destruct (spec_step s o) as [s1 r1], (spec_step s' o) as [s1' r1']. cbn [fst snd] in *.
  destruct (IH s1 s1' E2) as [F1 F2].
  destruct (spec_run s1 ops), (spec_run s1' ops). cbn [fst snd] in *. subst. auto.
Qed.

Lemma call_ok ax o : wf ax -> in_map (ax_nr_bits ax) o ->
  exists ax', call ax o = Some (ax', snd (spec_step (abs ax) o)) /\ wf ax' /\
    ax_nr_bits ax' = ax_nr_bits ax /\ forall x, abs ax' x = fst (spec_step (abs ax) o) x.
Proof.
  intros Hwf Hin. destruct o; cbn [call in_map] in *.
  - destruct (axmap_set_ok ax b Hwf Hin) as (ax' & E & W & N & A). rewrite E. exists ax'. auto.
  - destruct (axmap_set_nr_ok ax b k Hwf) as (ax' & E & W & N & A); try lia.
    rewrite E. exists ax'. auto.
  - exists (axmap_reset ax). split; auto. split; [apply axmap_reset_wf; auto|]. split; auto.
    intros x. apply abs_reset.
Qed.

Lemma calls_ok ops : forall ax, wf ax -> Forall (in_map (ax_nr_bits ax)) ops ->
  exists ax', calls ax ops = Some (ax', snd (spec_run (abs ax) ops)) /\ wf ax' /\
    ax_nr_bits ax' = ax_nr_bits ax /\ forall x, abs ax' x = fst (spec_run (abs ax) ops) x.
Proof.
  induction ops as [|o ops IH]; intros ax Hwf HF; cbn [calls].
  - exists ax. cbn. auto.
  - inversion HF as [|? ? Ho Hr]; subst.
    destruct (call_ok ax o Hwf Ho) as (ax1 & E & W & N & A). rewrite E.
    rewrite <- N in Hr. destruct (IH ax1 W Hr) as (ax2 & E2 & W2 & N2 & A2). rewrite E2.
    exists ax2. destruct (spec_run_ext ops (abs ax1) (fst (spec_step (abs ax) o)) A) as [F1 F2].
    split; [|split; [auto|split; [congruence|]]].
    + cbn [spec_run]. destruct (spec_step (abs ax) o) as [s1 r1]. cbn [fst snd] in *.
      destruct (spec_run s1 ops). cbn [fst snd] in *. subst. auto.
    + intros x. rewrite A2, F2. cbn [spec_run]. destruct (spec_step (abs ax) o) as [s1 r1].
      cbn [fst snd]. destruct (spec_run s1 ops). auto.
Qed.

Lemma new_abs n x : abs (axmap_new n) x = false.
Proof. unfold axmap_new. apply abs_reset. Qed.

Lemma new_nr n : ax_nr_bits (axmap_new n) = n.
Proof. reflexivity. Qed.

Lemma history_ok n ops : 0 <= n <= 2 ^ 62 -> Forall (in_map n) ops ->
  exists ax, calls (axmap_new n) ops = Some (ax, snd (spec_run empty_set ops)) /\
    wf ax /\ ax_nr_bits ax = n /\ forall x, abs ax x = fst (spec_run empty_set ops) x.
Proof.
  intros Hn HF. destruct (calls_ok ops (axmap_new n) (axmap_new_wf n Hn) HF) as (ax & E & W & N & A).
  destruct (spec_run_ext ops (abs (axmap_new n)) empty_set (new_abs n)) as [F1 F2].
  exists ax. rewrite F1 in E. split; auto. split; auto. split; auto. intros x. rewrite A. auto.
Qed.

Lemma membership_ok n ops b : 0 < n <= 2 ^ 62 -> Forall (in_map n) ops -> 0 <= b < n ->
  exists ax, calls (axmap_new n) ops = Some (ax, snd (spec_run empty_set ops)) /\
    axmap_isset ax b = Some (fst (spec_run empty_set ops) b).
Proof.
  intros Hn HF Hb. destruct (history_ok n ops ltac:(lia) HF) as (ax & E & W & N & A).
  exists ax. split; auto. rewrite axmap_isset_ok by (auto; lia). rewrite A. auto.
Qed.

Lemma next_free_ok n ops b : 0 < n <= 2 ^ 62 -> Forall (in_map n) ops -> 0 <= b < n ->
  let s := fst (spec_run empty_set ops) in
  exists ax r, calls (axmap_new n) ops = Some (ax, snd (spec_run empty_set ops)) /\
    axmap_next_free ax b = Some r /\
    ((r = 2 ^ 64 - 1 /\ forall x, 0 <= x < n -> s x = true) \/
     (0 <= r < n /\ s r = false /\
      forall x, 0 <= x < n -> s x = false -> cyc_dist n (b + 1) r <= cyc_dist n (b + 1) x)).
Proof.
  intros Hn HF Hb s. destruct (history_ok n ops ltac:(lia) HF) as (ax & E & W & N & A).
  destruct (axmap_next_free_ok ax b W ltac:(lia)) as (r & Hr & D). exists ax, r.
  split; auto. split; auto. rewrite N in D. cbv zeta in D.
  assert (C : forall x, cyc_dist n ((b + 1) mod n) x = cyc_dist n (b + 1) x).
  { intros x. unfold cyc_dist. rewrite Zminus_mod_idemp_r. auto. }
  destruct D as [[-> D]|(D1 & D2 & D3)]; [left|right].
  - split; auto. intros x Hx. unfold s. rewrite <- (A x). auto.
  - split; auto. split; [unfold s; rewrite <- (A r); auto|].
    intros x Hx Hs. rewrite <- !C. apply D3; auto. rewrite A. auto.
Qed.
