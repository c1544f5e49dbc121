(** The bitmap of the allocator: effect of blocks_iter, search and the index hint on single bits. *)
From Coq Require Import ZArith List Lia Bool Arith.
From Verif Require Import CBase BitOpsModel BitOpsProofs SmallocModel.
Import ListNotations.
Open Scope Z_scope.

Definition wfw (w : Z) : Prop := 0 <= w < 2 ^ 32.
Definition wfbm (bm : list Z) : Prop := Forall wfw bm.
Definition nbits (bm : list Z) : Z := 32 * zlen bm.
(** Bit of block [x]. *)
Definition bbit (bm : list Z) (x : Z) : bool :=
  Z.testbit (nth (Z.to_nat (x / 32)) bm 0) (x mod 32).

Lemma wfbm_nth bm i : wfbm bm -> wfw (nth i bm 0).
Proof.
  intros H. destruct (lt_dec i (length bm)) as [L|L].
  - unfold wfbm in H. rewrite Forall_forall in H. apply H. apply nth_In. auto.
  - rewrite nth_overflow by lia. unfold wfw. lia.
Qed.

Lemma bbit_word bm i j : 0 <= j < 32 -> bbit bm (32 * Z.of_nat i + j) = Z.testbit (nth i bm 0) j.
Proof.
  intros H. unfold bbit.
  assert (D : (32 * Z.of_nat i + j) / 32 = Z.of_nat i) by (symmetry; apply Z.div_unique with j; lia).
  assert (M : (32 * Z.of_nat i + j) mod 32 = j) by (symmetry; apply Z.mod_unique with (Z.of_nat i); lia).
  rewrite D, M, Nat2Z.id. auto.
Qed.

Lemma bbit_upd bm i w x : (i < length bm)%nat -> 0 <= x ->
  bbit (upd bm i w) x = if x / 32 =? Z.of_nat i then Z.testbit w (x mod 32) else bbit bm x.
Proof.
  intros Hi Hx. unfold bbit. destruct (Z.eqb_spec (x / 32) (Z.of_nat i)) as [E|E].
  - rewrite E, Nat2Z.id, upd_nth_same by auto. auto.
  - assert (0 <= x / 32) by (apply Z.div_pos; lia). rewrite upd_nth_other by lia. auto.
Qed.

Lemma wfbm_upd bm i w : wfbm bm -> wfw w -> wfbm (upd bm i w).
Proof.
  unfold wfbm. intros H Hw. revert i. induction H; destruct i; cbn; constructor; auto.
Qed.

Lemma wf_bits w j : wfw w -> 32 <= j -> Z.testbit w j = false.
Proof. intros H Hj. apply (testbit_above 32); auto. Qed.

(** ** Masks *)
Definition mk_mask (this idx : Z) : Z :=
  if this =? BPI then ones32 else u32 (Z.shiftl (u32 (Z.shiftl 1 (this mod 32)) - 1) (idx mod 32)).

Lemma mk_mask_bits this idx : 0 <= idx < 32 -> 0 <= this <= 32 - idx ->
  wfw (mk_mask this idx) /\
  forall j, 0 <= j -> Z.testbit (mk_mask this idx) j = (idx <=? j) && (j <? idx + this).
Proof.
  intros Hi Ht. unfold mk_mask, BPI. destruct (Z.eqb_spec this 32) as [E|E].
  - assert (idx = 0) by lia. subst. split; [unfold wfw, ones32; lia|]. intros j Hj.
    change ones32 with (Z.ones 32). rewrite testbit_ones by lia.
    destruct (Z.leb_spec 0 j), (Z.ltb_spec j 32), (Z.ltb_spec j (0 + 32)); auto; lia.
  - rewrite !Z.mod_small by lia.
    assert (P : 2 ^ this < 2 ^ 32) by (apply Z.pow_lt_mono_r; lia).
    assert (P0 : 0 < 2 ^ this) by (apply Z.pow_pos_nonneg; lia).
    assert (EO : u32 (Z.shiftl 1 this) - 1 = Z.ones this).
    { unfold u32. rewrite Z.shiftl_1_l, Z.mod_small by lia. rewrite Z.ones_equiv. lia. }
    rewrite EO.
    split; [unfold wfw, u32; apply Z.mod_pos_bound; lia|]. intros j Hj. unfold u32.
    rewrite mod_pow2_testbit by lia. rewrite Z.shiftl_spec by lia. rewrite testbit_ones by lia.
    destruct (Z.ltb_spec j 32), (Z.leb_spec 0 (j - idx)), (Z.ltb_spec (j - idx) this),
      (Z.leb_spec idx j), (Z.ltb_spec j (idx + this)); cbn; auto; lia.
Qed.

(** ** One pass over the words *)

(** The arithmetic of one turn when idx is a bit number. *)
Lemma turn idx nr : 0 <= idx < 32 -> 0 < nr <= 2 ^ 28 ->
  let this0 := u32 nr in
  let this := if BPI <? u32 (this0 + idx) then u32 (BPI - idx) else this0 in
  let idx' := if BPI <? u32 (this0 + idx) then u32 (BPI - u32 (BPI - idx)) else idx in
  this = Z.min nr (32 - idx) /\ idx' = idx /\ u64 (nr - this) = nr - this.
Proof.
  intros Hi Hn. cbv zeta. unfold BPI.
  assert (U : u32 nr = nr) by (unfold u32; apply Z.mod_small; lia). rewrite U.
  assert (U2 : u32 (nr + idx) = nr + idx) by (unfold u32; apply Z.mod_small; lia). rewrite U2.
  assert (U3 : u32 (32 - idx) = 32 - idx) by (unfold u32; apply Z.mod_small; lia). rewrite U3.
  assert (U4 : u32 (32 - (32 - idx)) = idx) by (unfold u32; rewrite Z.mod_small by lia; lia).
  rewrite U4. destruct (Z.ltb_spec 32 (nr + idx)).
  - split; [lia|]. split; [auto|]. unfold u64. apply Z.mod_small. lia.
  - split; [lia|]. split; [auto|]. unfold u64. apply Z.mod_small. lia.
Qed.

Lemma iter_unfold f fuel bm i idx nr : 0 <= idx < 32 -> 0 < nr <= 2 ^ 28 ->
  blocks_iter f (S fuel) bm i idx nr =
  match nth_error bm i with
  | None => Some (false, bm)
  | Some w =>
      do (r, w') <- f w (mk_mask (Z.min nr (32 - idx)) idx);
      if r : bool then blocks_iter f fuel (upd bm i w') (S i) 0 (nr - Z.min nr (32 - idx))
      else Some (false, upd bm i w')
  end.
Proof.
  intros Hi Hn. destruct (turn idx nr Hi Hn) as (T1 & T2 & T3). cbn [blocks_iter].
  destruct (Z.eqb_spec nr 0); [lia|]. destruct (nth_error bm i); auto.
  cbv zeta in *. rewrite T3. rewrite T2, T1. reflexivity.
Qed.

Lemma upd_same (bm : list Z) i w : nth_error bm i = Some w -> upd bm i w = bm.
Proof.
  revert i. induction bm as [|a bm IH]; intros [|i] H; cbn in *; try discriminate; auto.
  - injection H as ->. auto.
  - f_equal. auto.
Qed.

Lemma land_zero_iff w m : Z.land w m = 0 <-> forall j, 0 <= j -> Z.testbit m j = true -> Z.testbit w j = false.
Proof.
  rewrite zero_bits. split; intros H j Hj.
  - intros Hm. specialize (H j Hj). rewrite Z.land_spec, Hm, andb_true_r in H. auto.
  - rewrite Z.land_spec. destruct (Z.testbit m j) eqn:E; [rewrite H; auto|apply andb_false_r].
Qed.

(** Block ranges inside the words. *)
Definition all_in (bm : list Z) (b : bool) (s n : Z) : Prop :=
  forall x, s <= x < s + n -> x < nbits bm /\ bbit bm x = b.

Lemma iter_cmp : forall fuel bm i idx nr, wfbm bm -> 0 <= idx < 32 -> 0 <= nr <= 2 ^ 28 ->
  (length bm <= i + fuel)%nat ->
  exists r, blocks_iter mask_cmp fuel bm i idx nr = Some (r, bm) /\
    (r = true <-> all_in bm false (32 * Z.of_nat i + idx) nr).
Proof.
  induction fuel as [|fuel IH]; intros bm i idx nr Hwf Hi Hn Hf.
  - cbn [blocks_iter]. destruct (Z.eqb_spec nr 0).
    + exists true. split; [auto|]. split; auto. intros _ x Hx. lia.
    + destruct (nth_error bm i) eqn:E.
      { assert (i < length bm)%nat by (apply nth_error_Some; congruence). lia. }
      exists false. split; [auto|]. split; [discriminate|]. intros H.
      destruct (H (32 * Z.of_nat i + idx) ltac:(lia)) as [H1 _]. unfold nbits, zlen in H1. lia.
  - destruct (Z.eq_dec nr 0) as [->|Hnz].
    { cbn [blocks_iter]. rewrite Z.eqb_refl. exists true. split; [auto|]. split; auto. intros _ x Hx. lia. }
    rewrite iter_unfold by lia. destruct (nth_error bm i) as [w|] eqn:E.
    + assert (Li : (i < length bm)%nat) by (apply nth_error_Some; congruence).
      assert (Wi : nth i bm 0 = w) by (apply nth_error_nth; auto).
      set (t := Z.min nr (32 - idx)) in *.
      destruct (mk_mask_bits t idx Hi ltac:(lia)) as [MW MB].
      unfold mask_cmp at 1. rewrite (upd_same _ _ _ E).
      destruct (Z.eqb_spec (Z.land w (mk_mask t idx)) 0) as [EZ|EZ].
      * destruct (IH bm (S i) 0 (nr - t) Hwf ltac:(lia) ltac:(lia) ltac:(lia)) as (r & ER & RR).
        exists r. split; [auto|]. rewrite RR. rewrite land_zero_iff in EZ.
        assert (HD : all_in bm false (32 * Z.of_nat i + idx) t).
        { intros x Hx. replace x with (32 * Z.of_nat i + (x - 32 * Z.of_nat i)) by lia.
          rewrite bbit_word by lia. rewrite Wi. unfold nbits, zlen. split; [lia|].
          apply EZ; [lia|]. rewrite MB by lia.
          destruct (Z.leb_spec idx (x - 32 * Z.of_nat i)), (Z.ltb_spec (x - 32 * Z.of_nat i) (idx + t)); auto; lia. }
        split; intros H x Hx.
        -- destruct (Z_lt_ge_dec x (32 * Z.of_nat i + idx + t)).
           ++ apply HD. lia.
           ++ apply H. lia.
        -- apply H. lia.
      * exists false. split; [auto|]. split; [discriminate|]. intros H. exfalso. apply EZ.
        apply land_zero_iff. intros j Hj. rewrite MB by lia. intros B.
        apply andb_true_iff in B. destruct B as [B1 B2]. apply Z.leb_le in B1. apply Z.ltb_lt in B2.
        destruct (H (32 * Z.of_nat i + j) ltac:(lia)) as [_ HB]. rewrite bbit_word in HB by lia.
        rewrite Wi in HB. auto.
    + exists false. split; [auto|]. split; [discriminate|]. intros H.
      apply nth_error_None in E. destruct (H (32 * Z.of_nat i + idx) ltac:(lia)) as [H1 _].
      unfold nbits, zlen in H1. lia.
Qed.

(** Writing callbacks: bits of the mask must equal [o] and become [negb o]. *)
Definition writes (f : Z -> Z -> option (bool * Z)) (o : bool) : Prop :=
  forall w m, wfw w -> wfw m -> (forall j, 0 <= j -> Z.testbit m j = true -> Z.testbit w j = o) ->
    exists w', f w m = Some (true, w') /\ wfw w' /\
      forall j, 0 <= j -> Z.testbit w' j = if Z.testbit m j then negb o else Z.testbit w j.

Lemma writes_set : writes mask_set false.
Proof.
  intros w m Hw Hm H. unfold mask_set.
  destruct (Z.eqb_spec (Z.land w m) 0) as [E|E]; [|exfalso; apply E; apply land_zero_iff; auto].
  eexists. split; [reflexivity|]. split; [apply lor_range; unfold wfw in *; lia|].
  intros j Hj. rewrite Z.lor_spec. destruct (Z.testbit m j); [apply orb_true_r|apply orb_false_r].
Qed.
Lemma writes_clear : writes mask_clear true.
Proof.
  intros w m Hw Hm H. unfold mask_clear.
  assert (E : Z.land w m = m).
  { apply Z.bits_inj'. intros j Hj. rewrite Z.land_spec. destruct (Z.testbit m j) eqn:B.
    - rewrite H; auto. - apply andb_false_r. }
  rewrite E, Z.eqb_refl. eexists. split; [reflexivity|]. split.
  - apply land_range; [lia|exact Hw|]. apply Z.lxor_nonneg. unfold wfw, ones32 in *. lia.
  - intros j Hj. rewrite Z.land_spec, Z.lxor_spec. change ones32 with (Z.ones 32).
    rewrite testbit_ones by lia. destruct (Z.leb_spec 0 j); [|lia].
    destruct (Z.ltb_spec j 32); cbn.
    + destruct (Z.testbit m j); cbn; [apply andb_false_r|apply andb_true_r].
    + rewrite (wf_bits w j) by auto. rewrite (wf_bits m j) by auto. auto.
Qed.

Lemma iter_write f o : writes f o -> forall fuel bm i idx nr, wfbm bm -> 0 <= idx < 32 -> 0 <= nr <= 2 ^ 28 ->
  (length bm <= i + fuel)%nat -> all_in bm o (32 * Z.of_nat i + idx) nr ->
  exists bm', blocks_iter f fuel bm i idx nr = Some (true, bm') /\ length bm' = length bm /\ wfbm bm' /\
    forall x, 0 <= x -> bbit bm' x =
      if (32 * Z.of_nat i + idx <=? x) && (x <? 32 * Z.of_nat i + idx + nr) then negb o else bbit bm x.
Proof.
  intros Hf. induction fuel as [|fuel IH]; intros bm i idx nr Hwf Hi Hn Hl HA.
  - cbn [blocks_iter]. destruct (Z.eqb_spec nr 0).
    + exists bm. split; [auto|]. split; [auto|]. split; [auto|]. intros x Hx.
      destruct (Z.leb_spec (32 * Z.of_nat i + idx) x), (Z.ltb_spec x (32 * Z.of_nat i + idx + nr)); cbn; auto; lia.
    + destruct (HA (32 * Z.of_nat i + idx) ltac:(lia)) as [H1 _]. unfold nbits, zlen in H1. lia.
  - destruct (Z.eq_dec nr 0) as [->|Hnz].
    { cbn [blocks_iter]. rewrite Z.eqb_refl. exists bm. split; [auto|]. split; [auto|]. split; [auto|]. intros x Hx.
      destruct (Z.leb_spec (32 * Z.of_nat i + idx) x), (Z.ltb_spec x (32 * Z.of_nat i + idx + 0)); cbn; auto; lia. }
    rewrite iter_unfold by lia. destruct (nth_error bm i) as [w|] eqn:E.
    + assert (Li : (i < length bm)%nat) by (apply nth_error_Some; congruence).
      assert (Wi : nth i bm 0 = w) by (apply nth_error_nth; auto).
      set (t := Z.min nr (32 - idx)) in *.
      destruct (mk_mask_bits t idx Hi ltac:(lia)) as [MW MB].
      assert (Ww : wfw w) by (rewrite <- Wi; apply wfbm_nth; auto).
      destruct (Hf w (mk_mask t idx) Ww MW) as (w' & EW & WW & WB).
      { intros j Hj. rewrite MB by lia. intros B.
        apply andb_true_iff in B. destruct B as [B1 B2]. apply Z.leb_le in B1. apply Z.ltb_lt in B2.
        destruct (HA (32 * Z.of_nat i + j) ltac:(lia)) as [_ HB]. rewrite bbit_word in HB by lia.
        rewrite Wi in HB. auto. }
      rewrite EW.
      assert (BU : forall x, 0 <= x -> bbit (upd bm i w') x =
        if (32 * Z.of_nat i + idx <=? x) && (x <? 32 * Z.of_nat i + idx + t) then negb o else bbit bm x).
      { intros x Hx. rewrite bbit_upd by auto.
        pose proof (Z.div_mod x 32 ltac:(lia)). pose proof (Z.mod_pos_bound x 32 ltac:(lia)).
        destruct (Z.eqb_spec (x / 32) (Z.of_nat i)) as [EI|EI].
        - rewrite WB by lia. rewrite MB by lia.
          assert (BX : bbit bm x = Z.testbit w (x mod 32)).
          { unfold bbit. rewrite EI, Nat2Z.id, Wi. auto. }
          rewrite BX.
          destruct (Z.leb_spec idx (x mod 32)), (Z.ltb_spec (x mod 32) (idx + t)),
            (Z.leb_spec (32 * Z.of_nat i + idx) x),
            (Z.ltb_spec x (32 * Z.of_nat i + idx + t)); cbn; auto; lia.
        - destruct (Z.leb_spec (32 * Z.of_nat i + idx) x), (Z.ltb_spec x (32 * Z.of_nat i + idx + t));
            cbn; auto. exfalso. apply EI. symmetry. apply Z.div_unique with (x - 32 * Z.of_nat i); lia. }
      destruct (IH (upd bm i w') (S i) 0 (nr - t)) as (bm' & E2 & L2 & W2 & B2).
      * apply wfbm_upd; auto.
      * lia.
      * lia.
      * rewrite upd_length. lia.
      * intros x Hx. destruct (HA x ltac:(lia)) as [H1 H2]. unfold nbits, zlen in *. rewrite upd_length.
        split; auto. rewrite BU by lia.
        destruct (Z.ltb_spec x (32 * Z.of_nat i + idx + t)); [lia|]. rewrite andb_false_r. auto.
      * exists bm'. rewrite upd_length in L2. split; [auto|]. split; [auto|]. split; [auto|].
        intros x Hx. rewrite B2, BU by auto.
        destruct (Z.leb_spec (32 * Z.of_nat (S i) + 0) x), (Z.ltb_spec x (32 * Z.of_nat (S i) + 0 + (nr - t))),
          (Z.leb_spec (32 * Z.of_nat i + idx) x), (Z.ltb_spec x (32 * Z.of_nat i + idx + t)),
          (Z.ltb_spec x (32 * Z.of_nat i + idx + nr)); cbn; auto; lia.
    + apply nth_error_None in E. destruct (HA (32 * Z.of_nat i + idx) ltac:(lia)) as [H1 _].
      unfold nbits, zlen in H1. lia.
Qed.

(** ** Out-of-range bit numbers (after an undefined ffz) *)

(** idx = 32 is the first bit of the next word. *)
Lemma iter_32 f bm i nr fuel : 0 < nr <= 2 ^ 28 -> (i < length bm)%nat ->
  (forall w, f w 0 = Some (true, w)) ->
  blocks_iter f (S fuel) bm i 32 nr = blocks_iter f fuel bm (S i) 0 nr.
Proof.
  intros Hn Hi Hf. cbn [blocks_iter]. destruct (Z.eqb_spec nr 0); [lia|].
  destruct (nth_error bm i) as [w|] eqn:E; [|apply nth_error_None in E; lia]. unfold BPI.
  assert (U : u32 nr = nr) by (unfold u32; apply Z.mod_small; lia). rewrite U.
  assert (U2 : u32 (nr + 32) = nr + 32) by (unfold u32; apply Z.mod_small; lia). rewrite U2.
  destruct (Z.ltb_spec 32 (nr + 32)); [|lia].
  change (u32 (32 - 32)) with 0. change (0 =? 32) with false. cbv iota.
  change (u32 (Z.shiftl (u32 (Z.shiftl 1 (0 mod 32)) - 1) (u32 (32 - 0) mod 32))) with 0.
  rewrite Hf. rewrite (upd_same _ _ _ E). rewrite Z.sub_0_r.
  replace (u64 nr) with nr by (unfold u64; rewrite Z.mod_small by lia; auto). reflexivity.
Qed.

(** A block count that wrapped around never matches. *)
Lemma iter_huge : forall fuel bm i nr, 32 * Z.of_nat fuel < nr < 2 ^ 64 -> (length bm <= i + fuel)%nat ->
  blocks_iter mask_cmp fuel bm i 0 nr = Some (false, bm).
Proof.
  induction fuel as [|fuel IH]; intros bm i nr Hn Hl.
  - cbn [blocks_iter]. destruct (Z.eqb_spec nr 0); [lia|].
    destruct (nth_error bm i) eqn:E; auto.
    assert (i < length bm)%nat by (apply nth_error_Some; congruence). lia.
  - cbn [blocks_iter]. destruct (Z.eqb_spec nr 0); [lia|].
    destruct (nth_error bm i) as [w|] eqn:E; auto. unfold BPI.
    rewrite Z.add_0_r. assert (UU : u32 (u32 nr) = u32 nr) by (unfold u32; apply Z.mod_mod; lia). rewrite UU.
    pose proof (Z.mod_pos_bound nr (2 ^ 32) ltac:(lia)) as UB. fold (u32 nr) in UB.
    set (this := if 32 <? u32 nr then u32 (32 - 0) else u32 nr).
    assert (TH : 0 <= this <= 32).
    { unfold this. destruct (Z.ltb_spec 32 (u32 nr)); [change (u32 (32 - 0)) with 32; lia|lia]. }
    unfold mask_cmp at 1.
    match goal with |- context [Z.land w ?m =? 0] => destruct (Z.land w m =? 0) end.
    + rewrite (upd_same _ _ _ E).
      assert (U3 : u64 (nr - this) = nr - this) by (unfold u64; apply Z.mod_small; lia).
      rewrite U3. apply IH; lia.
    + rewrite (upd_same _ _ _ E). auto.
Qed.

Lemma iter_beyond bm i idx nr : 0 < nr <= 2 ^ 28 -> 32 < idx < 2 ^ 31 + 32 -> zlen bm <= 2 ^ 22 ->
  blocks_iter mask_cmp (length bm) bm i idx nr = Some (false, bm).
Proof.
  intros Hn Hi Hl. destruct (nth_error bm i) as [w|] eqn:E.
  - assert (Li : (i < length bm)%nat) by (apply nth_error_Some; congruence).
    destruct (length bm) as [|fuel] eqn:EL; [lia|]. cbn [blocks_iter]. destruct (Z.eqb_spec nr 0); [lia|].
    rewrite E. unfold BPI.
    assert (U : u32 nr = nr) by (unfold u32; apply Z.mod_small; lia). rewrite U.
    assert (U2 : u32 (nr + idx) = nr + idx) by (unfold u32; apply Z.mod_small; lia). rewrite U2.
    destruct (Z.ltb_spec 32 (nr + idx)); [|lia].
    assert (U3 : u32 (32 - idx) = 32 - idx + 2 ^ 32).
    { unfold u32. symmetry. apply Z.mod_unique with (-1); lia. }
    rewrite U3. unfold mask_cmp at 1.
    match goal with |- context [Z.land w ?m =? 0] => destruct (Z.land w m =? 0) end.
    + rewrite (upd_same _ _ _ E).
      assert (U4 : u64 (nr - (32 - idx + 2 ^ 32)) = nr - (32 - idx + 2 ^ 32) + 2 ^ 64).
      { unfold u64. symmetry. apply Z.mod_unique with (-1); lia. }
      rewrite U4. apply iter_huge; [|lia].
      unfold zlen in Hl. lia.
    + rewrite (upd_same _ _ _ E). auto.
  - destruct (length bm); cbn [blocks_iter]; destruct (Z.eqb_spec nr 0); try lia; rewrite E; auto.
Qed.

(** ** Searching *)

Lemma to_s32_range w : wfw w -> - 2 ^ 31 <= to_s32 w < 2 ^ 31.
Proof. unfold wfw, to_s32. intros H. destruct (Z.ltb_spec w (2 ^ 31)); lia. Qed.

Lemma ffz64_range w : 0 <= w < 2 ^ 64 -> w <> ones64 ->
  0 <= ffz64 w < 64 /\ Z.testbit w (ffz64 w) = false /\ forall j, 0 <= j < ffz64 w -> Z.testbit w j = true.
Proof.
  intros H N. unfold ffz64. pose proof (not64_range w H) as R.
  assert (NZ : not64 w <> 0).
  { intros E. apply N. unfold not64 in E. apply Z.lxor_eq in E. auto. }
  destruct (ffs64_spec (not64 w) ltac:(lia)) as (A & B & C). split; [auto|].
  rewrite not64_testbit in B by auto. apply andb_true_iff in B. destruct B as [B1 B2].
  split; [apply negb_true_iff in B2; auto|]. intros j Hj. specialize (C j Hj).
  rewrite not64_testbit in C by auto.
  destruct (Z.leb_spec 0 j), (Z.ltb_spec j 64); try lia. cbn in C. apply negb_false_iff in C. auto.
Qed.

Lemma fnz_ok w last ub : wfw w -> w <> ones32 -> 0 <= last < 32 -> 0 <= ub < 2 ^ 31 ->
  exists idx, find_next_zero w last ub = Some idx /\ last <= idx < 2 ^ 31 + 32.
Proof.
  intros Hw Hn Hl Hu. unfold find_next_zero. destruct (Z.eqb_spec w ones32); [congruence|].
  eexists. split; [reflexivity|]. destruct (Z.eqb_spec (Z.shiftr (to_s32 w) last) (-1)) as [E|E]; [lia|].
  pose proof (to_s32_range w Hw) as R. set (v := Z.shiftr (to_s32 w) last) in *.
  assert (V : - 2 ^ 31 <= v < 2 ^ 31).
  { unfold v. rewrite Z.shiftr_div_pow2 by lia. assert (1 <= 2 ^ last) by (apply (Z.pow_le_mono_r 2 0 last); lia).
    split; [apply Z.div_le_lower_bound|apply Z.div_lt_upper_bound]; nia. }
  assert (UR : 0 <= u64 v < 2 ^ 64) by (unfold u64; apply Z.mod_pos_bound; lia).
  destruct (ffz64_range (u64 v) UR) as [A _]; [|lia].
  unfold u64, ones64. intros EQ. apply E.
  pose proof (Z.div_mod v (2 ^ 64) ltac:(lia)) as D. rewrite EQ in D.
  assert (v / 2 ^ 64 = -1 \/ v / 2 ^ 64 = 0) as [Q|Q]; [|lia|lia].
  destruct (Z_lt_ge_dec v 0).
  - left. symmetry. apply Z.div_unique with (v + 2 ^ 64); lia.
  - right. apply Z.div_small. lia.
Qed.

(** First zero from the start of a word whose low [c] bits are the only ones set. *)
Lemma fnz_prefix c ub : 0 <= c < 32 -> find_next_zero (Z.ones c) 0 ub = Some c.
Proof.
  intros H. unfold find_next_zero.
  assert (P : 2 ^ c <= 2 ^ 31) by (apply Z.pow_le_mono_r; lia).
  assert (P0 : 0 < 2 ^ c) by (apply Z.pow_pos_nonneg; lia).
  pose proof (Z.ones_equiv c) as EQ. unfold ones32.
  destruct (Z.eqb_spec (Z.ones c) (2 ^ 32 - 1)); [lia|]. rewrite Z.shiftr_0_r.
  assert (TS : to_s32 (Z.ones c) = Z.ones c) by (unfold to_s32; destruct (Z.ltb_spec (Z.ones c) (2 ^ 31)); lia).
  rewrite TS. destruct (Z.eqb_spec (Z.ones c) (-1)); [lia|]. f_equal. rewrite Z.add_0_r.
  assert (U : u64 (Z.ones c) = Z.ones c) by (unfold u64; apply Z.mod_small; lia). rewrite U.
  destruct (ffz64_range (Z.ones c)) as (A & B & C); [lia|unfold ones64; lia|].
  rewrite testbit_ones in B by lia.
  destruct (Z.lt_trichotomy (ffz64 (Z.ones c)) c) as [L|[L|L]]; auto.
  - destruct (Z.leb_spec 0 (ffz64 (Z.ones c))), (Z.ltb_spec (ffz64 (Z.ones c)) c); cbn in B; lia || discriminate.
  - specialize (C c ltac:(lia)). rewrite testbit_ones in C by lia.
    destruct (Z.leb_spec 0 c), (Z.ltb_spec c c); cbn in C; lia || discriminate.
Qed.

(** blocks_free for any index the search may try. *)
Lemma blocks_free_ok bm i idx nr : wfbm bm -> zlen bm <= 2 ^ 22 -> (i < length bm)%nat ->
  0 < nr <= 2 ^ 28 -> 0 <= idx < 2 ^ 31 + 32 ->
  exists r, blocks_free bm i idx nr = Some r /\
    (r = true -> idx <= 32 /\ all_in bm false (32 * Z.of_nat i + idx) nr) /\
    (idx < 32 -> all_in bm false (32 * Z.of_nat i + idx) nr -> r = true).
Proof.
  intros Hwf Hz Hi Hn Hx. unfold blocks_free. destruct (Z_lt_ge_dec idx 32) as [L|G].
  - destruct (iter_cmp (length bm) bm i idx nr Hwf ltac:(lia) ltac:(lia) ltac:(lia)) as (r & E & R).
    rewrite E. exists r. split; [auto|]. split; [|intros _; apply R]. intros H. split; [lia|]. apply R. auto.
  - destruct (Z.eq_dec idx 32) as [->|N].
    + destruct (length bm) as [|fuel] eqn:EL; [lia|]. rewrite iter_32; [|lia|lia|].
      2:{ intros w. unfold mask_cmp. rewrite Z.land_0_r. auto. }
      destruct (iter_cmp fuel bm (S i) 0 nr Hwf ltac:(lia) ltac:(lia) ltac:(lia)) as (r & E & R).
      rewrite E. exists r. split; [auto|]. split; [|lia]. intros H. split; [lia|].
      replace (32 * Z.of_nat i + 32) with (32 * Z.of_nat (S i) + 0) by lia. apply R. auto.
    + rewrite iter_beyond by lia. exists false. split; [auto|]. split; [discriminate|lia].
Qed.

Lemma set_blocks_ok bm i idx nr : wfbm bm -> (i < length bm)%nat -> 0 < nr <= 2 ^ 28 -> 0 <= idx <= 32 ->
  all_in bm false (32 * Z.of_nat i + idx) nr ->
  exists bm', set_blocks bm i idx nr = Some bm' /\ length bm' = length bm /\ wfbm bm' /\
    forall x, 0 <= x -> bbit bm' x =
      if (32 * Z.of_nat i + idx <=? x) && (x <? 32 * Z.of_nat i + idx + nr) then true else bbit bm x.
Proof.
  intros Hwf Hi Hn Hx HA. unfold set_blocks. destruct (Z.eq_dec idx 32) as [->|N].
  - destruct (length bm) as [|fuel] eqn:EL; [lia|]. rewrite iter_32; [|lia|lia|].
    + replace (32 * Z.of_nat i + 32) with (32 * Z.of_nat (S i) + 0) in * by lia.
      destruct (iter_write mask_set false writes_set fuel bm (S i) 0 nr Hwf ltac:(lia) ltac:(lia) ltac:(lia) HA)
        as (bm' & E & L & W & B). rewrite E. exists bm'. rewrite L. auto.
    + intros w. unfold mask_set. rewrite Z.land_0_r, Z.lor_0_r. auto.
  - destruct (iter_write mask_set false writes_set (length bm) bm i idx nr Hwf ltac:(lia) ltac:(lia) ltac:(lia) HA)
      as (bm' & E & L & W & B). rewrite E. exists bm'. auto.
Qed.

Lemma clear_blocks_ok bm i idx nr : wfbm bm -> 0 <= nr <= 2 ^ 28 -> 0 <= idx < 32 ->
  all_in bm true (32 * Z.of_nat i + idx) nr ->
  exists bm', clear_blocks bm i idx nr = Some bm' /\ length bm' = length bm /\ wfbm bm' /\
    forall x, 0 <= x -> bbit bm' x =
      if (32 * Z.of_nat i + idx <=? x) && (x <? 32 * Z.of_nat i + idx + nr) then false else bbit bm x.
Proof.
  intros Hwf Hn Hx HA. unfold clear_blocks.
  destruct (iter_write mask_clear true writes_clear (length bm) bm i idx nr Hwf ltac:(lia) ltac:(lia) ltac:(lia) HA)
    as (bm' & E & L & W & B). rewrite E. exists bm'. auto.
Qed.

Lemma search_S f bm zo i last_idx nr : search (S f) bm zo i last_idx nr =
  match nth_error bm i with
  | None => Some None
  | Some w =>
      if w =? ones32 then search f bm zo (S i) 0 nr
      else
        do idx <- find_next_zero w last_idx (zo i last_idx);
        do fr <- blocks_free bm i idx nr;
        if fr : bool then Some (Some (i, idx))
        else if u32 (idx + nr) <? 32 then search f bm zo i (u32 (idx + nr)) nr
             else search f bm zo (i + Z.to_nat (u32 (idx + nr) / 32)) 0 nr
  end.
Proof. reflexivity. Qed.

Lemma search_ok bm zo nr : wfbm bm -> zlen bm <= 2 ^ 22 -> (forall i l, 0 <= zo i l < 2 ^ 31) ->
  0 < nr <= 2 ^ 28 -> forall fuel i last, 0 <= last < 32 ->
  32 * zlen bm <= 32 * Z.of_nat i + last + Z.of_nat fuel ->
  exists r, search (S fuel) bm zo i last nr = Some r /\
    match r with
    | None => True
    | Some (i', idx) => (i' < length bm)%nat /\ 0 <= idx <= 32 /\ all_in bm false (32 * Z.of_nat i' + idx) nr
    end.
Proof.
  intros Hwf Hz Hzo Hn. induction fuel as [|fuel IH]; intros i last Hl Hf; rewrite search_S.
  - destruct (nth_error bm i) eqn:E; [|exists None; auto].
    assert (i < length bm)%nat by (apply nth_error_Some; congruence). unfold zlen in *. lia.
  - destruct (nth_error bm i) as [w|] eqn:E; [|exists None; auto].
    assert (Li : (i < length bm)%nat) by (apply nth_error_Some; congruence).
    assert (Wi : nth i bm 0 = w) by (apply nth_error_nth; auto).
    assert (Ww : wfw w) by (rewrite <- Wi; apply wfbm_nth; auto).
    destruct (Z.eqb_spec w ones32) as [EW|EW].
    { apply (IH (S i) 0); lia. }
    destruct (fnz_ok w last (zo i last) Ww EW Hl (Hzo i last)) as (idx & EF & RF). rewrite EF.
    destruct (blocks_free_ok bm i idx nr Hwf Hz Li Hn ltac:(lia)) as (r & EB & R1 & R2). rewrite EB.
    destruct r.
    { exists (Some (i, idx)). split; auto. destruct (R1 eq_refl). split; [auto|]. split; [lia|auto]. }
    assert (U : u32 (idx + nr) = idx + nr) by (unfold u32; apply Z.mod_small; lia).
    rewrite U. destruct (Z.ltb_spec (idx + nr) 32).
    + apply (IH i (idx + nr)); lia.
    + pose proof (Z.div_mod (idx + nr) 32 ltac:(lia)). pose proof (Z.mod_pos_bound (idx + nr) 32 ltac:(lia)).
      apply (IH (i + Z.to_nat ((idx + nr) / 32))%nat 0); lia.
Qed.

(** A pool whose set bits are exactly the first [k] blocks serves any request that fits. *)
Lemma prefix_word bm i k : wfbm bm -> (i < length bm)%nat ->
  (forall x, 0 <= x < nbits bm -> bbit bm x = (x <? k)) -> 32 * Z.of_nat i <= k < 32 * Z.of_nat i + 32 ->
  nth i bm 0 = Z.ones (k - 32 * Z.of_nat i).
Proof.
  intros Hwf Hi HP Hk. apply Z.bits_inj'. intros j Hj. rewrite testbit_ones by lia.
  destruct (Z_lt_ge_dec j 32) as [L|G].
  - rewrite <- bbit_word by lia. rewrite HP by (unfold nbits, zlen; lia).
    destruct (Z.leb_spec 0 j), (Z.ltb_spec j (k - 32 * Z.of_nat i)), (Z.ltb_spec (32 * Z.of_nat i + j) k); auto; lia.
  - rewrite (wf_bits _ j (wfbm_nth bm i Hwf)) by lia.
    destruct (Z.leb_spec 0 j), (Z.ltb_spec j (k - 32 * Z.of_nat i)); auto; lia.
Qed.

Lemma search_prefix bm zo nr k i fuel : wfbm bm -> zlen bm <= 2 ^ 22 -> 0 < nr <= 2 ^ 28 ->
  (forall x, 0 <= x < nbits bm -> bbit bm x = (x <? k)) ->
  32 * Z.of_nat i <= k < 32 * Z.of_nat i + 32 -> k + nr <= nbits bm ->
  search (S fuel) bm zo i 0 nr = Some (Some (i, k - 32 * Z.of_nat i)).
Proof.
  intros Hwf Hz Hn HP Hk Hfit. unfold nbits in *.
  assert (Li : (i < length bm)%nat) by (unfold zlen in *; lia).
  pose proof (prefix_word bm i k Hwf Li HP Hk) as PW. cbn [search].
  rewrite (nth_error_nth' bm 0 Li), PW.
  destruct (Z.eqb_spec (Z.ones (k - 32 * Z.of_nat i)) ones32) as [E|E].
  { exfalso. rewrite Z.ones_equiv in E. unfold ones32 in E.
    assert (2 ^ (k - 32 * Z.of_nat i) < 2 ^ 32) by (apply Z.pow_lt_mono_r; lia). lia. }
  rewrite fnz_prefix by lia.
  destruct (blocks_free_ok bm i (k - 32 * Z.of_nat i) nr Hwf Hz Li Hn ltac:(lia)) as (r & EB & _ & R2).
  rewrite EB, R2; auto; [lia|]. intros x Hx. unfold nbits. split; [lia|]. rewrite HP by lia.
  apply Z.ltb_ge. lia.
Qed.

(** ** Index hint *)
Lemma first_nonfull_spec bm : forall j,
  match first_nonfull bm j with
  | None => forall k, (k < length bm)%nat -> nth k bm 0 = ones32
  | Some r => (j <= r < j + length bm)%nat /\ nth (r - j) bm 0 <> ones32 /\
              forall k, (k < r - j)%nat -> nth k bm 0 = ones32
  end.
Proof.
  induction bm as [|w bm IH]; intros j; cbn [first_nonfull].
  - cbn. lia.
  - destruct (Z.eqb_spec w ones32) as [E|E].
    + specialize (IH (S j)). destruct (first_nonfull bm (S j)) as [r|].
      * destruct IH as (A & B & C). cbn [length]. split; [lia|].
        replace (r - j)%nat with (S (r - S j)) by lia. split; [exact B|].
        intros [|k] Hk; [exact E|]. apply C. lia.
      * intros [|k] Hk; [exact E|]. apply IH. cbn [length] in Hk. lia.
    + rewrite Nat.sub_diag. cbn [length]. split; [lia|]. split; [exact E|]. lia.
Qed.

Lemma find_best_ok bm nnf : (exists k, (k < length bm)%nat /\ nth k bm 0 <> ones32) ->
  (forall k, (k < nnf)%nat -> nth k bm 0 = ones32) ->
  exists b, find_best_from (S (length bm)) bm nnf = Some b /\ (b < length bm)%nat /\ nth b bm 0 <> ones32 /\
    forall k, (k < b)%nat -> nth k bm 0 = ones32.
Proof.
  intros (kk & Hk & Hkn).
  assert (G : forall fuel i, (i <= kk)%nat -> (kk < i + fuel)%nat ->
    (forall k, (k < i)%nat -> nth k bm 0 = ones32) ->
    exists b, find_best_from fuel bm i = Some b /\ (b < length bm)%nat /\ nth b bm 0 <> ones32 /\
      forall k, (k < b)%nat -> nth k bm 0 = ones32).
  { induction fuel as [|fuel IH]; intros i H1 H2 H3; [lia|]. cbn [find_best_from].
    assert (Li : (i < length bm)%nat) by lia. rewrite (nth_error_nth' bm 0 Li).
    destruct (Z.eqb_spec (nth i bm 0) ones32) as [E|E].
    - assert (i <> kk) by congruence. destruct (Nat.eqb_spec (S i) (length bm)); [lia|].
      apply IH; try lia. intros k Hk'. destruct (Nat.eq_dec k i) as [->|]; auto. apply H3. lia.
    - exists i. auto. }
  intros HN. apply G; auto; [|lia].
  destruct (le_lt_dec nnf kk); auto. exfalso. apply Hkn. apply HN. auto.
Qed.

(** ** Counting free blocks *)
Fixpoint count (P : Z -> bool) (n : nat) : Z :=
  match n with O => 0 | S k => count P k + (if P (Z.of_nat k) then 1 else 0) end.

Lemma count_range P Q s m : 0 <= s -> 0 <= m -> (forall x, s <= x < s + m -> P x = true /\ Q x = false) ->
  (forall x, 0 <= x -> x < s \/ s + m <= x -> P x = Q x) ->
  forall n, count P n = count Q n + Z.max 0 (Z.min (s + m) (Z.of_nat n) - s).
Proof.
  intros Hs Hm HR HO. induction n as [|n IH]; [cbn; lia|]. cbn [count]. rewrite IH.
  destruct (Z_lt_ge_dec (Z.of_nat n) s) as [A|A].
  - rewrite HO by lia. destruct (Q (Z.of_nat n)); lia.
  - destruct (Z_lt_ge_dec (Z.of_nat n) (s + m)) as [B|B].
    + destruct (HR (Z.of_nat n) ltac:(lia)) as [-> ->]. lia.
    + rewrite HO by lia. destruct (Q (Z.of_nat n)); lia.
Qed.

Lemma count_none P n : count P n <> 0 -> exists x, 0 <= x < Z.of_nat n /\ P x = true.
Proof.
  induction n as [|n IH]; cbn [count]; [lia|]. intros H. destruct (P (Z.of_nat n)) eqn:E.
  - exists (Z.of_nat n). split; [lia|auto].
  - destruct IH as (x & A & B); [lia|]. exists x. split; [lia|auto].
Qed.

Lemma count_le P n : 0 <= count P n <= Z.of_nat n.
Proof. induction n; cbn [count]; [lia|]. destruct (P (Z.of_nat n)); lia. Qed.

Lemma count_ext P Q n : (forall x, 0 <= x < Z.of_nat n -> P x = Q x) -> count P n = count Q n.
Proof. induction n; cbn [count]; auto. intros H. rewrite IHn by (intros; apply H; lia). rewrite H by lia. auto. Qed.

Definition zeros (bm : list Z) : Z := count (fun x => negb (bbit bm x)) (32 * length bm).

Lemma full_iff w : wfw w -> (w = ones32 <-> forall j, 0 <= j < 32 -> Z.testbit w j = true).
Proof.
  intros Hw. change ones32 with (Z.ones 32). split.
  - intros -> j Hj. rewrite testbit_ones by lia. destruct (Z.leb_spec 0 j), (Z.ltb_spec j 32); auto; lia.
  - intros H. apply Z.bits_inj'. intros j Hj. rewrite testbit_ones by lia.
    destruct (Z.leb_spec 0 j), (Z.ltb_spec j 32); cbn; try lia; auto. apply wf_bits; auto.
Qed.

Lemma zeros_nonfull bm : zeros bm <> 0 -> exists k, (k < length bm)%nat /\ nth k bm 0 <> ones32.
Proof.
  intros H. destruct (count_none _ _ H) as (x & A & B).
  pose proof (Z.div_mod x 32 ltac:(lia)). pose proof (Z.mod_pos_bound x 32 ltac:(lia)).
  exists (Z.to_nat (x / 32)). split; [lia|]. intros E. unfold bbit in B. rewrite E in B.
  change ones32 with (Z.ones 32) in B. rewrite testbit_ones in B by lia.
  destruct (Z.leb_spec 0 (x mod 32)), (Z.ltb_spec (x mod 32) 32); first [lia|discriminate].
Qed.

Lemma zeros_set bm bm' s n : length bm' = length bm -> 0 <= s -> 0 <= n -> all_in bm false s n ->
  (forall x, 0 <= x -> bbit bm' x = if (s <=? x) && (x <? s + n) then true else bbit bm x) ->
  zeros bm' = zeros bm - n.
Proof.
  intros L Hs Hn HA HB. unfold zeros. rewrite L.
  destruct (Z.eq_dec n 0) as [->|Hnz].
  { rewrite Z.sub_0_r. apply count_ext. intros x Hx. rewrite HB by lia.
    destruct (Z.leb_spec s x), (Z.ltb_spec x (s + 0)); auto; lia. }
  rewrite (count_range (fun x => negb (bbit bm x)) (fun x => negb (bbit bm' x)) s n); auto.
  - destruct (HA (s + n - 1) ltac:(lia)) as [A _]. unfold nbits, zlen in A. lia.
  - intros x Hx. destruct (HA x Hx) as [_ E]. rewrite E, HB by lia.
    destruct (Z.leb_spec s x), (Z.ltb_spec x (s + n)); auto; lia.
  - intros x Hx HO. rewrite HB by lia. destruct (Z.leb_spec s x), (Z.ltb_spec x (s + n)); auto; lia.
Qed.
Lemma zeros_clear bm bm' s n : length bm' = length bm -> 0 <= s -> 0 <= n -> all_in bm true s n ->
  (forall x, 0 <= x -> bbit bm' x = if (s <=? x) && (x <? s + n) then false else bbit bm x) ->
  zeros bm' = zeros bm + n.
Proof.
  intros L Hs Hn HA HB.
  rewrite (zeros_set bm' bm s n); auto; [lia| |].
  - intros x Hx. destruct (HA x Hx) as [A B]. unfold nbits, zlen in *. rewrite L. split; auto.
    rewrite HB by lia. destruct (Z.leb_spec s x), (Z.ltb_spec x (s + n)); auto; lia.
  - intros x Hx. rewrite HB by lia. destruct (Z.leb_spec s x), (Z.ltb_spec x (s + n)); cbn; auto.
    destruct (HA x ltac:(lia)); auto.
Qed.

Lemma bm_ext bm bm' : wfbm bm -> wfbm bm' -> length bm = length bm' ->
  (forall x, 0 <= x < nbits bm -> bbit bm x = bbit bm' x) -> bm = bm'.
Proof.
  intros H H' L HB. apply (nth_ext _ _ 0 0); auto. intros i Hi. apply Z.bits_inj'. intros j Hj.
  destruct (Z_lt_ge_dec j 32) as [A|A].
  - rewrite <- !bbit_word by lia. apply HB. unfold nbits, zlen. lia.
  - rewrite !wf_bits; auto; try lia; apply wfbm_nth; auto.
Qed.
