From Coq Require Import ZArith List Lia Bool Permutation.
From Verif Require Import CBase FloatZ AxmapModel AxmapSpec AxmapDriver AxmapProofs RandMapModel RandMapSpec.
Import ListNotations.
Open Scope Z_scope.

Lemma draw32_range lastb r : 0 < lastb -> 0 <= r < 2 ^ 32 -> 0 <= draw32 lastb r < lastb.
Proof.
  intros Hl Hr. unfold draw32. rewrite (rne53_small r) by lia.
  destruct (rne53_error lastb ltac:(lia)) as (A1 & A2 & A3). set (l' := rne53 lastb) in *.
  destruct (rne53_error (l' * r) ltac:(nia)) as (B1 & B2 & B3). set (p := rne53 (l' * r)) in *.
  split; [apply Z.div_pos; lia|]. apply Z.div_lt_upper_bound; [lia|].
  clearbody l' p. change (2 ^ 53) with 9007199254740992 in *. change (2 ^ 32) with 4294967296 in *.
  assert (C : 9007199254740992 * p <= 9007199254740993 * (l' * 4294967295)) by nia.
  nia.
Qed.

Lemma draw64_range lastb r : 0 < lastb -> lastb <= 2 ^ 53 -> 0 <= r <= 2 ^ 64 - 2 ^ 12 ->
  0 <= draw64 lastb r < lastb.
Proof.
  intros Hl Hl2 Hr. unfold draw64.
  assert (E : rne53 lastb = lastb).
  { destruct (Z.eq_dec lastb (2 ^ 53)) as [->|]; [reflexivity|apply rne53_small; lia]. }
  rewrite E.
  destruct (rne53_error r ltac:(lia)) as (A1 & A2 & A3). set (r' := rne53 r) in *.
  destruct (rne53_error (lastb * r') ltac:(nia)) as (B1 & B2 & B3). set (p := rne53 (lastb * r')) in *.
  split; [apply Z.div_pos; lia|]. apply Z.div_lt_upper_bound; [lia|].
  clearbody r' p. change (2 ^ 53) with 9007199254740992 in *.
  change (2 ^ 64) with 18446744073709551616 in *. change (2 ^ 12) with 4096 in *.
  assert (C : r' <= 18446744073709549568) by lia.
  assert (D : 9007199254740992 * p <= 9007199254740993 * (lastb * 18446744073709549568)) by nia.
  nia.
Qed.

(** The top 2^10 values of the 64-bit generator all map to [lastb] itself. *)
Lemma draw64_overrun lastb r : 0 < lastb < 2 ^ 53 -> 2 ^ 64 - 2 ^ 10 <= r < 2 ^ 64 ->
  draw64 lastb r = lastb.
Proof.
  intros Hl Hr. unfold draw64. rewrite (rne53_small lastb) by lia.
  assert (R : rne53 r = 2 ^ 64).
  { unfold rne53. destruct (Z.ltb_spec r (2 ^ 53)); [lia|].
    assert (L : Z.log2 r = 63) by (apply Z.log2_unique; lia). rewrite L.
    change (63 - 52) with 11. change (11 - 1) with 10.
    assert (Q : r / 2 ^ 11 = 2 ^ 53 - 1) by (symmetry; apply Z.div_unique with (r - (2 ^ 53 - 1) * 2 ^ 11); lia).
    assert (M : r mod 2 ^ 11 = r - (2 ^ 53 - 1) * 2 ^ 11) by (rewrite Z.mod_eq, Q by lia; lia).
    rewrite Q, M. destruct (Z.ltb_spec (r - (2 ^ 53 - 1) * 2 ^ 11) (2 ^ 10)); [lia|].
    change (Z.even (2 ^ 53 - 1)) with false. rewrite andb_false_r. lia. }
  rewrite R.
  assert (P : rne53 (lastb * 2 ^ 64) = lastb * 2 ^ 64).
  { unfold rne53. destruct (Z.ltb_spec (lastb * 2 ^ 64) (2 ^ 53)); [lia|].
    rewrite Z.log2_mul_pow2 by lia.
    assert (L0 : 0 <= Z.log2 lastb <= 52).
    { split; [apply Z.log2_nonneg|]. assert (Z.log2 lastb < 53); [apply Z.log2_lt_pow2; lia|lia]. }
    set (e := 64 + Z.log2 lastb - 52).
    assert (M : (lastb * 2 ^ 64) mod 2 ^ e = 0).
    { apply Z.mod_divide; [apply Z.pow_nonzero; lia|]. exists (lastb * 2 ^ (64 - e)).
      rewrite <- Z.mul_assoc, <- Z.pow_add_r by (unfold e; lia). do 2 f_equal. lia. }
    rewrite M. assert (0 < 2 ^ (e - 1)) by (apply Z.pow_pos_nonneg; unfold e; lia).
    destruct (Z.ltb_spec 0 (2 ^ (e - 1))); [|lia].
    rewrite (Z.div_mod (lastb * 2 ^ 64) (2 ^ e)) at 2 by (apply Z.pow_nonzero; unfold e; lia).
    rewrite M. lia. }
  rewrite P. apply Z.div_mul. lia.
Qed.

Section Run.
Variables (o : ropts) (f : rfile).
Hypothesis Hf : good_file o f.
Let n := rf_io_size f / ro_bs o.

Lemma n_blocks : map_blocks o f = n /\ last_block o f = n.
Proof.
  destruct Hf as (H1 & H2 & H3 & H4 & H5 & H6 & H7). unfold map_blocks, last_block, n.
  assert (0 <= rf_io_size f).
  { destruct (Z_lt_le_dec (rf_io_size f) 0); auto.
    assert (rf_io_size f / ro_bs o < 0) by (apply Z.div_lt_upper_bound; lia). lia. }
  rewrite Z.min_r by lia. destruct (Z.gtb_spec (rf_io_size f) (rf_real_size f)); auto; lia.
Qed.

Lemma draw_good r : good_draw o r -> 0 <= draw o n r < n.
Proof.
  destruct Hf as (H1 & H2 & H3 & H4 & H5 & H6 & H7). unfold good_draw, draw. fold n in H3, H4.
  destruct (ro_use64 o); intros.
  - apply draw64_range; auto.
  - apply draw32_range; auto.
Qed.

(** The map [ax] contains exactly the blocks in [I]. *)
Definition holds (ax : axmap) (I : list Z) : Prop :=
  wf ax /\ ax_nr_bits ax = n /\ NoDup I /\ (forall x, In x I -> 0 <= x < n) /\
  (forall x, 0 <= x < n -> (abs ax x = true <-> In x I)).

Definition range : list Z := map Z.of_nat (seq 0 (Z.to_nat n)).

Lemma in_range x : In x range <-> 0 <= x < n.
Proof.
  unfold range. rewrite in_map_iff. split.
  - intros (k & <- & Hk). apply in_seq in Hk. lia.
  - intros H. exists (Z.to_nat x). split; [lia|]. apply in_seq. lia.
Qed.

Lemma range_len : length range = Z.to_nat n.
Proof. unfold range. rewrite map_length, seq_length. auto. Qed.

Lemma range_nodup : NoDup range.
Proof.
  unfold range. apply FinFun.Injective_map_NoDup; [intros a b; lia|apply seq_NoDup].
Qed.

Lemma free_exists I : NoDup I -> (forall x, In x I -> 0 <= x < n) -> (length I < Z.to_nat n)%nat ->
  exists x, 0 <= x < n /\ ~ In x I.
Proof.
  intros HN HR HL.
  destruct (Forall_Exists_dec (fun x => In x I) (fun x => in_dec Z.eq_dec x I) range) as [F|E].
  - exfalso. assert (length range <= length I)%nat.
    { apply NoDup_incl_length; [apply range_nodup|]. intros x Hx. rewrite Forall_forall in F. auto. }
    rewrite range_len in H. lia.
  - apply Exists_exists in E. destruct E as (x & Hx & Hn). exists x. rewrite in_range in Hx. auto.
Qed.

Lemma next_offset_ok ax I r : holds ax I -> good_draw o r ->
  (exists b, get_next_rand_offset o f ax r = Some (Some b) /\ 0 <= b < n /\ ~ In b I) \/
  (get_next_rand_offset o f ax r = Some None /\ length I = Z.to_nat n).
Proof.
  intros (W & N & ND & IR & HA) Hr. pose proof (draw_good r Hr) as Hd.
  unfold get_next_rand_offset. destruct n_blocks as [_ ->].
  destruct (Z.eqb_spec n 0); [lia|]. unfold get_next_rand_offset_raw, random_map_free.
  set (b := draw o n r) in *. rewrite axmap_isset_ok by (auto; lia).
  destruct (abs ax b) eqn:E; cbn [negb].
  - destruct (axmap_next_free_ok ax b W ltac:(lia)) as (q & Hq & D). rewrite Hq. cbv zeta in D.
    rewrite N in D. destruct D as [[-> Hall]|(D1 & D2 & _)].
    + right. rewrite Z.eqb_refl. split; auto.
      destruct (Nat.lt_ge_cases (length I) (Z.to_nat n)) as [L|L].
      * destruct (free_exists I ND IR L) as (x & Hx & Hx2). exfalso. apply Hx2. apply HA; auto.
      * assert (length I <= length range)%nat.
        { apply NoDup_incl_length; auto. intros x Hx. apply in_range. auto. }
        rewrite range_len in H. lia.
    + left. destruct (Z.eqb_spec q ones64) as [->|_].
      { exfalso. destruct W as [Wn _]. unfold ones64 in *. lia. }
      exists q. split; auto. split; auto. intros C. apply HA in C; [congruence|auto].
  - left. exists b. split; auto. split; auto. intros C. apply HA in C; [congruence|auto].
Qed.

Lemma holds_reset ax I : holds ax I -> holds (axmap_reset ax) [].
Proof.
  intros (W & N & ND & IR & HA). split; [apply axmap_reset_wf; auto|].
  split; [auto|]. split; [constructor|]. split; [intros x []|].
  intros x Hx. rewrite abs_reset. split; [discriminate|intros []].
Qed.

Definition io_of (b : Z) : filled := Issued (rf_offset f + b * ro_bs o) (ro_bs o).

(** After a successful choice of block [b], fill_io_u issues it and marks it. *)
Lemma issue_ok ax I b : holds ax I -> 0 <= b < n -> ~ In b I ->
  exists ax', holds ax' (b :: I) /\
    mark_random_map o f ax (rf_offset f + b * ro_bs o) (ro_bs o) = Some (ax', ro_bs o).
Proof.
  intros (W & N & ND & IR & HA) Hb Hn. destruct Hf as (H1 & H2 & H3 & H4 & H5 & H6 & H7).
  assert (Hbs : n * ro_bs o <= rf_io_size f).
  { unfold n. rewrite Z.mul_comm. apply Z.mul_div_le. lia. }
  assert (Hb2 : b * ro_bs o + ro_bs o <= rf_io_size f) by nia.
  assert (Hb0 : 0 <= b * ro_bs o) by nia.
  destruct (axmap_set_nr_ok ax b 1 W ltac:(lia) ltac:(lia) ltac:(lia)) as (ax' & S1 & S2 & S3 & S4).
  assert (Ab : abs ax b = false).
  { destruct (abs ax b) eqn:E; auto. exfalso. apply Hn. apply HA; auto. }
  change (Z.to_nat 1) with 1%nat in *. cbn [free_prefix] in *. rewrite Ab in *.
  change (Z.of_nat 1) with 1 in *.
  exists ax'. split.
  - split; auto. split; [congruence|]. split; [constructor; auto|]. split.
    + intros x [<-|Hx]; auto.
    + intros x Hx. rewrite S4. unfold add_range. rewrite orb_true_iff, HA, andb_true_iff, Z.leb_le, Z.ltb_lt by auto.
      simpl. split; [intros [|]; [left; lia|right; auto]|intros [<-|]; [left; lia|right; auto]].
  - unfold mark_random_map.
    replace (rf_offset f + b * ro_bs o - rf_offset f) with (b * ro_bs o) by lia.
    rewrite (u64_id (b * ro_bs o)) by lia. rewrite Z.div_mul by lia.
    rewrite (u64_id (ro_bs o + ro_bs o - 1)) by lia.
    assert (Q : (ro_bs o + ro_bs o - 1) / ro_bs o = 1).
    { symmetry. apply Z.div_unique with (ro_bs o - 1); lia. }
    rewrite Q. change (1 =? 0) with false. change (u32 1) with 1. cbv iota. rewrite S1.
    change (1 =? 0) with false. cbv iota. rewrite (u64_id (1 * ro_bs o)) by lia.
    destruct (Z.ltb_spec (1 * ro_bs o) (ro_bs o)); [lia|]. auto.
Qed.

Lemma fill_issue ax ax1 I b r : holds ax1 I -> 0 <= b < n -> ~ In b I ->
  get_next_rand_block o f ax (fst r) (snd r) = Some (ax1, Some b) ->
  exists ax', holds ax' (b :: I) /\ fill_io_u o f ax r = Some (ax', io_of b).
Proof.
  intros H Hb Hn E. destruct (issue_ok ax1 I b H Hb Hn) as (ax' & H' & M).
  exists ax'. split; auto.
  destruct Hf as (H1 & H2 & H3 & H4 & H5 & H6 & H7).
  assert (Hbs : n * ro_bs o <= rf_io_size f).
  { unfold n. rewrite Z.mul_comm. apply Z.mul_div_le. lia. }
  assert (Hb2 : b * ro_bs o + ro_bs o <= rf_io_size f) by nia.
  assert (Hb0 : 0 <= b * ro_bs o) by nia.
  unfold fill_io_u, get_next_offset. rewrite E.
  destruct (Z.eqb_spec b ones64) as [->|_]; [unfold ones64 in *; fold n in H4; lia|].
  rewrite (u64_id (b * ro_bs o)) by lia.
  destruct (Z.geb_spec (b * ro_bs o) (rf_io_size f)); [lia|].
  rewrite (u64_id (b * ro_bs o + rf_offset f)) by lia.
  destruct (Z.geb_spec (b * ro_bs o + rf_offset f) (rf_real_size f)); [lia|].
  rewrite (u64_id (b * ro_bs o + rf_offset f + ro_bs o)) by lia.
  destruct (Z.gtb_spec (b * ro_bs o + rf_offset f + ro_bs o) (rf_real_size f)); [lia|].
  rewrite (Z.add_comm (b * ro_bs o)). rewrite M. reflexivity.
Qed.

Lemma fill_step ax I r : holds ax I -> good_draw o (fst r) -> (length I < Z.to_nat n)%nat ->
  exists ax' b, 0 <= b < n /\ ~ In b I /\ holds ax' (b :: I) /\
    fill_io_u o f ax r = Some (ax', io_of b).
Proof.
  intros H Hr HL. destruct (next_offset_ok ax I (fst r) H Hr) as [(b & E & Hb & Hn)|[_ E]]; [|lia].
  destruct (fill_issue ax ax I b r H Hb Hn) as (ax' & H' & E').
  { unfold get_next_rand_block. rewrite E. auto. }
  exists ax', b. auto.
Qed.

Lemma fill_end ax I r : holds ax I -> good_draw o (fst r) -> length I = Z.to_nat n ->
  ro_time_based o = false -> fill_io_u o f ax r = Some (ax, NoMore).
Proof.
  intros H Hr HL HT. destruct (next_offset_ok ax I (fst r) H Hr) as [(b & E & Hb & Hn)|[E _]].
  - exfalso. destruct H as (W & N & ND & IR & HA). apply Hn.
    assert (incl range I).
    { apply (NoDup_length_incl ND).
      - rewrite range_len, HL. auto.
      - intros x Hx. apply in_range. auto. }
    apply H. apply in_range. auto.
  - unfold fill_io_u, get_next_offset, get_next_rand_block. rewrite E, HT. auto.
Qed.

(** At the end of a pass of a time based job the map is reset and a new pass starts. *)
Lemma fill_wrap ax I r : holds ax I -> good_draw o (fst r) -> good_draw o (snd r) ->
  length I = Z.to_nat n -> ro_time_based o = true ->
  exists ax' b, 0 <= b < n /\ holds ax' [b] /\ fill_io_u o f ax r = Some (ax', io_of b).
Proof.
  intros H Hr1 Hr2 HL HT. destruct (next_offset_ok ax I (fst r) H Hr1) as [(b & E & Hb & Hn)|[E _]].
  - exfalso. destruct H as (W & N & ND & IR & HA). apply Hn.
    assert (incl range I).
    { apply (NoDup_length_incl ND).
      - rewrite range_len, HL. auto.
      - intros x Hx. apply in_range. auto. }
    apply H. apply in_range. auto.
  - pose proof (holds_reset ax I H) as H0.
    destruct (next_offset_ok _ [] (snd r) H0 Hr2) as [(b & E2 & Hb & Hn)|[_ E2]].
    2:{ simpl in E2. destruct Hf as (_ & _ & H3 & _). fold n in H3. lia. }
    destruct (fill_issue ax (axmap_reset ax) [] b r H0 Hb Hn) as (ax' & H' & E').
    { unfold get_next_rand_block. rewrite E, HT, E2. auto. }
    exists ax', b. auto.
Qed.


Lemma fill_many_within rs : forall ax I, holds ax I -> Forall (good_pair o) rs ->
  (length I + length rs <= Z.to_nat n)%nat ->
  exists ax' J, fill_many o f ax rs = Some (ax', map io_of J) /\ length J = length rs /\
    holds ax' (rev J ++ I).
Proof.
  induction rs as [|r rs IH]; intros ax I H HG HL; cbn [fill_many length] in *.
  - exists ax, []. auto.
  - inversion HG as [|? ? G1 G2]; subst.
    destruct (fill_step ax I r H (proj1 G1) ltac:(lia)) as (ax1 & b & Hb & Hn & H1 & E).
    rewrite E. destruct (IH ax1 (b :: I) H1 G2 ltac:(simpl; lia)) as (ax2 & J & E2 & L & H2).
    rewrite E2. exists ax2, (b :: J). split; auto. split; [simpl; auto|].
    simpl. rewrite <- app_assoc. auto.
Qed.

Lemma full_is_permutation ax I : holds ax I -> length I = Z.to_nat n -> Permutation I range.
Proof.
  intros (W & N & ND & IR & HA) HL. apply NoDup_Permutation_bis; auto.
  - rewrite range_len. lia.
  - intros x Hx. apply in_range. auto.
Qed.

Lemma map_io_range : map io_of range = all_ios (rf_offset f) (ro_bs o) (Z.to_nat n).
Proof. unfold range, all_ios. rewrite map_map. auto. Qed.

Lemma holds_new : holds (init_random_map o f) [].
Proof.
  unfold init_random_map. destruct n_blocks as [-> _].
  destruct Hf as (H1 & H2 & H3 & H4 & H5 & H6 & H7). fold n in H3, H4.
  split; [apply axmap_new_wf; lia|]. split; [auto|]. split; [constructor|]. split; [intros x []|].
  intros x Hx. rewrite new_abs. split; [discriminate|intros []].
Qed.

Lemma one_pass rs : Forall (good_pair o) rs -> length rs = Z.to_nat n ->
  exists ax ios, fill_many o f (init_random_map o f) rs = Some (ax, ios) /\
    Permutation ios (all_ios (rf_offset f) (ro_bs o) (Z.to_nat n)) /\
    (ro_time_based o = false -> forall r, good_draw o (fst r) -> fill_io_u o f ax r = Some (ax, NoMore)).
Proof.
  intros HG HL. destruct (fill_many_within rs _ [] holds_new HG ltac:(simpl; lia)) as (ax & J & E & L & H).
  rewrite app_nil_r in H. exists ax, (map io_of J). split; auto.
  assert (HLr : length (rev J) = Z.to_nat n) by (rewrite rev_length; lia).
  split.
  - rewrite <- map_io_range. apply Permutation_map.
    rewrite (Permutation_rev J). apply full_is_permutation with ax; auto.
  - intros HT r Hr. apply fill_end with (rev J); auto.
Qed.

Lemma fill_many_app rs1 rs2 ax : fill_many o f ax (rs1 ++ rs2) =
  match fill_many o f ax rs1 with
  | None => None
  | Some (ax1, l1) =>
      match fill_many o f ax1 rs2 with None => None | Some (ax2, l2) => Some (ax2, l1 ++ l2) end
  end.
Proof.
  revert ax. induction rs1 as [|r rs1 IH]; intros ax; cbn [fill_many app].
  - destruct (fill_many o f ax rs2) as [[? ?]|]; auto.
  - destruct (fill_io_u o f ax r) as [[ax1 x]|]; auto. rewrite IH.
    destruct (fill_many o f ax1 rs1) as [[ax2 l1]|]; auto.
    destruct (fill_many o f ax2 rs2) as [[ax3 l2]|]; auto.
Qed.

(** One full pass starting from a fully marked map. *)
Lemma next_pass ax I rs : holds ax I -> length I = Z.to_nat n -> Forall (good_pair o) rs ->
  length rs = Z.to_nat n -> ro_time_based o = true ->
  exists ax' J, fill_many o f ax rs = Some (ax', map io_of J) /\
    holds ax' (rev J) /\ length J = Z.to_nat n.
Proof.
  intros H HL HG HLr HT. destruct rs as [|r rs].
  { simpl in HLr. destruct Hf as (_ & _ & H3 & _). fold n in H3. lia. }
  inversion HG as [|? ? G1 G2]; subst.
  destruct (fill_wrap ax I r H (proj1 G1) (proj2 G1) HL HT) as (ax1 & b & Hb & H1 & E).
  cbn [fill_many]. rewrite E. simpl in HLr.
  destruct (fill_many_within rs ax1 [b] H1 G2 ltac:(simpl; lia)) as (ax2 & J & E2 & L & H2).
  rewrite E2. exists ax2, (b :: J). split; auto. split; [simpl; auto|simpl; lia].
Qed.

Lemma passes_from k : forall ax I rs, holds ax I -> length I = Z.to_nat n -> Forall (good_pair o) rs ->
  length rs = (k * Z.to_nat n)%nat -> ro_time_based o = true ->
  exists ax' ios, fill_many o f ax rs = Some (ax', ios) /\
    passes (rf_offset f) (ro_bs o) (Z.to_nat n) k ios.
Proof.
  induction k as [|k IH]; intros ax I rs H HL HG HLr HT.
  - destruct rs; [|simpl in HLr; lia]. exists ax, []. split; [auto|constructor].
  - rewrite <- (firstn_skipn (Z.to_nat n) rs) in HG |- *. rewrite fill_many_app.
    apply Forall_app in HG. destruct HG as [G1 G2].
    destruct (next_pass ax I (firstn (Z.to_nat n) rs) H HL G1) as (ax1 & J & E & H1 & L); auto.
    { rewrite firstn_length. lia. }
    rewrite E. destruct (IH ax1 (rev J) (skipn (Z.to_nat n) rs) H1) as (ax2 & ios & E2 & P); auto.
    { rewrite rev_length. auto. }
    { rewrite skipn_length. lia. }
    rewrite E2. exists ax2, (map io_of J ++ ios). split; auto. constructor; auto.
    rewrite <- map_io_range. apply Permutation_map. rewrite (Permutation_rev J).
    apply full_is_permutation with ax1; auto. rewrite rev_length. auto.
Qed.

Lemma all_passes k rs : Forall (good_pair o) rs -> length rs = (k * Z.to_nat n)%nat ->
  ro_time_based o = true ->
  exists ax ios, fill_many o f (init_random_map o f) rs = Some (ax, ios) /\
    passes (rf_offset f) (ro_bs o) (Z.to_nat n) k ios.
Proof.
  intros HG HL HT. destruct k as [|k].
  { destruct rs; [|simpl in HL; lia]. eexists. exists []. split; [reflexivity|constructor]. }
  rewrite <- (firstn_skipn (Z.to_nat n) rs) in HG |- *. rewrite fill_many_app.
  apply Forall_app in HG. destruct HG as [G1 G2].
  destruct (fill_many_within (firstn (Z.to_nat n) rs) _ [] holds_new G1) as (ax1 & J & E & L & H1).
  { rewrite firstn_length. simpl. lia. }
  rewrite app_nil_r in H1. rewrite firstn_length in L.
  rewrite E. destruct (passes_from k ax1 (rev J) (skipn (Z.to_nat n) rs) H1) as (ax2 & ios & E2 & P); auto.
  { rewrite rev_length. lia. }
  { rewrite skipn_length. lia. }
  rewrite E2. exists ax2, (map io_of J ++ ios). split; auto. constructor; auto.
  rewrite <- map_io_range. apply Permutation_map. rewrite (Permutation_rev J).
  apply full_is_permutation with ax1; auto. rewrite rev_length. lia.
Qed.
End Run.
