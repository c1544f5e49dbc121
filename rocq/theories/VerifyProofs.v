(** Proofs about the verification loops: each works block by block. *)
From Coq Require Import ZArith List Bool Lia.
From Verif Require Import CBase Mem CrcModel CrcSpec CrcProofs CrcProps DigestModel DigestSpec DigestProofs DigestProps PatternModel PatternSpec PatternProofs PatternProps
  VerifyModel VerifySpec VerifyCsum.
Import ListNotations.
Open Scope Z_scope.
Notation le_bytes := DigestModel.le_bytes.

(** ** Memory *)
Lemma slice_mid {A} (x y z : list A) : slice (x ++ y ++ z) (length x) (length y) = Some y.
Proof.
  rewrite slice_some by (rewrite !app_length; lia). rewrite skipn_app, skipn_all, Nat.sub_diag. cbn [app skipn].
  rewrite firstn_app, firstn_all, Nat.sub_diag. cbn [firstn]. rewrite app_nil_r. reflexivity.
Qed.
Lemma blit_mid {A} (x y z d : list A) : length d = length y -> blit (x ++ y ++ z) (length x) d = Some (x ++ d ++ z).
Proof.
  intros L. unfold blit. rewrite !app_length. replace (length x + length d <=? length x + (length y + length z))%nat with true by (symmetry; apply Nat.leb_le; lia).
  rewrite firstn_app, firstn_all, Nat.sub_diag. cbn [firstn]. rewrite app_nil_r. f_equal. f_equal. f_equal.
  rewrite skipn_app, skipn_all2 by lia. replace (length x + length d - length x)%nat with (length y) by lia. rewrite skipn_app, skipn_all, Nat.sub_diag. reflexivity.
Qed.
Lemma rd_eq buf x y z p n : buf = x ++ y ++ z -> p = zlen x -> n = zlen y -> rd buf p n = Some y.
Proof. intros -> -> ->. unfold rd, zlen. rewrite !Nat2Z.id. apply slice_mid. Qed.
Lemma wr_eq buf x y z p d : buf = x ++ y ++ z -> p = zlen x -> length d = length y -> wr buf p d = Some (x ++ d ++ z).
Proof. intros -> -> L. unfold wr, zlen. rewrite Nat2Z.id. apply blit_mid. auto. Qed.

Lemma cut3 {A} (b : list A) q n : (q + n <= length b)%nat -> b = firstn q b ++ firstn n (skipn q b) ++ skipn (q + n) b.
Proof. intros H. rewrite <- (firstn_skipn q b) at 1. f_equal. rewrite <- (firstn_skipn n (skipn q b)) at 1. rewrite skipn_skipn'. reflexivity. Qed.

Lemma rd_in pre b post q n : 0 <= q -> 0 <= n -> q + n <= zlen b ->
  rd (pre ++ b ++ post) (zlen pre + q) n = Some (firstn (Z.to_nat n) (skipn (Z.to_nat q) b)).
Proof.
  intros Hq Hn H. unfold zlen in H. pose proof (cut3 b (Z.to_nat q) (Z.to_nat n) ltac:(lia)) as E.
  apply rd_eq with (x := pre ++ firstn (Z.to_nat q) b) (z := skipn (Z.to_nat q + Z.to_nat n) b ++ post).
  - rewrite E at 1. rewrite <- !app_assoc. reflexivity.
  - rewrite zlen_app. unfold zlen. rewrite firstn_length_le by lia. lia.
  - unfold zlen. rewrite firstn_length_le; [lia|]. rewrite skipn_length. lia.
Qed.
Lemma rd_in0 pre b post n : 0 <= n -> n <= zlen b -> rd (pre ++ b ++ post) (zlen pre) n = Some (firstn (Z.to_nat n) b).
Proof. intros Hn H. rewrite <- (Z.add_0_r (zlen pre)). rewrite rd_in by lia. reflexivity. Qed.
Lemma znth_in pre b post q : 0 <= q < zlen b -> znth (pre ++ b ++ post) (zlen pre + q) = Some (nth (Z.to_nat q) b 0).
Proof.
  intros H. pose proof (zlen_nonneg pre). rewrite (znth_nth _ _ 0) by (rewrite !zlen_app; pose proof (zlen_nonneg post); lia).
  f_equal. unfold zlen in *. rewrite app_nth2 by lia. rewrite app_nth1 by lia. f_equal. lia.
Qed.

(** ** Numbers *)
Lemma number_word b : forall n p, (p + n <= length b)%nat -> le_word (firstn n (skipn p b)) = number b p n.
Proof.
  induction n as [|n IH]; intros p H; [reflexivity|]. cbn [number].
  assert (E : skipn p b = nth p b 0 :: skipn (S p) b).
  { clear IH. revert p H. induction b as [|x b IH]; intros [|p] H; cbn in *; try lia; auto. apply IH. lia. }
  rewrite E. cbn [firstn le_word]. rewrite IH by lia. reflexivity.
Qed.
Lemma word_bytes n : forall v, le_word (le_bytes n v) = v mod 256 ^ Z.of_nat n.
Proof.
  induction n as [|n IH]; intros v. { cbn. rewrite Z.mod_1_r. reflexivity. }
  cbn [DigestModel.le_bytes le_word]. rewrite IH. rewrite Nat2Z.inj_succ, Z.pow_succ_r by lia.
  rewrite Z.rem_mul_r by (try lia; apply Z.pow_nonzero; lia). reflexivity.
Qed.
Lemma number_at x d y n v : d = le_bytes n v -> 0 <= v < 256 ^ Z.of_nat n -> number (x ++ d ++ y) (length x) n = v.
Proof.
  intros -> Hv. rewrite <- number_word by (rewrite !app_length, le_bytes_len; lia).
  rewrite skipn_app, skipn_all, Nat.sub_diag. cbn [skipn app].
  rewrite firstn_app, le_bytes_len, Nat.sub_diag. cbn [firstn]. rewrite app_nil_r, firstn_all2 by (rewrite le_bytes_len; lia).
  rewrite word_bytes. apply Z.mod_small. auto.
Qed.
Lemma fld_in pre b post q n : (q + n <= length b)%nat -> fld (pre ++ b ++ post) (zlen pre + Z.of_nat q) (Z.of_nat n) = Some (number b q n).
Proof.
  intros H. unfold fld. rewrite rd_in by (unfold zlen; lia). rewrite !Nat2Z.id. rewrite number_word by auto. reflexivity.
Qed.
Lemma number_range b : bytes b -> forall n p, 0 <= number b p n < 256 ^ Z.of_nat n.
Proof.
  intros Hb. induction n as [|n IH]; intros p. { cbn. lia. }
  cbn [number]. rewrite Nat2Z.inj_succ, Z.pow_succ_r by lia. specialize (IH (S p)).
  assert (0 <= nth p b 0 < 256).
  { destruct (Nat.lt_ge_cases p (length b)); [|rewrite nth_overflow by auto; lia]. unfold bytes in Hb. rewrite Forall_forall in Hb.
    specialize (Hb _ (nth_In b 0 H)). unfold byte in Hb. change (2 ^ 8) with 256 in Hb. auto. }
  nia.
Qed.

(** ** Sizes *)
Lemma extra_ok vt : 0 <= vt <= 19 -> vt <> 18 -> extra vt = Some (Z.of_nat (csum_bytes vt)).
Proof.
  intros H N. assert (C : vt = 0 \/ vt = 1 \/ vt = 2 \/ vt = 3 \/ vt = 4 \/ vt = 5 \/ vt = 6 \/ vt = 7 \/ vt = 8 \/ vt = 9 \/ vt = 10 \/ vt = 11 \/
    vt = 12 \/ vt = 13 \/ vt = 14 \/ vt = 15 \/ vt = 16 \/ vt = 17 \/ vt = 19) by lia.
  repeat (destruct C as [->|C]; [reflexivity|]). subst. reflexivity.
Qed.
Lemma hdr_size_ok vt : 0 <= vt <= 19 -> hdr_size_ vt = Some (Z.of_nat (header_bytes vt)).
Proof.
  intros H. unfold hdr_size_, header_bytes, VERIFY_PATTERN_NO_HDR, HDR. destruct (Z.eqb_spec vt 18); [reflexivity|].
  rewrite extra_ok by auto. f_equal. lia.
Qed.
Lemma header_bytes_max vt : (header_bytes vt <= 176)%nat.
Proof.
  unfold header_bytes. destruct (vt =? 18); [lia|]. unfold csum_bytes. generalize (Z.to_nat vt). intros n.
  do 20 (destruct n as [|n]; [cbn; lia|]). cbn. destruct n; lia.
Qed.

(** ** The header exchange *)
Lemma unswap_len vo hs b : (vo = 0%nat \/ hs = 0%nat \/ (hs <= vo /\ vo + hs <= length b)%nat) -> length (unswap vo hs b) = length b.
Proof.
  intros H. unfold unswap. destruct (Nat.eqb_spec vo 0), (Nat.eqb_spec hs 0); cbn [orb]; auto.
  rewrite !app_length, !firstn_length, !skipn_length. lia.
Qed.
Lemma unswap_bytes vo hs b : bytes b -> bytes (unswap vo hs b).
Proof.
  intros H. unfold unswap. destruct (_ || _); auto. rewrite !bytes_app.
  split; [apply bytes_firstn, bytes_skipn; auto|]. split; [apply bytes_firstn, bytes_skipn; auto|].
  split; [apply bytes_firstn; auto|apply bytes_skipn; auto].
Qed.
Lemma four {A} (b : list A) vo hs : (hs <= vo)%nat -> (vo + hs <= length b)%nat ->
  b = firstn hs b ++ firstn (vo - hs) (skipn hs b) ++ firstn hs (skipn vo b) ++ skipn (vo + hs) b.
Proof.
  intros H1 H2. rewrite <- (firstn_skipn hs b) at 1. f_equal. rewrite <- (firstn_skipn (vo - hs) (skipn hs b)) at 1. f_equal.
  rewrite skipn_skipn'. replace (hs + (vo - hs))%nat with vo by lia. rewrite <- (firstn_skipn hs (skipn vo b)) at 1. f_equal. apply skipn_skipn'.
Qed.
Lemma four_parts {A} (x m y r : list A) : let b := x ++ m ++ y ++ r in let hs := length x in let vo := (length x + length m)%nat in
  length y = hs -> firstn hs b = x /\ firstn (vo - hs) (skipn hs b) = m /\ firstn hs (skipn vo b) = y /\ skipn (vo + hs) b = r.
Proof.
  cbn zeta. intros L.
  assert (F : forall (u w : list A), firstn (length u) (u ++ w) = u) by (intros; rewrite firstn_app, firstn_all, Nat.sub_diag; cbn; apply app_nil_r).
  assert (K : forall (u w : list A), skipn (length u) (u ++ w) = w) by (intros; rewrite skipn_app, skipn_all, Nat.sub_diag; reflexivity).
  rewrite F, K. replace (length x + length m - length x)%nat with (length m) by lia. rewrite F.
  rewrite <- (skipn_skipn' (x ++ m ++ y ++ r) (length m) (length x)), K, K. split; [auto|]. split; [auto|].
  split. { rewrite <- L. rewrite F. reflexivity. }
  rewrite <- Nat.add_assoc. rewrite <- (skipn_skipn' (x ++ m ++ y ++ r) _ (length x)), K. rewrite <- (skipn_skipn' (m ++ y ++ r) _ (length m)), K, <- L, K. reflexivity.
Qed.
Lemma unswap_unswap vo hs b : (vo = 0%nat \/ hs = 0%nat \/ (hs <= vo /\ vo + hs <= length b)%nat) -> unswap vo hs (unswap vo hs b) = b.
Proof.
  intros H. unfold unswap. destruct (Nat.eqb_spec vo 0), (Nat.eqb_spec hs 0); cbn [orb]; auto. assert (H' : (hs <= vo /\ vo + hs <= length b)%nat) by lia.
  set (A := firstn hs b). set (M := firstn (vo - hs) (skipn hs b)). set (B := firstn hs (skipn vo b)). set (R := skipn (vo + hs) b).
  assert (LA : length A = hs) by (unfold A; rewrite firstn_length_le; lia).
  assert (LM : length M = (vo - hs)%nat) by (unfold M; rewrite firstn_length_le; [|rewrite skipn_length]; lia).
  assert (LB : length B = hs) by (unfold B; rewrite firstn_length_le; [|rewrite skipn_length]; lia).
  pose proof (four_parts B M A R) as P. cbn zeta in P. rewrite LB, LM, LA in P. replace (hs + (vo - hs))%nat with vo in P by lia.
  destruct (P eq_refl) as (E1 & E2 & E3 & E4). rewrite E1, E2, E3, E4. symmetry. apply four; lia.
Qed.
Lemma memswp_ok pre b post vo hs : (hs <= 200)%nat -> (vo <> 0)%nat -> (hs = 0%nat \/ (hs <= vo /\ vo + hs <= length b)%nat) ->
  memswp (pre ++ b ++ post) (zlen pre) (zlen pre + Z.of_nat vo) (Z.of_nat hs) = Some (pre ++ unswap vo hs b ++ post).
Proof.
  intros H200 Hv H. unfold memswp, unswap. destruct (Z.ltb_spec 200 (Z.of_nat hs)); [lia|].
  destruct (Nat.eqb_spec vo 0); [lia|]. cbn [orb]. destruct (Z.eqb_spec (Z.of_nat hs) 0); destruct (Nat.eqb_spec hs 0); try lia; auto.
  assert (H' : (hs <= vo /\ vo + hs <= length b)%nat) by lia.
  destruct (Z.ltb_spec (Z.abs (zlen pre - (zlen pre + Z.of_nat vo))) (Z.of_nat hs)); [lia|].
  set (A := firstn hs b). set (M := firstn (vo - hs) (skipn hs b)). set (B := firstn hs (skipn vo b)). set (R := skipn (vo + hs) b).
  assert (E : b = A ++ M ++ B ++ R) by (apply four; lia).
  assert (LA : length A = hs) by (unfold A; rewrite firstn_length_le; lia).
  assert (LM : length M = (vo - hs)%nat) by (unfold M; rewrite firstn_length_le; [|rewrite skipn_length]; lia).
  assert (LB : length B = hs) by (unfold B; rewrite firstn_length_le; [|rewrite skipn_length]; lia).
  clearbody A M B R. subst b.
  assert (Q : forall X Y : list Z, pre ++ (X ++ M ++ Y ++ R) ++ post = (pre ++ X ++ M) ++ Y ++ R ++ post) by (intros; rewrite <- !app_assoc; reflexivity).
  rewrite (rd_eq _ pre A (M ++ B ++ R ++ post)); [|rewrite <- !app_assoc; reflexivity|reflexivity|unfold zlen; lia].
  rewrite (rd_eq _ (pre ++ A ++ M) B (R ++ post)); [|apply Q|rewrite !zlen_app; unfold zlen; lia|unfold zlen; lia].
  rewrite (wr_eq _ pre A (M ++ B ++ R ++ post)); [|rewrite <- !app_assoc; reflexivity|reflexivity|lia].
  rewrite (wr_eq _ (pre ++ B ++ M) B (R ++ post)); [|rewrite <- !app_assoc; reflexivity|rewrite !zlen_app; unfold zlen; lia|lia].
  rewrite <- !app_assoc. reflexivity.
Qed.

(** ** The header check *)
Lemma andb_neg_false a b : (a && negb b = true) <-> (a = true /\ b = false).
Proof. destruct a, b; cbn; intuition discriminate. Qed.

Lemma verify_header_ok c io pre b post k : (48 <= length b)%nat -> bytes b -> verify c <> 18 -> 0 <= Z.of_nat k * verify_interval c < 2 ^ 32 ->
  exists r, verify_header c io (pre ++ b ++ post) (zlen pre) (Z.of_nat k) (zlen b) = Some r /\ (r = 0 \/ r = EILSEQ) /\
    (r = 0 <-> good_header c io k (length b) b).
Proof.
  intros H Hb V HI. unfold verify_header.
  assert (F : forall q n, (q + n <= length b)%nat -> fld (pre ++ b ++ post) (zlen pre + Z.of_nat q) (Z.of_nat n) = Some (number b q n)) by (intros; apply fld_in; auto).
  pose proof (F 0%nat 2%nat ltac:(lia)) as F0. rewrite Z.add_0_r in F0. change (Z.of_nat 2) with 2 in F0. rewrite F0.
  pose proof (F 2%nat 1%nat ltac:(lia)) as F1. change (Z.of_nat 2) with 2 in F1. change (Z.of_nat 1) with 1 in F1. rewrite F1.
  pose proof (F 4%nat 4%nat ltac:(lia)) as F2. change (Z.of_nat 4) with 4 in F2. rewrite F2.
  pose proof (F 8%nat 8%nat ltac:(lia)) as F3. change (Z.of_nat 8) with 8 in F3. rewrite F3.
  pose proof (F 16%nat 8%nat ltac:(lia)) as F4. change (Z.of_nat 8) with 8 in F4. change (Z.of_nat 16) with 16 in F4. rewrite F4.
  pose proof (F 32%nat 8%nat ltac:(lia)) as F5. change (Z.of_nat 8) with 8 in F5. change (Z.of_nat 32) with 32 in F5. rewrite F5.
  pose proof (F 44%nat 4%nat ltac:(lia)) as F6. change (Z.of_nat 4) with 4 in F6. change (Z.of_nat 44) with 44 in F6. rewrite F6.
  rewrite rd_in0 by (unfold zlen; lia). change (Z.to_nat 44) with 44%nat. clear F F0 F1 F2 F3 F4 F5 F6.
  destruct (C17_crc32c (firstn 44 b) (bytes_firstn 44 b Hb)) as (r0 & -> & C0).
  unfold good_header. unfold u32 at 1. rewrite (Z.mod_small (Z.of_nat k * verify_interval c)) by auto. fold (u64 (io_voff io + Z.of_nat k * verify_interval c)).
  destruct (Z.eqb_spec (number b 0 2) 0xacca) as [E0|E0]; cbn [negb]; [|exists EILSEQ; split; [auto|]; split; [auto|]; split; [discriminate|]; intros [|]; lia].
  destruct (Z.eqb_spec (number b 2 1) 0x81) as [E1|E1]; cbn [negb]; [|exists EILSEQ; split; [auto|]; split; [auto|]; split; [discriminate|]; intros [|]; lia].
  destruct (Z.eqb_spec (number b 4 4) (zlen b)) as [E2|E2]; cbn [negb]; [|exists EILSEQ; split; [auto|]; split; [auto|]; split; [discriminate|]; unfold zlen in E2; intros [|]; lia].
  destruct (header_seed c && negb (number b 8 8 =? io_seed io)) eqn:E3.
  { apply andb_neg_false in E3. rewrite Z.eqb_neq in E3. exists EILSEQ; split; [auto|]; split; [auto|]; split; [discriminate|]. intros [|(_ & _ & _ & _ & A & _)]; [lia|]. tauto. }
  destruct (Z.eqb_spec (number b 16 8) (u64 (io_voff io + Z.of_nat k * verify_interval c))) as [E4|E4]; cbn [negb];
    [|exists EILSEQ; split; [auto|]; split; [auto|]; split; [discriminate|]; intros [|(_ & _ & _ & A & _)]; [lia|contradiction]].
  destruct (w_write c && w_fixed_bs c && negb (w_time_based c) && w_sequence c && negb (number b 32 8 =? io_numberio io)) eqn:E5.
  { apply andb_neg_false in E5. rewrite Z.eqb_neq in E5. destruct E5 as [E5 N]. exists EILSEQ; split; [auto|]; split; [auto|]; split; [discriminate|]. intros [|(_ & _ & _ & _ & _ & A & _)]; [lia|].
    exfalso. apply N. destruct (w_write c), (w_fixed_bs c), (w_time_based c), (w_sequence c); try discriminate. auto. }
  assert (P3 : header_seed c = true -> number b 8 8 = io_seed io).
  { intros X. rewrite X in E3. cbn [andb] in E3. destruct (Z.eqb_spec (number b 8 8) (io_seed io)); auto. discriminate. }
  assert (P5 : w_write c = true -> w_fixed_bs c = true -> w_time_based c = false -> w_sequence c = true -> number b 32 8 = io_numberio io).
  { intros X1 X2 X3 X4. rewrite X1, X2, X3, X4 in E5. cbn [andb negb] in E5. destruct (Z.eqb_spec (number b 32 8) (io_numberio io)); auto. discriminate. }
  eexists. split; [reflexivity|]. destruct (Z.eqb_spec (reflect 32 r0) (number b 44 4)) as [E6|E6]; cbn [negb].
  - split; auto. split; auto. intros _. right. unfold zlen in E2. repeat (split; [solve [auto]|]). exists r0. auto.
  - split; auto. split; [discriminate|]. intros [|(_ & _ & _ & _ & _ & _ & r & A & B)]; [lia|]. destruct E6. rewrite A. f_equal.
    eapply C17_crc_unique; [| |exact C0|exact B]; lia.
Qed.

(** ** The payload check *)
Lemma nth_bytes b i : bytes b -> 0 <= nth i b 0 < 256.
Proof.
  intros Hb. destruct (Nat.lt_ge_cases i (length b)); [|rewrite nth_overflow by auto; lia]. unfold bytes in Hb. rewrite Forall_forall in Hb.
  specialize (Hb _ (nth_In b 0 H)). unfold byte in Hb. change (2 ^ 8) with 256 in Hb. auto.
Qed.

Lemma hdr_size_in c pre b post : bytes b -> (3 < length b)%nat -> verify c <> 18 -> nth 3 b 0 <= 19 ->
  hdr_size c (pre ++ b ++ post) (zlen pre) = Some (Z.of_nat (header_bytes (nth 3 b 0))).
Proof.
  intros Hb H V T. unfold hdr_size, VERIFY_PATTERN_NO_HDR. destruct (Z.eqb_spec (verify c) 18); [contradiction|].
  rewrite znth_in by (unfold zlen; lia). change (Z.to_nat 3) with 3%nat. apply hdr_size_ok. pose proof (nth_bytes b 3 Hb). lia.
Qed.

Lemma csum_bytes_max vt : (csum_bytes vt <= 128)%nat.
Proof. unfold csum_bytes. generalize (Z.to_nat vt). intros n. do 20 (destruct n as [|n]; [cbn; lia|]). cbn. destruct n; lia. Qed.

Lemma verify_csum_ok c stk pre b post k : has_csum (verify c) = true -> bytes b -> (header_bytes (verify c) < length b)%nat -> Z.of_nat (length b) < 2 ^ 29 ->
  number b 4 4 = zlen b -> known_type (length b) b -> zlen pre = Z.of_nat k * zlen b -> zlen pre < 2 ^ 32 -> (128 <= length stk)%nat ->
  exists r, verify_csum c (verify c) stk (pre ++ b ++ post) (zlen pre) (Z.of_nat k) = Some r /\
    (r = 0 <-> is_csum (verify c) (skipn (header_bytes (nth 3 b 0)) b) (firstn (csum_bytes (verify c)) (skipn 48 b))).
Proof.
  intros HV Hb HL HM HN (HT & HK) HP HP' HS. unfold verify_csum.
  assert (V : 2 <= verify c <= 16) by (unfold has_csum, VERIFY_MD5, VERIFY_SHA1 in HV; apply andb_prop in HV; lia).
  assert (HB : header_bytes (verify c) = (48 + csum_bytes (verify c))%nat) by (unfold header_bytes; destruct (Z.eqb_spec (verify c) 18); lia).
  pose proof (fld_in pre b post 4 4 ltac:(lia)) as F. change (Z.of_nat 4) with 4 in F. rewrite F, HN. clear F.
  rewrite hdr_size_in by (auto; lia). rewrite <- HP. unfold u32. rewrite (Z.mod_small (zlen pre)) by (pose proof (zlen_nonneg pre); lia).
  rewrite Z.mod_small by (unfold zlen; lia). rewrite rd_in by (unfold zlen; lia). rewrite Nat2Z.id.
  rewrite (firstn_all2 (skipn (header_bytes (nth 3 b 0)) b)) by (rewrite skipn_length; unfold zlen; lia).
  rewrite extra_ok by lia. rewrite Nat2Z.id. set (data := skipn (header_bytes (nth 3 b 0)) b).
  pose proof (csum_bytes_max (verify c)).
  destruct (csum_ok (verify c) (firstn (csum_bytes (verify c)) stk) data HV) as (d & -> & D1 & D2 & D3).
  { apply bytes_skipn; auto. }
  { unfold data, zlen. rewrite skipn_length. lia. }
  { rewrite firstn_length_le; lia. }
  unfold HDR. rewrite rd_in by (unfold zlen; lia). rewrite Nat2Z.id. change (Z.to_nat 48) with 48%nat.
  eexists. split; [reflexivity|]. destruct (list_eq_dec Z.eq_dec _ d) as [E|E].
  - split; auto. intros _. rewrite E. exact D1.
  - split; [discriminate|]. intros A. destruct E. eapply is_csum_unique; eauto.
Qed.

Lemma pattern_ok c fields io pre b post k : job_ok c fields (length b) -> io_ok io -> patn c <> [] -> zlen pre = Z.of_nat k * zlen b ->
  zlen (pre ++ b ++ post) < 2 ^ 32 ->
  exists r, PatternModel.verify_io_u_pattern (patn c) (fmts c) (pattern_interval c) (zlen b) (Z.of_nat (header_bytes (verify c))) (Z.of_nat k) (io_off io) (pre ++ b ++ post) = Some r /\
    (r = 0 <-> forall j, (header_bytes (verify c) <= j < length b)%nat ->
         nth j b 0 = block_byte (patn c) fields (Z.to_nat (pattern_interval c)) (io_off io) (length b * k + j)).
Proof.
  intros (V & HL & HM & _ & _ & _ & PL & FM & FO & PI) (IO & _) NE HP HT.
  assert (P1 : length pre = (length b * k)%nat) by (unfold zlen in HP; nia).
  destruct (C08_block_verify (patn c) fields (Z.to_nat (pattern_interval c)) (length b) (header_bytes (verify c)) k (io_off io) (pre ++ b ++ post)) as (rc & E & R).
  - destruct (patn c); [contradiction|cbn; lia].
  - auto.
  - auto.
  - lia.
  - auto.
  - auto.
  - lia.
  - rewrite !app_length. lia.
  - exists rc. rewrite Z2Nat.id in E by lia. rewrite FM. unfold zlen. split; [exact E|]. rewrite R. split; intros A.
    + intros j Hj. specialize (A (length b * k + j)%nat ltac:(lia)). rewrite app_nth2 in A by lia. rewrite app_nth1 in A by lia.
      replace (length b * k + j - length pre)%nat with j in A by lia. auto.
    + intros j Hj. specialize (A (j - length pre)%nat ltac:(lia)). rewrite app_nth2 by lia. rewrite app_nth1 by lia. rewrite A. f_equal. lia.
Qed.

Lemma payload_ok c fields io stk pre b post k : job_ok c fields (length b) -> io_ok io -> bytes b ->
  (verify c <> 18 -> number b 4 4 = zlen b) -> (has_csum (verify c) = true -> known_type (length b) b) ->
  zlen pre = Z.of_nat k * zlen b -> zlen (pre ++ b ++ post) < 2 ^ 32 -> (128 <= length stk)%nat ->
  exists r, verify_payload c io (verify c) stk (pre ++ b ++ post) (zlen pre) (Z.of_nat k) (zlen b) 0 = Some r /\
    (r = 0 <-> good_payload c fields io k (length b) b).
Proof.
  intros J I Hb HN HK HP HT HS. pose proof J as (V & HL & HM & _ & _ & NP & PL & FM & FO & PI). unfold verify_payload, good_payload.
  assert (PT : zlen pre < 2 ^ 32) by (rewrite !zlen_app in HT; pose proof (zlen_nonneg b); pose proof (zlen_nonneg post); lia).
  destruct (Z.eqb_spec (verify c) VERIFY_HDR_ONLY) as [E|E].
  { replace (has_csum (verify c)) with false by (rewrite E; reflexivity). rewrite hdr_size_ok by lia.
    destruct (patn c) as [|p ps] eqn:EP; [exists 0; split; [auto|]; split; [|auto]; intros _ X; contradiction|].
    rewrite <- EP. destruct (pattern_ok c fields io pre b post k J I) as (r & -> & R); auto; [rewrite EP; discriminate|].
    exists r. split; auto. rewrite R. split; auto. intros X; apply X. rewrite EP. discriminate. }
  destruct (has_csum (verify c)) eqn:EC.
  { apply verify_csum_ok; auto. apply HN. unfold has_csum, VERIFY_MD5, VERIFY_SHA1 in EC; apply andb_prop in EC; lia. }
  assert (V' : verify c = 17 \/ verify c = 18) by (unfold has_csum, VERIFY_MD5, VERIFY_SHA1, VERIFY_HDR_ONLY in *; apply andb_false_iff in EC; lia).
  replace ((verify c =? VERIFY_PATTERN) || (verify c =? VERIFY_PATTERN_NO_HDR)) with true by (destruct V' as [-> | ->]; reflexivity).
  assert (NE : patn c <> []) by (apply NP; lia). rewrite hdr_size_ok by lia.
  destruct (pattern_ok c fields io pre b post k J I NE HP HT) as (r & E2 & R). exists r. split; [destruct (patn c); [contradiction|exact E2]|].
  rewrite R. split; auto.
Qed.

  Lemma vblock_cons inc (b rest : list Z) i : length b = inc -> vblock inc (b ++ rest) (S i) = vblock inc rest i.
  Proof.
    intros L. unfold vblock. rewrite skipn_app, skipn_all2 by (rewrite L; lia). rewrite L. cbn [app]. f_equal. f_equal. lia.
  Qed.
  Lemma vblock_0 inc (b rest : list Z) : length b = inc -> vblock inc (b ++ rest) 0 = b.
  Proof. intros L. unfold vblock. cbn [Nat.mul skipn]. rewrite firstn_app, firstn_all2, L, Nat.sub_diag by lia. cbn [firstn]. apply app_nil_r. Qed.

(** ** The loop of the check *)
Section Loop.
  Variables (c : cfg) (fields : list nat) (io : iou) (stk : list Z) (inc : nat).
  Hypothesis J : job_ok c fields inc.
  Hypothesis I : io_ok io.
  Hypothesis HS : (128 <= length stk)%nat.

  Definition GH (rest : list Z) (k i : nat) : Prop := good_header c io (k + i) inc (seen c (vblock inc rest i)).
  Definition GP (rest : list Z) (k i : nat) : Prop := good_payload c fields io (k + i) inc (seen c (vblock inc rest i)).
  Definition KT (rest : list Z) (i : nat) : Prop := known_type inc (seen c (vblock inc rest i)).

  Lemma swap_step pre b post : length b = inc ->
    (if negb (verify_offset c =? 0) then memswp (pre ++ b ++ post) (zlen pre) (zlen pre + verify_offset c) (Z.of_nat (header_bytes (verify c))) else Some (pre ++ b ++ post))
    = Some (pre ++ seen c b ++ post).
  Proof.
    intros L. destruct J as (V & HL & HM & O0 & O & _). unfold seen. pose proof (header_bytes_max (verify c)).
    destruct (Z.eqb_spec (verify_offset c) 0) as [E|E]; cbn [negb].
    - rewrite E. unfold unswap. reflexivity.
    - rewrite <- (Z2Nat.id (verify_offset c)) at 1 by lia. apply memswp_ok; lia.
  Qed.

  Lemma seen_len b : length b = inc -> length (seen c b) = inc.
  Proof. clear HS. intros L. destruct J as (V & HL & HM & O0 & O & _). unfold seen. rewrite unswap_len; lia. Qed.

  Lemma verify_loop_ok : forall n fuel pre rest k ret, length rest = (n * inc)%nat -> (n < fuel)%nat -> zlen pre = Z.of_nat k * Z.of_nat inc ->
    zlen (pre ++ rest) < 2 ^ 32 -> bytes rest -> (forall i, (i < n)%nat -> 0 <= Z.of_nat (k + i) * verify_interval c < 2 ^ 32) ->
    (has_csum (verify c) = true -> forall i, (i < n)%nat -> GH rest k i -> KT rest i) ->
    exists r early, verify_loop fuel c io stk (pre ++ rest) (Z.of_nat inc) (Z.of_nat k) (zlen pre) ret = Some (r, early) /\
      (n = 0%nat -> r = ret /\ early = false) /\
      ((n <> 0)%nat -> (r = 0 <-> (verify_fatal c = true -> ret = 0) /\ (forall i, (i < n)%nat -> GH rest k i) /\
                          (forall i, (i < n)%nat -> verify_fatal c = true \/ i = (n - 1)%nat -> GP rest k i)) /\
        (early = true <-> (verify_fatal c = true -> ret = 0) /\ exists i, (i < n)%nat /\ ~ GH rest k i /\
            forall j, (j < i)%nat -> GH rest k j /\ (verify_fatal c = true -> GP rest k j))).
  Proof.
    induction n as [|n IH]; intros fuel pre rest k ret HL HF HP HT Hb HI HK.
    { assert (rest = []) by (destruct rest; auto; cbn in HL; lia). subst rest. exists ret, false. split; [|split; [auto|intros; lia]].
      destruct fuel; cbn [verify_loop]; rewrite zlen_app; cbn; rewrite Z.add_0_r, Z.leb_refl; reflexivity. }
    destruct fuel as [|fuel]; [lia|]. pose proof J as (V & HH & HM & O0 & O & _).
    assert (IP : (0 < inc)%nat) by lia.
    set (b := firstn inc rest). set (post := skipn inc rest).
    assert (Eb : rest = b ++ post) by (symmetry; apply firstn_skipn).
    assert (Lb : length b = inc) by (unfold b; rewrite firstn_length_le; nia).
    assert (Lp : length post = (n * inc)%nat) by (unfold post; rewrite skipn_length; nia).
    assert (Hbb : bytes b) by (apply bytes_firstn; auto). assert (Hbp : bytes post) by (apply bytes_skipn; auto).
    clearbody b post. subst rest. cbn [verify_loop].
    destruct (Z.leb_spec (zlen (pre ++ b ++ post)) (zlen pre)) as [X|_]; [rewrite !zlen_app in X; unfold zlen in X; lia|].
    assert (B0 : vblock inc (b ++ post) 0 = b) by (apply vblock_0; auto).
    assert (BS : forall i, vblock inc (b ++ post) (S i) = vblock inc post i) by (intros; apply vblock_cons; auto).
    assert (GH0 : GH (b ++ post) k 0 <-> good_header c io k inc (seen c b)) by (unfold GH; rewrite B0, Nat.add_0_r; reflexivity).
    assert (GP0 : GP (b ++ post) k 0 <-> good_payload c fields io k inc (seen c b)) by (unfold GP; rewrite B0, Nat.add_0_r; reflexivity).
    assert (GHS : forall i, GH (b ++ post) k (S i) <-> GH post (S k) i) by (intros; unfold GH; rewrite BS; replace (k + S i)%nat with (S k + i)%nat by lia; reflexivity).
    assert (GPS : forall i, GP (b ++ post) k (S i) <-> GP post (S k) i) by (intros; unfold GP; rewrite BS; replace (k + S i)%nat with (S k + i)%nat by lia; reflexivity).
    destruct (negb (ret =? 0) && verify_fatal c) eqn:EF.
    { apply andb_prop in EF. destruct EF as [EF1 EF2]. apply negb_true_iff, Z.eqb_neq in EF1. exists ret, false. split; [auto|]. split; [lia|].
      intros _. split; split; try contradiction; try discriminate; intros (A & _); destruct EF1; auto. }
    assert (RF : verify_fatal c = true -> ret = 0).
    { intros F. rewrite F, andb_true_r in EF. apply negb_false_iff, Z.eqb_eq in EF. auto. }
    rewrite hdr_size_ok by lia. rewrite swap_step by auto.
    set (s := seen c b) in *. assert (Ls : length s = inc) by (apply seen_len; auto).
    assert (Hbs : bytes s) by (apply unswap_bytes; auto).
    assert (Zs : Z.of_nat inc = zlen s) by (unfold zlen; lia).
    assert (HT' : zlen (pre ++ s ++ post) < 2 ^ 32) by (rewrite !zlen_app in *; unfold zlen in *; lia).
    assert (HD : exists rh, (if negb (verify c =? VERIFY_PATTERN_NO_HDR) then verify_header c io (pre ++ s ++ post) (zlen pre) (Z.of_nat k) (Z.of_nat inc) else Some ret) = Some rh /\
       ((verify c <> 18 /\ (rh = 0 <-> good_header c io k inc s)) \/ (verify c = 18 /\ rh = ret))).
    { unfold VERIFY_PATTERN_NO_HDR. destruct (Z.eqb_spec (verify c) 18) as [E|E]; cbn [negb]; [exists ret; auto|].
      destruct (verify_header_ok c io pre s post k) as (r & E1 & _ & R); auto.
      - assert (48 <= header_bytes (verify c))%nat by (unfold header_bytes; destruct (Z.eqb_spec (verify c) 18); lia). lia.
      - specialize (HI 0%nat ltac:(lia)). rewrite Nat.add_0_r in HI. auto.
      - exists r. rewrite <- Zs in E1. rewrite E1, <- Ls. auto. }
    destruct HD as (rh & -> & RH).
    destruct (negb (verify c =? VERIFY_PATTERN_NO_HDR) && negb (rh =? 0)) eqn:EE.
    { apply andb_prop in EE. destruct EE as [E1 E2]. unfold VERIFY_PATTERN_NO_HDR in E1. apply negb_true_iff, Z.eqb_neq in E1, E2.
      destruct RH as [(_ & RH)|(X & _)]; [|contradiction]. exists rh, true. split; auto. split; [lia|]. intros _.
      assert (NG : ~ GH (b ++ post) k 0) by (rewrite GH0; tauto). split.
      - split; [contradiction|]. intros (_ & A & _). destruct NG. apply A. lia.
      - split; auto. intros _. split; auto. exists 0%nat. split; [lia|]. split; auto. intros; lia. }
    assert (G : GH (b ++ post) k 0).
    { rewrite GH0. destruct RH as [(NV & RH)|(X & _)]; [|left; auto]. apply RH. unfold VERIFY_PATTERN_NO_HDR in EE. destruct (Z.eqb_spec (verify c) 18); [contradiction|].
      cbn [negb andb] in EE. apply negb_false_iff, Z.eqb_eq in EE. auto. }
    unfold VERIFY_NONE. destruct (Z.eqb_spec (verify c) 0); [lia|]. cbn [negb].
    assert (PR : exists r, verify_payload c io (verify c) stk (pre ++ s ++ post) (zlen pre) (Z.of_nat k) (Z.of_nat inc) rh = Some r /\ (r = 0 <-> good_payload c fields io k inc s)).
    { destruct (payload_ok c fields io stk pre s post k) as (r & E & R).
      - rewrite Ls; auto.
      - auto.
      - auto.
      - intros NV. apply GH0 in G. destruct G as [G|(_ & _ & G & _)]; [contradiction|]. rewrite G. auto.
      - intros HC. specialize (HK HC 0%nat ltac:(lia) G). unfold KT in HK. rewrite B0 in HK. rewrite Ls. exact HK.
      - lia.
      - auto.
      - auto.
      - exists r. rewrite Ls, <- Zs in *. split; auto. destruct RH as [(NV & RH)|(X & _)].
        + assert (rh = 0) by (apply RH, GH0, G). subst rh. exact E.
        + revert E. rewrite X. cbn. auto. }
    destruct PR as (r1 & -> & R1). rewrite <- GP0 in R1.
    assert (EU : u32 (Z.of_nat k + 1) = Z.of_nat (S k)).
    { unfold u32. rewrite Z.mod_small; [lia|]. rewrite !zlen_app in HT'. pose proof (zlen_nonneg post). rewrite HP in HT'. nia. }
    rewrite EU. replace (zlen pre + Z.of_nat inc) with (zlen (pre ++ s)) by (rewrite zlen_app; lia). rewrite app_assoc.
    destruct (IH fuel (pre ++ s) post (S k) r1) as (r & early & E & R0 & R).
    - auto.
    - lia.
    - rewrite zlen_app. lia.
    - rewrite <- app_assoc. auto.
    - auto.
    - intros i Hi. specialize (HI (S i) ltac:(lia)). replace (S k + i)%nat with (k + S i)%nat by lia. auto.
    - intros HC i Hi X. apply GHS in X. specialize (HK HC (S i) ltac:(lia) X). unfold KT in *. rewrite BS in HK. auto.
    - exists r, early. split; auto. split; [lia|]. intros _. destruct (Nat.eq_dec n 0) as [->|Nn].
      + destruct (R0 eq_refl) as [-> ->]. split.
        * rewrite R1. split; [|intros (_ & _ & A); apply A; [lia|right; lia]]. intros A. split; auto. split.
          -- intros i Hi. replace i with 0%nat by lia. auto.
          -- intros i Hi _. replace i with 0%nat by lia. auto.
        * split; [discriminate|]. intros (_ & i & Hi & N & _). destruct N. replace i with 0%nat by lia. auto.
      + destruct (R Nn) as [RA RB]. split.
        * rewrite RA, R1. split.
          -- intros (A & A1 & A2). split; auto. split.
             ++ intros [|i] Hi; auto. apply GHS, A1. lia.
             ++ intros [|i] Hi [F|F]; try lia; auto; apply GPS, A2; try lia; auto; right; lia.
          -- intros (A & A1 & A2). split; [|split].
             ++ intros F. apply A2; [lia|auto].
             ++ intros i Hi. apply GHS, A1. lia.
             ++ intros i Hi F. apply GPS, A2; [lia|]. destruct F; auto. right. lia.
        * rewrite RB, R1. split.
          -- intros (A & i & Hi & N & A2). split; auto. exists (S i). split; [lia|]. split; [rewrite GHS; auto|].
             intros [|j] Hj; [split; auto|]. rewrite GHS, GPS. apply A2. lia.
          -- intros (A & [|i] & Hi & N & A2); [contradiction|]. split; [intros F; apply A2; [lia|auto]|].
             exists i. split; [lia|]. split; [rewrite <- GHS; auto|]. intros j Hj. rewrite <- GHS, <- GPS. apply A2. lia.
  Qed.
End Loop.

(** ** Writing a block *)
Lemma number_app_l a x : forall n p, (p + n <= length a)%nat -> number (a ++ x) p n = number a p n.
Proof. induction n as [|n IH]; intros p H; [reflexivity|]. cbn [number]. rewrite app_nth1 by lia. rewrite IH by lia. reflexivity. Qed.

Definition head42 (c : cfg) (io : iou) (k len : Z) : list Z :=
  le_bytes 2 0xacca ++ [0x81; u8 (verify c)] ++ le_bytes 4 len ++ le_bytes 8 (io_seed io) ++
  le_bytes 8 (io_voff io + u32 (k * verify_interval c)) ++ le_bytes 4 (io_sec io) ++ le_bytes 4 (io_nsec io) ++
  le_bytes 8 (io_numberio io) ++ le_bytes 2 (thread_number c).

Lemma head42_len c io k len : length (head42 c io k len) = 42%nat.
Proof. reflexivity. Qed.

Lemma head42_bytes c io k len : bytes (head42 c io k len).
Proof.
  unfold head42. rewrite !bytes_app. repeat split; try apply le_bytes_bytes. constructor; [unfold byte; lia|]. constructor; [|constructor].
  unfold byte, u8. apply Z.mod_pos_bound. lia.
Qed.

Lemma head42_fields c io k len x : io_ok io -> 0 <= len < 2 ^ 32 -> 0 <= k * verify_interval c < 2 ^ 32 -> 0 <= verify c < 256 ->
  let b := head42 c io k len ++ x in
  number b 0 2 = 0xacca /\ number b 2 1 = 0x81 /\ nth 3 b 0 = verify c /\ number b 4 4 = len /\
  number b 8 8 = io_seed io /\ number b 16 8 = (io_voff io + k * verify_interval c) mod 2 ^ 64 /\ number b 32 8 = io_numberio io.
Proof.
  intros (_ & H1 & H2 & H3) HL HK HV b.
  assert (W : forall p n, (p + n <= 42)%nat -> number b p n = le_word (firstn n (skipn p (head42 c io k len)))).
  { intros p n H. unfold b. rewrite number_app_l by (rewrite head42_len; auto). symmetry. apply number_word. rewrite head42_len. auto. }
  split. { rewrite W by lia. reflexivity. }
  split. { rewrite W by lia. reflexivity. }
  split. { unfold b. cbn. unfold u8. apply Z.mod_small. lia. }
  split. { rewrite W by lia. transitivity (le_word (le_bytes 4 len)); [reflexivity|]. rewrite word_bytes. apply Z.mod_small. auto. }
  split. { rewrite W by lia. transitivity (le_word (le_bytes 8 (io_seed io))); [reflexivity|]. rewrite word_bytes. apply Z.mod_small. auto. }
  split. { rewrite W by lia. transitivity (le_word (le_bytes 8 (io_voff io + u32 (k * verify_interval c)))); [reflexivity|]. rewrite word_bytes. unfold u32.
    rewrite (Z.mod_small (k * _)) by auto. reflexivity. }
  rewrite W by lia. transitivity (le_word (le_bytes 8 (io_numberio io))); [reflexivity|]. rewrite word_bytes. apply Z.mod_small. auto.
Qed.

Lemma bytes_in pre x post : bytes (pre ++ x ++ post) -> bytes x.
Proof. rewrite !bytes_app. tauto. Qed.

Section Pop.
  Variables (c : cfg) (fields : list nat) (io : iou) (inc : nat).
  Hypothesis J : job_ok c fields inc.
  Hypothesis I : io_ok io.
  Let hs := header_bytes (verify c).

  (** What a written block looks like, header in front. *)
  Definition written (k : nat) (b s : list Z) : Prop :=
    good_header c io k inc s /\ skipn hs s = skipn hs b /\ (verify c <> 18 -> nth 3 s 0 = verify c) /\
    (has_csum (verify c) = true -> is_csum (verify c) (skipn hs b) (firstn (csum_bytes (verify c)) (skipn 48 s))).

  Lemma unsw_swap s : length s = inc -> seen c (seen c s) = s.
  Proof. intros L. destruct J as (V & HL & HM & O0 & O & _). unfold seen. apply unswap_unswap. lia. Qed.

  Lemma populate_ok pre b post k : length b = inc -> bytes b -> 0 <= Z.of_nat k * verify_interval c < 2 ^ 32 ->
    exists out, populate_hdr c io (pre ++ b ++ post) (zlen pre) (Z.of_nat k) (Z.of_nat inc) = Some (pre ++ out ++ post, 0) /\
      length out = inc /\ bytes out /\ written k b (seen c out).
  Proof.
    intros Lb Hb HI. pose proof J as (V & HL & HM & O0 & O & _). fold hs in HL, O. unfold populate_hdr, fill_hdr, VERIFY_PATTERN_NO_HDR.
    destruct (Z.eqb_spec (verify c) 18) as [E|E]; cbn [negb].
    { exists b. unfold hdr_size, VERIFY_PATTERN_NO_HDR. rewrite E. cbn [Z.eqb Pos.eqb].
      destruct (Z.leb_spec (Z.of_nat inc) 0); [lia|]. cbn. rewrite andb_false_r. cbn. split; [reflexivity|]. split; [auto|]. split; [auto|].
      assert (HS0 : hs = 0%nat) by (unfold hs; rewrite E; reflexivity).
      assert (ES : seen c b = b) by (unfold seen; fold hs; rewrite HS0; unfold unswap; rewrite orb_true_r; auto). rewrite ES.
      split; [left; auto|]. split; auto. split; [contradiction|]. rewrite E. discriminate. }
    assert (EH : hs = (48 + csum_bytes (verify c))%nat) by (unfold hs, header_bytes; destruct (Z.eqb_spec (verify c) 18); lia).
    (* cut the old block *)
    set (o42 := firstn 42 b). set (pad := firstn 2 (skipn 42 b)). set (o4 := firstn 4 (skipn 44 b)). set (od := firstn (csum_bytes (verify c)) (skipn 48 b)). set (data := skipn hs b).
    assert (EB : b = o42 ++ pad ++ o4 ++ od ++ data).
    { unfold o42, pad, o4, od, data. rewrite <- (firstn_skipn 42 b) at 1. f_equal. rewrite <- (firstn_skipn 2 (skipn 42 b)) at 1. f_equal. rewrite skipn_skipn'. cbn [Nat.add].
      rewrite <- (firstn_skipn 4 (skipn 44 b)) at 1. f_equal. rewrite skipn_skipn'. cbn [Nat.add]. rewrite <- (firstn_skipn (csum_bytes (verify c)) (skipn 48 b)) at 1. f_equal.
      rewrite skipn_skipn', EH. reflexivity. }
    assert (L1 : length o42 = 42%nat) by (unfold o42; rewrite firstn_length_le; lia).
    assert (L2 : length pad = 2%nat) by (unfold pad; rewrite firstn_length_le; [|rewrite skipn_length]; lia).
    assert (L3 : length o4 = 4%nat) by (unfold o4; rewrite firstn_length_le; [|rewrite skipn_length]; lia).
    assert (L4 : length od = csum_bytes (verify c)) by (unfold od; rewrite firstn_length_le; [|rewrite skipn_length]; lia).
    assert (L5 : length data = (inc - hs)%nat) by (unfold data; rewrite skipn_length; lia).
    assert (Hp : bytes pad) by (apply bytes_firstn, bytes_skipn; auto). assert (Hd : bytes data) by (apply bytes_skipn; auto).
    unfold written. fold data. clearbody o42 pad o4 od data. subst b.
    unfold fill_hdr_. fold (head42 c io (Z.of_nat k) (Z.of_nat inc)).
    rewrite (rd_eq _ (pre ++ o42) pad ((o4 ++ od ++ data) ++ post)); [|rewrite <- !app_assoc; reflexivity|rewrite zlen_app; unfold zlen; lia|unfold zlen; lia].
    cbn zeta.
    replace (le_bytes 2 44234 ++ [129; u8 (verify c)] ++ le_bytes 4 (Z.of_nat inc) ++ le_bytes 8 (io_seed io) ++ le_bytes 8 (io_voff io + u32 (Z.of_nat k * verify_interval c)) ++
       le_bytes 4 (io_sec io) ++ le_bytes 4 (io_nsec io) ++ le_bytes 8 (io_numberio io) ++ le_bytes 2 (thread_number c) ++ pad)
      with (head42 c io (Z.of_nat k) (Z.of_nat inc) ++ pad) by (unfold head42; rewrite <- !app_assoc; reflexivity).
    set (h42 := head42 c io (Z.of_nat k) (Z.of_nat inc)).
    assert (Hh : bytes (h42 ++ pad)) by (rewrite bytes_app; split; auto; apply head42_bytes).
    destruct (C17_crc32c (h42 ++ pad) Hh) as (cr & EC & IC). rewrite EC.
    assert (Lh : length h42 = 42%nat) by reflexivity.
    pose proof (head42_fields c io (Z.of_nat k) (Z.of_nat inc) (pad ++ le_bytes 4 (reflect 32 cr) ++ od ++ data) I ltac:(lia) HI ltac:(lia)) as FL.
    fold h42 in FL. cbn zeta in FL.
    rewrite (wr_eq _ pre (o42 ++ pad ++ o4) ((od ++ data) ++ post)); [|rewrite <- !app_assoc; reflexivity|reflexivity|rewrite !app_length, le_bytes_len; lia].
    set (c4 := le_bytes 4 (reflect 32 cr)) in *.
    assert (L6 : length c4 = 4%nat) by (unfold c4; apply le_bytes_len).
    replace (pre ++ ((h42 ++ pad) ++ c4) ++ (od ++ data) ++ post) with (pre ++ (h42 ++ pad ++ c4 ++ od ++ data) ++ post) by (rewrite <- !app_assoc; reflexivity).
    assert (Lb1 : length (h42 ++ pad ++ c4 ++ od ++ data) = inc) by (rewrite !app_length; lia).
    assert (E3 : nth 3 (h42 ++ pad ++ c4 ++ od ++ data) 0 = verify c) by tauto.
    unfold hdr_size at 1. unfold VERIFY_PATTERN_NO_HDR. destruct (Z.eqb_spec (verify c) 18); [contradiction|].
    rewrite znth_in by (unfold zlen; lia). change (Z.to_nat 3) with 3%nat. rewrite E3. rewrite hdr_size_ok by lia. fold hs.
    destruct (Z.leb_spec (Z.of_nat inc) (Z.of_nat hs)); [lia|].
    (* the checksum *)
    assert (HC : exists nd, length nd = csum_bytes (verify c) /\ bytes nd /\ (has_csum (verify c) = true -> is_csum (verify c) data nd) /\
       (if has_csum (verify c)
        then do data0 <- rd (pre ++ (h42 ++ pad ++ c4 ++ od ++ data) ++ post) (zlen pre + Z.of_nat hs) (Z.of_nat inc - Z.of_nat hs);
             do e <- extra (verify c);
             do old <- rd (pre ++ (h42 ++ pad ++ c4 ++ od ++ data) ++ post) (zlen pre + HDR) e;
             do d <- csum (verify c) old data0;
             wr (pre ++ (h42 ++ pad ++ c4 ++ od ++ data) ++ post) (zlen pre + HDR) d
        else if (verify c =? VERIFY_HDR_ONLY) || (verify c =? VERIFY_PATTERN) || false then Some (pre ++ (h42 ++ pad ++ c4 ++ od ++ data) ++ post) else None)
       = Some (pre ++ (h42 ++ pad ++ c4 ++ nd ++ data) ++ post)).
    { destruct (has_csum (verify c)) eqn:EHC.
      - rewrite (rd_eq _ (pre ++ h42 ++ pad ++ c4 ++ od) data post); [|rewrite <- !app_assoc; reflexivity|rewrite !zlen_app; unfold zlen; lia|unfold zlen; lia].
        rewrite extra_ok by lia. unfold HDR.
        rewrite (rd_eq _ (pre ++ h42 ++ pad ++ c4) od (data ++ post)); [|rewrite <- !app_assoc; reflexivity|rewrite !zlen_app; unfold zlen; lia|unfold zlen; lia].
        destruct (csum_ok (verify c) od data EHC Hd) as (nd & -> & D1 & D2 & D3); [unfold zlen; lia|auto|]. exists nd. split; auto. split; auto. split; auto.
        rewrite (wr_eq _ (pre ++ h42 ++ pad ++ c4) od (data ++ post)); [|rewrite <- !app_assoc; reflexivity|rewrite !zlen_app; unfold zlen; lia|lia].
        rewrite <- !app_assoc. reflexivity.
      - assert (V' : verify c = 1 \/ verify c = 17) by (unfold has_csum, VERIFY_MD5, VERIFY_SHA1 in EHC; apply andb_false_iff in EHC; lia).
        assert (CB : csum_bytes (verify c) = 0%nat) by (destruct V' as [-> | ->]; reflexivity).
        exists od. split; auto. split; [rewrite CB in L4; destruct od; [constructor|discriminate]|]. split; [discriminate|].
        destruct V' as [-> | ->]; reflexivity. }
    destruct HC as (nd & Ln & Hn & IN & ->).
    set (s := h42 ++ pad ++ c4 ++ nd ++ data).
    assert (Ls : length s = inc) by (unfold s; rewrite !app_length; lia).
    assert (Hs : bytes s). { unfold s. rewrite !bytes_app. rewrite bytes_app in Hh. split; [tauto|]. split; [tauto|]. split; [apply le_bytes_bytes|]. auto. }
    assert (W : good_header c io k inc s /\ skipn hs s = data /\ (verify c <> 18 -> nth 3 s 0 = verify c) /\
       (has_csum (verify c) = true -> is_csum (verify c) data (firstn (csum_bytes (verify c)) (skipn 48 s)))).
    { pose proof (head42_fields c io (Z.of_nat k) (Z.of_nat inc) (pad ++ c4 ++ nd ++ data) I ltac:(lia) HI ltac:(lia)) as (F1 & F2 & F3 & F4 & F5 & F6 & F7).
      change (head42 c io (Z.of_nat k) (Z.of_nat inc) ++ pad ++ c4 ++ nd ++ data) with s in *.
      assert (LH : length (h42 ++ pad) = 44%nat) by (rewrite app_length; lia).
      assert (ES : s = (h42 ++ pad) ++ c4 ++ nd ++ data) by (unfold s; rewrite <- !app_assoc; reflexivity).
      assert (K48 : skipn 48 s = nd ++ data).
      { unfold s. rewrite !app_assoc. rewrite <- (app_assoc _ nd data). replace 48%nat with (length ((h42 ++ pad) ++ c4)) by (rewrite app_length; lia).
        rewrite skipn_app, skipn_all, Nat.sub_diag. reflexivity. }
      split; [|split; [|split]].
      - right. split; [exact F1|]. split; [exact F2|]. split; [exact F4|]. split; [exact F6|]. split; [intros _; exact F5|]. split; [intros _ _ _ _; exact F7|].
        exists cr. split.
        + rewrite ES. rewrite <- LH. apply number_at; [reflexivity|]. destruct IC as [IC _]. change (256 ^ Z.of_nat 4) with (2 ^ Z.of_nat 32). apply reflect_range.
        + replace (firstn 44 s) with (h42 ++ pad); auto. rewrite ES, <- LH. rewrite firstn_app, firstn_all, Nat.sub_diag. cbn [firstn]. rewrite app_nil_r. auto.
      - rewrite EH. rewrite <- skipn_skipn'. rewrite K48, <- Ln. rewrite skipn_app, skipn_all, Nat.sub_diag. reflexivity.
      - auto.
      - intros X. rewrite K48, <- Ln. rewrite firstn_app, firstn_all, Nat.sub_diag. cbn [firstn]. rewrite app_nil_r. auto. }
    exists (seen c s).
    split; [|split; [|split]].
    - destruct (Z.eqb_spec (verify_offset c) 0) as [E0|E0]; cbn [negb andb].
      + unfold seen. rewrite E0. reflexivity.
      + destruct (Z.eqb_spec (Z.of_nat hs) 0); [lia|]. cbn [negb]. unfold seen. fold hs. rewrite <- (Z2Nat.id (verify_offset c)) at 1 by lia.
        rewrite memswp_ok; [reflexivity|pose proof (header_bytes_max (verify c)); unfold hs; lia|lia|lia].
    - unfold seen. fold hs. rewrite unswap_len; lia.
    - apply unswap_bytes. auto.
    - rewrite unsw_swap by auto. exact W.
  Qed.
End Pop.

(** ** The loop that writes *)
Section PopLoop.
  Variables (c : cfg) (fields : list nat) (io : iou) (inc : nat).
  Hypothesis J : job_ok c fields inc.
  Hypothesis I : io_ok io.

  Lemma hdr_loop_ok : forall n fuel pre rest k, length rest = (n * inc)%nat -> (n < fuel)%nat -> zlen pre = Z.of_nat k * Z.of_nat inc ->
    zlen (pre ++ rest) < 2 ^ 32 -> bytes rest -> (forall i, (i < n)%nat -> 0 <= Z.of_nat (k + i) * verify_interval c < 2 ^ 32) ->
    exists out, hdr_loop fuel c io (pre ++ rest) (Z.of_nat inc) (Z.of_nat k) (zlen pre) 0 = Some (pre ++ out, 0) /\
      length out = length rest /\ bytes out /\ forall i, (i < n)%nat -> written c io inc (k + i) (vblock inc rest i) (seen c (vblock inc out i)).
  Proof.
    induction n as [|n IH]; intros fuel pre rest k HL HF HP HT Hb HI.
    { assert (rest = []) by (destruct rest; auto; cbn in HL; lia). subst rest. exists []. split; [|split; [auto|split; [constructor|intros; lia]]].
      destruct fuel; cbn [hdr_loop]; rewrite zlen_app; cbn; rewrite Z.add_0_r, Z.leb_refl; reflexivity. }
    destruct fuel as [|fuel]; [lia|]. pose proof J as (V & HH & HM & O0 & O & _).
    assert (IP : (0 < inc)%nat) by lia.
    set (b := firstn inc rest). set (post := skipn inc rest).
    assert (Eb : rest = b ++ post) by (symmetry; apply firstn_skipn).
    assert (Lb : length b = inc) by (unfold b; rewrite firstn_length_le; nia).
    assert (Lp : length post = (n * inc)%nat) by (unfold post; rewrite skipn_length; nia).
    assert (Hbb : bytes b) by (apply bytes_firstn; auto). assert (Hbp : bytes post) by (apply bytes_skipn; auto).
    clearbody b post. subst rest. cbn [hdr_loop].
    destruct (Z.leb_spec (zlen (pre ++ b ++ post)) (zlen pre)) as [X|_]; [rewrite !zlen_app in X; unfold zlen in X; lia|].
    destruct (populate_ok c fields io inc J I pre b post k Lb Hbb) as (o & -> & Lo & Ho & W).
    { specialize (HI 0%nat ltac:(lia)). rewrite Nat.add_0_r in HI. auto. }
    cbn [fst snd Z.eqb]. rewrite !zlen_app in HT.
    assert (EU : u32 (Z.of_nat k + 1) = Z.of_nat (S k)).
    { unfold u32. rewrite Z.mod_small; [lia|]. pose proof (zlen_nonneg post). unfold zlen in HT at 2. rewrite HP in HT. nia. }
    rewrite EU. replace (zlen pre + Z.of_nat inc) with (zlen (pre ++ o)) by (rewrite zlen_app; unfold zlen; lia). rewrite app_assoc.
    destruct (IH fuel (pre ++ o) post (S k)) as (out & -> & L & B & R).
    - auto.
    - lia.
    - rewrite zlen_app. unfold zlen in *. lia.
    - rewrite !zlen_app. unfold zlen in *. lia.
    - auto.
    - intros i Hi. specialize (HI (S i) ltac:(lia)). replace (S k + i)%nat with (k + S i)%nat by lia. auto.
    - exists (o ++ out). rewrite <- app_assoc. split; [reflexivity|]. split; [rewrite !app_length; lia|]. split; [apply bytes_app; auto|].
      intros [|i] Hi.
      + rewrite !vblock_0, Nat.add_0_r by auto. exact W.
      + rewrite !vblock_cons by auto. replace (k + S i)%nat with (S k + i)%nat by lia. apply R. lia.
  Qed.
End PopLoop.

Lemma vblock_nth inc buf k j d : (k * inc + inc <= length buf)%nat -> (j < inc)%nat -> nth j (vblock inc buf k) d = nth (inc * k + j) buf d.
Proof. intros H1 H2. unfold vblock. rewrite nth_firstn by auto. rewrite nth_skipn. f_equal. lia. Qed.
Lemma vblock_len inc buf k : (k * inc + inc <= length buf)%nat -> length (vblock inc buf k) = inc.
Proof. intros H. unfold vblock. rewrite firstn_length_le; auto. rewrite skipn_length. lia. Qed.

Lemma inc_cases c (buf : list Z) : 0 <= verify_interval c -> zlen buf < 2 ^ 32 ->
  0 <= get_hdr_inc c (zlen buf) /\ (get_hdr_inc c (zlen buf) = verify_interval c \/ get_hdr_inc c (zlen buf) = zlen buf).
Proof.
  intros H0 H. unfold get_hdr_inc. pose proof (zlen_nonneg buf). destruct (_ && _); [auto|]. unfold u32. rewrite Z.mod_small by lia. auto.
Qed.

(** The products of the block number and the interval do not wrap. *)
Lemma no_wrap c (buf : list Z) inc n : 0 <= verify_interval c -> zlen buf < 2 ^ 32 -> Z.of_nat inc = get_hdr_inc c (zlen buf) -> (0 < inc)%nat -> length buf = (n * inc)%nat ->
  forall i, (i < n)%nat -> 0 <= Z.of_nat i * verify_interval c < 2 ^ 32.
Proof.
  intros H0 HB EI IP HL i Hi. destruct (inc_cases c buf H0 HB) as [_ [E|E]].
  - rewrite <- E, <- EI. unfold zlen in HB. nia.
  - assert (n = 1%nat) by (unfold zlen in *; nia). assert (i = 0%nat) by lia. subst. lia.
Qed.

Section Top.
  Variables (c : cfg) (fields : list nat) (inc n : nat).
  Hypothesis J : job_ok c fields inc.
  Hypothesis HV : 0 <= verify_interval c.

  Lemma verify_top io stk buf : io_ok io -> (128 <= length stk)%nat -> bytes buf -> zlen buf < 2 ^ 32 -> Z.of_nat inc = get_hdr_inc c (zlen buf) -> length buf = (n * inc)%nat ->
    (has_csum (verify c) = true -> forall i, (i < n)%nat -> good_header c io i inc (seen c (vblock inc buf i)) -> known_type inc (seen c (vblock inc buf i))) ->
    exists ret term, verify_io_u c io true false false false false stk buf = Some (ret, term) /\
      (ret = 0 <-> (forall i, (i < n)%nat -> good_header c io i inc (seen c (vblock inc buf i))) /\
                   (forall i, (i < n)%nat -> verify_fatal c = true \/ i = (n - 1)%nat -> good_payload c fields io i inc (seen c (vblock inc buf i)))) /\
      (term = true <-> verify_fatal c = true /\ ret <> 0 /\
         ~ exists i, (i < n)%nat /\ ~ good_header c io i inc (seen c (vblock inc buf i)) /\
             forall j, (j < i)%nat -> good_header c io j inc (seen c (vblock inc buf j)) /\ good_payload c fields io j inc (seen c (vblock inc buf j))).
  Proof.
    intros I HS Hb HB EI HL HK. pose proof J as (V & HH & _).
    unfold verify_io_u, VERIFY_NULL. destruct (Z.eqb_spec (verify c) 19); [lia|]. cbn [orb negb].
    destruct (verify_loop_ok c fields io stk inc J I HS n (S (length buf)) [] buf 0 0) as (r & early & E & R0 & R).
    - auto.
    - nia.
    - reflexivity.
    - auto.
    - auto.
    - apply (no_wrap c buf inc n HV HB EI); auto. lia.
    - auto.
    - cbn [app Z.of_nat] in E. change (zlen (@nil Z)) with 0 in E. rewrite <- EI, E.
      exists r, (if early then false else negb (r =? 0) && verify_fatal c). split; [destruct early; reflexivity|].
      destruct (Nat.eq_dec n 0) as [->|Nn].
      { destruct (R0 eq_refl) as [-> ->]. cbn. split; [split; auto; intros _; split; intros; lia|]. split; [discriminate|]. intros (_ & X & _). contradiction. }
      destruct (R Nn) as [RA RB].
      assert (RA' : r = 0 <-> (forall i, (i < n)%nat -> good_header c io i inc (seen c (vblock inc buf i))) /\
                   (forall i, (i < n)%nat -> verify_fatal c = true \/ i = (n - 1)%nat -> good_payload c fields io i inc (seen c (vblock inc buf i)))).
      { rewrite RA. unfold GH, GP. cbn [Nat.add]. tauto. }
      destruct early; cbn [fst snd].
      + split; [exact RA'|]. split; [discriminate|]. intros (F & _ & N). destruct N. destruct (proj1 RB eq_refl) as (_ & i & Hi & NG & A).
        exists i. split; auto. split; [exact NG|]. intros j Hj. destruct (A j Hj) as [A1 A2]. split; [exact A1|]. apply A2. auto.
      + split; [exact RA'|]. destruct (Z.eqb_spec r 0) as [Er|Er]; cbn [negb andb].
        * split; [discriminate|]. intros (_ & X & _). contradiction.
        * split; [|tauto]. intros F. split; auto. split; auto. intros (i & Hi & NG & A). assert (false = true); [|discriminate]. apply RB. split; auto.
          exists i. split; auto. split; [exact NG|]. intros j Hj. destruct (A j Hj). split; auto.
  Qed.

  Lemma populate_top io buf rnd seed : io_ok io -> 0 <= seed < 2 ^ 64 -> bytes buf -> bytes rnd -> length rnd = length buf -> zlen buf < 2 ^ 32 ->
    Forall byte (patn c) -> Z.of_nat inc = get_hdr_inc c (zlen buf) -> length buf = (n * inc)%nat ->
    (patn c <> [] -> fields = [] -> zlen buf <= io_filled io -> verify_offset c = 0 ->
       forall j, (j < length buf)%nat -> (header_bytes (verify c) <= j mod inc)%nat -> nth j buf 0 = block_byte (patn c) [] (Z.to_nat (pattern_interval c)) (io_off io) j) ->
    exists buf' io', populate_verify_io_u c io buf rnd seed = Some (buf', io', 0) /\ length buf' = length buf /\ bytes buf' /\
      io_off io' = io_off io /\ io_voff io' = io_voff io /\ io_numberio io' = io_numberio io /\ io_ok io' /\ (patn c = [] -> io_seed io' = seed) /\ (patn c <> [] -> io_seed io' = io_seed io) /\
      (patn c <> [] -> zlen buf <= io_filled io') /\
      forall i, (i < n)%nat -> good_header c io' i inc (seen c (vblock inc buf' i)) /\ good_payload c fields io' i inc (seen c (vblock inc buf' i)) /\
        (verify c <> 18 -> nth 3 (seen c (vblock inc buf' i)) 0 = verify c) /\
        forall j, (header_bytes (verify c) <= j < inc)%nat -> nth j (seen c (vblock inc buf' i)) 0 =
          (if patn c then nth (inc * i + j) rnd 0 else block_byte (patn c) fields (Z.to_nat (pattern_interval c)) (io_off io) (inc * i + j)).
  Proof.
    intros I HSd Hb Hr Lr HB HPB EI HL HF. pose proof J as (V & HH & HM & O0 & O & NP & PL & FM & FO & PI).
    unfold populate_verify_io_u, VERIFY_NULL. destruct (Z.eqb_spec (verify c) 19); [lia|].
    assert (IP : (0 < inc)%nat) by lia.
    assert (FP : exists b1 io', fill_payload c io buf rnd seed = Some (b1, io') /\ length b1 = length buf /\ bytes b1 /\
       io_off io' = io_off io /\ io_voff io' = io_voff io /\ io_numberio io' = io_numberio io /\ io_ok io' /\ (patn c = [] -> io_seed io' = seed) /\ (patn c <> [] -> io_seed io' = io_seed io) /\
       (patn c <> [] -> zlen buf <= io_filled io') /\
       forall j, (j < length buf)%nat -> (header_bytes (verify c) <= j mod inc)%nat ->
         nth j b1 0 = (if patn c then nth j rnd 0 else block_byte (patn c) fields (Z.to_nat (pattern_interval c)) (io_off io) j)).
    { unfold fill_payload. destruct I as (I1 & I2 & I3 & I4). destruct (patn c) as [|p ps] eqn:EP.
      { eexists _, _. split; [reflexivity|]. cbn. split; auto. split; auto. split; auto. split; auto. split; auto. split; [repeat split; cbn; lia|].
        split; auto. split; [congruence|]. split; [congruence|]. auto. }
      destruct ((zlen (fmts c) =? 0) && (zlen buf <=? io_filled io) && (verify_offset c =? 0)) eqn:ES.
      { apply andb_prop in ES. destruct ES as [ES E3]. apply andb_prop in ES. destruct ES as [E1 E2]. apply Z.eqb_eq in E1, E3. apply Z.leb_le in E2.
        assert (FE : fields = []). { rewrite FM in E1. destruct fields; auto. discriminate. }
        exists buf, io. split; auto. split; auto. split; auto. split; auto. split; auto. split; auto. split; [repeat split; auto; lia|]. split; [discriminate|]. split; auto. split; auto.
        intros j Hj1 Hj2. rewrite FE. apply HF; auto. discriminate. }
      destruct (C08_block_fill (p :: ps) fields (Z.to_nat (pattern_interval c)) (io_off io) buf) as (b1 & E & L & R); auto; try lia; [cbn; lia|].
      rewrite FM. rewrite Z2Nat.id in E by lia. rewrite E. eexists _, _. split; [reflexivity|]. cbn [io_off io_voff io_numberio io_seed io_filled]. split; auto. split.
      { apply Forall_forall. intros x Hx. apply (In_nth _ _ 0) in Hx. destruct Hx as (j & Hj & <-). rewrite R by lia. unfold block_byte, pat_byte.
        destruct (field_at _ _).
        - unfold byte_of, byte. change (2 ^ 8) with 256. apply Z.mod_pos_bound. lia.
        - rewrite Forall_forall in HPB. apply HPB. apply nth_In. apply Nat.mod_upper_bound. discriminate. }
      split; auto. split; auto. split; auto. split; [repeat split; cbn; lia|]. split; [discriminate|]. split; auto. split; [lia|].
      intros j Hj _. apply R. auto. }
    destruct FP as (b1 & io' & -> & L1 & B1 & O1 & O2 & O3 & I' & S1 & S2 & S3 & P1). cbn [fst snd].
    assert (Z1 : zlen b1 = zlen buf) by (unfold zlen; lia).
    destruct (hdr_loop_ok c fields io' inc J I' n (S (length b1)) [] b1 0) as (out & E & Lo & Bo & W).
    - lia.
    - nia.
    - reflexivity.
    - cbn [app]. lia.
    - auto.
    - apply (no_wrap c buf inc n HV HB EI IP HL).
    - cbn [app Z.of_nat] in E. change (zlen (@nil Z)) with 0 in E. rewrite Z1, <- EI, E. cbn [fst snd]. exists out, io'. split; [reflexivity|]. split; [lia|].
      repeat (split; [solve [auto]|]). intros i Hi. destruct (W i Hi) as (W1 & W2 & W3 & W4). cbn [Nat.add] in *.
      assert (RG : (i * inc + inc <= length buf)%nat) by nia.
      set (s := seen c (vblock inc out i)) in *.
      assert (Ls : length s = inc) by (apply (seen_len c fields inc J); apply vblock_len; lia).
      assert (PJ : forall j, (header_bytes (verify c) <= j < inc)%nat -> nth j s 0 = nth (inc * i + j) b1 0).
      { intros j Hj. transitivity (nth (j - header_bytes (verify c)) (skipn (header_bytes (verify c)) s) 0).
        - rewrite nth_skipn. f_equal. lia.
        - rewrite W2. rewrite nth_skipn. replace (header_bytes (verify c) + (j - header_bytes (verify c)))%nat with j by lia. apply vblock_nth; lia. }
      assert (MJ : forall j, (j < inc)%nat -> ((inc * i + j) mod inc)%nat = j).
      { intros j Hj. rewrite Nat.add_comm, Nat.mul_comm, Nat.mod_add by lia. apply Nat.mod_small. auto. }
      assert (PQ : forall j, (header_bytes (verify c) <= j < inc)%nat -> nth j s 0 =
          (if patn c then nth (inc * i + j) rnd 0 else block_byte (patn c) fields (Z.to_nat (pattern_interval c)) (io_off io) (inc * i + j))).
      { intros j Hj. rewrite PJ by auto. apply P1; [nia|]. rewrite MJ; lia. }
      split; [exact W1|]. split; [|split; [exact W3|exact PQ]]. unfold good_payload. destruct (has_csum (verify c)) eqn:EC.
      + assert (NE : verify c <> 18) by (intros X; rewrite X in EC; discriminate). rewrite (W3 NE), W2. auto.
      + intros NE j Hj. rewrite PQ by auto. rewrite O1. destruct (patn c); [contradiction|reflexivity].
  Qed.
End Top.
