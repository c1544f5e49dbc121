(** The checksums stored by the verification code: defined for every payload, of the expected size, and independent of what
    the memory held before. *)
From Coq Require Import ZArith List Bool Lia.
From Verif Require Import CBase Mem CrcModel CrcSpec CrcProofs CrcProps DigestTables DigestModel DigestSpec DigestProofs DigestProps PatternModel VerifyModel VerifySpec.
Import ListNotations.
Open Scope Z_scope.

Lemma le_bytes_bytes n : forall w, bytes (le_bytes n w).
Proof.
  induction n; intros w; cbn; constructor; [|apply IHn]. unfold byte. change (2 ^ 8) with 256. apply Z.mod_pos_bound. lia.
Qed.
Lemma be_bytes_bytes n w : bytes (be_bytes n w).
Proof. unfold be_bytes, bytes. apply Forall_rev. apply le_bytes_bytes. Qed.
Lemma flat_bytes {A} (f : A -> list Z) l : (forall x, bytes (f x)) -> bytes (flat_map f l).
Proof. intros H. induction l; cbn; [constructor|]. apply Forall_app. split; [apply H|auto]. Qed.
Lemma bytes_firstn n l : bytes l -> bytes (firstn n l).
Proof. unfold bytes. rewrite !Forall_forall. intros H x Hx. apply H. rewrite <- (firstn_skipn n l). apply in_or_app. auto. Qed.
Lemma bytes_skipn n l : bytes l -> bytes (skipn n l).
Proof. unfold bytes. rewrite !Forall_forall. intros H x Hx. apply H. rewrite <- (firstn_skipn n l). apply in_or_app. auto. Qed.
Lemma bytes_app a b : bytes (a ++ b) <-> bytes a /\ bytes b.
Proof. apply Forall_app. Qed.
Lemma bytes_repeat0 n : bytes (repeat 0 n).
Proof. apply Forall_forall. intros x Hx. apply repeat_spec in Hx. subst. unfold byte. lia. Qed.
Lemma md_pad_bytes B L m : bytes (md_pad B L m).
Proof. unfold md_pad. constructor; [unfold byte; lia|]. apply bytes_repeat0. Qed.
Lemma u8_bytes l : bytes (map u8 l).
Proof. apply Forall_forall. intros x Hx. apply in_map_iff in Hx. destruct Hx as (y & <- & _). unfold byte, u8. apply Z.mod_pos_bound. lia. Qed.

Lemma md5_len h b : length (md5_transform h b) = 4%nat.
Proof. unfold md5_transform. destruct (fold_left _ _ _) as [? [[[? ?] ?] ?]]. reflexivity. Qed.
Lemma sha1_len h b : length (sha1_block h b) = 5%nat.
Proof. unfold sha1_block. destruct (fold_left _ _ _) as [? [[[[? ?] ?] ?] ?]]. reflexivity. Qed.
Lemma chi_len st : length (keccak_chi st) = 25%nat.
Proof. unfold keccak_chi. rewrite map_length, seq_length. reflexivity. Qed.
Lemma kround_len st c : length (keccak_round st c) = 25%nat.
Proof. unfold keccak_round. pose proof (chi_len (keccak_rhopi (keccak_theta st))) as L. destruct (keccak_chi _); [discriminate|]. cbn [length] in *. lia. Qed.
Lemma sha3_len n st b : length (sha3_block n st b) = 25%nat.
Proof.
  unfold sha3_block, keccakf. generalize (xor_words st (map le_word (words 8 n b))). intros s.
  assert (G : forall l s, length (fold_left keccak_round l s) = 25%nat \/ l = []).
  { induction l as [|x l IH]; intros s0; [right; reflexivity|]. left. cbn [fold_left]. destruct (IH (keccak_round s0 x)) as [H| ->]; [exact H|]. cbn [fold_left]. apply kround_len. }
  destruct (G keccakf_rndc s) as [H|H]; [exact H|discriminate].
Qed.

Lemma msg_len B L f m : (0 < Z.of_nat B) -> zlen f = L -> L < Z.of_nat B -> (B <= length (m ++ md_pad (Z.of_nat B) L m ++ f))%nat.
Proof.
  intros HB Lf HL. rewrite !app_length. unfold md_pad. cbn [length]. rewrite repeat_length.
  pose proof (Z.mod_pos_bound (Z.of_nat B - L - 1 - zlen m) (Z.of_nat B) HB) as M.
  assert (Lf' : Z.of_nat (length f) = L) by (unfold zlen in Lf; lia).
  assert (E : (zlen m + 1 + L + (Z.of_nat B - L - 1 - zlen m) mod Z.of_nat B) mod Z.of_nat B = 0).
  { rewrite Zplus_mod_idemp_r. replace (zlen m + 1 + L + (Z.of_nat B - L - 1 - zlen m)) with (Z.of_nat B) by lia. apply Z.mod_same. lia. }
  set (q := (Z.of_nat B - L - 1 - zlen m) mod Z.of_nat B) in *. pose proof (zlen_nonneg m).
  assert (Z.of_nat B <= zlen m + 1 + L + q).
  { destruct (Z_lt_le_dec (zlen m + 1 + L + q) (Z.of_nat B)); auto. rewrite Z.mod_small in E by lia. lia. }
  unfold zlen in *. lia.
Qed.

Lemma last_len n m : (n <= length m)%nat -> length (last_bytes n m) = n.
Proof. intros H. unfold last_bytes. rewrite skipn_length. lia. Qed.

Lemma concat1 {A} (l : list A) : concat [l] = l.
Proof. cbn. apply app_nil_r. Qed.

Lemma feed1 {C} (upd : C -> list Z -> option C) c d r : feed upd c [d] = Some r -> upd c d = Some r.
Proof. cbn. destruct (upd c d); auto. Qed.

Lemma bound_crc w g init bs r : is_crc w g init bs r -> 0 <= r < 2 ^ w.
Proof. intros [H _]. exact H. Qed.

(** The cases of a type with a checksum. *)
Lemma csum_cases vt : has_csum vt = true -> vt = 2 \/ vt = 3 \/ vt = 4 \/ (vt = 5 \/ vt = 6) \/ vt = 7 \/ vt = 8 \/ vt = 9 \/ vt = 10 \/
  (vt = 11 \/ vt = 12 \/ vt = 13 \/ vt = 14) \/ vt = 15 \/ vt = 16.
Proof. unfold has_csum, VERIFY_MD5, VERIFY_SHA1. intros H. apply andb_prop in H. lia. Qed.

Lemma csum_ok vt old data : has_csum vt = true -> bytes data -> zlen data < 2 ^ 29 -> length old = csum_bytes vt ->
  exists d, csum vt old data = Some d /\ is_csum vt data d /\ length d = csum_bytes vt /\ bytes d.
Proof.
  intros HV Hb HL HO. pose proof (zlen_nonneg data) as H0.
  destruct (csum_cases _ HV) as [->|[->|[->|[Q|[->|[->|[->|[->|[Q|[->| ->]]]]]]]]]].
  - destruct (C19_md5 (repeat 0 64) [data] eq_refl) as (c & E1 & E2); [repeat constructor; lia|]. rewrite concat1 in E2. apply feed1 in E1.
    eexists. unfold csum. cbn -[md5_update md5_init md5_final md5_transform flat_map repeat le_bytes absorb md5_message]. rewrite E1, E2. split; [reflexivity|]. split; [reflexivity|].
    split; [|apply flat_bytes; intros; apply le_bytes_bytes]. rewrite (flat_len _ 4) by (intros; apply le_bytes_len).
    rewrite (absorb_len 64 md5_transform 4 md5_len) by reflexivity. reflexivity.
  - destruct (C17_crc64 data Hb) as (r & E & C). eexists. unfold csum. cbn -[fio_crc64 le_bytes]. rewrite E. split; [reflexivity|].
    split; [exists r; auto|]. split; [apply le_bytes_len|apply le_bytes_bytes].
  - destruct (C17_crc32 data Hb) as (r & E & C). eexists. unfold csum. cbn -[fio_crc32 le_bytes]. rewrite E. split; [reflexivity|].
    split; [exists r; auto|]. split; [apply le_bytes_len|apply le_bytes_bytes].
  - destruct (C17_crc32c data Hb) as (r & E & C). exists (le_bytes 4 (reflect 32 r)).
    assert (X : csum vt old data = Some (le_bytes 4 (reflect 32 r))).
    { unfold csum. destruct Q as [->| ->]; cbn -[crc32c_sw le_bytes]; rewrite E; reflexivity. }
    split; [exact X|]. split; [destruct Q as [->| ->]; exists r; auto|]. split; [|apply le_bytes_bytes]. rewrite le_bytes_len. destruct Q as [->| ->]; reflexivity.
  - destruct (C17_crc16 data Hb) as (r & E & C). eexists. unfold csum. cbn -[fio_crc16 le_bytes]. rewrite E. split; [reflexivity|].
    split; [exists r; auto|]. split; [apply le_bytes_len|apply le_bytes_bytes].
  - destruct (C17_crc7 data Hb) as (r & E & C). exists [r]. unfold csum. cbn -[fio_crc7 le_bytes]. rewrite E.
    apply bound_crc in C as R. cbn. rewrite Z.mod_small by lia. split; [reflexivity|].
    split; [exists r; auto|]. split; [reflexivity|]. constructor; [|constructor]. unfold byte. lia.
  - destruct (C19_sha256 old [data]) as (c & E1 & E2); [exact HO|repeat constructor; lia|]. rewrite concat1 in E2. apply feed1 in E1.
    eexists. unfold csum. cbn -[sha256_update sha256_init sha256_final sha256_transform sha256_fio_message absorb last_bytes skipn map le_bytes].
    rewrite E1, E2. split; [reflexivity|]. split; [reflexivity|].
    assert (ML : (64 <= length (sha256_fio_message data))%nat).
    { apply (msg_len 64 8); cbn [Z.of_nat]; try lia. unfold zlen. rewrite le_bytes_len. reflexivity. }
    split.
    + rewrite app_length, map_length, (absorb_len 64 sha256_transform 8) by (try reflexivity; intros; apply sha2_len).
      rewrite skipn_length, last_len by auto. reflexivity.
    + apply bytes_app. split; [apply u8_bytes|]. apply bytes_skipn. unfold last_bytes. apply bytes_skipn. unfold sha256_fio_message.
      rewrite !bytes_app. split; auto. split; [apply md_pad_bytes|apply le_bytes_bytes].
  - destruct (C19_sha512 old [data]) as (c & E1 & E2); [exact HO|repeat constructor; lia|]. rewrite concat1 in E2. apply feed1 in E1.
    eexists. unfold csum. cbn -[sha512_update sha512_init sha512_final sha512_transform sha512_message absorb last_bytes skipn flat_map be_bytes].
    rewrite E1, E2. split; [reflexivity|]. split; [reflexivity|].
    assert (ML : (128 <= length (sha512_message data))%nat).
    { apply (msg_len 128 16); cbn [Z.of_nat]; try lia. unfold zlen. rewrite be_bytes_len. reflexivity. }
    split.
    + rewrite app_length, (flat_len _ 8) by (intros; apply be_bytes_len). rewrite (absorb_len 128 sha512_transform 8) by (try reflexivity; intros; apply sha2_len).
      rewrite skipn_length, last_len by auto. reflexivity.
    + apply bytes_app. split; [apply flat_bytes; intros; apply be_bytes_bytes|]. apply bytes_skipn. unfold last_bytes. apply bytes_skipn. unfold sha512_message.
      rewrite !bytes_app. split; auto. split; [apply md_pad_bytes|apply be_bytes_bytes].
  - set (md := Z.of_nat (csum_bytes vt)).
    assert (Hmd : In md [28; 32; 48; 64]) by (destruct Q as [->|[->|[->| ->]]]; cbn; auto).
    destruct (C19_sha3 md [data] Hmd) as (c & E1 & E2). { repeat constructor. unfold sha3_rsiz. cbn in Hmd. lia. }
    rewrite concat1 in E2. apply feed1 in E1.
    exists (firstn (csum_bytes vt) (flat_map (le_bytes 8) (absorb (Z.to_nat (sha3_rsiz md)) (sha3_block (Z.to_nat (sha3_rsiz md / 8))) (repeat 0 25) (data ++ sha3_pad (sha3_rsiz md) data)))).
    assert (X : nth (Z.to_nat (vt - VERIFY_SHA3_224)) [28; 32; 48; 64] 0 = md) by (destruct Q as [->|[->|[->| ->]]]; reflexivity).
    split; [|split; [|split]].
    + replace (csum vt old data) with
        (let md := nth (Z.to_nat (vt - VERIFY_SHA3_224)) [28; 32; 48; 64] 0 in let r := sha3_rsiz md in let T := sha3_block (Z.to_nat (r / 8)) in
         do c <- sha3_update T r sha3_init data (zlen data); sha3_final T r (Z.to_nat md) c)
        by (destruct Q as [->|[->|[->| ->]]]; reflexivity).
      cbn zeta. rewrite X, E1, E2. unfold md. rewrite Nat2Z.id. reflexivity.
    + destruct Q as [->|[->|[->| ->]]]; reflexivity.
    + rewrite firstn_length_le; auto. rewrite (flat_len _ 8) by (intros; apply le_bytes_len).
      rewrite (absorb_len _ _ 25) by (try reflexivity; intros; apply sha3_len). destruct Q as [->|[->|[->| ->]]]; apply Nat.leb_le; reflexivity.
    + apply bytes_firstn, flat_bytes. intros; apply le_bytes_bytes.
  - destruct (C19_xxhash 1 (repeat 0 16) [data] eq_refl) as (c & E1 & E2); [repeat constructor; lia|rewrite concat1; lia|]. rewrite concat1 in E2. apply feed1 in E1.
    eexists. unfold csum. cbn -[xxh_update xxh_init xxh_digest le_bytes repeat]. rewrite E1. split; [reflexivity|]. split; [exists (xxh_digest c); auto|].
    split; [apply le_bytes_len|apply le_bytes_bytes].
  - destruct (C19_sha1 (repeat 0 64) [data] eq_refl) as (c & E1 & E2); [repeat constructor; lia|]. rewrite concat1 in E2. apply feed1 in E1.
    eexists. unfold csum. cbn -[sha1_update sha1_init sha1_final sha1_block flat_map repeat le_bytes absorb sha1_message]. rewrite E1, E2. split; [reflexivity|]. split; [reflexivity|].
    split; [|apply flat_bytes; intros; apply le_bytes_bytes]. rewrite (flat_len _ 4) by (intros; apply le_bytes_len).
    rewrite (absorb_len 64 sha1_block 5 sha1_len) by reflexivity. reflexivity.
Qed.

Lemma is_csum_unique vt data d d' : has_csum vt = true -> is_csum vt data d -> is_csum vt data d' -> d = d'.
Proof.
  intros HV. destruct (csum_cases _ HV) as [->|[->|[->|[Q|[->|[->|[->|[->|[Q|[->| ->]]]]]]]]]]; cbn -[absorb flat_map le_bytes xxh32 reflect lsb_first msb_first is_crc Z.pow].
  - congruence.
  - intros (r & -> & A) (r' & -> & B). replace r' with r by (eapply C17_crc_unique; [| |exact A|exact B]; lia); reflexivity.
  - intros (r & -> & A) (r' & -> & B). replace r' with r by (eapply C17_crc_unique; [| |exact A|exact B]; lia); reflexivity.
  - destruct Q as [->| ->]; intros (r & -> & A) (r' & -> & B); replace r' with r by (eapply C17_crc_unique; [| |exact A|exact B]; lia); reflexivity.
  - intros (r & -> & A) (r' & -> & B). replace r' with r by (eapply C17_crc_unique; [| |exact A|exact B]; lia); reflexivity.
  - intros (r & -> & A) (r' & -> & B). replace r' with r by (eapply C17_crc_unique; [| |exact A|exact B]; lia); reflexivity.
  - congruence.
  - congruence.
  - destruct Q as [->|[->|[->| ->]]]; cbn -[absorb flat_map le_bytes firstn]; congruence.
  - intros (h & -> & A) (h' & -> & B). congruence.
  - congruence.
Qed.
