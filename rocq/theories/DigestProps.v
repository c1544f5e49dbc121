(** C19: streaming digests. *)
From Coq Require Import ZArith List Lia Bool.
From Verif Require Import CBase Mem DigestTables DigestModel DigestSpec DigestProofs.
Import ListNotations.
Open Scope Z_scope.

(** For any way to cut the data into chunks and whatever the context's buffer held before, the digest is the
    compression function folded over the blocks of the padded message. *)
Theorem C19_md5 : forall b chunks, length b = 64%nat -> Forall (fun d => zlen d < 2 ^ 32) chunks ->
  exists c, feed (fun c d => md5_update md5_transform c d (zlen d)) (md5_init b) chunks = Some c /\
    md5_final md5_transform c = Some (absorb 64 md5_transform md5_iv (md5_message (concat chunks))).
Proof.
  intros b chunks Lb F.
  destruct (feed_ok (fun c d => md5_update md5_transform c d (zlen d)) (md5_rep md5_transform md5_iv)
    (fun d => zlen d < 2 ^ 32)) with (chunks := chunks) (c := md5_init b) (m := @nil Z) as (c & E & R); auto.
  - intros c m d R H. destruct (md5_update_ok md5_transform md5_iv c m d (zlen d) R) as (c' & E & R'); auto.
    { pose proof (zlen_nonneg d). lia. }
    exists c'. unfold zlen in R'. rewrite Nat2Z.id, firstn_all in R'. auto.
  - repeat split; auto.
  - exists c. split; auto. apply md5_final_ok. exact R.
Qed.

Theorem C19_sha1 : forall b chunks, length b = 64%nat -> Forall (fun d => zlen d < 2 ^ 64) chunks ->
  exists c, feed (fun c d => sha1_update sha1_block c d (zlen d)) (sha1_init b) chunks = Some c /\
    sha1_final sha1_block c = Some (absorb 64 sha1_block sha1_iv (sha1_message (concat chunks))).
Proof.
  intros b chunks Lb F.
  destruct (feed_ok (fun c d => sha1_update sha1_block c d (zlen d)) (sha1_rep sha1_block sha1_iv)
    (fun d => zlen d < 2 ^ 64)) with (chunks := chunks) (c := sha1_init b) (m := @nil Z) as (c & E & R); auto.
  - intros c m d R H. destruct (sha1_update_ok sha1_block sha1_iv c m d (zlen d) R) as (c' & E & R'); auto.
    { pose proof (zlen_nonneg d). lia. }
    exists c'. unfold zlen in R'. rewrite Nat2Z.id, firstn_all in R'. auto.
  - repeat split; auto.
  - exists c. split; auto. apply sha1_final_ok. exact R.
Qed.

Lemma sha2_len m e0 e1 s0 s1 wb n ks h b : length (sha2_transform m e0 e1 s0 s1 wb n ks h b) = 8%nat.
Proof. unfold sha2_transform. destruct (fold_left _ _ _) as [[[[[[[? ?] ?] ?] ?] ?] ?] ?]. reflexivity. Qed.

Lemma absorb_len B T n : (forall s b, length (T s b) = n) -> forall m s, length s = n -> length (absorb B T s m) = n.
Proof.
  intros H m s Ls. unfold absorb. generalize (map (block B m) (seq 0 (nfull B m))). intros l. revert s Ls.
  induction l; intros; cbn [fold_left]; auto.
Qed.

(** sha256 stores one byte of each state word and leaves the rest of the last block behind it; what verify
    compares are these 64 bytes. *)
Theorem C19_sha256 : forall b chunks, length b = 64%nat -> Forall (fun d => zlen d + 64 <= 2 ^ 32) chunks ->
  exists c, feed (fun c d => sha256_update sha256_transform c d (zlen d)) (sha256_init b) chunks = Some c /\
    sha256_final sha256_transform c =
      Some (map u8 (absorb 64 sha256_transform sha256_iv (sha256_fio_message (concat chunks))) ++
            skipn 8 (last_bytes 64 (sha256_fio_message (concat chunks)))).
Proof.
  intros b chunks Lb F.
  destruct (feed_ok (fun c d => sha256_update sha256_transform c d (zlen d)) (sha256_rep sha256_transform sha256_iv)
    (fun d => zlen d + 64 <= 2 ^ 32)) with (chunks := chunks) (c := sha256_init b) (m := @nil Z) as (c & E & R); auto.
  - intros c m d R H. destruct (sha256_update_ok sha256_transform sha256_iv c m d (zlen d) R) as (c' & E & R' & _); auto.
    { pose proof (zlen_nonneg d). lia. }
    exists c'. unfold zlen in R'. rewrite Nat2Z.id, firstn_all in R'. auto.
  - repeat split; auto.
  - exists c. split; auto.
    assert (L : length (absorb 64 sha256_transform sha256_iv (sha256_fio_message (concat chunks))) = 8%nat).
    { apply absorb_len; [intros; apply sha2_len|reflexivity]. }
    erewrite sha256_final_ok by (try exact R; cbn [app]; lia). cbn [app]. rewrite firstn_all2 by lia. auto.
Qed.

(** sha512: the 64-byte digest, then the second half of the last block (verify compares 128 bytes). *)
Theorem C19_sha512 : forall b chunks, length b = 128%nat -> Forall (fun d => zlen d < 2 ^ 29) chunks ->
  exists c, feed (fun c d => sha512_update sha512_transform c d (zlen d)) (sha512_init b) chunks = Some c /\
    sha512_final sha512_transform c =
      Some (flat_map (be_bytes 8) (absorb 128 sha512_transform sha512_iv (sha512_message (concat chunks))) ++
            skipn 64 (last_bytes 128 (sha512_message (concat chunks)))).
Proof.
  intros b chunks Lb F.
  destruct (feed_ok (fun c d => sha512_update sha512_transform c d (zlen d)) (sha512_rep sha512_transform sha512_iv)
    (fun d => zlen d < 2 ^ 29)) with (chunks := chunks) (c := sha512_init b) (m := @nil Z) as (c & E & R); auto.
  - intros c m d R H. destruct (sha512_update_ok sha512_transform sha512_iv c m d (zlen d) R) as (c' & E & R' & _); auto.
    { pose proof (zlen_nonneg d). lia. }
    exists c'. unfold zlen in R'. rewrite Nat2Z.id, firstn_all in R'. auto.
  - repeat split; auto; cbn; lia.
  - exists c. split; auto. cbn [app] in R. apply sha512_final_ok; auto.
    apply absorb_len; [intros; apply sha2_len|reflexivity].
Qed.

(** A single call with 2^29 bytes loses the carry into the second word of the bit count, so the digest of the
    same message depends on the chunks. *)
Theorem C19_sha512_long_chunk_refuted : forall b d1 d2, length b = 128%nat -> zlen d1 = 2 ^ 28 -> zlen d2 = 2 ^ 28 ->
  let upd := fun c d => sha512_update sha512_transform c d (zlen d) in
  exists c1 c2, feed upd (sha512_init b) [d1 ++ d2] = Some c1 /\
    feed upd (sha512_init b) [d1; d2] = Some c2 /\ st5 c1 = st5 c2 /\
    cnt512 c1 = 0 /\ cnt512 c2 = 2 ^ 32.
Proof.
  intros b d1 d2 Lb L1 L2 upd. set (data := d1 ++ d2).
  assert (R0 : sha512_rep sha512_transform sha512_iv (sha512_init b) []) by (repeat split; auto; cbn; lia).
  assert (Ld : zlen data = 2 ^ 29) by (unfold data; rewrite zlen_app; lia).
  destruct (sha512_update_gen sha512_transform sha512_iv (sha512_init b) [] data (zlen data) R0) as (c1 & E1 & R1 & _); [lia|lia|].
  destruct (feed_ok upd (sha512_rep sha512_transform sha512_iv) (fun d => zlen d < 2 ^ 29))
    with (chunks := [d1; d2]) (c := sha512_init b) (m := @nil Z) as (c2 & E2 & R2); [|exact R0| |].
  - intros c m d R H. destruct (sha512_update_ok sha512_transform sha512_iv c m d (zlen d) R) as (c' & E & R' & _); [pose proof (zlen_nonneg d); lia|lia|].
    exists c'. unfold zlen in R'. rewrite Nat2Z.id, firstn_all in R'. auto.
  - constructor; [lia|constructor; [lia|constructor]].
  - exists c1, c2. unfold upd in *. cbn [feed] in E2 |- *. rewrite E1. split; [reflexivity|]. split; [exact E2|].
    cbn [app concat] in R2. rewrite app_nil_r in R2. fold data in R2. destruct R2 as ((S2 & _) & _ & _ & _ & _ & C2).
    destruct R1 as (S1 & _). cbn [app] in S1. rewrite firstn_all2 in S1 by (unfold zlen; lia).
    split; [congruence|]. split.
    + rewrite (sha512_update_cnt _ _ _ _ _ E1); [reflexivity| |unfold w32r, sha512_init; cbn [cnt0]; lia]. rewrite Ld. reflexivity.
    + rewrite C2, Ld. reflexivity.
Qed.

(** sha3 with the four digest sizes *)
Theorem C19_sha3 : forall md chunks, In md [28; 32; 48; 64] ->
  let r := sha3_rsiz md in let T := sha3_block (Z.to_nat (r / 8)) in
  Forall (fun d => zlen d + r <= 2 ^ 32) chunks ->
  exists c, feed (fun c d => sha3_update T r c d (zlen d)) sha3_init chunks = Some c /\
    sha3_final T r (Z.to_nat md) c =
      Some (firstn (Z.to_nat md) (flat_map (le_bytes 8)
        (absorb (Z.to_nat r) T (repeat 0 25) (concat chunks ++ sha3_pad r (concat chunks))))).
Proof.
  intros md chunks Hmd r T F.
  assert (Hr : 0 < r <= 144) by (unfold r, sha3_rsiz; cbn in Hmd; lia).
  destruct (feed_ok (fun c d => sha3_update T r c d (zlen d)) (sha3_rep T r (repeat 0 25))
    (fun d => zlen d + r <= 2 ^ 32)) with (chunks := chunks) (c := sha3_init) (m := @nil Z) as (c & E & R); auto.
  - intros c m d R H. destruct (sha3_update_ok T r Hr (repeat 0 25) c m d (zlen d) R) as (c' & E & R'); auto.
    { pose proof (zlen_nonneg d). lia. }
    exists c'. unfold zlen in R'. rewrite Nat2Z.id, firstn_all in R'. auto.
  - destruct (small (Z.to_nat r) T [] (repeat 0 25)) as [A1 A2]; [cbn [length]; lia|].
    split; [split; [symmetry; exact A1|split; [reflexivity|]]|]; rewrite A2; reflexivity.
  - exists c. split; auto. apply (sha3_final_ok T r Hr (repeat 0 25) c _ _ R).
Qed.

(** xxhash: the streaming digest is the one-shot hash of the whole *)
Theorem C19_xxhash : forall seed mem chunks, length mem = 16%nat -> Forall (fun d => zlen d < 2 ^ 31) chunks ->
  zlen (concat chunks) < 2 ^ 64 ->
  exists s, feed xxh_update (xxh_init seed mem) chunks = Some s /\ xxh32 (concat chunks) seed = Some (xxh_digest s).
Proof.
  intros seed mem chunks Lm F H.
  destruct (feed_ok xxh_update (xxh_rep seed) (fun d => zlen d < 2 ^ 31)) with (chunks := chunks) (c := xxh_init seed mem) (m := @nil Z)
    as (s & E & R); auto.
  - intros c m d R HH. apply xxh_update_ok; auto.
  - repeat split; auto.
  - exists s. split; auto. apply xxh_digest_ok; auto.
Qed.

(** ** The padded messages *)

Lemma le_bytes_inj n : forall x y, 0 <= x < 256 ^ Z.of_nat n -> 0 <= y < 256 ^ Z.of_nat n ->
  le_bytes n x = le_bytes n y -> x = y.
Proof.
  induction n as [|n IH]; intros x y Hx Hy E.
  - change (256 ^ Z.of_nat 0) with 1 in *. lia.
  - rewrite Nat2Z.inj_succ, Z.pow_succ_r in Hx, Hy by lia. cbn [le_bytes] in E. injection E as E1 E2.
    apply IH in E2; [|split; [apply Z.div_pos|apply Z.div_lt_upper_bound]; lia..].
    rewrite (Z.div_mod x 256), (Z.div_mod y 256), E1, E2 by lia. auto.
Qed.

Lemma app_inv_len {A} (a b c d : list A) : length c = length d -> a ++ c = b ++ d -> a = b /\ c = d.
Proof.
  intros L E. assert (La : length a = length b).
  { apply (f_equal (@length A)) in E. rewrite !app_length in E. lia. }
  split.
  - apply (f_equal (firstn (length a))) in E. rewrite firstn_app, Nat.sub_diag, firstn_O, app_nil_r, firstn_all in E.
    rewrite La, firstn_app, Nat.sub_diag, firstn_O, app_nil_r, firstn_all in E. auto.
  - apply (f_equal (skipn (length a))) in E. rewrite skipn_app, Nat.sub_diag, skipn_O, skipn_all in E.
    rewrite La, skipn_app, Nat.sub_diag, skipn_O, skipn_all in E. auto.
Qed.

Lemma msg_inj B L (f : list Z -> list Z) m1 m2 : (forall m m', length (f m) = length (f m')) ->
  (f m1 = f m2 -> zlen m1 = zlen m2) ->
  m1 ++ md_pad B L m1 ++ f m1 = m2 ++ md_pad B L m2 ++ f m2 -> m1 = m2.
Proof.
  intros Hf Hz E. rewrite !app_assoc in E. apply app_inv_len in E; auto. destruct E as [E1 E2]. apply Hz in E2.
  apply app_inv_len in E1; [apply E1|]. unfold md_pad. rewrite E2. auto.
Qed.

(** Different data (below the counters' range) give different padded messages: nothing is dropped or merged
    before compression. *)
Theorem C19_messages_differ : forall m1 m2, m1 <> m2 ->
  (zlen m1 < 2 ^ 61 -> zlen m2 < 2 ^ 61 -> md5_message m1 <> md5_message m2 /\ sha1_message m1 <> sha1_message m2) /\
  (zlen m1 < 2 ^ 32 -> zlen m2 < 2 ^ 32 -> sha256_fio_message m1 <> sha256_fio_message m2) /\
  (zlen m1 < 2 ^ 125 -> zlen m2 < 2 ^ 125 -> sha512_message m1 <> sha512_message m2).
Proof.
  intros m1 m2 N. pose proof (zlen_nonneg m1). pose proof (zlen_nonneg m2).
  repeat split; intros; intro E; apply N; revert E.
  - apply (msg_inj 64 8 (fun m => le_bytes 8 (8 * zlen m mod 2 ^ 64))); [intros; rewrite !le_bytes_len; auto|].
    intros E. rewrite !Z.mod_small in E by lia. apply le_bytes_inj in E; change (256 ^ Z.of_nat 8) with (2 ^ 64); lia.
  - apply (msg_inj 64 8 (fun m => be_bytes 8 (8 * zlen m mod 2 ^ 64))); [intros; rewrite !be_bytes_len; auto|].
    intros E. rewrite !Z.mod_small in E by lia. unfold be_bytes in E. apply (f_equal (@rev Z)) in E. rewrite !rev_involutive in E.
    apply le_bytes_inj in E; change (256 ^ Z.of_nat 8) with (2 ^ 64); lia.
  - apply (msg_inj 64 8 (fun m => le_bytes 8 (8 * (zlen m mod 2 ^ 32)))); [intros; rewrite !le_bytes_len; auto|].
    intros E. rewrite !Z.mod_small in E by lia. apply le_bytes_inj in E; change (256 ^ Z.of_nat 8) with (2 ^ 64); lia.
  - apply (msg_inj 128 16 (fun m => be_bytes 16 (8 * zlen m mod 2 ^ 128))); [intros; rewrite !be_bytes_len; auto|].
    intros E. rewrite !Z.mod_small in E by lia. unfold be_bytes in E. apply (f_equal (@rev Z)) in E. rewrite !rev_involutive in E.
    apply le_bytes_inj in E; change (256 ^ Z.of_nat 16) with (2 ^ 128); lia.
Qed.

(** The padded messages are whole blocks. *)
Theorem C19_messages_whole : forall m,
  zlen (md5_message m) mod 64 = 0 /\ zlen (sha1_message m) mod 64 = 0 /\ zlen (sha256_fio_message m) mod 64 = 0 /\
  zlen (sha512_message m) mod 128 = 0 /\ forall r, 0 < r -> zlen (m ++ sha3_pad r m) mod r = 0.
Proof.
  intros m.
  assert (G : forall B L f, 0 < B -> zlen f = L -> zlen (m ++ md_pad B L m ++ f) mod B = 0).
  { intros B L f HB Lf. rewrite !zlen_app, Lf. unfold md_pad. unfold zlen at 2. cbn [length]. rewrite repeat_length.
    rewrite Nat2Z.inj_succ, Z2Nat.id by (apply Z.mod_pos_bound; lia).
    replace (zlen m + (Z.succ ((B - L - 1 - zlen m) mod B) + L)) with (zlen m + 1 + L + (B - L - 1 - zlen m) mod B) by lia.
    rewrite Zplus_mod_idemp_r. replace (zlen m + 1 + L + (B - L - 1 - zlen m)) with B by lia. apply Z.mod_same. lia. }
  split; [apply G; [lia|unfold zlen; rewrite le_bytes_len; auto]|].
  split; [apply G; [lia|unfold zlen; rewrite be_bytes_len; auto]|].
  split; [apply G; [lia|unfold zlen; rewrite le_bytes_len; auto]|].
  split; [apply G; [lia|unfold zlen; rewrite be_bytes_len; auto]|].
  intros r Hr. rewrite zlen_app. unfold sha3_pad. pose proof (Z.mod_pos_bound (zlen m) r Hr) as Hm.
  assert (K : forall p : list Z, zlen p = r - zlen m mod r -> (zlen m + zlen p) mod r = 0).
  { intros p ->. replace (zlen m + (r - zlen m mod r)) with (zlen m - zlen m mod r + 1 * r) by lia.
    rewrite Z_mod_plus_full. rewrite Zminus_mod_idemp_r, Z.sub_diag. apply Z.mod_0_l. lia. }
  destruct (Z.eqb_spec (r - zlen m mod r) 1) as [E|N].
  - apply K. rewrite E. reflexivity.
  - apply K. unfold zlen at 1. cbn [length]. rewrite app_length, repeat_length. cbn [length]. lia.
Qed.

(** ** Examples: the hypotheses hold, and the digests are the published ones *)

Definition abc : list Z := [97; 98; 99].
Definition chunks2 : list (list Z) := [[97]; []; [98; 99]].

Example C19_example_md5 : (do c <- feed (fun c d => md5_update md5_transform c d (zlen d)) (md5_init (repeat 7 64)) chunks2;
   md5_final md5_transform c) = Some (map le_word [[0x90;0x01;0x50;0x98]; [0x3c;0xd2;0x4f;0xb0]; [0xd6;0x96;0x3f;0x7d]; [0x28;0xe1;0x7f;0x72]]).
Proof. vm_compute. reflexivity. Qed.

Example C19_example_sha1 : (do c <- feed (fun c d => sha1_update sha1_block c d (zlen d)) (sha1_init (repeat 7 64)) chunks2;
   sha1_final sha1_block c) = Some [0xa9993e36; 0x4706816a; 0xba3e2571; 0x7850c26c; 0x9cd0d89d].
Proof. vm_compute. reflexivity. Qed.

Example C19_example_sha512 : (do c <- feed (fun c d => sha512_update sha512_transform c d (zlen d)) (sha512_init (repeat 7 128)) chunks2;
   do h <- sha512_final sha512_transform c; Some (firstn 8 h)) = Some [0xdd; 0xaf; 0x35; 0xa1; 0x93; 0x61; 0x7a; 0xba].
Proof. vm_compute. reflexivity. Qed.

Example C19_example_sha3_256 : (do c <- feed (fun c d => sha3_update (sha3_block 17) 136 c d (zlen d)) sha3_init chunks2;
   do h <- sha3_final (sha3_block 17) 136 32 c; Some (firstn 8 h)) = Some [0x3a; 0x98; 0x5d; 0xa7; 0x4f; 0xe2; 0x25; 0xb2].
Proof. vm_compute. reflexivity. Qed.

Example C19_example_xxh : xxh32 abc 0 = Some 0x32D153FF.
Proof. vm_compute. reflexivity. Qed.

(** fio's sha256 of "abc" is not SHA-256 of "abc" (ba7816bf 8f01cfea ...), neither in its padding nor in the
    bytes it stores. *)
Example C19_sha256_published_refuted :
  absorb 64 sha256_transform sha256_iv (sha256_fio_message abc) <>
    [0xba7816bf; 0x8f01cfea; 0x414140de; 0x5dae2223; 0xb00361a3; 0x96177a9c; 0xb410ff61; 0xf20015ad] /\
  absorb 64 sha256_transform sha256_iv (sha1_message abc) =
    [0xba7816bf; 0x8f01cfea; 0x414140de; 0x5dae2223; 0xb00361a3; 0x96177a9c; 0xb410ff61; 0xf20015ad].
Proof. split; [vm_compute; congruence|vm_compute; reflexivity]. Qed.

Example C19_example_long : Forall (fun d => zlen d < 2 ^ 29) [repeat 3 200; []; repeat 5 77] /\ length (repeat 7 128) = 128%nat.
Proof. split; [repeat constructor|reflexivity]. Qed.

Print Assumptions C19_md5.
Print Assumptions C19_sha1.
Print Assumptions C19_sha256.
Print Assumptions C19_sha512.
Print Assumptions C19_sha512_long_chunk_refuted.
Print Assumptions C19_sha3.
Print Assumptions C19_xxhash.
Print Assumptions C19_messages_differ.
Print Assumptions C19_messages_whole.
