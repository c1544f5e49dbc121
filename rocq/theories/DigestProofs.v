(** Proofs about the digest contexts. *)
From Coq Require Import ZArith List Lia Bool.
From Verif Require Import CBase Mem DigestModel DigestSpec.
Import ListNotations.
Open Scope Z_scope.

(** ** Blocks *)

Section Blocks.
  Variable B : nat.
  Hypothesis HB : (0 < B)%nat.
  Variable T : list Z -> list Z -> list Z.
  Notation absorb := (absorb B T).
  Notation rest := (rest B).

  Lemma small m s : (length m < B)%nat -> absorb s m = s /\ rest m = m.
  Proof.
    intros H. unfold DigestSpec.absorb, DigestSpec.rest, nfull. rewrite Nat.div_small by auto. auto.
  Qed.

  Lemma seq_shift_map {A} (f : nat -> A) n : map f (seq 1 n) = map (fun i => f (S i)) (seq 0 n).
  Proof. rewrite <- seq_shift, map_map. auto. Qed.

  Lemma big m s : (B <= length m)%nat ->
    absorb s m = absorb (T s (firstn B m)) (skipn B m) /\ rest m = rest (skipn B m).
  Proof.
    intros H. unfold DigestSpec.absorb, DigestSpec.rest, nfull. rewrite skipn_length.
    assert (E : (length m / B)%nat = S ((length m - B) / B)%nat).
    { replace (length m) with ((length m - B) + 1 * B)%nat at 1 by lia. rewrite Nat.div_add by lia. lia. }
    rewrite E. cbn [seq map fold_left]. split.
    - rewrite seq_shift_map. f_equal.
      + apply map_ext. intros i. unfold block. rewrite skipn_skipn'. reflexivity.
    - rewrite skipn_skipn'. reflexivity.
  Qed.

  Lemma app_both m d : forall s, absorb s (m ++ d) = absorb (absorb s m) (rest m ++ d) /\ rest (m ++ d) = rest (rest m ++ d).
  Proof.
    remember (length m) as n eqn:En. revert m En.
    induction n as [n IH] using lt_wf_ind. intros m En s.
    destruct (Nat.lt_ge_cases (length m) B) as [L|G].
    - destruct (small m s L) as [-> ->]. auto.
    - destruct (big m s G) as [-> ->].
      destruct (big (m ++ d) s) as [-> ->]; [rewrite app_length; lia|].
      rewrite firstn_app, skipn_app. replace (B - length m)%nat with 0%nat by lia.
      rewrite firstn_O, skipn_O, app_nil_r.
      apply (IH (length (skipn B m))); auto. rewrite skipn_length. lia.
  Qed.

  Lemma absorb_app m d s : absorb s (m ++ d) = absorb (absorb s m) (rest m ++ d).
  Proof. apply app_both. Qed.
  Lemma rest_app m d : rest (m ++ d) = rest (rest m ++ d).
  Proof. apply (app_both m d []). Qed.

  Lemma rest_length m : length (rest m) = (length m mod B)%nat.
  Proof.
    unfold DigestSpec.rest, nfull. rewrite skipn_length. pose proof (Nat.div_mod (length m) B). lia.
  Qed.

  Lemma rest_lt m : (length (rest m) < B)%nat.
  Proof. rewrite rest_length. apply Nat.mod_upper_bound. lia. Qed.

  Lemma zrest m : zlen (rest m) = zlen m mod Z.of_nat B.
  Proof. unfold zlen. rewrite rest_length, Nat2Z.inj_mod by lia. auto. Qed.
End Blocks.

(** ** Buffers *)

Lemma slice0 {A} (l : list A) n : (n <= length l)%nat -> slice l 0 n = Some (firstn n l).
Proof. intros. rewrite slice_some by lia. auto. Qed.

Lemma blit_ok {A} (buf : list A) off d : (off + length d <= length buf)%nat ->
  exists b, blit buf off d = Some b /\ length b = length buf /\
    firstn (off + length d) b = firstn off buf ++ d /\
    skipn (off + length d) b = skipn (off + length d) buf.
Proof.
  intros H. destruct (blit_some buf off d H) as [b Eb]. exists b.
  pose proof (blit_length _ _ _ _ Eb). split; auto. split; auto.
  unfold blit in Eb. destruct (Nat.leb_spec (off + length d) (length buf)); [|discriminate].
  injection Eb as <-. assert (L : length (firstn off buf) = off) by (apply firstn_length_le; lia).
  rewrite app_assoc. assert (L2 : length (firstn off buf ++ d) = (off + length d)%nat) by (rewrite app_length; lia).
  split.
  - rewrite firstn_app, L2, Nat.sub_diag, firstn_O, app_nil_r, firstn_all2; auto. lia.
  - rewrite skipn_app, L2, Nat.sub_diag, skipn_O, skipn_all2; auto. lia.
Qed.

Lemma skipn_firstn_add {A} (n k : nat) (l : list A) : skipn k (firstn n l) = firstn (n - k) (skipn k l).
Proof. apply skipn_firstn_comm. Qed.

Lemma firstn_firstn_le {A} (n k : nat) (l : list A) : (k <= n)%nat -> firstn k (firstn n l) = firstn k l.
Proof. intros. rewrite firstn_firstn. f_equal. lia. Qed.

Lemma land63 x : Z.land x 0x3f = x mod 64.
Proof. change 0x3f with (Z.ones 6). rewrite Z.land_ones by lia. auto. Qed.
Lemma land127 x : Z.land x 0x7f = x mod 128.
Proof. change 0x7f with (Z.ones 7). rewrite Z.land_ones by lia. auto. Qed.

Lemma zlen_app {A} (a b : list A) : zlen (a ++ b) = zlen a + zlen b.
Proof. unfold zlen. rewrite app_length. lia. Qed.

Lemma mod_mod_pow a n k : 0 <= k <= n -> (a mod 2 ^ n) mod 2 ^ k = a mod 2 ^ k.
Proof.
  intros. apply Z.bits_inj'. intros i Hi. rewrite !mod_pow2_testbit by lia.
  destruct (Z.ltb_spec i k), (Z.ltb_spec i n); try lia; auto.
Qed.

(** ** MD5 *)

Section MD5.
  Variable T : list Z -> list Z -> list Z.
  Notation absorb := (absorb 64 T).
  Notation rest := (rest 64).
  Lemma B64 : (0 < 64)%nat. Proof. lia. Qed.
  Hint Resolve B64 : core.

  Lemma md5_blocks_ok fuel : forall h b data len,
    length b = 64%nat -> 0 <= len <= zlen data -> len < 2 ^ 32 -> (Z.to_nat len < fuel)%nat ->
    exists b', md5_blocks T fuel h b data len = Some (absorb h (firstn (Z.to_nat len) data), b') /\
      length b' = 64%nat /\
      firstn (length (rest (firstn (Z.to_nat len) data))) b' = rest (firstn (Z.to_nat len) data).
  Proof.
    induction fuel as [|f IH]; intros h b data len Lb Hl H32 Hf; [lia|]. cbn [md5_blocks]. unfold zlen in Hl.
    set (d := firstn (Z.to_nat len) data). assert (Ld : length d = Z.to_nat len) by (apply firstn_length_le; lia).
    destruct (Z.leb_spec 64 len).
    - rewrite slice0 by lia.
      assert (L64 : length (firstn 64 data) = 64%nat) by (apply firstn_length_le; lia).
      destruct (blit_ok b 0 (firstn 64 data)) as (b1 & E1 & Lb1 & F1 & _); [lia|]. rewrite E1.
      rewrite L64 in F1. change (0 + 64)%nat with 64%nat in F1. rewrite firstn_O in F1. cbn [app] in F1.
      assert (Eb1 : b1 = firstn 64 data) by (rewrite <- F1; symmetry; apply firstn_all2; lia).
      unfold u32. rewrite Z.mod_small by lia.
      destruct (IH (T h b1) b1 (skipn 64 data) (len - 64)) as (b' & E & Lb' & F); try lia.
      { unfold zlen. rewrite skipn_length. lia. }
      exists b'. rewrite E.
      destruct (big 64 B64 T d h) as [-> ->]; [lia|].
      assert (Ed : skipn 64 d = firstn (Z.to_nat (len - 64)) (skipn 64 data)).
      { unfold d. rewrite skipn_firstn_add. f_equal. lia. }
      rewrite Ed. assert (Ef : firstn 64 d = b1) by (rewrite Eb1; apply firstn_firstn_le; lia). rewrite Ef. auto.
    - rewrite slice0 by lia. fold d. destruct (blit_ok b 0 d) as (b1 & E1 & Lb1 & F1 & _); [lia|]. rewrite E1.
      destruct (small 64 T d h) as [-> ->]; [lia|]. exists b1. split; auto. split; [lia|]. auto.
  Qed.

  Definition md5_rep (iv : list Z) (c : ctx) (m : list Z) : Prop :=
    st c = absorb iv m /\ length (buf c) = 64%nat /\ firstn (length (rest m)) (buf c) = rest m /\
    cnt c = zlen m mod 2 ^ 64.

  Lemma cnt64_mod m : (zlen m mod 2 ^ 64) mod 64 = zlen (rest m).
  Proof. rewrite zrest by auto. change 64 with (2 ^ 6) at 2. rewrite mod_mod_pow by lia. auto. Qed.

  Lemma md5_update_ok iv c m data len :
    md5_rep iv c m -> 0 <= len <= zlen data -> len < 2 ^ 32 ->
    exists c', md5_update T c data len = Some c' /\ md5_rep iv c' (m ++ firstn (Z.to_nat len) data).
  Proof.
    intros (R1 & R2 & R3 & R4) Hl H32. unfold md5_update. rewrite land63, R4, cnt64_mod.
    pose proof (rest_lt 64 B64 m) as RL. unfold zlen in Hl.
    set (r := rest m) in *. set (k := length r) in *. change (zlen r) with (Z.of_nat k).
    unfold u32. rewrite (Z.mod_small (64 - Z.of_nat k)) by lia.
    replace (Z.to_nat (64 - (64 - Z.of_nat k))) with k by lia.
    set (d := firstn (Z.to_nat len) data). assert (Ld : length d = Z.to_nat len) by (apply firstn_length_le; lia).
    assert (Zd : zlen d = len) by (unfold zlen; lia).
    assert (CNT : u64 (zlen m mod 2 ^ 64 + len) = zlen (m ++ d) mod 2 ^ 64).
    { unfold u64. rewrite zlen_app, Zd. apply Zplus_mod_idemp_l. }
    destruct (Z.ltb_spec len (64 - Z.of_nat k)).
    - rewrite slice0 by lia. fold d.
      destruct (blit_ok (buf c) k d) as (b1 & E1 & Lb1 & F1 & _); [lia|]. rewrite E1. eexists. split; [reflexivity|].
      unfold md5_rep. cbn [st buf cnt]. rewrite absorb_app, rest_app by auto.
      destruct (small 64 T (rest m ++ d) (absorb iv m)) as [-> ->]; [rewrite app_length; fold r k; lia|].
      repeat split; auto; [lia|]. rewrite app_length. fold r k. rewrite F1, R3. auto.
    - rewrite slice0 by lia. set (av := Z.to_nat (64 - Z.of_nat k)). set (d1 := firstn av data).
      assert (Ld1 : length d1 = av) by (apply firstn_length_le; lia).
      destruct (blit_ok (buf c) k d1) as (b1 & E1 & Lb1 & F1 & _); [lia|]. rewrite E1.
      assert (Eb1 : b1 = r ++ d1).
      { rewrite <- R3, <- F1. symmetry. apply firstn_all2. lia. }
      rewrite (Z.mod_small (len - (64 - Z.of_nat k))) by lia.
      destruct (md5_blocks_ok (S (length data)) (T (st c) b1) b1 (skipn av data) (len - (64 - Z.of_nat k)))
        as (b' & E & Lb' & F); try lia.
      { unfold zlen. rewrite skipn_length. lia. }
      rewrite E. eexists. split; [reflexivity|]. unfold md5_rep. cbn [st buf cnt fst snd].
      rewrite absorb_app, rest_app by auto. fold r.
      assert (Hd : d = d1 ++ firstn (Z.to_nat (len - (64 - Z.of_nat k))) (skipn av data)).
      { rewrite <- (firstn_skipn av d). f_equal.
        - unfold d, d1. apply firstn_firstn_le. lia.
        - unfold d. rewrite skipn_firstn_add. f_equal. lia. }
      set (d2 := firstn _ (skipn av data)) in *.
      destruct (big 64 B64 T (r ++ d) (absorb iv m)) as [-> ->]; [rewrite app_length; fold k; lia|].
      assert (S1 : firstn 64 (r ++ d) = b1).
      { rewrite Hd, app_assoc, <- Eb1. rewrite firstn_app. replace (64 - length b1)%nat with 0%nat by lia.
        rewrite firstn_O, app_nil_r. apply firstn_all2. lia. }
      assert (S2 : skipn 64 (r ++ d) = d2).
      { rewrite Hd, app_assoc, <- Eb1. rewrite skipn_app. replace (64 - length b1)%nat with 0%nat by lia.
        rewrite skipn_O, skipn_all2 by lia. auto. }
      rewrite S1, S2, <- R1. auto.
  Qed.

  Lemma whole m : length m = 64%nat -> forall s, absorb s m = T s m.
  Proof.
    intros L s. destruct (big 64 B64 T m s) as [-> _]; [lia|].
    rewrite firstn_all2 by lia. apply (small 64 T). rewrite skipn_length. lia.
  Qed.

  Lemma pad_split (b : list Z) k x : length b = 64%nat -> (k <= 64)%nat -> firstn k b = x -> b = x ++ skipn k b.
  Proof. intros. subst. symmetry. apply firstn_skipn. Qed.

  Lemma le_bytes_len n w : length (le_bytes n w) = n.
  Proof. revert w. induction n; intros; cbn; auto. Qed.

  Lemma le_bytes_app n k : forall w, le_bytes (n + k) w = le_bytes n w ++ le_bytes k (w / 256 ^ Z.of_nat n).
  Proof.
    induction n as [|n IH]; intros w.
    - cbn [Nat.add le_bytes app Z.of_nat]. change (256 ^ 0) with 1. rewrite Z.div_1_r. auto.
    - cbn [Nat.add le_bytes app]. rewrite IH. rewrite Nat2Z.inj_succ, Z.pow_succ_r by lia.
      rewrite Z.div_div by lia. auto.
  Qed.

  Lemma le_bytes_mod n : forall w, le_bytes n (w mod 256 ^ Z.of_nat n) = le_bytes n w.
  Proof.
    induction n as [|n IH]; intros w; [auto|]. cbn [le_bytes]. rewrite Nat2Z.inj_succ, Z.pow_succ_r by lia.
    f_equal.
    - rewrite Z.rem_mul_r by lia. rewrite Z.mul_comm, Z_mod_plus_full. apply Z.mod_mod. lia.
    - rewrite <- (IH (w / 256)). rewrite Z.rem_mul_r by lia.
      rewrite (Z.mul_comm 256), Z.div_add by lia. rewrite Z.div_small by (apply Z.mod_pos_bound; lia). auto.
  Qed.

  Lemma len8 n : 0 <= n -> le_bytes 4 (u32 (u64 (Z.shiftl (n mod 2 ^ 64) 3))) ++ le_bytes 4 (u32 (Z.shiftr (n mod 2 ^ 64) 29)) =
    le_bytes 8 (8 * n mod 2 ^ 64).
  Proof.
    intros Hn. rewrite (le_bytes_app 4 4). change (256 ^ Z.of_nat 4) with (2 ^ 32). f_equal.
    - unfold u32, u64. change (2 ^ 32) with (256 ^ Z.of_nat 4). rewrite le_bytes_mod. f_equal.
      rewrite Z.shiftl_mul_pow2 by lia. change (2 ^ 3) with 8. rewrite Z.mul_comm.
      rewrite Zmult_mod_idemp_r. auto.
    - unfold u32. change (2 ^ 32) with (256 ^ Z.of_nat 4) at 1. rewrite le_bytes_mod.
      rewrite <- (le_bytes_mod 4 (Z.shiftr _ _)), <- (le_bytes_mod 4 (_ / _)). f_equal.
      change (256 ^ Z.of_nat 4) with (2 ^ 32). rewrite Z.shiftr_div_pow2 by lia.
      apply Z.bits_inj'. intros i Hi. rewrite !mod_pow2_testbit by lia.
      destruct (Z.ltb_spec i 32); cbn [andb]; auto.
      rewrite !Z.div_pow2_bits by lia. rewrite !mod_pow2_testbit by lia.
      replace (i + 29 <? 64) with true by (symmetry; apply Z.ltb_lt; lia).
      replace (i + 32 <? 64) with true by (symmetry; apply Z.ltb_lt; lia). cbn [andb].
      change 8 with (2 ^ 3). rewrite Z.mul_comm, <- Z.shiftl_mul_pow2 by lia. rewrite Z.shiftl_spec by lia.
      f_equal. lia.
  Qed.

  Lemma blit_at {A} (b : list A) x off d : firstn off b = x -> (off + length d <= length b)%nat ->
    exists b', blit b off d = Some b' /\ length b' = length b /\ firstn (off + length d) b' = x ++ d.
  Proof. intros E L. destruct (blit_ok b off d L) as (b' & E1 & E2 & E3 & _). subst. eauto. Qed.

  Lemma md5_final_ok iv c m : md5_rep iv c m -> md5_final T c = Some (absorb iv (md5_message m)).
  Proof.
    intros (R1 & R2 & R3 & R4). unfold md5_final, md5_message.
    rewrite land63, R4, cnt64_mod. pose proof (rest_lt 64 B64 m) as RL. pose proof (zrest 64 B64 m) as ZR.
    rewrite absorb_app by auto. rewrite <- R1. set (r := rest m) in *.
    pose proof (zlen_nonneg m) as Zm.
    assert (PL : md_pad 64 8 m = 0x80 :: repeat 0 (Z.to_nat ((55 - zlen r) mod 64))).
    { unfold md_pad. do 3 f_equal. rewrite ZR. change (Z.of_nat 64) with 64.
      rewrite Zminus_mod_idemp_r. reflexivity. }
    rewrite PL. rewrite <- len8 by auto. unfold zlen in *. set (k := length r) in *. rewrite !Nat2Z.id.
    set (q1 := le_bytes 4 (u32 (u64 _))). set (q2 := le_bytes 4 (u32 (Z.shiftr _ 29))).
    assert (Lq1 : length q1 = 4%nat) by apply le_bytes_len. assert (Lq2 : length q2 = 4%nat) by apply le_bytes_len.
    clearbody q1 q2.
    destruct (blit_at (buf c) r k [0x80]) as (b1 & E1 & L1 & F1); [auto|cbn [length]; lia|]. rewrite E1. cbn [length] in F1.
    destruct (Z.ltb_spec (56 - (Z.of_nat k + 1)) 0) as [N|P].
    - replace (u64 (56 - (Z.of_nat k + 1) + 8)) with (63 - Z.of_nat k).
      2:{ unfold u64. rewrite Z.mod_small; lia. }
      replace (Z.to_nat (Z.of_nat k + 1)) with (k + 1)%nat by lia.
      set (z1 := repeat 0 (Z.to_nat (63 - Z.of_nat k))).
      assert (Lz1 : length z1 = (63 - k)%nat) by (unfold z1; rewrite repeat_length; lia).
      destruct (blit_at b1 (r ++ [0x80]) (k + 1) z1) as (b2 & E2 & L2 & F2); [auto|lia|]. rewrite E2.
      assert (Eb2 : b2 = (r ++ [0x80]) ++ z1) by (rewrite <- F2; symmetry; apply firstn_all2; lia).
      set (z2 := repeat 0 56).
      assert (Lz2 : length z2 = 56%nat) by reflexivity.
      destruct (blit_at b2 [] 0 z2) as (b3 & E3 & L3 & F3); [auto|lia|].
      change (Z.to_nat 0) with 0%nat. change (Z.to_nat 56) with 56%nat. fold z2. rewrite E3.
      destruct (blit_at b3 z2 56 q1) as (b4 & E4 & L4 & F4); [rewrite Lz2 in F3; auto|lia|]. rewrite E4.
      destruct (blit_at b4 (z2 ++ q1) 60 q2) as (b5 & E5 & L5 & F5); [rewrite Lq1 in F4; auto|lia|]. rewrite E5.
      assert (Eb5 : b5 = (z2 ++ q1) ++ q2) by (rewrite <- F5; symmetry; apply firstn_all2; lia).
      f_equal.
      replace (Z.to_nat ((55 - Z.of_nat k) mod 64)) with (63 - k + 56)%nat.
      2:{ replace (55 - Z.of_nat k) with ((119 - Z.of_nat k) + (-1) * 64) by lia. rewrite Z_mod_plus_full, Z.mod_small; lia. }
      rewrite repeat_app. replace (repeat 0 (63 - k)) with z1 by (unfold z1; f_equal; lia). fold z2.
      replace (r ++ (0x80 :: z1 ++ z2) ++ q1 ++ q2) with (((r ++ [0x80]) ++ z1) ++ (z2 ++ q1) ++ q2)
        by (rewrite <- !app_assoc; cbn [app]; rewrite <- !app_assoc; auto).
      rewrite <- Eb2, <- Eb5. rewrite absorb_app by auto. rewrite (whole b2) by lia.
      assert (RN : rest b2 = []).
      { destruct (big 64 B64 T b2 []) as [_ ->]; [lia|]. rewrite skipn_all2 by lia. apply (small 64 T [] []). cbn. lia. }
      rewrite RN. cbn [app]. rewrite whole by lia. auto.
    - replace (Z.to_nat (Z.of_nat k + 1)) with (k + 1)%nat by lia.
      set (z1 := repeat 0 (Z.to_nat (56 - (Z.of_nat k + 1)))).
      assert (Lz1 : length z1 = (55 - k)%nat) by (unfold z1; rewrite repeat_length; lia).
      destruct (blit_at b1 (r ++ [0x80]) (k + 1) z1) as (b3 & E3 & L3 & F3); [auto|lia|]. rewrite E3.
      replace (k + 1 + length z1)%nat with 56%nat in F3 by lia.
      destruct (blit_at b3 _ 56 q1 F3) as (b4 & E4 & L4 & F4); [lia|]. rewrite E4.
      rewrite Lq1 in F4. destruct (blit_at b4 _ 60 q2 F4) as (b5 & E5 & L5 & F5); [lia|]. rewrite E5. f_equal.
      assert (Eb5 : b5 = (((r ++ [128]) ++ z1) ++ q1) ++ q2) by (rewrite <- F5; symmetry; apply firstn_all2; lia).
      rewrite Z.mod_small by lia. replace (repeat 0 (Z.to_nat (55 - Z.of_nat k))) with z1 by (unfold z1; do 2 f_equal; lia).
      replace (r ++ (0x80 :: z1) ++ q1 ++ q2) with b5.
      + rewrite whole by lia. auto.
      + rewrite Eb5. rewrite <- !app_assoc. auto.
  Qed.
End MD5.

(** ** Steps shared by the other contexts *)

Section Steps.
  Variables B BL : nat.
  Hypothesis HB : (0 < B)%nat.
  Hypothesis HBL : (B <= BL)%nat.
  Variable T : list Z -> list Z -> list Z.
  Notation absorb := (absorb B T).
  Notation rest := (rest B).

  (** State and buffer (of [BL] bytes) after the message [m]. *)
  Definition rep (iv s b m : list Z) : Prop :=
    s = absorb iv m /\ length b = BL /\ firstn (length (rest m)) b = rest m.

  (** Not enough for a block. *)
  Lemma rep_short iv s b m d : rep iv s b m -> (length (rest m) + length d < B)%nat ->
    exists b', blit b (length (rest m)) d = Some b' /\ rep iv s b' (m ++ d).
  Proof.
    intros (R1 & R2 & R3) L. destruct (blit_ok b (length (rest m)) d) as (b1 & E1 & L1 & F1 & _); [lia|].
    exists b1. split; auto. unfold rep. rewrite absorb_app, rest_app by auto.
    destruct (small B T (rest m ++ d) (absorb iv m)) as [-> ->]; [rewrite app_length; lia|].
    repeat split; auto; [lia|]. rewrite app_length, F1, R3. auto.
  Qed.

  (** The buffer is completed with [d1], then [d2] follows. *)
  Lemma rep_fill iv s b m d1 d2 : rep iv s b m -> (length (rest m) + length d1)%nat = B ->
    exists b1, blit b (length (rest m)) d1 = Some b1 /\ firstn B b1 = rest m ++ d1 /\ length b1 = BL /\
    absorb iv (m ++ d1 ++ d2) = absorb (T s (firstn B b1)) d2 /\ rest (m ++ d1 ++ d2) = rest d2.
  Proof.
    intros (R1 & R2 & R3) L. destruct (blit_ok b (length (rest m)) d1) as (b1 & E1 & L1 & F1 & _); [lia|].
    exists b1. split; auto. rewrite L in F1. rewrite F1, R3. split; auto. split; [lia|].
    rewrite absorb_app, rest_app by auto. rewrite <- R1.
    destruct (big B HB T (rest m ++ d1 ++ d2) s) as [-> ->]; [rewrite !app_length; lia|].
    rewrite app_assoc, firstn_app, skipn_app.
    rewrite (firstn_all2 (n := B) (rest m ++ d1)), (skipn_all2 (n := B) (rest m ++ d1)) by (rewrite app_length; lia).
    replace (B - length (rest m ++ d1))%nat with 0%nat by (rewrite app_length; lia).
    rewrite firstn_O, skipn_O, app_nil_r. auto.
  Qed.

  Lemma rep_empty iv s b m d : rep iv s b m -> rest m = [] ->
    absorb iv (m ++ d) = absorb s d /\ rest (m ++ d) = rest d.
  Proof. intros (R1 & R2 & R3) E. rewrite absorb_app, rest_app, E, <- R1 by auto. auto. Qed.

  (** What is left goes to the front of the buffer. *)
  Lemma rep_tail iv s b m : s = absorb iv m -> length b = BL -> exists b', blit b 0 (rest m) = Some b' /\ rep iv s b' m.
  Proof.
    intros R1 R2. pose proof (rest_lt B HB m).
    destruct (blit_ok b 0 (rest m)) as (b2 & E1 & L1 & F1 & _); [lia|].
    exists b2. repeat split; auto. lia.
  Qed.
End Steps.

Lemma firstn_app_split {A} (n k : nat) (l : list A) : (k <= n)%nat ->
  firstn n l = firstn k l ++ firstn (n - k) (skipn k l).
Proof.
  intros. rewrite <- (firstn_skipn k (firstn n l)) at 1. rewrite firstn_firstn_le, skipn_firstn_add by auto. auto.
Qed.

Lemma be_bytes_len n w : length (be_bytes n w) = n.
Proof. unfold be_bytes. rewrite rev_length. apply le_bytes_len. Qed.

Lemma be_bytes_app n k w : be_bytes (n + k) w = be_bytes k (w / 256 ^ Z.of_nat n) ++ be_bytes n w.
Proof. unfold be_bytes. rewrite le_bytes_app, rev_app_distr. auto. Qed.

Lemma be_bytes_mod n w : be_bytes n (w mod 256 ^ Z.of_nat n) = be_bytes n w.
Proof. unfold be_bytes. rewrite le_bytes_mod. auto. Qed.

Lemma firstn_cons_repeat n k : 1 <= n -> n <= 1 + Z.of_nat k -> firstn (Z.to_nat n) (0x80 :: repeat 0 k) = 0x80 :: repeat 0 (Z.to_nat (n - 1)).
Proof.
  intros. replace (Z.to_nat n) with (S (Z.to_nat (n - 1))) by lia. cbn [firstn]. f_equal.
  replace k with (Z.to_nat (n - 1) + (k - Z.to_nat (n - 1)))%nat by lia. rewrite repeat_app, firstn_app, repeat_length, Nat.sub_diag, firstn_O, app_nil_r.
  apply firstn_all2. rewrite repeat_length. lia.
Qed.

(** ** SHA-1 *)

Section SHA1.
  Variable T : list Z -> list Z -> list Z.
  Notation absorb := (absorb 64 T).
  Notation rest := (rest 64).

  Lemma sha1_blocks_ok fuel : forall h w data len,
    length w = 64%nat -> 0 <= len <= zlen data -> len < 2 ^ 64 -> (Z.to_nat len < fuel)%nat ->
    exists w', sha1_blocks T fuel h w data len = Some (absorb h (firstn (Z.to_nat len) data), w') /\
      length w' = 64%nat /\
      firstn (length (rest (firstn (Z.to_nat len) data))) w' = rest (firstn (Z.to_nat len) data).
  Proof.
    induction fuel as [|f IH]; intros h b data len Lb Hl H32 Hf; [lia|]. cbn [sha1_blocks]. unfold zlen in Hl.
    set (d := firstn (Z.to_nat len) data). assert (Ld : length d = Z.to_nat len) by (apply firstn_length_le; lia).
    destruct (Z.leb_spec 64 len).
    - rewrite slice0 by lia. unfold u64. rewrite Z.mod_small by lia.
      destruct (IH (T h (firstn 64 data)) b (skipn 64 data) (len - 64)) as (b' & E & Lb' & F); try lia.
      { unfold zlen. rewrite skipn_length. lia. }
      exists b'. rewrite E.
      destruct (big 64 B64 T d h) as [-> ->]; [lia|].
      assert (Ed : skipn 64 d = firstn (Z.to_nat (len - 64)) (skipn 64 data)).
      { unfold d. rewrite skipn_firstn_add. f_equal. lia. }
      rewrite Ed. assert (Ef : firstn 64 d = firstn 64 data) by (apply firstn_firstn_le; lia). rewrite Ef. auto.
    - destruct (small 64 T d h) as [-> ->]; [lia|].
      destruct (Z.eqb_spec len 0).
      + exists b. assert (Dn : d = []) by (apply length_zero_iff_nil; lia). rewrite Dn. auto.
      + rewrite slice0 by lia. fold d. destruct (blit_ok b 0 d) as (b1 & E1 & Lb1 & F1 & _); [lia|]. rewrite E1.
        exists b1. split; auto. split; auto. lia.
  Qed.

  Definition sha1_rep (iv : list Z) (c : ctx) (m : list Z) : Prop :=
    rep 64 64 T iv (st c) (buf c) m /\ cnt c = zlen m mod 2 ^ 64.

  Lemma sha1_update_ok iv c m data len :
    sha1_rep iv c m -> 0 <= len <= zlen data -> len < 2 ^ 64 ->
    exists c', sha1_update T c data len = Some c' /\ sha1_rep iv c' (m ++ firstn (Z.to_nat len) data).
  Proof.
    intros (R & R4) Hl H64. unfold sha1_update. rewrite land63, R4, (cnt64_mod m). unfold zlen in Hl.
    pose proof (rest_lt 64 B64 m) as RL. set (d := firstn (Z.to_nat len) data).
    assert (Ld : length d = Z.to_nat len) by (apply firstn_length_le; lia).
    assert (Zd : zlen d = len) by (unfold zlen; lia).
    assert (CNT : u64 (zlen m mod 2 ^ 64 + len) = zlen (m ++ d) mod 2 ^ 64).
    { unfold u64. rewrite zlen_app, Zd. apply Zplus_mod_idemp_l. }
    pose proof R as (R1 & R2 & R3).
    destruct (Z.eqb_spec (zlen (rest m)) 0) as [E0|N0].
    - assert (En : rest m = []) by (apply length_zero_iff_nil; unfold zlen in E0; lia).
      destruct (sha1_blocks_ok (S (length data)) (st c) (buf c) data len) as (b' & E & Lb' & F); auto; try (unfold zlen; lia).
      rewrite E. eexists. split; [reflexivity|]. cbn [fst snd]. fold d in F |- *.
      split; [|auto]. cbn [st buf]. destruct (rep_empty 64 64 B64 T iv _ _ m d R En) as [A1 A2].
      split; [symmetry; exact A1|]. rewrite A2. split; [lia|auto].
    - change (zlen (rest m)) with (Z.of_nat (length (rest m))) in *. set (k := length (rest m)) in *. rewrite Nat2Z.id.
      destruct (Z.ltb_spec len (64 - Z.of_nat k)).
      + rewrite slice0 by lia. fold d.
        destruct (rep_short 64 64 B64 (le_n _) T iv _ _ m d R) as (b1 & E1 & R'); [fold k; lia|]. fold k in E1. rewrite E1.
        rewrite land63, (Z.mod_small (Z.of_nat k + len)) by lia.
        destruct (Z.eqb_spec (Z.of_nat k + len) 0); [lia|]. cbn [negb]. eexists. split; [reflexivity|].
        split; [|auto]. auto.
      + set (l := Z.to_nat (64 - Z.of_nat k)). rewrite slice0 by lia.
        assert (Lf : length (firstn l data) = l) by (apply firstn_length_le; lia).
        replace (Z.land (Z.of_nat k + (64 - Z.of_nat k)) 63) with 0.
        2:{ replace (Z.of_nat k + (64 - Z.of_nat k)) with 64 by lia. reflexivity. }
        cbn [Z.eqb negb]. unfold u64 at 1. rewrite Z.mod_small by lia.
        assert (Hd : d = firstn l data ++ firstn (Z.to_nat (len - (64 - Z.of_nat k))) (skipn l data)).
        { unfold d. rewrite (firstn_app_split _ l) by lia. do 2 f_equal. lia. }
        set (d2 := firstn _ (skipn l data)) in *.
        destruct (rep_fill 64 64 B64 (le_n _) T iv _ _ m (firstn l data) d2 R) as (b1 & E1 & A0 & A1 & A2 & A3); [fold k; lia|].
        fold k in E1. rewrite E1. rewrite (firstn_all2 (n := 64) b1) in A2 by lia.
        destruct (sha1_blocks_ok (S (length data)) (T (st c) b1) b1 (skipn l data) (len - (64 - Z.of_nat k)))
          as (b' & E & Lb' & F); auto; try (unfold zlen; rewrite ?skipn_length; lia).
        rewrite E. eexists. split; [reflexivity|]. cbn [fst snd]. fold d2 in F |- *.
        split; [|auto]. cbn [st buf]. rewrite Hd. split; [symmetry; exact A2|]. rewrite A3. split; auto.
  Qed.

  Lemma be_len8 n : 0 <= n -> be_bytes 4 (u32 (Z.shiftr (n mod 2 ^ 64) 29)) ++ be_bytes 4 (u32 (u64 (Z.shiftl (n mod 2 ^ 64) 3))) =
    be_bytes 8 (8 * n mod 2 ^ 64).
  Proof. intros. unfold be_bytes. rewrite <- rev_app_distr, len8 by auto. auto. Qed.

  Lemma sha1_final_ok iv c m : sha1_rep iv c m -> sha1_final T c = Some (absorb iv (sha1_message m)).
  Proof.
    intros R. unfold sha1_final. pose proof R as (_ & R4). rewrite R4, be_len8 by apply zlen_nonneg.
    rewrite land63, (cnt64_mod m). rewrite Z.land_comm, land63.
    set (n := 1 + (55 - zlen (rest m)) mod 64).
    assert (Hn : 1 <= n <= 64) by (unfold n; pose proof (Z.mod_pos_bound (55 - zlen (rest m)) 64); lia).
    destruct (sha1_update_ok iv c m (0x80 :: repeat 0 63) n R) as (c1 & E1 & R1).
    { change (zlen (0x80 :: repeat 0 63)) with 64. lia. } { lia. }
    rewrite E1. rewrite firstn_cons_repeat in R1 by lia.
    assert (P : 0x80 :: repeat 0 (Z.to_nat (n - 1)) = md_pad 64 8 m).
    { unfold md_pad, n. do 3 f_equal. rewrite (zrest 64 B64). change (Z.of_nat 64) with 64.
      rewrite Z.add_simpl_l, Zminus_mod_idemp_r. reflexivity. }
    rewrite P in R1.
    destruct (sha1_update_ok iv c1 _ (be_bytes 8 (8 * zlen m mod 2 ^ 64)) 8 R1) as (c2 & E2 & R2); [|lia|].
    { unfold zlen. rewrite be_bytes_len. lia. }
    rewrite E2. change (Z.to_nat 8) with 8%nat in R2.
    rewrite firstn_all2 in R2 by (rewrite be_bytes_len; lia). destruct R2 as ((-> & _) & _).
    unfold sha1_message. rewrite <- app_assoc. auto.
  Qed.
End SHA1.

(** ** The loop of sha256 and sha3 *)

Section SrcLoop.
  Variable T : list Z -> list Z -> list Z.
  Variable bs : Z.
  Hypothesis Hbs : 0 < bs.
  Notation B := (Z.to_nat bs).
  Notation absorb := (absorb B T).
  Notation rest := (rest B).

  Lemma src_loop_ok data len : 0 <= len <= zlen data -> len + bs <= 2 ^ 32 ->
    forall fuel s src blk done0 done1,
    slice src 0 B = Some blk -> u32 (done0 + bs) = done1 -> done1 <= len -> (Z.to_nat (len - done1) < fuel)%nat ->
    let d := firstn (Z.to_nat len) data in
    exists done', src_loop T bs fuel s src data done0 len = Some (absorb (T s blk) (skipn (Z.to_nat done1) d), done') /\
      skipn (Z.to_nat done') d = rest (skipn (Z.to_nat done1) d) /\ 0 <= done' <= len.
  Proof.
    intros Hl H32. unfold zlen in Hl. induction fuel as [|f IH]; intros s src blk done0 done1 Hs Hd Hle Hf d; [lia|].
    cbn [src_loop]. rewrite Hs, Hd. assert (D0 : 0 <= done1) by (subst done1; apply Z.mod_pos_bound; lia).
    assert (HB : (0 < B)%nat) by lia.
    assert (Ld : length d = Z.to_nat len) by (apply firstn_length_le; lia).
    unfold u32 at 1. rewrite Z.mod_small by lia.
    destruct (Z.ltb_spec (done1 + (bs - 1)) len).
    - destruct (IH (T s blk) (skipn (Z.to_nat done1) data) (firstn B (skipn (Z.to_nat done1) data)) done1 (done1 + bs))
        as (done' & E & S1 & S2); try lia.
      { apply slice0. rewrite skipn_length. lia. }
      { unfold u32. apply Z.mod_small. lia. }
      exists done'. rewrite E. fold d in S1 |- *.
      destruct (big B HB T (skipn (Z.to_nat done1) d) (T s blk)) as [-> ->]; [rewrite skipn_length; lia|].
      rewrite skipn_skipn'. rewrite S1.
      replace (Z.to_nat (done1 + bs)) with (Z.to_nat done1 + B)%nat by lia. split; [|auto].
      do 4 f_equal. unfold d. rewrite skipn_firstn_add. rewrite firstn_firstn_le by lia. auto.
    - exists done1. destruct (small B T (skipn (Z.to_nat done1) d) (T s blk)) as [-> ->]; [rewrite skipn_length; lia|].
      auto.
  Qed.
End SrcLoop.

(** Both loops, from the buffer or straight from the data. [cnt] is the partial count. *)
Section SrcUpdate.
  Variable T : list Z -> list Z -> list Z.
  Variable bs : Z.
  Variable BL : nat.
  Hypothesis Hbs : 0 < bs.
  Notation B := (Z.to_nat bs).
  Hypothesis HBL : (B <= BL)%nat.
  Notation absorb := (absorb B T).
  Notation rest := (rest B).

  Lemma src_update iv s b m data len k : rep B BL T iv s b m -> k = zlen (rest m) -> 0 <= len <= zlen data ->
    len + bs <= 2 ^ 32 -> bs <= k + len ->
    let d := firstn (Z.to_nat len) data in
    exists done0 b1 src s' done' b', 
      (if k =? 0 then Some (0, b, data)
       else do x <- slice data 0 (Z.to_nat (u32 (u32 (- k) + bs)));
            do b1 <- blit b (Z.to_nat k) x; Some (u32 (- k), b1, b1)) = Some (done0, b1, src) /\
      src_loop T bs (S (length data)) s src data done0 len = Some (s', done') /\
      slice (skipn (Z.to_nat done') data) 0 (Z.to_nat (u32 (len - done'))) = Some (rest (m ++ d)) /\
      blit b1 0 (rest (m ++ d)) = Some b' /\ rep B BL T iv s' b' (m ++ d) /\
      u32 (len - done') = zlen (rest (m ++ d)) /\
      (k <> 0 -> k + len = bs -> BL = B -> b' = rest m ++ d).
  Proof.
    intros R Ek Hl H32 Hk d. pose proof Hl as Hl'. unfold zlen in Hl. assert (HB : (0 < B)%nat) by lia.
    pose proof (rest_lt B HB m) as RL.
    assert (Ld : length d = Z.to_nat len) by (apply firstn_length_le; lia).
    pose proof R as (R1 & R2 & R3).
    assert (FIN : forall done', 0 <= done' <= len -> skipn (Z.to_nat done') d = rest (m ++ d) ->
      slice (skipn (Z.to_nat done') data) 0 (Z.to_nat (u32 (len - done'))) = Some (rest (m ++ d)) /\
      u32 (len - done') = zlen (rest (m ++ d))).
    { intros done' H1 H2. unfold u32. rewrite Z.mod_small by lia. rewrite slice0 by (rewrite skipn_length; lia).
      rewrite <- H2. split.
      - unfold d. rewrite skipn_firstn_add. do 2 f_equal. lia.
      - unfold zlen. rewrite skipn_length. lia. }
    destruct (Z.eqb_spec k 0) as [K0|KN].
    - assert (En : rest m = []) by (apply length_zero_iff_nil; unfold zlen in Ek; lia).
      destruct (rep_empty B BL HB T iv _ _ m d R En) as [A1 A2].
      destruct (src_loop_ok T bs Hbs data len Hl' H32 (S (length data)) s data (firstn B data) 0 bs) as (done' & E & S1 & S2); try lia.
      { apply slice0. lia. }
      { unfold u32. apply Z.mod_small. lia. }
      fold d in E, S1.
      assert (A3 : absorb (T s (firstn B data)) (skipn B d) = absorb s d /\ rest (skipn B d) = rest d).
      { destruct (big B HB T d s) as [-> ->]; [lia|]. split; auto. do 2 f_equal.
        unfold d. rewrite firstn_firstn_le by lia. auto. }
      destruct A3 as [A3 A4]. rewrite A3 in E. rewrite A4, <- A2 in S1.
      destruct (FIN done' S2 S1) as [F1 F2].
      destruct (rep_tail B BL HB HBL T iv (absorb s d) b (m ++ d)) as (b' & E2 & R'); auto.
      exists 0, b, data, (absorb s d), done', b'. repeat (split; auto). lia.
    - set (q := bs - k). assert (Uq : u32 (u32 (- k) + bs) = q).
      { unfold u32. rewrite Zplus_mod_idemp_l. unfold q. rewrite Z.mod_small; unfold zlen in Ek; lia. }
      rewrite Uq. rewrite slice0 by (unfold q; unfold zlen in Ek; lia).
      set (d1 := firstn (Z.to_nat q) data).
      assert (Ld1 : length d1 = Z.to_nat q) by (apply firstn_length_le; unfold q; unfold zlen in Ek; lia).
      assert (Hd : d = d1 ++ skipn (Z.to_nat q) d).
      { rewrite <- (firstn_skipn (Z.to_nat q) d) at 1. f_equal. unfold d, d1. apply firstn_firstn_le. unfold q; unfold zlen in Ek; lia. }
      destruct (rep_fill B BL HB HBL T iv _ _ m d1 (skipn (Z.to_nat q) d) R) as (b1 & E1 & A0 & A1 & A2 & A3).
      { unfold q in Ld1; unfold zlen in Ek; lia. }
      rewrite <- Hd in A2, A3.
      replace (Z.to_nat k) with (length (rest m)) by (unfold zlen in Ek; lia). rewrite E1.
      destruct (src_loop_ok T bs Hbs data len Hl' H32 (S (length data)) s b1 (firstn B b1) (u32 (- k)) q) as (done' & E & S1 & S2);
        try (unfold q in *; unfold zlen in Ek; lia).
      { apply slice0. lia. }
      fold d in E, S1. rewrite <- A2 in E. rewrite <- A3 in S1.
      destruct (FIN done' S2 S1) as [F1 F2].
      destruct (rep_tail B BL HB HBL T iv (absorb iv (m ++ d)) b1 (m ++ d)) as (b' & E2 & R'); auto.
      exists (u32 (- k)), b1, b1, (absorb iv (m ++ d)), done', b'. repeat (split; auto).
      intros _ Hex HeqB.
      assert (Sn : skipn (Z.to_nat q) d = []) by (apply skipn_all2; unfold q; lia).
      rewrite Sn in A3. destruct (small B T [] []) as [_ RN]; [cbn; lia|]. rewrite RN in A3. rewrite A3 in E2.
      destruct (blit_ok b1 0 (@nil Z)) as (b2 & E3 & _ & _ & K2); [cbn; lia|]. rewrite E2 in E3. injection E3 as <-.
      cbn [length Nat.add] in K2. rewrite !skipn_O in K2. rewrite K2.
      rewrite firstn_all2 in A0 by lia. rewrite A0. f_equal. rewrite Sn, app_nil_r in Hd. auto.
  Qed.
End SrcUpdate.

(** ** SHA-256 *)

Section SHA256.
  Variable T : list Z -> list Z -> list Z.
  Notation absorb := (absorb 64 T).
  Notation rest := (rest 64).

  Definition sha256_rep (iv : list Z) (c : ctx) (m : list Z) : Prop :=
    rep 64 64 T iv (st c) (buf c) m /\ cnt c = zlen m mod 2 ^ 32.

  Lemma cnt32_mod m : (zlen m mod 2 ^ 32) mod 64 = zlen (rest m).
  Proof. rewrite (zrest 64 B64). change (Z.of_nat 64) with (2 ^ 6). change 64 with (2 ^ 6). apply mod_mod_pow. lia. Qed.

  Lemma sha256_update_ok iv c m data len :
    sha256_rep iv c m -> 0 <= len <= zlen data -> len + 64 <= 2 ^ 32 ->
    exists c', sha256_update T c data len = Some c' /\ sha256_rep iv c' (m ++ firstn (Z.to_nat len) data) /\
      (zlen (rest m) <> 0 -> zlen (rest m) + len = 64 -> buf c' = rest m ++ firstn (Z.to_nat len) data).
  Proof.
    intros (R & R4) Hl H32. unfold sha256_update. rewrite land63, R4, (cnt32_mod m).
    pose proof (rest_lt 64 B64 m) as RL. set (d := firstn (Z.to_nat len) data).
    assert (Ld : length d = Z.to_nat len) by (apply firstn_length_le; unfold zlen in Hl; lia).
    assert (Zd : zlen d = len) by (unfold zlen in *; lia).
    assert (CNT : u32 (zlen m mod 2 ^ 32 + len) = zlen (m ++ d) mod 2 ^ 32).
    { unfold u32. rewrite zlen_app, Zd. apply Zplus_mod_idemp_l. }
    assert (Zk : 0 <= zlen (rest m) < 64) by (unfold zlen; lia).
    unfold u32 at 1. rewrite Z.mod_small by lia.
    destruct (Z.ltb_spec 63 (zlen (rest m) + len)) as [G|L].
    - destruct (src_update T 64 64 eq_refl (le_n _) iv (st c) (buf c) m data len (zlen (rest m)) R eq_refl Hl H32)
        as (done0 & b1 & src & s' & done' & b' & E1 & E2 & E3 & E4 & R' & E5 & E6); [lia|].
      fold d in E3, E4, R', E5, E6. rewrite E1, E2. cbn [fst snd]. rewrite E3, E4.
      eexists. split; [reflexivity|]. split; [split; auto|]. intros H1 H2. cbn [buf]. auto.
    - destruct (rep_short 64 64 B64 (le_n _) T iv _ _ m d R) as (b1 & E1 & R').
      { unfold zlen in *. lia. }
      rewrite slice0 by (unfold zlen in Hl; lia). fold d. unfold zlen at 1. rewrite Nat2Z.id, E1.
      eexists. split; [reflexivity|]. split; [split; auto|]. intros; lia.
  Qed.

  Lemma pad64 m : let i := zlen (rest m) in
    (if i <? 56 then 56 - i else 64 + 56 - i) = 1 + (55 - zlen m) mod 64.
  Proof.
    intros i. pose proof (rest_lt 64 B64 m). assert (Hi : 0 <= i < 64) by (unfold i, zlen; lia).
    assert (E : (55 - zlen m) mod 64 = (55 - i) mod 64).
    { unfold i. rewrite (zrest 64 B64). change (Z.of_nat 64) with 64. rewrite Zminus_mod_idemp_r. auto. }
    rewrite E. destruct (Z.ltb_spec i 56).
    - rewrite Z.mod_small; lia.
    - replace (55 - i) with (119 - i + (-1) * 64) by lia. rewrite Z_mod_plus_full, Z.mod_small; lia.
  Qed.


  Lemma rest_end B m : (0 < B)%nat -> exists p, m = p ++ DigestSpec.rest B m.
  Proof. intros. exists (firstn (nfull B m * B) m). unfold DigestSpec.rest. symmetry. apply firstn_skipn. Qed.

  Lemma last_rest B m d : (0 < B)%nat -> (length (DigestSpec.rest B m) + length d)%nat = B ->
    last_bytes B (m ++ d) = DigestSpec.rest B m ++ d.
  Proof.
    intros HB L. destruct (rest_end B m HB) as [p Ep]. rewrite Ep at 1. unfold last_bytes.
    rewrite <- app_assoc. rewrite app_length.
    replace (length p + length (DigestSpec.rest B m ++ d) - B)%nat with (length p) by (rewrite app_length; lia).
    rewrite skipn_app, skipn_all, Nat.sub_diag. auto.
  Qed.

  Lemma sha256_final_ok iv c m : sha256_rep iv c m -> (8 <= length (absorb iv (sha256_fio_message m)))%nat ->
    sha256_final T c = Some (map u8 (firstn 8 (absorb iv (sha256_fio_message m))) ++
                             skipn 8 (last_bytes 64 (sha256_fio_message m))).
  Proof.
    intros R L8. unfold sha256_final. pose proof R as (_ & R4). rewrite land63, R4, (cnt32_mod m).
    pose proof (pad64 m) as P64. cbv zeta in P64. rewrite P64.
    set (n := 1 + (55 - zlen m) mod 64).
    assert (Hn : 1 <= n <= 64) by (unfold n; pose proof (Z.mod_pos_bound (55 - zlen m) 64); lia).
    destruct (sha256_update_ok iv c m (0x80 :: repeat 0 63) n R) as (c1 & E1 & R1 & _).
    { change (zlen (0x80 :: repeat 0 63)) with 64. lia. } { lia. }
    rewrite E1. rewrite firstn_cons_repeat in R1 by lia.
    assert (P : 0x80 :: repeat 0 (Z.to_nat (n - 1)) = md_pad 64 8 m).
    { unfold md_pad, n. do 3 f_equal. rewrite Z.add_simpl_l. reflexivity. }
    rewrite P in R1.
    assert (Z1 : zlen (rest (m ++ md_pad 64 8 m)) = 56).
    { rewrite (zrest 64 B64), zlen_app, <- P. unfold zlen at 2. cbn [length]. rewrite repeat_length.
      unfold n. rewrite Nat2Z.inj_succ, Z2Nat.id by lia. change (Z.of_nat 64) with 64.
      rewrite <- Zplus_mod_idemp_r. replace (Z.succ (1 + (55 - zlen m) mod 64 - 1)) with (1 + (55 - zlen m) mod 64) by lia.
      rewrite Zplus_mod_idemp_r. rewrite Z.add_assoc, Zplus_mod_idemp_r.
      replace (zlen m + 1 + (55 - zlen m)) with 56 by lia. auto. }
    assert (Eb : u64 (Z.shiftl (zlen m mod 2 ^ 32) 3) = 8 * (zlen m mod 2 ^ 32)).
    { rewrite Z.shiftl_mul_pow2 by lia. unfold u64. pose proof (Z.mod_pos_bound (zlen m) (2 ^ 32)). rewrite Z.mod_small; lia. }
    rewrite Eb. set (lb := le_bytes 8 (8 * (zlen m mod 2 ^ 32))) in *.
    assert (Ll : length lb = 8%nat) by apply le_bytes_len.
    destruct (sha256_update_ok iv c1 _ lb 8 R1) as (c2 & E2 & R2 & B2); [unfold zlen; lia|lia|].
    rewrite E2. change (Z.to_nat 8) with 8%nat in R2, B2.
    rewrite firstn_all2 in R2, B2 by lia. rewrite Z1 in B2. specialize (B2 ltac:(lia) eq_refl).
    destruct R2 as ((S2 & L2 & _) & _). unfold sha256_fio_message in *. fold lb in L8 |- *. rewrite <- app_assoc in S2.
    rewrite S2. set (h := absorb iv _) in *.
    destruct (blit_ok (buf c2) 0 (map u8 (firstn 8 h))) as (b & Eblit & Lb & F & K).
    { rewrite map_length, firstn_length_le; lia. }
    rewrite Eblit. f_equal. rewrite <- (firstn_skipn 8 b).
    rewrite map_length, firstn_length_le in F, K by lia. change (0 + 8)%nat with 8%nat in F, K. rewrite F, K, B2.
    rewrite firstn_O. cbn [app]. f_equal. f_equal.
    rewrite app_assoc. symmetry. apply last_rest; [lia|]. unfold zlen in Z1. lia.
  Qed.
End SHA256.

(** ** SHA-512 *)

Section SHA512.
  Variable T : list Z -> list Z -> list Z.
  Notation absorb := (absorb 128 T).
  Notation rest := (rest 128).
  Lemma B128 : (0 < 128)%nat. Proof. lia. Qed.

  Lemma sha512_blocks_ok data len : 0 <= len <= zlen data -> len + 128 <= 2 ^ 32 ->
    forall fuel s i, 0 <= i <= len -> (Z.to_nat (len - i) < fuel)%nat ->
    let d := firstn (Z.to_nat len) data in
    exists i', sha512_blocks T fuel s data i len = Some (absorb s (skipn (Z.to_nat i) d), i') /\
      skipn (Z.to_nat i') d = rest (skipn (Z.to_nat i) d) /\ 0 <= i' <= len.
  Proof.
    intros Hl H32. unfold zlen in Hl. induction fuel as [|f IH]; intros s i Hi Hf d; [lia|]. cbn [sha512_blocks].
    assert (Ld : length d = Z.to_nat len) by (apply firstn_length_le; lia).
    unfold u32 at 1. rewrite Z.mod_small by lia. destruct (Z.ltb_spec (i + 127) len).
    - rewrite slice0 by (rewrite skipn_length; lia). unfold u32. rewrite Z.mod_small by lia.
      destruct (IH (T s (firstn 128 (skipn (Z.to_nat i) data))) (i + 128)) as (i' & E & S1 & S2); try lia.
      exists i'. rewrite E. fold d in S1 |- *.
      destruct (big 128 B128 T (skipn (Z.to_nat i) d) s) as [-> ->]; [rewrite skipn_length; lia|].
      rewrite skipn_skipn'. rewrite S1. replace (Z.to_nat (i + 128)) with (Z.to_nat i + 128)%nat by lia.
      split; [|auto]. do 4 f_equal. unfold d. rewrite skipn_firstn_add. rewrite firstn_firstn_le by lia. auto.
    - exists i. destruct (small 128 T (skipn (Z.to_nat i) d) s) as [-> ->]; [rewrite skipn_length; lia|]. auto.
  Qed.

  Definition cnt512 (c : ctx512) : Z := cnt0 c + 2 ^ 32 * (cnt1 c + 2 ^ 32 * (cnt2 c + 2 ^ 32 * cnt3 c)).
  Definition w32r (x : Z) : Prop := 0 <= x < 2 ^ 32.

  Definition sha512_rep (iv : list Z) (c : ctx512) (m : list Z) : Prop :=
    rep 128 128 T iv (st5 c) (buf5 c) m /\ w32r (cnt0 c) /\ w32r (cnt1 c) /\ w32r (cnt2 c) /\ w32r (cnt3 c) /\
    cnt512 c = 8 * zlen m mod 2 ^ 128.

  Lemma idx512 iv c m : sha512_rep iv c m -> Z.land (Z.shiftr (cnt0 c) 3) 0x7f = zlen (rest m).
  Proof.
    intros (_ & R0 & R1 & R2 & R3 & E). rewrite land127, (zrest 128 B128). change (Z.of_nat 128) with 128.
    assert (E0 : cnt0 c = (8 * zlen m) mod 2 ^ 32).
    { rewrite <- (mod_mod_pow (8 * zlen m) 128 32) by lia. rewrite <- E. unfold cnt512.
      rewrite Z.mul_comm, Z_mod_plus_full, Z.mod_small; auto. }
    rewrite E0, Z.shiftr_div_pow2 by lia. change (2 ^ 3) with 8.
    change (2 ^ 32) with (8 * 2 ^ 29). rewrite Zmult_mod_distr_l.
    rewrite (Z.mul_comm 8), Z.div_mul by lia. change 128 with (2 ^ 7). apply mod_mod_pow. lia.
  Qed.

  Lemma count512 c0 c1 c2 c3 l : w32r c0 -> w32r c1 -> w32r c2 -> w32r c3 -> 0 <= l < 2 ^ 32 ->
    let n0 := u32 (c0 + l) in
    let '(n1, n2, n3) :=
      if n0 <? l then
        let c1' := u32 (c1 + 1) in
        let '(c2', c3') :=
          if c1' <? 1 then
            let c2' := u32 (c2 + 1) in
            if c2' <? 1 then (c2', u32 (c3 + 1)) else (c2', c3)
          else (c2, c3) in
        (u32 (c1' + 0), c2', c3')
      else (c1, c2, c3) in
    w32r n0 /\ w32r n1 /\ w32r n2 /\ w32r n3 /\
    n0 + 2 ^ 32 * (n1 + 2 ^ 32 * (n2 + 2 ^ 32 * n3)) =
      (c0 + 2 ^ 32 * (c1 + 2 ^ 32 * (c2 + 2 ^ 32 * c3)) + l) mod 2 ^ 128.
  Proof.
    intros H0 H1 H2 H3 Hl n0. unfold w32r in *.
    assert (INC : forall x, 0 <= x < 2 ^ 32 -> (u32 (x + 1) = 0 /\ x = 2 ^ 32 - 1) \/ (u32 (x + 1) = x + 1 /\ x < 2 ^ 32 - 1)).
    { intros x Hx. unfold u32. destruct (Z.eq_dec x (2 ^ 32 - 1)) as [->|]; [left; split; reflexivity|].
      right. rewrite Z.mod_small; lia. }
    assert (UZ : forall x, u32 (u32 x + 0) = u32 x) by (intros; rewrite Z.add_0_r; unfold u32; apply Z.mod_mod; lia).
    assert (U0 : (n0 = c0 + l /\ c0 + l < 2 ^ 32) \/ (n0 = c0 + l - 2 ^ 32 /\ 2 ^ 32 <= c0 + l)).
    { unfold n0, u32. destruct (Z.lt_ge_cases (c0 + l) (2 ^ 32)); [left; rewrite Z.mod_small; lia|].
      right. split; auto. replace (c0 + l) with (c0 + l - 2 ^ 32 + 1 * 2 ^ 32) at 1 by lia. rewrite Z_mod_plus_full, Z.mod_small; lia. }
    assert (FIN : forall v s, 0 <= v < 2 ^ 128 -> v = s -> v = s mod 2 ^ 128) by (intros; subst; rewrite Z.mod_small; auto).
    assert (WRAP : forall v s, 0 <= v < 2 ^ 128 -> v = s - 2 ^ 128 -> v = s mod 2 ^ 128).
    { intros v s Hv ->. replace s with (s - 2 ^ 128 + 1 * 2 ^ 128) at 2 by lia. rewrite Z_mod_plus_full, Z.mod_small; auto. }
    destruct (Z.ltb_spec n0 l).
    - destruct (INC c1 H1) as [[E1 V1]|[E1 V1]]; rewrite UZ, E1; cbv beta zeta iota.
      + replace (0 <? 1) with true by reflexivity.
        destruct (INC c2 H2) as [[E2 V2]|[E2 V2]]; rewrite E2.
        * replace (0 <? 1) with true by reflexivity.
          destruct (INC c3 H3) as [[E3 V3]|[E3 V3]]; rewrite E3; repeat (split; [lia|]).
          -- apply WRAP; lia.
          -- apply FIN; lia.
        * replace (c2 + 1 <? 1) with false by (symmetry; apply Z.ltb_ge; lia).
          repeat (split; [lia|]). apply FIN; lia.
      + replace (c1 + 1 <? 1) with false by (symmetry; apply Z.ltb_ge; lia).
        repeat (split; [lia|]). apply FIN; lia.
    - repeat (split; [lia|]). apply FIN; lia.
  Qed.

  (** The buffer and state for any length; the count only if the length in bits fits 32 bits. *)
  Lemma sha512_update_gen iv c m data len :
    sha512_rep iv c m -> 0 <= len <= zlen data -> len + 128 <= 2 ^ 32 ->
    exists c', sha512_update T c data len = Some c' /\
      rep 128 128 T iv (st5 c') (buf5 c') (m ++ firstn (Z.to_nat len) data) /\
      (len < 2 ^ 29 -> sha512_rep iv c' (m ++ firstn (Z.to_nat len) data)) /\
      (zlen (rest m) + len = 128 -> buf5 c' = rest m ++ firstn (Z.to_nat len) data).
  Proof.
    intros RR Hl H32. unfold sha512_update. rewrite (idx512 iv c m RR).
    destruct RR as (R & W0 & W1 & W2 & W3 & R4).
    pose proof (rest_lt 128 B128 m) as RL. set (d := firstn (Z.to_nat len) data).
    assert (Ld : length d = Z.to_nat len) by (apply firstn_length_le; unfold zlen in Hl; lia).
    assert (Zd : zlen d = len) by (unfold zlen in *; lia).
    assert (Zk : 0 <= zlen (rest m) < 128) by (unfold zlen; lia).
    assert (L3 : len < 2 ^ 29 -> u32 (Z.shiftl len 3) = 8 * len).
    { intros. rewrite Z.shiftl_mul_pow2 by lia. unfold u32. rewrite Z.mod_small; lia. }
    assert (L29 : len < 2 ^ 29 -> Z.shiftr len 29 = 0) by (intros; rewrite Z.shiftr_div_pow2 by lia; apply Z.div_small; lia).
    assert (CN := fun H : len < 2 ^ 29 => count512 (cnt0 c) (cnt1 c) (cnt2 c) (cnt3 c) (8 * len) W0 W1 W2 W3 ltac:(lia)).
    cbv zeta in CN.
    assert (CN' : len < 2 ^ 29 -> _) by (intros H; specialize (CN H); rewrite <- (L29 H), <- (L3 H) in CN; exact CN).
    clear CN. set (n0 := u32 (cnt0 c + u32 (Z.shiftl len 3))) in *.
    destruct (if n0 <? u32 (Z.shiftl len 3) then _ else _) as [[n1 n2] n3].
    assert (CNT : forall s b, len < 2 ^ 29 -> w32r n0 /\ w32r n1 /\ w32r n2 /\ w32r n3 /\
      cnt512 (mkCtx512 s b n0 n1 n2 n3) = 8 * zlen (m ++ d) mod 2 ^ 128).
    { intros s b H. destruct (CN' H) as (V0 & V1 & V2 & V3 & CN). repeat (split; [assumption|]).
      unfold cnt512. cbn [cnt0 cnt1 cnt2 cnt3]. rewrite CN. fold (cnt512 c). rewrite R4, L3 by auto.
      rewrite Zplus_mod_idemp_l, zlen_app, Zd. f_equal. lia. }
    destruct (Z.leb_spec (128 - zlen (rest m)) len) as [G|L].
    - set (q := 128 - zlen (rest m)). rewrite slice0 by (unfold zlen in *; lia).
      set (d1 := firstn (Z.to_nat q) data).
      assert (Ld1 : length d1 = Z.to_nat q) by (apply firstn_length_le; unfold q; unfold zlen in *; lia).
      assert (Hd : d = d1 ++ skipn (Z.to_nat q) d).
      { rewrite <- (firstn_skipn (Z.to_nat q) d) at 1. f_equal. unfold d, d1. apply firstn_firstn_le. unfold q in *; lia. }
      destruct (rep_fill 128 128 B128 (le_n _) T iv _ _ m d1 (skipn (Z.to_nat q) d) R) as (b1 & E1 & A0 & A1 & A2 & A3).
      { unfold q in Ld1; unfold zlen in *; lia. }
      rewrite <- Hd in A2, A3. rewrite firstn_all2 in A0, A2 by lia.
      unfold zlen at 1. rewrite Nat2Z.id, E1.
      destruct (sha512_blocks_ok data len Hl ltac:(lia) (S (length data)) (T (st5 c) b1) q) as (i' & E & S1 & S2);
        [unfold q; lia|unfold zlen in Hl; lia|].
      fold d in E, S1. rewrite E. cbn [fst snd]. rewrite <- A2, <- A3 in *.
      assert (Eq : slice (skipn (Z.to_nat i') data) 0 (Z.to_nat (u32 (len - i'))) = Some (rest (m ++ d))).
      { unfold u32. rewrite Z.mod_small by lia. rewrite slice0 by (rewrite skipn_length; unfold zlen in Hl; lia).
        rewrite <- S1. unfold d. rewrite skipn_firstn_add. do 2 f_equal. lia. }
      rewrite Eq.
      destruct (rep_tail 128 128 B128 (le_n _) T iv (absorb iv (m ++ d)) b1 (m ++ d)) as (b' & E2 & R'); auto.
      rewrite E2. eexists. split; [reflexivity|]. split; [exact R'|]. split; [intros H29; split; [exact R'|apply CNT; auto]|].
      intros Hex. cbn [buf5].
      assert (Sn : skipn (Z.to_nat q) d = []) by (apply skipn_all2; unfold q; lia).
      assert (RN : rest (m ++ d) = []) by (rewrite A3, Sn; apply (small 128 T [] []); cbn; lia).
      rewrite RN in E2.
      destruct (blit_ok b1 0 (@nil Z)) as (b2 & E3 & _ & _ & K2); [cbn; lia|]. rewrite E2 in E3. injection E3 as <-.
      cbn [length Nat.add] in K2. rewrite !skipn_O in K2. rewrite K2.
      rewrite A0. f_equal. rewrite Sn, app_nil_r in Hd. auto.
    - destruct (rep_short 128 128 B128 (le_n _) T iv _ _ m d R) as (b1 & E1 & R').
      { unfold zlen in *. lia. }
      rewrite slice0 by (unfold zlen in Hl; lia). fold d. unfold zlen at 1. rewrite Nat2Z.id, E1.
      eexists. split; [reflexivity|]. split; [exact R'|]. split; [intros H29; split; [exact R'|apply CNT; auto]|]. intros; lia.
  Qed.

  Lemma sha512_update_ok iv c m data len :
    sha512_rep iv c m -> 0 <= len <= zlen data -> len < 2 ^ 29 ->
    exists c', sha512_update T c data len = Some c' /\ sha512_rep iv c' (m ++ firstn (Z.to_nat len) data) /\
      (zlen (rest m) + len = 128 -> buf5 c' = rest m ++ firstn (Z.to_nat len) data).
  Proof.
    intros R H1 H2. destruct (sha512_update_gen iv c m data len R H1 ltac:(lia)) as (c' & E & _ & K & X). eauto.
  Qed.

  (** The carry that is lost. *)
  Lemma sha512_update_cnt c data len c' : sha512_update T c data len = Some c' -> u32 (Z.shiftl len 3) = 0 ->
    w32r (cnt0 c) -> cnt512 c' = cnt512 c.
  Proof.
    unfold sha512_update. intros E Z0 W. rewrite Z0 in E. rewrite Z.add_0_r in E.
    assert (U : u32 (cnt0 c) = cnt0 c) by (apply Z.mod_small; apply W). rewrite U in E.
    replace (cnt0 c <? 0) with false in E by (symmetry; apply Z.ltb_ge; apply W).
    repeat match type of E with
      | (if ?x then _ else _) = Some _ => destruct x
      | (do _ <- ?x; _) = Some _ => destruct x; try discriminate E
      end; injection E as <-; reflexivity.
  Qed.

  Lemma pad128 m : let i := zlen (rest m) in
    (if i <? 112 then 112 - i else 128 + 112 - i) = 1 + (111 - zlen m) mod 128.
  Proof.
    intros i. pose proof (rest_lt 128 B128 m). assert (Hi : 0 <= i < 128) by (unfold i, zlen; lia).
    assert (E : (111 - zlen m) mod 128 = (111 - i) mod 128).
    { unfold i. rewrite (zrest 128 B128). change (Z.of_nat 128) with 128. rewrite Zminus_mod_idemp_r. auto. }
    rewrite E. destruct (Z.ltb_spec i 112).
    - rewrite Z.mod_small; lia.
    - replace (111 - i) with (239 - i + (-1) * 128) by lia. rewrite Z_mod_plus_full, Z.mod_small; lia.
  Qed.

  Lemma be16 c : w32r (cnt0 c) -> w32r (cnt1 c) -> w32r (cnt2 c) -> w32r (cnt3 c) ->
    be_bytes 4 (cnt3 c) ++ be_bytes 4 (cnt2 c) ++ be_bytes 4 (cnt1 c) ++ be_bytes 4 (cnt0 c) = be_bytes 16 (cnt512 c).
  Proof.
    unfold w32r. intros H0 H1 H2 H3. unfold cnt512.
    set (a := cnt0 c) in *. set (b := cnt1 c) in *. set (e := cnt2 c) in *. set (f := cnt3 c) in *.
    assert (ST : forall k x y, 0 <= x < 2 ^ 32 -> be_bytes (4 + k) (x + 2 ^ 32 * y) = be_bytes k y ++ be_bytes 4 x).
    { intros k x y Hx. rewrite be_bytes_app. change (256 ^ Z.of_nat 4) with (2 ^ 32). f_equal.
      - f_equal. rewrite Z.mul_comm, Z.div_add by lia. rewrite Z.div_small; lia.
      - rewrite <- (be_bytes_mod 4). change (256 ^ Z.of_nat 4) with (2 ^ 32).
        rewrite Z.mul_comm, Z_mod_plus_full. rewrite Z.mod_small by lia. auto. }
    rewrite (ST 12%nat), (ST 8%nat), (ST 4%nat) by lia. rewrite <- !app_assoc. auto.
  Qed.

  Lemma flat_len {A} (f : A -> list Z) n l : (forall x, length (f x) = n) -> length (flat_map f l) = (length l * n)%nat.
  Proof. intros H. induction l as [|a l IH]; cbn [flat_map length]; auto. rewrite app_length, H, IH. lia. Qed.

  Lemma sha512_final_ok iv c m : sha512_rep iv c m -> length (absorb iv (sha512_message m)) = 8%nat ->
    sha512_final T c = Some (flat_map (be_bytes 8) (absorb iv (sha512_message m)) ++
                             skipn 64 (last_bytes 128 (sha512_message m))).
  Proof.
    intros RR L8. unfold sha512_final. rewrite (idx512 iv c m RR). pose proof RR as (R & W0 & W1 & W2 & W3 & R4).
    rewrite be16, R4 by auto.
    pose proof (pad128 m) as P128. cbv zeta in P128. rewrite P128.
    set (n := 1 + (111 - zlen m) mod 128).
    assert (Hn : 1 <= n <= 128) by (unfold n; pose proof (Z.mod_pos_bound (111 - zlen m) 128); lia).
    destruct (sha512_update_ok iv c m (0x80 :: repeat 0 127) n RR) as (c1 & E1 & R1 & _).
    { change (zlen (0x80 :: repeat 0 127)) with 128. lia. } { lia. }
    rewrite E1. rewrite firstn_cons_repeat in R1 by lia.
    assert (P : 0x80 :: repeat 0 (Z.to_nat (n - 1)) = md_pad 128 16 m).
    { unfold md_pad, n. do 3 f_equal. rewrite Z.add_simpl_l. reflexivity. }
    rewrite P in R1.
    assert (Z1 : zlen (rest (m ++ md_pad 128 16 m)) = 112).
    { rewrite (zrest 128 B128), zlen_app, <- P. unfold zlen at 2. cbn [length]. rewrite repeat_length.
      unfold n. rewrite Nat2Z.inj_succ, Z2Nat.id by lia. change (Z.of_nat 128) with 128.
      rewrite <- Zplus_mod_idemp_r. replace (Z.succ (1 + (111 - zlen m) mod 128 - 1)) with (1 + (111 - zlen m) mod 128) by lia.
      rewrite Zplus_mod_idemp_r. rewrite Z.add_assoc, Zplus_mod_idemp_r.
      replace (zlen m + 1 + (111 - zlen m)) with 112 by lia. auto. }
    set (lb := be_bytes 16 (8 * zlen m mod 2 ^ 128)) in *.
    assert (Ll : length lb = 16%nat) by apply be_bytes_len.
    destruct (sha512_update_ok iv c1 _ lb 16 R1) as (c2 & E2 & R2 & B2); [unfold zlen; lia|lia|].
    rewrite E2. change (Z.to_nat 16) with 16%nat in R2, B2.
    rewrite firstn_all2 in R2, B2 by lia. rewrite Z1 in B2. specialize (B2 eq_refl).
    destruct R2 as ((S2 & L2 & _) & _). unfold sha512_message in *. fold lb in L8 |- *. rewrite <- app_assoc in S2.
    rewrite S2. set (h := absorb iv _) in *. rewrite (firstn_all2 (n := 8) h) by lia.
    assert (LH : length (flat_map (be_bytes 8) h) = 64%nat).
    { rewrite (flat_len _ 8) by (intros; apply be_bytes_len). lia. }
    destruct (blit_ok (buf5 c2) 0 (flat_map (be_bytes 8) h)) as (b & Eblit & Lb & F & K); [lia|].
    rewrite Eblit. f_equal. rewrite <- (firstn_skipn 64 b).
    rewrite LH in F, K. change (0 + 64)%nat with 64%nat in F, K. rewrite F, K, B2.
    rewrite firstn_O. cbn [app]. f_equal. f_equal.
    rewrite app_assoc. symmetry. apply last_rest; [lia|]. unfold zlen in Z1. lia.
  Qed.
End SHA512.

(** ** SHA-3 *)

Lemma firstn_repeat {A} (x : A) n k : (n <= k)%nat -> firstn n (repeat x k) = repeat x n.
Proof. revert k. induction n; intros [|k] H; cbn; auto; [lia|]. f_equal. apply IHn. lia. Qed.

Section SHA3.
  Variable T : list Z -> list Z -> list Z.
  Variable rsiz : Z.
  Hypothesis Hr : 0 < rsiz <= 144.
  Notation B := (Z.to_nat rsiz).
  Notation absorb := (absorb B T).
  Notation rest := (rest B).

  Definition sha3_rep (iv : list Z) (c : ctx) (m : list Z) : Prop :=
    rep B 144 T iv (st c) (buf c) m /\ cnt c = zlen (rest m).

  Lemma sha3_update_ok iv c m data len :
    sha3_rep iv c m -> 0 <= len <= zlen data -> len + rsiz <= 2 ^ 32 ->
    exists c', sha3_update T rsiz c data len = Some c' /\ sha3_rep iv c' (m ++ firstn (Z.to_nat len) data).
  Proof.
    intros (R & R4) Hl H32. unfold sha3_update. rewrite R4.
    assert (HB : (0 < B)%nat) by lia. assert (HBL : (B <= 144)%nat) by lia.
    pose proof (rest_lt B HB m) as RL. set (d := firstn (Z.to_nat len) data).
    assert (Ld : length d = Z.to_nat len) by (apply firstn_length_le; unfold zlen in Hl; lia).
    assert (Zd : zlen d = len) by (unfold zlen in *; lia).
    assert (Zk : 0 <= zlen (rest m) < rsiz) by (unfold zlen; lia).
    unfold u32 at 1. rewrite Z.mod_small by lia.
    destruct (Z.ltb_spec (rsiz - 1) (zlen (rest m) + len)) as [G|L].
    - destruct (src_update T rsiz 144 ltac:(lia) HBL iv (st c) (buf c) m data len (zlen (rest m)) R eq_refl Hl H32)
        as (done0 & b1 & src & s' & done' & b' & E1 & E2 & E3 & E4 & R' & E5 & E6); [lia|].
      fold d in E3, E4, R', E5, E6. rewrite E1, E2. cbn [fst snd]. rewrite E3, E4.
      eexists. split; [reflexivity|]. split; auto.
    - destruct (rep_short B 144 HB HBL T iv _ _ m d R) as (b1 & E1 & R').
      { unfold zlen in *. lia. }
      rewrite slice0 by (unfold zlen in Hl; lia). fold d. unfold zlen at 1. rewrite Nat2Z.id, E1.
      eexists. split; [reflexivity|]. split; auto. cbn [cnt]. unfold u32. rewrite Z.mod_small by lia.
      rewrite rest_app by auto. destruct (small B T (rest m ++ d) []) as [_ ->]; [rewrite app_length; unfold zlen in *; lia|].
      rewrite zlen_app. lia.
  Qed.

  Lemma sha3_final_ok iv c m n : sha3_rep iv c m ->
    sha3_final T rsiz n c = Some (firstn n (flat_map (le_bytes 8) (absorb iv (m ++ sha3_pad rsiz m)))).
  Proof.
    intros ((R1 & R2 & R3) & R4). unfold sha3_final. rewrite R4.
    assert (HB : (0 < B)%nat) by lia. assert (HBL : (B <= 144)%nat) by lia.
    pose proof (rest_lt B HB m) as RL. set (k := length (rest m)) in *.
    change (zlen (rest m)) with (Z.of_nat k). rewrite Nat2Z.id.
    replace (Z.to_nat (Z.of_nat k + 1)) with (k + 1)%nat by lia.
    destruct (blit_at (buf c) (rest m) k [0x06]) as (b1 & E1 & L1 & F1); [auto|cbn [length]; lia|]. rewrite E1. cbn [length] in F1.
    set (z := repeat 0 (Z.to_nat (rsiz - (Z.of_nat k + 1)))).
    assert (Lz : length z = (B - (k + 1))%nat) by (unfold z; rewrite repeat_length; lia).
    destruct (blit_at b1 _ (k + 1) z F1) as (b2 & E2 & L2 & F2); [lia|]. rewrite E2.
    replace (k + 1 + length z)%nat with B in F2 by lia.
    assert (X : exists x, znth b2 (rsiz - 1) = Some x).
    { unfold znth. destruct (Z.ltb_spec (rsiz - 1) 0); [lia|].
      destruct (nth_error b2 (Z.to_nat (rsiz - 1))) eqn:E; eauto. apply nth_error_None in E. lia. }
    destruct X as [x Ex]. rewrite Ex.
    assert (Lr : length (rest m ++ [0x06]) = (k + 1)%nat) by (rewrite app_length; reflexivity).
    assert (Nx : nth_error ((rest m ++ [0x06]) ++ z) (B - 1) = Some x).
    { rewrite <- F2. unfold znth in Ex. destruct (rsiz - 1 <? 0); [discriminate|].
      replace (Z.to_nat (rsiz - 1)) with (B - 1)%nat in Ex by lia.
      rewrite <- Ex. rewrite <- (firstn_skipn B b2) at 2. rewrite nth_error_app1; auto.
      rewrite firstn_length_le; lia. }
    assert (F2' : firstn (B - 1) b2 = firstn (B - 1) ((rest m ++ [0x06]) ++ z)).
    { rewrite <- F2. rewrite firstn_firstn_le; auto. lia. }
    replace (Z.to_nat (rsiz - 1)) with (B - 1)%nat by lia.
    destruct (blit_at b2 _ (B - 1) [Z.lor x 0x80] F2') as (b3 & E3 & L3 & F3); [cbn [length]; lia|]. rewrite E3.
    cbn [length] in F3. replace (B - 1 + 1)%nat with B in F3 by lia.
    rewrite slice0 by lia. rewrite F3. do 3 f_equal.
    assert (PAD : firstn (B - 1) ((rest m ++ [0x06]) ++ z) ++ [Z.lor x 0x80] = rest m ++ sha3_pad rsiz m).
    { unfold sha3_pad. replace (zlen m mod rsiz) with (Z.of_nat k).
      2:{ unfold k. change (Z.of_nat (length (rest m))) with (zlen (rest m)). rewrite (zrest B HB). f_equal. lia. }
      destruct (Z.eqb_spec (rsiz - Z.of_nat k) 1) as [E|N].
      - assert (z = []) by (apply length_zero_iff_nil; lia). subst z. rewrite H, app_nil_r in Nx |- *.
        rewrite firstn_app. replace (B - 1 - length (rest m))%nat with 0%nat by (fold k; lia).
        rewrite firstn_O, app_nil_r, firstn_all2 by (fold k; lia).
        rewrite nth_error_app2 in Nx by (fold k; lia). fold k in Nx. replace (B - 1 - k)%nat with 0%nat in Nx by lia.
        injection Nx as <-. reflexivity.
      - assert (Xz : x = 0).
        { rewrite nth_error_app2 in Nx by lia. rewrite Lr in Nx. apply nth_error_In in Nx.
          unfold z in Nx. apply repeat_spec in Nx. auto. }
        subst x. change (Z.lor 0 0x80) with 0x80.
        rewrite firstn_app, Lr. rewrite firstn_all2 by lia.
        rewrite <- app_assoc, <- app_assoc. f_equal. cbn [app]. f_equal. f_equal.
        unfold z. rewrite firstn_repeat by lia. f_equal. lia. }
    rewrite PAD. rewrite absorb_app, <- R1 by auto.
    destruct (big B HB T (rest m ++ sha3_pad rsiz m) (st c)) as [-> _].
    all: rewrite <- PAD; assert (LP : length (firstn (B - 1) ((rest m ++ [0x06]) ++ z) ++ [Z.lor x 0x80]) = B)
      by (rewrite app_length, firstn_length_le by (rewrite app_length; lia); cbn [length]; lia).
    - rewrite LP. lia.
    - set (P := _ ++ [Z.lor x 0x80]) in *. rewrite skipn_all2, firstn_all2 by lia. symmetry. apply (small B T). cbn. lia.
  Qed.
End SHA3.

(** ** xxhash *)

Lemma B16 : (0 < 16)%nat. Proof. lia. Qed.

Lemma xxh_stripes_ok fuel : forall v p, (16 <= length p)%nat -> (length p < fuel)%nat ->
  xxh_stripes fuel v p = Some (absorb 16 xxh_stripe v p, rest 16 p).
Proof.
  induction fuel as [|f IH]; intros v p L H; [lia|]. cbn [xxh_stripes]. rewrite slice0 by lia.
  destruct (big 16 B16 xxh_stripe p v) as [-> ->]; [lia|].
  destruct (Nat.leb_spec 16 (length (skipn 16 p))).
  - apply IH; auto. rewrite skipn_length in *. lia.
  - destruct (small 16 xxh_stripe (skipn 16 p) (xxh_stripe v (firstn 16 p))) as [-> ->]; auto.
Qed.

Definition xxh_rep (seed : Z) (s : xxh_state) (m : list Z) : Prop :=
  rep 16 16 xxh_stripe (xxh_v0 seed) (x_v s) (x_mem s) m /\ x_memsize s = zlen (rest 16 m) /\
  x_total s = zlen m mod 2 ^ 64 /\ x_seed s = seed.

Lemma xxh_update_ok seed s m d : xxh_rep seed s m -> zlen d < 2 ^ 31 ->
  exists s', xxh_update s d = Some s' /\ xxh_rep seed s' (m ++ d).
Proof.
  intros (R & R4 & R5 & R6) H31. unfold xxh_update. rewrite R4.
  pose proof (rest_lt 16 B16 m) as RL. pose proof R as (R1 & R2 & R3).
  assert (CNT : u64 (x_total s + zlen d) = zlen (m ++ d) mod 2 ^ 64).
  { rewrite R5, zlen_app. apply Zplus_mod_idemp_l. }
  destruct (Z.ltb_spec (zlen (rest 16 m) + zlen d) 16) as [L|G].
  - destruct (rep_short 16 16 B16 (le_n _) _ _ _ _ m d R) as (b & E & R'); [unfold zlen in L; lia|].
    unfold zlen at 1. rewrite Nat2Z.id, E. eexists. split; [reflexivity|].
    split; [exact R'|]. cbn [x_memsize x_total x_seed]. split; auto.
    rewrite (rest_app 16 B16 xxh_stripe). destruct (small 16 xxh_stripe (rest 16 m ++ d) []) as [_ ->]; [rewrite app_length; unfold zlen in L; lia|].
    rewrite zlen_app. auto.
  - assert (MID : exists v b p, (if zlen (rest 16 m) =? 0 then Some (x_v s, x_mem s, d)
       else do x <- slice d 0 (Z.to_nat (16 - zlen (rest 16 m)));
            do b <- blit (x_mem s) (Z.to_nat (zlen (rest 16 m))) x;
            Some (xxh_stripe (x_v s) b, b, skipn (Z.to_nat (16 - zlen (rest 16 m))) d)) = Some (v, b, p) /\
       length b = 16%nat /\ absorb 16 xxh_stripe (xxh_v0 seed) (m ++ d) = absorb 16 xxh_stripe v p /\ rest 16 (m ++ d) = rest 16 p).
    { destruct (Z.eqb_spec (zlen (rest 16 m)) 0) as [E0|N0].
      - assert (En : rest 16 m = []) by (apply length_zero_iff_nil; unfold zlen in E0; lia).
        destruct (rep_empty 16 16 B16 _ _ _ _ m d R En) as [A1 A2]. eauto 10.
      - rewrite slice0 by (unfold zlen in *; lia). set (q := Z.to_nat (16 - zlen (rest 16 m))).
        assert (Lq : length (firstn q d) = q) by (apply firstn_length_le; unfold q, zlen in *; lia).
        destruct (rep_fill 16 16 B16 (le_n _) _ _ _ _ m (firstn q d) (skipn q d) R) as (b1 & E1 & A0 & A1 & A2 & A3).
        { unfold q, zlen in *. lia. }
        unfold zlen at 1. rewrite Nat2Z.id, E1. rewrite firstn_skipn in A2, A3. rewrite (firstn_all2 (n := 16) b1) in A2 by lia.
        eauto 10. }
    destruct MID as (v & b & p & E & Lb & A1 & A2). rewrite E.
    assert (ST : (if (16 <=? length p)%nat then xxh_stripes (S (length p)) v p else Some (v, p)) =
      Some (absorb 16 xxh_stripe v p, rest 16 p)).
    { destruct (Nat.leb_spec 16 (length p)).
      - apply xxh_stripes_ok; lia.
      - destruct (small 16 xxh_stripe p v) as [-> ->]; auto. }
    rewrite ST. cbn [fst snd]. rewrite <- A1, <- A2.
    destruct (rep_tail 16 16 B16 (le_n _) xxh_stripe (xxh_v0 seed) _ b (m ++ d) eq_refl Lb) as (b' & E' & R').
    destruct (rest 16 (m ++ d)) as [|x t] eqn:ER.
    + eexists. split; [reflexivity|]. split; [|cbn [x_memsize x_total x_seed]; rewrite ER; auto].
      split; [auto|]. rewrite ER. auto.
    + rewrite E'. eexists. split; [reflexivity|]. split; [exact R'|]. cbn [x_memsize x_total x_seed]. rewrite ER. auto.
Qed.

Lemma xxh_digest_ok seed s m : xxh_rep seed s m -> zlen m < 2 ^ 64 -> xxh32 m seed = Some (xxh_digest s).
Proof.
  intros ((R1 & R2 & R3) & R4 & R5 & R6) H64. unfold xxh32, xxh_digest. rewrite R4, R5, R6.
  pose proof (zlen_nonneg m). rewrite Z.mod_small by lia. unfold zlen at 4. rewrite Nat2Z.id, R3.
  destruct (Nat.leb_spec 16 (length m)).
  - rewrite xxh_stripes_ok by lia. cbn [fst snd]. rewrite <- R1.
    replace (16 <=? zlen m) with true by (symmetry; apply Z.leb_le; unfold zlen; lia). auto.
  - replace (16 <=? zlen m) with false by (symmetry; apply Z.leb_gt; unfold zlen; lia). cbn [fst snd].
    destruct (small 16 xxh_stripe m []) as [_ ->]; auto.
Qed.

(** ** Feeding chunks *)

Lemma feed_ok {C} (upd : C -> list Z -> option C) (Rep : C -> list Z -> Prop) (P : list Z -> Prop) :
  (forall c m d, Rep c m -> P d -> exists c', upd c d = Some c' /\ Rep c' (m ++ d)) ->
  forall chunks c m, Rep c m -> Forall P chunks -> exists c', feed upd c chunks = Some c' /\ Rep c' (m ++ concat chunks).
Proof.
  intros H. induction chunks as [|d r IH]; intros c m R F; cbn [feed concat].
  - exists c. rewrite app_nil_r. auto.
  - inversion F; subst. destruct (H c m d) as (c' & E & R'); auto. rewrite E.
    destruct (IH c' (m ++ d)) as (c'' & E' & R''); auto. exists c''. rewrite app_assoc. auto.
Qed.
