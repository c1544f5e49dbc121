(** C21 and C22: data written with verification passes it, and what is detected. *)
From Coq Require Import ZArith List Bool Lia Znumtheory.
From Verif Require Import CBase Mem CrcModel CrcSpec CrcProofs CrcProps DigestModel DigestSpec DigestProofs PatternModel PatternSpec ZeroModel ZeroProps VerifyModel VerifySpec VerifyCsum VerifyProofs.
Import ListNotations.
Open Scope Z_scope.

(** The buffer is cut in [n] blocks of [inc] bytes, as get_hdr_inc chooses them. *)
Definition cut (c : cfg) (inc n : nat) (buf : list Z) : Prop :=
  0 <= verify_interval c /\ zlen buf < 2 ^ 32 /\ Z.of_nat inc = get_hdr_inc c (zlen buf) /\ length buf = (n * inc)%nat.
(** Every header accepted names a type that exists. *)
Definition types_known (c : cfg) (io : iou) (inc n : nat) (buf : list Z) : Prop :=
  has_csum (verify c) = true -> forall i, (i < n)%nat -> good_header c io i inc (seen c (vblock inc buf i)) -> known_type inc (seen c (vblock inc buf i)).
(** A read that is neither trimmed nor zeroed, from a real engine. *)
Definition check (c : cfg) (io : iou) (stk buf : list Z) : option (Z * bool) := verify_io_u c io true false false false false stk buf.

(** ** C21: what was written verifies *)

(** For every type, header offset, interval, random payload or pattern (also a buffer reused from an earlier write), whatever
    the memory on the stack holds. *)
Theorem C21_roundtrip c fields inc n io buf rnd seed stk : job_ok c fields inc -> io_ok io -> cut c inc n buf ->
  0 <= seed < 2 ^ 64 -> bytes buf -> bytes rnd -> length rnd = length buf -> Forall byte (patn c) -> (128 <= length stk)%nat ->
  (patn c <> [] -> fields = [] -> zlen buf <= io_filled io -> verify_offset c = 0 ->
     forall j, (j < length buf)%nat -> (header_bytes (verify c) <= j mod inc)%nat -> nth j buf 0 = block_byte (patn c) [] (Z.to_nat (pattern_interval c)) (io_off io) j) ->
  exists buf' io', populate_verify_io_u c io buf rnd seed = Some (buf', io', 0) /\ length buf' = length buf /\
    io_off io' = io_off io /\ io_voff io' = io_voff io /\ io_numberio io' = io_numberio io /\ check c io' stk buf' = Some (0, false).
Proof.
  intros J I (HV & HB & EI & HL) HSd Hb Hr Lr HP HS HF.
  destruct (populate_top c fields inc n J HV io buf rnd seed I HSd Hb Hr Lr HB HP EI HL HF) as (buf' & io' & E & L & B & O1 & O2 & O3 & I' & _ & _ & _ & W).
  exists buf', io'. repeat (split; [solve [auto]|]).
  assert (Z1 : zlen buf' = zlen buf) by (unfold zlen; lia).
  destruct (verify_top c fields inc n J HV io' stk buf') as (ret & term & EV & R1 & R2); auto; try lia.
  - rewrite Z1. auto.
  - intros HC i Hi _. destruct (W i Hi) as (_ & _ & W3 & _). unfold known_type. rewrite W3; [|intros X; rewrite X in HC; discriminate]. destruct J as (V & HH & _). lia.
  - unfold check. rewrite EV. assert (ret = 0) by (apply R1; split; intros; apply W; auto). subst ret. destruct term; auto.
    destruct (proj1 R2 eq_refl) as (_ & X & _). contradiction.
Qed.
Print Assumptions C21_roundtrip.

(** Where the payload ends up: the bytes behind the header of each block are those of the fill. *)
Theorem C21_payload c fields inc n io buf rnd seed buf' io' e : job_ok c fields inc -> io_ok io -> cut c inc n buf ->
  0 <= seed < 2 ^ 64 -> bytes buf -> bytes rnd -> length rnd = length buf -> Forall byte (patn c) -> io_filled io < zlen buf ->
  populate_verify_io_u c io buf rnd seed = Some (buf', io', e) ->
  e = 0 /\ forall i j, (i < n)%nat -> (header_bytes (verify c) <= j < inc)%nat -> nth j (seen c (vblock inc buf' i)) 0 =
    (if patn c then nth (inc * i + j) rnd 0 else block_byte (patn c) fields (Z.to_nat (pattern_interval c)) (io_off io) (inc * i + j)).
Proof.
  intros J I (HV & HB & EI & HL) HSd Hb Hr Lr HP HF E.
  destruct (populate_top c fields inc n J HV io buf rnd seed I HSd Hb Hr Lr HB HP EI HL) as (b2 & io2 & E2 & _ & _ & _ & _ & _ & _ & _ & _ & _ & W); [intros; lia|].
  rewrite E in E2. inversion E2; subst. split; auto. intros i j Hi Hj. apply W; auto.
Qed.
Print Assumptions C21_payload.

(** A buffer filled once with a pattern without offset fields can be written again at other offsets and smaller sizes. *)
Theorem C21_refill c inc n1 n2 io1 io2 buf rnd rnd2 seed stk buf1 io1' e : job_ok c [] inc -> io_ok io1 -> io_ok io2 -> cut c inc n1 buf -> patn c <> [] ->
  0 <= seed < 2 ^ 64 -> bytes buf -> bytes rnd -> length rnd = length buf -> Forall byte (patn c) -> io_filled io1 < zlen buf -> (128 <= length stk)%nat ->
  populate_verify_io_u c io1 buf rnd seed = Some (buf1, io1', e) ->
  (n2 <= n1)%nat -> cut c inc n2 (firstn (n2 * inc) buf1) -> io_filled io2 = io_filled io1' -> bytes rnd2 -> length rnd2 = (n2 * inc)%nat -> verify_offset c = 0 ->
  exists buf2 io2', populate_verify_io_u c io2 (firstn (n2 * inc) buf1) rnd2 seed = Some (buf2, io2', 0) /\ check c io2' stk buf2 = Some (0, false).
Proof.
  intros J I1 I2 C1 NE HSd Hb Hr Lr HP HF HS E Hn C2 F2 Hr2 Lr2 VO. pose proof C1 as (HV & HB & EI & HL).
  destruct (populate_top c [] inc n1 J HV io1 buf rnd seed I1 HSd Hb Hr Lr HB HP EI HL) as (b2 & io2x & E2 & L2 & B2 & _ & _ & _ & _ & _ & _ & _ & W); [intros; lia|].
  rewrite E in E2. inversion E2; subst b2 io2x e. clear E2.
  assert (LF : length (firstn (n2 * inc) buf1) = (n2 * inc)%nat) by (rewrite firstn_length_le; nia).
  destruct (C21_roundtrip c [] inc n2 io2 (firstn (n2 * inc) buf1) rnd2 seed stk) as (b3 & io3 & E3 & _ & _ & _ & _ & E4); auto.
  - apply bytes_firstn; auto.
  - lia.
  - intros _ _ _ _ j Hj1 Hj2. rewrite LF in Hj1. rewrite nth_firstn by lia. destruct J as (V & HH & _).
    assert (IP : (inc <> 0)%nat) by lia.
    pose proof (Nat.div_mod j inc IP) as DM. pose proof (Nat.mod_upper_bound j inc IP) as MU.
    assert (QI : (j / inc < n1)%nat) by (apply Nat.div_lt_upper_bound; nia).
    destruct (W (j / inc)%nat QI) as (_ & _ & _ & P). specialize (P (j mod inc)%nat ltac:(lia)).
    rewrite <- DM in P. unfold seen in P. rewrite VO in P. unfold unswap in P. cbn [Z.to_nat Nat.eqb orb] in P. rewrite vblock_nth in P by nia. rewrite <- DM in P.
    rewrite P. destruct (patn c); [contradiction|]. reflexivity.
  - eauto.
Qed.
Print Assumptions C21_refill.

(** The interval set up from the options divides the smallest and the largest block. *)
Lemma gcd_ok : forall fuel m n, 0 <= m -> 0 <= n < Z.of_nat fuel -> gcd_ fuel m n = Some (Z.gcd m n).
Proof.
  induction fuel as [|f IH]; intros m n Hm Hn; [lia|]. cbn [gcd_]. destruct (Z.eqb_spec n 0) as [->|N].
  - rewrite Z.gcd_0_r, Z.abs_eq by lia. auto.
  - pose proof (Z.mod_pos_bound m n ltac:(lia)). rewrite IH by lia. f_equal. rewrite Z.gcd_comm, Z.gcd_mod by auto. apply Z.gcd_comm.
Qed.
Theorem C21_interval interval wmin wmax rmin : 0 <= interval -> 0 < wmin <= wmax -> 0 <= rmin ->
  exists i, fixup_interval interval wmin wmax rmin = Some i /\ 0 < i <= wmin /\ (i | wmin) /\ (i | wmax) /\
    forall buflen c, (wmin | buflen) \/ buflen = wmax -> 0 < buflen < 2 ^ 32 -> verify_interval c = i -> bs_unaligned c = false ->
      get_hdr_inc c buflen = i /\ (i | buflen).
Proof.
  intros H1 H2 H3. unfold fixup_interval. cbn zeta.
  set (i1 := if negb (wmax =? wmin) && (interval =? 0) then wmin else interval).
  set (i2 := if i1 >? wmin then wmin else if negb (rmin =? 0) && (i1 >? rmin) then rmin else i1).
  assert (A1 : 0 <= i1) by (unfold i1; destruct (_ && _); lia).
  assert (A2 : 0 <= i2 <= wmin).
  { unfold i2. destruct (Z.gtb_spec i1 wmin); [lia|]. destruct (Z.gtb_spec i1 rmin); [|rewrite andb_false_r; lia]. destruct (negb (rmin =? 0)); cbn [andb]; lia. }
  assert (G : exists i, (if (i2 =? 0) || negb (wmin mod i2 =? 0) || negb (wmax mod i2 =? 0) then gcd_ (Z.to_nat wmax + 2) wmin wmax else Some i2) = Some i /\
    0 < i <= wmin /\ (i | wmin) /\ (i | wmax)).
  { destruct ((i2 =? 0) || negb (wmin mod i2 =? 0) || negb (wmax mod i2 =? 0)) eqn:E.
    - rewrite gcd_ok by lia. exists (Z.gcd wmin wmax). split; auto. pose proof (Z.gcd_nonneg wmin wmax).
      assert (Z.gcd wmin wmax <> 0) by (intros X; apply Z.gcd_eq_0_l in X; lia).
      split; [split; [lia|]|split; [apply Z.gcd_divide_l|apply Z.gcd_divide_r]]. apply Z.divide_pos_le; [lia|apply Z.gcd_divide_l].
    - apply orb_false_iff in E. destruct E as [E E3]. apply orb_false_iff in E. destruct E as [E1 E2]. apply negb_false_iff, Z.eqb_eq in E2, E3. apply Z.eqb_neq in E1.
      exists i2. split; auto. split; [lia|]. split; apply Z.mod_divide; auto. }
  destruct G as (i & -> & B & D1 & D2). exists i. repeat (split; [solve [auto]|]). intros buflen c HB HBL VI BU.
  assert (D : (i | buflen)) by (destruct HB as [HB|HB]; [exact (Z.divide_trans _ _ _ D1 HB)|rewrite HB; exact D2]). split; auto.
  assert (i <= buflen) by (apply Z.divide_pos_le; auto; lia).
  unfold get_hdr_inc. rewrite VI, BU. destruct (Z.eqb_spec i 0); [lia|]. destruct (Z.leb_spec i buflen); [reflexivity|lia].
Qed.
Print Assumptions C21_interval.

(** With bs_unaligned, and for I/O shorter than the interval, the whole I/O is one block, whatever its size. *)
Theorem C21_unaligned c buf : zlen buf < 2 ^ 32 -> 0 <= verify_interval c -> bs_unaligned c = true \/ verify_interval c = 0 \/ zlen buf < verify_interval c -> cut c (length buf) 1 buf.
Proof.
  intros HB HV H. pose proof (zlen_nonneg buf). split; auto. split; auto. split; [|lia]. fold (zlen buf). unfold get_hdr_inc.
  assert (E : negb (verify_interval c =? 0) && (verify_interval c <=? zlen buf) && negb (bs_unaligned c) = false).
  { destruct H as [->|[->|H2]]; cbn [negb Z.eqb andb]; auto; [apply andb_false_r|]. destruct (Z.leb_spec (verify_interval c) (zlen buf)); [lia|]. rewrite andb_false_r. auto. }
  rewrite E. unfold u32. rewrite Z.mod_small; lia.
Qed.
Print Assumptions C21_unaligned.

(** A block size between the two that is no multiple of the interval puts the last header, or the data its checksum covers, past
    the end of the I/O: block sizes of 3, 4 and 6 KiB are accepted with an interval of 3 KiB. *)
Theorem C21_block_size_refuted c inc io buf rnd seed : job_ok c [] inc -> has_csum (verify c) = true -> verify_interval c = Z.of_nat inc -> bs_unaligned c = false -> patn c = [] ->
  io_ok io -> 0 <= seed < 2 ^ 64 -> bytes rnd -> (inc < length rnd < 2 * inc)%nat -> populate_verify_io_u c io buf rnd seed = None.
Proof.
  intros J HC VI BU PN I HSd Hr HL. pose proof J as (V & HH & HM & O0 & O & _). unfold populate_verify_io_u, fill_payload. rewrite PN.
  destruct (Z.eqb_spec (verify c) VERIFY_NULL) as [X|_]; [rewrite X in HC; discriminate|].
  set (io' := mkIou _ _ _ _ _ _ _). assert (I' : io_ok io') by (destruct I as (? & ? & ? & ?); repeat split; cbn; lia). clearbody io'.
  assert (G : get_hdr_inc c (zlen rnd) = Z.of_nat inc).
  { unfold get_hdr_inc. rewrite VI, BU. destruct (Z.eqb_spec (Z.of_nat inc) 0); [lia|]. destruct (Z.leb_spec (Z.of_nat inc) (zlen rnd)); [reflexivity|unfold zlen in *; lia]. }
  rewrite G. clear G. enough (X : hdr_loop (S (length rnd)) c io' rnd (Z.of_nat inc) 0 0 0 = None) by (rewrite X; reflexivity).
  cbn [hdr_loop]. destruct (Z.leb_spec (zlen rnd) 0); [unfold zlen in *; lia|].
  destruct (populate_ok c [] io' inc J I' [] (firstn inc rnd) (skipn inc rnd) 0) as (o & E & Lo & Ho & _).
  { rewrite firstn_length_le; lia. } { apply bytes_firstn; auto. } { cbn; lia. }
  cbn [app] in E. rewrite firstn_skipn in E. change (zlen (@nil Z)) with 0 in E. change (Z.of_nat 0) with 0 in E. rewrite E. cbn [fst snd Z.eqb].
  set (b2 := o ++ skipn inc rnd). assert (L2 : length b2 = length rnd) by (unfold b2; rewrite app_length, skipn_length; lia). clearbody b2. clear E o Lo Ho.
  destruct (length rnd) as [|fl] eqn:EL; [lia|]. cbn [hdr_loop]. rewrite Z.add_0_l. destruct (Z.leb_spec (zlen b2) (Z.of_nat inc)); [unfold zlen in *; lia|].
  enough (N : forall k, populate_hdr c io' b2 (Z.of_nat inc) k (Z.of_nat inc) = None) by (rewrite N; reflexivity). intros k.
  unfold populate_hdr, fill_hdr, hdr_size, VERIFY_PATTERN_NO_HDR. destruct (Z.eqb_spec (verify c) 18) as [X|NE]; [rewrite X in HC; discriminate|]. cbn [negb].
  destruct (fill_hdr_ c io' b2 (Z.of_nat inc) k (Z.of_nat inc)) as [b3|] eqn:EF; auto.
  assert (L3 : length b3 = length b2 /\ (Z.of_nat inc + 48 <= zlen b3) /\ nth (Z.to_nat (Z.of_nat inc + 3)) b3 0 = verify c).
  { unfold fill_hdr_ in EF. destruct (rd b2 (Z.of_nat inc + 42) 2) as [pad|] eqn:ER; [|discriminate]. cbn zeta in EF. destruct (crc32c_sw _) as [cr|]; [|discriminate].
    unfold rd in ER. apply slice_length in ER. change (Z.to_nat 2) with 2%nat in ER.
    unfold wr in EF. pose proof (blit_length _ _ _ _ EF) as LB. split; [lia|]. split.
    - unfold blit in EF. destruct (Nat.leb_spec (Z.to_nat (Z.of_nat inc) + length ((le_bytes 2 0xacca ++ [0x81; u8 (verify c)] ++ le_bytes 4 (Z.of_nat inc) ++ le_bytes 8 (io_seed io') ++
             le_bytes 8 (io_voff io' + u32 (k * verify_interval c)) ++ le_bytes 4 (io_sec io') ++ le_bytes 4 (io_nsec io') ++
             le_bytes 8 (io_numberio io') ++ le_bytes 2 (thread_number c) ++ pad) ++ le_bytes 4 cr)) (length b2)) as [Q|Q]; [|discriminate].
      rewrite !app_length, !le_bytes_len in Q. cbn [length] in Q. unfold zlen. lia.
    - rewrite (blit_nth _ _ _ _ 0 _ EF). rewrite !app_length, !le_bytes_len, ER. cbn [length].
      destruct (Nat.leb_spec (Z.to_nat (Z.of_nat inc)) (Z.to_nat (Z.of_nat inc + 3))); [|lia]. destruct (Nat.ltb_spec (Z.to_nat (Z.of_nat inc + 3)) (Z.to_nat (Z.of_nat inc) + (2 + (2 + (4 + (8 + (8 + (4 + (4 + (8 + (2 + 2)))))))) + 4))); [|lia]. cbn [andb].
      replace (Z.to_nat (Z.of_nat inc + 3) - Z.to_nat (Z.of_nat inc))%nat with 3%nat by lia. cbn -[u8]. unfold u8. apply Z.mod_small. lia. }
  destruct L3 as (L3 & R3 & N3). rewrite (znth_nth _ _ 0) by lia. rewrite N3, hdr_size_ok by lia.
  destruct (Z.leb_spec (Z.of_nat inc) (Z.of_nat (header_bytes (verify c)))); [lia|]. rewrite HC. unfold rd at 1, slice at 1.
  replace (Z.to_nat (Z.of_nat inc + Z.of_nat (header_bytes (verify c))) + Z.to_nat (Z.of_nat inc - Z.of_nat (header_bytes (verify c))) <=? length b3)%nat with false; [reflexivity|].
  symmetry. apply Nat.leb_gt. lia.
Qed.
Print Assumptions C21_block_size_refuted.
Example C21_block_size_case : fixup_interval 0 3072 6144 0 = Some 3072 /\ 3072 < 4096 < 2 * 3072 /\ fixup_interval 0 3 6 0 = Some 3.
Proof. vm_compute. auto. Qed.

(** The check of the header offset knows the 48 bytes of the header without its checksum: offsets with less than the whole header
    in front of them, or less than that behind, are accepted and copy between overlapping ranges, or outside of the block. *)
Theorem C21_offset_refuted c fields io b : 2 <= verify c <= 16 -> 48 <= verify_offset c -> Z.of_nat (length b) < 2 ^ 29 -> (header_bytes (verify c) < length b)%nat -> bytes b -> io_ok io ->
  job_ok (mkCfg (verify c) (verify_interval c) (bs_unaligned c) 0 (patn c) (fmts c) (pattern_interval c) (verify_fatal c) (header_seed c) (thread_number c) (trim_zero c) (w_write c) (w_fixed_bs c) (w_time_based c) (w_sequence c)) fields (length b) ->
  (verify_offset c < Z.of_nat (header_bytes (verify c)) \/ zlen b < verify_offset c + Z.of_nat (header_bytes (verify c))) ->
  populate_hdr c io b 0 0 (zlen b) = None.
Proof.
  intros V O HM HH Hb I J H.
  set (c' := mkCfg (verify c) (verify_interval c) (bs_unaligned c) 0 (patn c) (fmts c) (pattern_interval c) (verify_fatal c) (header_seed c) (thread_number c) (trim_zero c) (w_write c) (w_fixed_bs c) (w_time_based c) (w_sequence c)) in *.
  destruct (populate_ok c' fields io (length b) J I [] b [] 0 eq_refl Hb) as (out & E & Lo & _); [cbn; lia|].
  rewrite app_nil_r in E. cbn [app] in E. change (zlen (@nil Z)) with 0 in E. change (Z.of_nat 0) with 0 in E. fold (zlen b) in E.
  unfold populate_hdr in E |- *. change (verify c') with (verify c) in E. change (verify_offset c') with 0 in E.
  change (fill_hdr c' io b 0 0 (zlen b)) with (fill_hdr c io b 0 0 (zlen b)) in E.
  destruct (fill_hdr c io b 0 0 (zlen b)) as [b1|] eqn:EF; [|discriminate].
  change (hdr_size c' b1 0) with (hdr_size c b1 0) in E.
  destruct (hdr_size c b1 0) as [hs|] eqn:EH; [|discriminate].
  assert (HS : hs = Z.of_nat (header_bytes (verify c))).
  { unfold fill_hdr, VERIFY_PATTERN_NO_HDR in EF. destruct (Z.eqb_spec (verify c) 18); [lia|]. cbn [negb] in EF. unfold fill_hdr_ in EF.
    destruct (rd b (0 + 42) 2) as [pad|] eqn:ER; [|discriminate]. cbn zeta in EF. destruct (crc32c_sw _) as [cr|]; [|discriminate]. unfold wr in EF.
    unfold hdr_size, VERIFY_PATTERN_NO_HDR in EH. destruct (Z.eqb_spec (verify c) 18); [lia|].
    assert (N3 : nth 3 b1 0 = verify c).
    { rewrite (blit_nth _ _ _ _ 0 3 EF). cbn. unfold u8. apply Z.mod_small. lia. }
    apply blit_length in EF. assert (48 <= header_bytes (verify c))%nat by (unfold header_bytes; destruct (Z.eqb_spec (verify c) 18); lia).
    rewrite (znth_nth _ _ 0) in EH by (unfold zlen; lia). change (Z.to_nat (0 + 3)) with 3%nat in EH. rewrite N3, hdr_size_ok in EH by lia. congruence. }
  subst hs. destruct (Z.leb_spec (zlen b) (Z.of_nat (header_bytes (verify c)))); [unfold zlen in *; lia|].
  destruct (if has_csum (verify c) then _ else _) as [b2|] eqn:E2; auto. cbn [Z.eqb negb andb] in E. inversion E; subst b2. rewrite app_nil_r in *.
  destruct (Z.eqb_spec (verify_offset c) 0); [lia|]. destruct (Z.eqb_spec (Z.of_nat (header_bytes (verify c))) 0); [unfold header_bytes in *; destruct (Z.eqb_spec (verify c) 18); lia|]. cbn [negb andb].
  unfold memswp. pose proof (header_bytes_max (verify c)). destruct (Z.ltb_spec 200 (Z.of_nat (header_bytes (verify c)))); [lia|].
  destruct (Z.eqb_spec (Z.of_nat (header_bytes (verify c))) 0); [lia|]. destruct (Z.ltb_spec (Z.abs (0 - (0 + verify_offset c))) (Z.of_nat (header_bytes (verify c)))); [reflexivity|].
  destruct H as [H|H]; [lia|]. destruct (rd out 0 _) as [x|]; auto.
  unfold rd, slice. replace (Z.to_nat (0 + verify_offset c) + Z.to_nat (Z.of_nat (header_bytes (verify c))) <=? length out)%nat with false; auto.
  symmetry. apply Nat.leb_gt. unfold zlen in H. lia.
Qed.
Print Assumptions C21_offset_refuted.
(** md5 with the header at 48 of a 512-byte interval, sha512 at 400. *)
Example C21_offset_case : offset_accepted 48 512 = true /\ 48 < Z.of_nat (header_bytes VERIFY_MD5) /\
  offset_accepted 400 512 = true /\ 512 < 400 + Z.of_nat (header_bytes VERIFY_SHA512).
Proof. repeat split; vm_compute; reflexivity. Qed.

(** ** C22: what the check accepts *)

(** The verdict on any buffer: success exactly when every header is the expected one and the payload is intact, in every block if
    verify_fatal is set and in the last one otherwise. *)
Theorem C22_verdict c fields inc n io stk buf : job_ok c fields inc -> io_ok io -> cut c inc n buf -> (128 <= length stk)%nat -> bytes buf -> types_known c io inc n buf ->
  exists ret term, check c io stk buf = Some (ret, term) /\
    (ret = 0 <-> (forall i, (i < n)%nat -> good_header c io i inc (seen c (vblock inc buf i))) /\
                 (forall i, (i < n)%nat -> verify_fatal c = true \/ i = (n - 1)%nat -> good_payload c fields io i inc (seen c (vblock inc buf i)))) /\
    (term = true <-> verify_fatal c = true /\ ret <> 0 /\
       ~ exists i, (i < n)%nat /\ ~ good_header c io i inc (seen c (vblock inc buf i)) /\
           forall j, (j < i)%nat -> good_header c io j inc (seen c (vblock inc buf j)) /\ good_payload c fields io j inc (seen c (vblock inc buf j))).
Proof. intros J I (HV & HB & EI & HL) HS Hb HK. apply verify_top; auto. Qed.
Print Assumptions C22_verdict.

(** Nothing is checked for writes and trims, for verify=null, for engines that fake the I/O, and for what the device checked;
    trimmed and zeroed ranges must read back as zeros. *)
Theorem C22_unchecked c io is_read fake in_dev trimmed zeroed stk buf :
  verify c = VERIFY_NULL \/ is_read = false \/ fake = true \/ in_dev = true -> verify_io_u c io is_read fake in_dev trimmed zeroed stk buf = Some (0, false).
Proof.
  unfold verify_io_u. intros [->|[->|[->| ->]]]; auto.
  - rewrite orb_true_r. auto.
  - destruct (_ || _); auto.
  - destruct (_ || _); auto. destruct fake; auto.
Qed.
Print Assumptions C22_unchecked.
Theorem C22_zeroed c io trimmed stk buf : verify c <> VERIFY_NULL -> exists ret, verify_io_u c io true false false trimmed (negb trimmed) stk buf = Some (ret, negb (ret =? 0) && verify_fatal c) /\
  (ret = 0 <-> (trimmed = true /\ trim_zero c = false) \/ forall i, (i < length buf)%nat -> nth i buf 0 = 0).
Proof.
  intros NV. unfold verify_io_u. destruct (Z.eqb_spec (verify c) VERIFY_NULL); [contradiction|]. cbn [orb negb].
  assert (ZU : zero_upto buf (zlen buf) <-> forall i, (i < length buf)%nat -> nth i buf 0 = 0).
  { unfold zero_upto, zlen. split; intros A i Hi; [rewrite <- (Nat2Z.id i); apply A; lia|apply A; lia]. }
  pose proof (zlen_nonneg buf). destruct trimmed; cbn [negb].
  - destruct (C41_trimmed (trim_zero c) buf (zlen buf)) as (r & -> & R); [lia|]. exists (fst r). split; auto. rewrite R, ZU. destruct (trim_zero c); intuition discriminate.
  - destruct (C41_verify_zero buf (zlen buf)) as [(A & ->)|(k & K & _ & N & ->)]; [lia| |].
    + exists 0. split; auto. rewrite <- ZU. split; auto.
    + exists ZeroModel.EILSEQ. split; auto. split; [discriminate|]. intros [[X _]|X]; [discriminate|]. destruct N. apply X. unfold zlen in K. lia.
Qed.
Print Assumptions C22_zeroed.

Lemma verdict_bad c fields inc n io stk buf : job_ok c fields inc -> io_ok io -> cut c inc n buf -> (128 <= length stk)%nat -> bytes buf -> types_known c io inc n buf ->
  (exists i, (i < n)%nat /\ (~ good_header c io i inc (seen c (vblock inc buf i)) \/
     (verify_fatal c = true \/ i = (n - 1)%nat) /\ ~ good_payload c fields io i inc (seen c (vblock inc buf i)))) ->
  exists ret term, check c io stk buf = Some (ret, term) /\ ret <> 0.
Proof.
  intros J I C HS Hb HK (i & Hi & B). destruct (C22_verdict c fields inc n io stk buf J I C HS Hb HK) as (ret & term & E & R & _). exists ret, term. split; auto.
  intros X. apply R in X. destruct X as [X1 X2]. destruct B as [B|[F B]]; auto.
Qed.

(** A block written for one place or moment does not pass for another: wrong offset, old write number, other seed. *)
Theorem C22_misplaced c fields inc n io io2 buf rnd seed buf' io' e stk : job_ok c fields inc -> io_ok io -> io_ok io2 -> cut c inc n buf -> verify c <> 18 -> (0 < n)%nat ->
  0 <= seed < 2 ^ 64 -> bytes buf -> bytes rnd -> length rnd = length buf -> Forall byte (patn c) -> (128 <= length stk)%nat -> io_filled io < zlen buf ->
  populate_verify_io_u c io buf rnd seed = Some (buf', io', e) ->
  io_voff io2 <> io_voff io' \/ (header_seed c = true /\ io_seed io2 <> io_seed io') \/
  (w_write c = true /\ w_fixed_bs c = true /\ w_time_based c = false /\ w_sequence c = true /\ io_numberio io2 <> io_numberio io') ->
  exists ret term, check c io2 stk buf' = Some (ret, term) /\ ret <> 0.
Proof.
  intros J I I2 (HV & HB & EI & HL) NV Hn HSd Hb Hr Lr HP HS HF E D.
  destruct (populate_top c fields inc n J HV io buf rnd seed I HSd Hb Hr Lr HB HP EI HL) as (b2 & io2x & E2 & L2 & B2 & O1 & O2 & O3 & I' & S1 & S2 & _ & W); [intros; lia|].
  rewrite E in E2. inversion E2; subst b2 io2x e. clear E2. assert (Z1 : zlen buf' = zlen buf) by (unfold zlen; lia).
  pose proof (fun i Hi => proj1 (proj2 (proj2 (W i Hi))) NV) as W3.
  apply (verdict_bad c fields inc n); auto.
  - split; [auto|]. rewrite Z1. split; auto. split; auto. lia.
  - intros HC i Hi _. unfold known_type. rewrite W3 by auto. destruct J as (V & HH & _). lia.
  - exists 0%nat. split; auto. left. intros [X|(_ & _ & _ & G4 & G5 & G6 & _)]; [contradiction|].
    destruct (W 0%nat Hn) as ([X|(_ & _ & _ & P4 & _)] & _); [contradiction|]. rewrite P4 in G4. rewrite !Z.add_0_r in G4.
    destruct D as [D|[(D1 & D2)|(D1 & D2 & D3 & D4 & D5)]].
    + apply D. destruct I2 as (_ & V2 & _). destruct I' as (_ & V1 & _). rewrite !Z.mod_small in G4 by lia. congruence.
    + apply D2. rewrite <- (G5 D1). destruct (W 0%nat Hn) as ([X|(_ & _ & _ & _ & P5 & _)] & _); [contradiction|]. auto.
    + apply D5. rewrite <- (G6 D1 D2 D3 D4). destruct (W 0%nat Hn) as ([X|(_ & _ & _ & _ & _ & P6 & _)] & _); [contradiction|]. auto.
Qed.
Print Assumptions C22_misplaced.

(** Any change of at most four adjacent bytes of the checksummed part of a header, or of its checksum, is detected. *)
Theorem C22_header_damage c fields inc n io stk buf buf2 i p x y q : job_ok c fields inc -> io_ok io -> cut c inc n buf -> cut c inc n buf2 -> (128 <= length stk)%nat ->
  bytes buf -> bytes buf2 -> types_known c io inc n buf -> types_known c io inc n buf2 -> verify c <> 18 ->
  check c io stk buf = Some (0, false) -> (i < n)%nat ->
  seen c (vblock inc buf i) = p ++ x ++ q -> seen c (vblock inc buf2 i) = p ++ y ++ q -> length x = length y -> (length x <= 4)%nat -> x <> y ->
  (length p + length x <= 44 \/ (44 <= length p /\ length p + length x <= 48))%nat ->
  exists ret term, check c io stk buf2 = Some (ret, term) /\ ret <> 0.
Proof.
  intros J I C1 C2 HS Hb Hb2 K1 K2 NV E Hi S1 S2 LL L4 NE PO.
  destruct (C22_verdict c fields inc n io stk buf J I C1 HS Hb K1) as (r & t & E' & R & _). rewrite E in E'. inversion E'; subst. clear E'.
  destruct (proj1 R eq_refl) as [G _]. specialize (G i Hi). rewrite S1 in G.
  apply (verdict_bad c fields inc n); auto. exists i. split; auto. left. rewrite S2. intros G2.
  destruct G as [X|(_ & _ & _ & _ & _ & _ & r1 & A1 & B1)]; [contradiction|]. destruct G2 as [X|(_ & _ & _ & _ & _ & _ & r2 & A2 & B2)]; [contradiction|].
  assert (Bx : bytes (p ++ x ++ q)). { rewrite <- S1. apply unswap_bytes. unfold vblock. apply bytes_firstn, bytes_skipn; auto. }
  assert (By : bytes (p ++ y ++ q)). { rewrite <- S2. apply unswap_bytes. unfold vblock. apply bytes_firstn, bytes_skipn; auto. }
  assert (LS : (48 <= length (p ++ x ++ q))%nat).
  { destruct C1 as (HV & HB & EI & HL). rewrite <- S1. unfold seen. destruct J as (V & HH & _ & O0 & O & _).
    assert (48 <= header_bytes (verify c))%nat by (unfold header_bytes; destruct (Z.eqb_spec (verify c) 18); lia).
    rewrite unswap_len; rewrite vblock_len by nia; lia. }
  assert (LT : forall m, firstn m (p ++ x ++ q) = firstn m p ++ firstn (m - length p) x ++ firstn (m - length p - length x) q) by (intros; rewrite !firstn_app; reflexivity).
  assert (LT2 : forall m, firstn m (p ++ y ++ q) = firstn m p ++ firstn (m - length p) y ++ firstn (m - length p - length y) q) by (intros; rewrite !firstn_app; reflexivity).
  destruct PO as [PO|[PO1 PO2]].
  - rewrite LT in B1. rewrite LT2 in B2. rewrite (firstn_all2 p), (firstn_all2 x) in B1 by lia. rewrite (firstn_all2 p), (firstn_all2 y) in B2 by lia. rewrite <- LL in B2.
    set (q1 := firstn (44 - length p - length x) q) in *.
    assert (Q1 : bytes (p ++ x ++ q1)). { rewrite !bytes_app in *. split; [tauto|]. split; [tauto|]. apply bytes_firstn. tauto. }
    assert (Q2 : bytes (p ++ y ++ q1)). { rewrite !bytes_app in *. split; [tauto|]. split; [tauto|]. apply bytes_firstn. tauto. }
    destruct (C18_bytes p x y q1 Q1 Q2 LL NE) as (_ & _ & D & _). apply (D L4).
    destruct (C17_crc32c _ Q1) as (z1 & -> & Z1). destruct (C17_crc32c _ Q2) as (z2 & -> & Z2).
    assert (z1 = r1) by (eapply C17_crc_unique; [| |exact Z1|exact B1]; lia). assert (z2 = r2) by (eapply C17_crc_unique; [| |exact Z2|exact B2]; lia). subst.
    rewrite <- A1, <- A2. f_equal.
    assert (NQ : forall m k, (length p + length x <= k)%nat -> number (p ++ x ++ q) k m = number (p ++ y ++ q) k m).
    { induction m as [|m IH]; intros k Hk; auto. cbn [number]. rewrite IH by lia. f_equal. rewrite !app_nth2 by lia. f_equal. lia. }
    apply NQ. lia.
  - assert (r1 = r2).
    { rewrite LT in B1. rewrite LT2 in B2. replace (44 - length p)%nat with 0%nat in * by lia. cbn [firstn Nat.sub app] in B1, B2. rewrite ?app_nil_r in *. eapply C17_crc_unique; [| |exact B1|exact B2]; lia. }
    subst r2. rewrite <- A2 in A1.
    assert (NU : forall m k u v, length u = length v -> bytes u -> bytes v -> number u k m = number v k m -> forall j, (k <= j < k + m)%nat -> nth j u 0 = nth j v 0).
    { induction m as [|m IH]; intros k u v LU BU BV EN j Hj; [lia|]. cbn [number] in EN. pose proof (nth_bytes u k BU). pose proof (nth_bytes v k BV).
      assert (nth k u 0 = nth k v 0 /\ number u (S k) m = number v (S k) m) by lia. destruct (Nat.eq_dec j k) as [->|]; [tauto|]. apply (IH (S k)); auto; [tauto|lia]. }
    apply NE. apply (list_ext 0); auto. intros j Hj.
    assert (LL2 : length (p ++ x ++ q) = length (p ++ y ++ q)) by (rewrite !app_length, LL; reflexivity).
    assert (PJ : (44 <= length p + j < 44 + 4)%nat) by (clear - PO1 PO2 Hj; lia).
    specialize (NU 4%nat 44%nat (p ++ x ++ q) (p ++ y ++ q) LL2 Bx By A1 (length p + j)%nat PJ).
    rewrite (app_nth2 p (x ++ q)), (app_nth2 p (y ++ q)) in NU by (clear; lia). replace (length p + j - length p)%nat with j in NU by (clear; lia).
    rewrite (app_nth1 x), (app_nth1 y) in NU by (clear - LL Hj; lia). auto.
Qed.
Print Assumptions C22_header_damage.

(** Any changed byte of a pattern payload is detected, in the last block or with verify_fatal. *)
Theorem C22_pattern_damage c fields inc n io stk buf buf2 i j : job_ok c fields inc -> io_ok io -> cut c inc n buf -> cut c inc n buf2 -> (128 <= length stk)%nat ->
  bytes buf -> bytes buf2 -> types_known c io inc n buf -> types_known c io inc n buf2 -> has_csum (verify c) = false -> patn c <> [] ->
  check c io stk buf = Some (0, false) -> (i < n)%nat -> verify_fatal c = true \/ i = (n - 1)%nat ->
  (header_bytes (verify c) <= j < inc)%nat -> nth j (seen c (vblock inc buf i)) 0 <> nth j (seen c (vblock inc buf2 i)) 0 ->
  exists ret term, check c io stk buf2 = Some (ret, term) /\ ret <> 0.
Proof.
  intros J I C1 C2 HS Hb Hb2 K1 K2 HC NP E Hi F Hj D.
  destruct (C22_verdict c fields inc n io stk buf J I C1 HS Hb K1) as (r & t & E' & R & _). rewrite E in E'. inversion E'; subst. clear E'.
  destruct (proj1 R eq_refl) as [_ G]. specialize (G i Hi F). apply (verdict_bad c fields inc n); auto. exists i. split; auto. right. split; auto. intros G2.
  unfold good_payload in G, G2. rewrite HC in G, G2. apply D. rewrite (G NP j Hj), (G2 NP j Hj). reflexivity.
Qed.
Print Assumptions C22_pattern_damage.

(** The bits of a payload in the order its checksum reads them, and the length of the bursts it always detects. *)
Definition bits_of (vt : Z) (data : list Z) : list bool := if (vt =? 4) || (vt =? 8) then msb_first data else lsb_first data.
Definition crc_width (vt : Z) : nat := nth (Z.to_nat vt) [0; 0; 0; 64; 32; 32; 32; 16; 7]%nat 0%nat.

(** With a CRC, a change of the payload within a window of as many bits as the CRC has is detected; with any checksum, a change of
    the stored checksum is; with the others, every change of the payload that changes the checksum. *)
Theorem C22_payload_damage c fields inc n io stk buf buf2 i : job_ok c fields inc -> io_ok io -> cut c inc n buf -> cut c inc n buf2 -> (128 <= length stk)%nat ->
  bytes buf -> bytes buf2 -> types_known c io inc n buf -> types_known c io inc n buf2 -> has_csum (verify c) = true ->
  check c io stk buf = Some (0, false) -> (i < n)%nat -> verify_fatal c = true \/ i = (n - 1)%nat ->
  let s1 := seen c (vblock inc buf i) in let s2 := seen c (vblock inc buf2 i) in let hs := header_bytes (verify c) in
  nth 3 s1 0 = verify c -> nth 3 s2 0 = verify c ->
  (skipn hs s1 = skipn hs s2 /\ firstn (csum_bytes (verify c)) (skipn 48 s1) <> firstn (csum_bytes (verify c)) (skipn 48 s2)) \/
  (firstn hs s1 = firstn hs s2 /\ verify c <= 8 /\ 3 <= verify c /\ burst (crc_width (verify c)) (bits_of (verify c) (skipn hs s1)) (bits_of (verify c) (skipn hs s2))) \/
  (firstn hs s1 = firstn hs s2 /\ forall d, is_csum (verify c) (skipn hs s1) d -> ~ is_csum (verify c) (skipn hs s2) d) ->
  exists ret term, check c io stk buf2 = Some (ret, term) /\ ret <> 0.
Proof.
  intros J I C1 C2 HS Hb Hb2 K1 K2 HC E Hi F s1 s2 hs T1 T2 D.
  destruct (C22_verdict c fields inc n io stk buf J I C1 HS Hb K1) as (r & t & E' & R & _). rewrite E in E'. inversion E'; subst. clear E'.
  destruct (proj1 R eq_refl) as [_ G]. specialize (G i Hi F). apply (verdict_bad c fields inc n); auto. exists i. split; auto. right. split; auto. intros G2.
  unfold good_payload in G, G2. rewrite HC in G, G2. fold s1 in G. fold s2 in G2. rewrite T1 in G. rewrite T2 in G2. fold hs in G, G2.
  assert (HB : hs = (48 + csum_bytes (verify c))%nat) by (unfold hs, header_bytes; destruct (Z.eqb_spec (verify c) 18) as [X|]; [rewrite X in HC; discriminate|lia]).
  assert (FS : firstn hs s1 = firstn hs s2 -> firstn (csum_bytes (verify c)) (skipn 48 s1) = firstn (csum_bytes (verify c)) (skipn 48 s2)).
  { intros X. apply (f_equal (skipn 48)) in X. rewrite !skipn_firstn_add in X. rewrite HB in X. replace (48 + csum_bytes (verify c) - 48)%nat with (csum_bytes (verify c)) in X by lia. auto. }
  assert (B1 : bytes (skipn hs s1)) by (apply bytes_skipn, unswap_bytes; unfold vblock; apply bytes_firstn, bytes_skipn; auto).
  assert (B2 : bytes (skipn hs s2)) by (apply bytes_skipn, unswap_bytes; unfold vblock; apply bytes_firstn, bytes_skipn; auto).
  destruct D as [(D1 & D2)|[(D1 & D2 & D3 & D4)|(D1 & D2)]].
  - apply D2. rewrite <- D1 in G2. eapply is_csum_unique; eauto.
  - rewrite (FS D1) in G. set (d := firstn (csum_bytes (verify c)) (skipn 48 s2)) in *. clearbody d. set (m1 := skipn hs s1) in *. set (m2 := skipn hs s2) in *. clearbody m1 m2.
    assert (EQ : forall n x y, 0 <= x < 256 ^ Z.of_nat n -> 0 <= y < 256 ^ Z.of_nat n -> DigestModel.le_bytes n x = DigestModel.le_bytes n y -> x = y).
    { intros m x y Hx Hy EE. apply (f_equal le_word) in EE. rewrite !word_bytes, !Z.mod_small in EE; auto. }
    destruct (C18_burst_msb m1 m2 B1 B2) as (M7 & M32 & _). destruct (C18_burst_lsb m1 m2 B1 B2) as (L16 & L32 & L64 & _).
    assert (VC : verify c = 3 \/ verify c = 4 \/ (verify c = 5 \/ verify c = 6) \/ verify c = 7 \/ verify c = 8) by lia.
    destruct VC as [VC|[VC|[VC|[VC|VC]]]].
    + rewrite VC in G, G2, D4. cbn -[is_crc le_bytes reflect lsb_first] in G, G2. destruct G as (r1 & EA & RA). destruct G2 as (r2 & EB & RB).
      destruct (C17_crc64 m1 B1) as (z1 & Z1 & ZA). destruct (C17_crc64 m2 B2) as (z2 & Z2 & ZB).
      apply L64; [exact D4|]. rewrite Z1, Z2. f_equal.
      assert (z1 = r1) by (eapply C17_crc_unique; [| |exact ZA|exact RA]; lia). assert (z2 = r2) by (eapply C17_crc_unique; [| |exact ZB|exact RB]; lia). subst.
      apply (EQ 8%nat); try apply (reflect_range 64). congruence.
    + rewrite VC in G, G2, D4. cbn -[is_crc le_bytes reflect msb_first] in G, G2. destruct G as (r1 & EA & RA). destruct G2 as (r2 & EB & RB).
      destruct (C17_crc32 m1 B1) as (z1 & Z1 & ZA). destruct (C17_crc32 m2 B2) as (z2 & Z2 & ZB).
      apply M32; [exact D4|]. rewrite Z1, Z2. f_equal.
      assert (z1 = r1) by (eapply C17_crc_unique; [| |exact ZA|exact RA]; lia). assert (z2 = r2) by (eapply C17_crc_unique; [| |exact ZB|exact RB]; lia). subst.
      apply (EQ 4%nat); [apply (bound_crc _ _ _ _ _ RA)|apply (bound_crc _ _ _ _ _ RB)|congruence].
    + assert (GA : exists r, d = DigestModel.le_bytes 4 (reflect 32 r) /\ is_crc 32 0x1EDC6F41 (2 ^ 32 - 1) (lsb_first m1) r) by (destruct VC as [VC|VC]; rewrite VC in G; exact G).
      assert (GB : exists r, d = DigestModel.le_bytes 4 (reflect 32 r) /\ is_crc 32 0x1EDC6F41 (2 ^ 32 - 1) (lsb_first m2) r) by (destruct VC as [VC|VC]; rewrite VC in G2; exact G2).
      assert (D5 : burst 32 (lsb_first m1) (lsb_first m2)) by (destruct VC as [VC|VC]; rewrite VC in D4; exact D4).
      destruct GA as (r1 & EA & RA). destruct GB as (r2 & EB & RB).
      destruct (C17_crc32c m1 B1) as (z1 & Z1 & ZA). destruct (C17_crc32c m2 B2) as (z2 & Z2 & ZB).
      apply L32; [exact D5|]. rewrite Z1, Z2. f_equal.
      assert (z1 = r1) by (eapply C17_crc_unique; [| |exact ZA|exact RA]; lia). assert (z2 = r2) by (eapply C17_crc_unique; [| |exact ZB|exact RB]; lia). subst.
      apply (EQ 4%nat); try apply (reflect_range 32). congruence.
    + rewrite VC in G, G2, D4. cbn -[is_crc le_bytes reflect lsb_first] in G, G2. destruct G as (r1 & EA & RA). destruct G2 as (r2 & EB & RB).
      destruct (C17_crc16 m1 B1) as (z1 & Z1 & ZA). destruct (C17_crc16 m2 B2) as (z2 & Z2 & ZB).
      apply L16; [exact D4|]. rewrite Z1, Z2. f_equal.
      assert (z1 = r1) by (eapply C17_crc_unique; [| |exact ZA|exact RA]; lia). assert (z2 = r2) by (eapply C17_crc_unique; [| |exact ZB|exact RB]; lia). subst.
      apply (EQ 2%nat); try apply (reflect_range 16). congruence.
    + rewrite VC in G, G2, D4. cbn -[is_crc msb_first] in G, G2. destruct G as (r1 & EA & RA). destruct G2 as (r2 & EB & RB).
      destruct (C17_crc7 m1 B1) as (z1 & Z1 & ZA). destruct (C17_crc7 m2 B2) as (z2 & Z2 & ZB).
      apply M7; [exact D4|]. rewrite Z1, Z2. f_equal.
      assert (z1 = r1) by (eapply C17_crc_unique; [| |exact ZA|exact RA]; lia). assert (z2 = r2) by (eapply C17_crc_unique; [| |exact ZB|exact RB]; lia). congruence.
  - rewrite (FS D1) in G. eapply D2; eauto.
Qed.
Print Assumptions C22_payload_damage.

(** Without verify_fatal only the payload of the last block counts: any damage to the payloads of the blocks before it, in an I/O
    of several blocks, is reported as success. *)
Theorem C22_damage_missed_refuted c fields inc n io stk buf buf2 : job_ok c fields inc -> io_ok io -> cut c inc n buf -> cut c inc n buf2 -> (128 <= length stk)%nat ->
  bytes buf -> bytes buf2 -> types_known c io inc n buf -> types_known c io inc n buf2 -> verify_fatal c = false ->
  check c io stk buf = Some (0, false) ->
  (forall i, (i < n)%nat -> firstn (header_bytes (verify c)) (seen c (vblock inc buf2 i)) = firstn (header_bytes (verify c)) (seen c (vblock inc buf i))) ->
  vblock inc buf2 (n - 1) = vblock inc buf (n - 1) ->
  check c io stk buf2 = Some (0, false).
Proof.
  intros J I C1 C2 HS Hb Hb2 K1 K2 NF E EH EL.
  destruct (C22_verdict c fields inc n io stk buf J I C1 HS Hb K1) as (r & t & E' & R & _). rewrite E in E'. inversion E'; subst. clear E'.
  destruct (C22_verdict c fields inc n io stk buf2 J I C2 HS Hb2 K2) as (r2 & t2 & E2 & R2 & T2). destruct (proj1 R eq_refl) as [G1 G2].
  assert (r2 = 0).
  { apply R2. split.
    - intros i Hi. specialize (G1 i Hi). specialize (EH i Hi). destruct G1 as [G1|G1]; [left; auto|]. destruct (Z.eq_dec (verify c) 18) as [X|X]; [left; auto|]. right.
      set (a := seen c (vblock inc buf i)) in *. set (b := seen c (vblock inc buf2 i)) in *.
      assert (48 <= header_bytes (verify c))%nat by (unfold header_bytes; destruct (Z.eqb_spec (verify c) 18); lia).
      assert (NE : forall j, (j < 48)%nat -> nth j b 0 = nth j a 0). { intros j Hj. rewrite <- (nth_firstn b 0 (header_bytes (verify c))), EH, nth_firstn by lia. auto. }
      assert (NN : forall m k, (k + m <= 48)%nat -> number b k m = number a k m). { induction m as [|m IH]; intros k Hk; auto. cbn [number]. rewrite IH, NE by lia. auto. }
      assert (F44 : firstn 44 b = firstn 44 a). { rewrite <- (firstn_firstn_le (header_bytes (verify c)) 44 b), <- (firstn_firstn_le (header_bytes (verify c)) 44 a) by lia. rewrite EH. auto. }
      rewrite !NN, F44 by lia. exact G1.
    - intros i Hi [F|F]; [congruence|]. subst i. rewrite EL. apply G2; auto. }
  subst r2. rewrite E2. destruct t2; auto. destruct (proj1 T2 eq_refl) as (_ & X & _). contradiction.
Qed.
Print Assumptions C22_damage_missed_refuted.

(** A bad header ends the check without telling the job to stop, also with verify_fatal. *)
Theorem C22_fatal_header_refuted c fields inc n io stk buf : job_ok c fields inc -> io_ok io -> cut c inc n buf -> (128 <= length stk)%nat -> bytes buf -> types_known c io inc n buf ->
  verify_fatal c = true -> (0 < n)%nat -> ~ good_header c io 0 inc (seen c (vblock inc buf 0)) ->
  exists ret, check c io stk buf = Some (ret, false) /\ ret <> 0.
Proof.
  intros J I C1 HS Hb K1 F Hn NG. destruct (C22_verdict c fields inc n io stk buf J I C1 HS Hb K1) as (r & t & E & R & T). exists r.
  assert (NR : r <> 0) by (intros X; apply R in X; destruct X as [X _]; apply NG; auto). split; auto. rewrite E. destruct t; auto.
  destruct (proj1 T eq_refl) as (_ & _ & X). destruct X. exists 0%nat. split; auto. split; auto. intros; lia.
Qed.
Print Assumptions C22_fatal_header_refuted.

(** ** A case: two blocks of 64 bytes with crc32c, header exchanged with the bytes at 100 of 160-byte blocks, and damage. *)
Definition ex_cfg (vt inc vo : Z) (pat : list Z) (fatal : bool) : cfg := mkCfg vt inc false vo pat [] 0 fatal true 1 false true true false true.
Definition ex_io : iou := mkIou 8192 8192 0 7 1000 5 0.
Definition ex_rnd (n : nat) : list Z := map (fun i => Z.of_nat (i * i + 3) mod 256) (seq 0 n).
Definition ex_run (c : cfg) (n : nat) (f : list Z -> list Z) : option (Z * bool) :=
  do r <- populate_verify_io_u c ex_io (repeat 0 n) (ex_rnd n) 99; let '(b, io, _) := r in check c io (repeat 170 128) (f b).
Definition hit (k : nat) (b : list Z) : list Z := upd b k (Z.lxor (nth k b 0) 1).
Example C21_case : ex_run (ex_cfg VERIFY_CRC32C 64 0 [] false) 128 (fun b => b) = Some (0, false) /\
  ex_run (ex_cfg VERIFY_MD5 160 90 [] false) 320 (fun b => b) = Some (0, false) /\
  ex_run (ex_cfg VERIFY_PATTERN 64 0 [1; 2; 3] false) 128 (fun b => b) = Some (0, false).
Proof. vm_compute. auto. Qed.
Example C22_case : ex_run (ex_cfg VERIFY_CRC32C 64 0 [] false) 128 (hit 120) = Some (EILSEQ, false) /\
  ex_run (ex_cfg VERIFY_CRC32C 64 0 [] false) 128 (hit 20) = Some (EILSEQ, false) /\
  ex_run (ex_cfg VERIFY_CRC32C 64 0 [] false) 128 (hit 60) = Some (0, false) /\
  ex_run (ex_cfg VERIFY_CRC32C 64 0 [] true) 128 (hit 60) = Some (EILSEQ, true) /\
  ex_run (ex_cfg VERIFY_CRC32C 64 0 [] true) 128 (hit 20) = Some (EILSEQ, false) /\
  ex_run (ex_cfg VERIFY_PATTERN 64 0 [1; 2; 3] false) 128 (hit 127) = Some (EILSEQ, false).
Proof. vm_compute. repeat split; reflexivity. Qed.
Example C22_hyp : job_ok (ex_cfg VERIFY_MD5 160 90 [] false) [] 160 /\ cut (ex_cfg VERIFY_MD5 160 90 [] false) 160 2 (repeat 0 320) /\ io_ok ex_io.
Proof.
  split; [|split].
  - unfold job_ok. cbn [verify ex_cfg verify_offset patn fmts pattern_interval]. repeat split; try (vm_compute; lia); try (vm_compute; reflexivity); try lia.
    + vm_compute. discriminate.
    + vm_compute. discriminate.
    + right. right. vm_compute. split; discriminate.
    + intros X. destruct X. vm_compute. reflexivity.
  - unfold cut. split; [cbn; lia|]. split; [vm_compute; reflexivity|]. split; vm_compute; reflexivity.
  - unfold io_ok, ex_io. cbn. lia.
Qed.
