(** Invariant of the allocator over all histories. *)
From Coq Require Import ZArith List Lia Bool Arith.
From Verif Require Import CBase BitOpsModel BitOpsProofs SmallocModel SmallocBits SmallocSpec.
Import ListNotations.
Open Scope Z_scope.

(** ** Memory *)
Lemma wr_out n : forall m a v x, x < a \/ a + Z.of_nat n <= x -> wr n m a v x = m x.
Proof.
  induction n as [|n IH]; intros m a v x H; cbn [wr]; auto. rewrite IH by lia.
  destruct (Z.eqb_spec x a); [lia|auto].
Qed.

Lemma rd_ext n : forall m m' a, (forall x, a <= x < a + Z.of_nat n -> m x = m' x) -> rd n m a = rd n m' a.
Proof.
  induction n as [|n IH]; intros m m' a H; cbn [rd]; auto. rewrite H by lia. f_equal. f_equal.
  apply IH. intros x Hx. apply H. lia.
Qed.

Lemma rd_wr n : forall m a v, 0 <= v < 256 ^ Z.of_nat n -> rd n (wr n m a v) a = v.
Proof.
  induction n as [|n IH]; intros m a v H; cbn [wr rd].
  - cbn in H. lia.
  - rewrite wr_out by lia. rewrite Z.eqb_refl. rewrite IH.
    + pose proof (Z.div_mod v 256 ltac:(lia)). lia.
    + rewrite Nat2Z.inj_succ, Z.pow_succ_r in H by lia. split.
      * apply Z.div_pos; lia.
      * apply Z.div_lt_upper_bound; lia.
Qed.

(** ** Sizes *)
Lemma stb_asz size : size_to_blocks (size_to_alloc_size size) = blocks_of size.
Proof.
  unfold size_to_blocks, size_to_alloc_size, blocks_of, HDR, BPB.
  pose proof (Z.div_mod (size + 16 + 4 + 3) 4 ltac:(lia)). pose proof (Z.mod_pos_bound (size + 16 + 4 + 3) 4 ltac:(lia)).
  set (q := (size + 16 + 4 + 3) / 4) in *. clearbody q.
  pose proof (Z.div_mod (4 * q + 32 - 1) 32 ltac:(lia)). pose proof (Z.mod_pos_bound (4 * q + 32 - 1) 32 ltac:(lia)).
  pose proof (Z.div_mod (size + 20 + 31) 32 ltac:(lia)). pose proof (Z.mod_pos_bound (size + 20 + 31) 32 ltac:(lia)).
  lia.
Qed.

Lemma asz_bounds size : 0 <= size ->
  size + 20 <= size_to_alloc_size size <= size + 23 /\ size_to_alloc_size size mod 4 = 0 /\
  size_to_alloc_size size <= 32 * blocks_of size.
Proof.
  intros H. unfold size_to_alloc_size, blocks_of, HDR.
  pose proof (Z.div_mod (size + 16 + 4 + 3) 4 ltac:(lia)). pose proof (Z.mod_pos_bound (size + 16 + 4 + 3) 4 ltac:(lia)).
  pose proof (Z.div_mod (size + 20 + 31) 32 ltac:(lia)). pose proof (Z.mod_pos_bound (size + 20 + 31) 32 ltac:(lia)).
  set (q := (size + 16 + 4 + 3) / 4) in *. clearbody q.
  split; [lia|]. split; [|lia]. rewrite Z.mul_comm. apply Z.mod_mul. lia.
Qed.

Lemma blocks_bounds size : 0 <= size -> 0 < blocks_of size /\ (size < 2 ^ 32 -> blocks_of size <= 2 ^ 28) /\
  size + 20 <= 32 * blocks_of size.
Proof.
  intros H. unfold blocks_of. pose proof (Z.div_mod (size + 20 + 31) 32 ltac:(lia)).
  pose proof (Z.mod_pos_bound (size + 20 + 31) 32 ltac:(lia)). lia.
Qed.

Lemma postred_eq hdr size : hdr mod 4 = 0 -> size mod 4 = 0 -> postred_ptr hdr size = hdr + size - 4.
Proof.
  intros H1 H2. unfold postred_ptr.
  pose proof (Z.div_mod hdr 4 ltac:(lia)). pose proof (Z.div_mod size 4 ltac:(lia)).
  assert (E : (hdr + size - 4 + 3) / 4 = hdr / 4 + size / 4 - 1).
  { symmetry. apply Z.div_unique with 3; lia. }
  lia.
Qed.

(** ** One pool *)
Record pool_inv (p : pool) (C : Z -> bool) : Prop := {
  pi_wf : wfbm (bitmap p);
  pi_len : 0 < zlen (bitmap p) < 2 ^ 22;
  pi_bits : forall x, 0 <= x < nbits (bitmap p) -> bbit (bitmap p) x = C x;
  pi_free : free_blocks p = zeros (bitmap p);
  pi_hint : forall k, (k < next_non_full p)%nat -> nth k (bitmap p) 0 = ones32
}.

Lemma pool_inv_ext p C D : pool_inv p C -> (forall x, 0 <= x < nbits (bitmap p) -> C x = D x) -> pool_inv p D.
Proof. intros [A B E F G] H. constructor; auto. intros x Hx. rewrite E; auto. Qed.

Definition same_geo (p q : pool) : Prop := base p = base q /\ length (bitmap p) = length (bitmap q).

Lemma full_set bm bm' : wfbm bm -> wfbm bm' -> length bm' = length bm ->
  (forall x, 0 <= x -> bbit bm x = true -> bbit bm' x = true) ->
  forall k, nth k bm 0 = ones32 -> nth k bm' 0 = ones32.
Proof.
  intros H H' L HB k Hk. apply full_iff; [apply wfbm_nth; auto|]. intros j Hj.
  rewrite <- bbit_word by lia. apply HB; [lia|]. rewrite bbit_word by lia. rewrite Hk.
  change ones32 with (Z.ones 32). rewrite testbit_ones by lia.
  destruct (Z.leb_spec 0 j), (Z.ltb_spec j 32); auto; lia.
Qed.

Lemma pool0_ok p C size zo : pool_inv p C -> 0 < size_to_blocks size <= 2 ^ 28 ->
  (forall i l, 0 <= zo i l < 2 ^ 31) ->
  exists p' r, smalloc_pool0 p size zo = Some (p', r) /\ same_geo p' p /\
    match r with
    | None => pool_inv p' C
    | Some off => exists b, off = 32 * b /\ 0 <= b /\ b + size_to_blocks size <= nbits (bitmap p) /\
        (forall x, b <= x < b + size_to_blocks size -> C x = false) /\
        pool_inv p' (fun x => if (b <=? x) && (x <? b + size_to_blocks size) then true else C x)
    end.
Proof.
  intros [Hwf Hlen Hbits Hfree Hhint] Hn Hzo. set (nr := size_to_blocks size) in *.
  unfold smalloc_pool0. fold nr. cbv zeta.
  destruct (Z.ltb_spec (free_blocks p) nr) as [LT|GE].
  { exists p, None. split; [auto|]. split; [split; auto|]. constructor; auto. }
  assert (NZ : zeros (bitmap p) <> 0) by lia.
  destruct (find_best_ok (bitmap p) (next_non_full p) (zeros_nonfull _ NZ) Hhint) as (b & EB & BL & BN & BF).
  unfold find_best_index. destruct (Z.eqb_spec (free_blocks p) 0) as [E0|_]; [lia|]. rewrite EB.
  destruct (search_ok (bitmap p) zo nr Hwf ltac:(lia) Hzo Hn (32 * length (bitmap p))%nat b 0 ltac:(lia)) as (r & ES & RS).
  { unfold zlen. lia. }
  rewrite ES. destruct r as [[i idx]|].
  - destruct RS as (Hi & Hx & HA).
    destruct (set_blocks_ok (bitmap p) i idx nr Hwf Hi Hn Hx HA) as (bm' & E & L & W & B). rewrite E.
    set (s := 32 * Z.of_nat i + idx) in *.
    assert (IN : s + nr <= nbits (bitmap p)). { destruct (HA (s + nr - 1) ltac:(lia)). lia. }
    eexists _, _. split; [reflexivity|]. split; [split; auto|]. exists s.
    split. { unfold u32, BPL, BPB, BPI. rewrite Z.mod_small; unfold nbits in *; lia. }
    split; [lia|]. split; [auto|]. split.
    { intros x Hxx. destruct (HA x Hxx) as [H1 H2]. rewrite <- Hbits; auto. lia. }
    constructor; cbn [bitmap free_blocks next_non_full]; auto.
    + unfold zlen in *. rewrite L. auto.
    + intros x Hxx. unfold nbits, zlen in *. rewrite L in Hxx. rewrite B by lia.
      destruct ((s <=? x) && (x <? s + nr)); auto.
    + rewrite Hfree. symmetry. apply zeros_set with s; auto; lia.
    + intros k Hk. apply (full_set (bitmap p)); auto. intros x Hxx HB. rewrite B by lia. rewrite HB.
      destruct ((s <=? x) && (x <? s + nr)); auto.
  - eexists _, _. split; [reflexivity|]. split; [split; auto|]. constructor; auto.
Qed.

Lemma count_false n : count (fun _ => false) n = 0.
Proof. induction n; cbn [count]; lia. Qed.

Lemma zeros_prefix bm k : 0 <= k <= nbits bm -> (forall x, 0 <= x < nbits bm -> bbit bm x = (x <? k)) ->
  zeros bm = nbits bm - k.
Proof.
  intros Hk H. unfold zeros. set (N := nbits bm) in *.
  assert (EN : Z.of_nat (32 * length bm) = N) by (unfold N, nbits, zlen; lia).
  rewrite (count_ext _ (fun x => negb (x <? k))).
  - rewrite (count_range (fun x => negb (x <? k)) (fun x => N <=? x) k (N - k)).
    + rewrite (count_ext _ (fun _ => false)), count_false; [lia|].
      intros x Hx. apply Z.leb_gt. lia.
    + lia.
    + lia.
    + intros x Hx. destruct (Z.ltb_spec x k), (Z.leb_spec N x); auto; lia.
    + intros x Hx HO. destruct (Z.ltb_spec x k), (Z.leb_spec N x); auto; lia.
  - intros x Hx. rewrite H by lia. auto.
Qed.

Lemma pool0_prefix p k size zo : pool_inv p (fun x => x <? k) -> 0 <= k -> 0 < size_to_blocks size <= 2 ^ 28 ->
  k + size_to_blocks size <= nbits (bitmap p) ->
  exists p', smalloc_pool0 p size zo = Some (p', Some (32 * k)).
Proof.
  intros [Hwf Hlen Hbits Hfree Hhint] Hk0 Hn Hfit. set (nr := size_to_blocks size) in *.
  unfold smalloc_pool0. fold nr. cbv zeta.
  assert (ZC : zeros (bitmap p) = nbits (bitmap p) - k) by (apply zeros_prefix; auto; lia).
  destruct (Z.ltb_spec (free_blocks p) nr) as [LT|GE]; [lia|].
  assert (NZ : zeros (bitmap p) <> 0) by lia.
  destruct (find_best_ok (bitmap p) (next_non_full p) (zeros_nonfull _ NZ) Hhint) as (b & EB & BL & BN & BF).
  unfold find_best_index. destruct (Z.eqb_spec (free_blocks p) 0) as [E0|_]; [lia|]. rewrite EB.
  assert (KB : 32 * Z.of_nat b <= k < 32 * Z.of_nat b + 32).
  { split.
    - destruct b as [|b']; [lia|]. destruct (Z_lt_ge_dec k (32 * Z.of_nat (S b'))) as [A|A]; [|lia]. exfalso.
      pose proof (Hbits (32 * Z.of_nat b' + 31) ltac:(unfold nbits, zlen; lia)) as HB.
      rewrite bbit_word, BF in HB by lia. destruct (Z.ltb_spec (32 * Z.of_nat b' + 31) k); [lia|]. discriminate HB.
    - destruct (Z_lt_ge_dec k (32 * Z.of_nat b + 32)) as [A|A]; [lia|]. exfalso. apply BN.
      apply full_iff; [apply wfbm_nth; auto|]. intros j Hj. rewrite <- bbit_word by lia.
      rewrite Hbits by (unfold nbits, zlen; lia). apply Z.ltb_lt. lia. }
  rewrite (search_prefix (bitmap p) zo nr k b) by (auto; lia).
  destruct (set_blocks_ok (bitmap p) b (k - 32 * Z.of_nat b) nr Hwf BL Hn ltac:(lia)) as (bm' & E & _).
  { intros x Hx. split; [lia|]. rewrite Hbits by lia. apply Z.ltb_ge. lia. }
  rewrite E. eexists. f_equal. f_equal. f_equal. unfold u32, BPL, BPB, BPI.
  rewrite Z.mod_small; unfold nbits in *; lia.
Qed.

Lemma all_in_clear_hint bm bm' s n k i : wfbm bm -> wfbm bm' -> length bm' = length bm -> 0 <= s ->
  (forall x, 0 <= x -> bbit bm' x = if (s <=? x) && (x <? s + n) then false else bbit bm x) ->
  nth k bm 0 = ones32 -> (k < i)%nat -> 32 * Z.of_nat i <= s ->
  nth k bm' 0 = ones32.
Proof.
  intros W W' L Hs B Hk Hki Hi. rewrite <- Hk. apply Z.bits_inj'. intros j Hj.
  destruct (Z_lt_ge_dec j 32) as [A|A].
  - rewrite <- !bbit_word by lia. rewrite B by lia.
    destruct (Z.leb_spec s (32 * Z.of_nat k + j)); [lia|]. auto.
  - rewrite !wf_bits; auto; try lia; apply wfbm_nth; auto.
Qed.

Lemma sfree_pool_ok p C m ptr size b : pool_inv p C -> base p mod 4 = 0 -> 0 <= size ->
  0 <= b -> b + blocks_of size <= nbits (bitmap p) -> ptr = base p + 32 * b + 16 ->
  (forall x, b <= x < b + blocks_of size -> C x = true) ->
  rd 8 m (ptr - 16) = size_to_alloc_size size -> rd 4 m (ptr - 8) = PRE_RED ->
  rd 4 m (ptr - 16 + size_to_alloc_size size - 4) = POST_RED ->
  exists p', sfree_pool p m ptr = Some p' /\ same_geo p' p /\
    pool_inv p' (fun x => if (b <=? x) && (x <? b + blocks_of size) then false else C x).
Proof.
  intros [Hwf Hlen Hbits Hfree Hhint] Hal Hs Hb Hfit -> HC H8 Hpre Hpost.
  destruct (blocks_bounds size Hs) as (NB & _ & _). destruct (asz_bounds size Hs) as (_ & AM & _).
  unfold sfree_pool, HDR. cbv zeta.
  replace (base p + 32 * b + 16 - 16) with (base p + 32 * b) in * by lia.
  replace (base p + 32 * b + 16 - 8) with (base p + 32 * b + 8) in * by lia.
  assert (PV : ptr_valid p (base p + 32 * b) = true).
  { unfold ptr_valid, u32, BPL, BPB, BPI. unfold nbits in *. rewrite Z.mod_small by lia.
    apply andb_true_iff. split; [apply Z.leb_le|apply Z.ltb_lt]; lia. }
  rewrite PV, H8, Hpre. rewrite postred_eq; auto.
  2:{ replace (base p + 32 * b) with (base p + (8 * b) * 4) by lia. rewrite Z.mod_add by lia. auto. }
  rewrite Hpost, !Z.eqb_refl. cbn [andb]. rewrite stb_asz.
  replace (base p + 32 * b - base p) with (32 * b) by lia. unfold BPL, BPB, BPI.
  assert (Q : 32 * b / (32 * 32) = b / 32) by (rewrite Z.div_mul_cancel_l; lia).
  assert (R : (32 * b) mod (32 * 32) / 32 = b mod 32).
  { rewrite Z.mul_mod_distr_l by lia. rewrite Z.mul_comm. apply Z.div_mul. lia. }
  rewrite Q, R. pose proof (Z.div_mod b 32 ltac:(lia)). pose proof (Z.mod_pos_bound b 32 ltac:(lia)).
  assert (D0 : 0 <= b / 32) by (apply Z.div_pos; lia).
  assert (EQB : 32 * Z.of_nat (Z.to_nat (b / 32)) + b mod 32 = b) by lia.
  destruct (clear_blocks_ok (bitmap p) (Z.to_nat (b / 32)) (b mod 32) (blocks_of size) Hwf) as (bm' & E & L & W & B).
  - unfold nbits in *. lia.
  - lia.
  - rewrite EQB. intros x Hx. split; [lia|]. rewrite Hbits by lia. auto.
  - rewrite EQB in B. rewrite E. eexists. split; [reflexivity|]. split; [split; auto|].
    constructor; cbn [bitmap free_blocks next_non_full]; auto.
    + unfold zlen in *. rewrite L. auto.
    + intros x Hx. unfold nbits, zlen in *. rewrite L in Hx. rewrite B by lia.
      destruct ((b <=? x) && (x <? b + blocks_of size)); auto.
    + rewrite Hfree. symmetry. apply zeros_clear with b; auto; try lia.
      intros x Hx. split; [lia|]. rewrite Hbits by lia. auto.
    + intros k Hk.
      apply (all_in_clear_hint (bitmap p) bm' b (blocks_of size) k (Z.to_nat (b / 32))); auto; try lia.
      * apply Hhint. destruct (Nat.ltb_spec (Z.to_nat (b / 32)) (next_non_full p)); lia.
      * destruct (Nat.ltb_spec (Z.to_nat (b / 32)) (next_non_full p)); lia.
Qed.

(** ** All pools *)
Definition covd (L : list (Z * Z)) (p : pool) (x : Z) : bool := existsb (fun a => covers a (base p + 32 * x)) L.

Definition hdr_ok (m : mem) (a : Z * Z) : Prop :=
  rd 8 m (fst a - 16) = size_to_alloc_size (snd a) /\ rd 4 m (fst a - 8) = PRE_RED /\
  rd 4 m (fst a - 16 + size_to_alloc_size (snd a) - 4) = POST_RED.

Definition placed (ps : list pool) (a : Z * Z) : Prop :=
  exists i p b, nth_error ps i = Some p /\ 0 <= b /\ b + blocks_of (snd a) <= nbits (bitmap p) /\
    fst a = base p + 32 * b + 16.

Record Inv (ps : list pool) (s : st) (L : list (Z * Z)) : Prop := {
  i_geo : Forall2 same_geo (pools s) ps;
  i_last : (last_pool s < length ps)%nat;
  i_pools : forall i p, nth_error (pools s) i = Some p -> pool_inv p (covd L p);
  i_size : forall a, In a L -> 0 <= snd a < 2 ^ 32;
  i_placed : forall a, In a L -> placed ps a;
  i_hdr : forall a, In a L -> hdr_ok (memory s) a;
  i_apart : ForallOrdPairs apart L
}.

Lemma F2_nth {A B} (R : A -> B -> Prop) l l' : Forall2 R l l' -> forall i,
  match nth_error l i, nth_error l' i with Some a, Some b => R a b | None, None => True | _, _ => False end.
Proof. induction 1; intros [|i]; cbn; auto. apply IHForall2. Qed.

Lemma F2_length {A B} (R : A -> B -> Prop) l l' : Forall2 R l l' -> length l = length l'.
Proof. induction 1; cbn; auto. Qed.

Lemma F2_upd {A B} (R : A -> B -> Prop) l l' i v w : Forall2 R l l' -> nth_error l' i = Some w -> R v w ->
  Forall2 R (upd l i v) l'.
Proof.
  intros H. revert i. induction H; intros [|i] E Rv; cbn in *; try discriminate; constructor; auto.
  injection E as <-. auto.
Qed.

Lemma FOP_nth {A} (R : A -> A -> Prop) l : (forall a b, R a b -> R b a) -> ForallOrdPairs R l ->
  forall i j a b, i <> j -> nth_error l i = Some a -> nth_error l j = Some b -> R a b.
Proof.
  intros Sym H. induction H as [|x l Hx H IH]; intros [|i] [|j] a b N E1 E2; cbn in *; try discriminate; try lia.
  - injection E1 as <-. rewrite Forall_forall in Hx. apply Hx. eapply nth_error_In; eauto.
  - injection E2 as <-. rewrite Forall_forall in Hx. apply Sym, Hx. eapply nth_error_In; eauto.
  - apply (IH i j); auto.
Qed.

Lemma FOP_mid {A} (R : A -> A -> Prop) l1 x l2 : (forall a b, R a b -> R b a) ->
  ForallOrdPairs R (l1 ++ x :: l2) -> ForallOrdPairs R (l1 ++ l2) /\ forall c, In c (l1 ++ l2) -> R x c.
Proof.
  intros Sym. induction l1 as [|y l1 IH]; cbn; intros H; inversion H; subst.
  - rewrite Forall_forall in H2. auto.
  - destruct (IH H3) as [A1 A2]. rewrite Forall_forall in H2. split.
    + constructor; auto. rewrite Forall_forall. intros z Hz. apply H2. apply in_app_iff in Hz.
      apply in_app_iff. cbn. tauto.
    + intros c [<-|Hc]; auto. apply Sym, H2. apply in_app_iff. cbn. auto.
Qed.

Lemma apart_sym a b : apart a b -> apart b a.
Proof. unfold apart. tauto. Qed.

Lemma hdr_ok_ext m m' a : 0 <= snd a -> (forall x, lo a <= x < hi a -> (x < fst a \/ fst a + snd a <= x) -> m x = m' x) ->
  hdr_ok m a -> hdr_ok m' a.
Proof.
  intros Hs H (H1 & H2 & H3). destruct (asz_bounds (snd a) Hs) as (A1 & A2 & A3).
  unfold lo, hi in *. unfold hdr_ok.
  rewrite <- (rd_ext 8 m m'), <- (rd_ext 4 m m' (fst a - 8)),
    <- (rd_ext 4 m m' (fst a - 16 + size_to_alloc_size (snd a) - 4)); auto; intros x Hx; apply H; lia.
Qed.

Lemma nth_error_ext' {A} (l l' : list A) : (forall i, nth_error l i = nth_error l' i) -> l = l'.
Proof.
  revert l'. induction l as [|p l IH]; intros [|q l'] EQ; auto.
  - specialize (EQ 0%nat). discriminate.
  - specialize (EQ 0%nat). discriminate.
  - pose proof (EQ 0%nat) as E0. cbn in E0. injection E0 as ->. f_equal. apply IH. intros i. exact (EQ (S i)).
Qed.

Section Fixed.
Context (ps : list pool) (FP : fresh_pools ps).

Lemma fresh_nth i p : nth_error ps i = Some p -> fresh_pool p.
Proof. destruct FP as (_ & F & _). rewrite Forall_forall in F. intros E. apply F. eapply nth_error_In; eauto. Qed.

Lemma pools_apart i j p q : i <> j -> nth_error ps i = Some p -> nth_error ps j = Some q ->
  pool_end p <= base q \/ pool_end q <= base p.
Proof.
  destruct FP as (_ & _ & F). intros N E1 E2. refine (FOP_nth _ ps _ F i j p q N E1 E2). tauto.
Qed.

Lemma geo s L i p : Inv ps s L -> nth_error (pools s) i = Some p ->
  exists q, nth_error ps i = Some q /\ base p = base q /\ length (bitmap p) = length (bitmap q).
Proof.
  intros I E. pose proof (F2_nth _ _ _ (i_geo _ _ _ I) i) as H. rewrite E in H.
  destruct (nth_error ps i) as [q|] eqn:E2; [|contradiction]. destruct H. eauto.
Qed.

Lemma geo' s L i q : Inv ps s L -> nth_error ps i = Some q ->
  exists p, nth_error (pools s) i = Some p /\ base p = base q /\ length (bitmap p) = length (bitmap q).
Proof.
  intros I E. pose proof (F2_nth _ _ _ (i_geo _ _ _ I) i) as H. rewrite E in H.
  destruct (nth_error (pools s) i) as [p|] eqn:E2; [|contradiction]. destruct H. eauto.
Qed.

Lemma F2_len s L : Inv ps s L -> length (pools s) = length ps.
Proof. intros I. exact (F2_length _ _ _ (i_geo _ _ _ I)). Qed.

(** A placed allocation does not reach into another pool. *)
Lemma placed_other i p b size j q x : nth_error ps i = Some p -> nth_error ps j = Some q -> i <> j ->
  0 <= b -> b + blocks_of size <= nbits (bitmap p) -> 0 <= x < nbits (bitmap q) ->
  covers (base p + 32 * b + 16, size) (base q + 32 * x) = false.
Proof.
  intros E1 E2 N Hb Hf Hx. destruct (pools_apart i j p q N E1 E2) as [D|D];
    unfold pool_end, covers, lo, hi, nbits in *; cbn [fst snd];
    destruct (Z.leb_spec (base p + 32 * b + 16 - 16) (base q + 32 * x)),
      (Z.ltb_spec (base q + 32 * x) (base p + 32 * b + 16 - 16 + 32 * blocks_of size)); auto; lia.
Qed.

Lemma covers_same p b size x :
  covers (base p + 32 * b + 16, size) (base p + 32 * x) = (b <=? x) && (x <? b + blocks_of size).
Proof.
  unfold covers, lo, hi; cbn [fst snd].
  destruct (Z.leb_spec (base p + 32 * b + 16 - 16) (base p + 32 * x)),
      (Z.ltb_spec (base p + 32 * x) (base p + 32 * b + 16 - 16 + 32 * blocks_of size)),
      (Z.leb_spec b x), (Z.ltb_spec x (b + blocks_of size)); auto; lia.
Qed.

(** A run of uncovered blocks is apart from every live allocation. *)
Lemma new_apart s L i q b size : Inv ps s L -> nth_error ps i = Some q -> 0 <= b -> 0 <= size ->
  b + blocks_of size <= nbits (bitmap q) -> (forall x, b <= x < b + blocks_of size -> covd L q x = false) ->
  forall c, In c L -> apart (base q + 32 * b + 16, size) c.
Proof.
  intros I E Hb Hs Hf HC c Hc. destruct (i_placed _ _ _ I c Hc) as (j & q' & b' & E' & Hb' & Hf' & P').
  pose proof (i_size _ _ _ I c Hc) as Sc.
  destruct (blocks_bounds size Hs) as (N1 & _). destruct (blocks_bounds (snd c) ltac:(lia)) as (N2 & _).
  unfold apart, lo, hi. rewrite P'. cbn [fst snd].
  destruct (Nat.eq_dec i j) as [->|N].
  - assert (q' = q) by congruence. subst q'.
    destruct (Z_le_gt_dec (b + blocks_of size) b') as [A|A]; [left; lia|].
    destruct (Z_le_gt_dec (b' + blocks_of (snd c)) b) as [B|B]; [right; lia|]. exfalso.
    specialize (HC (Z.max b b') ltac:(lia)). unfold covd in HC.
    assert (T : existsb (fun a => covers a (base q + 32 * Z.max b b')) L = true).
    { apply existsb_exists. exists c. split; auto. destruct c as [cp cs]. cbn [fst snd] in *. subst cp.
      rewrite covers_same. apply andb_true_iff. split; [apply Z.leb_le|apply Z.ltb_lt]; lia. }
    congruence.
  - destruct (pools_apart i j q q' N E E') as [D|D]; unfold pool_end, nbits in *; lia.
Qed.

Lemma covd_ext L p q x : base p = base q -> covd L p x = covd L q x.
Proof. unfold covd. intros ->. auto. Qed.

Definition prefix_free (L : list (Z * Z)) (p : pool) (k : Z) : Prop :=
  forall x, 0 <= x < nbits (bitmap p) -> covd L p x = (x <? k).

Lemma try_ok size zo : 0 <= size < 2 ^ 32 -> any_ffz zo -> forall n s i L, Inv ps s L ->
  (i + n <= length ps)%nat ->
  exists s' r, try_pools n s i size zo = Some (s', r) /\ last_pool s' = last_pool s /\
    match r with
    | None => Inv ps s' L /\ memory s' = memory s
    | Some (j, ptr) => (j < length ps)%nat /\
        Inv ps s' ((ptr, size) :: L) /\
        (forall x, ptr <= x < ptr + size -> memory s' x = 0) /\
        (forall x, x < ptr - 16 \/ ptr - 16 + 32 * blocks_of size <= x -> memory s' x = memory s x)
    end /\
    (forall j p k, (i <= j < i + n)%nat -> nth_error ps j = Some p -> prefix_free L p k -> 0 <= k ->
       k + blocks_of size <= nbits (bitmap p) -> r <> None).
Proof.
  intros Hs Hzo. destruct (blocks_bounds size ltac:(lia)) as (N1 & N2 & N3). specialize (N2 ltac:(lia)).
  destruct (asz_bounds size ltac:(lia)) as (A1 & A2 & A3).
  induction n as [|n IH]; intros s i L I Hn; cbn [try_pools].
  { exists s, None. split; [auto|]. split; [auto|]. split; [auto|]. intros; lia. }
  assert (LI : (i < length (pools s))%nat) by (rewrite (F2_len _ _ I); lia).
  destruct (nth_error (pools s) i) as [p|] eqn:EP; [|apply nth_error_None in EP; lia].
  destruct (geo _ _ _ _ I EP) as (q & EQ & GB & GL).
  pose proof (i_pools _ _ _ I i p EP) as PI.
  pose proof (fresh_nth _ _ EQ) as (F1 & F2 & F3 & _).
  assert (NBQ : nbits (bitmap p) = nbits (bitmap q)) by (unfold nbits, zlen; rewrite GL; auto).
  destruct (pool0_ok p (covd L p) (size_to_alloc_size size) (zo i) PI) as (p' & r & E0 & [G1 G2] & R).
  { rewrite stb_asz. lia. }
  { intros; apply Hzo. }
  unfold smalloc_pool. rewrite E0. destruct r as [off|].
  - destruct R as (b & -> & Hb & Hfit & HC & PI'). rewrite stb_asz in *. unfold HDR.
    set (ptr := base p + 32 * b + 16) in *. set (h := base p + 32 * b) in *.
    eexists _, _. split; [reflexivity|]. cbn [last_pool memory pools]. split; [auto|].
    split; [|intros; discriminate]. split; [lia|].
    assert (H4 : h mod 4 = 0).
    { unfold h. rewrite GB. pose proof (Z.div_mod (base q) 16 ltac:(lia)).
      replace (base q + 32 * b) with ((4 * (base q / 16) + 8 * b) * 4) by lia. apply Z.mod_mul. lia. }
    rewrite postred_eq by auto.
    set (m' := zero_fill _ _ _).
    assert (MO : forall x, x < ptr - 16 \/ ptr - 16 + 32 * blocks_of size <= x -> m' x = memory s x).
    { intros x Hx. unfold m', zero_fill.
      destruct (Z.leb_spec ptr x), (Z.ltb_spec x (ptr + size)); cbn [andb]; unfold ptr, h in *; try lia;
        rewrite !wr_out by (unfold ptr, h in *; lia); auto. }
    split; [|split; [|exact MO]].
    + pose proof (new_apart s L i q b size I EQ Hb ltac:(lia) ltac:(lia)) as NA.
      assert (NA' : forall c, In c L -> apart (ptr, size) c).
      { unfold ptr, h. rewrite GB. apply NA. intros x Hx. rewrite <- (covd_ext L p q x GB). apply HC. auto. }
      constructor; cbn [pools last_pool memory].
      * apply F2_upd with q; [exact (i_geo _ _ _ I)|auto|]. split; congruence.
      * exact (i_last _ _ _ I).
      * intros j pj Ej. destruct (Nat.eq_dec i j) as [->|N].
        -- rewrite upd_nth_error_same in Ej by auto. assert (pj = p') by congruence. subst pj.
           eapply pool_inv_ext; [exact PI'|]. intros x Hx. cbn [covd existsb]. unfold covd. cbn [existsb].
           rewrite G1. unfold ptr, h. rewrite covers_same. destruct ((b <=? x) && (x <? b + blocks_of size)); auto.
        -- rewrite upd_nth_error_other in Ej by auto.
           eapply pool_inv_ext; [exact (i_pools _ _ _ I j pj Ej)|]. intros x Hx. unfold covd. cbn [existsb].
           destruct (geo _ _ _ _ I Ej) as (qj & EQj & GBj & GLj). unfold ptr, h. rewrite GB, GBj.
           rewrite (placed_other i q b size j qj); auto; unfold nbits, zlen in *; try lia.
      * intros a [<-|Ha]; [exact Hs|]. apply (i_size _ _ _ I a Ha).
      * intros a [<-|Ha]; [|apply (i_placed _ _ _ I a Ha)]. exists i, q, b. cbn [fst snd].
        split; [auto|]. split; [auto|]. split; [lia|]. unfold ptr, h. lia.
      * intros a [<-|Ha].
        -- unfold hdr_ok. cbn [fst snd].
           assert (Z8 : 0 <= size_to_alloc_size size < 256 ^ Z.of_nat 8).
           { change (256 ^ Z.of_nat 8) with (2 ^ 64). lia. }
           assert (ZX : forall x, x < ptr \/ ptr + size <= x -> m' x =
             wr 4 (wr 4 (wr 8 (memory s) h (size_to_alloc_size size)) (h + 8) PRE_RED)
               (h + size_to_alloc_size size - 4) POST_RED x).
           { intros x Hx. unfold m', zero_fill.
             destruct (Z.leb_spec ptr x), (Z.ltb_spec x (ptr + size)); cbn [andb]; auto; lia. }
           replace (ptr - 16) with h by (unfold ptr, h; lia). replace (ptr - 8) with (h + 8) by (unfold ptr, h; lia).
           split; [|split].
           ++ rewrite (rd_ext 8 _ (wr 8 (memory s) h (size_to_alloc_size size))); [apply rd_wr; auto|].
              intros x Hx. rewrite ZX by (unfold ptr, h in *; lia). rewrite !wr_out by lia. auto.
           ++ rewrite (rd_ext 4 _ (wr 4 (wr 8 (memory s) h (size_to_alloc_size size)) (h + 8) PRE_RED)).
              { apply rd_wr. unfold PRE_RED. change (256 ^ Z.of_nat 4) with (2 ^ 32). lia. }
              intros x Hx. rewrite ZX by (unfold ptr, h in *; lia). rewrite wr_out by lia. auto.
           ++ rewrite (rd_ext 4 _ (wr 4 (wr 4 (wr 8 (memory s) h (size_to_alloc_size size)) (h + 8) PRE_RED)
                (h + size_to_alloc_size size - 4) POST_RED)).
              { apply rd_wr. unfold POST_RED. change (256 ^ Z.of_nat 4) with (2 ^ 32). lia. }
              intros x Hx. apply ZX. unfold ptr, h in *. lia.
        -- pose proof (i_size _ _ _ I a Ha). apply hdr_ok_ext with (memory s); [lia| |apply (i_hdr _ _ _ I a Ha)].
           intros x Hx _. symmetry. apply MO. destruct (NA' a Ha) as [D|D]; unfold lo, hi in *; cbn [fst snd] in *; lia.
      * constructor; [|exact (i_apart _ _ _ I)]. rewrite Forall_forall. exact NA'.
    + intros x Hx. unfold m', zero_fill.
      destruct (Z.leb_spec ptr x), (Z.ltb_spec x (ptr + size)); cbn [andb]; auto; lia.
  - set (s1 := mkSt (upd (pools s) i p') (memory s) (last_pool s)).
    assert (I1 : Inv ps s1 L).
    { constructor; cbn [pools last_pool memory s1]; try apply I.
      - apply F2_upd with q; [exact (i_geo _ _ _ I)|auto|]. split; congruence.
      - intros j pj Ej. destruct (Nat.eq_dec i j) as [->|N].
        + rewrite upd_nth_error_same in Ej by auto. assert (pj = p') by congruence. subst pj.
          eapply pool_inv_ext; [exact R|]. intros x Hx. apply covd_ext. auto.
        + rewrite upd_nth_error_other in Ej by auto. exact (i_pools _ _ _ I j pj Ej). }
    destruct (IH s1 (S i) L I1 ltac:(lia)) as (s' & r & E & EL & RR & CC).
    exists s', r. split; [exact E|]. split; [exact EL|]. split; [exact RR|].
    intros j pj k Hj Ej PF Hk HK. destruct (Nat.eq_dec i j) as [->|N].
    + exfalso. assert (pj = q) by congruence. subst pj.
      destruct (pool0_prefix p k (size_to_alloc_size size) (zo j)) as (p'' & EE).
      * eapply pool_inv_ext; [exact PI|]. intros x Hx. rewrite (covd_ext L p q x GB). apply PF. lia.
      * auto.
      * rewrite stb_asz. lia.
      * rewrite stb_asz. lia.
      * rewrite E0 in EE. discriminate EE.
    + apply (CC j pj k); auto. lia.
Qed.

Lemma smalloc_ok s L size zo : Inv ps s L -> 0 <= size < 2 ^ 64 -> any_ffz zo ->
  exists s' r, smalloc s size zo = Some (s', r) /\
    match r with
    | None => Inv ps s' L /\ memory s' = memory s
    | Some ptr => size < 2 ^ 32 /\ Inv ps s' ((ptr, size) :: L) /\
        (forall x, ptr <= x < ptr + size -> memory s' x = 0) /\
        (forall x, x < ptr - 16 \/ ptr - 16 + 32 * blocks_of size <= x -> memory s' x = memory s x)
    end /\
    (forall j p k, nth_error ps j = Some p -> prefix_free L p k -> 0 <= k ->
       k + blocks_of size <= nbits (bitmap p) -> r <> None).
Proof.
  intros I Hs Hzo. unfold smalloc. destruct (Z.leb_spec (2 ^ 32) size) as [G|G].
  { exists s, None. split; [auto|]. split; [auto|]. intros j p k Ej _ Hk HK.
    destruct (fresh_nth _ _ Ej) as (_ & _ & F3 & _). destruct (blocks_bounds size ltac:(lia)) as (_ & _ & N3).
    unfold nbits in *. lia. }
  pose proof (i_last _ _ _ I) as LP. pose proof (F2_len _ _ I) as LEN. pose proof LP as LP0.
  destruct (try_ok size zo ltac:(lia) Hzo (length (pools s) - last_pool s) s (last_pool s) L I ltac:(lia))
    as (s1 & r1 & E1 & EL1 & R1 & C1). rewrite E1.
  assert (SL : forall t L' k, Inv ps t L' -> (k < length ps)%nat -> Inv ps (mkSt (pools t) (memory t) k) L').
  { intros t L' k [] Hk. constructor; auto. }
  destruct r1 as [[j ptr]|].
  - destruct R1 as (Hj & I1 & Z1 & M1). eexists _, _. split; [reflexivity|]. cbn [memory]. split.
    + split; [auto|]. split; [apply SL; auto|]. auto.
    + intros; discriminate.
  - destruct R1 as (I1 & M1). destruct (last_pool s1) as [|lp] eqn:EP.
    + exists s1, None. split; [auto|]. split; [auto|]. intros j p k Ej PF Hk HK. exfalso. apply (C1 j p k); auto.
      assert (j < length ps)%nat by (apply nth_error_Some; congruence). lia.
    + destruct (try_ok size zo ltac:(lia) Hzo (S lp) (mkSt (pools s1) (memory s1) 0) 0 L)
        as (s2 & r2 & E2 & EL2 & R2 & C2).
      { apply SL; auto. lia. }
      { lia. }
      rewrite E2. destruct r2 as [[j ptr]|].
      * destruct R2 as (Hj & I2 & Z2 & M2). eexists _, _. split; [reflexivity|]. cbn [memory] in *. split.
        -- split; [auto|]. split; [apply SL; auto|]. split; [auto|]. intros x Hx. rewrite M2, M1; auto.
        -- intros; discriminate.
      * destruct R2 as (I2 & M2). eexists _, _. split; [reflexivity|]. cbn [memory] in *. split.
        -- split; [auto|congruence].
        -- intros j p k Ej PF Hk HK. assert (j < length ps)%nat by (apply nth_error_Some; congruence).
           destruct (le_lt_dec (last_pool s) j).
           ++ exfalso. apply (C1 j p k); auto. lia.
           ++ exfalso. apply (C2 j p k); auto. lia.
Qed.

Lemma find_pool_ok s L i p ptr : Inv ps s L -> nth_error (pools s) i = Some p ->
  base p <= ptr < base p + 1024 * zlen (bitmap p) -> find_pool (pools s) ptr 0 = Some i.
Proof.
  intros I E Hp.
  assert (PV : forall j pj, nth_error (pools s) j = Some pj -> ptr_valid pj ptr = true <-> j = i).
  { intros j pj Ej. destruct (geo _ _ _ _ I Ej) as (qj & EQj & GBj & GLj).
    destruct (geo _ _ _ _ I E) as (q & EQ & GB & GL).
    destruct (fresh_nth _ _ EQj) as (_ & _ & F3 & _).
    unfold ptr_valid, u32, BPL, BPB, BPI. rewrite Z.mod_small by (unfold zlen in *; lia).
    rewrite andb_true_iff, Z.leb_le, Z.ltb_lt. split; [|intros ->; assert (pj = p) by congruence; subst; lia].
    intros [H1 H2]. destruct (Nat.eq_dec j i) as [|N]; auto. exfalso.
    destruct (pools_apart j i qj q N EQj EQ); unfold pool_end, zlen in *; lia. }
  assert (G : forall l o, (forall j pj, nth_error l j = Some pj -> ptr_valid pj ptr = true <-> (j + o)%nat = i) ->
    (exists j, (j + o)%nat = i /\ (j < length l)%nat) -> find_pool l ptr o = Some i).
  { induction l as [|x l IH]; intros o H (j & Ej & Hj); cbn [length] in Hj; [lia|]. cbn [find_pool].
    pose proof (H 0%nat x eq_refl) as H0. destruct (ptr_valid x ptr).
    - f_equal. apply H0. auto.
    - apply IH.
      + intros j' pj' E'. specialize (H (S j') pj' E'). rewrite H. lia.
      + destruct j as [|j']; [exfalso; assert (false = true) by (apply H0; lia); discriminate|].
        exists j'. lia. }
  apply G.
  - intros j pj Ej. rewrite (PV j pj Ej). lia.
  - exists i. split; [lia|]. apply nth_error_Some. congruence.
Qed.

Lemma existsb_mid {A} (f : A -> bool) l1 x l2 : existsb f (l1 ++ x :: l2) = f x || existsb f (l1 ++ l2).
Proof. rewrite !existsb_app. cbn [existsb]. destruct (existsb f l1), (f x); auto. Qed.

Lemma sfree_ok s L1 ptr size L2 : Inv ps s (L1 ++ (ptr, size) :: L2) ->
  exists s', sfree s ptr = Some s' /\ Inv ps s' (L1 ++ L2) /\ memory s' = memory s /\ last_pool s' = last_pool s.
Proof.
  intros I. assert (IN : In (ptr, size) (L1 ++ (ptr, size) :: L2)) by (apply in_app_iff; cbn; auto).
  destruct (i_placed _ _ _ I _ IN) as (i & q & b & EQ & Hb & Hf & HP). cbn [fst snd] in *.
  destruct (geo' _ _ _ _ I EQ) as (p & EP & GB & GL). destruct (fresh_nth _ _ EQ) as (F1 & F2 & F3 & _).
  pose proof (i_size _ _ _ I _ IN) as Sz. cbn [snd] in Sz.
  destruct (blocks_bounds size ltac:(lia)) as (N1 & _).
  assert (NBQ : nbits (bitmap p) = nbits (bitmap q)) by (unfold nbits, zlen; rewrite GL; auto).
  destruct (i_hdr _ _ _ I _ IN) as (H1 & H2 & H3). cbn [fst snd] in *.
  destruct (FOP_mid _ _ _ _ apart_sym (i_apart _ _ _ I)) as [AP1 AP2].
  destruct (sfree_pool_ok p _ (memory s) ptr size b (i_pools _ _ _ I i p EP)) as (p' & E & [G1 G2] & PI'); auto.
  - rewrite GB. pose proof (Z.div_mod (base q) 16 ltac:(lia)).
    replace (base q) with ((4 * (base q / 16)) * 4) by lia. apply Z.mod_mul. lia.
  - lia.
  - lia.
  - lia.
  - intros x Hx. unfold covd. apply existsb_exists. exists (ptr, size). split; auto.
    rewrite HP, <- GB, covers_same. apply andb_true_iff. split; [apply Z.leb_le|apply Z.ltb_lt]; lia.
  - unfold sfree. destruct (Z.eqb_spec ptr 0); [lia|].
    rewrite (find_pool_ok s _ i p ptr I EP) by (unfold nbits, zlen in *; lia). rewrite EP, E.
    eexists. split; [reflexivity|]. split; [|auto]. constructor; cbn [pools memory last_pool]; auto.
    + apply F2_upd with q; [exact (i_geo _ _ _ I)|auto|]. split; congruence.
    + exact (i_last _ _ _ I).
    + assert (LI : (i < length (pools s))%nat) by (apply nth_error_Some; congruence).
      intros j pj Ej. destruct (Nat.eq_dec i j) as [->|N].
      * rewrite upd_nth_error_same in Ej by auto. assert (pj = p') by congruence. subst pj.
        eapply pool_inv_ext; [exact PI'|]. intros x Hx. cbv beta. unfold covd. rewrite existsb_mid.
        rewrite G1. rewrite HP, <- GB, covers_same.
        destruct ((b <=? x) && (x <? b + blocks_of size)) eqn:EX; [|auto].
        apply andb_true_iff in EX. destruct EX as [X1 X2]. apply Z.leb_le in X1. apply Z.ltb_lt in X2.
        symmetry. apply not_true_is_false. intros T. apply existsb_exists in T. destruct T as (c & Hc & Tc).
        specialize (AP2 c Hc). unfold covers in Tc. apply andb_true_iff in Tc. destruct Tc as [T1 T2].
        apply Z.leb_le in T1. apply Z.ltb_lt in T2.
        unfold apart in AP2. unfold lo at 2, hi at 1 in AP2. cbn [fst snd] in AP2. lia.
      * rewrite upd_nth_error_other in Ej by auto.
        eapply pool_inv_ext; [exact (i_pools _ _ _ I j pj Ej)|]. intros x Hx. unfold covd. rewrite existsb_mid.
        destruct (geo _ _ _ _ I Ej) as (qj & EQj & GBj & GLj). rewrite HP, GBj.
        rewrite (placed_other i q b size j qj); auto; unfold nbits, zlen in *; try lia.
    + intros a Ha. apply (i_size _ _ _ I). apply in_app_iff in Ha. apply in_app_iff. cbn. tauto.
    + intros a Ha. apply (i_placed _ _ _ I). apply in_app_iff in Ha. apply in_app_iff. cbn. tauto.
    + intros a Ha. apply (i_hdr _ _ _ I). apply in_app_iff in Ha. apply in_app_iff. cbn. tauto.
Qed.

Lemma zeros_repeat n : zeros (repeat 0 n) = 32 * Z.of_nat n.
Proof.
  rewrite (zeros_prefix _ 0); unfold nbits, zlen; rewrite ?repeat_length; try lia.
  intros x Hx. unfold bbit. rewrite nth_repeat, Z.testbit_0_l. destruct (Z.ltb_spec x 0); auto; lia.
Qed.

Lemma inv_init m : Inv ps (mkSt ps m 0) [].
Proof.
  constructor; cbn [pools memory last_pool].
  - clear. induction ps; constructor; auto. split; auto.
  - destruct FP as (N & _). destruct ps; [congruence|]. cbn. lia.
  - intros i p E. destruct (fresh_nth _ _ E) as (F1 & F2 & F3 & F4 & F5 & F6). constructor.
    + rewrite F4. clear. induction (length (bitmap p)); constructor; auto. unfold wfw. lia.
    + auto.
    + intros x Hx. rewrite F4. unfold bbit. rewrite nth_repeat, Z.testbit_0_l. auto.
    + rewrite F5. rewrite F4 at 2. rewrite zeros_repeat. unfold zlen. auto.
    + rewrite F6. lia.
  - intros a [].
  - intros a [].
  - intros a [].
  - constructor.
Qed.

Lemma reach_inv s L : reach ps s L -> Inv ps s L.
Proof.
  induction 1 as [m|s L size zo s' ptr R I Hs Hz E|s L size zo s' R I Hs Hz E|s L1 ptr size L2 s' R I E
                 |s L ptr size x v R I HI Hx Hv|s L x v R I Ho].
  - apply inv_init.
  - destruct (smalloc_ok s L size zo I Hs Hz) as (s2 & r & E2 & RR & _). rewrite E in E2.
    injection E2 as <- <-. apply RR.
  - destruct (smalloc_ok s L size zo I Hs Hz) as (s2 & r & E2 & RR & _). rewrite E in E2.
    injection E2 as <- <-. apply RR.
  - destruct (sfree_ok s L1 ptr size L2 I) as (s2 & E2 & RR & _). congruence.
  - constructor; cbn [pools memory last_pool]; try apply I.
    intros a Ha. pose proof (i_size _ _ _ I a Ha). apply hdr_ok_ext with (memory s); [lia| |apply (i_hdr _ _ _ I a Ha)].
    intros y Hy HO. unfold store. destruct (Z.eqb_spec y x) as [->|]; auto. exfalso.
    apply (In_nth_error L) in HI. destruct HI as [i Ei]. apply (In_nth_error L) in Ha. destruct Ha as [j Ej].
    pose proof (i_size _ _ _ I _ (nth_error_In _ _ Ei)) as Sz. cbn [snd] in Sz.
    destruct (blocks_bounds size ltac:(lia)) as (_ & _ & N3).
    destruct (Nat.eq_dec i j) as [->|N].
    + assert (a = (ptr, size)) by congruence. subst a. cbn [fst snd] in *. lia.
    + pose proof (FOP_nth _ _ apart_sym (i_apart _ _ _ I) i j _ _ N Ei Ej) as AP.
      unfold apart in AP. unfold lo at 2, hi at 1 in AP. cbn [fst snd] in AP. lia.
  - constructor; cbn [pools memory last_pool]; try apply I.
    intros a Ha. pose proof (i_size _ _ _ I a Ha). apply hdr_ok_ext with (memory s); [lia| |apply (i_hdr _ _ _ I a Ha)].
    intros y Hy HO. unfold store. destruct (Z.eqb_spec y x) as [->|]; auto. exfalso.
    destruct (i_placed _ _ _ I a Ha) as (i & p & b & E & Hb & Hf & P).
    specialize (Ho p (nth_error_In _ _ E)). unfold lo, hi, pool_end, nbits in *. lia.
Qed.

Lemma filter_count f n : zlen (filter (fun x => f (Z.of_nat x)) (seq 0 n)) = count f n.
Proof.
  induction n as [|n IH]; [reflexivity|]. rewrite seq_S, filter_app. cbn [count filter plus].
  unfold zlen in *. rewrite app_length. destruct (f (Z.of_nat n)); cbn [length]; lia.
Qed.

Lemma inv_free s L p : Inv ps s L -> In p (pools s) -> free_blocks p = uncovered L p.
Proof.
  intros I HI. apply In_nth_error in HI. destruct HI as [i E]. pose proof (i_pools _ _ _ I i p E) as [A B C D _].
  rewrite D. unfold zeros, uncovered. rewrite (filter_count (fun x => negb (existsb (fun a => covers a (base p + 32 * x)) L))).
  apply count_ext. intros x Hx. rewrite C by (unfold nbits, zlen; lia). reflexivity.
Qed.

Lemma inv_empty s : Inv ps s [] -> pools s = ps.
Proof.
  intros I. pose proof (i_geo _ _ _ I) as G.
  assert (EQ : forall i, nth_error (pools s) i = nth_error ps i).
  { intros i. pose proof (F2_nth _ _ _ G i) as H. destruct (nth_error (pools s) i) as [p|] eqn:E1.
    2:{ destruct (nth_error ps i); [contradiction|auto]. }
    destruct (nth_error ps i) as [q|] eqn:E2; [|contradiction]. destruct H as [H1 H2].
    destruct (i_pools _ _ _ I i p E1) as [A B C D Ed]. destruct (fresh_nth _ _ E2) as (F1 & F2 & F3 & F4 & F5 & F6).
    assert (EB : bitmap p = bitmap q).
    { apply bm_ext; auto.
      - rewrite F4. clear. induction (length (bitmap q)); constructor; auto. unfold wfw. lia.
      - intros x Hx. rewrite C by auto. rewrite F4. unfold bbit. rewrite nth_repeat, Z.testbit_0_l. reflexivity. }
    f_equal. destruct p as [pb pm pf pn], q as [qb qm qf qn]. cbn [base bitmap free_blocks next_non_full] in *.
    subst qb qm qn. f_equal.
    - rewrite D, F5. rewrite F4 at 1. rewrite zeros_repeat. unfold zlen. auto.
    - destruct pn as [|pn]; auto. exfalso. specialize (Ed 0%nat ltac:(lia)). rewrite F4, nth_repeat in Ed. discriminate. }
  apply nth_error_ext'. exact EQ.
Qed.
End Fixed.
