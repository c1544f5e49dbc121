(** C30: the size of an I/O respects the configured range, alignment and split. *)
From Coq Require Import ZArith List Bool Lia Permutation.
From Verif Require Import CBase FloatZ BuflenModel BuflenSpec BuflenProofs.
Import ListNotations.
Open Scope Z_scope.

Definition draws_ok (rs : list Z) : Prop := Forall (fun r => 0 <= r) rs.

(** Whatever the draws: the size is within the range and, with a range of sizes, the I/O ends inside the region; it is a multiple of
    the smallest size, or the largest size, unless unaligned sizes were asked for. 0 means that the smallest size does not fit. *)
Theorem C30_size o offset limit rs n : good o -> draws_ok rs -> get_next_buflen o offset limit rs = Some n ->
  (n = 0 /\ b_min o <> b_max o /\ io_u_fits offset limit (b_min o) = false) \/
  (b_min o <= n <= b_max o /\ (b_min o <> b_max o -> io_u_fits offset limit n = true) /\ (b_unaligned o = false -> (b_min o | n) \/ n = b_max o)).
Proof.
  intros G R H. unfold get_next_buflen in H. destruct (Z.eqb_spec (b_min o) (b_max o)) as [E|E].
  - inversion H; subst n. right. split; [lia|]. split; [lia|]. intros _. left. apply Z.divide_refl.
  - destruct (io_u_fits offset limit (b_min o)) eqn:F; cbn [negb] in H; [|inversion H; subst; left; auto]. right.
    apply len_loop_inv in H. destruct H as (r & I & -> & FN). apply (proj1 (Forall_forall _ _) R) in I. destruct (one_len_ok o (io_u_fits offset limit) r G I) as (A & B). auto.
Qed.
(** In particular a largest size that is a multiple of the smallest gives multiples only. *)
Theorem C30_multiple o offset limit rs n : good o -> draws_ok rs -> b_unaligned o = false -> (b_min o | b_max o) -> get_next_buflen o offset limit rs = Some n -> (b_min o | n).
Proof.
  intros G R U D H. destruct (C30_size o offset limit rs n G R H) as [(-> & _)|(_ & _ & M)]; [apply Z.divide_0_r|]. destruct (M U) as [X| ->]; auto.
Qed.
(** A smallest size that fits always leaves a way out of the loop: a draw of 0 ends it, if some entry with a share fits. *)
Theorem C30_progress o offset limit rs : good o -> io_u_fits offset limit (b_min o) = true -> 0 <= offset -> offset + b_max o < 2 ^ 64 ->
  (b_split o = [] \/ exists bs p, In (bs, p) (b_split o) /\ p <> 0 /\ io_u_fits offset limit bs = true) -> exists n, get_next_buflen o offset limit (0 :: rs) = Some n.
Proof.
  intros G F HO HM H. unfold get_next_buflen. destruct (Z.eqb_spec (b_min o) (b_max o)) as [E|E]; [eauto|]. rewrite F. cbn [negb len_loop].
  assert (MONO : forall a b, 0 <= a <= b -> b <= b_max o -> io_u_fits offset limit b = true -> io_u_fits offset limit a = true).
  { intros a b AB BM. unfold io_u_fits. rewrite !Z.leb_le. unfold u64. rewrite !Z.mod_small by lia. lia. }
  enough (X : io_u_fits offset limit (one_len o (io_u_fits offset limit) 0) = true) by (rewrite X; eauto).
  destruct (one_len_ok o (io_u_fits offset limit) 0 G ltac:(lia)) as (RG & _). pose proof G as (P & L & GS & _). destruct H as [ES|(bs & p & I & NP & FB)].
  - assert (E1 : one_len o (io_u_fits offset limit) 0 = b_min o); [|rewrite E1; auto]. unfold one_len. rewrite ES. unfold draw_range. rewrite (rne53_small 0), Z.mul_0_r, (rne53_small 0), Z.div_0_l, Z.add_0_r by (try lia; unfold rand_bits; destruct (b_64 o); vm_compute; congruence).
    rewrite align_len_eq by lia. destruct (b_unaligned o); [lia|]. rewrite Z.mod_same by lia. lia.
  - assert (NE : b_split o <> []) by (intros X; rewrite X in I; contradiction). destruct (split_loop_ok o (io_u_fits offset limit) 0 G NE ltac:(lia)) as (RL & p2 & I2).
    set (res := split_loop o (io_u_fits offset limit) 0 0 0 (b_split o)) in *.
    assert (FR : io_u_fits offset limit res = true).
    { destruct RL as [(i & (p' & T1 & T2 & T3 & T4) & _)|(N & _)]; auto. exfalso. apply In_nth_error in I. destruct I as (j & Ej). apply (N j bs). exists p. split; auto. split; auto. split; auto.
      assert (C : p <= cum (b_split o) j). { clear - GS Ej. revert j Ej GS. generalize (b_split o) as es. induction es as [|[b q] es IH]; intros [|j] E H; try discriminate; cbn [nth_error cum] in *; [inversion E; lia|]. specialize (IH j E ltac:(intros; apply H; right; auto)). destruct (H b q); [left; auto|]. lia. }
      assert (0 <= p) by (apply (GS bs p); eapply nth_error_In; eauto). assert (0 <= rand_max o / 100) by (unfold rand_max, rand_bits; destruct (b_64 o); vm_compute; discriminate). nia. }
    apply (MONO _ res); auto; [|apply (GS res p2 I2)]. unfold one_len. destruct (b_split o) as [|e es] eqn:EE; [congruence|]. fold res. rewrite align_len_eq by lia. specialize (GS res p2 I2). split; [|destruct (b_unaligned o); [lia|pose proof (Z.mod_pos_bound res (b_min o) ltac:(lia)); lia]].
    destruct (b_unaligned o); [lia|]. pose proof (Z.mod_le res (b_min o) ltac:(lia) ltac:(lia)). lia.
Qed.
(** A range without split: every multiple is drawn by the same number of draws, up to one: size [k * min] is drawn exactly when the
    draw lies in the [k]-th of [n] equal parts. *)
Theorem C30_uniform o offset limit n r rs k : good o -> b_split o = [] -> b_unaligned o = false -> b_64 o = false -> b_max o = n * b_min o -> 2 <= n <= 2 ^ 21 -> b_max o < 2 ^ 53 ->
  0 <= offset -> offset + b_max o <= limit -> limit < 2 ^ 64 -> 0 <= r < 2 ^ 32 -> (get_next_buflen o offset limit (r :: rs) = Some (k * b_min o) <-> (k - 1) * 2 ^ 32 <= n * r < k * 2 ^ 32).
Proof.
  intros G ES EU E6 EM N B HO HF HL R. pose proof G as (P & L & _).
  assert (F : forall x, 0 <= x <= b_max o -> io_u_fits offset limit x = true) by (intros x X; unfold io_u_fits; rewrite Z.leb_le; unfold u64; rewrite Z.mod_small; lia).
  destruct (one_len_ok o (io_u_fits offset limit) r G ltac:(lia)) as (RG & _). pose proof (uniform_len o (io_u_fits offset limit) n r P ES EU E6 EM ltac:(lia) B R) as U.
  unfold get_next_buflen. destruct (Z.eqb_spec (b_min o) (b_max o)) as [X|X]; [nia|]. rewrite F by lia. cbn [negb len_loop]. rewrite (F (one_len o (io_u_fits offset limit) r)) by lia. rewrite U.
  pose proof (Z.div_mod (n * r) (2 ^ 32) ltac:(lia)) as D. pose proof (Z.mod_pos_bound (n * r) (2 ^ 32) ltac:(lia)) as M. split.
  - intros H. inversion H as [H1]. assert (K : k = n * r / 2 ^ 32 + 1) by nia. lia.
  - intros H. f_equal. f_equal. assert (K : n * r / 2 ^ 32 = k - 1) by (symmetry; apply Z.div_unique with (n * r - 2 ^ 32 * (k - 1)); lia). lia.
Qed.
(** A split: the size comes from the entry that the rule of the cumulative percentages selects for one of the draws, then aligned. *)
Theorem C30_split o offset limit rs n : good o -> draws_ok rs -> b_split o <> [] -> b_min o <> b_max o -> get_next_buflen o offset limit rs = Some n -> n <> 0 ->
  exists r bs, In r rs /\ split_rule (b_split o) (io_u_fits offset limit) (rand_max o / 100) r bs /\ n = Z.min (if b_unaligned o then bs else bs - bs mod b_min o) (b_max o).
Proof.
  intros G R NE NM H N0. unfold get_next_buflen in H. destruct (Z.eqb_spec (b_min o) (b_max o)) as [E|E]; [congruence|]. destruct (negb _); [inversion H; congruence|].
  apply len_loop_inv in H. destruct H as (r & I & -> & _). pose proof (proj1 (Forall_forall _ _) R r I) as R0. destruct (split_loop_ok o (io_u_fits offset limit) r G NE R0) as (RL & _). exists r. eexists. split; auto. split; [exact RL|].
  unfold one_len. destruct (b_split o) as [|e es] eqn:EE; [congruence|]. rewrite <- EE in *. apply align_len_eq. destruct G. lia.
Qed.
(** When every size fits, entry [i] with [p] percent is selected by exactly the [p * (q + 1)] draws of its slice, [q] + 1 draws per
    percent. *)
Theorem C30_split_shares es fits q r i bs p b : (forall b q, In (b, q) es -> 0 <= q) -> (forall x, fits x = true) -> 0 <= q -> nth_error es i = Some (bs, p) -> p <> 0 ->
  (cum es i - p) * (q + 1) <= r < cum es i * (q + 1) -> split_rule es fits q r b -> b = bs.
Proof.
  intros HP HF HQ E NP R RL. assert (T : takes es fits q r i bs) by (exists p; split; auto; split; auto; split; [lia|auto]). destruct RL as [(j & TJ & NJ)|(NO & _)]; [|exfalso; exact (NO i bs T)].
  destruct (lt_eq_lt_dec i j) as [[L|L]|L].
  - exfalso. exact (NJ i bs L T).
  - subst j. destruct TJ as (p' & E' & _). rewrite E in E'. inversion E'. auto.
  - exfalso. destruct TJ as (p' & E' & N' & R' & _). pose proof (cum_step es j i bs p HP L E). nia.
Qed.
(** The percentages of a split as given by the user: the given ones are kept, the others share what is missing to 100; they are only
    reordered. *)
Theorem C30_split_percents es : 2 <= zlen es -> (forall bs p, In (bs, Some p) es -> 1 <= p <= 100) -> sum given es <= 100 -> exists l, split_percs es = Some l /\
  l = map (fun e => (fst e, match snd e with Some p => p | None => (100 - sum given es) / sum missing es end)) es /\
  (sum snd l <= 100) /\ (0 < sum missing es -> 100 - sum missing es < sum snd l) /\ Permutation (sort l) l.
Proof.
  intros L2 HP HS. assert (G0 : 0 <= sum given es). { clear L2 HS. induction es as [|[bs [p|]] es IH]; cbn [sum given snd]; [lia| |]; assert (0 <= sum given es) by (apply IH; intros; eapply HP; right; eauto); [|lia]. destruct (HP bs p); [left; auto|]. lia. }
  assert (M0 : 0 <= sum missing es) by (clear; induction es as [|[bs [p|]] es IH]; cbn [sum missing snd]; lia).
  unfold split_percs. cbv zeta. unfold u32 at 1. rewrite Z.mod_small by lia. destruct (Z.gtb_spec (sum given es) 100); [lia|]. cbn [andb].
  destruct (Z.eqb_spec (zlen es) 1); [lia|]. rewrite andb_false_r. unfold u32. rewrite ?(Z.mod_small (sum given es)) by lia. rewrite (Z.mod_small (100 - sum given es)) by lia. eexists. split; [reflexivity|]. split; auto.
  set (d := (100 - sum given es) / sum missing es). rewrite sum_map. cbn [snd].
  assert (E : sum (fun x : Z * option Z => match snd x with Some p => p | None => d end) es = sum given es + sum missing es * d). { generalize d. clear. intros d. induction es as [|[bs [p|]] es IH]; cbn [sum given missing snd]; lia. }
  rewrite E. split; [|split; [|apply sort_perm]].
  - destruct (Z.eq_dec (sum missing es) 0) as [Z0|Z0]; [rewrite Z0; lia|]. unfold d. pose proof (Z.mul_div_le (100 - sum given es) (sum missing es) ltac:(lia)). lia.
  - intros MP. unfold d. pose proof (Z.div_mod (100 - sum given es) (sum missing es) ltac:(lia)). pose proof (Z.mod_pos_bound (100 - sum given es) (sum missing es) MP). lia.
Qed.
(** The options such a split leaves behind meet the hypotheses of the theorems above. *)
Theorem C30_split_options es un b64 : 2 <= zlen es -> (forall bs p, In (bs, p) es -> 1 <= bs < 2 ^ 64 /\ forall v, p = Some v -> 1 <= v <= 100) -> sum given es <= 100 -> 0 < sum given es \/ sum missing es <= 100 ->
  exists o, bssplit_ddir es un b64 = Some o /\ good o /\ b_unaligned o = un /\ b_64 o = b64 /\ forall bs, (exists p, In (bs, p) (b_split o)) <-> exists p, In (bs, p) es.
Proof.
  intros L2 H HS HM. destruct (C30_split_percents es L2 (fun bs p I => proj2 (H bs (Some p) I) p eq_refl) HS) as (l & E & El & _ & _ & P). unfold bssplit_ddir. rewrite E. eexists. split; [reflexivity|]. cbn [b_unaligned b_64 b_split b_min b_max].
  assert (IN : forall bs p, In (bs, p) (sort l) <-> exists q, In (bs, q) es /\ p = match q with Some p => p | None => (100 - sum given es) / sum missing es end).
  { intros bs p. split.
    - intros I. apply (Permutation_in _ P) in I. rewrite El in I. apply in_map_iff in I. destruct I as ([b q] & X & I). cbn in X. inversion X; subst. eauto.
    - intros (q & I & ->). apply (Permutation_in _ (Permutation_sym P)). rewrite El. apply in_map_iff. exists (bs, q). auto. }
  assert (M0 : 0 <= sum missing es) by (clear; induction es as [|[bs [p|]] es IH]; cbn [sum missing snd]; lia). assert (G100 : 0 <= 100 - sum given es) by lia.
  assert (NE : exists e, In e es) by (destruct es as [|e es]; [cbn in L2; lia|exists e; left; auto]). destruct NE as ([b0 q0] & I0).
  split; [|split; auto; split; auto].
  - unfold good. cbn [b_min b_max b_split]. split; [|split; [|split]].
    + assert (A : forall l, (forall x, In x l -> 1 <= x) -> 1 <= list_min l) by (clear; unfold list_min; induction l as [|x l IH]; intros Hx; cbn [fold_right]; [lia|]; specialize (IH (fun y Hy => Hx y (or_intror Hy))); specialize (Hx x (or_introl eq_refl)); lia). apply A. intros x I. apply in_map_iff in I. destruct I as ([b q] & <- & I). destruct (H b q I) as ((X & _) & _). exact X.
    + assert (I1 : In b0 (map fst es)) by (apply in_map_iff; exists (b0, q0); auto). pose proof (list_min_le _ _ I1). pose proof (list_max_ge _ _ I1). lia.
    + intros bs p I. apply IN in I. destruct I as (q & I & ->). assert (I1 : In bs (map fst es)) by (apply in_map_iff; exists (bs, q); auto). split; [split; [apply list_min_le; auto|apply list_max_ge; auto]|]. destruct q as [v|]; [pose proof (proj2 (H _ _ I) v eq_refl); lia|].
      destruct (Z.eq_dec (sum missing es) 0) as [X|X]; [rewrite X, Zdiv_0_r; lia|apply Z.div_pos; lia].
    + intros _. destruct (Z.eq_dec (sum given es) 0) as [Z0|Z0].
      * destruct HM as [HM|HM]; [lia|]. destruct q0 as [v|].
        { exists b0, v. split; [apply IN; exists (Some v); auto|]. destruct (proj2 (H _ _ I0) v eq_refl). lia. }
        { exists b0. eexists. split; [apply IN; exists None; split; [auto|reflexivity]|]. rewrite Z0.
          assert (MP : 0 < sum missing es) by (clear - I0; induction es as [|[bs [p|]] es IH]; [contradiction| |]; cbn [sum missing snd]; [destruct I0 as [X|X]; [discriminate|specialize (IH X); lia]|assert (0 <= sum missing es) by (clear; induction es as [|[bs [p|]] es IH]; cbn [sum missing snd]; lia); lia]).
          pose proof (Z.div_le_lower_bound (100 - 0) (sum missing es) 1 ltac:(lia) ltac:(lia)). lia. }
      * assert (A : exists bs v, In (bs, Some v) es). { clear - Z0. induction es as [|[bs [p|]] es IH]; cbn [sum given snd] in Z0; [congruence|exists bs, p; left; auto|]. destruct (IH Z0) as (b & v & I). exists b, v. right. auto. }
        destruct A as (bs & v & I). exists bs, v. split; [apply IN; exists (Some v); auto|]. destruct (proj2 (H _ _ I) v eq_refl). lia.
  - intros bs. split; [intros (p & I); apply IN in I; destruct I as (q & I & _); eauto|]. intros (q & I). eexists. apply IN. exists q. split; [auto|reflexivity].
Qed.

(** A split size that is not a multiple of the smallest is never used unless unaligned sizes are allowed: "4k/50:6k/50" issues
    4k only. *)
Theorem C30_split_rounded_refuted : exists o, bssplit_ddir [(4096, Some 50); (6144, Some 50)] false false = Some o /\ In (6144, 50) (b_split o) /\
  forall offset limit rs n, draws_ok rs -> get_next_buflen o offset limit rs = Some n -> n <> 6144.
Proof.
  exists (mkB 4096 6144 [(4096, 50); (6144, 50)] false false). split; [vm_compute; reflexivity|]. split; [right; left; auto|]. intros offset limit rs n R H. unfold get_next_buflen in H. cbn [b_min b_max] in H. change (4096 =? 6144) with false in H. cbn [negb] in H.
  destruct (io_u_fits offset limit 4096) eqn:F; cbn [negb] in H; [|inversion H; lia]. apply len_loop_inv in H. destruct H as (r & _ & -> & _). unfold one_len. cbn [b_split split_loop]. change (50 =? 0) with false. cbn iota zeta.
  set (c1 := _ && _). set (c2 := _ && _). clearbody c1 c2. destruct c1; [vm_compute; discriminate|]. destruct c2; vm_compute; discriminate.
Qed.
(** An entry whose share is 0 sets the smallest size but is never used: at the end of the region the loop does not end, whatever
    is drawn. "4k:8k/100" with 4k left. *)
Theorem C30_livelock_refuted : exists o, bssplit_ddir [(4096, None); (8192, Some 100)] false false = Some o /\ good o /\ io_u_fits 8192 12288 (b_min o) = true /\
  forall rs, get_next_buflen o 8192 12288 rs = None.
Proof.
  exists (mkB 4096 8192 [(4096, 0); (8192, 100)] false false). split; [vm_compute; reflexivity|]. split.
  { split; [cbn; lia|]. split; [cbn; lia|]. split; [intros bs p I; cbn in *; destruct I as [I|[I|[]]]; inversion I; subst; lia|]. intros _. exists 8192, 100. split; [right; left; auto|lia]. }
  split; [vm_compute; reflexivity|]. intros rs. unfold get_next_buflen. cbn [b_min b_max]. change (4096 =? 8192) with false. change (io_u_fits 8192 12288 4096) with true. cbn [negb].
  induction rs as [|r rs IH]; cbn [len_loop]; auto.
  assert (E : one_len (mkB 4096 8192 [(4096, 0); (8192, 100)] false false) (io_u_fits 8192 12288) r = 8192).
  { unfold one_len. cbn [b_split split_loop]. change (0 =? 0) with true. change (100 =? 0) with false. cbn iota. change (io_u_fits 8192 12288 8192) with false. rewrite andb_false_r. vm_compute. reflexivity. }
  rewrite E. change (io_u_fits 8192 12288 8192) with false. auto.
Qed.
(** Percentages above 100 are refused only when two or more entries have none; with one, its share wraps. *)
Theorem C30_over_100_refuted : exists es l, split_percs es = Some l /\ 100 < sum given es /\ In (16384, 4294967236) l.
Proof. exists [(4096, Some 80); (8192, Some 80); (16384, None)], [(4096, 80); (8192, 80); (16384, 4294967236)]. split; [vm_compute; reflexivity|]. split; [vm_compute; reflexivity|]. right. right. left. auto. Qed.

(** Concrete cases that meet the hypotheses. *)
Definition demo_range : bopts := mkB 4096 16384 [] false false.
Example demo_range_good : good demo_range.
Proof. split; [cbn; lia|]. split; [cbn; lia|]. split; [intros bs p []|]. intros X. exfalso. apply X. reflexivity. Qed.
Example demo_range_run : get_next_buflen demo_range 0 12288 [4294967295; 2147483648] = Some 12288 /\ get_next_buflen demo_range 1048576 2097152 [3 * 2 ^ 30 - 1] = Some 12288 /\ get_next_buflen demo_range 8193 12288 [] = Some 0.
Proof. vm_compute. auto. Qed.
Example demo_split : exists o, bssplit_ddir [(65536, None); (4096, Some 10); (8192, None)] false false = Some o /\ b_split o = [(4096, 10); (65536, 45); (8192, 45)] /\
  get_next_buflen o 0 1048576 [500000000] = Some 65536 /\ get_next_buflen o 0 16384 [500000000] = Some 8192.
Proof. exists (mkB 4096 65536 [(4096, 10); (65536, 45); (8192, 45)] false false). vm_compute. auto. Qed.

Print Assumptions C30_size.
Print Assumptions C30_multiple.
Print Assumptions C30_progress.
Print Assumptions C30_uniform.
Print Assumptions C30_split.
Print Assumptions C30_split_shares.
Print Assumptions C30_split_percents.
Print Assumptions C30_split_options.
Print Assumptions C30_split_rounded_refuted.
Print Assumptions C30_livelock_refuted.
Print Assumptions C30_over_100_refuted.
