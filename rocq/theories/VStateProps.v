(** C23: verify state files round-trip. C24: after a crash only durable writes are verified. *)
From Coq Require Import ZArith List Bool Lia Sorted Permutation.
From Verif Require Import CBase Mem CStr CrcModel CrcSpec CrcProps DigestModel VerifyModel VerifySpec VerifyCsum VerifyProofs VStateModel VStateSpec VStateLive VStateProofs VStateLiveProofs.
Import ListNotations.
Open Scope Z_scope.

(** ** Round trip *)
Lemma limit_counted j : job_ok j -> limit j = counted j.
Proof. intros (_ & _ & _ & _ & _ & _ & _ & _ & H & _). unfold limit, counted. destruct (j_fsynced j); auto. destruct (Z.eqb_spec (j_safe j) 0); cbn [negb]; lia. Qed.
Lemma skipn_slots j : job_ok j -> skipn (Z.to_nat (j_iodepth j)) (slots j ++ j_failed j) = j_failed j.
Proof. intros (H1 & H2 & _). rewrite skipn_app, skipn_all2 by (unfold zlen in H2; lia). replace (Z.to_nat (j_iodepth j) - length (slots j))%nat with 0%nat by (unfold zlen in H2; lia). reflexivity. Qed.

Theorem C23_roundtrip : forall f prefix mask js, Forall job_ok js -> zlen js < 2 ^ 31 -> zlen prefix <= 3900 ->
  exists f', verify_save_state f prefix mask js = Some f' /\
  (forall i j, nth_error js i = Some j -> selected mask (Z.of_nat i) = true -> zlen (j_name j) <= 63 -> forall iodepth,
     exists v, verify_load_state f' prefix (j_name j) (Z.of_nat i + 1) iodepth = Some (Some v) /\
       v_numberio v = counted j /\ v_rand v = stored_rand (j_rand j) /\ v_inflight v = slots j ++ j_failed j /\ v_depth v = zlen (slots j ++ j_failed j) /\
       (iodepth = j_iodepth j -> StronglySorted Z.le (v_failed v) /\ Permutation (v_failed v) (j_failed j))) /\
  (forall n, (forall i j, nth_error js i = Some j -> selected mask (Z.of_nat i) = true -> n <> path (firstn 63 (j_name j)) prefix (Z.of_nat i)) -> f' n = f n).
Proof.
  intros f prefix mask js H HL HP. exists (saved mask prefix 0 js f). split; [apply save_ok; auto|]. split.
  - intros i j E S LN iodepth. assert (Hj : job_ok j) by (rewrite Forall_forall in H; apply H; eapply nth_error_In; eauto).
    exists (loaded iodepth j). assert (LI : 0 <= Z.of_nat i < 2 ^ 31) by (assert (i < length js)%nat by (apply nth_error_Some; congruence); unfold zlen in HL; lia). split.
    + unfold verify_load_state. replace (Z.of_nat i + 1 - 1) with (Z.of_nat i) by lia. rewrite gen_path by (auto; lia).
      replace (j_name j) with (firstn 63 (j_name j)) at 1 by (apply firstn_all2; unfold zlen in LN; lia).
      pose proof (saved_here mask prefix js 0 f i j E S ltac:(lia) ltac:(lia) HP) as SH. rewrite Z.add_0_l in SH. rewrite SH. apply load_saved. auto.
    + unfold loaded. cbn [v_numberio v_rand v_inflight v_depth v_failed]. split; [apply limit_counted; auto|]. split; auto. split; auto.
      pose proof Hj as (H1 & H2 & _ & _ & _ & _ & NI & _). split; [unfold zlen in *; rewrite app_length; lia|]. intros ->. rewrite skipn_slots by auto.
      rewrite filter_all by (intros x K; apply negb_true_iff, Z.eqb_neq; intros ->; auto). pose proof (zlen_nonneg (j_failed j)) as NN. destruct (Z.ltb_spec (j_iodepth j) (j_iodepth j + zlen (j_failed j))).
      * split; [apply qsort_sorted|apply Permutation_sym, qsort_perm].
      * assert (j_failed j = []) as -> by (destruct (j_failed j); auto; unfold zlen in *; cbn in *; lia). split; [constructor|auto].
  - intros n N. apply saved_other. intros i Hi S j E G. rewrite Z.add_0_l in *. rewrite gen_path in G; [|unfold zlen; pose proof (firstn_le_length 63 (j_name j)); lia|lia|unfold zlen in HL; lia].
    inversion G. eapply N; eauto.
Qed.
Print Assumptions C23_roundtrip.

(** States of different jobs are in different files. *)
Theorem C23_distinct_files : forall prefix a b i k, 0 <= i -> 0 <= k -> path a prefix i = path b prefix k -> i = k.
Proof. intros prefix a b i k Hi Hk. apply path_inj; auto. Qed.
Print Assumptions C23_distinct_files.

(** ** Files of any content *)
Theorem C23_rejects : forall iodepth file, bytes file -> (load_file iodepth file = Some None <-> ~ acceptable file).
Proof.
  intros iodepth file Hb. destruct (load_cases iodepth file Hb) as (s & _ & A & B). split; auto. intros E C. rewrite (A C) in E. destruct (assign_state iodepth s); discriminate.
Qed.
Print Assumptions C23_rejects.

Theorem C23_content : forall iodepth file, bytes file -> acceptable file -> complete file -> exists v, load_file iodepth file = Some (Some v) /\
  v_numberio v = number file 32 8 /\ v_depth v = number file 24 4 /\ zlen (v_inflight v) = v_depth v /\
  (forall i, (i < length (v_inflight v))%nat -> nth i (v_inflight v) 0 = number file (168 + 8 * i) 8) /\
  StronglySorted Z.le (v_failed v) /\ Permutation (v_failed v) (filter (fun n => negb (n =? 2 ^ 64 - 1)) (skipn (Z.to_nat iodepth) (v_inflight v))).
Proof.
  intros iodepth file Hb A (C1 & C2). destruct (load_cases iodepth file Hb) as (s & Es & L & _). rewrite (L A). destruct A as (A1 & _ & A3 & _).
  assert (LS : zlen s = number file 8 8) by (rewrite Es; unfold zlen in *; rewrite firstn_length, skipn_length; lia).
  assert (NS : forall p n, Z.of_nat (p + n) <= number file 8 8 -> number s p n = number file (24 + p) n) by (intros p n H; rewrite Es, number_firstn, number_shift by lia; auto).
  assert (Bs : bytes s) by (rewrite Es; apply bytes_firstn, bytes_skipn; auto).
  destruct (assign_some iodepth s Bs) as (v & E & V1 & V2 & V3 & V4 & V5); [lia|rewrite NS by lia; rewrite LS; exact C2|]. rewrite E. exists v. split; auto.
  rewrite NS in V1 by lia. rewrite NS in V2 by lia. change (24 + 0)%nat with 24%nat in V2. split; auto. split; auto. split; auto. split.
  - intros i Hi. rewrite V4, NS; auto. unfold zlen in V3. lia.
  - rewrite V5. change (2 ^ 64 - 1) with INVALID_NUMBERIO. destruct (Z.ltb_spec iodepth (v_depth v)).
    + split; [apply qsort_sorted|apply Permutation_sym, qsort_perm].
    + rewrite skipn_all2 by (unfold zlen in V3; lia). split; [constructor|auto].
Qed.
Print Assumptions C23_content.

Lemma skipn_cons : forall (l : list Z) p, (p < length l)%nat -> skipn p l = nth p l 0 :: skipn (S p) l.
Proof. induction l as [|x l IHl]; intros [|p] K; cbn [length] in K; try lia; auto. cbn [skipn nth]. rewrite IHl by lia. reflexivity. Qed.
Lemma number_inj a b : bytes a -> bytes b -> length a = length b -> forall n p, (p + n <= length a)%nat -> number a p n = number b p n -> firstn n (skipn p a) = firstn n (skipn p b).
Proof.
  intros Ha Hb L. induction n as [|n IH]; intros p H E; auto. cbn [number] in E. pose proof (nth_bytes a p Ha). pose proof (nth_bytes b p Hb).
  assert (E1 : nth p a 0 = nth p b 0 /\ number a (S p) n = number b (S p) n) by lia. destruct E1 as (E1 & E2). specialize (IH (S p) ltac:(lia) E2).
  rewrite (skipn_cons a p), (skipn_cons b p) by lia. cbn [firstn]. congruence.
Qed.

(** Damage of a file that would be accepted: anywhere in the version or the checksum; up to four bytes in a row of the content; its end missing. *)
Theorem C23_damage : forall pre x y post, let a := pre ++ x ++ post in let b := pre ++ y ++ post in
  bytes a -> bytes b -> length x = length y -> x <> y -> acceptable a ->
  (length pre + length x <= 8)%nat \/ ((16 <= length pre)%nat /\ (length pre + length x <= 24)%nat) \/
  ((24 <= length pre)%nat /\ Z.of_nat (length pre + length x) <= 24 + number a 8 8 /\ (length x <= 4)%nat) ->
  ~ acceptable b.
Proof.
  intros pre x y post a b Ha Hb L N A W B. assert (LL : length a = length b) by (unfold a, b; rewrite !app_length; lia).
  assert (PART : forall lo n, (lo <= length pre)%nat -> (length pre + length x <= lo + n)%nat -> firstn n (skipn lo a) = firstn n (skipn lo b) -> False).
  { intros lo n H1 H2 E. apply N. apply (f_equal (skipn (length pre - lo))) in E. apply (f_equal (firstn (length x))) in E. rewrite !skipn_firstn_comm, !skipn_skipn', !firstn_firstn in E.
    replace (lo + (length pre - lo))%nat with (length pre) in E by lia. rewrite Nat.min_l in E by lia. unfold a, b in E. rewrite !skipn_app, !skipn_all, !Nat.sub_diag in E. cbn [skipn app] in E.
    rewrite !firstn_app, firstn_all, Nat.sub_diag in E. rewrite L in E. rewrite firstn_all, Nat.sub_diag in E. cbn [firstn] in E. rewrite !app_nil_r in E. auto. }
  destruct A as (A1 & A2 & A3 & r & A4 & A5). destruct B as (B1 & B2 & B3 & r' & B4 & B5).
  assert (SAME : forall p n, (p + n <= length pre)%nat -> number a p n = number b p n).
  { intros p n H. unfold a, b. rewrite !number_app_l by lia. auto. }
  destruct W as [W|[(W1 & W2)|(W1 & W2 & W3)]].
  - apply (PART 0%nat 8%nat); [lia|lia|]. apply number_inj; auto; first [lia|congruence].
  - apply (PART 16%nat 8%nat); [lia|lia|]. apply number_inj; auto.
    assert (EB : firstn (Z.to_nat (number a 8 8)) (skipn 24 a) = firstn (Z.to_nat (number b 8 8)) (skipn 24 b)).
    { rewrite (SAME 8%nat 8%nat) by lia. f_equal.
      assert (SK : forall w, length w = length x -> skipn 24 (pre ++ w ++ post) = skipn (24 - length pre - length x) post).
      { intros w Lw. rewrite skipn_app, (skipn_all2 pre) by lia. cbn [app]. rewrite skipn_app, (skipn_all2 w), Lw by lia. reflexivity. }
      unfold a, b. rewrite !SK by auto. auto. }
    rewrite EB in A5. assert (r = r') by (eapply C17_crc_unique; eauto; lia). congruence.
  - set (n := Z.to_nat (number a 8 8)). assert (EA : crc32c_sw (firstn n (skipn 24 a)) = crc32c_sw (firstn n (skipn 24 b))).
    { assert (Bs : forall c, bytes c -> bytes (firstn n (skipn 24 c))) by (intros; apply bytes_firstn, bytes_skipn; auto).
      assert (n = Z.to_nat (number b 8 8)) as N' by (unfold n; rewrite (SAME 8%nat 8%nat) by lia; auto). fold n in A5. rewrite <- N' in B5.
      rewrite (proj2 (crc_iff _ (reflect 32 r) (Bs a Ha))) by eauto. rewrite (proj2 (crc_iff _ (reflect 32 r') (Bs b Hb))) by eauto. f_equal. rewrite <- A4, <- B4. apply SAME. lia. }
    assert (CUT : forall w, length w = length x -> firstn n (skipn 24 (pre ++ w ++ post)) = skipn 24 pre ++ w ++ firstn (n - (length pre - 24) - length x) post).
    { intros w Lw. rewrite skipn_app. replace (24 - length pre)%nat with 0%nat by lia. rewrite skipn_O. rewrite firstn_app, skipn_length. rewrite (firstn_all2 (skipn 24 pre)) by (rewrite skipn_length; unfold n; lia). f_equal.
      rewrite firstn_app. rewrite (firstn_all2 w) by (unfold n; lia). rewrite Lw. auto. }
    unfold a, b in EA. rewrite !CUT in EA by auto. destruct (C18_bytes (skipn 24 pre) x y (firstn (n - (length pre - 24) - length x) post)) as (_ & _ & K & _); auto.
    + rewrite <- CUT by auto. apply bytes_firstn, bytes_skipn. auto.
    + rewrite <- CUT by auto. apply bytes_firstn, bytes_skipn. auto.
    + apply K; auto.
Qed.
Print Assumptions C23_damage.

Theorem C23_truncated : forall file k, acceptable file -> Z.of_nat k < 24 + number file 8 8 -> (k < length file)%nat -> ~ acceptable (firstn k file).
Proof.
  intros file k _ H1 H2 (B1 & _ & B3 & _). rewrite firstn_length in B1. rewrite number_firstn in B3 by lia. unfold zlen in B3. rewrite firstn_length in B3. lia.
Qed.
Print Assumptions C23_truncated.

(** A job name of 64 characters or more: the state is saved under a shortened name and is not found again. *)
Definition ex_job (name : list Z) : job := mkJob name 2 1 (Some [5; 2 ^ 64 - 1]) 7 0 false [3; 1] (R64 1 2 3 4 5).
Lemma ex_job_ok name : Forall (fun c => 0 < c < 256) name -> job_ok (ex_job name).
Proof.
  intros H. unfold job_ok, ex_job, slots, u64s, rand_ok. cbn [j_name j_iodepth j_nr_files j_inflight j_issued j_safe j_fsynced j_failed j_rand].
  repeat (split; [first [lia|reflexivity|repeat constructor; lia|cbn; intros [|[|[]]]; discriminate]|]). auto.
Qed.
Theorem C23_long_name_refuted : exists j f', job_ok j /\ zlen (j_name j) = 64 /\ verify_save_state (fun _ => None) [112] None [j] = Some f' /\
  verify_load_state f' [112] (j_name j) 1 (j_iodepth j) = Some None.
Proof.
  set (j := ex_job (repeat 97 64)). assert (Hj : job_ok j) by (apply ex_job_ok; apply Forall_forall; intros c K; apply repeat_spec in K; lia).
  exists j, (saved None [112] 0 [j] (fun _ => None)). split; [auto|]. split; [reflexivity|]. split; [apply save_ok; [constructor; auto|unfold zlen; cbn; lia]|]. vm_compute. reflexivity.
Qed.
Print Assumptions C23_long_name_refuted.

(** A file with a correct checksum that announces more entries than it has: read past the end. *)
Definition ex_short : list Z := let s := le_bytes 4 1 ++ repeat 0 140 in le_bytes 8 7 ++ le_bytes 8 144 ++ le_bytes 8 (match crc32c_sw s with Some c => c | None => 0 end) ++ s.
Theorem C23_short_body_refuted : exists file, bytes file /\ acceptable file /\ forall iodepth, load_file iodepth file = None.
Proof.
  exists ex_short. assert (Hb : bytes ex_short) by (unfold ex_short; rewrite !bytes_app; repeat split; try apply le_bytes_bytes; apply bytes_repeat0).
  assert (E : forall iodepth, load_file iodepth ex_short = None) by (intros; vm_compute; reflexivity).
  split; auto. split; auto. destruct (load_cases 1 ex_short Hb) as (s & _ & _ & B).
  unfold acceptable. split; [vm_compute; lia|]. split; [vm_compute; reflexivity|]. split; [vm_compute; discriminate|].
  assert (Bs : bytes (firstn (Z.to_nat (number ex_short 8 8)) (skipn 24 ex_short))) by (apply bytes_firstn, bytes_skipn; auto).
  apply (crc_iff _ _ Bs). vm_compute. reflexivity.
Qed.
Print Assumptions C23_short_body_refuted.

(** A job without files: the buffer has no room for its slots. *)
Theorem C23_no_files_refuted : exists j, j_nr_files j = 0 /\ get_all_io_list None [j] = None.
Proof. exists (mkJob [97] 2 0 (Some [5; 2 ^ 64 - 1]) 7 0 false [3; 1] (R64 1 2 3 4 5)). split; [reflexivity|]. vm_compute. reflexivity. Qed.
Print Assumptions C23_no_files_refuted.

(** ** Decisions *)
(** [v] was loaded, by a job with queue depth [iodepth], from a list of entries. *)
Definition from_list (v : vstate) (iodepth : Z) : Prop :=
  v_depth v = zlen (v_inflight v) /\ StronglySorted Z.le (v_failed v) /\
  Permutation (v_failed v) (filter (fun n => negb (n =? 2 ^ 64 - 1)) (skipn (Z.to_nat iodepth) (v_inflight v))).
Lemma from_list_in v iodepth n : from_list v iodepth -> n <> 2 ^ 64 - 1 -> In n (v_failed v) <-> In n (skipn (Z.to_nat iodepth) (v_inflight v)).
Proof.
  intros (_ & _ & P) N. split; intros K.
  - apply (Permutation_in n P) in K. apply filter_In in K. apply K.
  - apply (Permutation_in n (Permutation_sym P)). apply filter_In. split; auto. apply negb_true_iff, Z.eqb_neq. auto.
Qed.

Theorem C24_skip : forall v n, StronglySorted Z.le (v_failed v) -> zlen (v_failed v) < 2 ^ 31 ->
  exists b, should_skip v n = Some b /\ (b = true <-> In n (v_failed v)).
Proof. exact should_skip_ok. Qed.
Print Assumptions C24_skip.

Theorem C24_decide : forall v iodepth n, from_list v iodepth -> 0 <= iodepth -> zlen (v_inflight v) < 2 ^ 31 -> 0 <= n < 2 ^ 64 - 1 ->
  exists d, decide v iodepth n = Some d /\
    (d = Attempt <-> n < v_numberio v /\ ~ In n (v_inflight v)) /\
    (d = Skip <-> In n (skipn (Z.to_nat iodepth) (v_inflight v))) /\
    (d = Stop <-> ~ In n (skipn (Z.to_nat iodepth) (v_inflight v)) /\ (v_numberio v <= n \/ In n (firstn (Z.to_nat iodepth) (v_inflight v)))).
Proof.
  intros v iodepth n F HI HL Hn. pose proof (from_list_in v iodepth n F ltac:(lia)) as FI. destruct F as (FD & FS & FP).
  destruct (attempt_ok (v_numberio v) (v_depth v) (v_inflight v) (v_rand v) iodepth n HI FD HL ltac:(unfold INVALID_NUMBERIO; lia)) as (d & E & R). exists d. split; auto.
  assert (SP : StronglySorted Z.le (v_failed v) -> v_failed v = qsort (filter (fun n => negb (n =? INVALID_NUMBERIO)) (skipn (Z.to_nat iodepth) (v_inflight v)))).
  { intros _. assert (UNI : forall a b : list Z, StronglySorted Z.le a -> StronglySorted Z.le b -> Permutation a b -> a = b).
    { clear. induction a as [|x a IH]; intros b Sa Sb P; [apply Permutation_nil in P; auto|]. destruct b as [|y b]; [apply Permutation_sym, Permutation_nil in P; discriminate|].
      inversion Sa as [|? ? Sa' Fa]; inversion Sb as [|? ? Sb' Fb]; subst. rewrite Forall_forall in *.
      assert (x = y).
      { assert (In x (y :: b)) as [K|K] by (eapply Permutation_in; [exact P|left; auto]); [auto|]. assert (In y (x :: a)) as [K'|K'] by (eapply Permutation_in; [apply Permutation_sym; exact P|left; auto]); [auto|].
        specialize (Fb x K). specialize (Fa y K'). lia. }
      subst. f_equal. apply IH; auto. eapply Permutation_cons_inv. exact P. }
    apply UNI; [auto|apply qsort_sorted|]. rewrite <- qsort_perm. exact FP. }
  rewrite <- E. f_equal. destruct v as [nio dep rnd infl fl]. cbn [v_numberio v_depth v_rand v_inflight v_failed] in *. rewrite SP by auto. reflexivity.
Qed.
Print Assumptions C24_decide.

(** From saving to deciding: the job, loaded with its own queue depth, verifies exactly the writes that count, were not in flight and had not failed. *)
Theorem C24_saved_decides : forall f prefix mask js i j f' v n, Forall job_ok js -> zlen js < 2 ^ 31 -> zlen prefix <= 3900 ->
  verify_save_state f prefix mask js = Some f' -> nth_error js i = Some j -> selected mask (Z.of_nat i) = true -> zlen (j_name j) <= 63 ->
  verify_load_state f' prefix (j_name j) (Z.of_nat i + 1) (j_iodepth j) = Some (Some v) -> zlen (slots j ++ j_failed j) < 2 ^ 31 -> 0 <= n < 2 ^ 64 - 1 ->
  exists d, decide v (j_iodepth j) n = Some d /\
    (d = Attempt <-> n < counted j /\ ~ In n (slots j) /\ ~ In n (j_failed j)) /\ (d = Skip <-> In n (j_failed j)) /\
    (d = Stop <-> ~ In n (j_failed j) /\ (counted j <= n \/ In n (slots j))).
Proof.
  intros f prefix mask js i j f' v n H HL HP S E M LN L D Hn. destruct (C23_roundtrip f prefix mask js H HL HP) as (f1 & S1 & R & _). rewrite S in S1. inversion S1; subst f1.
  destruct (R i j E M LN (j_iodepth j)) as (v1 & L1 & V1 & V2 & V3 & V4 & V5). rewrite L in L1. inversion L1; subst v1. destruct (V5 eq_refl) as (V6 & V7).
  assert (Hj : job_ok j) by (rewrite Forall_forall in H; apply H; eapply nth_error_In; eauto). pose proof (skipn_slots j Hj) as SK. pose proof Hj as (H1 & H2 & _ & _ & _ & _ & NI & _).
  assert (FK : firstn (Z.to_nat (j_iodepth j)) (slots j ++ j_failed j) = slots j).
  { rewrite firstn_app, firstn_all2 by (unfold zlen in H2; lia). replace (Z.to_nat (j_iodepth j) - length (slots j))%nat with 0%nat by (unfold zlen in H2; lia). apply app_nil_r. }
  destruct (C24_decide v (j_iodepth j) n) as (d & Ed & A1 & A2 & A3); rewrite ?V3; auto; try lia.
  - unfold from_list. rewrite V3, SK. split; auto. split; auto. rewrite filter_all; auto. intros x K. apply negb_true_iff, Z.eqb_neq. intros ->. auto.
  - exists d. rewrite V3, V1, ?SK, ?FK in *. rewrite in_app_iff in A1. split; auto. split; [rewrite A1; tauto|]. auto.
Qed.
Print Assumptions C24_saved_decides.

(** Verification in the same run (no loaded state): under the fsynced policy only writes below the limit. *)
Theorem C24_online : forall safe n, 0 <= safe < 2 ^ 64 -> 0 <= n -> (should_stop_online true safe n = false <-> n < safe - 1) /\ should_stop_online false safe n = false.
Proof.
  intros safe n H Hn. unfold should_stop_online. split; auto. rewrite orb_false_iff, Z.eqb_neq, Z.leb_gt. unfold u64. destruct (Z.eq_dec safe 0) as [->|N].
  - split; [intros (A & _); lia|lia].
  - rewrite Z.mod_small by lia. lia.
Qed.
Print Assumptions C24_online.

(** ** The state saved while the job runs *)
(** The consistency checks of the tracking never abort the job. *)
Theorem C24_no_abort : forall d es, (1 <= d)%nat -> zlen es < 2 ^ 64 - 1 -> exists s, jruns (live0 d) es = Some s.
Proof. intros d es Hd B. destruct (jruns_ok es (live0 d) (inv0 d Hd)) as (s & E & _); [cbn [live0 l_issued]; unfold INVALID_NUMBERIO; lia|]. eauto. Qed.
Print Assumptions C24_no_abort.

(** The state is read, step by step, while writes complete, flushes are submitted and complete, and writes fail, but none is
    issued: a write that is then verified was reported complete; under the fsynced policy it had also been issued before a flush that
    completed. *)
Theorem C24_crash_safe : forall fsynced d es1 es2 s s' p iodepth v n, (1 <= d)%nat -> zlen es1 + 1 < 2 ^ 64 - 1 -> Forall tracked es1 ->
  jruns (live0 d) es1 = Some s -> l_pc s = Idle -> calm es2 -> both fsynced s snap0 es2 = Some (s', p) ->
  snap_state iodepth p = Some v -> 0 <= iodepth -> zlen (v_inflight v) < 2 ^ 31 -> 0 <= n < 2 ^ 64 - 1 -> decide v iodepth n = Some Attempt ->
  In (HOk n) (l_hist s') /\ (fsynced = true -> exists k, before (l_hist s') (HFsub k) (HFdone k) /\ before (l_hist s') (HIssue n) (HFsub k)).
Proof. intros. eapply live_main; eauto. Qed.
Print Assumptions C24_crash_safe.

Definition steps (es : list jstep) : list ev := map Job es.
(** A write issued while the state is being read: the slots are read before the limit, so it is taken for complete. *)
Theorem C24_issue_race_refuted : exists es s p v, both false (live0 1) snap0 es = Some (s, p) /\ snap_state 1 p = Some v /\
  decide v 1 0 = Some Attempt /\ ~ In (HOk 0) (l_hist s).
Proof.
  exists [Read; Job Issue1; Job Issue2; Read; Read]. eexists. eexists. eexists. split; [vm_compute; reflexivity|]. split; [vm_compute; reflexivity|]. split; [vm_compute; reflexivity|].
  cbn. intros [|[]]; discriminate.
Qed.
Print Assumptions C24_issue_race_refuted.

(** A failure being recorded while the state is read: the slot is already free and the failed list does not have it yet. *)
Theorem C24_fail_race_refuted : exists es s p v, both false (live0 1) snap0 (steps [Issue1; Issue2; Fail1 0] ++ es) = Some (s, p) /\ snap_state 1 p = Some v /\
  decide v 1 0 = Some Attempt /\ In (HFail 0) (l_hist s) /\ ~ In (HOk 0) (l_hist s).
Proof.
  exists [Read; Read; Read]. eexists. eexists. eexists. split; [vm_compute; reflexivity|]. split; [vm_compute; reflexivity|]. split; [vm_compute; reflexivity|].
  cbn. split; [auto|]. intros [|[|[]]]; discriminate.
Qed.
Print Assumptions C24_fail_race_refuted.

(** A write that a synchronous engine fails is never recorded: it is verified even when nothing runs while the state is saved. *)
Theorem C24_sync_error_refuted : exists s p v, both false (live0 1) snap0 (steps [Issue1; Issue2; FailSync 0] ++ [Read; Read; Read]) = Some (s, p) /\ snap_state 1 p = Some v /\
  decide v 1 0 = Some Attempt /\ In (HFail 0) (l_hist s) /\ ~ In (HOk 0) (l_hist s).
Proof.
  eexists. eexists. eexists. split; [vm_compute; reflexivity|]. split; [vm_compute; reflexivity|]. split; [vm_compute; reflexivity|].
  cbn. split; [auto|]. intros [|[|[]]]; discriminate.
Qed.
Print Assumptions C24_sync_error_refuted.

(** Under the fsynced policy a write in flight when the flush was submitted is verified, although nothing makes it durable. *)
Theorem C24_fsync_inflight_refuted : exists s p v, both true (live0 1) snap0 (steps [Issue1; Issue2; Fsubmit; Fdone 0; Complete 0] ++ [Read; Read; Read]) = Some (s, p) /\
  snap_state 1 p = Some v /\ decide v 1 0 = Some Attempt /\ before (l_hist s) (HFdone 0) (HOk 0) /\ (forall k, In (HFdone k) (l_hist s) -> k = 0%nat).
Proof.
  eexists. eexists. eexists. split; [vm_compute; reflexivity|]. split; [vm_compute; reflexivity|]. split; [vm_compute; reflexivity|]. split.
  - exists [], [], [HFsub 0; HIssue 0]. reflexivity.
  - cbn. intros k [E|[E|[E|[E|[]]]]]; try discriminate. inversion E; auto.
Qed.
Print Assumptions C24_fsync_inflight_refuted.

(** ** Cases *)
Example C23_case : exists f', verify_save_state (fun _ => None) [112] None [ex_job [97; 47]; ex_job [98]] = Some f' /\
  verify_load_state f' [112] [97; 47] 1 2 = Some (Some (mkV 7 4 (1, [1; 2; 3; 4; 5; 0]) [5; 2 ^ 64 - 1; 3; 1] [1; 3])) /\
  verify_load_state f' [112] [98] 1 2 = Some None /\ verify_load_state f' [112] [98] 2 2 <> Some None.
Proof.
  exists (saved None [112] 0 [ex_job [97; 47]; ex_job [98]] (fun _ => None)). split; [apply save_ok; [constructor; [|constructor; auto]; apply ex_job_ok; repeat constructor; lia|unfold zlen; cbn; lia]|].
  split; [vm_compute; reflexivity|]. split; [vm_compute; reflexivity|]. vm_compute. discriminate.
Qed.
Example C23_accepted_case : acceptable (file_of 3 (ex_job [97])) /\ complete (file_of 3 (ex_job [97])).
Proof.
  assert (H : job_ok (ex_job [97])) by (apply ex_job_ok; repeat constructor; lia). split; [|split; vm_compute; discriminate].
  assert (Hb : bytes (file_of 3 (ex_job [97]))) by (unfold file_of; rewrite !bytes_app; repeat split; try apply le_bytes_bytes; apply image_bytes; auto).
  unfold acceptable. split; [vm_compute; lia|]. split; [vm_compute; reflexivity|]. split; [vm_compute; discriminate|].
  apply (crc_iff _ _ (bytes_firstn _ _ (bytes_skipn _ _ Hb))). vm_compute. reflexivity.
Qed.
Example C24_case : let v := mkV 7 4 (1, [1; 2; 3; 4; 5; 0]) [5; 2 ^ 64 - 1; 3; 1] [1; 3] in from_list v 2 /\
  map (decide v 2) [0; 1; 2; 3; 4; 5; 6; 7] = map Some [Attempt; Skip; Attempt; Skip; Attempt; Stop; Attempt; Stop].
Proof. split; [|vm_compute; reflexivity]. split; [reflexivity|]. split; [repeat constructor; lia|]. cbn. apply perm_swap. Qed.
Example C24_live_case : exists es2 s s' p v, jruns (live0 2) [Issue1; Issue2; Issue1; Issue2; Complete 0; Issue1; Issue2; Fsubmit] = Some s /\ l_pc s = Idle /\ calm es2 /\
  both false s snap0 es2 = Some (s', p) /\ snap_state 2 p = Some v /\ map (decide v 2) [0; 1; 2; 3] = map Some [Skip; Attempt; Stop; Stop].
Proof.
  exists [Read; Job (Fail1 1); Job Fail2; Read; Read; Job (Fdone 0); Read]. eexists. eexists. eexists. eexists.
  split; [vm_compute; reflexivity|]. split; [reflexivity|]. split; [exact I|]. split; [vm_compute; reflexivity|]. split; [vm_compute; reflexivity|]. vm_compute. reflexivity.
Qed.
