(** C29: where the I/Os of a job go. *)
From Coq Require Import ZArith List Bool Lia.
From Verif Require Import CBase BuflenModel BuflenProofs BuflenProps OffsetModel OffsetSpec OffsetProofs.
Import ListNotations.
Open Scope Z_scope.

Lemma unit_one o : unit_ok 1 o.
Proof. split; [lia|]. split; [intros d; split; [apply Z.divide_1_l|]; split; [apply Z.divide_1_l|auto]|]. intros _. split; [apply Z.divide_1_l|]. split; [apply Z.divide_1_l|]. split; [apply Z.divide_1_l|]. split; [apply Z.divide_1_l|]. intros; split; apply Z.divide_1_l. Qed.
Definition maxbs (o : opts) : Z := Z.max (b_max (o_b o DR)) (Z.max (b_max (o_b o DW)) (b_max (o_b o DT))).
Lemma maxbs_ge o e : b_max (o_b o e) <= maxbs o.
Proof. unfold maxbs. destruct e; lia. Qed.

(** Every job (sequential, random, holed, backward, trim and write, strided), whatever its generators answer: each I/O starts in the
    region of its current zone, is not empty, and ends within the file. *)
Theorem C29_starts_inside o is s' xs d fo off len : conf o -> Forall (inp_ok o) is -> run o (init o) is = Some (s', xs) -> In (Issued d fo off len) xs ->
  starts_inside fo (f_io o) off len /\ off + len <= f_real o /\ (o_zone o = None -> fo = o_start o).
Proof.
  intros C FI R H. destruct (run_ok 1 (maxbs o) o C (unit_one o) (maxbs_ge o) is (init o) s' xs FI ltac:(apply inv_init; auto; apply unit_one) R) as (_ & K).
  destruct (K d fo off len H) as (A1 & A2 & A3 & A4 & _ & _ & _ & _ & A9). split; [split; lia|]. split; auto.
Qed.
(** A job with a range of sizes never goes past the end of its region. *)
Theorem C29_range_inside o is s' xs d fo off len : conf o -> (forall e, b_min (o_b o e) <> b_max (o_b o e)) -> o_rtw o = false -> o_zone o = None -> Forall (inp_ok o) is -> run o (init o) is = Some (s', xs) -> In (Issued d fo off len) xs ->
  inside (o_start o) (f_io o) off len.
Proof.
  intros C V RT Z1 FI R H. destruct (run_ok 1 (maxbs o) o C (unit_one o) (maxbs_ge o) is (init o) s' xs FI ltac:(apply inv_init; auto; apply unit_one) R) as (_ & K).
  destruct (K d fo off len H) as (A1 & A2 & A3 & A4 & _ & _ & A7 & _ & A9). specialize (A7 V RT). specialize (A9 Z1). cbn in A9. split; [lia|]. lia.
Qed.
(** A unit that divides the alignment and the sizes (and the file's geometry for holed or backward jobs) divides every offset and
    length. *)
Theorem C29_aligned g o is s' xs d fo off len : conf o -> unit_ok g o -> Forall (inp_ok o) is -> run o (init o) is = Some (s', xs) -> In (Issued d fo off len) xs -> on_grid g fo off len.
Proof.
  intros C U FI R H. destruct (run_ok g (maxbs o) o C U (maxbs_ge o) is (init o) s' xs FI ltac:(apply inv_init; auto) R) as (_ & K). destruct (K d fo off len H) as (A1 & A2 & A3 & A4 & A5 & A6 & _). split; auto.
Qed.
(** Fixed sizes: when the size divides the region, no I/O goes past the end of the region. *)
Theorem C29_fixed_inside bs o is s' xs d fo off len : conf o -> unit_ok bs o -> (forall e, b_max (o_b o e) = bs) -> (bs | f_io o) -> Forall (inp_ok o) is -> run o (init o) is = Some (s', xs) -> In (Issued d fo off len) xs ->
  inside fo (f_io o) off len.
Proof.
  intros C U M D FI R H. assert (ME : forall e, b_max (o_b o e) <= bs) by (intros; rewrite M; lia). destruct (run_ok bs bs o C U ME is (init o) s' xs FI ltac:(apply inv_init; auto) R) as (_ & K).
  destruct (K d fo off len H) as (A1 & A2 & A3 & A4 & (q & A5) & _). destruct D as (n & D). destruct U as (U1 & _). assert (q < n) by nia. split; [lia|]. split; [lia|]. nia.
Qed.
(** Strided zones: when the size divides the zone, no I/O leaves its zone. *)
Theorem C29_zone bs o range size skip is s' xs d fo off len : conf o -> unit_ok bs o -> (forall e, b_max (o_b o e) = bs) -> o_zone o = Some (range, size, skip) -> o_seq_add o = 0 -> (bs | range) ->
  Forall (inp_ok o) is -> Forall (blocks_below o range) is -> run o (init o) is = Some (s', xs) -> In (Issued d fo off len) xs -> inside fo range off len.
Proof.
  intros C U M EZ EA D FI FB R H. assert (ME : forall e, b_max (o_b o e) <= bs) by (intros; rewrite M; lia). destruct (run_ok bs bs o C U ME is (init o) s' xs FI ltac:(apply inv_init; auto) R) as (_ & K).
  destruct (K d fo off len H) as (A1 & A2 & A3 & A4 & (q & A5) & _ & _ & A8 & _). specialize (A8 range size skip EZ EA FB ltac:(intros e _; left; reflexivity)). destruct D as (n & D). destruct U as (U1 & _). assert (q < n) by nia. split; [lia|]. split; [lia|]. nia.
Qed.

(** A sequential job that starts over (time based, or more I/O than the region): the k-th request of each direction goes to block
    k mod n, in any interleaving of the directions. *)
Theorem C29_sequential_loop o bs n is : seqconf o bs n -> wraps o = true -> exists s' xs, run o (init o) is = Some (s', xs) /\
  forall k i, nth_error is k = Some i -> nth_error xs k = Some (Issued (i_dir i) (o_start o) (o_start o + (count dir_eqb (i_dir i) (map i_dir (firstn k is)) mod n) * bs) bs).
Proof.
  intros Q W. pose proof Q as (_ & _ & EN & _ & _ & _ & _ & _ & _ & N1 & _). destruct (seq_run o bs n Q is (init o) (fun _ => 0)) as (s' & xs & R & _ & _ & OUT).
  - split; [reflexivity|]. split; [exact EN|]. intros d. unfold phase. rewrite W. cbn. lia.
  - lia.
  - congruence.
  - exists s', xs. split; auto. intros k i E. rewrite (OUT k i E), W. cbv zeta. rewrite Z.add_0_l. reflexivity.
Qed.
(** One that does not start over: block after block, and after the last block of a direction no more I/O. *)
Theorem C29_sequential_once o bs n is i : seqconf o bs n -> wraps o = false -> (forall d, count dir_eqb d (map i_dir is) <= n) -> count dir_eqb (i_dir i) (map i_dir is) = n ->
  exists s1 s2 xs, run o (init o) is = Some (s1, xs) /\ fill o s1 i = Some (s2, NoMore) /\
  forall k i, nth_error is k = Some i -> nth_error xs k = Some (Issued (i_dir i) (o_start o) (o_start o + count dir_eqb (i_dir i) (map i_dir (firstn k is)) * bs) bs).
Proof.
  intros Q W CN CI. pose proof Q as (_ & _ & EN & _ & _ & _ & _ & _ & _ & N1 & _). destruct (seq_run o bs n Q is (init o) (fun _ => 0)) as (s' & xs & R & _ & ST & OUT).
  - split; [reflexivity|]. split; [exact EN|]. intros d. unfold phase. rewrite W. cbn. lia.
  - lia.
  - intros _ d. specialize (CN d). lia.
  - pose proof (seq_step o bs n s' _ i Q ST) as H. cbv zeta beta in H. rewrite W in H. cbn [andb] in H. unfold phase in H at 1. rewrite Z.add_0_l, CI, Z.eqb_refl in H. destruct H as (s2 & F & _).
    exists s', s2, xs. split; auto. split; auto. intros k j E. rewrite (OUT k j E), W. cbv zeta. rewrite Z.add_0_l. reflexivity.
Qed.

(** A random job's I/O is at the block that the generator answered, in units of blockalign. *)
Theorem C29_random_block o s i s' d fo off len : conf o -> inp_ok o i -> o_random o = true -> o_seq_nr o = 1 -> s_nr s = 1 -> i_rand i = true -> o_rtw o = false -> 0 <= s_fo s < 2 ^ 61 -> o_zone o = None ->
  fill o s i = Some (s', Issued d fo off len) -> exists b, (i_b1 i = Some b \/ i_b2 i = Some b) /\ off = fo + b * o_ba o d.
Proof.
  intros C (IB & _) ER EN SN EI ERT F EZ H. pose proof C as (CB & _ & B2 & _). unfold fill, zone_setup in H. rewrite EZ in H. set (e := the_dir o s i) in *. unfold next_offset in H. rewrite EN, SN in H. change (1 =? 0) with false in H. change (1 - 1 =? 0) with true in H. cbv beta iota zeta in H.
  unfold next_block in H. rewrite ERT, ER, EI in H. cbn [andb] in H. destruct (rand_block o (set_nr s 1) (i_b1 i) (i_b2 i)) as [s1 q] eqn:EB. apply rand_block_ok in EB. destruct EB as (Q & NR). destruct (NR e) as (F1 & _). cbn [set_nr s_fo] in F1.
  unfold pick in H. destruct q as [b|]; [|discriminate]. destruct (b =? ones); [discriminate|]. assert (K : i_b1 i = Some b \/ i_b2 i = Some b) by (destruct Q as [<-|[<-|]]; [auto|auto|discriminate]).
  destruct (IB b K) as (Y0 & Y1). specialize (Y1 e). destruct (CB e) as (_ & _ & BA). rewrite (u64_small (b * o_ba o e)) in H by nia. destruct (Z.geb_spec (b * o_ba o e) (f_io o)); [discriminate|]. rewrite F1 in H. rewrite (u64_small (b * o_ba o e + s_fo s)) in H by nia.
  destruct (_ >=? _); [discriminate|]. destruct (next_buflen _ _ _ _ _ _) as [ln|]; [|discriminate]. destruct (ln =? 0); [discriminate|]. destruct (_ >? _); [discriminate|]. exists b. split; auto. inversion H. subst. lia.
Qed.
(** A block below last_block leaves room for a whole smallest I/O, and for a whole alignment unit, in the region and in the file. *)
Theorem C29_last_block o d b : conf o -> o_zone o = None -> b_min (o_b o d) <= Z.min (f_io o) (f_real o) -> 0 <= b < last_block o d ->
  b * o_ba o d + Z.max (b_min (o_b o d)) (o_ba o d) <= Z.min (f_io o) (f_real o).
Proof.
  intros (CB & _ & B2 & B3 & _) EZ L H. destruct (CB d) as ((G1 & _) & G2 & BA). unfold last_block in H. rewrite EZ in H.
  set (m := if f_io o >? f_real o then f_real o else f_io o) in H. assert (ME : m = Z.min (f_io o) (f_real o)) by (unfold m; destruct (Z.gtb_spec (f_io o) (f_real o)); lia). clearbody m. rewrite <- ME in *.
  destruct (Z.gtb_spec (b_min (o_b o d)) (o_ba o d)) as [X|X].
  - rewrite u64_small in H by lia. pose proof (Z.div_mod (m - (b_min (o_b o d) - o_ba o d)) (o_ba o d) ltac:(lia)). pose proof (Z.mod_pos_bound (m - (b_min (o_b o d) - o_ba o d)) (o_ba o d) ltac:(lia)). nia.
  - pose proof (Z.div_mod m (o_ba o d) ltac:(lia)). pose proof (Z.mod_pos_bound m (o_ba o d) ltac:(lia)). nia.
Qed.

(** Random trim and write: every trim is followed by a write of exactly the same bytes, whatever the generators answer. *)
Theorem C29_trim_then_write o s i i2 s1 fo off len : conf o -> o_rtw o = true -> o_zone o = None -> inp_ok o i -> inv 1 (maxbs o) o s -> fill o s i = Some (s1, Issued DT fo off len) ->
  exists s2, fill o s1 i2 = Some (s2, Issued DW fo off len) /\ inv 1 (maxbs o) o s2 /\ s_start s2 DW = s_start s2 DT.
Proof.
  intros C R EZ I V H. pose proof C as (CB & B1 & B2 & B3 & _ & _ & TW). specialize (TW R).
  destruct (fill_ok 1 (maxbs o) o s i s1 _ C (unit_one o) I (maxbs_ge o) V H) as (V1 & _ & K). destruct (K DT fo off len eq_refl) as (KD & KF & K1 & K2 & K3 & _). pose proof V1 as ((F1 & _) & _).
  (* the state after the trim *)
  assert (ST : s_start s1 DT = off /\ s_pos s1 DT = off + len /\ s_start s1 DW <> off).
  { unfold fill, zone_setup in H. rewrite EZ in H. rewrite <- KD in H. destruct (next_offset o s DT i) as [sa [[[of2 r] busy]|]] eqn:EN; [|discriminate].
    assert (EW : s_start s DW = s_start s DT) by (unfold the_dir in KD; rewrite TW in KD; destruct (Z.eqb_spec (s_start s DW) (s_start s DT)); [auto|discriminate]).
    destruct V as (V0 & _). pose proof (next_offset_trim 1 o s i sa of2 r busy C (unit_one o) I V0 R EW EN) as NW.
    destruct (next_buflen _ _ _ _ _ _) as [ln|]; [|discriminate]. destruct (ln =? 0); [discriminate|]. destruct (_ >? _); [discriminate|]. inversion H; subst. cbn [s_start s_pos]. rewrite !set_same. split; auto. split; [apply u64_small; lia|].
    rewrite set_other by congruence. auto. }
  destruct ST as (S1 & S2 & S3).
  assert (D2 : the_dir o s1 i2 = DW) by (unfold the_dir; rewrite TW, S1; destruct (Z.eqb_spec (s_start s1 DW) off); congruence).
  assert (E : exists s0, s_fo s0 = s_fo s1 /\ s_pos s0 = s_pos s1 /\ s_start s0 = s_start s1 /\ next_offset o s1 DW i2 = (s0, Some (off, true, true))).
  { unfold next_offset. destruct (if o_seq_nr o =? 0 then _ else _) as [s0 hit] eqn:EN.
    assert (HN : s_fo s0 = s_fo s1 /\ s_pos s0 = s_pos s1 /\ s_start s0 = s_start s1) by (destruct (o_seq_nr o =? 0); [|cbv zeta in EN; destruct (s_nr s1 - 1 =? 0)]; inversion EN; subst; auto).
    destruct HN as (E1 & E2 & E3). exists s0. split; auto. split; auto. split; auto. unfold next_block. rewrite R. change (dir_eqb DW DW) with true. cbn [andb]. rewrite E3, E1, S1, <- KF. rewrite (u64_small (off - fo)) by lia.
    unfold pick, ones. destruct (Z.eqb_spec (off - fo) (2 ^ 64 - 1)); [lia|]. destruct (Z.geb_spec (off - fo) (f_io o)); [lia|]. replace (off - fo + fo) with off by lia. rewrite u64_small by lia. destruct (Z.geb_spec off (f_real o)); [lia|].
    change (dir_eqb DW DT) with false. cbn [andb]. reflexivity. }
  destruct E as (s0 & E1 & E2 & E3 & EN).
  assert (FE : fill o s1 i2 = Some (mkS (s_fo s0) (set (s_pos s0) DW (off + len)) (set (s_start s0) DW off) (s_nr s0) (s_zb s0 + len), Issued DW fo off len)).
  { unfold fill, zone_setup. rewrite EZ, D2, EN. unfold next_buflen. rewrite R. change (dir_eqb DW DW) with true. cbn [andb]. rewrite E2, E3, S1, S2. replace (off + len - off) with len by lia. rewrite (u64_small len) by lia. destruct (Z.eqb_spec len 0); [lia|].
    rewrite (u64_small (off + len)) by lia. destruct (Z.gtb_spec (off + len) (f_real o)); [lia|]. unfold mark. cbn [negb]. rewrite andb_false_r. rewrite (u64_small (off + len)) by lia. rewrite E1, <- KF. reflexivity. }
  eexists. split; [exact FE|]. split; [|cbn [s_start]; rewrite set_same, set_other by congruence; rewrite E3; auto].
  destruct V1 as ((_ & A1 & P1 & ST1) & T1). split.
  - unfold inv0. cbn [s_fo s_pos s_start]. rewrite E1, E2, E3. split; auto. split; auto. split.
    + intros e. unfold set. destruct (dir_eqb_spec DW e); [split; [lia|]; split; [apply Z.divide_1_l|lia]|auto].
    + intros e RE. specialize (RE R). rewrite set_other by auto. auto.
  - intros _. unfold trim_ok. cbn [s_pos s_start]. rewrite !set_other by congruence. rewrite E2, E3. apply T1. auto.
Qed.

(** Concrete jobs. *)
Definition fixed (bs : Z) : bopts := mkB bs bs [] false false.
Definition job (bs start io real : Z) : opts := mkO (fun _ => fixed bs) (fun _ => bs) false 1 0 false false true false false false false false None start io real.
Definition rq (d : dir) : inp := mkI d true None None [] None.
Definition rnd (d : dir) (b : Z) : inp := mkI d true (Some b) None [] None.
Definition random (o : opts) : opts := mkO (o_b o) (o_ba o) true (o_seq_nr o) (o_seq_add o) (o_ident o) (o_time_based o) (o_one_file o) (o_overlap o) (o_nonuniform o) (o_seq_rand o) (o_tw o) (o_rtw o) (o_zone o) (o_start o) (f_io o) (f_real o).
Definition trimwrite (o : opts) : opts := mkO (o_b o) (o_ba o) true (o_seq_nr o) (o_seq_add o) (o_ident o) (o_time_based o) (o_one_file o) (o_overlap o) (o_nonuniform o) (o_seq_rand o) true true (o_zone o) (o_start o) (f_io o) (f_real o).
Definition timed (o : opts) : opts := mkO (o_b o) (o_ba o) (o_random o) (o_seq_nr o) (o_seq_add o) (o_ident o) true (o_one_file o) (o_overlap o) (o_nonuniform o) (o_seq_rand o) (o_tw o) (o_rtw o) (o_zone o) (o_start o) (f_io o) (f_real o).
Definition holed (add : Z) (o : opts) : opts := mkO (o_b o) (o_ba o) (o_random o) (o_seq_nr o) add (o_ident o) (o_time_based o) (o_one_file o) (o_overlap o) (o_nonuniform o) (o_seq_rand o) (o_tw o) (o_rtw o) (o_zone o) (o_start o) (f_io o) (f_real o).
Definition zoned (z : Z * Z * Z) (o : opts) : opts := mkO (o_b o) (o_ba o) (o_random o) (o_seq_nr o) (o_seq_add o) (o_ident o) (o_time_based o) (o_one_file o) (o_overlap o) (o_nonuniform o) (o_seq_rand o) (o_tw o) (o_rtw o) (Some z) (o_start o) (f_io o) (f_real o).
Definition sized (b : bopts) (o : opts) : opts := mkO (fun _ => b) (o_ba o) (o_random o) (o_seq_nr o) (o_seq_add o) (o_ident o) (o_time_based o) (o_one_file o) (o_overlap o) (o_nonuniform o) (o_seq_rand o) (o_tw o) (o_rtw o) (o_zone o) (o_start o) (f_io o) (f_real o).

Lemma good_fixed bs : 1 <= bs -> good (fixed bs).
Proof. intros. split; [cbn; lia|]. split; [cbn; lia|]. split; [intros ? ? []|intros X; elim X; reflexivity]. Qed.
Lemma conf_job bs start io real : 1 <= bs < 2 ^ 61 -> 0 <= start < 2 ^ 61 -> 0 <= io < 2 ^ 61 -> 0 <= real < 2 ^ 61 -> conf (job bs start io real).
Proof. intros. split; [intros d; split; [apply good_fixed; lia|cbn; lia]|]. cbn. split; [lia|]. split; [lia|]. split; [lia|]. split; [lia|]. split; [discriminate|discriminate]. Qed.
Example seqconf_demo : seqconf (job 4096 8192 16384 65536) 4096 4.
Proof. split; [apply conf_job; lia|]. cbn. split; [reflexivity|]. split; [reflexivity|]. split; [reflexivity|]. split; [reflexivity|]. split; [reflexivity|]. split; [reflexivity|]. split; [auto|]. lia. Qed.
Example rq_ok o d : inp_ok o (rq d).
Proof. split; [intros b [E|E]; discriminate|]. split; [constructor|discriminate]. Qed.
Example rnd_ok o d b : 0 <= b < 1000 -> (forall e, o_ba o e <= 2 ^ 30) -> inp_ok o (rnd d b).
Proof. intros B H. split; [intros c [E|E]; inversion E; subst; split; [lia|]; intros e; specialize (H e); nia|]. split; [constructor|discriminate]. Qed.
Example unit_demo : unit_ok 4096 (job 4096 8192 16384 65536).
Proof. split; [lia|]. split; [intros d; split; [exists 1; reflexivity|]; split; [exists 1; reflexivity|right; split; [reflexivity|exists 1; reflexivity]]|]. intros X. elim X. reflexivity. Qed.
(** Two interleaved directions, each with its own position; four blocks, then no more. *)
Example C29_ex_seq : option_map snd (run (job 4096 8192 16384 65536) (init (job 4096 8192 16384 65536)) (map rq [DR; DW; DR; DR; DR; DR])) =
  Some [Issued DR 8192 8192 4096; Issued DW 8192 8192 4096; Issued DR 8192 12288 4096; Issued DR 8192 16384 4096; Issued DR 8192 20480 4096; NoMore].
Proof. vm_compute. reflexivity. Qed.
Example C29_ex_loop : option_map snd (run (timed (job 4096 8192 8192 65536)) (init (timed (job 4096 8192 8192 65536))) (map rq [DR; DR; DR; DR])) =
  Some [Issued DR 8192 8192 4096; Issued DR 8192 12288 4096; Issued DR 8192 8192 4096; Issued DR 8192 12288 4096].
Proof. vm_compute. reflexivity. Qed.
Example C29_ex_random : option_map snd (run (random (job 4096 8192 16384 65536)) (init (random (job 4096 8192 16384 65536))) [rnd DR 3; rnd DW 0; rnd DR 1]) =
  Some [Issued DR 8192 20480 4096; Issued DW 8192 8192 4096; Issued DR 8192 12288 4096].
Proof. vm_compute. reflexivity. Qed.
(** Trims and writes in pairs, even when the generator repeats a block. *)
Example C29_ex_trimwrite : option_map snd (run (trimwrite (job 4096 0 16384 65536)) (init (trimwrite (job 4096 0 16384 65536))) [rnd DR 3; rnd DR 2; rnd DR 3; rnd DR 0; rnd DR 0; rnd DR 0]) =
  Some [Issued DT 0 12288 4096; Issued DW 0 12288 4096; Issued DT 0 12288 4096; Issued DW 0 12288 4096; Issued DT 0 0 4096; Issued DW 0 0 4096].
Proof. vm_compute. reflexivity. Qed.
(** Zones of 8 KiB at a distance of 16 KiB. *)
Example C29_ex_zone : option_map snd (run (zoned (8192, 8192, 8192) (job 4096 0 65536 32768)) (init (zoned (8192, 8192, 8192) (job 4096 0 65536 32768))) (map rq [DR; DR; DR; DR; DR])) =
  Some [Issued DR 0 0 4096; Issued DR 0 4096 4096; Issued DR 16384 16384 4096; Issued DR 16384 20480 4096; Issued DR 0 0 4096].
Proof. vm_compute. reflexivity. Qed.

(** What the code does not give. With a fixed size the last I/O of a region that is no multiple of it goes past the end of the
    region: io_u_fits is consulted only for a range of sizes (io_u.c:640-641). *)
Theorem C29_fixed_inside_refuted : exists o is s' xs off len, conf o /\ Forall (inp_ok o) is /\ run o (init o) is = Some (s', xs) /\ In (Issued DW (o_start o) off len) xs /\ o_start o + f_io o < off + len.
Proof.
  exists (job 4096 0 6144 65536), (map rq [DW; DW]). eexists. eexists. exists 4096, 4096. split; [apply conf_job; lia|]. split; [repeat (apply Forall_cons; [apply rq_ok|]); apply Forall_nil|]. split; [vm_compute; reflexivity|]. split; [right; left; reflexivity|]. vm_compute. reflexivity.
Qed.
Lemma conf_mod o o' : conf o -> (forall d, good (o_b o' d) /\ b_max (o_b o' d) < 2 ^ 61 /\ 1 <= o_ba o' d) -> o_start o' = o_start o -> f_io o' = f_io o -> f_real o' = f_real o -> - 2 ^ 61 < o_seq_add o' < 2 ^ 61 ->
  (forall r z k, o_zone o' = Some (r, z, k) -> 1 <= r < 2 ^ 61 /\ 0 <= k < 2 ^ 61) -> (o_rtw o' = true -> o_tw o' = true) -> conf o'.
Proof. intros (_ & B & C & D & _) A E1 E2 E3 E Z1 R. unfold conf. rewrite E1, E2, E3. auto 10. Qed.
(** A holed job with an offset: at the end of the file the relative position restarts at file_offset instead of 0
    (io_u.c:455-456), so that with an offset of 4096 the second pass begins at 8192, not at the beginning of the region. *)
Theorem C29_holed_wrap_refuted : exists o is s' xs, conf o /\ Forall (inp_ok o) is /\ o_start o = 4096 /\ o_start o + f_io o = f_real o /\ run o (init o) is = Some (s', xs) /\
  xs = [Issued DR 4096 4096 4096; Issued DR 4096 49152 4096; Issued DR 4096 8192 4096].
Proof.
  exists (holed 40960 (job 4096 4096 61440 65536)), (map rq [DR; DR; DR]). eexists. eexists.
  split; [apply (conf_mod (job 4096 4096 61440 65536)); try reflexivity; [apply conf_job; lia|intros d; split; [apply good_fixed; lia|cbn; lia]|cbn; lia|discriminate|discriminate]|].
  split; [repeat (apply Forall_cons; [apply rq_ok|]); apply Forall_nil|]. split; [reflexivity|]. split; [reflexivity|]. split; [vm_compute; reflexivity|reflexivity].
Qed.
(** A backward job with an offset does not begin at the end of its region: last_pos is set to io_size, an absolute position, where
    offset + io_size is meant (io_u.c:439-442). Blocks of 4096 with a step of -8192 in [8192, 24576): the first I/O is at 8192 and
    only the second one at the end, 16384. *)
Theorem C29_backward_start_refuted : exists o is s' xs, conf o /\ Forall (inp_ok o) is /\ o_start o = 8192 /\ f_io o = 16384 /\ o_seq_add o = - 8192 /\ run o (init o) is = Some (s', xs) /\
  xs = [Issued DR 8192 8192 4096; Issued DR 8192 16384 4096; Issued DR 8192 12288 4096; Issued DR 8192 8192 4096].
Proof.
  exists (holed (- 8192) (job 4096 8192 16384 65536)), (map rq [DR; DR; DR; DR]). eexists. eexists.
  split; [apply (conf_mod (job 4096 8192 16384 65536)); try reflexivity; [apply conf_job; lia|intros d; split; [apply good_fixed; lia|cbn; lia]|cbn; lia|discriminate|discriminate]|].
  split; [repeat (apply Forall_cons; [apply rq_ok|]); apply Forall_nil|]. split; [reflexivity|]. split; [reflexivity|]. split; [reflexivity|]. split; [vm_compute; reflexivity|reflexivity].
Qed.
(** Strided zones wander beyond offset + size: they wrap only at the end of the file (io_u.c:995-996). *)
Theorem C29_zone_region_refuted : exists o is s' xs fo off len, conf o /\ Forall (inp_ok o) is /\ run o (init o) is = Some (s', xs) /\ In (Issued DW fo off len) xs /\ o_start o + f_io o <= off.
Proof.
  exists (zoned (4096, 4096, 12288) (job 4096 0 16384 65536)), (map rq [DW; DW]). eexists. eexists. exists 16384, 16384, 4096.
  split; [apply (conf_mod (job 4096 0 16384 65536)); try reflexivity; [apply conf_job; lia|intros d; split; [apply good_fixed; lia|cbn; lia]|cbn; lia|cbn; intros r z k E; inversion E; lia|discriminate]|].
  split; [repeat (apply Forall_cons; [apply rq_ok|]); apply Forall_nil|]. split; [vm_compute; reflexivity|]. split; [right; left; reflexivity|]. cbn. lia.
Qed.
(** With a range of sizes an I/O may leave its zone: only its start is kept inside. *)
Theorem C29_zone_range_refuted : exists o is s' xs fo off len range size skip, conf o /\ Forall (inp_ok o) is /\ o_zone o = Some (range, size, skip) /\ run o (init o) is = Some (s', xs) /\ In (Issued DW fo off len) xs /\ fo + range < off + len.
Proof.
  exists (zoned (8192, 8192, 8192) (sized (mkB 4096 8192 [] false false) (job 4096 0 65536 65536))), [mkI DW true None None [0] None; mkI DW true None None [2 ^ 32 - 1] None]. eexists. eexists. exists 0, 4096, 8192, 8192, 8192, 8192.
  split; [apply (conf_mod (job 4096 0 65536 65536)); try reflexivity; [apply conf_job; lia| |cbn; lia|cbn; intros r z k E; inversion E; lia|discriminate]|].
  { intros d. split; [split; [cbn; lia|]; split; [cbn; lia|]; split; [intros ? ? []|intros X; elim X; reflexivity]|cbn; lia]. }
  split; [repeat (apply Forall_cons; [split; [intros b [E|E]; discriminate|]; split; [repeat (apply Forall_cons; [lia|]); apply Forall_nil|discriminate]|]); apply Forall_nil|].
  split; [reflexivity|]. split; [vm_compute; reflexivity|]. split; [right; left; reflexivity|]. cbn. lia.
Qed.
(** last_block underflows when the region is smaller than min_bs - blockalign: the generator is given a huge number of blocks
    (io_u.c:76-77). *)
Theorem C29_last_block_refuted : exists o, conf o /\ o_zone o = None /\ f_io o = 1024 /\ 2 ^ 54 <= last_block o DR.
Proof.
  exists (sized (fixed 4096) (job 512 0 1024 65536)). split; [apply (conf_mod (job 512 0 1024 65536)); try reflexivity; [apply conf_job; lia|intros d; split; [apply good_fixed; lia|cbn; lia]|cbn; lia|discriminate|discriminate]|].
  split; [reflexivity|]. split; [reflexivity|]. vm_compute. discriminate.
Qed.

Print Assumptions C29_starts_inside.
Print Assumptions C29_range_inside.
Print Assumptions C29_aligned.
Print Assumptions C29_fixed_inside.
Print Assumptions C29_zone.
Print Assumptions C29_sequential_loop.
Print Assumptions C29_sequential_once.
Print Assumptions C29_random_block.
Print Assumptions C29_last_block.
Print Assumptions C29_trim_then_write.
