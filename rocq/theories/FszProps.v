(** Property C57: files get the sizes that were asked for. *)
From Coq Require Import ZArith List Lia Bool.
From Verif Require Import CBase FloatZ ZdModel ZdProofs FszModel FszSpec FszProofs.
Import ListNotations.
Open Scope Z_scope.

(** size= is divided between the files: what does not divide evenly goes to the first ones in blocks, less than a block is left. *)
Theorem C57_divide o l ios rs sz n : plain_percent o -> size_low o = 0 -> 0 < min_bs o -> Z.of_nat (List.length l) < 2 ^ 32 -> 0 < Z.of_nat (List.length l) <= size o -> size o + min_bs o < 2 ^ 64 -> setup o l = Some (ios, rs, sz, n) ->
  let k := Z.of_nat (List.length l) in let each := size o / k in let more := Z.to_nat (size o mod k / min_bs o) in
  ios = repeat (each + min_bs o) more ++ repeat each (List.length l - more) /\ total ios = size o - (size o mod k) mod min_bs o /\ sz = total ios.
Proof.
  intros P LO B N SZ FB H. cbv zeta. destruct (setup_inv o l ios rs sz n H) as (t & E & _ & ES & _). set (k := Z.of_nat (List.length l)) in *. rewrite (share_size o k) in E by lia. cbn [fst snd] in E.
  pose proof (Z.div_mod (size o) k ltac:(lia)) as DM. pose proof (Z.mod_pos_bound (size o) k ltac:(lia)) as MB. pose proof (Z.div_mod (size o mod k) (min_bs o) ltac:(lia)) as DB. pose proof (Z.mod_pos_bound (size o mod k) (min_bs o) B) as BB. assert (M0 : 0 <= size o mod k / min_bs o) by (apply Z.div_pos; lia).
  assert (MK : size o mod k / min_bs o <= k) by (apply Z.le_trans with (size o mod k); [apply Z.div_le_upper_bound; nia|lia]).
  set (more := Z.to_nat (size o mod k / min_bs o)) in *. assert (EM : size o mod k / min_bs o = Z.of_nat more) by (unfold more; lia). assert (ML : (more <= List.length l)%nat) by lia. rewrite EM in E, DB.
  assert (F : 0 < size o / k) by (apply Z.div_str_pos; lia). assert (FL : size o / k <= size o) by (apply Z.div_le_upper_bound; nia).
  pose proof (parts_total (size o / k) (min_bs o) (List.length l) more ML) as PT. fold k in PT. assert (TT : total (parts (size o / k) (min_bs o) more (List.length l)) = size o - (size o mod k) mod min_bs o) by lia.
  rewrite (set_sizes_divide o P LO l (size o / k) more 0) in E by lia. injection E as <- <-. split; [apply parts_repeat; auto|]. split; [auto|]. rewrite TT in ES |- *. rewrite ES.
  destruct (Z.eqb_spec (size o) 0); [lia|]. cbn [orb]. destruct (Z.eqb_spec (size o - (size o mod k) mod min_bs o) 0) as [Z0|]; cbn [negb andb].
  - assert (1 * k <= size o / k * k) by (apply Z.mul_le_mono_nonneg_r; lia). lia.
  - destruct (Z.ltb_spec (size o - (size o mod k) mod min_bs o) (size o)); lia.
Qed.
(** With no more files than bytes in a block all of them are equal. *)
Theorem C57_equal o l ios rs sz n : plain_percent o -> size_low o = 0 -> 0 < Z.of_nat (List.length l) <= min_bs o -> Z.of_nat (List.length l) < 2 ^ 32 -> Z.of_nat (List.length l) <= size o -> size o + min_bs o < 2 ^ 64 -> setup o l = Some (ios, rs, sz, n) ->
  ios = repeat (size o / Z.of_nat (List.length l)) (List.length l).
Proof.
  intros P LO B N SZ FB H. destruct (C57_divide o l ios rs sz n P LO ltac:(lia) N ltac:(lia) FB H) as (E & _). rewrite E. pose proof (Z.mod_pos_bound (size o) (Z.of_nat (List.length l)) ltac:(lia)). rewrite (Z.div_small (size o mod _)) by lia. cbn [Z.to_nat repeat app]. rewrite Nat.sub_0_r. reflexivity.
Qed.
(** Without size= and filesize= all of every file is used. *)
Theorem C57_all o l ios rs sz n : plain_percent o -> size o = 0 -> size_low o = 0 -> 0 < min_bs o -> 0 < Z.of_nat (List.length l) < 2 ^ 32 -> setup o l = Some (ios, rs, sz, n) ->
  ios = map (fun f => real f - off f) l /\ Forall (fun f => off f <= real f) l /\ (total ios < 2 ^ 64 - 1 -> sz = total ios).
Proof.
  intros P S0 LO B N H. destruct (setup_inv o l ios rs sz n H) as (t & E & _ & ES & _). rewrite (share_size o) in E by lia. rewrite S0, Z.div_0_l, Z.mod_0_l, Z.div_0_l in E by lia. cbn [fst snd] in E.
  assert (G : forall l t ios t', set_sizes o 0 0 t l = Some (ios, t') -> ios = map (fun f => real f - off f) l /\ Forall (fun f => off f <= real f) l).
  { clear - P LO. induction l as [|f l IH]; intros t ios t' E; cbn [set_sizes] in E; [injection E as <- <-; split; [reflexivity|constructor]|]. unfold base_size in E. rewrite LO in E. cbn [Z.eqb] in E. destruct (Z.ltb_spec (real f) (off f)); [discriminate|]. cbn [fst snd] in E. rewrite (percent_none o _ _ P) in E.
    destruct (set_sizes o 0 0 _ l) as [[i2 t2]|] eqn:R; [|discriminate]. cbn [fst snd] in E. injection E as <- <-. destruct (IH _ _ _ R) as (-> & F). split; [|constructor; [lia|auto]]. cbn [map]. f_equal. destruct (_ =? m1ull); reflexivity. }
  destruct (G _ _ _ _ E) as (EI & F). split; [auto|]. split; [auto|]. intros L. rewrite ES, S0. cbn [Z.eqb orb]. rewrite (set_sizes_sum o 0 P _ _ _ _ _ E); try lia. rewrite EI. apply Forall_forall. intros x I. apply in_map_iff in I. destruct I as (f & <- & I). rewrite Forall_forall in F. specialize (F f I). cbv beta in F. lia.
Qed.
(** filesize= with one size: every file ends there. *)
Theorem C57_fixed o l ios rs sz n : plain_percent o -> 0 < size_low o < 2 ^ 64 - 1 -> size_high o = size_low o -> Forall (fun f => 0 <= off f <= size_low o) l -> setup o l = Some (ios, rs, sz, n) ->
  Forall2 (fun f io => off f + io = size_low o) l ios.
Proof.
  intros P LO HI F H. destruct (setup_inv o l ios rs sz n H) as (t & E & _). rewrite share_low in E by lia. cbn [fst snd] in E. pose proof (set_sizes_each o 0 _ _ _ _ _ E) as G. clear E H. induction G as [|f io l' ios' (e & x & e' & B & X) G IH]; constructor; [|apply IH; eapply Forall_inv_tail; eauto].
  pose proof (Forall_inv F) as F0. cbv beta in F0. rewrite (percent_none o _ _ P) in X. assert (EX : io = x) by (destruct (x =? m1ull); auto). clear X. subst io. unfold base_size in B. destruct (Z.eqb_spec (size_low o) 0); [lia|]. rewrite HI, Z.eqb_refl in B.
  destruct (Z.ltb_spec (size_low o) (off f)); [lia|]. destruct (Z.ltb_spec (real f) (size_low o)); cbn [orb] in B; [injection B as <- <-; lia|]. destruct (Z.ltb_spec (size_low o) (real f)); [injection B as <- <-; lia|]. injection B as <- <-. rewrite u64_id; lia.
Qed.
(** filesize= with a range: every file ends within it. *)
Theorem C57_range o l ios rs sz n : plain_percent o -> 0 < size_low o < size_high o -> size_high o < 2 ^ 53 -> 0 < min_bs o -> size_low o mod min_bs o = 0 -> Forall (fun f => 0 <= off f <= size_low o /\ usual_draw (rnd f)) l -> setup o l = Some (ios, rs, sz, n) ->
  Forall2 (fun f io => size_low o <= off f + io <= size_high o) l ios.
Proof.
  intros P LO HI B0 M F H. destruct (setup_inv o l ios rs sz n H) as (t & E & _). rewrite share_low in E by lia. cbn [fst snd] in E. pose proof (set_sizes_each o 0 _ _ _ _ _ E) as G. clear E H. induction G as [|f io l' ios' (e & x & e' & B & X) G IH]; constructor; [|apply IH; eapply Forall_inv_tail; eauto].
  pose proof (Forall_inv F) as F0. cbv beta in F0. destruct F0 as (F0 & D). rewrite (percent_none o _ _ P) in X. assert (EX : io = x) by (destruct (x =? m1ull); auto). clear X. subst io. unfold base_size in B. destruct (Z.eqb_spec (size_low o) 0); [lia|]. destruct (Z.eqb_spec (size_low o) (size_high o)); [lia|].
  pose proof (rand_size_range o (rnd f) D B0 LO HI M) as (R & _). destruct (Z.ltb_spec (size_low o) (off f)); [lia|]. destruct (Z.ltb_spec (real f) (size_low o)); cbn [orb] in B; [injection B as <- <-; rewrite u64_id; lia|]. destruct (Z.ltb_spec (size_high o) (real f)); injection B as <- <-; rewrite u64_id; lia.
Qed.
(** size= as a percentage of what is there: whole blocks, at most to the end, and less than a block below the percentage. *)
Theorem C57_percent o l ios rs sz n : 0 < size_percent o < 100 -> size o = 0 -> size_low o = 0 -> 0 < min_bs o -> 0 < Z.of_nat (List.length l) < 2 ^ 32 -> Forall (fun f => 0 <= off f /\ 0 <= real f /\ real f * 100 < 2 ^ 64) l -> setup o l = Some (ios, rs, sz, n) ->
  Forall2 (fun f io => let x := Z.min (real f - off f) (real f * size_percent o / 100) in 0 <= io <= x /\ x < io + min_bs o /\ io mod min_bs o = 0) l ios.
Proof.
  intros P S0 LO B0 N F H. destruct (setup_inv o l ios rs sz n H) as (t & E & _). rewrite (share_size o) in E by lia. rewrite S0, Z.div_0_l, Z.mod_0_l, Z.div_0_l in E by lia. cbn [fst snd] in E. clear H N.
  revert E F. generalize 0 at 3 as tt. intros tt E. revert tt t ios E. induction l as [|f l IH]; intros tt t ios E F; cbn [set_sizes] in E; [injection E as <- <-; constructor|].
  unfold base_size in E. rewrite LO in E. cbn [Z.eqb] in E. destruct (Z.ltb_spec (real f) (off f)); [discriminate|]. cbn [fst snd] in E. destruct (set_sizes o 0 0 _ l) as [[i2 t2]|] eqn:R; [|discriminate]. cbn [fst snd] in E. injection E as <- <-. constructor; [|eapply IH; [exact R|eapply Forall_inv_tail; eauto]].
  pose proof (Forall_inv F) as F0. cbv beta in F0. unfold m1ull. destruct (Z.eqb_spec (real f - off f) (2 ^ 64 - 1)); [lia|]. pose proof (percent_range o (real f - off f) (off f) ltac:(lia) B0 ltac:(lia) ltac:(lia)) as Q. replace (real f - off f + off f) with (real f) in Q by lia. apply Q; lia.
Qed.
(** After that every regular file has all of what it is used for, and none gets shorter. *)
Theorem C57_inside o l ios rs sz n : setup o l = Some (ios, rs, sz, n) ->
  Forall2 (fun p r => let '(f, io) := p in real f <= r /\ (regular f = true -> 0 <= io + off f < 2 ^ 64 -> io + off f <= r /\ (r = real f \/ r = io + off f)) /\ (regular f = false -> r = real f)) (combine l ios) rs.
Proof.
  intros H. destruct (setup_inv o l ios rs sz n H) as (t & _ & -> & _). clear H. induction (combine l ios) as [|[f io] c IH]; cbn [map]; constructor; auto. cbn [fst snd]. unfold laid_out. destruct (regular f); cbn [andb].
  - destruct (Z.ltb_spec (real f) (u64 (io + off f))); (split; [lia|split; [|discriminate]]); intros _ R; rewrite u64_id in * by lia; lia.
  - split; [lia|]. split; [discriminate|auto].
Qed.
(** There is at least a block to do, and io_size= or size= bytes are done in each loop. *)
Theorem C57_amount o l ios rs sz n : setup o l = Some (ios, rs, sz, n) -> min_bs o <= sz /\ List.length ios = List.length l /\ (0 <= (if io_size o =? 0 then sz else io_size o) * loops o < 2 ^ 64 -> n = (if io_size o =? 0 then sz else io_size o) * loops o) /\ (size o <> 0 -> sz <= size o).
Proof.
  intros H. destruct (setup_inv o l ios rs sz n H) as (t & E & _ & ES & B & EN). split; [auto|]. split; [pose proof (set_sizes_each _ _ _ _ _ _ _ E) as G; clear - G; induction G; cbn [List.length]; congruence|]. split; [intros R; rewrite EN; apply u64_id; lia|].
  intros NZ. rewrite ES. destruct (Z.eqb_spec (size o) 0); [contradiction|]. cbn [orb]. destruct (negb (t =? 0)); cbn [andb]; [|lia]. destruct (Z.ltb_spec t (size o)); lia.
Qed.
(** A start offset behind the file, or behind the smallest size, is an error. *)
Theorem C57_error o l f : In f l -> (size_low o = 0 /\ size o = 0 /\ 0 < min_bs o /\ Z.of_nat (List.length l) < 2 ^ 32 /\ real f < off f) \/ (0 < size_low o < off f /\ (real f < size_low o \/ size_high o < real f)) -> setup o l = None.
Proof.
  intros I C. destruct (setup o l) as [[[[ios rs] sz] n]|] eqn:H; [|reflexivity]. exfalso. destruct (setup_inv o l ios rs sz n H) as (t & E & _). destruct C as [(LO & S0 & B & N & R)|(LO & R)].
  - assert (0 < Z.of_nat (List.length l)) by (destruct l; [destruct I|cbn [List.length]; lia]). rewrite (share_size o) in E by lia. rewrite S0, Z.div_0_l, Z.mod_0_l, Z.div_0_l in E by lia. cbn [fst snd] in E.
    assert (G : forall l t, In f l -> set_sizes o 0 0 t l = None).
    { clear - LO R. induction l as [|g l IH]; intros t I; [destruct I|]. cbn [set_sizes]. unfold base_size. rewrite LO. cbn [Z.eqb]. destruct (Z.ltb_spec (real g) (off g)) as [|GE]; [reflexivity|]. destruct I as [->|I]; [lia|]. cbn [fst snd]. rewrite IH by auto. reflexivity. }
    rewrite G in E by auto. discriminate.
  - rewrite (set_sizes_error o _ f) in E; [discriminate| |auto]. intros e. unfold base_size. destruct (Z.eqb_spec (size_low o) 0); [lia|]. assert (T : (real f <? size_low o) || (size_high o <? real f) = true) by (apply orb_true_iff; rewrite !Z.ltb_lt; auto). rewrite T. destruct (Z.ltb_spec (size_low o) (off f)); [reflexivity|lia].
Qed.

(** Cases. *)
Definition KiB4 := 4096.
Example C57_ex_divide : setup (Fopts 40960 0 0 0 0 KiB4 0 2) [File 0 0 true (Taus true 0); File 0 4096 true (Taus true 0)] = Some ([20480; 20480], [20480; 24576], 40960, 81920).
Proof. vm_compute. reflexivity. Qed.
(** Ten files and blocks of two bytes: the first three get a block more, a byte is left. *)
Example C57_ex_more : exists rs, setup (Fopts 1027 0 0 0 0 2 0 1) (repeat (File 0 0 true (Taus true 0)) 10) = Some (repeat 104 3 ++ repeat 102 7, rs, 1026, 1026).
Proof. eexists. vm_compute. reflexivity. Qed.
Example C57_ex_all : setup (Fopts 0 0 0 0 0 KiB4 0 1) [File 8192 4096 true (Taus true 0); File 40960 0 false (Taus true 0)] = Some ([4096; 40960], [8192; 40960], 45056, 45056).
Proof. vm_compute. reflexivity. Qed.
Example C57_ex_fixed : setup (Fopts 0 16384 16384 0 0 KiB4 0 1) [File 0 4096 true (Taus true 0); File 16384 0 true (Taus true 0); File 65536 0 true (Taus true 0)] = Some ([12288; 16384; 16384], [16384; 16384; 65536], 45056, 45056).
Proof. vm_compute. reflexivity. Qed.
Example C57_ex_range : setup (Fopts 0 4096 65536 0 0 KiB4 0 1) [File 0 0 true (Taus true (2 ^ 63)); File 8192 4096 true (Taus true 0)] = Some ([32768; 4096], [32768; 8192], 36864, 36864).
Proof. vm_compute. reflexivity. Qed.
Example C57_ex_percent : setup (Fopts 0 0 0 30 0 KiB4 0 1) [File 100000 0 false (Taus true 0); File 100000 90000 false (Taus true 0)] = Some ([28672; 8192], [100000; 100000], 36864, 36864).
Proof. vm_compute. reflexivity. Qed.
Example C57_ex_error : setup (Fopts 0 0 0 0 0 KiB4 0 1) [File 8192 0 true (Taus true 0); File 4096 8192 true (Taus true 0)] = None.
Proof. vm_compute. reflexivity. Qed.

(** Not so: that files are whole blocks, or that nothing of size= is lost, when it is not a multiple. 10 MiB in three files. *)
Theorem C57_blocks_refuted : ~ (forall o l ios rs sz n, size o mod min_bs o = 0 -> size_low o = 0 -> plain_percent o -> setup o l = Some (ios, rs, sz, n) -> total ios = size o /\ Forall (fun io => io mod min_bs o = 0) ios).
Proof.
  intros H. specialize (H (Fopts 10485760 0 0 0 0 KiB4 0 1) (repeat (File 0 0 true (Taus true 0)) 3)). assert (P : plain_percent (Fopts 10485760 0 0 0 0 KiB4 0 1)) by (split; left; reflexivity). edestruct H as (T & _); [reflexivity|reflexivity|exact P|vm_compute; reflexivity|]. vm_compute in T. discriminate.
Qed.
(** Not so: that a range is kept when its lower end is not a multiple of the block size; the file may even be empty. *)
Theorem C57_range_refuted : ~ (forall o l ios rs sz n, plain_percent o -> 0 < size_low o < size_high o -> size_high o < 2 ^ 53 -> 0 < min_bs o -> Forall (fun f => off f = 0 /\ usual_draw (rnd f)) l -> setup o l = Some (ios, rs, sz, n) ->
  Forall (fun io => size_low o <= io) ios).
Proof.
  intros H. assert (P : plain_percent (Fopts 4096 1000 20000 0 0 KiB4 0 1)) by (split; left; reflexivity).
  pose proof (H _ [File 0 0 true (Taus true 0)] [0] [0] 4096 4096 P ltac:(cbn; lia) ltac:(cbn; lia) ltac:(cbn; unfold KiB4; lia) ltac:(constructor; [cbn; lia|constructor]) ltac:(vm_compute; reflexivity)) as F. apply Forall_inv in F. cbn in F. lia.
Qed.
(** Not so: that the size is then still below the upper end; with an offset it wraps. *)
Theorem C57_wrap_refuted : ~ (forall o l ios rs sz n, plain_percent o -> 0 < size_low o < size_high o -> size_high o < 2 ^ 53 -> 0 < min_bs o -> Forall (fun f => 0 <= off f <= size_low o /\ usual_draw (rnd f)) l -> setup o l = Some (ios, rs, sz, n) ->
  Forall (fun io => io <= size_high o) ios).
Proof.
  intros H. assert (P : plain_percent (Fopts 0 6000 20000 0 0 KiB4 0 1)) by (split; left; reflexivity).
  pose proof (H _ [File 0 5000 false (Taus true 0)] [2 ^ 64 - 904] [0] (2 ^ 64 - 904) (2 ^ 64 - 904) P ltac:(cbn; lia) ltac:(cbn; lia) ltac:(cbn; unfold KiB4; lia) ltac:(constructor; [cbn; lia|constructor]) ltac:(vm_compute; reflexivity)) as F. apply Forall_inv in F. cbn in F. lia.
Qed.
(** Not so: that an offset behind the end is an error when the file already has a size in the range. *)
Theorem C57_offset_refuted : ~ (forall o l f, In f l -> 0 < size_low o -> size_low o <= real f <= size_high o -> real f < off f -> setup o l = None).
Proof.
  intros H. pose proof (H (Fopts 0 4096 65536 0 0 KiB4 0 1) [File 8192 12288 true (Taus true 0)] _ (or_introl eq_refl) ltac:(cbn; lia) ltac:(cbn; lia) ltac:(cbn; lia)) as E. vm_compute in E. discriminate.
Qed.

Print Assumptions C57_divide. Print Assumptions C57_equal. Print Assumptions C57_all. Print Assumptions C57_fixed. Print Assumptions C57_range. Print Assumptions C57_percent. Print Assumptions C57_inside. Print Assumptions C57_amount. Print Assumptions C57_error.
Print Assumptions C57_blocks_refuted. Print Assumptions C57_range_refuted. Print Assumptions C57_wrap_refuted. Print Assumptions C57_offset_refuted.
