(** C48: write buffers have the size, the randomness, the compressible share and the duplicates that
    were asked for. *)
From Coq Require Import ZArith List Lia Bool Arith.
From Verif Require Import CBase Orbit RandModel PatternModel PatternSpec FillModel FillSpec FillProofs.
Import ListNotations.
Open Scope Z_scope.

(** ** Random data *)

(** A random buffer is exactly as long as asked, for every length. *)
Theorem C48_random_length B len x : (1 <= B <= 16)%nat -> length (fill_random B len x) = len.
Proof. apply fill_random_len. Qed.

(** Each of its words is the seed times the prime of the bucket times a power of the golden ratio;
    the last bytes begin the next word. *)
Theorem C48_random_words B len x : (1 <= B <= 16)%nat -> 0 <= x < 2 ^ 64 ->
  fill_random B len x = bytes_of_words (map (word B len x) (seq 0 (len / 8))) ++
                        firstn (len mod 8) (le_bytes 8 (word B len x (len / 8))).
Proof. apply fill_random_spec. Qed.

(** Buffers of different seeds differ, already in the first eight bytes. *)
Theorem C48_random_seed B la lb a b : (1 <= B <= 16)%nat -> (8 <= la)%nat -> (8 <= lb)%nat -> 0 <= a < 2 ^ 64 -> 0 <= b < 2 ^ 64 -> a <> b ->
  firstn 8 (fill_random B la a) <> firstn 8 (fill_random B lb b).
Proof.
  intros HB La Lb Ha Hb N E. apply N.
  assert (F : forall l x, (8 <= l)%nat -> 0 <= x < 2 ^ 64 -> firstn 8 (fill_random B l x) = le_bytes 8 x).
  { intros l x Hl Hx. rewrite fill_random_spec by assumption.
    assert (D : (1 <= l / 8)%nat) by (apply Nat.div_le_lower_bound; lia).
    replace (l / 8)%nat with (S (l / 8 - 1)) at 1 by lia. cbn [seq map]. unfold bytes_of_words. cbn [flat_map].
    rewrite <- !app_assoc, firstn_app, le_len, Nat.sub_diag. rewrite firstn_all2 by (rewrite le_len; lia).
    cbn [firstn]. rewrite app_nil_r. f_equal. unfold word.
    destruct (Nat.ltb_spec 0 (l / 8 / B * B)).
    - rewrite Nat.mod_0_l, Nat.div_0_l by lia. change (nth 0 primes 0) with 1. simpl Z.of_nat. rewrite Z.pow_0_r, !Z.mul_1_r.
      now apply Z.mod_small.
    - replace (l / 8 / B + (0 - l / 8 / B * B))%nat with 0%nat by nia. simpl Z.of_nat. rewrite Z.pow_0_r, Z.mul_1_r.
      now apply Z.mod_small. }
  rewrite !F in E by assumption. apply (le_inj 8); auto.
Qed.

(** The words of one bucket do not come back for 2^(62-k) rounds, where 2^k is the power of two in
    seed times prime. *)
Theorem C48_random_fresh B len x i j k o : (1 <= B <= 16)%nat -> 
  (i < j)%nat -> (j < len / 8 / B * B)%nat -> (i mod B = j mod B)%nat ->
  x * nth (i mod B) primes 0 = 2 ^ k * o -> Z.odd o = true -> 0 <= k <= 61 ->
  Z.of_nat (j / B - i / B) < 2 ^ (62 - k) ->
  word B len x i <> word B len x j.
Proof.
  intros HB Hij Hj HM Hx Ho Hk Hd. unfold word.
  destruct (Nat.ltb_spec i (len / 8 / B * B)); [|lia]. destruct (Nat.ltb_spec j (len / 8 / B * B)); [|lia].
  rewrite <- HM. fold (gpow (x * nth (i mod B) primes 0) (i / B)). fold (gpow (x * nth (i mod B) primes 0) (j / B)).
  apply (gpow_distinct _ k o); auto.
  pose proof (Nat.div_mod i B ltac:(lia)). pose proof (Nat.div_mod j B ltac:(lia)). nia.
Qed.

(** A seed of zero gives a buffer of zeros. *)
Theorem C48_random_zero B len : (1 <= B <= 16)%nat -> fill_random B len 0 = repeat 0 len.
Proof.
  intros HB. rewrite fill_random_spec by lia.
  assert (W : forall i, word B len 0 i = 0) by (intros i; unfold word; destruct (_ <? _)%nat; reflexivity).
  rewrite W. rewrite (map_ext _ (fun _ => 0)) by (intros; apply W).
  assert (L8 : le_bytes 8 0 = repeat 0 8) by reflexivity. rewrite L8.
  assert (FR : forall n m, (n <= m)%nat -> firstn n (repeat 0 m) = repeat 0 n).
  { intros n m H. replace m with (n + (m - n))%nat by lia. rewrite repeat_app, firstn_app, repeat_length, Nat.sub_diag.
    rewrite firstn_all2 by (rewrite repeat_length; lia). cbn [firstn]. apply app_nil_r. }
  pose proof (Nat.mod_upper_bound len 8 ltac:(lia)). rewrite FR by lia.
  assert (BW : forall l : list nat, bytes_of_words (map (fun _ => 0) l) = repeat 0 (8 * length l)).
  { induction l as [|y l IH]; [reflexivity|]. unfold bytes_of_words in *. cbn [map flat_map length]. rewrite IH, L8, <- repeat_app.
    f_equal. lia. }
  rewrite BW, seq_length, <- repeat_app. f_equal. pose proof (Nat.div_mod len 8 ltac:(lia)). lia.
Qed.

(** ** Compressible data *)

(** Filling ends and fills the whole buffer, for every percentage, segment and length. *)
Theorem C48_share_length B x p segment len pat : (1 <= B <= 16)%nat -> (1 <= segment)%nat ->
  exists l, fill_perc (S len) B x p segment len pat = Some l /\ length l = len.
Proof.
  intros HB HS. unfold fill_perc. destruct (Nat.eqb_spec p 100); [eexists; split; [reflexivity|apply soft_len]|].
  destruct len as [|len]; [now exists []|]. apply perc_loop_ok; auto; lia.
Qed.

(** A piece is random data followed by data that compresses, which is the share asked for, rounded
    up to a byte. *)
Theorem C48_share c x n : (1 <= buckets c <= 16)%nat -> (cperc c <= 100)%nat -> (1 <= n)%nat ->
  exists r h, fill_perc (S n) (buckets c) x (cperc c) n n (pattern c) = Some (fill_random (buckets c) r x ++ soft (pattern c) h) /\
    (r + h = n)%nat /\ (n * cperc c <= 100 * h < n * cperc c + 100)%nat.
Proof.
  intros HB HP HN. exists (n * (100 - cperc c) / 100)%nat, (n - n * (100 - cperc c) / 100)%nat.
  split; [now apply fill_perc_one|].
  assert (T : (n * (100 - cperc c) / 100 <= n)%nat) by (apply Nat.div_le_upper_bound; nia).
  pose proof (Nat.div_mod (n * (100 - cperc c)) 100 ltac:(lia)). pose proof (Nat.mod_upper_bound (n * (100 - cperc c)) 100 ltac:(lia)).
  nia.
Qed.

(** The compressible bytes are zeros, or the pattern over and over. *)
Theorem C48_share_soft pat n i : (i < n)%nat ->
  nth_error (soft pat n) i = Some (if (length pat =? 0)%nat then 0 else nth (i mod length pat) pat 0).
Proof.
  intros H. unfold soft. destruct (Nat.eqb_spec (length pat) 0).
  - assert (E : nth_error (repeat 0 n) i <> None) by (apply nth_error_Some; now rewrite repeat_length).
    destruct (nth_error (repeat 0 n) i) as [z|] eqn:EN; [|congruence]. apply nth_error_In, repeat_spec in EN. now subst.
  - rewrite nth_error_map, (nth_error_nth' _ 0%nat) by now rewrite seq_length.
    rewrite seq_nth by assumption. reflexivity.
Qed.

(** A segment of zero bytes is never done with. *)
Theorem C48_share_endless_refuted B x p len pat fuel : (p < 100)%nat -> (8 < len)%nat ->
  fill_perc fuel B x p 0 len pat = None.
Proof.
  intros HP HL. unfold fill_perc. destruct (Nat.eqb_spec p 100); [lia|]. rewrite Nat.min_0_l.
  induction fuel as [|fuel IH]; [reflexivity|]. cbn [perc_loop].
  destruct (Nat.eqb_spec len 0); [lia|].
  replace (0 * (100 - p) / 100)%nat with 0%nat by (rewrite Nat.mul_0_l; reflexivity).
  rewrite Nat.min_0_l, Nat.sub_0_r. destruct (Nat.eqb_spec len 0); [lia|].
  destruct (Nat.ltb_spec len (0 - 0)); [lia|]. destruct (Nat.leb_spec (len - (0 - 0)) 8); [lia|].
  rewrite !Nat.sub_0_r. now rewrite IH.
Qed.

(** ** Buffers of a job *)

(** Without compression and duplicates a buffer is random throughout, each with the next seed. *)
Theorem C48_plain c s v i minw len : cperc c = 0%nat -> dperc c = 0%nat ->
  fill_io c s v i minw len =
    Some (fill_random (buckets c) len (fst (next_seed (bst s))), St (advance 1 (bst s)) (prev s) (wset s)).
Proof.
  intros HC HD. unfold fill_io, get_buf_state. rewrite HC, HD. cbn [Nat.eqb andb]. unfold draw. rewrite advance_1.
  destruct (next_seed (bst s)). reflexivity.
Qed.

(** Every run of buffers is made, each exactly as long as asked. *)
Theorem C48_filled c minw len s vs : (1 <= buckets c <= 16)%nat -> (cperc c <= 100)%nat -> (1 <= minw)%nat -> (1 <= len)%nat ->
  (cperc c <> 0 \/ dperc c <> 0)%nat ->
  (dmode c = WorkingSet -> Forall (fun x => (snd x < length (wset s))%nat) vs) ->
  exists bs s', fill_all c s minw len vs = Some (bs, s') /\ length bs = length vs /\ Forall (fun b => length b = len) bs.
Proof.
  intros HB HP HM HL HD HW. destruct (fill_all_total c minw len HP HM HL HD vs s HW) as (bs & s' & E & L).
  exists bs, s'. split; [exact E|]. split; [exact L|]. clear HW L. revert s bs s' E.
  induction vs as [|[v i] vs IH]; intros s bs s' E; cbn [fill_all] in E; [injection E as <- <-; constructor|].
  destruct (get_buf_state c s v i) as [[r s1]|] eqn:EG; [|unfold fill_io in E; rewrite EG in E; discriminate].
  rewrite (fill_io_ok c s v i minw len r s1) in E by assumption.
  destruct (fill_all c _ minw len vs) as [[l s3]|] eqn:EF; [|discriminate]. injection E as <- <-.
  constructor; [|exact (IH _ _ _ EF)]. apply page_loop_len; auto. now apply mnz_pos.
Qed.

(** Compression without duplicates: every buffer takes new seeds. *)
Theorem C48_compressed c s v i minw len : (0 < cperc c <= 100)%nat -> dperc c = 0%nat -> (1 <= minw)%nat -> (1 <= len)%nat ->
  exists s', fill_io c s v i minw len = Some (unique c (bst s) minw len 0, s') /\
    bst s' = advance (pieces (quantum c minw) len) (bst s).
Proof.
  intros HP HD HM HL. rewrite (fill_io_ok c s v i minw len Main s); auto; try lia.
  2:{ unfold get_buf_state. now rewrite HD. }
  eexists. unfold freshness, after_fill. rewrite HD. cbn [Nat.eqb]. split; reflexivity.
Qed.

(** Duplicates of the previous buffer: the buffer number j is the unique buffer whose number is that
    of the unique buffers before it; so a duplicate is equal to the next unique one. *)
Theorem C48_repeat c f w minw len vs bs s' j x b : (cperc c <= 100)%nat -> (1 <= minw)%nat -> (1 <= len)%nat ->
  (0 < dperc c < 100)%nat -> dmode c = Repeat ->
  fill_all c (init_st f w) minw len vs = Some (bs, s') -> nth_error vs j = Some x -> nth_error bs j = Some b ->
  b = unique c f minw len (fresh_count c (firstn j vs)).
Proof.
  intros HP HM HL HD HR H Hx Hb.
  pose proof (fill_all_ok c f minw len w HP HM HL HD ltac:(rewrite HR; discriminate) vs [] (init_st f w) bs s' eq_refl eq_refl eq_refl H j x b Hx Hb) as E.
  unfold twin in E. rewrite HR in E. cbn [app] in E. destruct (_ <=? _)%nat; exact E.
Qed.

(** There are no more different buffers than unique ones, and one. *)
Theorem C48_repeat_count c f w minw len vs bs s' : (cperc c <= 100)%nat -> (1 <= minw)%nat -> (1 <= len)%nat ->
  (0 < dperc c < 100)%nat -> dmode c = Repeat ->
  fill_all c (init_st f w) minw len vs = Some (bs, s') ->
  forall l, NoDup l -> incl l bs -> (length l <= S (fresh_count c vs))%nat.
Proof.
  intros HP HM HL HD HR H l ND IL.
  assert (LE : length bs = length vs).
  { destruct (fill_all_total c minw len HP HM HL ltac:(lia) vs (init_st f w)) as (bs2 & s2 & E & L); [rewrite HR; discriminate|].
    rewrite H in E. now injection E as -> ->. }
  assert (I : incl l (map (unique c f minw len) (seq 0 (S (fresh_count c vs))))).
  { intros b Ib. apply IL in Ib. apply In_nth_error in Ib. destruct Ib as (j & Hj).
    destruct (nth_error vs j) as [x|] eqn:EX.
    2:{ apply nth_error_None in EX. assert (j < length bs)%nat by (apply nth_error_Some; congruence). lia. }
    rewrite (C48_repeat c f w minw len vs bs s' j x b HP HM HL HD HR H EX Hj). apply in_map, in_seq.
    assert (C : (fresh_count c (firstn j vs) <= fresh_count c vs)%nat).
    { rewrite <- (firstn_skipn j vs) at 2. unfold fresh_count. rewrite filter_app, app_length. lia. }
    lia. }
  pose proof (NoDup_incl_length ND I) as N. now rewrite map_length, seq_length in N.
Qed.

(** When everything is a duplicate all the buffers are equal. *)
Theorem C48_all_same c minw len vs s bs s' : (cperc c <= 100)%nat -> (1 <= minw)%nat -> (1 <= len)%nat ->
  dperc c = 100%nat -> fill_all c s minw len vs = Some (bs, s') ->
  Forall (fun b => b = page 0 c (bst s) (quantum c minw) len) bs.
Proof.
  intros HP HM HL HD. revert s bs s'. induction vs as [|[v i] vs IH]; intros s bs s' H; cbn [fill_all] in H.
  { injection H as <- <-. constructor. }
  rewrite (fill_io_ok c s v i minw len Main (St (bst s) (bst s) (wset s))) in H; auto; try lia.
  2:{ unfold get_buf_state. now rewrite HD. }
  unfold freshness, after_fill in H. rewrite HD in H. cbn [Nat.eqb source bst] in H.
  destruct (fill_all c _ minw len vs) as [[l s3]|] eqn:EF; [|discriminate]. injection H as <- <-.
  constructor; [reflexivity|]. exact (IH _ _ _ EF).
Qed.

(** ** Working sets *)

(** The working set has the number of pages of its share, and its page [i] is where the unique buffer
    [i] starts, when the compression chunk divides the block. *)
Theorem C48_set f c minbs size perc w : (1 <= minbs)%nat ->
  (minbs mod quantum c minbs = 0)%nat ->
  working_set f minbs (cchunk c) size perc = Some w ->
  length w = (size * perc / 100 / minbs)%nat /\
  forall i, (i < length w)%nat -> nth_error w i = Some (advance (i * pieces (quantum c minbs) minbs) f).
Proof.
  intros HM HD H. apply working_set_spec in H. destruct H as (L & N). split; [exact L|]. intros i Hi. rewrite (N i Hi).
  fold (quantum c minbs). do 2 f_equal. f_equal. unfold pieces.
  assert (Q : (1 <= quantum c minbs)%nat) by now apply mnz_pos.
  pose proof (Nat.div_mod minbs (quantum c minbs) ltac:(lia)) as DM. rewrite HD, Nat.add_0_r in DM.
  apply Nat.div_unique with (r := (quantum c minbs - 1)%nat); lia.
Qed.

(** Then each duplicate is the unique buffer of its page, and the unique ones are numbered on. *)
Theorem C48_working_set c f minbs size perc w vs bs s' j v i b : (cperc c <= 100)%nat -> (1 <= minbs)%nat ->
  (0 < dperc c < 100)%nat -> dmode c = WorkingSet -> (minbs mod quantum c minbs = 0)%nat ->
  working_set f minbs (cchunk c) size perc = Some w ->
  fill_all c (init_st f w) minbs minbs vs = Some (bs, s') -> nth_error vs j = Some (v, i) -> nth_error bs j = Some b ->
  b = unique c f minbs minbs (if (v <=? dperc c)%nat then i else fresh_count c (firstn j vs)).
Proof.
  intros HP HM HD HR HQ HW H Hx Hb.
  assert (T : true_set c f minbs minbs w).
  { destruct (C48_set f c minbs size perc w HM HQ HW) as (L & N). intros k g Hg.
    assert (k < length w)%nat by (apply nth_error_Some; congruence). rewrite N in Hg by assumption. congruence. }
  pose proof (fill_all_ok c f minbs minbs w HP HM HM HD (fun _ => T) vs [] (init_st f w) bs s' eq_refl eq_refl eq_refl H j (v, i) b Hx Hb) as E.
  unfold twin in E. rewrite HR in E. exact E.
Qed.

(** A chunk that does not divide the block: the pages of the working set are one seed short each. *)
Theorem C48_set_refuted f c minbs size perc w i : (1 <= minbs)%nat ->
  (minbs mod quantum c minbs <> 0)%nat ->
  working_set f minbs (cchunk c) size perc = Some w -> (i < length w)%nat ->
  nth_error w i = Some (advance (i * (pieces (quantum c minbs) minbs - 1)) f).
Proof.
  intros HM HD H Hi. apply working_set_spec in H. destruct H as (L & N). rewrite (N i Hi).
  fold (quantum c minbs). do 2 f_equal. f_equal. unfold pieces.
  assert (Q : (1 <= quantum c minbs)%nat) by now apply mnz_pos.
  pose proof (Nat.div_mod minbs (quantum c minbs) ltac:(lia)) as DM.
  pose proof (Nat.mod_upper_bound minbs (quantum c minbs) ltac:(lia)) as MB.
  assert (E : ((minbs + quantum c minbs - 1) / quantum c minbs = minbs / quantum c minbs + 1)%nat).
  { symmetry. apply Nat.div_unique with (r := (minbs mod quantum c minbs - 1)%nat); lia. }
  lia.
Qed.

(** A working set of less than one page has no page, but its first is written. *)
Theorem C48_set_empty_refuted f minbs chunk size perc : (1 <= minbs)%nat -> (size * perc / 100 < minbs)%nat ->
  working_set f minbs chunk size perc = None.
Proof. intros HM H. unfold working_set. now rewrite Nat.div_small by assumption. Qed.

(** ** Cases *)

Definition f0 : frand := F64 (init64 42).
Definition f1 : frand := F32 (init32 42).
Definition c_rep : cfg := Cfg 4 25 16 30 Repeat [].
Definition c_set : cfg := Cfg 4 50 16 30 WorkingSet [1; 2; 3].

Example ex_random : firstn 16 (fill_random 4 100 5) = le_bytes 8 5 ++ le_bytes 8 10 /\ length (fill_random 4 100 5) = 100%nat.
Proof. vm_compute. split; reflexivity. Qed.

Example ex_fresh : word 4 4096 (2 ^ 3 * 5) 5 <> word 4 4096 (2 ^ 3 * 5) 505.
Proof.
  apply (C48_random_fresh 4 4096 (2 ^ 3 * 5) 5 505 4 5); try lia; try reflexivity.
  - vm_compute. lia.
Qed.

(** A run with duplicates: draws below and above the percentage. *)
Example ex_repeat : exists b0 b1 b2 b3 s',
  fill_all c_rep (init_st f0 []) 64 40 [(50, 0); (20, 0); (10, 0); (99, 0)]%nat = Some ([b0; b1; b2; b3], s') /\
  b1 = b2 /\ b2 = b3 /\ b0 <> b1 /\ length b0 = 40%nat.
Proof. vm_compute. eexists _, _, _, _, _. split; [reflexivity|]. repeat split; try reflexivity. discriminate. Qed.

(** The buffers of a job with a working set, after which of them are equal. *)
Definition set_case (minbs : nat) (vs : list (nat * nat)) : option (nat * list (list bool)) :=
  match working_set f1 minbs 16 1024 13 with
  | None => None
  | Some w =>
    match fill_all c_set (init_st f1 w) minbs minbs vs with
    | None => None
    | Some (bs, _) => Some (length w, map (fun a => map (fun b => if list_eq_dec Z.eq_dec a b then true else false) bs) bs)
    end
  end.

(** A working set of four pages of 32 bytes in two pieces: the third buffer is equal to the second. *)
Example ex_set : set_case 32 [(50, 0); (80, 0); (3, 1)]%nat =
  Some (4%nat, [[true; false; false]; [false; true; true]; [false; true; true]]).
Proof. vm_compute. reflexivity. Qed.

(** With blocks of 40 bytes in three pieces the duplicate of page 1 is no unique buffer. *)
Example ex_set_refuted : set_case 40 [(50, 0); (80, 0); (81, 0); (3, 1)]%nat =
  Some (3%nat, [[true; false; false; false]; [false; true; false; false]; [false; false; true; false]; [false; false; false; true]]).
Proof. vm_compute. reflexivity. Qed.

Example ex_all_same : exists b s', fill_all (Cfg 4 50 0 100 Repeat []) (init_st f0 []) 32 32 [(1, 0); (100, 0)]%nat = Some ([b; b], s').
Proof. vm_compute. eexists _, _. reflexivity. Qed.

Print Assumptions C48_random_words.
Print Assumptions C48_random_seed.
Print Assumptions C48_random_fresh.
Print Assumptions C48_share.
Print Assumptions C48_filled.
Print Assumptions C48_repeat_count.
Print Assumptions C48_all_same.
Print Assumptions C48_working_set.
Print Assumptions C48_set_refuted.
