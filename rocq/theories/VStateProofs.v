(** Proofs about the verify state: layout of the saved bytes, acceptance of files, and the decisions. *)
From Coq Require Import ZArith List Bool Lia Sorted Permutation.
From Verif Require Import CBase Mem CStr CrcModel CrcSpec CrcProofs CrcProps DigestModel DigestSpec DigestProofs VerifyModel VerifySpec VerifyCsum VerifyProofs VStateModel VStateSpec.
Import ListNotations.
Open Scope Z_scope.
Notation le_bytes := DigestModel.le_bytes.

Lemma flat8_len (l : list Z) : length (flat_map (le_bytes 8) l) = (8 * length l)%nat.
Proof. induction l as [|x l IH]; auto. cbn [flat_map]. rewrite app_length, le_bytes_len, IH. cbn [length]. lia. Qed.
Lemma flat4_len (l : list Z) : length (flat_map (le_bytes 4) l) = (4 * length l)%nat.
Proof. induction l as [|x l IH]; auto. cbn [flat_map]. rewrite app_length, le_bytes_len, IH. cbn [length]. lia. Qed.

Lemma put64s_ok : forall vs x y z, length y = (8 * length vs)%nat -> put64s (x ++ y ++ z) (zlen x) vs = Some (x ++ flat_map (le_bytes 8) vs ++ z).
Proof.
  induction vs as [|v vs IH]; intros x y z L.
  - destruct y; [reflexivity|cbn in L; lia].
  - cbn [put64s flat_map]. rewrite (wr_eq _ x (firstn 8 y) (skipn 8 y ++ z)).
    + replace (x ++ le_bytes 8 v ++ skipn 8 y ++ z) with ((x ++ le_bytes 8 v) ++ skipn 8 y ++ z) by (rewrite <- app_assoc; auto).
      replace (zlen x + 8) with (zlen (x ++ le_bytes 8 v)) by (rewrite zlen_app; unfold zlen at 2; rewrite le_bytes_len; auto).
      rewrite IH by (rewrite skipn_length; cbn [length] in L; lia). rewrite <- !app_assoc. reflexivity.
    + rewrite (app_assoc (firstn 8 y)), firstn_skipn. reflexivity.
    + reflexivity.
    + rewrite le_bytes_len, firstn_length_le; cbn [length] in L; lia.
Qed.
Lemma put32s_ok : forall vs x y z, length y = (4 * length vs)%nat -> put32s (x ++ y ++ z) (zlen x) vs = Some (x ++ flat_map (le_bytes 4) vs ++ z).
Proof.
  induction vs as [|v vs IH]; intros x y z L.
  - destruct y; [reflexivity|cbn in L; lia].
  - cbn [put32s flat_map]. rewrite (wr_eq _ x (firstn 4 y) (skipn 4 y ++ z)).
    + replace (x ++ le_bytes 4 v ++ skipn 4 y ++ z) with ((x ++ le_bytes 4 v) ++ skipn 4 y ++ z) by (rewrite <- app_assoc; auto).
      replace (zlen x + 4) with (zlen (x ++ le_bytes 4 v)) by (rewrite zlen_app; unfold zlen at 2; rewrite le_bytes_len; auto).
      rewrite IH by (rewrite skipn_length; cbn [length] in L; lia). rewrite <- !app_assoc. reflexivity.
    + rewrite (app_assoc (firstn 4 y)), firstn_skipn. reflexivity.
    + reflexivity.
    + rewrite le_bytes_len, firstn_length_le; cbn [length] in L; lia.
Qed.

Lemma word8 v : 0 <= v < 2 ^ 64 -> le_word (le_bytes 8 v) = v.
Proof. intros H. rewrite word_bytes. apply Z.mod_small. exact H. Qed.
Lemma word4 v : 0 <= v < 2 ^ 32 -> le_word (le_bytes 4 v) = v.
Proof. intros H. rewrite word_bytes. apply Z.mod_small. exact H. Qed.

Lemma get64s_ok : forall vs buf p x z, buf = x ++ flat_map (le_bytes 8) vs ++ z -> p = zlen x -> u64s vs -> get64s (length vs) buf p = Some vs.
Proof.
  induction vs as [|v vs IH]; intros buf p x z -> -> H; [reflexivity|]. inversion H; subst. cbn [get64s length flat_map].
  rewrite (rd_eq _ x (le_bytes 8 v) (flat_map (le_bytes 8) vs ++ z)); [|rewrite <- !app_assoc; reflexivity|reflexivity|unfold zlen; rewrite le_bytes_len; reflexivity].
  erewrite (IH _ _ (x ++ le_bytes 8 v) z); [rewrite word8 by auto; reflexivity| | |auto].
  - rewrite <- !app_assoc. reflexivity.
  - rewrite zlen_app. unfold zlen at 3. rewrite le_bytes_len. reflexivity.
Qed.
Lemma get32s_ok : forall vs buf p x z, buf = x ++ flat_map (le_bytes 4) vs ++ z -> p = zlen x -> Forall (fun n => 0 <= n < 2 ^ 32) vs -> get32s (length vs) buf p = Some vs.
Proof.
  induction vs as [|v vs IH]; intros buf p x z -> -> H; [reflexivity|]. inversion H; subst. cbn [get32s length flat_map].
  rewrite (rd_eq _ x (le_bytes 4 v) (flat_map (le_bytes 4) vs ++ z)); [|rewrite <- !app_assoc; reflexivity|reflexivity|unfold zlen; rewrite le_bytes_len; reflexivity].
  erewrite (IH _ _ (x ++ le_bytes 4 v) z); [rewrite word4 by auto; reflexivity| | |auto].
  - rewrite <- !app_assoc. reflexivity.
  - rewrite zlen_app. unfold zlen at 3. rewrite le_bytes_len. reflexivity.
Qed.

(** ** The image of a job's state *)
Definition rand_bytes (r : rstate) : list Z :=
  match r with R64 a b c d e => flat_map (le_bytes 8) [a; b; c; d; e; 0] | R32 a b c => flat_map (le_bytes 4) [a; b; c; 0] ++ repeat 0 32 end.
Definition use64 (r : rstate) : Z := fst (stored_rand r).
Definition name_bytes (j : job) : list Z := firstn 63 (j_name j) ++ [0] ++ repeat 0 (63 - length (firstn 63 (j_name j))).
Definition image (idx : Z) (j : job) : list Z :=
  le_bytes 4 (total_depth j) ++ repeat 0 4 ++ le_bytes 8 (limit j) ++ le_bytes 8 idx ++ le_bytes 8 (use64 (j_rand j)) ++ rand_bytes (j_rand j) ++
  name_bytes j ++ flat_map (le_bytes 8) (slots j ++ j_failed j).

Lemma rand_bytes_len r : length (rand_bytes r) = 48%nat.
Proof. destruct r; reflexivity. Qed.
Lemma name_bytes_len j : length (name_bytes j) = 64%nat.
Proof. unfold name_bytes. rewrite !app_length, repeat_length. cbn [length]. pose proof (firstn_le_length 63 (j_name j)). lia. Qed.
Lemma depth_ok j : job_ok j -> total_depth j = j_iodepth j + zlen (j_failed j) /\ 0 <= total_depth j < 2 ^ 32.
Proof.
  intros (H1 & _ & H3 & H4 & _). pose proof (zlen_nonneg (j_failed j)). unfold total_depth, u32. assert (j_iodepth j + zlen (j_failed j) < 2 ^ 32) by nia.
  rewrite Z.mod_small by lia. lia.
Qed.
Lemma image_len idx j : job_ok j -> zlen (image idx j) = til_sz (total_depth j).
Proof.
  intros H. destruct (depth_ok j H) as [D _]. destruct H as (H1 & H2 & _). unfold image, til_sz, TIL. rewrite D.
  rewrite !zlen_app. unfold zlen in *. rewrite !le_bytes_len, rand_bytes_len, name_bytes_len, flat8_len, repeat_length, app_length. lia.
Qed.

Ltac lens := rewrite ?zlen_app; unfold zlen; rewrite ?repeat_length, ?le_bytes_len, ?rand_bytes_len, ?name_bytes_len, ?flat8_len, ?flat4_len; cbn [length]; lia.
Ltac assoc := rewrite <- ?app_assoc; reflexivity.

Lemma repeat_split {A} (a : A) n m k : k = (n + m)%nat -> repeat a k = repeat a n ++ repeat a m.
Proof. intros ->. apply repeat_app. Qed.

Lemma fill_state_ok idx j x z : job_ok j ->
  fill_state (x ++ repeat 0 (Z.to_nat (til_sz (total_depth j))) ++ z) (zlen x) idx j = Some (x ++ image idx j ++ z).
Proof.
  intros H. destruct (depth_ok j H) as [D DR]. pose proof H as (H1 & H2 & _). unfold til_sz, TIL.
  set (NI := (8 * Z.to_nat (j_iodepth j))%nat). set (NF := (8 * length (j_failed j))%nat).
  assert (EZ : repeat 0 (Z.to_nat (144 + total_depth j * 8)) = repeat 0 4 ++ repeat 0 4 ++ repeat 0 8 ++ repeat 0 8 ++ repeat 0 8 ++ repeat 0 48 ++ repeat 0 64 ++ repeat 0 NI ++ repeat 0 NF).
  { rewrite <- !repeat_app. f_equal. unfold NI, NF, zlen in *. lia. }
  rewrite EZ. clear EZ. unfold fill_state.
  (* slots *)
  assert (E1 : exists ib, length ib = NI /\ ib = flat_map (le_bytes 8) (slots j) /\
     (match j_inflight j with None => Some (x ++ (repeat 0 4 ++ repeat 0 4 ++ repeat 0 8 ++ repeat 0 8 ++ repeat 0 8 ++ repeat 0 48 ++ repeat 0 64 ++ repeat 0 NI ++ repeat 0 NF) ++ z)
      | Some l => do l <- slice l 0 (Z.to_nat (j_iodepth j)); put64s (x ++ (repeat 0 4 ++ repeat 0 4 ++ repeat 0 8 ++ repeat 0 8 ++ repeat 0 8 ++ repeat 0 48 ++ repeat 0 64 ++ repeat 0 NI ++ repeat 0 NF) ++ z) (zlen x + 144) l end)
     = Some ((x ++ (repeat 0 4 ++ repeat 0 4 ++ repeat 0 8 ++ repeat 0 8 ++ repeat 0 8 ++ repeat 0 48 ++ repeat 0 64)) ++ ib ++ (repeat 0 NF ++ z))).
  { exists (flat_map (le_bytes 8) (slots j)). split; [rewrite flat8_len; unfold NI, zlen in *; lia|]. split; auto. unfold slots in *. destruct (j_inflight j) as [l|].
    - rewrite slice_some by (unfold zlen in *; lia). rewrite firstn_all2 by (cbn [skipn]; unfold zlen in *; lia). cbn [skipn].
      rewrite <- (put64s_ok l _ (repeat 0 NI)) by (rewrite repeat_length; unfold NI, zlen in *; lia). f_equal; [assoc|lens].
    - f_equal. replace (flat_map (le_bytes 8) (repeat 0 (Z.to_nat (j_iodepth j)))) with (repeat 0 NI); [assoc|]. unfold NI. clear.
      induction (Z.to_nat (j_iodepth j)) as [|n IH]; auto. rewrite (repeat_split 0 8 (8 * n)) by lia. cbn [repeat flat_map]. rewrite <- IH. reflexivity. }
  destruct E1 as (ib & LI & EI & ->).
  rewrite (wr_eq _ (x ++ repeat 0 4 ++ repeat 0 4) (repeat 0 8) (repeat 0 8 ++ repeat 0 8 ++ repeat 0 48 ++ repeat 0 64 ++ ib ++ repeat 0 NF ++ z)); [|assoc|lens|rewrite le_bytes_len; reflexivity].
  replace (zlen x + 144 + 8 * j_iodepth j) with (zlen (x ++ repeat 0 4 ++ repeat 0 4 ++ le_bytes 8 (limit j) ++ repeat 0 8 ++ repeat 0 8 ++ repeat 0 48 ++ repeat 0 64 ++ ib)) by (rewrite !zlen_app; unfold zlen; rewrite !repeat_length, le_bytes_len, LI; unfold NI; lia).
  match goal with |- context [put64s ?b _ _] => replace b with ((x ++ repeat 0 4 ++ repeat 0 4 ++ le_bytes 8 (limit j) ++ repeat 0 8 ++ repeat 0 8 ++ repeat 0 48 ++ repeat 0 64 ++ ib) ++ repeat 0 NF ++ z) by assoc end.
  rewrite put64s_ok by (rewrite repeat_length; reflexivity).
  set (fb := flat_map (le_bytes 8) (j_failed j)).
  rewrite (wr_eq _ x (repeat 0 4) (repeat 0 4 ++ le_bytes 8 (limit j) ++ repeat 0 8 ++ repeat 0 8 ++ repeat 0 48 ++ repeat 0 64 ++ ib ++ fb ++ z)); [|assoc|lens|rewrite le_bytes_len; reflexivity].
  rewrite (wr_eq _ (x ++ le_bytes 4 (total_depth j) ++ repeat 0 4 ++ le_bytes 8 (limit j)) (repeat 0 8) (repeat 0 8 ++ repeat 0 48 ++ repeat 0 64 ++ ib ++ fb ++ z)); [|assoc|lens|rewrite le_bytes_len; reflexivity].
  set (hd := x ++ le_bytes 4 (total_depth j) ++ repeat 0 4 ++ le_bytes 8 (limit j) ++ le_bytes 8 idx).
  assert (ER : match j_rand j with
     | R32 a b c => do buf <- put32s ((x ++ le_bytes 4 (total_depth j) ++ repeat 0 4 ++ le_bytes 8 (limit j)) ++ le_bytes 8 idx ++ repeat 0 8 ++ repeat 0 48 ++ repeat 0 64 ++ ib ++ fb ++ z) (zlen x + 32) [a; b; c; 0]; wr buf (zlen x + 24) (le_bytes 8 0)
     | R64 a b c d e => do buf <- put64s ((x ++ le_bytes 4 (total_depth j) ++ repeat 0 4 ++ le_bytes 8 (limit j)) ++ le_bytes 8 idx ++ repeat 0 8 ++ repeat 0 48 ++ repeat 0 64 ++ ib ++ fb ++ z) (zlen x + 32) [a; b; c; d; e; 0]; wr buf (zlen x + 24) (le_bytes 8 1)
     end = Some (hd ++ le_bytes 8 (use64 (j_rand j)) ++ rand_bytes (j_rand j) ++ repeat 0 64 ++ ib ++ fb ++ z)).
  { replace (zlen x + 32) with (zlen (hd ++ repeat 0 8)) by (unfold hd; lens).
    assert (Z24 : zlen x + 24 = zlen hd) by (unfold hd; lens).
    match goal with |- context [put32s ?b _ _] => replace b with ((hd ++ repeat 0 8) ++ repeat 0 48 ++ repeat 0 64 ++ ib ++ fb ++ z) by (unfold hd; assoc) end.
    rewrite Z24. clearbody hd. unfold use64. destruct (j_rand j) as [a b c|a b c d e]; cbn [stored_rand fst rand_bytes].
    - rewrite (repeat_split 0 16 32 48) by lia. rewrite <- (app_assoc (repeat 0 16)). rewrite put32s_ok by reflexivity.
      rewrite (wr_eq _ hd (repeat 0 8) (flat_map (le_bytes 4) [a; b; c; 0] ++ repeat 0 32 ++ repeat 0 64 ++ ib ++ fb ++ z)); [assoc|assoc|auto|reflexivity].
    - rewrite put64s_ok by reflexivity.
      rewrite (wr_eq _ hd (repeat 0 8) (flat_map (le_bytes 8) [a; b; c; d; e; 0] ++ repeat 0 64 ++ ib ++ fb ++ z)); [assoc|assoc|auto|reflexivity]. }
  rewrite ER. clear ER. set (nm := firstn 63 (j_name j)). assert (LN : (length nm <= 63)%nat) by apply firstn_le_length.
  rewrite (wr_eq _ (hd ++ le_bytes 8 (use64 (j_rand j)) ++ rand_bytes (j_rand j)) (repeat 0 (length nm + 1)) (repeat 0 (63 - length nm) ++ ib ++ fb ++ z)).
  - f_equal. unfold hd, image, name_bytes. fold nm. rewrite flat_map_app, <- EI. fold fb. assoc.
  - rewrite (repeat_split 0 (length nm + 1) (63 - length nm) 64) by lia. assoc.
  - unfold hd. lens.
  - rewrite app_length, repeat_length. reflexivity.
Qed.

(** ** All jobs *)
Fixpoint images (mask : option Z) (idx : Z) (js : list job) : list Z :=
  match js with [] => [] | j :: r => (if selected mask idx then image idx j else []) ++ images mask (idx + 1) r end.
Lemma reply_sz_ge mask : forall js idx, Forall job_ok js -> zlen (images mask idx js) <= reply_sz mask idx js.
Proof.
  induction js as [|j js IH]; intros idx H; cbn [images reply_sz]; [unfold zlen; cbn; lia|]. inversion H as [|? ? Hj Hr]; subst. specialize (IH (idx + 1) Hr). rewrite zlen_app.
  destruct (selected mask idx); [|unfold zlen at 1; cbn [length]; lia]. rewrite image_len by auto. destruct (depth_ok j Hj) as [D DR]. destruct Hj as (H1 & _ & H3 & H4 & _).
  unfold til_sz. unfold u32 at 1. unfold u32. pose proof (zlen_nonneg (j_failed j)). rewrite (Z.mod_small (j_iodepth j + _)) by nia. rewrite Z.mod_small by nia. nia.
Qed.
Lemma fill_all_ok mask : forall js idx x n, Forall job_ok js -> zlen (images mask idx js) <= Z.of_nat n ->
  fill_all mask idx js (x ++ repeat 0 n) (zlen x) = Some (x ++ images mask idx js ++ repeat 0 (n - length (images mask idx js))).
Proof.
  induction js as [|j js IH]; intros idx x n H HN; cbn [fill_all images].
  - cbn [app length]. rewrite Nat.sub_0_r. reflexivity.
  - inversion H as [|? ? Hj Hr]; subst. cbn [images] in HN. destruct (selected mask idx); [|apply IH; auto].
    rewrite zlen_app, image_len in HN by auto. destruct (depth_ok j Hj) as [D DR]. assert (SZ : 0 <= til_sz (total_depth j)) by (unfold til_sz, TIL; lia).
    pose proof (zlen_nonneg (images mask (idx + 1) js)).
    rewrite (repeat_split 0 (Z.to_nat (til_sz (total_depth j))) (n - Z.to_nat (til_sz (total_depth j))) n) by lia.
    rewrite fill_state_ok by auto. rewrite app_assoc. replace (zlen x + til_sz (total_depth j)) with (zlen (x ++ image idx j)) by (rewrite zlen_app, image_len by auto; lia).
    rewrite IH by (auto; lia). f_equal. rewrite <- !app_assoc. f_equal. f_equal. f_equal. f_equal. rewrite app_length.
    assert (length (image idx j) = Z.to_nat (til_sz (total_depth j))) by (rewrite <- (image_len idx) by auto; unfold zlen; lia). lia.
Qed.
Lemma get_all_ok mask js : Forall job_ok js -> nr_selected mask 0 js <> 0 ->
  exists n, get_all_io_list mask js = Some (Some (le_bytes 8 (nr_selected mask 0 js) ++ images mask 0 js ++ repeat 0 n)).
Proof.
  intros H N. unfold get_all_io_list. destruct (Z.eqb_spec (nr_selected mask 0 js) 0); [contradiction|].
  pose proof (reply_sz_ge mask js 0 H) as R. pose proof (zlen_nonneg (images mask 0 js)).
  rewrite (repeat_split 0 8 (Z.to_nat (reply_sz mask 0 js))) by lia.
  rewrite (wr_eq _ [] (repeat 0 8) (repeat 0 (Z.to_nat (reply_sz mask 0 js)))); [|reflexivity|reflexivity|rewrite le_bytes_len; reflexivity]. cbn [app].
  replace 8 with (zlen (le_bytes 8 (nr_selected mask 0 js))) at 4 by (unfold zlen; rewrite le_bytes_len; reflexivity).
  rewrite fill_all_ok by (auto; lia). eauto.
Qed.

(** ** Writing the files *)
Definition file_of (idx : Z) (j : job) : list Z :=
  le_bytes 8 7 ++ le_bytes 8 (zlen (image idx j)) ++ le_bytes 8 (match crc32c_sw (image idx j) with Some c => c | None => 0 end) ++ image idx j.
Lemma image_bytes idx j : job_ok j -> bytes (image idx j).
Proof.
  intros (_ & _ & _ & _ & _ & _ & _ & _ & _ & _ & HN). unfold image, name_bytes, rand_bytes. rewrite !bytes_app. repeat split; try apply le_bytes_bytes; try apply bytes_repeat0.
  - destruct (j_rand j); [apply bytes_app; split; [|apply bytes_repeat0]|]; apply flat_bytes; intros; apply le_bytes_bytes.
  - apply bytes_firstn. unfold bytes, byte. eapply Forall_impl; [|exact HN]. cbn. lia.
  - repeat constructor; lia.
  - apply flat_bytes; intros; apply le_bytes_bytes.
Qed.
Lemma crc_some b : bytes b -> exists c, crc32c_sw b = Some c /\ 0 <= c < 2 ^ 32.
Proof.
  intros H. destruct (C17_crc32c b H) as (r & E & _). exists (reflect 32 r). split; auto. apply (reflect_range 32).
Qed.
Lemma cstr_ok : forall s z, Forall (fun c => 0 < c < 256) s -> cstr (s ++ 0 :: z) = Some s.
Proof. induction s as [|c s IH]; intros z H; [reflexivity|]. inversion H; subst. cbn [app cstr]. destruct (Z.eqb_spec c 0); [lia|]. rewrite IH by auto. reflexivity. Qed.
Lemma name_of j : job_ok j -> cstr (name_bytes j) = Some (firstn 63 (j_name j)).
Proof.
  intros (_ & _ & _ & _ & _ & _ & _ & _ & _ & _ & HN). unfold name_bytes. cbn [app]. apply cstr_ok. rewrite Forall_forall in *. intros c Hc. apply HN. rewrite <- (firstn_skipn 63 (j_name j)). apply in_or_app. auto.
Qed.

Lemma write_state_ok f prefix x idx j z fn : job_ok j -> 0 <= idx < 2 ^ 31 -> gen_name (firstn 63 (j_name j)) prefix idx = Some fn ->
  write_state f prefix (x ++ image idx j ++ z) (zlen x) = Some (fs_set f fn (file_of idx j)).
Proof.
  intros H HI GN. destruct (depth_ok j H) as [D DR]. unfold write_state.
  rewrite (rd_eq _ (x ++ le_bytes 4 (total_depth j) ++ repeat 0 4 ++ le_bytes 8 (limit j) ++ le_bytes 8 idx ++ le_bytes 8 (use64 (j_rand j)) ++ rand_bytes (j_rand j)) (name_bytes j) (flat_map (le_bytes 8) (slots j ++ j_failed j) ++ z)); [|unfold image; assoc|lens|lens].
  rewrite name_of by auto.
  rewrite (rd_eq _ (x ++ le_bytes 4 (total_depth j) ++ repeat 0 4 ++ le_bytes 8 (limit j)) (le_bytes 8 idx) (le_bytes 8 (use64 (j_rand j)) ++ rand_bytes (j_rand j) ++ name_bytes j ++ flat_map (le_bytes 8) (slots j ++ j_failed j) ++ z)); [|unfold image; assoc|lens|lens].
  rewrite word8 by lia. rewrite GN.
  rewrite (rd_eq _ x (le_bytes 4 (total_depth j)) (repeat 0 4 ++ le_bytes 8 (limit j) ++ le_bytes 8 idx ++ le_bytes 8 (use64 (j_rand j)) ++ rand_bytes (j_rand j) ++ name_bytes j ++ flat_map (le_bytes 8) (slots j ++ j_failed j) ++ z)); [|unfold image; assoc|lens|lens].
  rewrite word4 by auto. rewrite (rd_eq _ x (image idx j) z); [|reflexivity|reflexivity|rewrite image_len by auto; reflexivity].
  destruct (crc_some (image idx j) (image_bytes idx j H)) as (c & E & _). unfold file_of. rewrite E, image_len by auto. reflexivity.
Qed.

(** The file system after all selected states are written. *)
Fixpoint saved (mask : option Z) (prefix : list Z) (idx : Z) (js : list job) (f : fs) : fs :=
  match js with
  | [] => f
  | j :: r => saved mask prefix (idx + 1) r
                (if selected mask idx then match gen_name (firstn 63 (j_name j)) prefix idx with Some fn => fs_set f fn (file_of idx j) | None => f end else f)
  end.
Lemma nr_nonneg mask : forall js idx, 0 <= nr_selected mask idx js <= zlen js.
Proof. induction js as [|j js IH]; intros idx; cbn [nr_selected]; [unfold zlen; cbn; lia|]. specialize (IH (idx + 1)). unfold zlen in *. cbn [length]. destruct (selected mask idx); lia. Qed.
Lemma short_name j : zlen (firstn 63 (j_name j)) < 4096.
Proof. unfold zlen. pose proof (firstn_le_length 63 (j_name j)). lia. Qed.
Lemma save_states_ok mask prefix : forall js idx f x z, Forall job_ok js -> 0 <= idx -> idx + zlen js < 2 ^ 31 ->
  save_states (Z.to_nat (nr_selected mask idx js)) f prefix (x ++ images mask idx js ++ z) (zlen x) = Some (saved mask prefix idx js f).
Proof.
  induction js as [|j js IH]; intros idx f x z H HI HL; cbn [nr_selected images saved]; [reflexivity|].
  inversion H as [|? ? Hj Hr]; subst. unfold zlen in HL. cbn [length] in HL. pose proof (nr_nonneg mask js (idx + 1)).
  destruct (selected mask idx).
  - replace (Z.to_nat (1 + nr_selected mask (idx + 1) js)) with (S (Z.to_nat (nr_selected mask (idx + 1) js))) by lia. cbn [save_states].
    destruct (gen_name (firstn 63 (j_name j)) prefix idx) as [fn|] eqn:G.
    2:{ unfold gen_name in G. pose proof (short_name j). destruct (Z.ltb_spec (zlen (firstn 63 (j_name j))) 4096); [discriminate|lia]. }
    rewrite <- app_assoc. rewrite (write_state_ok f prefix x idx j _ fn) by (auto; lia).
    destruct (depth_ok j Hj) as [D DR].
    rewrite (rd_eq _ x (le_bytes 4 (total_depth j)) (repeat 0 4 ++ le_bytes 8 (limit j) ++ le_bytes 8 idx ++ le_bytes 8 (use64 (j_rand j)) ++ rand_bytes (j_rand j) ++ name_bytes j ++ flat_map (le_bytes 8) (slots j ++ j_failed j) ++ images mask (idx + 1) js ++ z)); [|unfold image; assoc|lens|lens].
    rewrite word4 by auto. replace (zlen x + til_sz (total_depth j)) with (zlen (x ++ image idx j)) by (rewrite zlen_app, image_len by auto; lia).
    rewrite (app_assoc x). rewrite IH by (auto; unfold zlen; lia). reflexivity.
  - cbn [app]. rewrite Z.add_0_l. rewrite IH by (auto; unfold zlen; lia). reflexivity.
Qed.
Lemma save_ok f prefix mask js : Forall job_ok js -> zlen js < 2 ^ 31 ->
  verify_save_state f prefix mask js = Some (saved mask prefix 0 js f).
Proof.
  intros H HL. unfold verify_save_state. pose proof (nr_nonneg mask js 0) as NR. destruct (Z.eq_dec (nr_selected mask 0 js) 0) as [E|N].
  - unfold get_all_io_list. rewrite E. cbn [Z.eqb]. f_equal. clear H HL NR. revert E. assert (G : forall js idx g, nr_selected mask idx js = 0 -> saved mask prefix idx js g = g).
    { clear. induction js as [|j js IH]; intros idx g E; auto. cbn [nr_selected saved] in *. pose proof (nr_nonneg mask js (idx + 1)). destruct (selected mask idx); [lia|]. apply IH. lia. }
    intros E. symmetry. apply G. auto.
  - destruct (get_all_ok mask js H N) as (n & ->).
    rewrite (rd_eq _ [] (le_bytes 8 (nr_selected mask 0 js)) (images mask 0 js ++ repeat 0 n)); [|reflexivity|reflexivity|lens].
    rewrite word8 by lia. replace 8 with (zlen (le_bytes 8 (nr_selected mask 0 js))) at 2 by lens.
    apply save_states_ok; auto; lia.
Qed.

(** ** Names *)
Lemma digits_no_dash n : 0 <= n -> ~ In 45 (dec n).
Proof. intros H K. pose proof (dec_digits n H) as D. rewrite Forall_forall in D. specialize (D _ K). discriminate. Qed.
Lemma path_inj n1 p1 i1 n2 p2 i2 : 0 <= i1 -> 0 <= i2 -> path n1 p1 i1 = path n2 p2 i2 -> i1 = i2.
Proof.
  intros H1 H2 E. unfold path in E.
  assert (E' : p1 ++ [45] ++ map (fun c => if c =? 47 then 46 else c) n1 ++ [45] ++ dec i1 = p2 ++ [45] ++ map (fun c => if c =? 47 then 46 else c) n2 ++ [45] ++ dec i2).
  { apply (app_inv_tail suffix). rewrite <- !app_assoc. exact E. }
  replace (p1 ++ [45] ++ map (fun c => if c =? 47 then 46 else c) n1 ++ [45] ++ dec i1) with ((p1 ++ [45] ++ map (fun c => if c =? 47 then 46 else c) n1) ++ 45 :: dec i1) in E' by assoc.
  replace (p2 ++ [45] ++ map (fun c => if c =? 47 then 46 else c) n2 ++ [45] ++ dec i2) with ((p2 ++ [45] ++ map (fun c => if c =? 47 then 46 else c) n2) ++ 45 :: dec i2) in E' by assoc.
  apply last_sep_inj in E'; [|apply digits_no_dash; auto|apply digits_no_dash; auto]. apply dec_inj; auto. apply E'.
Qed.
Lemma dec_len n : 0 <= n < 2 ^ 31 -> (length (dec n) <= 32)%nat.
Proof.
  intros H. unfold dec. assert (Z.log2 n < 31 \/ n = 0) as [L| ->]; [|assert (G : forall f m, (length (dec_ f m) <= f)%nat)|cbn; lia].
  { destruct (Z.eq_dec n 0); auto. left. apply Z.log2_lt_pow2; lia. }
  { induction f as [|f IH]; intros m; cbn [dec_]; [cbn; lia|]. destruct (m <? 10); [cbn; lia|]. rewrite app_length. specialize (IH (m / 10)). cbn [length]. lia. }
  pose proof (G (S (Z.to_nat (Z.log2 n))) n). lia.
Qed.
Lemma gen_path name prefix num : zlen name <= 63 -> zlen prefix <= 3900 -> 0 <= num < 2 ^ 31 -> gen_name name prefix num = Some (path name prefix num).
Proof.
  intros HN HP HI. unfold gen_name. destruct (Z.ltb_spec (zlen name) 4096); [|lia]. f_equal. unfold path. apply firstn_all2. pose proof (dec_len num HI).
  rewrite !app_length, map_length. unfold zlen, suffix in *. cbn [length]. lia.
Qed.
Lemma name_eqb_spec a b : name_eqb a b = true <-> a = b.
Proof. unfold name_eqb. destruct (list_eq_dec Z.eq_dec a b); split; congruence. Qed.

Lemma saved_other mask prefix : forall js idx f n, (forall i, (i < length js)%nat -> selected mask (idx + Z.of_nat i) = true -> forall j, nth_error js i = Some j -> gen_name (firstn 63 (j_name j)) prefix (idx + Z.of_nat i) <> Some n) ->
  saved mask prefix idx js f n = f n.
Proof.
  induction js as [|j js IH]; intros idx f n H; cbn [saved]; auto. rewrite IH.
  - destruct (selected mask idx) eqn:S; auto. destruct (gen_name (firstn 63 (j_name j)) prefix idx) as [fn|] eqn:G; auto. unfold fs_set.
    destruct (name_eqb n fn) eqn:E; auto. apply name_eqb_spec in E. subst. exfalso. apply (H 0%nat ltac:(cbn; lia)) with (j := j); try (change (Z.of_nat 0) with 0; rewrite Z.add_0_r); auto.
  - intros i Hi S j' Hj'. replace (idx + 1 + Z.of_nat i) with (idx + Z.of_nat (Datatypes.S i)) in * by lia. apply (H (Datatypes.S i) ltac:(cbn; lia)); auto.
Qed.
Lemma saved_here mask prefix : forall js idx f i j, nth_error js i = Some j -> selected mask (idx + Z.of_nat i) = true -> 0 <= idx -> idx + zlen js < 2 ^ 31 -> zlen prefix <= 3900 ->
  saved mask prefix idx js f (path (firstn 63 (j_name j)) prefix (idx + Z.of_nat i)) = Some (file_of (idx + Z.of_nat i) j).
Proof.
  induction js as [|j0 js IH]; intros idx f [|i] j E S HI HL HP; cbn in E; try discriminate; cbn [saved]; unfold zlen in HL; cbn [length] in HL.
  - inversion E; subst j0. change (Z.of_nat 0) with 0 in *. rewrite Z.add_0_r in *. rewrite saved_other.
    + rewrite S. rewrite gen_path; [|unfold zlen; pose proof (firstn_le_length 63 (j_name j)); lia|lia|lia]. unfold fs_set. replace (name_eqb _ _) with true by (symmetry; apply name_eqb_spec; auto). auto.
    + intros i Hi _ j' _ G. rewrite gen_path in G; [|unfold zlen; pose proof (firstn_le_length 63 (j_name j')); lia|lia|lia]. inversion G as [K]. apply path_inj in K; lia.
  - replace (idx + Z.of_nat (Datatypes.S i)) with (idx + 1 + Z.of_nat i) in * by lia. apply IH; auto; unfold zlen; lia.
Qed.

(** ** Loading *)
Lemma insert_perm x l : Permutation (x :: l) (insert x l).
Proof. induction l as [|y l IH]; cbn; auto. destruct (x <=? y); auto. rewrite perm_swap. apply perm_skip. auto. Qed.
Lemma qsort_perm l : Permutation l (qsort l).
Proof. unfold qsort. induction l as [|x l IH]; cbn; auto. rewrite <- insert_perm. apply perm_skip. auto. Qed.
Lemma insert_sorted x l : StronglySorted Z.le l -> StronglySorted Z.le (insert x l).
Proof.
  induction 1 as [|y l Hs IH Hy]; cbn; [repeat constructor|]. destruct (Z.leb_spec x y).
  - constructor; [constructor; auto|]. constructor; [lia|]. eapply Forall_impl; [|exact Hy]. cbn; lia.
  - constructor; auto. rewrite Forall_forall in *. intros z Hz. apply (Permutation_in z (Permutation_sym (insert_perm x l))) in Hz. destruct Hz as [<-|Hz]; [lia|auto].
Qed.
Lemma qsort_sorted l : StronglySorted Z.le (qsort l).
Proof. unfold qsort. induction l; cbn; [constructor|apply insert_sorted; auto]. Qed.
Lemma filter_all {A} (f : A -> bool) l : (forall x, In x l -> f x = true) -> filter f l = l.
Proof. induction l as [|x l IH]; intros H; cbn; auto. rewrite (H x) by (left; auto). rewrite IH; auto. intros y Hy. apply H. right. auto. Qed.

Definition loaded (iodepth : Z) (j : job) : vstate :=
  mkV (limit j) (j_iodepth j + zlen (j_failed j)) (stored_rand (j_rand j)) (slots j ++ j_failed j)
    (if iodepth <? j_iodepth j + zlen (j_failed j) then qsort (filter (fun n => negb (n =? INVALID_NUMBERIO)) (skipn (Z.to_nat iodepth) (slots j ++ j_failed j))) else []).
Lemma assign_image iodepth idx j : job_ok j -> assign_state iodepth (image idx j) = Some (loaded iodepth j).
Proof.
  intros H. destruct (depth_ok j H) as [D DR]. pose proof H as (H1 & H2 & _ & _ & H5 & H6 & _ & H8 & H9 & HR & _). unfold assign_state, image.
  set (rest := flat_map (le_bytes 8) (slots j ++ j_failed j)).
  rewrite (rd_eq _ [] (le_bytes 4 (total_depth j)) (repeat 0 4 ++ le_bytes 8 (limit j) ++ le_bytes 8 idx ++ le_bytes 8 (use64 (j_rand j)) ++ rand_bytes (j_rand j) ++ name_bytes j ++ rest)); [|reflexivity|reflexivity|lens].
  rewrite word4 by auto.
  rewrite (rd_eq _ (le_bytes 4 (total_depth j) ++ repeat 0 4) (le_bytes 8 (limit j)) (le_bytes 8 idx ++ le_bytes 8 (use64 (j_rand j)) ++ rand_bytes (j_rand j) ++ name_bytes j ++ rest)); [|assoc|lens|lens].
  rewrite word8. 2:{ unfold limit. destruct (j_fsynced j); auto. destruct (Z.eqb_spec (j_safe j) 0); cbn [negb]; lia. }
  rewrite (rd_eq _ (le_bytes 4 (total_depth j) ++ repeat 0 4 ++ le_bytes 8 (limit j) ++ le_bytes 8 idx) (le_bytes 8 (use64 (j_rand j))) (rand_bytes (j_rand j) ++ name_bytes j ++ rest)); [|assoc|lens|lens].
  rewrite word8 by (unfold use64; destruct (j_rand j); cbn; lia).
  set (hd := le_bytes 4 (total_depth j) ++ repeat 0 4 ++ le_bytes 8 (limit j) ++ le_bytes 8 idx ++ le_bytes 8 (use64 (j_rand j))).
  set (B := le_bytes 4 (total_depth j) ++ repeat 0 4 ++ _).
  assert (HB : B = hd ++ rand_bytes (j_rand j) ++ name_bytes j ++ rest) by (unfold B, hd; assoc).
  assert (ER : (if negb (use64 (j_rand j) =? 0) then get64s 6 B 32 else get32s 4 B 32) = Some (snd (stored_rand (j_rand j)))).
  { assert (L : 32 = zlen hd) by (unfold hd; lens). clearbody hd. unfold use64. destruct (j_rand j) as [a b c|a b c d e]; cbn [stored_rand fst snd negb Z.eqb rand_bytes rand_ok] in *.
    - apply (get32s_ok [a; b; c; 0] _ _ hd (repeat 0 32 ++ name_bytes j ++ rest)); [rewrite HB; rewrite <- !app_assoc; reflexivity|auto|]. inversion HR as [|? ? ? HR1]; inversion HR1 as [|? ? ? HR2]; inversion HR2; subst. repeat constructor; auto; lia.
    - apply (get64s_ok [a; b; c; d; e; 0] _ _ hd (name_bytes j ++ rest)); auto. unfold u64s in *. change [a; b; c; d; e; 0] with ([a; b; c; d; e] ++ [0]). apply Forall_app. split; auto. repeat constructor; lia. }
  rewrite ER. clear ER.
  replace (Z.to_nat (total_depth j)) with (length (slots j ++ j_failed j)) by (rewrite app_length; unfold zlen in *; lia).
  rewrite (get64s_ok (slots j ++ j_failed j) B 144 (hd ++ rand_bytes (j_rand j) ++ name_bytes j) []); [| |unfold hd; lens|].
  - unfold loaded. rewrite D. f_equal. f_equal. unfold use64. destruct (stored_rand (j_rand j)); reflexivity.
  - rewrite HB, app_nil_r. fold rest. assoc.
  - unfold u64s. apply Forall_app. auto.
Qed.

Lemma load_saved iodepth idx j : job_ok j -> load_file iodepth (file_of idx j) = Some (Some (loaded iodepth j)).
Proof.
  intros H. destruct (depth_ok j H) as [D DR]. destruct (crc_some (image idx j) (image_bytes idx j H)) as (c & E & C). unfold file_of. rewrite E. unfold load_file.
  pose proof (image_len idx j H) as IL. assert (R : 0 <= zlen (image idx j) < 2 ^ 64) by (rewrite IL; unfold til_sz, TIL; lia).
  set (F := le_bytes 8 7 ++ _). assert (LF : zlen F = 24 + zlen (image idx j)) by (unfold F; rewrite !zlen_app; lens).
  destruct (Z.ltb_spec (zlen F) 24); [lia|].
  assert (A1 : firstn 8 F = le_bytes 8 7) by reflexivity.
  assert (A2 : firstn 8 (skipn 8 F) = le_bytes 8 (zlen (image idx j))) by reflexivity.
  assert (A3 : firstn 8 (skipn 16 F) = le_bytes 8 c) by reflexivity.
  assert (A4 : skipn 24 F = image idx j) by reflexivity.
  rewrite A1, A2, A3, A4, !word8 by lia. cbn [Z.eqb negb VSTATE_HDR_VERSION Pos.eqb].
  destruct (Z.ltb_spec (zlen F - 24) (zlen (image idx j))); [lia|].
  rewrite firstn_all2 by (unfold zlen; lia). rewrite E, Z.eqb_refl. cbn [negb]. rewrite assign_image by auto. reflexivity.
Qed.

(** ** Any file *)
Lemma firstn_number file n p : (p + n <= length file)%nat -> le_word (firstn n (skipn p file)) = number file p n.
Proof. apply number_word. Qed.
Lemma crc_iff b v : bytes b -> crc32c_sw b = Some v <-> (exists r, v = reflect 32 r /\ is_crc 32 0x1EDC6F41 (2 ^ 32 - 1) (lsb_first b) r).
Proof.
  intros H. destruct (C17_crc32c b H) as (r & E & C). rewrite E. split.
  - intros X; inversion X; subst. eauto.
  - intros (r' & -> & C'). f_equal. f_equal. eapply C17_crc_unique; eauto; lia.
Qed.
Lemma load_cases iodepth file : bytes file -> exists s, s = firstn (Z.to_nat (number file 8 8)) (skipn 24 file) /\
  (acceptable file -> load_file iodepth file = match assign_state iodepth s with Some v => Some (Some v) | None => None end) /\
  (~ acceptable file -> load_file iodepth file = Some None).
Proof.
  intros Hb. eexists. split; [reflexivity|]. unfold load_file. destruct (Z.ltb_spec (zlen file) 24) as [L|L].
  { split; auto. intros (A & _). unfold zlen in L. lia. }
  assert (LN : (24 <= length file)%nat) by (unfold zlen in L; lia).
  change (firstn 8 file) with (firstn 8 (skipn 0 file)). rewrite !firstn_number by lia.
  destruct (Z.eqb_spec (number file 0 8) VSTATE_HDR_VERSION) as [V|V]; cbn [negb].
  2:{ split; auto. intros (_ & A & _). contradiction. }
  destruct (Z.ltb_spec (zlen file - 24) (number file 8 8)) as [S|S].
  { split; auto. intros (_ & _ & A & _). lia. }
  set (s := firstn _ _). assert (Bs : bytes s) by (apply bytes_firstn, bytes_skipn; auto).
  destruct (crc_some s Bs) as (c & E & _). rewrite E. pose proof (crc_iff s c Bs) as CI. rewrite E in CI. destruct (proj1 CI eq_refl) as (r & R1 & R2).
  destruct (Z.eqb_spec c (number file 16 8)) as [X|X]; cbn [negb].
  - split; [destruct (assign_state iodepth s); auto|]. intros N. exfalso. apply N. split; [auto|]. split; [auto|]. split; [lia|]. exists r. split; [congruence|auto].
  - split; auto. intros (_ & _ & _ & r' & R1' & R2'). exfalso. apply X. rewrite R1', R1. f_equal. eapply C17_crc_unique; eauto; lia.
Qed.

Lemma rd_ok s p n : 0 <= p -> 0 <= n -> p + n <= zlen s -> rd s p n = Some (firstn (Z.to_nat n) (skipn (Z.to_nat p) s)).
Proof. intros. unfold rd. apply slice_some. unfold zlen in *. lia. Qed.
Lemma get64s_some : forall n s p, 0 <= p -> p + 8 * Z.of_nat n <= zlen s -> exists l, get64s n s p = Some l /\ length l = n /\ (forall i, (i < n)%nat -> nth i l 0 = number s (Z.to_nat p + 8 * i) 8).
Proof.
  induction n as [|n IH]; intros s p Hp H; cbn [get64s]; [exists []; repeat split; intros; lia|].
  rewrite rd_ok by lia. destruct (IH s (p + 8)) as (l & -> & L & N); [lia|lia|]. eexists. split; [reflexivity|]. split; [cbn; lia|].
  intros [|i] Hi; cbn [nth].
  - change (Z.to_nat 8) with 8%nat. rewrite number_word by (unfold zlen in *; lia). f_equal. lia.
  - rewrite N by lia. f_equal. lia.
Qed.
Lemma get32s_some : forall n s p, 0 <= p -> p + 4 * Z.of_nat n <= zlen s -> exists l, get32s n s p = Some l.
Proof.
  induction n as [|n IH]; intros s p Hp H; cbn [get32s]; [eauto|]. rewrite rd_ok by lia. destruct (IH s (p + 4)) as (l & ->); [lia|lia|]. eauto.
Qed.
Lemma number_shift b k : forall n p, number (skipn k b) p n = number b (k + p) n.
Proof. induction n as [|n IH]; intros p; cbn [number]; auto. rewrite nth_skipn, IH. f_equal. f_equal. f_equal. lia. Qed.
Lemma number_firstn b k : forall n p, (p + n <= k)%nat -> number (firstn k b) p n = number b p n.
Proof. induction n as [|n IH]; intros p H; cbn [number]; auto. rewrite IH by lia. rewrite nth_firstn by lia. reflexivity. Qed.
Lemma assign_some iodepth s : bytes s -> 144 <= zlen s -> 144 + 8 * number s 0 4 <= zlen s ->
  exists v, assign_state iodepth s = Some v /\ v_numberio v = number s 8 8 /\ v_depth v = number s 0 4 /\ zlen (v_inflight v) = v_depth v /\
    (forall i, (i < length (v_inflight v))%nat -> nth i (v_inflight v) 0 = number s (144 + 8 * i) 8) /\
    v_failed v = (if iodepth <? v_depth v then qsort (filter (fun n => negb (n =? INVALID_NUMBERIO)) (skipn (Z.to_nat iodepth) (v_inflight v))) else []).
Proof.
  intros Hb H1 H2. unfold assign_state. pose proof (number_range s Hb 4 0) as NR. change (256 ^ Z.of_nat 4) with (2 ^ 32) in NR.
  assert (L : (144 <= length s)%nat) by (unfold zlen in H1; lia).
  rewrite (rd_ok s 0 4), (rd_ok s 8 8), (rd_ok s 24 8) by lia. change (Z.to_nat 0) with 0%nat. change (Z.to_nat 4) with 4%nat. change (Z.to_nat 8) with 8%nat. change (Z.to_nat 24) with 24%nat.
  rewrite !number_word by lia.
  assert (R : exists rnd, (if negb (number s 24 8 =? 0) then get64s 6 s 32 else get32s 4 s 32) = Some rnd).
  { destruct (negb _); [destruct (get64s_some 6 s 32) as (l & -> & _); [lia|lia|eauto]|destruct (get32s_some 4 s 32) as (l & ->); [lia|lia|eauto]]. }
  destruct R as (rnd & ->). destruct (get64s_some (Z.to_nat (number s 0 4)) s 144) as (l & -> & LL & LN); [lia|lia|].
  eexists. split; [reflexivity|]. cbn [v_numberio v_depth v_inflight v_failed]. split; auto. split; auto. split; [unfold zlen; lia|]. split; [|reflexivity].
  intros i Hi. rewrite LN by lia. reflexivity.
Qed.

(** ** The decisions *)
Lemma ss_nth l : StronglySorted Z.le l -> forall i j, (i <= j < length l)%nat -> nth i l 0 <= nth j l 0.
Proof.
  induction 1 as [|x l Hs IH Hx]; intros i j H; [cbn in H; lia|]. destruct j as [|j].
  - assert (i = 0%nat) by lia. subst. lia.
  - destruct i as [|i]; cbn [nth].
    + rewrite Forall_forall in Hx. apply Hx. apply nth_In. cbn in H. lia.
    + apply IH. cbn in H. lia.
Qed.
Lemma bsearch_ok l n : StronglySorted Z.le l -> zlen l < 2 ^ 31 -> forall fuel lo hi, 0 <= lo -> hi <= zlen l -> hi - lo < Z.of_nat fuel ->
  (forall i, (i < length l)%nat -> nth i l 0 = n -> lo <= Z.of_nat i < hi) ->
  exists b, bsearch fuel l n lo hi = Some b /\ (b = true <-> In n l).
Proof.
  intros Hs HL. induction fuel as [|f IH]; intros lo hi H0 H1 HF HI; cbn [bsearch].
  - destruct (Z.ltb_spec lo hi); [lia|]. exists false. split; auto. split; [discriminate|]. intros K. apply (In_nth _ _ 0) in K. destruct K as (i & Hi & E). specialize (HI i Hi E). lia.
  - destruct (Z.ltb_spec lo hi) as [L|L].
    2:{ exists false. split; auto. split; [discriminate|]. intros K. apply (In_nth _ _ 0) in K. destruct K as (i & Hi & E). specialize (HI i Hi E). lia. }
    assert (M : u32 (lo + u32 (hi - lo) / 2) = lo + (hi - lo) / 2).
    { unfold u32. rewrite (Z.mod_small (hi - lo)) by lia. rewrite Z.mod_small; auto. pose proof (Z.div_pos (hi - lo) 2). pose proof (Z.div_lt (hi - lo) 2). lia. }
    rewrite M. set (mid := lo + (hi - lo) / 2). assert (B : lo <= mid < hi).
    { unfold mid. pose proof (Z.div_pos (hi - lo) 2 ltac:(lia)). pose proof (Z.div_lt (hi - lo) 2 ltac:(lia)). lia. }
    clearbody mid. rewrite (znth_nth l mid 0) by lia. unfold zlen in *.
    destruct (Z.eqb_spec (nth (Z.to_nat mid) l 0) n) as [E|E].
    + exists true. split; auto. split; auto. intros _. rewrite <- E. apply nth_In. lia.
    + destruct (Z.ltb_spec (nth (Z.to_nat mid) l 0) n).
      * unfold u32. rewrite Z.mod_small by lia. apply IH; try lia. intros i Hi Ei. specialize (HI i Hi Ei). split; [|lia].
        destruct (Z_lt_le_dec mid (Z.of_nat i)); [lia|]. pose proof (ss_nth l Hs i (Z.to_nat mid) ltac:(lia)). lia.
      * apply IH; try lia. intros i Hi Ei. specialize (HI i Hi Ei). split; [lia|].
        destruct (Z_lt_le_dec (Z.of_nat i) mid); [lia|]. pose proof (ss_nth l Hs (Z.to_nat mid) i ltac:(lia)). lia.
Qed.

Lemma should_skip_ok v n : StronglySorted Z.le (v_failed v) -> zlen (v_failed v) < 2 ^ 31 -> exists b, should_skip v n = Some b /\ (b = true <-> In n (v_failed v)).
Proof.
  intros Hs HL. unfold should_skip. destruct (Z.eqb_spec (zlen (v_failed v)) 0) as [E|E].
  - exists false. split; auto. split; [discriminate|]. destruct (v_failed v); [intros []|]. unfold zlen in E. cbn in E. lia.
  - apply bsearch_ok; auto; try lia; [unfold zlen; lia|]. intros i Hi _. unfold zlen. lia.
Qed.
Lemma should_stop_ok v iodepth n : should_stop v iodepth n = true <->
  v_numberio v <= n \/ In n (firstn (Z.to_nat (Z.min iodepth (v_depth v))) (v_inflight v)).
Proof.
  unfold should_stop. replace (if iodepth <? v_depth v then iodepth else v_depth v) with (Z.min iodepth (v_depth v)) by (destruct (Z.ltb_spec iodepth (v_depth v)); lia).
  destruct (Z.ltb_spec n (v_numberio v)).
  - rewrite existsb_exists. split.
    + intros (x & K & E). apply Z.eqb_eq in E. subst. auto.
    + intros [K|K]; [lia|]. exists n. split; auto. apply Z.eqb_refl.
  - split; auto.
Qed.
