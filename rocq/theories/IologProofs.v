From Coq Require Import ZArith List Bool Lia String.
From Verif Require Import CBase CStr UnitsModel IologModel IologSpec.
Import ListNotations.
Open Scope Z_scope.

(** Characters. *)
Lemma isspace_blank c : isspace c = true <-> blank c.
Proof. unfold isspace, blank. rewrite orb_true_iff, andb_true_iff, Z.eqb_eq, !Z.leb_le. tauto. Qed.
Lemma not_blank c : ~ blank c -> isspace c = false.
Proof. intros H. destruct (isspace c) eqn:E; [|reflexivity]. exfalso. apply H, isspace_blank, E. Qed.
Lemma digit_range c : digit c = true -> 48 <= c <= 57.
Proof. unfold digit. rewrite andb_true_iff, !Z.leb_le. auto. Qed.
Lemma digit_space c : digit c = true -> isspace c = false.
Proof. intros H. apply digit_range in H. apply not_blank. unfold blank. lia. Qed.
Lemma same_refl a : same a a = true.
Proof. induction a as [|x a IH]; [reflexivity|]. cbn [same]. rewrite Z.eqb_refl. exact IH. Qed.
Lemma same_eq a b : same a b = true -> a = b.
Proof. revert b. induction a as [|x a IH]; intros [|y b] H; cbn [same] in H; try discriminate; [reflexivity|]. apply andb_true_iff in H. destruct H as (H1 & H2). apply Z.eqb_eq in H1. rewrite (IH b H2), H1. reflexivity. Qed.

(** Numbers. *)
Lemma span_skip c r : isspace c = false -> span isspace (c :: r) = ([], c :: r).
Proof. intros H. cbn [span]. rewrite H. reflexivity. Qed.
Lemma span_skip1 c r : isspace c = false -> snd (span isspace (32 :: c :: r)) = c :: r.
Proof. intros H. cbn [span]. change (isspace 32) with true. rewrite H. reflexivity. Qed.
Lemma scan_dec n c r : 0 <= n < 2 ^ 64 -> digit c = false -> scan_num (dec n ++ c :: r) = Some (n, c :: r) /\ scan_num (32 :: dec n ++ c :: r) = Some (n, c :: r).
Proof.
  intros (H & H2) C. pose proof (dec_digits n H) as G. pose proof (dec_nonempty n H) as N. pose proof (dec_val n H) as V.
  assert (S : span digit (dec n ++ c :: r) = (dec n, c :: r)) by (apply span_app; [exact G|]; intros x t X; injection X as X _; subst x; exact C).
  destruct (dec n) as [|d ds] eqn:D; [congruence|]. cbn [app] in *. assert (X : digit d = true) by (inversion G; auto). pose proof (digit_range d X) as R.
  assert (K : (let '(neg, s) := if d =? 45 then (true, ds ++ c :: r) else if d =? 43 then (false, ds ++ c :: r) else (false, d :: ds ++ c :: r) in
    let '(ds0, r0) := span digit s in match ds0 with [] => None | _ :: _ => let v := dval ds0 in Some (if 2 ^ 64 <=? v then 2 ^ 64 - 1 else if neg : bool then u64 (- v) else v, r0) end) = Some (n, c :: r)).
  { destruct (Z.eqb_spec d 45); [lia|]. destruct (Z.eqb_spec d 43); [lia|]. rewrite S. cbv zeta. rewrite V. destruct (Z.leb_spec (2 ^ 64) n); [lia|reflexivity]. }
  split; unfold scan_num.
  - rewrite (span_skip d _ (digit_space d X)). exact K.
  - rewrite (span_skip1 d _ (digit_space d X)). exact K.
Qed.

(** Words. *)
Lemma take_word_ok w : forall k c r, Forall (fun c => isspace c = false) w -> (List.length w <= k)%nat -> isspace c = true -> take_word k (w ++ c :: r) = (w, c :: r).
Proof.
  induction w as [|x w IH]; intros k c r F L C.
  - cbn [app]. destruct k; [reflexivity|]. cbn [take_word]. rewrite C. reflexivity.
  - inversion F as [|? ? F1 F2]; subst. cbn [List.length] in L. destruct k as [|k]; [lia|]. cbn [app take_word]. rewrite F1. rewrite (IH k c r F2) by (auto; lia). reflexivity.
Qed.
Lemma scan_word_ok w c r : w <> [] -> (List.length w <= 256)%nat -> Forall (fun c => isspace c = false) w -> isspace c = true -> scan_word (32 :: w ++ c :: r) = Some (w, c :: r).
Proof.
  intros N L F C. unfold scan_word. destruct w as [|x w]; [congruence|]. inversion F as [|? ? F1 F2]; subst. cbn [app]. rewrite (span_skip1 x _ F1). change (x :: w ++ c :: r) with ((x :: w) ++ c :: r). rewrite (take_word_ok (x :: w) 256 c r F L C). reflexivity.
Qed.
Definition word_ok (w : list Z) : Prop := w <> [] /\ (List.length w <= 256)%nat /\ Forall (fun c => isspace c = false) w.
Lemma good_word n : good_name n -> word_ok n.
Proof. intros (A & B & C). split; [auto|]. split; [auto|]. apply Forall_forall. intros c I. rewrite Forall_forall in C. apply not_blank, C, I. Qed.
Lemma ddir_word d : word_ok (ddir_name d).
Proof. destruct d; (split; [discriminate|]; split; [cbn; lia|]; repeat constructor). Qed.
Lemma act_word a : word_ok (act_name a).
Proof. destruct a; (split; [discriminate|]; split; [cbn; lia|]; repeat constructor). Qed.

Lemma scan_io v t n d off len : 0 <= t < 2 ^ 64 -> good_name n -> 0 <= off < 2 ^ 64 -> 0 <= len < 2 ^ 32 ->
  sscanf5 v (line (EIo t n d off len)) = (5, mkVars t n (ddir_name d) off len (v_fileno v) (v_action v)).
Proof.
  intros T N O L. destruct (good_word n N) as (N1 & N2 & N3). destruct (ddir_word d) as (D1 & D2 & D3). unfold sscanf5, line.
  rewrite (proj1 (scan_dec t 32 _ T eq_refl)). rewrite (scan_word_ok n 32 _ N1 N2 N3 eq_refl). rewrite (scan_word_ok (ddir_name d) 32 _ D1 D2 D3 eq_refl). rewrite (proj2 (scan_dec off 32 _ O eq_refl)). rewrite (proj2 (scan_dec len 10 [] ltac:(lia) eq_refl)).
  cbn [v_fileno v_action]. unfold u32. rewrite Z.mod_small by lia. reflexivity.
Qed.
Lemma scan_file v t n a : 0 <= t < 2 ^ 64 -> good_name n -> sscanf5 v (line (EFile t n a)) = (3, mkVars t n (act_name a) (v_offset v) (v_bytes v) (v_fileno v) (v_action v)).
Proof.
  intros T N. destruct (good_word n N) as (N1 & N2 & N3). destruct (act_word a) as (D1 & D2 & D3). unfold sscanf5, line.
  rewrite (proj1 (scan_dec t 32 _ T eq_refl)). rewrite (scan_word_ok n 32 _ N1 N2 N3 eq_refl). rewrite (scan_word_ok (act_name a) 10 [] D1 D2 D3 eq_refl). reflexivity.
Qed.

(** Lines. *)
Lemma fgets_line w : forall k r, Forall (fun c => c <> 10) w -> (List.length w < k)%nat -> fgets k (w ++ 10 :: r) = (w ++ [10], r).
Proof.
  induction w as [|x w IH]; intros k r F L; (destruct k as [|k]; [cbn in L; lia|]); cbn [app fgets].
  - reflexivity.
  - inversion F as [|? ? F1 F2]; subst. apply Z.eqb_neq in F1. rewrite F1. rewrite (IH k r F2) by (cbn in L; lia). reflexivity.
Qed.
Lemma dec_length f : forall n k, 0 <= n < 10 ^ Z.of_nat k -> (1 <= k)%nat -> (List.length (dec_ f n) <= k)%nat.
Proof.
  induction f as [|f IH]; intros n k H K; cbn [dec_]; [cbn; lia|]. destruct (Z.ltb_spec n 10) as [B|B]; [cbn; lia|]. rewrite app_length. cbn [List.length].
  destruct k as [|k]; [lia|]. assert (1 <= k)%nat by (destruct k; [cbn in H; lia|lia]). rewrite Nat2Z.inj_succ, Z.pow_succ_r in H by lia.
  enough (List.length (dec_ f (n / 10)) <= k)%nat by lia. apply IH; [|lia]. split; [apply Z.div_pos; lia|]. apply Z.div_lt_upper_bound; lia.
Qed.
Lemma dec64_length n : 0 <= n < 2 ^ 64 -> (List.length (dec n) <= 20)%nat.
Proof. intros H. unfold dec. apply dec_length; [|lia]. split; [lia|]. assert (2 ^ 64 < 10 ^ Z.of_nat 20) by reflexivity. lia. Qed.
Lemma dec_no_nl n : 0 <= n -> Forall (fun c => c <> 10) (dec n).
Proof. intros H. pose proof (dec_digits n H) as G. rewrite Forall_forall in *. intros c I. apply G, digit_range in I. lia. Qed.
Lemma word_no_nl w : word_ok w -> Forall (fun c => c <> 10) w.
Proof. intros (_ & _ & F). rewrite Forall_forall in *. intros c I E. subst c. discriminate (F 10 I). Qed.
Lemma body e names : Forall good_name names -> good_event names e \/ (exists t n, e = EFile t n FAdd /\ 0 <= t < 2 ^ 64 /\ good_name n) ->
  exists w, line e = w ++ [10] /\ Forall (fun c => c <> 10) w /\ (List.length w < 4095)%nat.
Proof.
  intros G H. assert (K : forall t n a, 0 <= t < 2 ^ 64 -> good_name n -> exists w, line (EFile t n a) = w ++ [10] /\ Forall (fun c => c <> 10) w /\ (List.length w < 4095)%nat).
  { intros t n a T N. exists (dec t ++ 32 :: n ++ 32 :: act_name a). pose proof (dec64_length t T). destruct N as (N1 & N2 & N3). pose proof (act_word a) as (A1 & A2 & A3). split; [|split].
    - cbn [line]. rewrite <- app_assoc. cbn [app]. rewrite <- app_assoc. reflexivity.
    - apply Forall_app. split; [apply dec_no_nl; lia|]. constructor; [lia|]. apply Forall_app. split; [apply word_no_nl, good_word; repeat split; auto|]. constructor; [lia|]. apply word_no_nl, act_word.
    - rewrite app_length. cbn [List.length]. rewrite app_length. cbn [List.length]. lia. }
  destruct H as [H|(t & n & -> & T & N)]; [|auto]. rewrite Forall_forall in G. destruct e as [t n d off len|t n a].
  - destruct H as (T & I & D & O & L). pose proof (G n I) as N. exists (dec t ++ 32 :: n ++ 32 :: ddir_name d ++ 32 :: dec off ++ 32 :: dec len). pose proof (dec64_length t T). pose proof (dec64_length off O). pose proof (dec64_length len ltac:(lia)).
    pose proof N as (N1 & N2 & N3). pose proof (ddir_word d) as (A1 & A2 & A3). split; [|split].
    + cbn [line]. rewrite <- !app_assoc. cbn [app]. rewrite <- !app_assoc. cbn [app]. rewrite <- !app_assoc. cbn [app]. rewrite <- !app_assoc. reflexivity.
    + apply Forall_app. split; [apply dec_no_nl; lia|]. constructor; [lia|]. apply Forall_app. split; [apply word_no_nl, good_word; auto|]. constructor; [lia|]. apply Forall_app. split; [apply word_no_nl, ddir_word|]. constructor; [lia|]. apply Forall_app. split; [apply dec_no_nl; lia|]. constructor; [lia|]. apply dec_no_nl; lia.
    + rewrite app_length. cbn [List.length]. rewrite app_length. cbn [List.length]. rewrite app_length. cbn [List.length]. rewrite app_length. cbn [List.length]. lia.
  - destruct H as (T & I & _). apply K; auto.
Qed.
Definition clean (l : list Z) : Prop := exists w, l = w ++ [10] /\ Forall (fun c => c <> 10) w /\ (List.length w < 4095)%nat.
Lemma read_lines_fold o es : Forall (fun e => clean (line e)) es -> forall k s, (List.length es <= k)%nat ->
  read_lines k o s (flat_map line es) = fold_left (fun s e => read_line o s (line e)) es s.
Proof.
  intros H. induction H as [|e es (w & E & F & L) _ IH]; intros k s K; [destruct k; reflexivity|]. cbn [List.length] in K. destruct k as [|k]; [lia|]. cbn [flat_map fold_left]. rewrite E. rewrite <- app_assoc. cbn [app].
  destruct (w ++ 10 :: flat_map line es) as [|x y] eqn:Z; [destruct w; discriminate|]. cbn [read_lines]. rewrite <- Z. rewrite (fgets_line w 4095 (flat_map line es) F L). apply IH. lia.
Qed.
Lemma flat_length es : Forall (fun e => clean (line e)) es -> (List.length es <= List.length (flat_map line es))%nat.
Proof. intros H. induction H as [|e es (w & E & _) _ IH]; [cbn; lia|]. cbn [flat_map List.length]. rewrite app_length, E, app_length. cbn [List.length]. lia. Qed.

(** Files. *)
Lemma find_name_ok names n : In n names -> forall i, 0 <= i -> exists k, find_name i names n = i + Z.of_nat k /\ nth_error names k = Some n.
Proof.
  induction names as [|m names IH]; intros I i Hi; [contradiction|]. cbn [find_name]. destruct (same m n) eqn:E.
  - exists 0%nat. split; [lia|]. cbn. f_equal. apply same_eq. exact E.
  - destruct I as [->|I]; [rewrite same_refl in E; discriminate|]. destruct (IH I (i + 1) ltac:(lia)) as (k & K1 & K2). exists (S k). split; [lia|exact K2].
Qed.
Lemma fileno_ok names n : In n names -> name_of names (get_fileno names n) = Some n /\ 0 <= get_fileno names n.
Proof.
  intros I. destruct (find_name_ok names n I 0 ltac:(lia)) as (k & K1 & K2). unfold get_fileno, name_of. rewrite K1. destruct (Z.ltb_spec (0 + Z.of_nat k) 0); [lia|]. rewrite Z.add_0_l, Nat2Z.id. split; [exact K2|lia].
Qed.

Lemma ddir_not_wait d : known d -> same (ddir_name d) (chars "wait") = false.
Proof. intros [->|[->|[->|[-> | ->]]]]; reflexivity. Qed.
Lemma io_action_ok o d : default o -> known d -> io_action o (ddir_name d) = Some d.
Proof. intros (_ & S & _) [->|[->|[->|[-> | ->]]]]; unfold io_action; repeat match goal with |- context [same ?a ?b] => let v := eval vm_compute in (same a b) in change (same a b) with v end; cbv iota; rewrite ?S; reflexivity. Qed.
Definition ddir_is (d : ddir) (x : ddir) : Z := match d, x with DRead, DRead => 1 | DWrite, DWrite => 1 | DTrim, DTrim => 1 | _, _ => 0 end.
Lemma read_io o s t n d off len names : default o -> r_files s = names -> good_event names (EIo t n d off len) -> good_name n ->
  let s' := read_line o s (line (EIo t n d off len)) in
  r_files s' = names /\ r_last s' = t /\ r_waits s' = r_waits s /\ r_reads s' = r_reads s + ddir_is d DRead /\ r_writes s' = r_writes s + ddir_is d DWrite /\ r_trims s' = r_trims s + ddir_is d DTrim /\
  exists a, r_pieces s' = r_pieces s ++ [mkPiece d (get_fileno names n) off len (delay_since_ttime o (r_last s) t) a].
Proof.
  intros Df E (T & I & K & O & L) N s'. unfold s', read_line. rewrite (scan_io (r_vars s) t n d off len T N O L). cbn [v_act v_ttime v_rfname]. rewrite (ddir_not_wait d K). change (5 =? 5) with true. cbv iota. rewrite (io_action_ok o d Df K).
  destruct Df as (R & Sk & Sc & Al & Ro & Di). rewrite R. cbn [r_files]. rewrite E. unfold set_vars, set_file. cbn [v_ttime v_rfname v_act v_offset v_bytes v_action r_files r_pieces r_last r_total r_reads r_writes r_trims r_waits].
  destruct K as [->|[->|[->|[-> | ->]]]]; cbn [count]; rewrite ?Ro; unfold queue; cbn [r_files r_pieces r_last r_total r_vars r_reads r_writes r_trims r_waits v_offset v_bytes v_fileno v_action ddir_is]; rewrite Sc, Al; cbn [Z.eqb bytes_align]; (split; [auto|]; split; [reflexivity|]; split; [reflexivity|]; split; [lia|]; split; [lia|]; split; [lia|]; exists (v_action (r_vars s)); reflexivity).
Qed.
Lemma read_file o s t n a names : default o -> r_files s = names -> good_event names (EFile t n a) -> good_name n ->
  let s' := read_line o s (line (EFile t n a)) in
  r_files s' = names /\ r_last s' = t /\ r_waits s' = r_waits s /\ r_reads s' = r_reads s /\ r_writes s' = r_writes s /\ r_trims s' = r_trims s /\
  exists off len, r_pieces s' = r_pieces s ++ [mkPiece DInval (get_fileno names n) off len (delay_since_ttime o (r_last s) t) a].
Proof.
  intros Df E (T & I & A) N s'. unfold s', read_line. rewrite (scan_file (r_vars s) t n a T N). cbn [v_act v_ttime v_rfname].
  assert (W : same (act_name a) (chars "wait") = false) by (destruct a; reflexivity). rewrite W. change (3 =? 5) with false. change (3 =? 3) with true. cbv iota.
  destruct Df as (R & Sk & Sc & Al & Ro & Di). rewrite R. destruct a; [congruence| |].
  - change (same (act_name FOpen) (chars "add")) with false. change (same (act_name FOpen) (chars "open")) with true. cbv iota. unfold queue, set_vars, set_file. cbn [r_files r_pieces r_last r_total r_vars r_reads r_writes r_trims r_waits v_offset v_bytes v_fileno v_action]. rewrite E.
    split; [auto|]. split; [reflexivity|]. split; [reflexivity|]. split; [reflexivity|]. split; [reflexivity|]. split; [reflexivity|]. eexists. eexists. reflexivity.
  - change (same (act_name FClose) (chars "add")) with false. change (same (act_name FClose) (chars "open")) with false. change (same (act_name FClose) (chars "close")) with true. cbv iota. unfold queue, set_vars, set_file. cbn [r_files r_pieces r_last r_total r_vars r_reads r_writes r_trims r_waits v_offset v_bytes v_fileno v_action]. rewrite E.
    split; [auto|]. split; [reflexivity|]. split; [reflexivity|]. split; [reflexivity|]. split; [reflexivity|]. split; [reflexivity|]. eexists. eexists. reflexivity.
Qed.
Lemma read_add o s t n : default o -> 0 <= t < 2 ^ 64 -> good_name n ->
  let s' := read_line o s (line (EFile t n FAdd)) in
  r_files s' = r_files s ++ [n] /\ r_last s' = t /\ r_waits s' = r_waits s /\ r_reads s' = r_reads s /\ r_writes s' = r_writes s /\ r_trims s' = r_trims s /\
  exists off len, r_pieces s' = r_pieces s ++ [mkPiece DInval (Z.of_nat (List.length (r_files s))) off len (delay_since_ttime o (r_last s) t) FAdd].
Proof.
  intros Df T N s'. unfold s', read_line. rewrite (scan_file (r_vars s) t n FAdd T N). cbn [v_act v_ttime v_rfname]. change (same (act_name FAdd) (chars "wait")) with false. change (3 =? 5) with false. change (3 =? 3) with true. cbv iota.
  destruct Df as (R & Sk & Sc & Al & Ro & Di). rewrite R. change (same (act_name FAdd) (chars "add")) with true. cbv iota. rewrite Di. cbn [app]. unfold queue, set_vars, set_file. cbn [r_files r_pieces r_last r_total r_vars r_reads r_writes r_trims r_waits v_offset v_bytes v_fileno v_action].
  split; [auto|]. split; [reflexivity|]. split; [reflexivity|]. split; [reflexivity|]. split; [reflexivity|]. split; [reflexivity|]. eexists. eexists. reflexivity.
Qed.

(** Replaying a list of pieces. *)
Lemma replay_app files a b la lb : replay files a = Some la -> replay files b = Some lb -> replay files (a ++ b) = Some (la ++ lb).
Proof.
  revert la. induction a as [|p a IH]; intros la Ha Hb; cbn [replay app] in *; [injection Ha as <-; exact Hb|]. destruct (p_ddir p); try (apply IH; assumption); (destruct (name_of files (p_fileno p)); [|discriminate]; destruct (replay files a) as [l'|] eqn:Ra; [|discriminate]; rewrite (IH l' eq_refl Hb); injection Ha as <-; reflexivity).
Qed.
Lemma delay_ok o last t : (o_no_stall o = false) -> 0 <= t < 2 ^ 64 -> 0 <= last <= t -> delay_since_ttime o last t = (if last =? 0 then 0 else t - last).
Proof.
  intros S T L. unfold delay_since_ttime. rewrite S. destruct (Z.eqb_spec last 0); [reflexivity|]. cbn [orb]. destruct (Z.ltb_spec t last); [lia|]. unfold u64. rewrite Z.mod_small by lia. reflexivity.
Qed.
Lemma events_ok o names es : default o -> Forall good_name names -> Forall (good_event names) es -> forall s, r_files s = names ->
  let s' := fold_left (fun s e => read_line o s (line e)) es s in
  r_files s' = names /\ r_waits s' = r_waits s /\ r_reads s <= r_reads s' /\ r_writes s <= r_writes s' /\ r_trims s <= r_trims s' /\
  (transfers es -> r_reads s < r_reads s' \/ r_writes s < r_writes s' \/ r_trims s < r_trims s') /\
  exists ps, r_pieces s' = r_pieces s ++ ps /\ replay names ps = Some (ios es) /\ (o_no_stall o = false -> 0 <= r_last s -> ordered (r_last s) es -> map p_delay ps = pauses (r_last s) es).
Proof.
  intros Df G H. induction H as [|e es He _ IH]; intros s E; cbn [fold_left].
  - split; [auto|]. split; [auto|]. split; [lia|]. split; [lia|]. split; [lia|]. split; [intros (t & n & d & off & len & [] & _)|]. exists []. rewrite app_nil_r. split; [reflexivity|]. split; [reflexivity|]. reflexivity.
  - pose proof G as G'. rewrite Forall_forall in G'. destruct e as [t n d off len|t n a].
    + pose proof He as (T & I & K & O & L). destruct (read_io o s t n d off len names Df E He (G' n I)) as (A1 & A2 & A3 & A4 & A5 & A6 & a & A7). set (s1 := read_line o s (line (EIo t n d off len))) in *.
      destruct (IH s1 A1) as (B1 & B2 & B3 & B4 & B5 & B6 & ps & B7 & B8 & B9). set (s2 := fold_left (fun s e => read_line o s (line e)) es s1) in *.
      assert (Dp : 0 <= ddir_is d DRead /\ 0 <= ddir_is d DWrite /\ 0 <= ddir_is d DTrim) by (destruct d; cbn; lia).
      split; [auto|]. split; [congruence|]. split; [lia|]. split; [lia|]. split; [lia|]. split.
      * intros (t' & n' & d' & off' & len' & [X|X] & Y).
        { injection X as <- <- <- <- <-. destruct Y as [->|[-> | ->]]; cbn in A4, A5, A6; lia. }
        { destruct B6 as [Z|[Z|Z]]; [exists t', n', d', off', len'; auto|lia|lia|lia]. }
      * eexists. split; [rewrite B7, A7, <- app_assoc; reflexivity|]. destruct (fileno_ok names n I) as (F & _). split.
        { cbn [app replay p_ddir p_fileno p_offset p_len ios]. destruct K as [->|[->|[->|[-> | ->]]]]; rewrite F, B8; reflexivity. }
        { intros S L0 Or. cbn [ordered time] in Or. destruct Or as (Or1 & Or2). cbn [app map p_delay pauses time]. rewrite (delay_ok o (r_last s) t S T ltac:(lia)). rewrite A2 in B9. rewrite (B9 S ltac:(lia) Or2). reflexivity. }
    + pose proof He as (T & I & K). destruct (read_file o s t n a names Df E He (G' n I)) as (A1 & A2 & A3 & A4 & A5 & A6 & off & len & A7). set (s1 := read_line o s (line (EFile t n a))) in *.
      destruct (IH s1 A1) as (B1 & B2 & B3 & B4 & B5 & B6 & ps & B7 & B8 & B9). set (s2 := fold_left (fun s e => read_line o s (line e)) es s1) in *.
      split; [auto|]. split; [congruence|]. split; [lia|]. split; [lia|]. split; [lia|]. split.
      * intros (t' & n' & d' & off' & len' & [X|X] & Y); [discriminate|]. destruct B6 as [Z|[Z|Z]]; [exists t', n', d', off', len'; auto|lia|lia|lia].
      * eexists. split; [rewrite B7, A7, <- app_assoc; reflexivity|]. destruct (fileno_ok names n I) as (F & _). split.
        { cbn [app replay p_ddir p_fileno p_offset p_len ios]. rewrite F, B8; reflexivity. }
        { intros S L0 Or. cbn [ordered time] in Or. destruct Or as (Or1 & Or2). cbn [app map p_delay pauses time]. rewrite (delay_ok o (r_last s) t S T ltac:(lia)). rewrite A2 in B9. rewrite (B9 S ltac:(lia) Or2). reflexivity. }
Qed.
Definition adds (files : list (Z * list Z)) : list event := map (fun '(t, n) => EFile t n FAdd) files.
Lemma name_of_app files n : name_of (files ++ n) (Z.of_nat (List.length files)) = nth_error n 0.
Proof. unfold name_of. destruct (Z.ltb_spec (Z.of_nat (List.length files)) 0); [lia|]. rewrite Nat2Z.id, nth_error_app2 by lia. rewrite Nat.sub_diag. reflexivity. Qed.
Lemma adds_ok o files : default o -> Forall (fun '(t, n) => 0 <= t < 2 ^ 64 /\ good_name n) files -> forall s,
  let s' := fold_left (fun s e => read_line o s (line e)) (adds files) s in
  r_files s' = r_files s ++ map snd files /\ r_waits s' = r_waits s /\ r_reads s' = r_reads s /\ r_writes s' = r_writes s /\ r_trims s' = r_trims s /\
  r_last s' = last (map fst files) (r_last s) /\
  exists ps, r_pieces s' = r_pieces s ++ ps /\ replay (r_files s') ps = Some [] /\ (o_no_stall o = false -> 0 <= r_last s -> ordered (r_last s) (adds files) -> map p_delay ps = pauses (r_last s) (adds files)).
Proof.
  intros Df H. induction H as [|[t n] files (T & N) _ IH]; intros s; cbn [adds map fold_left].
  - rewrite app_nil_r. split; [auto|]. split; [auto|]. split; [auto|]. split; [auto|]. split; [auto|]. split; [reflexivity|]. exists []. rewrite app_nil_r. split; [reflexivity|]. split; reflexivity.
  - change (map (fun '(t, n) => EFile t n FAdd) files) with (adds files). destruct (read_add o s t n Df T N) as (A1 & A2 & A3 & A4 & A5 & A6 & off & len & A7). set (s1 := read_line o s (line (EFile t n FAdd))) in *.
    destruct (IH s1) as (B1 & B2 & B3 & B4 & B5 & B6 & ps & B7 & B8 & B9). set (s2 := fold_left (fun s e => read_line o s (line e)) (adds files) s1) in *.
    assert (B1' : r_files s2 = r_files s ++ n :: map snd files) by (rewrite B1, A1, <- app_assoc; reflexivity).
    split; [exact B1'|]. split; [congruence|]. split; [congruence|]. split; [congruence|]. split; [congruence|]. split.
    + rewrite B6, A2. cbn [fst]. generalize (map fst files). intros l. clear. destruct l as [|x l]; [reflexivity|]. cbn [last]. assert (G : forall (l : list Z) x d d', last (x :: l) d = last (x :: l) d') by (clear; induction l as [|y l IH]; intros x d d'; [reflexivity|]; exact (IH y d d')). apply (G l x t (r_last s)).
    + eexists. split; [rewrite B7, A7, <- app_assoc; reflexivity|]. split.
      * cbn [app replay p_ddir p_fileno]. rewrite B1', name_of_app. cbn [nth_error]. rewrite <- B1', B8. reflexivity.
      * intros S L0 Or. cbn [ordered time adds map] in Or. destruct Or as (Or1 & Or2). cbn [app map p_delay pauses time adds]. rewrite (delay_ok o (r_last s) t S T ltac:(lia)). rewrite A2 in B9. rewrite (B9 S ltac:(lia) Or2). reflexivity.
Qed.

(** Whole logs. *)
Lemma read_log_fold o v files es names : names = map snd files -> Forall (fun '(t, n) => 0 <= t < 2 ^ 64 /\ good_name n) files -> Forall (good_event names) es ->
  let s := fold_left (fun s e => read_line o s (line e)) es (fold_left (fun s e => read_line o s (line e)) (adds files) (mkRs [] [] 0 0 v 0 0 0 0)) in
  read_log o v (write_log files es) = if (r_reads s =? 0) && (r_writes s =? 0) && (r_waits s =? 0) && (r_trims s =? 0) then None else Some s.
Proof.
  intros E F G s. unfold read_log, write_log. fold (adds files). change (ver3 ++ [10] ++ flat_map line (adds files) ++ flat_map line es) with (ver3 ++ 10 :: flat_map line (adds files) ++ flat_map line es).
  rewrite fgets_line; [| repeat constructor; discriminate | cbn; lia].
  destruct (ver3 ++ 10 :: flat_map line (adds files) ++ flat_map line es) as [|x y] eqn:Z; [discriminate|]. clear Z x y. change (starts ver3 (ver3 ++ [10])) with true. cbn [negb]. cbv zeta.
  rewrite <- flat_map_app.
  assert (GN : Forall good_name names) by (subst names; clear -F; induction F as [|[t n] l (_ & N) _ IH]; constructor; auto).
  assert (C : Forall (fun e => clean (line e)) (adds files ++ es)).
  { apply Forall_app. split.
    - clear -F. unfold adds. induction F as [|[t n] l (T & N) _ IH]; constructor; auto. apply (body _ []); [constructor|]. right. exists t, n. auto.
    - clear -G GN. induction G as [|e l He _ IH]; constructor; auto. apply (body _ names); auto. }
  rewrite (read_lines_fold o (adds files ++ es) C) by (apply flat_length, C). rewrite fold_left_app. reflexivity.
Qed.
Lemma last_cons (l : list Z) : forall x d, last (x :: l) d = last l x.
Proof. induction l as [|y l IH]; intros x d; [reflexivity|]. change (last (x :: y :: l) d) with (last (y :: l) d). rewrite !IH. reflexivity. Qed.
Lemma ordered_app t0 a b : ordered t0 (a ++ b) -> ordered t0 a /\ ordered (last (map time a) t0) b.
Proof.
  revert t0. induction a as [|e a IH]; intros t0 H; [split; [exact I|exact H]|]. cbn [app ordered] in H. destruct H as (H1 & H2). destruct (IH _ H2) as (A & B). split; [split; assumption|]. cbn [map]. rewrite last_cons. exact B.
Qed.
Lemma pauses_app t0 a b : pauses t0 (a ++ b) = pauses t0 a ++ pauses (last (map time a) t0) b.
Proof. revert t0. induction a as [|e a IH]; intros t0; [reflexivity|]. cbn [app pauses map]. rewrite IH, last_cons. reflexivity. Qed.
Lemma adds_time files : map time (adds files) = map fst files.
Proof. induction files as [|[t n] l IH]; [reflexivity|]. cbn [adds map time fst]. unfold adds in IH. rewrite IH. reflexivity. Qed.
Lemma ordered_last t0 es : 0 <= t0 -> ordered t0 es -> 0 <= last (map time es) t0.
Proof. revert t0. induction es as [|e es IH]; intros t0 H O; [exact H|]. destruct O as (O1 & O2). cbn [map]. rewrite last_cons. apply IH; [lia|exact O2]. Qed.
Lemma round_trip o v files es : default o -> Forall (fun '(t, n) => 0 <= t < 2 ^ 64 /\ good_name n) files -> Forall (good_event (map snd files)) es -> transfers es ->
  exists s, read_log o v (write_log files es) = Some s /\ r_files s = map snd files /\ replay (r_files s) (r_pieces s) = Some (ios es) /\
    (o_no_stall o = false -> ordered 0 (adds files ++ es) -> map p_delay (r_pieces s) = pauses 0 (adds files ++ es)).
Proof.
  intros Df F G T. assert (GN : Forall good_name (map snd files)) by (clear -F; induction F as [|[t n] l (_ & N) _ IH]; constructor; auto).
  rewrite (read_log_fold o v files es (map snd files) eq_refl F G). set (s0 := mkRs [] [] 0 0 v 0 0 0 0).
  destruct (adds_ok o files Df F s0) as (A1 & A2 & A3 & A4 & A5 & A6 & ps & A7 & A8 & A9). set (s1 := fold_left (fun s e => read_line o s (line e)) (adds files) s0) in *. cbn [s0 r_files app] in A1.
  destruct (events_ok o (map snd files) es Df GN G s1 A1) as (B1 & B2 & B3 & B4 & B5 & B6 & qs & B7 & B8 & B9). set (s2 := fold_left (fun s e => read_line o s (line e)) es s1) in *.
  exists s2. specialize (B6 T). cbn [s0 r_reads r_writes r_trims r_waits r_last r_pieces app] in A2, A3, A4, A5, A6, A7, A9. split; [|split; [exact B1|split]].
  - destruct (Z.eqb_spec (r_reads s2) 0); [|reflexivity]. destruct (Z.eqb_spec (r_writes s2) 0); [|reflexivity]. destruct (Z.eqb_spec (r_waits s2) 0); [|reflexivity]. destruct (Z.eqb_spec (r_trims s2) 0); [|reflexivity]. lia.
  - rewrite B1, B7. change (ios es) with ([] ++ ios es). apply replay_app; [|exact B8]. rewrite <- A1, A7. exact A8.
  - intros S O. destruct (ordered_app _ _ _ O) as (O1 & O2). pose proof (ordered_last 0 (adds files) ltac:(lia) O1) as O3. rewrite B7, A7. cbn [app]. rewrite map_app, pauses_app. rewrite (A9 S ltac:(lia) O1). rewrite adds_time in *. rewrite <- A6 in *. rewrite (B9 S O3 O2). reflexivity.
Qed.

(** Any text at all: what the options rule out. *)
Definition piece_ok (o : ropts) (p : piece) : Prop :=
  (o_readonly o = true -> p_ddir p <> DWrite /\ p_ddir p <> DTrim) /\
  (forall d, In d [DRead; DWrite; DTrim; DSync] -> o_skip o d = true -> p_ddir p <> d) /\
  (o_no_stall o = true -> p_delay p = 0) /\
  (forall k, 0 <= k <= 63 -> o_align o = 2 ^ k -> p_offset p mod 2 ^ k = 0).
Lemma land_high x k : 0 <= k <= 63 -> Z.land x (not64 (2 ^ k - 1)) mod 2 ^ k = 0.
Proof.
  intros K. apply Z.bits_inj'. intros i Hi. rewrite Z.bits_0. destruct (Z.ltb_spec i k).
  - rewrite Z.mod_pow2_bits_low by lia. rewrite Z.land_spec.
    replace (2 ^ k - 1) with (Z.ones k) by (rewrite Z.ones_equiv; lia). rewrite not64_testbit, Z.ones_spec_low by first [lia | rewrite Z.ones_equiv; pose proof (Z.pow_lt_mono_r 2 k 64 ltac:(lia) ltac:(lia) ltac:(lia)); pose proof (Z.pow_pos_nonneg 2 k ltac:(lia) ltac:(lia)); lia]. cbn [negb]. rewrite ?andb_false_r. reflexivity.
  - apply Z.mod_pow2_bits_high. lia.
Qed.
Lemma io_action_skip o act d : io_action o act = Some d -> In d [DRead; DWrite; DTrim; DSync] -> o_skip o d = false.
Proof.
  unfold io_action. intros H I.
  repeat match type of H with (if ?c then _ else _) = _ => let X := fresh in destruct c eqn:X end; try discriminate; injection H as <-; try assumption; cbn in I; intuition discriminate.
Qed.
Lemma queue_ok o s rw delay : (o_readonly o = true -> rw <> DWrite /\ rw <> DTrim) -> (forall d, In d [DRead; DWrite; DTrim; DSync] -> o_skip o d = true -> rw <> d) -> (o_no_stall o = true -> delay = 0 /\ rw <> DWait) ->
  Forall (piece_ok o) (r_pieces s) -> Forall (piece_ok o) (r_pieces (queue o s rw delay)).
Proof.
  intros R Sk D F. unfold queue. cbn [r_pieces]. apply Forall_app. split; [exact F|]. apply Forall_cons; [|constructor].
  assert (A : forall k off, 0 <= k <= 63 -> o_align o = 2 ^ k -> bytes_align (o_align o) off mod 2 ^ k = 0).
  { intros k off K E. rewrite E. unfold bytes_align. destruct (Z.eqb_spec (2 ^ k) 0); [pose proof (Z.pow_pos_nonneg 2 k ltac:(lia) ltac:(lia)); lia|]. apply land_high, K. }
  destruct rw; (split; [cbn [p_ddir]; exact R|]; split; [cbn [p_ddir]; exact Sk|]; split; [cbn [p_delay]; intros N; destruct (D N); congruence|]; cbn [p_offset]; intros k K E; first [apply A; assumption | apply Z.mod_0_l; pose proof (Z.pow_pos_nonneg 2 k ltac:(lia) ltac:(lia)); lia]).
Qed.
Lemma count_ok o s rw s' : count o s rw = Some s' -> r_pieces s' = r_pieces s /\ (o_readonly o = true -> rw <> DWrite /\ rw <> DTrim) /\ (o_no_stall o = true -> rw <> DWait).
Proof.
  destruct s. unfold count. destruct rw; intros H; try (injection H as <-; cbn; split; [reflexivity|]; split; [intros _; split; discriminate|intros _; discriminate]).
  - destruct (o_readonly o) eqn:E; [discriminate|]. injection H as <-. cbn. split; [reflexivity|]. split; [discriminate|]. intros _. discriminate.
  - destruct (o_readonly o) eqn:E; [discriminate|]. injection H as <-. cbn. split; [reflexivity|]. split; [discriminate|]. intros _. discriminate.
  - destruct (o_no_stall o) eqn:E; [discriminate|]. injection H as <-. cbn. split; [reflexivity|]. split; [intros _; split; discriminate|discriminate].
Qed.
Lemma no_stall_delay o a b : o_no_stall o = true -> delay_since_ttime o a b = 0.
Proof. intros H. unfold delay_since_ttime. rewrite H, orb_true_r. reflexivity. Qed.
Lemma read_line_ok o s l : Forall (piece_ok o) (r_pieces s) -> Forall (piece_ok o) (r_pieces (read_line o s l)).
Proof.
  intros F. unfold read_line. destruct (sscanf5 (r_vars s) l) as [r v]. cbv zeta. destruct (same (v_act v) (chars "wait")) eqn:W; [exact F|].
  assert (Q : forall s' delay, delay = delay_since_ttime o (r_last s) (v_ttime v) -> r_pieces s' = r_pieces s -> Forall (piece_ok o) (r_pieces (queue o s' DInval delay))).
  { intros s' delay Ed E. apply queue_ok; [intros _; split; discriminate| |intros N; split; [subst; apply no_stall_delay, N|discriminate]|rewrite E; exact F]. intros d I _ X. subst d. cbn in I. intuition discriminate. }
  destruct (r =? 5).
  - destruct (io_action o (v_act v)) as [rw|] eqn:A; [|exact F]. destruct (count o _ rw) as [s'|] eqn:C; [|exact F]. apply count_ok in C. destruct C as (C1 & C2 & C3). apply queue_ok; [exact C2| | |rewrite C1; exact F].
    + intros d I Sk X. subst d. rewrite (io_action_skip o _ rw A I) in Sk. discriminate.
    + intros N. split; [apply no_stall_delay, N|apply C3, N].
  - destruct (r =? 3); [|exact F]. destruct (same (v_act v) (chars "add")).
    + destruct (o_redirect o); [destruct (negb _)|]; (apply Q; [reflexivity|reflexivity]).
    + destruct (same (v_act v) (chars "open")); [apply Q; reflexivity|]. destruct (same (v_act v) (chars "close")); [apply Q; reflexivity|exact F].
Qed.
Lemma read_lines_ok o k : forall s text, Forall (piece_ok o) (r_pieces s) -> Forall (piece_ok o) (r_pieces (read_lines k o s text)).
Proof. induction k as [|k IH]; intros s text F; [exact F|]. cbn [read_lines]. destruct text; [exact F|]. destruct (fgets 4095 (z :: text)). apply IH, read_line_ok, F. Qed.
Lemma read_log_ok o v text s : read_log o v text = Some s -> Forall (piece_ok o) (r_pieces s).
Proof.
  unfold read_log. destruct (fgets 255 text) as [l rest]. destruct text; [discriminate|]. destruct (negb (starts ver3 l)); [discriminate|]. cbv zeta. destruct (_ && _); [discriminate|]. intros H. injection H as <-. apply read_lines_ok. constructor.
Qed.
