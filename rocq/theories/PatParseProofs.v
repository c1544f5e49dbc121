(** Proofs about the pattern parser. *)
From Coq Require Import ZArith List Lia Bool Arith.
From Verif Require Import CBase Mem PatternModel PatternSpec PatParseModel PatParseSpec.
Import ListNotations.
Open Scope Z_scope.

(** ** Scanning *)

Lemma find_char_app c s rest : ~ In c s -> find_char c (s ++ c :: rest) = Some (length s).
Proof.
  induction s as [|a s IH]; intros H; cbn [app find_char length].
  - rewrite Z.eqb_refl. auto.
  - destruct (Z.eqb_spec a c); [exfalso; apply H; left; auto|].
    rewrite IH; auto. intros G. apply H. right. auto.
Qed.

Lemma span_app p s rest : Forall (fun c => p c = true) s ->
  span p (s ++ rest) = (length s + span p rest)%nat.
Proof. induction 1; cbn [app span length]; auto. rewrite H, IHForall. auto. Qed.

Lemma span_le p s : (span p s <= length s)%nat.
Proof. induction s; cbn; auto. destruct (p a); cbn; lia. Qed.

Lemma find_0x_app t rest : Forall (fun c => is_x c = false) t ->
  match rest with b :: _ => is_x b = false | [] => True end ->
  find_0x (t ++ rest) = option_map (fun n => (length t + n)%nat) (find_0x rest).
Proof.
  induction t as [|a t IH]; intros Ht Hr.
  - cbn [app length plus]. destruct (find_0x rest); auto.
  - inversion Ht as [|? ? Ha Ht']; subst. cbn [app length].
    assert (E : find_0x (a :: t ++ rest) = option_map S (find_0x (t ++ rest))).
    { destruct (t ++ rest) as [|b r] eqn:Et.
      - destruct t, rest; try discriminate. reflexivity.
      - cbn [find_0x]. assert (Hb : is_x b = false).
        { destruct t as [|b' t']; cbn [app] in Et; [rewrite Et in Hr; auto|].
          inversion Et; subst. inversion Ht'; auto. }
        rewrite Hb, andb_false_r. reflexivity. }
    rewrite E, IH by auto. destruct (find_0x rest); reflexivity.
Qed.

Lemma find_0x_first s p : find_0x s = Some p -> first_0x s p.
Proof.
  revert p. induction s as [|a s' IH]; intros p E; [discriminate E|].
  destruct s' as [|b s]; [discriminate E|].
  cbn [find_0x] in E. change (match s with [] => None | _ :: _ => _ end) with (find_0x (b :: s)) in E. destruct ((a =? c0) && is_x b) eqn:C.
  - inversion E; subst. apply andb_prop in C. destruct C as [C1 C2]. apply Z.eqb_eq in C1. subst a.
    split; [exists b; auto|]. intros q Hq. lia.
  - destruct (find_0x (b :: s)) eqn:F; [|discriminate]. inversion E; subst.
    destruct (IH n eq_refl) as [(x & X1 & X2 & X3) N]. split; [exists x; auto|].
    intros [|q] Hq (y & Y1 & Y2 & Y3).
    + cbn in Y2, Y3. inversion Y2; subst. inversion Y3; subst. rewrite Y1 in C. discriminate.
    + apply (N q); [lia|]. exists y. auto.
Qed.

(** ** Decimal *)

Lemma digit_not_x c : is_digit c = true -> is_x c = false.
Proof. unfold is_digit, is_x. intros H. apply andb_prop in H. lia. Qed.
Lemma digit_not_space c : is_digit c = true -> is_space c = false.
Proof. unfold is_digit, is_space. intros H. apply andb_prop in H. lia. Qed.
Lemma x_not_hex c : is_x c = true -> is_hex c = false.
Proof. unfold is_x, is_hex, is_digit. lia. Qed.
Lemma hex_not_x c : is_hex c = true -> is_x c = false.
Proof. intros H. destruct (is_x c) eqn:E; auto. apply x_not_hex in E. congruence. Qed.

Definition dtext (neg : bool) (ds : list Z) : list Z := (if neg then [45] else []) ++ ds.

(** What may follow a number so that it stops there. *)
Definition stop_digit (r : list Z) : Prop := match r with [] => True | b :: _ => is_digit b = false end.

Lemma strtol10_ok neg ds r : ds <> [] -> Forall (fun c => is_digit c = true) ds -> stop_digit r ->
  - 2 ^ 31 <= dec_value neg ds < 2 ^ 31 ->
  strtol10 (dtext neg ds ++ r) = (dec_value neg ds, length (dtext neg ds)).
Proof.
  intros Hn Hd Hr Hv.
  assert (SP : span is_digit (ds ++ r) = length ds).
  { rewrite span_app by auto. destruct r as [|b r]; cbn [span]; [lia|]. cbn in Hr. rewrite Hr. lia. }
  assert (NZ : length ds <> 0%nat) by (destruct ds; cbn; congruence).
  assert (CL : Z.max LONG_MIN (Z.min LONG_MAX (dec_value neg ds)) = dec_value neg ds)
    by (unfold LONG_MIN, LONG_MAX; lia).
  destruct ds as [|d ds']; [congruence|]. inversion Hd as [|? ? Hd1 Hd2]; subst.
  set (ds := d :: ds') in *.
  assert (FN : firstn (length ds) (ds ++ r) = ds) by (rewrite firstn_app, Nat.sub_diag, firstn_all, firstn_O, app_nil_r; auto).
  unfold strtol10. destruct neg; cbn [dtext app].
  - cbn [span]. change (is_space 45) with false. cbv iota. cbn [skipn].
    change (45 =? 45) with true. cbv iota beta.
    fold ds. rewrite SP. destruct (Nat.eqb_spec (length ds) 0); [lia|]. rewrite FN.
    unfold dec_value in CL. cbv zeta. rewrite CL. cbn [dec_value length]. f_equal. lia.
  - subst ds. cbn [span app]. rewrite (digit_not_space d Hd1). cbn [skipn].
    assert (d =? 45 = false /\ d =? 43 = false) as [-> ->]
      by (unfold is_digit in Hd1; apply andb_prop in Hd1; lia).
    cbv iota beta. change (d :: ds' ++ r) with ((d :: ds') ++ r). rewrite SP.
    destruct (Nat.eqb_spec (length (d :: ds')) 0); [lia|]. rewrite FN.
    unfold dec_value in CL. cbv zeta. rewrite CL. cbn [dec_value]. f_equal. lia.
Qed.

Lemma dtext_head neg ds r : ds <> [] -> Forall (fun c => is_digit c = true) ds ->
  exists c t, dtext neg ds ++ r = c :: t /\ is_x c = false /\ is_space c = false /\
    (c = 45 \/ is_digit c = true).
Proof.
  intros Hn Hd. destruct ds as [|d ds]; [congruence|]. inversion Hd; subst.
  destruct neg; cbn [dtext app].
  - eexists _, _. split; [reflexivity|]. auto.
  - eexists _, _. split; [reflexivity|]. split; [apply digit_not_x; auto|].
    split; [apply digit_not_space; auto|]. auto.
Qed.

Lemma strntol_ok neg ds r q : ds <> [] -> Forall (fun c => is_digit c = true) ds ->
  (q <= length r)%nat -> (length (dtext neg ds) + q < 24)%nat ->
  stop_digit (firstn q r) ->
  - 2 ^ 31 <= dec_value neg ds < 2 ^ 31 ->
  strntol (dtext neg ds ++ r) (length (dtext neg ds) + q) = (dec_value neg ds, length (dtext neg ds)).
Proof.
  intros Hn Hd Hq Hl Hs Hv. unfold strntol.
  assert (FN : firstn (length (dtext neg ds) + q) (dtext neg ds ++ r) = dtext neg ds ++ firstn q r)
    by apply firstn_app_2.
  rewrite FN.
  destruct (dtext_head neg ds (firstn q r) Hn Hd) as (c & t & E & _ & Hsp & _).
  assert (Hc : (c =? 32) = false).
  { unfold is_space in Hsp. destruct (c =? 32); auto. }
  rewrite E. cbn [span]. rewrite Hc. rewrite Nat.sub_0_r. cbn [skipn]. rewrite FN.
  assert (length (dtext neg ds) <> 0%nat) by (destruct ds; [congruence|]; destruct neg; cbn; lia).
  destruct (Nat.eqb_spec (length (dtext neg ds) + q) 0); [lia|].
  destruct (Nat.leb_spec 24 (length (dtext neg ds) + q)); [lia|]. cbn [orb].
  rewrite strtol10_ok; auto.
Qed.

Lemma land255 v : 0 <= v -> Z.land v 255 = v mod 256.
Proof. intros. change 255 with (Z.ones 8). rewrite Z.land_ones by lia. auto. Qed.

Lemma emit_le_bytes n : forall f w L, 0 <= w < 2 ^ (8 * Z.of_nat n) ->
  (n <> 0%nat -> 2 ^ (8 * (Z.of_nat n - 1)) <= w) -> (n <= f)%nat -> Z.of_nat n <= L ->
  emit_le f w L = Some (map (fun k => Some (byte_of w k)) (seq 0 n)).
Proof.
  induction n as [|n IH]; intros f w L Hw Hl Hf HL.
  - assert (w = 0) by (cbn in Hw; lia). subst w. destruct f; reflexivity.
  - destruct f as [|f]; [lia|]. cbn [emit_le].
    assert (P : 0 < 2 ^ (8 * (Z.of_nat (S n) - 1))) by (apply Z.pow_pos_nonneg; lia).
    assert (2 ^ (8 * (Z.of_nat (S n) - 1)) <= w) by (apply Hl; lia).
    destruct (Z.eqb_spec w 0); [lia|]. destruct (Z.eqb_spec L 0); [lia|].
    assert (D : Z.shiftr w 8 = w / 256) by (rewrite Z.shiftr_div_pow2 by lia; auto).
    rewrite D.
    assert (P8 : 2 ^ (8 * Z.of_nat (S n)) = 2 ^ (8 * Z.of_nat n) * 256)
      by (replace (8 * Z.of_nat (S n)) with (8 * Z.of_nat n + 8) by lia; rewrite Z.pow_add_r by lia; auto).
    rewrite (IH f (w / 256) (L - 1)); try lia.
    + rewrite land255 by lia. cbn [seq map]. f_equal. f_equal.
      * unfold byte_of. cbn [Z.of_nat]. rewrite Z.mul_0_r, Z.pow_0_r, Z.div_1_r. auto.
      * rewrite <- seq_shift, map_map. apply map_ext. intros k. f_equal. unfold byte_of.
        change 256 with (2 ^ 8) at 1. rewrite Z.div_div by lia. rewrite <- Z.pow_add_r by lia.
        do 2 f_equal. f_equal. lia.
    + split; [apply Z.div_pos; lia|]. apply Z.div_lt_upper_bound; lia.
    + intros Hn. apply Z.div_le_lower_bound; [lia|].
      assert (E : 2 ^ (8 * (Z.of_nat (S n) - 1)) = 256 * 2 ^ (8 * (Z.of_nat n - 1))).
      { replace (8 * (Z.of_nat (S n) - 1)) with (8 + 8 * (Z.of_nat n - 1)) by lia.
        rewrite Z.pow_add_r by lia. auto. }
      lia.
Qed.

Lemma dec_emit v L : - 2 ^ 31 <= v < 2 ^ 31 -> v <> 0 -> zlen (dec_bytes v) <= L ->
  emit_le 4 (u32 v) L = Some (map Some (dec_bytes v)).
Proof.
  intros Hv Hn HL. unfold dec_bytes in *. unfold u32. set (w := v mod 2 ^ 32) in *.
  assert (Hw : 0 <= w < 2 ^ 32) by (apply Z.mod_pos_bound; lia).
  assert (w <> 0).
  { intros E. unfold w in E. destruct (Z_lt_ge_dec v 0).
    - assert (v mod 2 ^ 32 = v + 2 ^ 32); [|lia].
      symmetry. apply Z.mod_unique with (-1); lia.
    - rewrite Z.mod_small in E by lia. auto. }
  unfold zlen in HL. rewrite map_length, seq_length in HL. rewrite map_map.
  clearbody w.
  destruct (Z.ltb_spec w (2 ^ 8)); [|destruct (Z.ltb_spec w (2 ^ 16)); [|destruct (Z.ltb_spec w (2 ^ 24))]].
  - apply (emit_le_bytes 1); auto; cbn; lia.
  - apply (emit_le_bytes 2); auto; cbn; lia.
  - apply (emit_le_bytes 3); auto; cbn; lia.
  - apply (emit_le_bytes 4); auto; cbn; lia.
Qed.

(** What may follow a number item: end of text, a character that is neither a hex digit nor an x,
    or a hex item. *)
Definition stop (r : list Z) : Prop :=
  match r with
  | [] => True
  | b :: r' => is_hex b = false /\ is_x b = false \/
               (b = c0 /\ match r' with x :: _ => is_x x = true | [] => False end)
  end.

Lemma stop_not_x r : stop r -> match r with b :: _ => is_x b = false | [] => True end.
Proof. destruct r as [|b r]; cbn; auto. intros [[_ H]|[-> _]]; auto. Qed.

Lemma dec_item_ok neg ds rest L : ds <> [] -> Forall (fun c => is_digit c = true) ds -> stop rest ->
  - 2 ^ 31 <= dec_value neg ds < 2 ^ 31 ->
  (forall pos, first_0x (dtext neg ds ++ rest) pos -> (pos < 24)%nat) ->
  zlen (dec_bytes (dec_value neg ds)) <= L -> L <> 0 ->
  parse_number (dtext neg ds ++ rest) L = Some (map Some (dec_bytes (dec_value neg ds)), rest).
Proof.
  intros Hn Hd Hs Hv Hnear HL HL0. unfold parse_number.
  destruct (Z.eqb_spec L 0); [contradiction|].
  pose proof (stop_not_x rest Hs) as Hx.
  assert (TX : Forall (fun c => is_x c = false) (dtext neg ds)).
  { apply Forall_app. split; [destruct neg; auto|]. eapply Forall_impl; [|exact Hd].
    intros c. apply digit_not_x. }
  (* not a hex item *)
  assert (SH : scan_hex_prefix (dtext neg ds ++ rest) = 0%nat).
  { assert (NE : dtext neg ds <> []) by (destruct ds; [congruence|]; destruct neg; discriminate).
    destruct (dtext neg ds) as [|a t]; [congruence|]. cbn [app scan_hex_prefix].
    destruct (a =? c0); auto.
    assert (X1 : span is_x (t ++ rest) = 0%nat).
    { inversion TX as [|? ? ? TX']; subst.
      destruct t as [|b t']; cbn [app].
      - destruct rest as [|b r]; cbn [span]; auto. rewrite Hx. auto.
      - inversion TX' as [|? ? Hb]; subst. cbn [span]. rewrite Hb. auto. }
    rewrite X1. reflexivity. }
  rewrite SH. cbn [Nat.eqb].
  assert (NZ : (length (dtext neg ds) <> 0)%nat) by (destruct ds; [congruence|]; destruct neg; discriminate).
  assert (E : match find_0x (dtext neg ds ++ rest) with
              | Some (S k) => strntol (dtext neg ds ++ rest) (S k)
              | _ => strtol10 (dtext neg ds ++ rest) end
              = (dec_value neg ds, length (dtext neg ds))).
  { destruct (find_0x (dtext neg ds ++ rest)) as [p|] eqn:F.
    - pose proof (Hnear p (find_0x_first _ _ F)) as Hp.
      rewrite find_0x_app in F by auto.
      destruct (find_0x rest) as [q|] eqn:Fq; [|discriminate]. cbn [option_map] in F.
      assert (Hpq : p = (length (dtext neg ds) + q)%nat) by congruence.
      destruct p as [|k] eqn:Ep; [lia|]. rewrite Hpq. rewrite Hpq in Hp.
      apply strntol_ok; auto.
      + destruct (find_0x_first _ _ Fq) as [(x & _ & H1 & _) _].
        assert (q < length rest)%nat by (apply nth_error_Some; congruence). lia.
      + destruct rest as [|b r]; [rewrite firstn_nil; exact I|].
        destruct q as [|q]; [exact I|]. cbn [firstn stop_digit].
        destruct Hs as [[Hh _]|[-> Hr]].
        * unfold is_hex in Hh. destruct (is_digit b); auto.
        * exfalso. destruct r as [|x r]; [auto|]. cbn [find_0x] in Fq. rewrite Hr in Fq. discriminate.
    - rewrite find_0x_app in F by auto. destruct (find_0x rest) eqn:Fq; [discriminate|].
      apply strtol10_ok; auto. destruct rest as [|b r]; [exact I|]. cbn [stop_digit].
      destruct Hs as [[Hh _]|[-> Hr]].
      + unfold is_hex in Hh. destruct (is_digit b); auto.
      + exfalso. destruct r as [|x r]; [auto|]. cbn [find_0x] in Fq. rewrite Hr in Fq. discriminate. }
  rewrite E. cbv iota beta.
  destruct (Nat.eqb_spec (length (dtext neg ds)) 0); [lia|].
  destruct (Z.ltb_spec INT_MAX (dec_value neg ds)); [unfold INT_MAX in *; lia|].
  destruct (Z.ltb_spec (dec_value neg ds) INT_MIN); [unfold INT_MIN in *; lia|]. cbn [orb].
  assert (SK : skipn (length (dtext neg ds)) (dtext neg ds ++ rest) = rest)
    by (rewrite skipn_app, Nat.sub_diag, skipn_all; auto).
  rewrite SK. destruct (Z.eqb_spec (dec_value neg ds) 0) as [->|N].
  - reflexivity.
  - rewrite dec_emit by auto. auto.
Qed.

(** ** Hexadecimal *)

Lemma hex_val_range c : is_hex c = true -> 0 <= hex_val c < 16.
Proof.
  unfold is_hex, hex_val, is_digit. intros H.
  destruct (Z.leb_spec 48 c), (Z.leb_spec c 57), (Z.leb_spec 97 c), (Z.leb_spec c 102),
    (Z.leb_spec 65 c), (Z.leb_spec c 70); cbn in *; try discriminate; lia.
Qed.

Lemma scan_byte1 a s : is_hex a = true -> scan_byte 1 (a :: s) = Some (hex_val a).
Proof.
  intros H. unfold scan_byte. cbn [firstn span]. rewrite H. cbn [Nat.eqb firstn fold_left].
  pose proof (hex_val_range a H). rewrite Z.mod_small by lia. f_equal.
Qed.
Lemma scan_byte2 a b s : is_hex a = true -> is_hex b = true ->
  scan_byte 2 (a :: b :: s) = Some (hex_val a * 16 + hex_val b).
Proof.
  intros Ha Hb. unfold scan_byte. cbn [firstn span]. rewrite Ha, Hb. cbn [Nat.eqb firstn fold_left].
  pose proof (hex_val_range a Ha). pose proof (hex_val_range b Hb). rewrite Z.mod_small by lia. f_equal.
Qed.

Lemma pairs_length ds : length (pairs ds) = (length ds / 2)%nat.
Proof.
  enough (forall n l, (length l <= n)%nat -> length (pairs l) = (length l / 2)%nat) as H by (eapply H; eauto).
  induction n; intros l Hl; [destruct l; [auto|cbn in Hl; lia]|].
  destruct l as [|a [|b l]]; auto. cbn [pairs length]. rewrite IHn by (cbn in Hl; lia).
  symmetry. replace (S (S (length l))) with (length l + 1 * 2)%nat by lia. rewrite Nat.div_add by lia. lia.
Qed.

Lemma emit_pairs n : forall ds rest f L, (length ds <= n)%nat -> Nat.even (length ds) = true ->
  Forall (fun c => is_hex c = true) ds -> (length ds <= f)%nat -> zlen (pairs ds) <= L ->
  emit_hex f (ds ++ rest) (length ds) L = Some (map Some (pairs ds)).
Proof.
  induction n as [|n IH]; intros ds rest f L Hn He Hh Hf HL.
  - destruct ds; [|cbn in Hn; lia]. destruct f; reflexivity.
  - destruct ds as [|a [|b ds]]; [destruct f; reflexivity|discriminate|].
    inversion Hh as [|? ? Ha Hh1]; subst. inversion Hh1 as [|? ? Hb Hh2]; subst.
    cbn [length] in *. destruct f as [|f]; [lia|]. cbn [emit_hex].
    unfold zlen in HL. cbn [pairs length] in HL.
    destruct (Z.eqb_spec L 0); [lia|]. cbn [Nat.eqb].
    assert (O : Nat.odd (S (S (length ds))) = false) by (rewrite <- Nat.negb_even, He; auto).
    rewrite O. cbn [app skipn]. replace (S (S (length ds)) - 2)%nat with (length ds) by lia.
    rewrite (IH ds rest f (L - 1)); auto; try lia.
    + rewrite scan_byte2 by auto. reflexivity.
    + unfold zlen. lia.
Qed.

Lemma emit_hex_bytes ds rest L : Forall (fun c => is_hex c = true) ds -> zlen (hex_bytes ds) <= L ->
  emit_hex (length ds) (ds ++ rest) (length ds) L = Some (map Some (hex_bytes ds)).
Proof.
  intros Hh HL. unfold hex_bytes in *. destruct (Nat.odd (length ds)) eqn:O.
  - destruct ds as [|a ds]; [discriminate|]. inversion Hh; subst.
    unfold zlen in HL. cbn [length] in *. cbn [emit_hex]. cbn [Nat.eqb].
    destruct (Z.eqb_spec L 0); [lia|]. rewrite O. cbn [app skipn].
    replace (S (length ds) - 1)%nat with (length ds) by lia.
    rewrite (emit_pairs (length ds) ds rest); auto; try (unfold zlen; lia).
    + rewrite scan_byte1 by auto. reflexivity.
    + rewrite Nat.odd_succ in O. auto.
  - apply (emit_pairs (length ds)); auto. rewrite <- Nat.negb_odd, O. auto.
Qed.

Lemma hex_item_ok (x : Z) ds rest L : is_x x = true -> ds <> [] ->
  Forall (fun c => is_hex c = true) ds -> stop rest -> zlen (hex_bytes ds) <= L -> L <> 0 ->
  parse_number (c0 :: x :: ds ++ rest) L = Some (map Some (hex_bytes ds), rest).
Proof.
  intros Hx Hn Hh Hs HL HL0. unfold parse_number. destruct (Z.eqb_spec L 0); [contradiction|].
  assert (D : (0 < length ds)%nat) by (destruct ds; [congruence|cbn; lia]).
  assert (SX : span is_x (x :: ds ++ rest) = 1%nat).
  { cbn [span]. rewrite Hx. destruct ds as [|d ds']; [congruence|]. inversion Hh; subst.
    cbn [app span]. rewrite hex_not_x by auto. auto. }
  assert (SCAN : scan_hex_prefix (c0 :: x :: ds ++ rest) = (2 + (length ds + span is_hex rest))%nat).
  { unfold scan_hex_prefix. rewrite Z.eqb_refl, SX. cbn [Nat.eqb skipn]. rewrite span_app by auto.
    destruct (Nat.eqb_spec (length ds + span is_hex rest) 0); [lia|]. auto. }
  rewrite SCAN. cbn [Nat.eqb plus]. cbn [skipn].
  replace (S (S (length ds + span is_hex rest)) - 2)%nat with (length ds + span is_hex rest)%nat by lia.
  assert (N2 : match nth_error (ds ++ rest) (length ds + span is_hex rest - 1),
                     nth_error (ds ++ rest) (length ds + span is_hex rest) with
               | Some a, Some b => if (a =? c0) && is_x b then (length ds + span is_hex rest - 1)%nat
                                   else (length ds + span is_hex rest)%nat
               | _, _ => (length ds + span is_hex rest)%nat
               end = length ds).
  { destruct rest as [|b r].
    - cbn [span]. rewrite Nat.add_0_r, app_nil_r.
      assert (nth_error ds (length ds) = None) as -> by (apply nth_error_None; lia).
      destruct (nth_error _ _); auto.
    - destruct Hs as [[Hb1 Hb2]|[-> Hr]].
      + cbn [span]. rewrite Hb1, Nat.add_0_r.
        assert (nth_error (ds ++ b :: r) (length ds) = Some b) as ->
          by (rewrite nth_error_app2, Nat.sub_diag by lia; auto).
        destruct (nth_error _ _); auto. rewrite Hb2, andb_false_r. auto.
      + destruct r as [|y r]; [contradiction|].
        assert (SP : span is_hex (c0 :: y :: r) = 1%nat).
        { cbn [span]. rewrite (x_not_hex y Hr). reflexivity. }
        rewrite SP. replace (length ds + 1 - 1)%nat with (length ds) by lia.
        assert (nth_error (ds ++ c0 :: y :: r) (length ds) = Some c0) as ->
          by (rewrite nth_error_app2, Nat.sub_diag by lia; auto).
        assert (nth_error (ds ++ c0 :: y :: r) (length ds + 1) = Some y) as ->.
        { rewrite nth_error_app2 by lia. replace (length ds + 1 - length ds)%nat with 1%nat by lia. auto. }
        rewrite Hr. reflexivity. }
  cbv zeta. rewrite N2. rewrite emit_hex_bytes by auto.
  rewrite skipn_app, Nat.sub_diag, skipn_all. auto.
Qed.

(** ** Items *)

Lemma bytes_nonempty files it : item_ok files it -> (0 < length (bytes it))%nat.
Proof.
  destruct it as [s|up ds|neg ds| |name content]; cbn [item_ok bytes].
  - intros [H _]. destruct s; [congruence|cbn; lia].
  - intros [H _]. unfold hex_bytes. destruct (Nat.odd (length ds)) eqn:O.
    + destruct ds; [congruence|cbn; lia].
    + rewrite pairs_length. destruct ds as [|a [|b ds]]; [congruence|discriminate|].
      cbn [length]. apply Nat.div_str_pos. lia.
  - intros _. unfold dec_bytes. rewrite map_length, seq_length.
    destruct (_ <? _); [lia|]. destruct (_ <? _); [lia|]. destruct (_ <? _); lia.
  - intros _. cbn. lia.
  - intros (_ & _ & H). destruct content; [congruence|cbn; lia].
Qed.

Lemma stop_texts a r : is_number a -> separable (a :: r) -> stop (texts r).
Proof.
  intros Hn Hs. destruct r as [|b r]; [exact I|]. destruct Hs as [Hs _]. specialize (Hs Hn).
  unfold texts. cbn [map concat].
  destruct b as [s|up ds|neg ds| |name content]; cbn [text app stop].
  - left. auto.
  - right. split; auto. destruct up; reflexivity.
  - destruct neg; [|contradiction]. cbn. left. auto.
  - left. auto.
  - left. auto.
Qed.

Lemma skipn_one {A} (a : A) l : skipn 1 (a :: l) = l.
Proof. auto. Qed.

Definition item_fmt (it : item) : option Z := match it with IOff => Some 8 | _ => None end.

Lemma parse_item_ok files it r st :
  item_ok files it -> separable (it :: r) -> near (it :: r) ->
  zlen (bytes it) <= p_room st -> (it = IOff -> p_rem st <> 0) ->
  parse_item files fmt_desc (text it ++ texts r) st =
    Some (map Some (bytes it), texts r, item_fmt it).
Proof.
  intros Hok Hsep Hnear HL Hrem.
  pose proof (bytes_nonempty files it Hok) as NE. unfold zlen in HL.
  assert (R0 : p_room st <> 0) by lia.
  destruct it as [s|up ds|neg ds| |name content]; cbn [text item_fmt bytes item_ok] in *.
  - destruct Hok as [_ Hq]. cbn [app parse_item].
    change (DQ =? SQ) with false. change (DQ =? DQ) with true. cbv iota.
    unfold parse_string. destruct (Z.eqb_spec (p_room st) 0); [contradiction|]. rewrite skipn_one.
    rewrite <- app_assoc. cbn [app]. rewrite find_char_app by auto.
    destruct (Z.ltb_spec (p_room st) (Z.of_nat (length s))); [lia|].
    rewrite firstn_app, Nat.sub_diag, firstn_all, firstn_O, app_nil_r.
    change (s ++ DQ :: texts r) with (s ++ [DQ] ++ texts r). rewrite app_assoc.
    rewrite skipn_app, skipn_all2 by (rewrite app_length; cbn; lia).
    rewrite app_length. cbn [length]. replace (S (length s) - (length s + 1))%nat with 0%nat by lia. auto.
  - destruct Hok as [Hn Hh]. cbn [app parse_item].
    change (c0 =? SQ) with false. change (c0 =? DQ) with false. change (c0 =? PC) with false. cbv iota.
    rewrite hex_item_ok; auto; [destruct up; auto|].
    apply (stop_texts (IHex up ds)); cbn; auto.
  - destruct Hok as (Hn & Hd & Hv). destruct Hnear as [Hnr _].
    unfold texts in Hnr. cbn [map concat text] in Hnr. fold (texts r) in Hnr.
    change ((if neg then [45] else []) ++ ds) with (dtext neg ds) in *.
    destruct (dtext_head neg ds (texts r) Hn Hd) as (c & t & E & _ & _ & Hc).
    assert (PN : parse_item files fmt_desc (dtext neg ds ++ texts r) st =
                 (do (bs, r') <- parse_number (dtext neg ds ++ texts r) (p_room st); Some (bs, r', None))).
    { rewrite E. cbn [parse_item]. unfold is_digit in Hc.
      assert (c =? SQ = false /\ c =? DQ = false /\ c =? PC = false) as (-> & -> & ->).
      { unfold SQ, DQ, PC. destruct Hc as [->|Hc]; [auto|]. apply andb_prop in Hc. lia. }
      auto. }
    rewrite PN, dec_item_ok; auto. apply (stop_texts (IDec neg ds)); cbn; auto.
  - cbn [app parse_item]. change (PC =? SQ) with false. change (PC =? DQ) with false.
    change (PC =? PC) with true. cbv iota. unfold parse_format.
    destruct (Z.eqb_spec (p_room st) 0); [contradiction|].
    destruct (Z.eqb_spec (p_rem st) 0); [exfalso; apply Hrem; auto|].
    cbn [orb find_desc fmt_desc fst is_prefix]. change (PC =? PC) with true. cbn [andb Z.eqb Pos.eqb].
    cbn [snd]. cbn [repeat length] in HL. destruct (Z.ltb_spec (p_room st) 8); [lia|]. reflexivity.
  - destruct Hok as (Hq & Hf & Hc). cbn [app parse_item].
    change (SQ =? SQ) with true. cbv iota. unfold parse_file.
    destruct (Z.eqb_spec (p_room st) 0); [contradiction|]. rewrite skipn_one.
    rewrite <- app_assoc. cbn [app]. rewrite find_char_app by auto.
    rewrite firstn_app, Nat.sub_diag, firstn_all, firstn_O, app_nil_r. rewrite Hf.
    unfold zlen. rewrite Z.min_l by lia. rewrite Nat2Z.id, firstn_all.
    change (name ++ SQ :: texts r) with (name ++ [SQ] ++ texts r). rewrite app_assoc.
    rewrite skipn_app, skipn_all2 by (rewrite app_length; cbn; lia).
    rewrite app_length. cbn [length]. replace (S (length name) - (length name + 1))%nat with 0%nat by lia. auto.
Qed.

(** Overwriting [n] cells at [tot]. *)
Definition put_at {A} (buf : list A) (tot : nat) (d : list A) : list A :=
  firstn tot buf ++ d ++ skipn (tot + length d) buf.

Lemma put_at_nil {A} (buf : list A) tot : put_at buf tot [] = buf.
Proof. unfold put_at. cbn [length app]. rewrite Nat.add_0_r. apply firstn_skipn. Qed.

Lemma put_at_app {A} (buf : list A) tot a b : (tot + length a + length b <= length buf)%nat ->
  put_at (put_at buf tot a) (tot + length a) b = put_at buf tot (a ++ b).
Proof.
  intros H. unfold put_at.
  assert (Lf : length (firstn tot buf) = tot) by (rewrite firstn_length; lia).
  assert (F : firstn (tot + length a) (firstn tot buf ++ a ++ skipn (tot + length a) buf) = firstn tot buf ++ a).
  { rewrite app_assoc. rewrite firstn_app. rewrite app_length, Lf, Nat.sub_diag.
    rewrite firstn_O, app_nil_r. apply firstn_all2. rewrite app_length. lia. }
  rewrite F. rewrite <- !app_assoc. f_equal. f_equal. f_equal.
  rewrite app_assoc, skipn_app, skipn_all2 by (rewrite app_length; lia).
  rewrite app_length, Lf. cbn [app]. rewrite skipn_skipn'. f_equal. rewrite app_length. lia.
Qed.

Lemma put_at_length {A} (buf : list A) tot d : (tot + length d <= length buf)%nat ->
  length (put_at buf tot d) = length buf.
Proof. intros. unfold put_at. rewrite !app_length, firstn_length, skipn_length. lia. Qed.

Lemma texts_nonempty files it r : item_ok files it -> texts (it :: r) <> [].
Proof.
  unfold texts. cbn [map concat]. intros H E. apply app_eq_nil in E. destruct E as [E _].
  destruct it as [s|up ds|neg ds| |name content]; cbn [text] in E; try discriminate.
  destruct H as [H _]. destruct neg; [discriminate|]. cbn in E. congruence.
Qed.

Lemma match_ne {A B} (l : list A) (x y : B) : l <> [] -> match l with [] => x | _ :: _ => y end = y.
Proof. destruct l; congruence. Qed.

Lemma loop_ok files : forall its fuel st tot,
  its <> [] -> Forall (item_ok files) its -> separable its -> near its ->
  (length its <= fuel)%nat -> p_total st = Z.of_nat tot ->
  zlen (all_bytes its) <= p_room st -> zlen (off_fields 0 its) <= p_rem st ->
  (forall buf, p_out st = Some buf -> Z.of_nat (length buf) = p_total st + p_room st) ->
  fill_loop files fmt_desc fuel (texts its) st =
    Ret (mkPst (match p_out st with
                | None => None
                | Some buf => Some (put_at buf tot (map Some (all_bytes its)))
                end)
           (p_total st + zlen (all_bytes its)) (p_room st - zlen (all_bytes its))
           (rev (map (fun f => (match p_out st with None => 0 | Some _ => Z.of_nat f end, 8))
                  (off_fields tot its)) ++ p_fmts st)
           (p_rem st - zlen (off_fields tot its))).
Proof.
  assert (OFL : forall its a b, zlen (off_fields a its) = zlen (off_fields b its)).
  { unfold zlen. induction its as [|it its IH]; intros a b; auto. cbn [off_fields].
    rewrite !app_length. rewrite !Nat2Z.inj_add. rewrite (IH _ (b + length (bytes it))%nat).
    destruct it; reflexivity. }
  induction its as [|it r IH]; intros fuel st tot Hne Hok Hsep Hnear Hf Htot HL Hrem Hbuf; [congruence|].
  inversion Hok as [|? ? Hit Hokr]; subst.
  destruct fuel as [|fuel]; [cbn in Hf; lia|]. cbn [fill_loop].
  unfold all_bytes in *. unfold texts at 1. cbn [map concat] in *.
  fold (all_bytes r) in *. fold (texts r) in *.
  unfold zlen in HL. rewrite app_length in HL.
  pose proof (bytes_nonempty files it Hit) as NB.
  assert (RM : (it = IOff -> p_rem st <> 0)).
  { intros ->. cbn [off_fields] in Hrem. unfold zlen in Hrem. cbn [app length] in Hrem. lia. }
  rewrite parse_item_ok; auto; [|unfold zlen; lia].
  assert (ZL : @zlen cell (map Some (bytes it)) = zlen (bytes it)) by (unfold zlen; rewrite map_length; auto).
  rewrite ZL. unfold zlen at 1 2. destruct (Z.eqb_spec (Z.of_nat (length (bytes it))) 0); [lia|].
  destruct (Z.ltb_spec (p_room st) (Z.of_nat (length (bytes it)))); [lia|].
  assert (OUT : match p_out st with
                | None => Some None
                | Some buf => option_map Some (blit buf (Z.to_nat (p_total st)) (map Some (bytes it)))
                end = Some (match p_out st with None => None
                            | Some buf => Some (put_at buf tot (map Some (bytes it))) end)).
  { destruct (p_out st) as [buf|] eqn:Eo; auto. specialize (Hbuf buf eq_refl).
    unfold blit. rewrite Htot, Nat2Z.id, map_length.
    destruct (Nat.leb_spec (tot + length (bytes it)) (length buf)); [|lia].
    unfold put_at. rewrite map_length. reflexivity. }
  rewrite OUT. cbv iota zeta.
  assert (FL : (match item_fmt it with
                | Some l => (match p_out st with Some _ => p_total st | None => 0 end, l) :: p_fmts st
                | None => p_fmts st end)
               = rev (map (fun f => (match p_out st with None => 0 | Some _ => Z.of_nat f end, 8))
                       (match it with IOff => [tot] | _ => [] end)) ++ p_fmts st).
  { destruct it; cbn; auto. rewrite Htot. auto. }
  rewrite FL.
  assert (RL : match item_fmt it with Some _ => p_rem st - 1 | None => p_rem st end =
               p_rem st - zlen (match it with IOff => [tot] | _ => [] end)).
  { destruct it; cbn; lia. }
  rewrite RL.
  destruct r as [|it2 r].
  - cbn [texts map concat off_fields]. unfold all_bytes. cbn [map concat]. rewrite !app_nil_r.
    reflexivity.
  - set (st' := mkPst _ _ _ _ _).
    assert (TN : texts (it2 :: r) <> []) by (inversion Hokr; subst; eapply texts_nonempty; eauto).
    rewrite match_ne by exact TN.
    rewrite (IH fuel st' (tot + length (bytes it))%nat); auto; try congruence.
    + unfold st'. cbn [p_out p_total p_room p_fmts p_rem off_fields].
      rewrite !map_app, !rev_app_distr, !app_assoc. f_equal. unfold zlen. rewrite !app_length.
      f_equal; try lia.
      * destruct (p_out st) as [buf|] eqn:Eo; auto. f_equal.
        specialize (Hbuf buf eq_refl).
        replace (tot + length (bytes it))%nat with (tot + length (map (@Some Z) (bytes it)))%nat
          by (rewrite map_length; auto).
        apply put_at_app. rewrite !map_length. unfold zlen in *. lia.
      * destruct (p_out st); reflexivity.
    + destruct Hsep as [_ Hs]. exact Hs.
    + destruct Hnear as [_ Hs]. exact Hs.
    + cbn in Hf |- *. lia.
    + unfold st'. cbn. unfold zlen. lia.
    + unfold st'. cbn [p_room]. unfold zlen. lia.
    + unfold st'. cbn [p_rem].
      rewrite (OFL _ 0%nat (0 + length (bytes it))%nat).
      change (off_fields 0 (it :: it2 :: r)) with
        ((match it with IOff => [0%nat] | _ => [] end) ++ off_fields (0 + length (bytes it)) (it2 :: r)) in Hrem.
      unfold zlen in *. rewrite app_length in Hrem.
      assert (LE : length (match it with IOff => [0%nat] | _ => [] end) =
                   length (match it with IOff => [tot] | _ => [] end)) by (destruct it; reflexivity).
      rewrite LE in Hrem. lia.
    + unfold st'. cbn [p_out p_total p_room]. intros buf Eb.
      destruct (p_out st) as [buf0|] eqn:Eo; [|discriminate]. inversion Eb; subst.
      rewrite put_at_length; [rewrite (Hbuf buf0 eq_refl); unfold zlen; lia|].
      rewrite map_length. specialize (Hbuf buf0 eq_refl). unfold zlen in *. lia.
Qed.

(** ** All inputs *)

Lemma emit_le_any f : forall v L bs, 0 <= L -> emit_le f v L = Some bs ->
  zlen bs <= L /\ forall L', zlen bs <= L' -> emit_le f v L' = Some bs.
Proof.
  unfold zlen. induction f as [|f IH]; intros v L bs HL; cbn [emit_le].
  - destruct (v =? 0); [|discriminate]. intros E; inversion E; subst. cbn. auto.
  - destruct (v =? 0). { intros E; inversion E; subst. cbn. auto. }
    destruct (Z.eqb_spec L 0); [discriminate|].
    destruct (emit_le f (Z.shiftr v 8) (L - 1)) as [r|] eqn:E; [|discriminate].
    intros Q; inversion Q; subst. destruct (IH _ (L - 1) r ltac:(lia) E) as [I1 I2].
    cbn [length]. split; [lia|]. intros L' HL'. destruct (Z.eqb_spec L' 0); [lia|].
    rewrite I2 by lia. auto.
Qed.

Lemma emit_hex_any f : forall s num L bs, 0 <= L -> emit_hex f s num L = Some bs ->
  zlen bs <= L /\ forall L', zlen bs <= L' -> emit_hex f s num L' = Some bs.
Proof.
  unfold zlen. induction f as [|f IH]; intros s num L bs HL; cbn [emit_hex].
  - destruct (num =? 0)%nat; [|discriminate]. intros E; inversion E; subst. cbn. auto.
  - destruct (num =? 0)%nat. { intros E; inversion E; subst. cbn. auto. }
    destruct (Z.eqb_spec L 0); [discriminate|].
    destruct (Nat.odd num).
    + destruct (emit_hex f (skipn 1 s) (num - 1) (L - 1)) as [r|] eqn:E; [|discriminate].
      intros Q; inversion Q; subst. destruct (IH _ _ (L - 1) r ltac:(lia) E) as [I1 I2].
      cbn [length]. split; [lia|]. intros L' HL'. destruct (Z.eqb_spec L' 0); [lia|].
      rewrite I2 by lia. auto.
    + destruct (emit_hex f (skipn 2 s) (num - 2) (L - 1)) as [r|] eqn:E; [|discriminate].
      intros Q; inversion Q; subst. destruct (IH _ _ (L - 1) r ltac:(lia) E) as [I1 I2].
      cbn [length]. split; [lia|]. intros L' HL'. destruct (Z.eqb_spec L' 0); [lia|].
      rewrite I2 by lia. auto.
Qed.

Lemma parse_number_any beg L bs rest : 0 <= L -> parse_number beg L = Some (bs, rest) ->
  zlen bs <= L /\ (length rest < length beg)%nat /\
  forall L', zlen bs <= L' -> L' <> 0 -> parse_number beg L' = Some (bs, rest).
Proof.
  intros HL. unfold parse_number. destruct (Z.eqb_spec L 0); [discriminate|].
  destruct (scan_hex_prefix beg =? 0)%nat eqn:SC.
  - destruct (match find_0x beg with Some (S k) => strntol beg (S k) | _ => strtol10 beg end) as [lval n0] eqn:E.
    destruct (Nat.eqb_spec n0 0); [discriminate|].
    destruct (INT_MAX <? lval); [discriminate|]. destruct (lval <? INT_MIN); [discriminate|]. cbn [orb].
    assert (LB : (length (skipn n0 beg) < length beg)%nat).
    { rewrite skipn_length. destruct beg; [|cbn [length]; lia]. cbn in E. inversion E; subst. congruence. }
    destruct (Z.eqb_spec lval 0).
    + intros Q; inversion Q; subst. unfold zlen. cbn [length]. split; [lia|]. split; [auto|].
      intros L' H1 H2. destruct (Z.eqb_spec L' 0); [contradiction|]. auto.
    + destruct (emit_le 4 (u32 lval) L) as [r|] eqn:EE; [|discriminate].
      intros Q; inversion Q; subst. destruct (emit_le_any 4 _ L bs HL EE) as [I1 I2].
      split; [auto|]. split; [auto|]. intros L' H1 H2.
      destruct (Z.eqb_spec L' 0); [contradiction|]. rewrite I2 by auto. auto.
  - cbv zeta. match goal with |- context [emit_hex ?n _ _ L] => set (num2 := n) end.
    destruct (emit_hex num2 (skipn 2 beg) num2 L) as [r|] eqn:EE; [|discriminate].
    intros Q; inversion Q; subst. destruct (emit_hex_any _ _ _ L bs HL EE) as [I1 I2].
    split; [auto|]. split.
    + clearbody num2. assert (beg <> []) by (intros ->; discriminate SC).
      rewrite !skipn_length. destruct beg as [|b0 [|b1 beg]]; [congruence| |]; cbn [length]; lia.
    + intros L' H1 H2. destruct (Z.eqb_spec L' 0); [contradiction|]. rewrite I2 by auto. auto.
Qed.

Lemma find_char_lt c s n : find_char c s = Some n -> (n < length s)%nat.
Proof.
  revert n. induction s as [|a s IH]; cbn [find_char]; intros n E; [discriminate|].
  destruct (a =? c); [inversion E; cbn; lia|]. destruct (find_char c s); [|discriminate].
  inversion E; subst. specialize (IH n0 eq_refl). cbn. lia.
Qed.

(** One step on an arbitrary input. *)
Lemma parse_item_any files beg st bs rest fmt : 0 <= p_room st ->
  parse_item files fmt_desc beg st = Some (bs, rest, fmt) ->
  zlen bs <= p_room st /\ (length rest < length beg)%nat /\
  (forall st', zlen bs <= p_room st' -> p_room st' <= p_room st -> p_room st' <> 0 ->
     (fmt <> None -> p_rem st' <> 0) ->
     parse_item files fmt_desc beg st' = Some (bs, rest, fmt)) /\
  (match fmt with None => True | Some l => l = 8 /\ zlen bs = 8 /\ p_rem st <> 0 end).
Proof.
  intros HL E. unfold parse_item in *. destruct beg as [|a beg'].
  - exfalso. revert E. unfold parse_number. destruct (p_room st =? 0); cbn; intros E; discriminate E.
  - destruct (a =? SQ); [|destruct (a =? DQ); [|destruct (a =? PC)]].
    + unfold parse_file in *. rewrite skipn_one in *.
      destruct (Z.eqb_spec (p_room st) 0); [discriminate|].
      destruct (find_char SQ beg') as [m|] eqn:F; [|discriminate].
      destruct (files (firstn m beg')) as [content|] eqn:G; [|discriminate].
      assert (LS : (length (skipn (S m) beg') < length (a :: beg'))%nat)
        by (rewrite skipn_length; cbn [length]; lia).
      inversion E; subst. apply find_char_lt in F.
      assert (LN : zlen (map (@Some Z) (firstn (Z.to_nat (Z.min (zlen content) (p_room st))) content))
                   = Z.min (zlen content) (p_room st)).
      { unfold zlen. rewrite map_length, firstn_length. lia. }
      unfold cell in *. rewrite LN. split; [lia|]. split; [exact LS|].
      split; [|auto]. intros st' H1 H2 H3 _. destruct (Z.eqb_spec (p_room st') 0); [contradiction|].
      replace (Z.min (zlen content) (p_room st')) with (Z.min (zlen content) (p_room st)) by lia. auto.
    + unfold parse_string in *. rewrite skipn_one in *.
      destruct (Z.eqb_spec (p_room st) 0); [discriminate|].
      destruct (find_char DQ beg') as [m|] eqn:F; [|discriminate]. apply find_char_lt in F.
      assert (LS : (length (skipn (S m) beg') < length (a :: beg'))%nat)
        by (rewrite skipn_length; cbn [length]; lia).
      destruct (Z.ltb_spec (p_room st) (Z.of_nat m)); [discriminate|]. inversion E; subst.
      assert (LN : zlen (map (@Some Z) (firstn m beg')) = Z.of_nat m).
      { unfold zlen. rewrite map_length, firstn_length. lia. }
      unfold cell in *. rewrite LN. split; [lia|]. split; [exact LS|].
      split; [|auto]. intros st' H1 H2 H3 _. destruct (Z.eqb_spec (p_room st') 0); [contradiction|].
      destruct (Z.ltb_spec (p_room st') (Z.of_nat m)); [lia|]. auto.
    + unfold parse_format in *.
      destruct (Z.eqb_spec (p_room st) 0); [discriminate|].
      destruct (Z.eqb_spec (p_rem st) 0); [discriminate|]. cbn [orb] in *.
      cbn [fmt_desc find_desc fst] in *.
      destruct (is_prefix [PC; 111] (a :: beg')); [|discriminate]. cbn [snd fst length] in *.
      destruct (Z.ltb_spec (p_room st) 8); [discriminate|]. inversion E; subst.
      split; [change (8 <= p_room st); lia|].
      split; [destruct beg'; cbn [length]; lia|]. split; [|auto].
      intros st' H1 H2 H3 H4. destruct (Z.eqb_spec (p_room st') 0); [contradiction|].
      destruct (Z.eqb_spec (p_rem st') 0); [exfalso; apply H4; auto; discriminate|]. cbn [orb].
      change (8 <= p_room st') in H1.
      destruct (Z.ltb_spec (p_room st') 8); [lia|]. auto.
    + destruct (parse_number (a :: beg') (p_room st)) as [[bs' r']|] eqn:P; [|discriminate].
      inversion E; subst. destruct (parse_number_any _ _ _ _ HL P) as (I1 & I2 & I3).
      split; [auto|]. split; [auto|]. split; [|auto]. intros st' H1 H2 H3 _. rewrite I3; auto.
Qed.

Lemma fields_snoc : forall fs from plen, fields_ok from fs plen -> (from <= plen)%nat ->
  fields_ok from (fs ++ [plen]) (plen + 8).
Proof.
  induction fs as [|f fs IH]; intros from plen H Hle; cbn [app fields_ok].
  - split; [lia|]. split; [lia|exact I].
  - destruct H as (H1 & H2 & H3). split; [lia|]. split; [lia|]. apply IH; auto.
Qed.
Lemma fields_mono : forall fs from plen plen', fields_ok from fs plen -> (plen <= plen')%nat ->
  fields_ok from fs plen'.
Proof.
  induction fs as [|f fs IH]; intros from plen plen' H Hle; cbn [fields_ok]; auto.
  destruct H as (H1 & H2 & H3). split; [lia|]. split; [lia|]. eapply IH; eauto.
Qed.

(** Reachable loop states. *)
Record good (st : pst) : Prop := {
  g_total : 0 <= p_total st;
  g_room : 0 <= p_room st;
  g_rem : 0 <= p_rem st;
  g_out : match p_out st with
          | None => True
          | Some buf => zlen buf = p_total st + p_room st /\
              exists fields, p_fmts st = rev (map (fun f => (Z.of_nat f, 8)) fields) /\
                fields_ok 0 fields (Z.to_nat (p_total st))
          end }.

Definition step_st (st : pst) (bs : list cell) (fmt : option Z) (out' : option (list cell)) : pst :=
  mkPst out' (p_total st + zlen bs) (p_room st - zlen bs)
    (match fmt with
     | Some l => (match p_out st with Some _ => p_total st | None => 0 end, l) :: p_fmts st
     | None => p_fmts st end)
    (match fmt with Some _ => p_rem st - 1 | None => p_rem st end).

Lemma good_step files beg st bs rest fmt : good st ->
  parse_item files fmt_desc beg st = Some (bs, rest, fmt) ->
  exists out', match p_out st with
               | None => Some None
               | Some buf => option_map Some (blit buf (Z.to_nat (p_total st)) bs)
               end = Some out' /\
    (p_out st = None <-> out' = None) /\
    good (step_st st bs fmt out').
Proof.
  intros [G1 G2 G3 G4] E. destruct (parse_item_any _ _ _ _ _ _ G2 E) as (I1 & I2 & I3 & I4).
  assert (0 <= zlen bs) by (unfold zlen; lia).
  assert (0 <= match fmt with Some _ => p_rem st - 1 | None => p_rem st end).
  { destruct fmt; [destruct I4 as (_ & _ & ?)|]; lia. }
  destruct (p_out st) as [buf|] eqn:Eo.
  - destruct G4 as [L (fields & EF & FO)]. unfold zlen in *.
    destruct (blit_some buf (Z.to_nat (p_total st)) bs) as [b Eb]; [lia|].
    exists (Some b). rewrite Eb. split; [auto|]. split; [split; discriminate|].
    constructor; cbn [step_st p_total p_room p_rem p_out p_fmts]; unfold zlen; try lia; auto.
    split; [apply blit_length in Eb; lia|].
    rewrite Eo. destruct fmt as [l|].
    + destruct I4 as (-> & L8 & _). exists (fields ++ [Z.to_nat (p_total st)]).
      rewrite map_app, rev_app_distr. cbn [map rev app]. split.
      * rewrite EF, Z2Nat.id by lia. auto.
      * replace (Z.to_nat (p_total st + Z.of_nat (length bs))) with (Z.to_nat (p_total st) + 8)%nat by lia.
        apply fields_snoc; auto. lia.
    + exists fields. split; auto. eapply fields_mono; eauto. lia.
  - exists None. split; [auto|]. split; [tauto|].
    constructor; cbn [step_st p_total p_room p_rem p_out p_fmts]; unfold zlen in *; try lia; auto.
Qed.

(** The loop body, restated. *)
Lemma fill_loop_S files fuel beg st : fill_loop files fmt_desc (S fuel) beg st =
  match parse_item files fmt_desc beg st with
  | None => Inval
  | Some (bs, rest, fmt) =>
      if zlen bs =? 0 then Abort
      else if p_room st <? zlen bs then Abort
      else match match p_out st with
                 | None => Some None
                 | Some buf => option_map Some (blit buf (Z.to_nat (p_total st)) bs)
                 end with
           | None => Stuck
           | Some out' => match rest with [] => Ret (step_st st bs fmt out')
                          | _ => fill_loop files fmt_desc fuel rest (step_st st bs fmt out') end
           end
  end.
Proof. reflexivity. Qed.

Lemma loop_any files : forall fuel beg st, good st -> (length beg < fuel)%nat ->
  match fill_loop files fmt_desc fuel beg st with
  | Ret st' => good st' /\ p_total st < p_total st' /\ (p_out st = None <-> p_out st' = None) /\
      p_total st' + p_room st' = p_total st + p_room st /\ p_rem st' <= p_rem st /\
      p_rem st' + zlen (p_fmts st') = p_rem st + zlen (p_fmts st)
  | Inval | Abort => True
  | Stuck => False
  end.
Proof.
  induction fuel as [|fuel IH]; intros beg st G Hf; [lia|]. rewrite fill_loop_S.
  destruct (parse_item files fmt_desc beg st) as [[[bs rest] fmt]|] eqn:E; [|exact I].
  destruct (Z.eqb_spec (zlen bs) 0); [exact I|]. destruct (p_room st <? zlen bs); [exact I|].
  destruct (good_step _ _ _ _ _ _ G E) as (out' & Eo & Hn & G'). rewrite Eo.
  destruct (parse_item_any _ _ _ _ _ _ (g_room _ G) E) as (I1 & I2 & I3 & I4).
  assert (Q : p_total st < p_total (step_st st bs fmt out') /\
              (p_out st = None <-> p_out (step_st st bs fmt out') = None) /\
              p_total (step_st st bs fmt out') + p_room (step_st st bs fmt out') = p_total st + p_room st /\
              p_rem (step_st st bs fmt out') <= p_rem st /\
              p_rem (step_st st bs fmt out') + zlen (p_fmts (step_st st bs fmt out')) =
                p_rem st + zlen (p_fmts st)).
  { unfold step_st. cbn. unfold zlen in *. split; [lia|]. split; [auto|]. split; [lia|].
    destruct fmt; cbn [length]; split; lia. }
  destruct Q as (Q1 & Q2 & Q3 & Q4 & Q5).
  destruct rest as [|c rest].
  - split; [auto|]. auto.
  - specialize (IH (c :: rest) (step_st st bs fmt out') G' ltac:(lia)).
    destruct (fill_loop files fmt_desc fuel (c :: rest) (step_st st bs fmt out')) as [st2| | |]; auto.
    destruct IH as (J1 & J2 & J3 & J4 & J5 & J6). split; [auto|]. split; [lia|].
    split; [tauto|]. split; [lia|]. split; lia.
Qed.

(** The second pass, given exactly the room and the format slots the first pass used, succeeds with
    the same totals. *)
Lemma second_pass files : forall fuel beg st1 st1' st2,
  good st1 -> good st2 -> (length beg < fuel)%nat ->
  fill_loop files fmt_desc fuel beg st1 = Ret st1' ->
  p_total st2 = p_total st1 -> p_room st2 = p_total st1' - p_total st1 ->
  p_rem st2 = p_rem st1 - p_rem st1' ->
  exists st2', fill_loop files fmt_desc fuel beg st2 = Ret st2' /\
    p_total st2' = p_total st1' /\ p_room st2' = 0 /\ p_rem st2' = 0.
Proof.
  induction fuel as [|fuel IH]; intros beg st1 st1' st2 G1 G2 Hf E ET ER EM; [lia|].
  pose proof (loop_any files (S fuel) beg st1 G1 Hf) as LA. rewrite E in LA.
  destruct LA as (_ & LA1 & _ & LA2 & LA3 & _).
  rewrite fill_loop_S in *.
  destruct (parse_item files fmt_desc beg st1) as [[[bs rest] fmt]|] eqn:EI; [|discriminate].
  destruct (Z.eqb_spec (zlen bs) 0) as [|NZ]; [discriminate|].
  destruct (Z.ltb_spec (p_room st1) (zlen bs)); [discriminate|].
  destruct (good_step _ _ _ _ _ _ G1 EI) as (out1 & Eo1 & Hn1 & G1'). rewrite Eo1 in E.
  destruct (parse_item_any _ _ _ _ _ _ (g_room _ G1) EI) as (I1 & I2 & I3 & I4).
  (* the bytes left by the rest of the first pass *)
  assert (NX : p_total st1 + zlen bs <= p_total st1' /\ p_rem st1' <= p_rem st1 - match fmt with Some _ => 1 | None => 0 end).
  { destruct rest as [|c rest].
    - inversion E; subst. unfold step_st. cbn. destruct fmt; lia.
    - pose proof (loop_any files fuel (c :: rest) (step_st st1 bs fmt out1) G1' ltac:(lia)) as LB.
      rewrite E in LB. destruct LB as (_ & LB1 & _ & LB2 & LB3 & _). unfold step_st in LB1, LB3.
      cbn [p_total p_rem] in LB1, LB3. destruct fmt; lia. }
  destruct NX as [NX1 NX2].
  assert (0 <= zlen bs) by (unfold zlen; lia).
  pose proof (g_room _ G1). pose proof (g_room _ (ltac:(exact G2))).
  assert (EI2 : parse_item files fmt_desc beg st2 = Some (bs, rest, fmt)).
  { assert (RO : 0 <= p_room st1').
    { pose proof (loop_any files (S fuel) beg st1 G1 Hf) as LC. rewrite fill_loop_S, EI in LC.
      destruct (Z.eqb_spec (zlen bs) 0); [contradiction|].
      destruct (Z.ltb_spec (p_room st1) (zlen bs)); [lia|]. rewrite Eo1 in LC. rewrite E in LC.
      destruct LC as [LC _]. apply (g_room _ LC). }
    apply I3; try lia. intros Hfm. destruct fmt; [|congruence]. lia. }
  rewrite EI2. destruct (Z.eqb_spec (zlen bs) 0); [contradiction|].
  destruct (Z.ltb_spec (p_room st2) (zlen bs)); [lia|].
  destruct (good_step _ _ _ _ _ _ G2 EI2) as (out2 & Eo2 & Hn2 & G2'). rewrite Eo2.
  destruct rest as [|c rest].
  - inversion E; subst. eexists. split; [reflexivity|]. unfold step_st in *.
    cbn [p_total p_room p_rem] in *. destruct fmt; (split; [lia|split; lia]).
  - apply (IH (c :: rest) (step_st st1 bs fmt out1) st1' (step_st st2 bs fmt out2)); auto; try lia;
      unfold step_st; cbn [p_total p_room p_rem]; destruct fmt; lia.
Qed.
