From Coq Require Import ZArith List Bool Lia.
From Verif Require Import CBase CStr JsonModel JsonSpec.
Import ListNotations.
Open Scope Z_scope.

Section Ind.
  Variable Q : value -> Prop.
  Hypothesis Hs : forall s, Q (VStr s).
  Hypothesis Hi : forall n, Q (VInt n).
  Hypothesis Hf : forall d, Q (VFlo d).
  Hypothesis Ho : forall ps, Forall (fun p => Q (snd p)) ps -> Q (VObj ps).
  Hypothesis Ha : forall vs, Forall Q vs -> Q (VArr vs).
  Fixpoint value_ind2 (v : value) : Q v :=
    match v with
    | VStr s => Hs s
    | VInt n => Hi n
    | VFlo d => Hf d
    | VObj ps => Ho ps ((fix go l : Forall (fun p => Q (snd p)) l := match l with [] => Forall_nil _ | p :: l => Forall_cons p (value_ind2 (snd p)) (go l) end) ps)
    | VArr vs => Ha vs ((fix go l : Forall Q l := match l with [] => Forall_nil _ | x :: l => Forall_cons x (value_ind2 x) (go l) end) vs)
    end.
End Ind.

(** The copy fits its block exactly. *)
Lemma escape_length s : Z.of_nat (length (escape_copy s)) = Z.of_nat (length s) + escapes s.
Proof.
  induction s as [|c s IH]; [reflexivity|]. cbn [escape_copy escapes]. unfold special. rewrite app_length. destruct ((c =? 92) || (c =? 34)); cbn [length]; lia.
Qed.
Lemma strdup_ok s : strdup_escape s = Some (escape_copy s).
Proof. unfold strdup_escape. rewrite escape_length. destruct (Z.leb_spec (Z.of_nat (length s) + escapes s + 1) (Z.of_nat (length s) + escapes s + 1)); [reflexivity|lia]. Qed.

(** The text without the option. *)
Definition sep (first : bool) : list Z := if first then [] else [44; 10].
Fixpoint ptext (level : nat) (v : value) {struct v} : list Z :=
  match v with
  | VStr s => 34 :: escape_copy s ++ [34]
  | VInt n => fmt_lld n
  | VFlo d => fmt_f d
  | VObj ps => [123; 10] ++ (fix pairs (first : bool) l := match l with [] => [] | (n, x) :: l => sep first ++ indent (S level) ++ 34 :: n ++ [34; 32; 58; 32] ++ ptext (S level) x ++ pairs false l end) true ps ++ [10] ++ indent level ++ [125]
  | VArr vs => [91; 10] ++ (fix elems (first : bool) l := match l with [] => [] | x :: l => sep first ++ indent (S level) ++ ptext (S level) x ++ elems false l end) true vs ++ [10] ++ indent level ++ [93]
  end.
Fixpoint ppairs (level : nat) (first : bool) (l : list (list Z * value)) : list Z :=
  match l with [] => [] | (n, x) :: l => sep first ++ indent (S level) ++ 34 :: n ++ [34; 32; 58; 32] ++ ptext (S level) x ++ ppairs level false l end.
Fixpoint pelems (level : nat) (first : bool) (l : list value) : list Z :=
  match l with [] => [] | x :: l => sep first ++ indent (S level) ++ ptext (S level) x ++ pelems level false l end.
Lemma ptext_obj level ps : ptext level (VObj ps) = [123; 10] ++ ppairs level true ps ++ [10] ++ indent level ++ [125].
Proof.
  cbn [ptext]. match goal with |- _ ++ ?F true ps ++ _ = _ => assert (E : forall first, F first ps = ppairs level first ps) end; [|rewrite E; reflexivity].
  induction ps as [|[n x] l IH]; intros first; [reflexivity|]. cbn [ppairs]. rewrite IH. reflexivity.
Qed.
Lemma ptext_arr level vs : ptext level (VArr vs) = [91; 10] ++ pelems level true vs ++ [10] ++ indent level ++ [93].
Proof.
  cbn [ptext]. match goal with |- _ ++ ?F true vs ++ _ = _ => assert (E : forall first, F first vs = pelems level first vs) end; [|rewrite E; reflexivity].
  induction vs as [|x l IH]; intros first; [reflexivity|]. cbn [pelems]. rewrite IH. reflexivity.
Qed.
Lemma print_ok v : forall level, print_value level v = Some (ptext level v).
Proof.
  induction v as [s|n|d|ps IH|vs IH] using value_ind2; intros level.
  - cbn [print_value]. rewrite strdup_ok. reflexivity.
  - reflexivity.
  - reflexivity.
  - rewrite ptext_obj. cbn [print_value].
    match goal with |- obind (?F true ps) _ = _ => assert (E : forall first, F first ps = Some (ppairs level first ps)) end.
    { induction IH as [|[n x] l H _ IH2]; intros first; [reflexivity|]. cbn [snd] in H. cbn [ppairs]. rewrite H. cbn [obind]. rewrite IH2. reflexivity. }
    rewrite E. reflexivity.
  - rewrite ptext_arr. cbn [print_value].
    match goal with |- obind (?F true vs) _ = _ => assert (E : forall first, F first vs = Some (pelems level first vs)) end.
    { induction IH as [|x l H _ IH2]; intros first; [reflexivity|]. cbn [pelems]. rewrite H. cbn [obind]. rewrite IH2. reflexivity. }
    rewrite E. reflexivity.
Qed.

(** White space. *)
Lemma skipws_ind k r : skipws (repeat 32 k ++ r) = skipws r.
Proof. induction k as [|k IH]; [reflexivity|]. exact IH. Qed.
Lemma skipws_stop c r : is_ws c = false -> skipws (c :: r) = c :: r.
Proof. intros H. cbn [skipws]. rewrite H. reflexivity. Qed.

(** Strings. *)
Lemma read_escaped s r : Forall (fun c => 32 <= c) s -> read_string (escape_copy s ++ 34 :: r) = Some (s, r).
Proof.
  intros H. induction H as [|c s H _ IH]; [reflexivity|]. cbn [escape_copy]. destruct (Z.eqb_spec c 92) as [->|N].
  - cbn [orb app]. cbn [read_string]. change (92 =? 34) with false. change (92 =? 92) with true. cbn [unescape orb Z.eqb]. rewrite IH. reflexivity.
  - destruct (Z.eqb_spec c 34) as [->|N2].
    + cbn [orb app]. cbn [read_string]. change (92 =? 34) with false. change (92 =? 92) with true. cbn [unescape orb Z.eqb]. rewrite IH. reflexivity.
    + cbn [orb app read_string]. apply Z.eqb_neq in N, N2. rewrite N, N2. destruct (Z.ltb_spec c 32); [lia|]. rewrite IH. reflexivity.
Qed.
Lemma read_name n r : Forall (fun c => 32 <= c /\ c <> 34 /\ c <> 92) n -> read_string (n ++ 34 :: r) = Some (n, r).
Proof.
  intros H. induction H as [|c s (H & N2 & N) _ IH]; [reflexivity|]. cbn [app read_string]. apply Z.eqb_neq in N, N2. rewrite N, N2. destruct (Z.ltb_spec c 32); [lia|]. rewrite IH. reflexivity.
Qed.

(** Numbers. *)
Definition ends (r : list Z) : Prop := forall c t, r = c :: t -> is_dig c = false /\ c <> 46 /\ c <> 101 /\ c <> 69.
Lemma read_digits_ok ds : Forall (fun c => digit c = true) ds -> forall acc k r, (forall c t, r = c :: t -> is_dig c = false) ->
  read_digits acc k (ds ++ r) = (fold_left (fun a c => a * 10 + (c - 48)) ds acc, k + Z.of_nat (length ds), r).
Proof.
  intros H. induction H as [|c ds H _ IH]; intros acc k r E; cbn [app fold_left length].
  - rewrite Z.add_0_r. destruct r as [|c t]; [reflexivity|]. cbn [read_digits]. rewrite (E c t eq_refl). reflexivity.
  - cbn [read_digits]. change (is_dig c) with (digit c). rewrite H, IH by auto. f_equal. f_equal. lia.
Qed.
Lemma dec_head f : forall n, 0 < n -> (Z.to_nat (Z.log2 n) < f)%nat -> exists c t, dec_ f n = c :: t /\ c <> 48.
Proof.
  induction f as [|f IH]; intros n H L; [lia|]. cbn [dec_]. destruct (Z.ltb_spec n 10) as [B|B].
  - exists (48 + n), []. split; [reflexivity|lia].
  - pose proof (log2_div10 n B). destruct (IH (n / 10)) as (c & t & E & N); [apply Z.div_str_pos; lia|lia|]. exists c, (t ++ [48 + n mod 10]). rewrite E. auto.
Qed.
Lemma read_int_dec n r : 0 <= n -> (forall c t, r = c :: t -> is_dig c = false) -> read_int (dec n ++ r) = Some (n, r).
Proof.
  intros H E. destruct (Z.eq_dec n 0) as [->|N].
  - change (dec 0) with [48]. cbn [app read_int]. change (48 =? 48) with true. destruct r as [|d t]; [reflexivity|]. rewrite (E d t eq_refl). reflexivity.
  - unfold read_int. destruct (dec_head (S (Z.to_nat (Z.log2 n))) n) as (c & t & D & C); [lia|lia|]. change (dec_ (S (Z.to_nat (Z.log2 n))) n) with (dec n) in D. pose proof (dec_digits n H) as G.
    pose proof (read_digits_ok (dec n) G 0 0 r E) as R. pose proof (dec_val n H) as V. unfold dval in V. rewrite V in R. rewrite D in *. cbn [app] in *. apply Z.eqb_neq in C. rewrite C. inversion G as [|? ? G1 _]; subst. change (is_dig c) with (digit c). rewrite G1, R. reflexivity.
Qed.
Lemma padded_ok k : forall n, 0 <= n -> length (padded k n) = k /\ Forall (fun c => digit c = true) (padded k n) /\ forall acc, fold_left (fun a c => a * 10 + (c - 48)) (padded k n) acc = acc * 10 ^ Z.of_nat k + n mod 10 ^ Z.of_nat k.
Proof.
  induction k as [|k IH]; intros n H.
  - cbn [padded fold_left length]. split; [reflexivity|]. split; [constructor|]. intros acc. change (10 ^ Z.of_nat 0) with 1. rewrite Z.mod_1_r. lia.
  - cbn [padded]. destruct (IH (n / 10)) as (A & B & C); [apply Z.div_pos; lia|]. split; [rewrite app_length, A; cbn; lia|]. split.
    + apply Forall_app. split; [exact B|]. constructor; [|constructor]. unfold digit. pose proof (Z.mod_pos_bound n 10). apply andb_true_iff. rewrite !Z.leb_le. lia.
    + intros acc. rewrite fold_left_app, C. cbn [fold_left]. rewrite Nat2Z.inj_succ, Z.pow_succ_r by lia. rewrite Z.rem_mul_r by lia. lia.
Qed.
Lemma frac_nothing n r : ends r -> read_frac n r = Some (n, 0, r).
Proof. intros E. destruct r as [|c t]; [reflexivity|]. destruct (E c t eq_refl) as (_ & N & _). unfold read_frac. apply Z.eqb_neq in N. rewrite N. reflexivity. Qed.
Lemma exp_nothing r : ends r -> read_exp r = Some (0, r).
Proof. intros E. destruct r as [|c t]; [reflexivity|]. destruct (E c t eq_refl) as (_ & _ & N & N2). unfold read_exp. apply Z.eqb_neq in N, N2. rewrite N, N2. reflexivity. Qed.
Lemma ends_dig r : ends r -> forall c t, r = c :: t -> is_dig c = false.
Proof. intros E c t H. apply (E c t H). Qed.
Lemma dec_start n : 0 <= n -> exists c t, dec n = c :: t /\ 48 <= c <= 57.
Proof.
  intros H. pose proof (dec_digits n H) as G. pose proof (dec_nonempty n H) as N. destruct (dec n) as [|c t]; [congruence|]. exists c, t. split; [reflexivity|]. inversion G as [|? ? G1 _]; subst. unfold digit in G1. rewrite andb_true_iff, !Z.leb_le in G1. lia.
Qed.
Lemma sign_plain n r : 0 <= n -> (match dec n ++ r with c :: t => if c =? 45 then (true, t) else (false, dec n ++ r) | [] => (false, dec n ++ r) end) = (false, dec n ++ r).
Proof. intros H. destruct (dec_start n H) as (c & t & -> & R). cbn [app]. destruct (Z.eqb_spec c 45); [lia|reflexivity]. Qed.
Lemma read_lld n r : ends r -> read_number (fmt_lld n ++ r) = Some (Jnumber n 0, r).
Proof.
  intros E. unfold fmt_lld. destruct (Z.ltb_spec n 0) as [L|L].
  - cbn [app]. unfold read_number. change (45 =? 45) with true. cbv iota beta. rewrite read_int_dec by (try lia; apply ends_dig; auto). rewrite frac_nothing, exp_nothing by auto. f_equal. f_equal. f_equal; lia.
  - unfold read_number. rewrite (sign_plain n r L). rewrite read_int_dec by (try lia; apply ends_dig; auto). rewrite frac_nothing, exp_nothing by auto. reflexivity.
Qed.
Lemma read_f neg m r : 0 <= m -> ends r -> read_number (fmt_f (Fin neg m) ++ r) = Some (Jnumber (if neg then - m else m) (-6), r).
Proof.
  intros H E. cbn [fmt_f]. assert (Q : 0 <= m / 1000000) by (apply Z.div_pos; lia). pose proof (Z.mod_pos_bound m 1000000 ltac:(lia)) as B.
  set (t := [46] ++ padded 6 (m mod 1000000) ++ r).
  assert (I : read_int (dec (m / 1000000) ++ t) = Some (m / 1000000, t)) by (apply read_int_dec; [auto|]; intros c u X; unfold t in X; injection X as X _; subst c; reflexivity).
  assert (F : read_frac (m / 1000000) t = Some (m, -6, r)).
  { unfold t, read_frac. cbn [app]. change (46 =? 46) with true. destruct (padded_ok 6 (m mod 1000000) (proj1 B)) as (P1 & P2 & P3). rewrite (read_digits_ok _ P2 (m / 1000000) 0 r (ends_dig r E)). rewrite P1, P3.
    change (10 ^ Z.of_nat 6) with 1000000. change (0 + Z.of_nat 6) with 6. change (6 =? 0) with false. cbv iota. rewrite Z.mod_mod by lia. f_equal. f_equal. f_equal. pose proof (Z.div_mod m 1000000). lia. }
  destruct neg.
  - rewrite <- !app_assoc. unfold read_number. cbn [app]. change (45 =? 45) with true. cbv iota beta. change (46 :: padded 6 (m mod 1000000) ++ r) with t. rewrite I, F, (exp_nothing r E). reflexivity.
  - rewrite <- !app_assoc. cbn [app]. unfold read_number. change (46 :: padded 6 (m mod 1000000) ++ r) with t. rewrite (sign_plain (m / 1000000) t Q). rewrite I, F, (exp_nothing r E). reflexivity.
Qed.
Lemma fmt_start v r : match v with VInt _ => True | VFlo (Fin _ m) => 0 <= m | _ => False end -> forall l, exists c t, ptext l v ++ r = c :: t /\ (c = 45 \/ 48 <= c <= 57).
Proof.
  intros H l. destruct v as [s|n|[neg m|neg|neg]|ps|vs]; try contradiction; cbn [ptext].
  - unfold fmt_lld. destruct (Z.ltb_spec n 0); [exists 45; eexists; split; [reflexivity|lia]|]. destruct (dec_start n) as (c & t & -> & R); [lia|]. exists c; eexists. split; [reflexivity|lia].
  - cbn [fmt_f]. destruct neg; [exists 45; eexists; split; [reflexivity|lia]|]. destruct (dec_start (m / 1000000)) as (c & t & -> & R); [apply Z.div_pos; lia|]. exists c; eexists. split; [reflexivity|lia].
Qed.

(** Values: enough recursion for the reader. *)
Fixpoint need (v : value) : nat :=
  match v with
  | VObj ps => S (fold_right (fun '(_, x) a => S (need x + a)) 0%nat ps)
  | VArr vs => S (fold_right (fun x a => S (need x + a)) 0%nat vs)
  | _ => 1%nat
  end.
Definition needp (ps : list (list Z * value)) : nat := fold_right (fun '(_, x) a => S (need x + a)) 0%nat ps.
Definition neede (vs : list value) : nat := fold_right (fun x a => S (need x + a)) 0%nat vs.

Definition reads (v : value) : Prop := forall f level k r, (need v <= f)%nat -> plain v -> ends r -> read_value f (repeat 32 k ++ ptext level v ++ r) = Some (meaning v, r).
Lemma ends_tail a r : a = 44 \/ a = 10 \/ a = 125 \/ a = 93 -> ends (a :: r).
Proof. intros H c t E. injection E as E _. subst c. destruct H as [->|[->|[-> | ->]]]; (split; [reflexivity|lia]). Qed.

Lemma read_number_value f c t : c = 45 \/ 48 <= c <= 57 -> read_value (S f) (c :: t) = read_number (c :: t).
Proof.
  intros H. cbn [read_value]. rewrite skipws_stop.
  - destruct (Z.eqb_spec c 34); [lia|]. destruct (Z.eqb_spec c 123); [lia|]. destruct (Z.eqb_spec c 91); [lia|]. destruct (Z.eqb_spec c 116); [lia|]. destruct (Z.eqb_spec c 102); [lia|]. destruct (Z.eqb_spec c 110); [lia|]. reflexivity.
  - unfold is_ws. destruct (Z.eqb_spec c 32); [lia|]. destruct (Z.eqb_spec c 9); [lia|]. destruct (Z.eqb_spec c 10); [lia|]. destruct (Z.eqb_spec c 13); [lia|]. reflexivity.
Qed.
Lemma read_value_ws f k s : read_value f (repeat 32 k ++ s) = read_value f s.
Proof. destruct f; [reflexivity|]. cbn [read_value]. rewrite skipws_ind. reflexivity. Qed.

Lemma read_pairs level ps : Forall (fun p => reads (snd p)) ps -> forall f r, ps <> [] -> (needp ps <= f)%nat -> plain (VObj ps) ->
  read_members f (ppairs level true ps ++ [10] ++ indent level ++ [125] ++ r) = Some (map (fun '(n, x) => (n, meaning x)) ps, r).
Proof.
  intros H. induction H as [|[n x] l Hx _ IH]; intros f r NE F P; [congruence|]. cbn [snd] in Hx. cbn [needp fold_right] in F. change (fold_right (fun '(_, x) a => S (need x + a)) 0%nat l) with (needp l) in F.
  destruct f as [|f]; [lia|]. cbn [ppairs sep app]. unfold indent at 1. rewrite <- !app_assoc. cbn [read_members]. rewrite skipws_ind. cbn [app]. rewrite skipws_stop by reflexivity. change (34 =? 34) with true. cbn [negb].
  destruct P as (Pn & Px & Pl). rewrite <- !app_assoc. cbn [app]. rewrite (read_name n _ Pn). change (skipws (32 :: 58 :: 32 :: (ptext (S level) x ++ ppairs level false l) ++ 10 :: indent level ++ 125 :: r)) with (58 :: 32 :: (ptext (S level) x ++ ppairs level false l) ++ 10 :: indent level ++ 125 :: r).
  change (58 =? 58) with true. cbn [negb]. rewrite <- app_assoc. set (rest := ppairs level false l ++ 10 :: indent level ++ 125 :: r).
  assert (E : ends rest). { unfold rest. destruct l as [|[n2 x2] l]; cbn [ppairs app sep]; apply ends_tail; auto. }
  pose proof (Hx f (S level) 1%nat rest ltac:(lia) Px E) as R. cbn [repeat app] in R. rewrite R. unfold rest. destruct l as [|[n2 x2] l].
  - cbn [ppairs app map]. cbn [skipws]. change (is_ws 10) with true. cbv iota. unfold indent. rewrite skipws_ind, skipws_stop by reflexivity. reflexivity.
  - assert (Q : ppairs level false ((n2, x2) :: l) ++ 10 :: indent level ++ 125 :: r = 44 :: 10 :: ppairs level true ((n2, x2) :: l) ++ [10] ++ indent level ++ [125] ++ r) by (cbn [ppairs sep app]; reflexivity).
    rewrite Q. cbn [skipws]. change (is_ws 44) with false. cbv iota. change (44 =? 125) with false. change (44 =? 44) with true. cbv iota.
    assert (W : read_members f (10 :: ppairs level true ((n2, x2) :: l) ++ [10] ++ indent level ++ [125] ++ r) = read_members f (ppairs level true ((n2, x2) :: l) ++ [10] ++ indent level ++ [125] ++ r)) by (destruct f; reflexivity).
    rewrite W, IH; [reflexivity|discriminate|lia|exact Pl].
Qed.
Lemma read_elems level vs : Forall reads vs -> forall f r, vs <> [] -> (neede vs <= f)%nat -> plain (VArr vs) ->
  read_elements f (pelems level true vs ++ [10] ++ indent level ++ [93] ++ r) = Some (map meaning vs, r).
Proof.
  intros H. induction H as [|x l Hx _ IH]; intros f r NE F P; [congruence|]. cbn [neede fold_right] in F. change (fold_right (fun x a => S (need x + a)) 0%nat l) with (neede l) in F.
  destruct f as [|f]; [lia|]. cbn [pelems sep app]. unfold indent at 1. rewrite <- !app_assoc. cbn [read_elements]. destruct P as (Px & Pl).
  set (rest := pelems level false l ++ 10 :: indent level ++ 93 :: r).
  assert (E : ends rest). { unfold rest. destruct l as [|x2 l]; cbn [pelems app sep]; apply ends_tail; auto. }
  pose proof (Hx f (S level) (2 * S level)%nat rest ltac:(lia) Px E) as R. rewrite R. unfold rest. destruct l as [|x2 l].
  - cbn [pelems app map]. cbn [skipws]. change (is_ws 10) with true. cbv iota. unfold indent. rewrite skipws_ind, skipws_stop by reflexivity. reflexivity.
  - assert (Q : pelems level false (x2 :: l) ++ 10 :: indent level ++ 93 :: r = 44 :: 10 :: pelems level true (x2 :: l) ++ [10] ++ indent level ++ [93] ++ r) by (cbn [pelems sep app]; reflexivity).
    rewrite Q. cbn [skipws]. change (is_ws 44) with false. cbv iota. change (44 =? 93) with false. change (44 =? 44) with true. cbv iota.
    assert (W : read_elements f (10 :: pelems level true (x2 :: l) ++ [10] ++ indent level ++ [93] ++ r) = read_elements f (pelems level true (x2 :: l) ++ [10] ++ indent level ++ [93] ++ r)) by (destruct f as [|f]; [reflexivity|]; cbn [read_elements]; destruct f; reflexivity).
    rewrite W, IH; [reflexivity|discriminate|lia|exact Pl].
Qed.
Lemma all_read v : reads v.
Proof.
  induction v as [s|n|d|ps IH|vs IH] using value_ind2; intros f level k r F P E; rewrite read_value_ws; (destruct f as [|f]; [cbn [need] in F; lia|]).
  - cbn [ptext app]. rewrite <- app_assoc. cbn [read_value app]. rewrite skipws_stop by reflexivity. change (34 =? 34) with true. cbv iota. rewrite (read_escaped s r P). reflexivity.
  - destruct (fmt_start (VInt n) r I level) as (c & t & Q & C). rewrite Q, (read_number_value f c t C), <- Q. cbn [ptext]. rewrite (read_lld n r E). reflexivity.
  - destruct d as [neg m|neg|neg]; try contradiction. cbn [plain] in P. destruct (fmt_start (VFlo (Fin neg m)) r P level) as (c & t & Q & C). rewrite Q, (read_number_value f c t C), <- Q. cbn [ptext]. rewrite (read_f neg m r P E). reflexivity.
  - rewrite ptext_obj, <- !app_assoc. cbn [app read_value]. rewrite skipws_stop by reflexivity. change (123 =? 34) with false. change (123 =? 123) with true. cbv iota.
    destruct ps as [|p l].
    + cbn [ppairs app skipws]. change (is_ws 10) with true. cbv iota. unfold indent. rewrite skipws_ind, skipws_stop by reflexivity. reflexivity.
    + assert (NE : p :: l <> []) by discriminate. cbn [need] in F. change (fold_right (fun '(_, x) a => S (need x + a)) 0%nat (p :: l)) with (needp (p :: l)) in F. pose proof (read_pairs level (p :: l) IH f r NE ltac:(lia) P) as R.
      assert (W : read_members f (10 :: ppairs level true (p :: l) ++ 10 :: indent level ++ 125 :: r) = Some (map (fun '(n, x) => (n, meaning x)) (p :: l), r)) by (rewrite <- R; destruct f; reflexivity).
      rewrite W. assert (S : exists t, skipws (10 :: ppairs level true (p :: l) ++ 10 :: indent level ++ 125 :: r) = 34 :: t).
      { cbn [skipws]. change (is_ws 10) with true. cbv iota. destruct p as [n x]. cbn [ppairs sep app]. unfold indent at 1. rewrite <- !app_assoc, skipws_ind. eexists. reflexivity. }
      destruct S as (t & S). rewrite S. reflexivity.
  - rewrite ptext_arr, <- !app_assoc. cbn [app read_value]. rewrite skipws_stop by reflexivity. change (91 =? 34) with false. change (91 =? 123) with false. change (91 =? 91) with true. cbv iota.
    destruct vs as [|x l].
    + cbn [pelems app skipws]. change (is_ws 10) with true. cbv iota. unfold indent. rewrite skipws_ind, skipws_stop by reflexivity. reflexivity.
    + assert (NE : x :: l <> []) by discriminate. cbn [need] in F. change (fold_right (fun x a => S (need x + a)) 0%nat (x :: l)) with (neede (x :: l)) in F. pose proof (read_elems level (x :: l) IH f r NE ltac:(lia) P) as R.
      assert (W : read_elements f (10 :: pelems level true (x :: l) ++ 10 :: indent level ++ 93 :: r) = Some (map meaning (x :: l), r)).
      { rewrite <- R. destruct f as [|f]; [reflexivity|]. cbn [read_elements]. destruct f; reflexivity. }
      rewrite W. assert (S : exists c t, skipws (10 :: pelems level true (x :: l) ++ 10 :: indent level ++ 93 :: r) = c :: t /\ c <> 93).
      { cbn [skipws]. change (is_ws 10) with true. cbv iota. cbn [pelems sep app]. unfold indent at 1. rewrite <- !app_assoc, skipws_ind. destruct P as (Px & _). destruct x as [s|n|[neg m|neg|neg]|ps|vs]; try contradiction.
        - cbn [ptext app]. rewrite skipws_stop by reflexivity. exists 34. eexists. split; [reflexivity|lia].
        - destruct (fmt_start (VInt n) (pelems level false l ++ 10 :: indent level ++ 93 :: r) Logic.I (Datatypes.S level)) as (c & t & Q & C). rewrite Q. exists c, t. split; [|lia]. apply skipws_stop. unfold is_ws. destruct (Z.eqb_spec c 32); [lia|]. destruct (Z.eqb_spec c 9); [lia|]. destruct (Z.eqb_spec c 10); [lia|]. destruct (Z.eqb_spec c 13); [lia|]. reflexivity.
        - destruct (fmt_start (VFlo (Fin neg m)) (pelems level false l ++ 10 :: indent level ++ 93 :: r) Px (Datatypes.S level)) as (c & t & Q & C). rewrite Q. exists c, t. split; [|lia]. apply skipws_stop. unfold is_ws. destruct (Z.eqb_spec c 32); [lia|]. destruct (Z.eqb_spec c 9); [lia|]. destruct (Z.eqb_spec c 10); [lia|]. destruct (Z.eqb_spec c 13); [lia|]. reflexivity.
        - rewrite ptext_obj. cbn [app]. rewrite skipws_stop by reflexivity. exists 123. eexists. split; [reflexivity|lia].
        - rewrite ptext_arr. cbn [app]. rewrite skipws_stop by reflexivity. exists 91. eexists. split; [reflexivity|lia]. }
      destruct S as (c & t & S & C). rewrite S. apply Z.eqb_neq in C. rewrite C. reflexivity.
Qed.

(** The text is long enough to serve as the bound of the recursion. *)
Lemma need_length v : forall level, plain v -> (need v <= length (ptext level v))%nat.
Proof.
  induction v as [s|n|d|ps IH|vs IH] using value_ind2; intros level P.
  - cbn [need ptext length]. lia.
  - destruct (fmt_start (VInt n) [] I level) as (c & t & Q & _). rewrite app_nil_r in Q. rewrite Q. cbn. lia.
  - destruct d as [neg m|neg|neg]; try contradiction. destruct (fmt_start (VFlo (Fin neg m)) [] P level) as (c & t & Q & _). rewrite app_nil_r in Q. rewrite Q. cbn. lia.
  - rewrite ptext_obj. cbn [need]. assert (G : forall first, (needp ps <= length (ppairs level first ps))%nat).
    { cbn [plain] in P. revert P. induction IH as [|[n x] l H _ IH2]; intros P first; [cbn; lia|]. destruct P as (_ & Px & Pl). cbn [snd] in H. specialize (H (S level) Px). specialize (IH2 Pl false).
      cbn [needp fold_right ppairs]. change (fold_right (fun '(_, x) a => S (need x + a)) 0%nat l) with (needp l). rewrite !app_length. cbn [length]. rewrite !app_length. cbn [length]. rewrite ?app_length. lia. }
    specialize (G true). change (fold_right (fun '(_, x) a => S (need x + a)) 0%nat ps) with (needp ps). rewrite !app_length. cbn [length]. lia.
  - rewrite ptext_arr. cbn [need]. assert (G : forall first, (neede vs <= length (pelems level first vs))%nat).
    { cbn [plain] in P. revert P. induction IH as [|x l H _ IH2]; intros P first; [cbn; lia|]. destruct P as (Px & Pl). specialize (H (S level) Px). specialize (IH2 Pl false).
      cbn [neede fold_right pelems]. change (fold_right (fun x a => S (need x + a)) 0%nat l) with (neede l). rewrite !app_length. unfold indent. rewrite repeat_length. lia. }
    specialize (G true). change (fold_right (fun x a => S (need x + a)) 0%nat vs) with (neede vs). rewrite !app_length. cbn [length]. lia.
Qed.
