From Coq Require Import ZArith List Bool Lia String Ascii.
From Verif Require Import CBase CStr UnitsModel UnitsSpec.
Import ListNotations.
Open Scope Z_scope.

Scheme number_ind2 := Induction for number Sort Prop with digits_ind2 := Induction for digits Sort Prop.
Lemma codes_chars s : codes s = chars s.
Proof. induction s as [|c s IH]; cbn; [reflexivity|]. rewrite IH. reflexivity. Qed.

Definition all_digits (ds : list Z) : Prop := Forall (fun c => digit c = true) ds.
Lemma nval_snoc b ds c : nval b (ds ++ [c]) = nval b ds * b + hval c.
Proof. unfold nval. rewrite fold_left_app. reflexivity. Qed.
Lemma digits_ok ds n : digits ds n -> ds <> [] /\ all_digits ds /\ nval 10 ds = n /\ 0 <= n.
Proof.
  intros H. induction H as [d D|ds n d H (A & B & C & N) D].
  - assert (X : digit (48 + d) = true) by (unfold digit; apply andb_true_iff; rewrite !Z.leb_le; lia).
    split; [discriminate|]. split; [constructor; [exact X|constructor]|]. unfold nval. cbn [fold_left]. unfold hval. rewrite X. lia.
  - assert (X : digit (48 + d) = true) by (unfold digit; apply andb_true_iff; rewrite !Z.leb_le; lia).
    split; [destruct ds; discriminate|]. split; [apply Forall_app; split; [exact B|constructor; [exact X|constructor]]|]. rewrite nval_snoc, C. unfold hval. rewrite X. lia.
Qed.
Lemma digit_range c : digit c = true -> 48 <= c <= 57.
Proof. unfold digit. rewrite andb_true_iff, !Z.leb_le. auto. Qed.
Lemma digit_not_space c : digit c = true -> isspace c = false.
Proof. intros H. apply digit_range in H. unfold isspace. apply orb_false_iff. split; [apply Z.eqb_neq; lia|]. apply andb_false_iff. right. apply Z.leb_gt. lia. Qed.
Lemma digit_not_alpha c : digit c = true -> isalpha c = false.
Proof. intros H. apply digit_range in H. unfold isalpha. apply orb_false_iff. split; apply andb_false_iff; left; apply Z.leb_gt; lia. Qed.

(** A string that a number may be followed by: it does not start with a digit. *)
Definition ends_number (r : list Z) : Prop := forall c t, r = c :: t -> digit c = false.
Lemma span_digits ds r : all_digits ds -> ends_number r -> span digit (ds ++ r) = (ds, r).
Proof. intros A B. apply span_app; auto. Qed.

(** The sign and digits that [number] allows. *)
Lemma number_form s v : number s v -> exists sg ds n, s = sg ++ ds /\ digits ds n /\ ((sg = [] /\ v = n) \/ (sg = [43] /\ v = n) \/ (sg = [45] /\ v = - n)).
Proof.
  intros H. destruct H as [ds n H|ds n H|ds n H].
  - exists [], ds, n. split; [reflexivity|]. split; [exact H|]. tauto.
  - exists [43], ds, n. split; [reflexivity|]. split; [exact H|]. tauto.
  - exists [45], ds, n. split; [reflexivity|]. split; [exact H|]. tauto.
Qed.
Definition strtoll10 (sg : bool) (s : list Z) : Z * bool * bool :=
  let ds := fst (span digit s) in
  let v := if sg then - nval 10 ds else nval 10 ds in
  match ds with
  | [] => (0, false, false)
  | _ => if v <? - 2 ^ 63 then (- 2 ^ 63, true, true) else if 2 ^ 63 - 1 <? v then (2 ^ 63 - 1, true, true) else (v, true, false)
  end.
Lemma strtoll_base10 s : strtoll s 10 =
  match snd (span isspace s) with c :: t => if c =? 45 then strtoll10 true t else if c =? 43 then strtoll10 false t else strtoll10 false (c :: t) | [] => (0, false, false) end.
Proof.
  unfold strtoll. destruct (snd (span isspace s)) as [|c t]; [reflexivity|].
  destruct (c =? 45); [destruct t as [|a [|b [|d t]]]; reflexivity|]. destruct (c =? 43); destruct t as [|a [|b [|d t]]]; reflexivity.
Qed.
Lemma strtoll10_ok sg ds n r : digits ds n -> ends_number r -> strtoll10 sg (ds ++ r) =
  (let v := if sg then - n else n in if v <? - 2 ^ 63 then (- 2 ^ 63, true, true) else if 2 ^ 63 - 1 <? v then (2 ^ 63 - 1, true, true) else (v, true, false)).
Proof.
  intros D E. destruct (digits_ok ds n D) as (A & B & C & _). unfold strtoll10. rewrite (span_digits ds r B E). cbn [fst]. rewrite C. destruct ds; [congruence|reflexivity].
Qed.
Lemma strtoll_number s v r : number s v -> ends_number r ->
  strtoll (s ++ r) 10 = (if v <? - 2 ^ 63 then (- 2 ^ 63, true, true) else if 2 ^ 63 - 1 <? v then (2 ^ 63 - 1, true, true) else (v, true, false)).
Proof.
  intros H E. destruct (number_form s v H) as (sg & ds & n & -> & D & F). destruct (digits_ok ds n D) as (A & B & C & N). rewrite strtoll_base10.
  destruct ds as [|d ds]; [congruence|]. assert (X : digit d = true) by (inversion B; auto). pose proof (digit_range d X) as R.
  destruct F as [(-> & ->)|[(-> & ->)|(-> & ->)]].
  - cbn [app span]. rewrite (digit_not_space d X). cbn [snd]. destruct (Z.eqb_spec d 45); [lia|]. destruct (Z.eqb_spec d 43); [lia|]. change (d :: ds ++ r) with ((d :: ds) ++ r). rewrite (strtoll10_ok false _ n r D E). reflexivity.
  - cbn [app span]. change (isspace 43) with false. cbn [snd]. change (43 =? 45) with false. change (43 =? 43) with true. change (d :: ds ++ r) with ((d :: ds) ++ r). rewrite (strtoll10_ok false _ n r D E). reflexivity.
  - cbn [app span]. change (isspace 45) with false. cbn [snd]. change (45 =? 45) with true. change (d :: ds ++ r) with ((d :: ds) ++ r). rewrite (strtoll10_ok true _ n r D E). reflexivity.
Qed.

(** Without the letter x the base is 10. *)
Lemma starts_in lit s c : starts lit s = true -> In c lit -> In c s.
Proof.
  revert s. induction lit as [|a lit IH]; intros [|b s] H I; cbn in *; try contradiction; try discriminate.
  apply andb_true_iff in H. destruct H as (E & H). apply Z.eqb_eq in E. destruct I as [I|I]; [left; congruence|right; auto].
Qed.
Lemma has_in lit s c : has lit s = true -> In c lit -> In c s.
Proof.
  induction s as [|b s IH]; intros H I; cbn [has] in H.
  - rewrite orb_false_r in H. apply (starts_in lit [] c H I).
  - apply orb_true_iff in H. destruct H as [H|H]; [apply (starts_in lit (b :: s) c H I)|right; auto].
Qed.
Definition no_x (s : list Z) : Prop := ~ In 120 s /\ ~ In 88 s.
Lemma base10 s : no_x s -> has (chars "0x") s || has (chars "0X") s = false.
Proof.
  intros (A & B). apply orb_false_iff. split.
  - destruct (has (chars "0x") s) eqn:E; [|reflexivity]. exfalso. apply A. apply (has_in _ s 120 E). right. left. reflexivity.
  - destruct (has (chars "0X") s) eqn:E; [|reflexivity]. exfalso. apply B. apply (has_in _ s 88 E). right. left. reflexivity.
Qed.
Lemma no_x_app a b : no_x a -> no_x b -> no_x (a ++ b).
Proof. intros (A & B) (C & D). split; rewrite in_app_iff; tauto. Qed.
Lemma no_x_digits ds : all_digits ds -> no_x ds.
Proof. intros H. unfold all_digits in H. rewrite Forall_forall in H. split; intros I; apply H, digit_range in I; lia. Qed.
Lemma no_x_number s v : number s v -> no_x s.
Proof.
  intros H. destruct (number_form s v H) as (sg & ds & n & -> & D & F). destruct (digits_ok ds n D) as (_ & B & _). apply no_x_app; [|apply no_x_digits; auto].
  destruct F as [(-> & _)|[(-> & _)|(-> & _)]]; split; cbn; intuition lia.
Qed.

(** The suffix is found behind the number. *)
Lemma skip_bytes_digits ds r : all_digits ds -> ends_number r -> skip_bytes true (ds ++ r) = r.
Proof.
  intros H E. induction H as [|c ds H _ IH]; cbn [app skip_bytes].
  - destruct r as [|c t]; [reflexivity|]. cbn [skip_bytes]. rewrite (E c t eq_refl). rewrite orb_true_r. reflexivity.
  - rewrite H. cbn [negb andb]. exact IH.
Qed.
Lemma skip_bytes_number s v r : number s v -> ends_number r -> skip_bytes false (s ++ r) = r.
Proof.
  intros H E. destruct (number_form s v H) as (sg & ds & n & -> & D & F). destruct (digits_ok ds n D) as (A & B & _). destruct ds as [|d ds]; [congruence|]. inversion B as [|? ? X Y]; subst.
  assert (Q : skip_bytes false ((d :: ds) ++ r) = r) by (cbn [app skip_bytes]; rewrite X; cbn [negb andb orb]; apply skip_bytes_digits; auto).
  destruct F as [(-> & _)|[(-> & _)|(-> & _)]]; exact Q.
Qed.
Lemma skip_time_digits ds r : all_digits ds -> (forall c t, r = c :: t -> digit c = false /\ c <> 43 /\ c <> 45) -> skip_time (ds ++ r) = r.
Proof.
  intros H E. induction H as [|c ds H _ IH]; cbn [app skip_time].
  - destruct r as [|c t]; [reflexivity|]. cbn [skip_time]. destruct (E c t eq_refl) as (E1 & E2 & E3). rewrite E1. apply Z.eqb_neq in E2, E3. rewrite E2, E3. reflexivity.
  - rewrite H. cbn [negb andb]. exact IH.
Qed.
Lemma skip_time_number s v r : number s v -> (forall c t, r = c :: t -> digit c = false /\ c <> 43 /\ c <> 45) -> skip_time (s ++ r) = r.
Proof.
  intros H E. destruct (number_form s v H) as (sg & ds & n & -> & D & F). destruct (digits_ok ds n D) as (A & B & _).
  pose proof (skip_time_digits ds r B E) as Q. destruct F as [(-> & _)|[(-> & _)|(-> & _)]]; exact Q.
Qed.

(** Letter case does not matter. *)
Definition small (w : list Z) : Prop := Forall (fun a => 97 <= a <= 122) w.
Lemma spells_lower w s : small w -> spells w s -> map tolower s = w.
Proof.
  intros H S. revert H. induction S as [|a b w s X _ IH]; intros H; [reflexivity|]. inversion H; subst. cbn [map]. rewrite (IH H3). f_equal. unfold tolower. destruct X as [->|(R & ->)].
  - destruct (Z.leb_spec a 90); [lia|]. rewrite andb_false_r. reflexivity.
  - destruct (Z.leb_spec 65 (a - 32)); [|lia]. destruct (Z.leb_spec (a - 32) 90); [|lia]. cbn [andb]. lia.
Qed.
Definition tail_ok (t : list Z) : Prop := t = [] \/ exists c r, t = c :: r /\ is_separator c = true.
Lemma sep_range c : is_separator c = true -> c = 58 \/ c = 45 \/ c = 44 \/ c = 47.
Proof. unfold is_separator. rewrite !orb_true_iff, !Z.eqb_eq. tauto. Qed.
Lemma spells_cut w s t : small w -> spells w s -> tail_ok t -> lower_cut (s ++ t) = w.
Proof.
  intros H S T. revert H. induction S as [|a b w s X _ IH]; intros H.
  - cbn [app]. destruct T as [->|(c & r & -> & E)]; [reflexivity|]. cbn [lower_cut]. destruct (sep_range c E) as [->|[->|[->| ->]]]; reflexivity.
  - inversion H as [|? ? R H']; subst. cbn [app lower_cut]. rewrite (IH H').
    assert (L : tolower b = a). { unfold tolower. destruct X as [->|(R2 & ->)].
      - destruct (Z.leb_spec a 90); [lia|]. rewrite andb_false_r. reflexivity.
      - destruct (Z.leb_spec 65 (a - 32)); [|lia]. destruct (Z.leb_spec (a - 32) 90); [|lia]. cbn [andb]. lia. }
    rewrite L. destruct (is_separator a) eqn:Z; [apply sep_range in Z; lia|reflexivity].
Qed.
Lemma spells_alpha w s c t : small w -> spells w s -> s = c :: t -> isalpha c = true.
Proof.
  intros H S E. subst s. inversion S as [|a b w' s' X _]; subst. inversion H; subst. unfold isalpha. destruct X as [->|(R & ->)].
  - apply orb_true_iff. right. apply andb_true_iff. rewrite !Z.leb_le. lia.
  - apply orb_true_iff. left. apply andb_true_iff. rewrite !Z.leb_le. lia.
Qed.
Lemma spells_no_x w s : small w -> ~ In 120 w -> spells w s -> no_x s.
Proof.
  intros H N S. revert H N. induction S as [|a b w s X _ IH]; intros H N; [split; intros []|]. inversion H as [|? ? R H']; subst. destruct (IH H' ltac:(intros I; apply N; right; auto)) as (A & B).
  assert (a <> 120) by (intros E; apply N; left; auto). split; intros [I|I]; auto; destruct X as [X|(R2 & X)]; lia.
Qed.
Lemma alpha_not_digit c : isalpha c = true -> digit c = false.
Proof.
  unfold isalpha, digit. rewrite orb_true_iff, !andb_true_iff, !Z.leb_le. intros H. apply andb_false_iff. right. apply Z.leb_gt. lia.
Qed.
Lemma sep_not_digit c : is_separator c = true -> digit c = false /\ isalpha c = false /\ c <> 37.
Proof. intros H. destruct (sep_range c H) as [->|[->|[->| ->]]]; split; [reflexivity|split; [reflexivity|lia]| | | | | |]; try reflexivity; try (split; [reflexivity|lia]). Qed.

(** get_mult_bytes on a number with a suffix. *)
Lemma mult_bytes_single kb d : digit d = true -> get_mult_bytes_ (Some [d]) kb = (1, false).
Proof.
  intros H. apply digit_range in H. assert (X : d = 48 \/ d = 49 \/ d = 50 \/ d = 51 \/ d = 52 \/ d = 53 \/ d = 54 \/ d = 55 \/ d = 56 \/ d = 57) by lia.
  destruct X as [->|[->|[->|[->|[->|[->|[->|[->|[->| ->]]]]]]]]]; reflexivity.
Qed.
Lemma mult_bytes_number s v w u t kb : number s v -> small w -> spells w u -> tail_ok t ->
  get_mult_bytes (s ++ u ++ t) kb = match w with [] => (1, false) | _ => get_mult_bytes_ (Some w) kb end.
Proof.
  intros N S U T. assert (E : ends_number (u ++ t)).
  { intros c r X. destruct u as [|b u].
    - cbn in X. destruct T as [->|(c' & r' & -> & Q)]; [discriminate|]. injection X as X1 X2. subst. apply sep_not_digit. auto.
    - injection X as X1 X2. subst b. apply alpha_not_digit. exact (spells_alpha w (c :: u) c u S U eq_refl). }
  unfold get_mult_bytes. rewrite (skip_bytes_number s v (u ++ t) N E). destruct (Z.ltb_spec (Z.of_nat (List.length (s ++ u ++ t))) 2) as [L|L].
  - destruct (number_form s v N) as (sg & ds & n & -> & D & F). destruct (digits_ok ds n D) as (A & B & _). rewrite !app_length in L. destruct ds as [|d ds]; [congruence|]. cbn [List.length] in L.
    assert (X : sg = [] /\ ds = [] /\ u = [] /\ t = []). { destruct sg, ds, u, t; cbn in L; try lia. auto. } destruct X as (-> & -> & -> & ->). inversion U; subst. cbn [app]. apply mult_bytes_single. inversion B; auto.
  - destruct u as [|b u].
    + inversion U; subst w. cbn [app]. destruct T as [->|(c' & r' & -> & Q)]; [reflexivity|]. destruct (sep_not_digit c' Q) as (_ & Q1 & Q2). rewrite Q1. apply Z.eqb_neq in Q2. rewrite Q2. reflexivity.
    + cbn [app]. rewrite (spells_alpha w (b :: u) b u S U eq_refl). cbn [negb andb]. unfold get_mult_bytes_ at 1. change (b :: u ++ t) with ((b :: u) ++ t). rewrite (spells_cut w (b :: u) t S U T).
      assert (W : lower_cut w = w). { clear -S. revert S. generalize w. intros l S. induction S as [|a l R _ IH]; [reflexivity|]. cbn [lower_cut]. rewrite IH. unfold tolower. destruct (Z.leb_spec a 90); [lia|]. rewrite andb_false_r. destruct (is_separator a) eqn:Z; [apply sep_range in Z; lia|reflexivity]. }
      unfold get_mult_bytes_. rewrite W. destruct w as [|x w]; [inversion U|]. reflexivity.
Qed.
Lemma mult_time_number s v w u sec : number s v -> small w -> spells w u ->
  get_mult_time (s ++ u) sec = match w with [] => if sec then 1000000 else 1 | _ => get_mult_time w sec end.
Proof.
  intros N S U. assert (E : forall c t, u = c :: t -> digit c = false /\ c <> 43 /\ c <> 45).
  { intros c t X. pose proof (spells_alpha w u c t S U X) as A. split; [apply alpha_not_digit; auto|]. split; intros ->; discriminate A. }
  unfold get_mult_time at 1. rewrite (skip_time_number s v u N E). destruct u as [|b u]; [inversion U; reflexivity|]. rewrite (spells_alpha w (b :: u) b u S U eq_refl). rewrite (spells_lower w (b :: u) S U).
  assert (W : w <> []) by (intros ->; inversion U). destruct w as [|x w]; [congruence|]. unfold get_mult_time.
  assert (K : skip_time (x :: w) = x :: w). { inversion S as [|? ? R _]; subst. cbn [skip_time]. assert (D : digit x = false) by (unfold digit; apply andb_false_iff; right; apply Z.leb_gt; lia). rewrite D. destruct (Z.eqb_spec x 43); [lia|]. destruct (Z.eqb_spec x 45); [lia|]. reflexivity. }
  rewrite K. assert (A : isalpha x = true). { inversion S as [|? ? R _]; subst. unfold isalpha. apply orb_true_iff. right. apply andb_true_iff. rewrite !Z.leb_le. lia. } rewrite A.
  assert (M : map tolower (x :: w) = x :: w). { clear -S. revert S. generalize (x :: w). intros l S. induction S as [|a l R _ IH]; [reflexivity|]. cbn [map]. rewrite IH. f_equal. unfold tolower. destruct (Z.leb_spec a 90); [lia|]. rewrite andb_false_r. reflexivity. } rewrite M. reflexivity.
Qed.

Lemma s64_fits v : fits v -> s64 v = v.
Proof.
  unfold fits, s64, u64. intros H. destruct (Z.lt_ge_cases v 0) as [L|L].
  - rewrite <- (Z.mod_unique v (2 ^ 64) (-1) (v + 2 ^ 64)) by lia. destruct (Z.ltb_spec (v + 2 ^ 64) (2 ^ 63)); lia.
  - rewrite Z.mod_small by lia. destruct (Z.ltb_spec v (2 ^ 63)); lia.
Qed.
Lemma decimal_number s v r kilo kb sec stale : number s v -> ends_number r -> no_x r -> fits v -> (stale = true -> v <> 2 ^ 63 - 1) ->
  str_to_decimal (s ++ r) kilo kb sec stale =
    (if kilo then let '(m, p) := get_mult_bytes (s ++ r) kb in if p then Some (s64 (-1 - v)) else Some (s64 (v * m)) else Some (s64 (v * get_mult_time (s ++ r) sec))).
Proof.
  intros N E X (F1 & F2) S. unfold str_to_decimal. rewrite (base10 (s ++ r) (no_x_app _ _ (no_x_number s v N) X)). rewrite (strtoll_number s v r N E).
  assert (NE : s ++ r <> []). { destruct (number_form s v N) as (sg & ds & n & -> & D & _). destruct (digits_ok ds n D) as (A & _). destruct ds; [congruence|]. destruct sg; discriminate. }
  destruct (s ++ r) as [|c0 t0] eqn:Z; [congruence|]. rewrite <- Z. clear NE.
  destruct (Z.ltb_spec v (- 2 ^ 63)); [lia|]. destruct (Z.ltb_spec (2 ^ 63 - 1) v); [lia|]. cbn [negb]. rewrite andb_false_r. cbn [orb].
  destruct (Z.eqb_spec v (2 ^ 63 - 1)) as [V|V]; [|reflexivity]. destruct stale; [exfalso; apply S; auto|reflexivity].
Qed.
Lemma hexval_ok c d : hexval c d -> hexdigit c = true /\ hval c = d.
Proof.
  intros [(R & ->)|(R & [-> | ->])].
  - assert (X : digit (48 + d) = true) by (unfold digit; apply andb_true_iff; rewrite !Z.leb_le; lia). unfold hexdigit, hval. rewrite X. split; [reflexivity|lia].
  - assert (X : digit (87 + d) = false) by (unfold digit; apply andb_false_iff; right; apply Z.leb_gt; lia). unfold hexdigit, hval, tolower. rewrite X.
    destruct (Z.leb_spec (87 + d) 90); [lia|]. destruct (Z.leb_spec 97 (87 + d)); [|lia]. destruct (Z.leb_spec (87 + d) 102); [|lia]. rewrite andb_false_r, orb_true_r. split; [reflexivity|lia].
  - assert (X : digit (55 + d) = false) by (unfold digit; apply andb_false_iff; right; apply Z.leb_gt; lia). unfold hexdigit, hval, tolower. rewrite X.
    destruct (Z.leb_spec 65 (55 + d)); [|lia]. destruct (Z.leb_spec (55 + d) 70); [|lia]. destruct (Z.leb_spec (55 + d) 90); [|lia]. cbn [andb orb]. split; [reflexivity|lia].
Qed.
Lemma hexdigits_ok ds n : hexdigits ds n -> ds <> [] /\ Forall (fun c => hexdigit c = true) ds /\ nval 16 ds = n.
Proof.
  intros H. induction H as [c d X|ds n c d H (A & B & C) X]; destruct (hexval_ok c d X) as (Y & W).
  - split; [discriminate|]. split; [constructor; [exact Y|constructor]|]. unfold nval. cbn [fold_left]. lia.
  - split; [destruct ds; discriminate|]. split; [apply Forall_app; split; [exact B|constructor; [exact Y|constructor]]|]. rewrite nval_snoc, C, W. lia.
Qed.
Lemma strtoll16_ok (neg : bool) x ds n : (x = 120 \/ x = 88) -> hexdigits ds n ->
  (let s := match 48 :: x :: ds with z :: x :: d :: t => if (16 =? 16) && (z =? 48) && (tolower x =? 120) && hexdigit d then d :: t else 48 :: x :: ds | _ => 48 :: x :: ds end in
   fst (span (if 16 =? 16 then hexdigit else digit) s)) = ds.
Proof.
  intros X H. destruct (hexdigits_ok ds n H) as (A & B & C). destruct ds as [|d t]; [congruence|]. cbv zeta. inversion B as [|? ? B1 B2]; subst. rewrite B1.
  assert (T : tolower x =? 120 = true) by (destruct X as [-> | ->]; reflexivity). rewrite T. change (16 =? 16) with true. change (48 =? 48) with true. cbn [andb].
  assert (S : span hexdigit (d :: t) = (d :: t, [])). { rewrite <- (app_nil_r (d :: t)) at 1. apply span_app; [exact B|discriminate]. } rewrite S. reflexivity.
Qed.
Lemma hex_form s v : hexnumber s v -> exists sg x ds n, s = sg ++ 48 :: x :: ds /\ (x = 120 \/ x = 88) /\ hexdigits ds n /\ ((sg = [] /\ v = n) \/ (sg = [43] /\ v = n) \/ (sg = [45] /\ v = - n)).
Proof.
  intros H. destruct H as [x ds n X H|x ds n X H|x ds n X H].
  - exists [], x, ds, n. split; [reflexivity|]. split; [exact X|]. split; [exact H|]. tauto.
  - exists [43], x, ds, n. split; [reflexivity|]. split; [exact X|]. split; [exact H|]. tauto.
  - exists [45], x, ds, n. split; [reflexivity|]. split; [exact X|]. split; [exact H|]. tauto.
Qed.
Lemma strtoll_hex s v : hexnumber s v -> fits v -> strtoll s 16 = (v, true, false).
Proof.
  intros H (F1 & F2). destruct (hex_form s v H) as (sg & x & ds & n & -> & X & D & F). destruct (hexdigits_ok ds n D) as (A & B & C).
  assert (R : (v <? - 2 ^ 63) = false) by (apply Z.ltb_ge; lia). assert (R2 : (2 ^ 63 - 1 <? v) = false) by (apply Z.ltb_ge; lia).
  assert (K : forall neg : bool, (if neg then - n else n) = v -> match ds with [] => (0, false, false) | _ :: _ => if (if neg then - nval 16 ds else nval 16 ds) <? - 2 ^ 63 then (- 2 ^ 63, true, true) else if 2 ^ 63 - 1 <? (if neg then - nval 16 ds else nval 16 ds) then (2 ^ 63 - 1, true, true) else ((if neg then - nval 16 ds else nval 16 ds), true, false) end = (v, true, false)).
  { intros neg E. rewrite C, E, R, R2. destruct ds; [congruence|reflexivity]. }
  destruct F as [(-> & ->)|[(-> & ->)|(-> & ->)]]; unfold strtoll; cbn [app span].
  - change (isspace 48) with false. cbn [snd]. change (48 =? 45) with false. change (48 =? 43) with false. cbv beta iota zeta. pose proof (strtoll16_ok false x ds n X D) as S. cbv zeta in S. rewrite S. apply (K false). reflexivity.
  - change (isspace 43) with false. cbn [snd]. change (43 =? 45) with false. change (43 =? 43) with true. cbv beta iota zeta. pose proof (strtoll16_ok false x ds n X D) as S. cbv zeta in S. rewrite S. apply (K false). reflexivity.
  - change (isspace 45) with false. cbn [snd]. change (45 =? 45) with true. cbv beta iota zeta. pose proof (strtoll16_ok true x ds n X D) as S. cbv zeta in S. rewrite S. apply (K true). reflexivity.
Qed.
Lemma hex_base s v : hexnumber s v -> has (chars "0x") s || has (chars "0X") s = true.
Proof.
  intros H. destruct (hex_form s v H) as (sg & x & ds & n & -> & X & D & F). destruct F as [(-> & _)|[(-> & _)|(-> & _)]]; destruct X as [-> | ->]; cbn; rewrite ?orb_true_r; reflexivity.
Qed.
Lemma hex_mult s v kb : hexnumber s v -> get_mult_bytes s kb = (1, false).
Proof.
  intros H. destruct (hex_form s v H) as (sg & x & ds & n & -> & X & D & F). destruct (hexdigits_ok ds n D) as (A & _). unfold get_mult_bytes. destruct (Z.ltb_spec (Z.of_nat (List.length (sg ++ 48 :: x :: ds))) 2) as [L|L].
  - rewrite app_length in L. cbn [List.length] in L. lia.
  - assert (S : skip_bytes false (sg ++ 48 :: x :: ds) = x :: ds) by (destruct F as [(-> & _)|[(-> & _)|(-> & _)]]; destruct X as [-> | ->]; reflexivity). rewrite S.
    destruct X as [-> | ->]; reflexivity.
Qed.
Lemma hex_time s v : hexnumber s v -> get_mult_time s true = 1.
Proof.
  intros H. destruct (hex_form s v H) as (sg & x & ds & n & -> & X & D & F).
  assert (S : skip_time (sg ++ 48 :: x :: ds) = x :: ds) by (destruct F as [(-> & _)|[(-> & _)|(-> & _)]]; destruct X as [-> | ->]; reflexivity). unfold get_mult_time. rewrite S.
  destruct X as [-> | ->]; reflexivity.
Qed.
Lemma follows_ok t : follows t -> tail_ok t /\ no_x t.
Proof.
  intros [->|(c & r & -> & I & A & B)]; [split; [left; auto|split; intros []]|]. assert (S : is_separator c = true /\ c <> 120 /\ c <> 88) by (cbn in I; destruct I as [<-|[<-|[<-|[<-|[]]]]]; split; [reflexivity|lia| | | | | |]; try reflexivity; lia).
  destruct S as (S & S2 & S3). split; [right; eauto|]. split; intros [I2|I2]; auto.
Qed.
Lemma small_codes w : Forall (fun a => 97 <= a <= 122) (codes w) -> small (codes w).
Proof. auto. Qed.
Lemma fits_factor v m : 1 <= m -> fits (v * m) -> fits v.
Proof. unfold fits. intros H F. nia. Qed.
