(** Proofs about the running statistics. *)
From Coq Require Import ZArith List Lia Bool QArith Qcanon Qround Permutation Field Lqa.
From Verif Require Import CBase IoStatModel IoStatSpec.
Import ListNotations.
Open Scope Z_scope.
Arguments Qcplus : simpl never.
Arguments Qcmult : simpl never.
Arguments Qcminus : simpl never.
Arguments qz : simpl never.

(** ** Embedding of the integers *)

Lemma qz_0 : qz 0 = 0%Qc. Proof. reflexivity. Qed.
Lemma qz_1 : qz 1 = 1%Qc. Proof. reflexivity. Qed.
Lemma qz_add a b : qz (a + b) = (qz a + qz b)%Qc.
Proof. unfold qz, Qcplus, Qcmult, Qcopp. apply Qc_is_canon. cbn [this Q2Qc]. rewrite !Qred_correct. rewrite inject_Z_plus. reflexivity. Qed.
Lemma qz_mul a b : qz (a * b) = (qz a * qz b)%Qc.
Proof. unfold qz, Qcplus, Qcmult, Qcopp. apply Qc_is_canon. cbn [this Q2Qc]. rewrite !Qred_correct. rewrite inject_Z_mult. reflexivity. Qed.
Lemma qz_opp a : qz (- a) = (- qz a)%Qc.
Proof. unfold qz, Qcplus, Qcmult, Qcopp. apply Qc_is_canon. cbn [this Q2Qc]. rewrite !Qred_correct. reflexivity. Qed.
Lemma qz_sub a b : qz (a - b) = (qz a - qz b)%Qc.
Proof. replace (a - b) with (a + - b) by lia. rewrite qz_add, qz_opp. ring. Qed.
Lemma qz_inj a b : qz a = qz b -> a = b.
Proof.
  unfold qz. intros H. apply (f_equal this) in H. cbn [this Q2Qc] in H.
  assert (Q : (inject_Z a == inject_Z b)%Q) by (rewrite <- (Qred_correct (inject_Z a)), H; apply Qred_correct).
  unfold Qeq in Q. cbn in Q. lia.
Qed.
Lemma qz_nz a : a <> 0 -> qz a <> 0%Qc.
Proof. intros H E. apply H. apply qz_inj. rewrite E. reflexivity. Qed.
Lemma qz_le a b : (qz a <= qz b)%Qc <-> a <= b.
Proof.
  unfold qz, Qcle. cbn [this Q2Qc]. rewrite !Qred_correct. rewrite <- Zle_Qle. reflexivity.
Qed.
Lemma qz_lt a b : (qz a < qz b)%Qc <-> a < b.
Proof.
  unfold qz, Qclt. cbn [this Q2Qc]. rewrite !Qred_correct. rewrite <- Zlt_Qlt. reflexivity.
Qed.

(** ** Algebraic characterisation *)

Definition sq (xs : list Z) : Qc := sumq (map (fun x => (qz x * qz x)%Qc) xs).
Definition tot (xs : list Z) : Qc := sumq (map qz xs).

Lemma sumq_app a b : sumq (a ++ b) = (sumq a + sumq b)%Qc.
Proof.
  induction a as [|x a IH]; cbn [app sumq fold_right].
  - change (fold_right Qcplus (qz 0) b) with (sumq b). rewrite qz_0. ring.
  - change (fold_right Qcplus (qz 0) ?l) with (sumq l). rewrite IH. ring.
Qed.

Lemma tot_app a b : tot (a ++ b) = (tot a + tot b)%Qc.
Proof. unfold tot. rewrite map_app. apply sumq_app. Qed.
Lemma sq_app a b : sq (a ++ b) = (sq a + sq b)%Qc.
Proof. unfold sq. rewrite map_app. apply sumq_app. Qed.

Lemma zlen_app {A} (a b : list A) : zlen (a ++ b) = zlen a + zlen b.
Proof. unfold zlen. rewrite app_length. lia. Qed.

Lemma sumdev xs c :
  sumq (map (fun x => ((qz x - c) * (qz x - c))%Qc) xs) =
  (sq xs - (1 + 1) * c * tot xs + qz (zlen xs) * (c * c))%Qc.
Proof.
  induction xs as [|x xs IH].
  - unfold sq, tot, zlen. cbn. rewrite qz_0. ring.
  - replace (zlen (x :: xs)) with (1 + zlen xs) by (unfold zlen; cbn [length]; lia).
    rewrite qz_add, qz_1. unfold sq, tot in *. cbn [map sumq fold_right] in *.
    change (fold_right Qcplus (qz 0) ?l) with (sumq l). rewrite IH. ring.
Qed.

Definition J (xs : list Z) (st : io_stat) : Prop :=
  samples st = zlen xs /\
  min_val st = fold_right Z.min (2 ^ 64 - 1) xs /\
  max_val st = fold_right Z.max 0 xs /\
  (xs = [] -> mean st = 0%Qc) /\
  (qz (zlen xs) * mean st)%Qc = tot xs /\
  S st = (sq xs - qz (zlen xs) * (mean st * mean st))%Qc.

Lemma zlen_nil_iff {A} (xs : list A) : zlen xs = 0 <-> xs = [].
Proof. unfold zlen. destruct xs; cbn [length]; split; try congruence; lia. Qed.

Lemma fold_min_spec xs : Forall u64_ok xs -> xs <> [] -> least xs (fold_right Z.min (2 ^ 64 - 1) xs).
Proof.
  unfold least, u64_ok. induction xs as [|x xs IH]; [congruence|]. intros F _. inversion F; subst.
  destruct xs as [|y ys].
  - change (fold_right Z.min (2 ^ 64 - 1) [x]) with (Z.min x (2 ^ 64 - 1)).
    rewrite Z.min_l by lia. split; [left; auto|]. intros z [->|[]]. lia.
  - destruct IH as [I1 I2]; auto; [congruence|].
    change (fold_right Z.min (2 ^ 64 - 1) (x :: y :: ys)) with (Z.min x (fold_right Z.min (2 ^ 64 - 1) (y :: ys))).
    set (m := fold_right Z.min (2 ^ 64 - 1) (y :: ys)) in *. split.
    + destruct (Z.min_spec x m) as [[_ ->]|[_ ->]]; [left; auto|right; auto].
    + intros z [<-|Hz]; [lia|]. specialize (I2 z Hz). lia.
Qed.

Lemma fold_max_spec xs : Forall u64_ok xs -> xs <> [] -> greatest xs (fold_right Z.max 0 xs).
Proof.
  unfold greatest, u64_ok. induction xs as [|x xs IH]; [congruence|]. intros F _. inversion F; subst.
  destruct xs as [|y ys].
  - cbn [fold_right]. rewrite Z.max_l by lia. split; [left; auto|]. intros z [->|[]]. lia.
  - destruct IH as [I1 I2]; auto; [congruence|].
    change (fold_right Z.max 0 (x :: y :: ys)) with (Z.max x (fold_right Z.max 0 (y :: ys))).
    set (m := fold_right Z.max 0 (y :: ys)) in *. split.
    + destruct (Z.max_spec x m) as [[_ ->]|[_ ->]]; [right; auto|left; auto].
    + intros z [<-|Hz]; [lia|]. specialize (I2 z Hz). lia.
Qed.

Lemma least_unique xs a b : least xs a -> least xs b -> a = b.
Proof. intros [A1 A2] [B1 B2]. pose proof (A2 b B1). pose proof (B2 a A1). lia. Qed.
Lemma greatest_unique xs a b : greatest xs a -> greatest xs b -> a = b.
Proof. intros [A1 A2] [B1 B2]. pose proof (A2 b B1). pose proof (B2 a A1). lia. Qed.

Lemma J_reset : J [] reset_io_stat.
Proof.
  unfold J, reset_io_stat, tot, sq, zlen. cbn [samples min_val max_val mean S length map sumq fold_right].
  change (Z.of_nat 0) with 0. rewrite qz_0. repeat split; auto; ring.
Qed.

Lemma is_stat_ne xs st : xs <> [] ->
  (is_stat_of xs st <-> samples st = zlen xs /\ least xs (min_val st) /\ greatest xs (max_val st) /\
                        mean st = avg xs /\ S st = sqdev xs).
Proof. intros H. destruct xs; [congruence|]. reflexivity. Qed.

Lemma J_is xs st : Forall u64_ok xs -> J xs st -> is_stat_of xs st.
Proof.
  intros F (Js & Jn & Jx & J0 & Jm & JS). destruct xs as [|x0 xs0] eqn:E.
  - cbn. destruct st as [mx mn n m s]. unfold reset_io_stat. cbn [samples min_val max_val mean S] in *.
    specialize (J0 eq_refl). subst. unfold sq, zlen. cbn [map sumq fold_right length].
    change (Z.of_nat 0) with 0. rewrite qz_0. f_equal; try ring.
  - rewrite <- E in *. assert (Hne : xs <> []) by (rewrite E; congruence).
    assert (Hz : qz (zlen xs) <> 0%Qc) by (apply qz_nz; rewrite zlen_nil_iff; auto).
    assert (Mn : mean st = avg xs).
    { unfold avg. fold (tot xs). rewrite <- Jm. field. auto. }
    apply is_stat_ne; auto.
    split; [auto|]. split; [rewrite Jn; apply fold_min_spec; auto|].
    split; [rewrite Jx; apply fold_max_spec; auto|]. split; [exact Mn|].
    unfold sqdev. rewrite sumdev. rewrite JS, Mn, <- Jm, Mn. ring.
Qed.

Lemma is_J xs st : Forall u64_ok xs -> is_stat_of xs st -> J xs st.
Proof.
  intros F H. destruct xs as [|x0 xs0] eqn:E.
  - cbn in H. subst. apply J_reset.
  - rewrite <- E in *. assert (Hne : xs <> []) by (rewrite E; congruence).
    apply is_stat_ne in H; auto.
    destruct H as (Hs & Hn & Hx & Hm & HS).
    assert (Hz : qz (zlen xs) <> 0%Qc) by (apply qz_nz; rewrite zlen_nil_iff; auto).
    assert (Jm : (qz (zlen xs) * mean st)%Qc = tot xs).
    { rewrite Hm. unfold avg. fold (tot xs). field. auto. }
    split; [auto|]. split; [eapply least_unique; eauto; apply fold_min_spec; auto|].
    split; [eapply greatest_unique; eauto; apply fold_max_spec; auto|].
    split; [congruence|]. split; [auto|].
    rewrite HS. unfold sqdev. rewrite sumdev, <- Hm, <- Jm. ring.
Qed.

Lemma fold_min_bound xs : Forall u64_ok xs -> u64_ok (fold_right Z.min (2 ^ 64 - 1) xs).
Proof. unfold u64_ok. induction 1; cbn [fold_right]; lia. Qed.
Lemma fold_max_bound xs : Forall u64_ok xs -> u64_ok (fold_right Z.max 0 xs).
Proof. unfold u64_ok. induction 1; cbn [fold_right]; lia. Qed.

Lemma fold_min_app a b : Forall u64_ok b ->
  fold_right Z.min (2 ^ 64 - 1) (a ++ b) =
  Z.min (fold_right Z.min (2 ^ 64 - 1) a) (fold_right Z.min (2 ^ 64 - 1) b).
Proof.
  intros F. pose proof (fold_min_bound b F) as B. unfold u64_ok in B.
  induction a as [|x a IH]; cbn [app fold_right]; [lia|]. rewrite IH. lia.
Qed.
Lemma fold_max_app a b : Forall u64_ok b ->
  fold_right Z.max 0 (a ++ b) = Z.max (fold_right Z.max 0 a) (fold_right Z.max 0 b).
Proof.
  intros F. pose proof (fold_max_bound b F) as B. unfold u64_ok in B.
  induction a as [|x a IH]; cbn [app fold_right]; [lia|]. rewrite IH. lia.
Qed.

Lemma u64_small z : 0 <= z < 2 ^ 64 -> u64 z = z.
Proof. intros. unfold u64. apply Z.mod_small. auto. Qed.

(** ** Adding a sample *)

Lemma add_J xs st x : u64_ok x -> Forall u64_ok xs -> zlen xs + 1 < 2 ^ 64 ->
  J xs st -> J (xs ++ [x]) (add_stat_sample st x).
Proof.
  intros Hx F Hl (Js & Jn & Jx & J0 & Jm & JS). pose proof (zlen_nonneg xs) as Hlen.
  assert (Hn1 : qz (zlen xs + 1) <> 0%Qc) by (apply qz_nz; lia).
  assert (E1 : zlen (xs ++ [x]) = zlen xs + 1) by (rewrite zlen_app; reflexivity).
  assert (Et : tot (xs ++ [x]) = (tot xs + qz x)%Qc).
  { rewrite tot_app. f_equal. unfold tot. cbn. rewrite qz_0. ring. }
  assert (Eq : sq (xs ++ [x]) = (sq xs + qz x * qz x)%Qc).
  { rewrite sq_app. f_equal. unfold sq. cbn. rewrite qz_0. ring. }
  unfold add_stat_sample. rewrite Js.
  set (d := (qz x - mean st)%Qc).
  assert (Hd : (qz x = mean st + d)%Qc) by (unfold d; ring).
  rewrite qz_add, qz_1 in *.
  destruct (Qc_eq_bool d (qz 0)) eqn:Ed.
  - apply Qc_eq_bool_correct in Ed. rewrite qz_0 in Ed. rewrite Ed in Hd.
    unfold J. cbn [samples min_val max_val mean S]. rewrite E1, Et, Eq, qz_add, qz_1.
    split; [apply u64_small; lia|].
    split. { rewrite fold_min_app by (constructor; auto). rewrite Jn. cbn [fold_right]. unfold u64_ok in Hx.
             pose proof (fold_min_bound xs F) as B. unfold u64_ok in B. destruct (Z.ltb_spec x (fold_right Z.min (2 ^ 64 - 1) xs)); lia. }
    split. { rewrite fold_max_app by (constructor; auto). rewrite Jx. cbn [fold_right]. unfold u64_ok in Hx.
             pose proof (fold_max_bound xs F) as B. unfold u64_ok in B.
             rewrite Z.gtb_ltb. destruct (Z.ltb_spec (fold_right Z.max 0 xs) x); lia. }
    split. { intros A. destruct xs; discriminate A. }
    split; [rewrite <- Jm, Hd; ring|]. rewrite JS, Hd. ring.
  - unfold J. cbn [samples min_val max_val mean S]. rewrite E1, Et, Eq, qz_add, qz_1.
    split; [apply u64_small; lia|].
    split. { rewrite fold_min_app by (constructor; auto). rewrite Jn. cbn [fold_right]. unfold u64_ok in Hx.
             pose proof (fold_min_bound xs F) as B. unfold u64_ok in B. destruct (Z.ltb_spec x (fold_right Z.min (2 ^ 64 - 1) xs)); lia. }
    split. { rewrite fold_max_app by (constructor; auto). rewrite Jx. cbn [fold_right]. unfold u64_ok in Hx.
             pose proof (fold_max_bound xs F) as B. unfold u64_ok in B.
             rewrite Z.gtb_ltb. destruct (Z.ltb_spec (fold_right Z.max 0 xs) x); lia. }
    split. { intros A. destruct xs; discriminate A. }
    split; [rewrite <- Jm, Hd; field; auto|]. rewrite JS, Hd. field. auto.
Qed.

Lemma fold_J ys : forall xs st, Forall u64_ok (xs ++ ys) -> zlen (xs ++ ys) < 2 ^ 64 ->
  J xs st -> J (xs ++ ys) (fold_left add_stat_sample ys st).
Proof.
  induction ys as [|y ys IH]; intros xs st F Hl H.
  - rewrite app_nil_r. exact H.
  - cbn [fold_left]. replace (xs ++ y :: ys) with ((xs ++ [y]) ++ ys) in * by (rewrite <- app_assoc; auto).
    apply IH; auto. apply Forall_app in F. destruct F as [F _]. apply Forall_app in F. destruct F as [F Fy].
    inversion Fy; subst. rewrite !zlen_app in Hl. pose proof (zlen_nonneg ys).
    apply add_J; auto. change (zlen [y]) with 1 in Hl. lia.
Qed.

(** ** Merging *)

Lemma sum_J xs ys a b : Forall u64_ok xs -> Forall u64_ok ys ->
  zlen xs + zlen ys < 2 ^ 64 -> zlen xs * zlen ys < 2 ^ 64 ->
  J xs a -> J ys b -> J (xs ++ ys) (sum_stat a b false).
Proof.
  intros Fx Fy Hs Hp Ja Jb. pose proof (zlen_nonneg xs) as Lx. pose proof (zlen_nonneg ys) as Ly.
  destruct Ja as (As & An & Ax & A0 & Am & AS). destruct Jb as (Bs & Bn & Bx & B0 & Bm & BS).
  unfold sum_stat. rewrite As, Bs. destruct (Z.eqb_spec (zlen ys) 0) as [Ey|Ny].
  { apply zlen_nil_iff in Ey. subst ys. rewrite app_nil_r. unfold J. repeat split; auto. }
  cbn [negb]. unfold sum_stat0. rewrite As, Bs.
  assert (Hne : xs ++ ys <> []).
  { intros E. apply app_eq_nil in E. destruct E as [_ ->]. apply Ny. reflexivity. }
  assert (Hny : qz (zlen ys) <> 0%Qc) by (apply qz_nz; auto).
  assert (Hnxy : qz (zlen xs + zlen ys) <> 0%Qc) by (apply qz_nz; lia).
  rewrite !u64_small by nia. rewrite qz_add in *.
  destruct (Z.eqb_spec (zlen xs) 0) as [Ex|Nx].
  - apply zlen_nil_iff in Ex. subst xs. cbn [app]. unfold J. cbn [samples min_val max_val mean S].
    split; [reflexivity|]. cbn [app] in Hne.
    pose proof (fold_min_bound ys Fy). pose proof (fold_max_bound ys Fy). unfold u64_ok in *.
    split. { rewrite An, Bn. cbn [fold_right]. lia. }
    split. { rewrite Ax, Bx. cbn [fold_right]. lia. }
    split; [congruence|]. split; auto.
  - unfold J. cbn [samples min_val max_val mean S]. rewrite zlen_app, qz_add, tot_app, sq_app.
    split; [reflexivity|].
    split; [rewrite fold_min_app by auto; congruence|].
    split; [rewrite fold_max_app by auto; congruence|].
    split; [congruence|]. rewrite !qz_mul. split.
    + rewrite <- Am, <- Bm. field. auto.
    + rewrite AS, BS. field. auto.
Qed.

Lemma merges_J t : Forall u64_ok (pooled t) -> zlen (pooled t) < 2 ^ 33 -> J (pooled t) (run_merges t).
Proof.
  induction t as [xs|l IHl r IHr]; cbn [pooled run_merges]; intros F Hl.
  - apply (fold_J xs [] reset_io_stat); auto; try apply J_reset. cbn [app]. lia.
  - apply Forall_app in F. destruct F as [Fl Fr]. rewrite zlen_app in Hl.
    pose proof (zlen_nonneg (pooled l)). pose proof (zlen_nonneg (pooled r)).
    apply sum_J; auto; try lia.
    + set (p := zlen (pooled l)) in *. set (q := zlen (pooled r)) in *.
      assert (0 <= (p - q) * (p - q)) by apply Z.square_nonneg.
      assert (Sq : (p + q) * (p + q) < 2 ^ 33 * 2 ^ 33) by (apply Z.mul_lt_mono_nonneg; lia).
      change (2 ^ 33 * 2 ^ 33) with (4 * 2 ^ 64) in Sq. lia.
    + apply IHl; auto. lia.
    + apply IHr; auto. lia.
Qed.

(** ** Independence of order *)

Lemma sumq_perm a b : Permutation a b -> sumq a = sumq b.
Proof.
  induction 1; cbn [sumq fold_right]; auto.
  - change (fold_right Qcplus (qz 0) ?l) with (sumq l). congruence.
  - ring.
  - congruence.
Qed.

Lemma stat_perm xs ys a b : is_stat_of xs a -> is_stat_of ys b -> Permutation xs ys -> a = b.
Proof.
  intros Ha Hb P. destruct xs as [|x0 xs0] eqn:Ex.
  - apply Permutation_nil in P. subst. cbn in *. congruence.
  - destruct ys as [|y0 ys0] eqn:Ey; [apply Permutation_sym, Permutation_nil in P; discriminate|].
    rewrite <- Ex, <- Ey in *. apply is_stat_ne in Ha; [|congruence]. apply is_stat_ne in Hb; [|congruence].
    clear x0 xs0 y0 ys0 Ex Ey.
    destruct Ha as (A1 & A2 & A3 & A4 & A5). destruct Hb as (B1 & B2 & B3 & B4 & B5).
    assert (L : zlen xs = zlen ys) by (unfold zlen; rewrite (Permutation_length P); auto).
    assert (M : avg xs = avg ys).
    { unfold avg. rewrite L. f_equal. apply sumq_perm. apply Permutation_map. auto. }
    assert (D : sqdev xs = sqdev ys).
    { unfold sqdev. rewrite M. apply sumq_perm. apply Permutation_map. auto. }
    assert (N1 : min_val a = min_val b).
    { apply (least_unique ys); auto. destruct A2 as [I L2]. split; [eapply Permutation_in; eauto|].
      intros z Hz. apply L2. eapply Permutation_in; [apply Permutation_sym|]; eauto. }
    assert (N2 : max_val a = max_val b).
    { apply (greatest_unique ys); auto. destruct A3 as [I L2]. split; [eapply Permutation_in; eauto|].
      intros z Hz. apply L2. eapply Permutation_in; [apply Permutation_sym|]; eauto. }
    destruct a as [ax an ac am aS], b as [bx bn bc bm bS]. cbn [samples min_val max_val mean S] in *. congruence.
Qed.

(** ** Averaged log *)

Lemma qtrunc_spec q : (0 <= q)%Qc -> nearest q (qtrunc (q + Q2Qc (1 # 2))%Qc).
Proof.
  intros Hq. set (n := qtrunc (q + Q2Qc (1 # 2))%Qc).
  assert (E : (this (q + Q2Qc (1 # 2))%Qc == q + (1 # 2))%Q)
    by (unfold Qcplus; cbn [this Q2Qc]; rewrite !Qred_correct; reflexivity).
  assert (H1 : (inject_Z n <= q + (1 # 2))%Q) by (rewrite <- E; apply Qfloor_le).
  assert (H2 : (q + (1 # 2) < inject_Z (n + 1))%Q) by (rewrite <- E; apply Qlt_floor).
  clearbody n. rewrite inject_Z_plus in H2. change (inject_Z 1) with 1%Q in H2.
  unfold nearest, qz, Qcle, Qclt, Qcminus, Qcplus, Qcopp. cbn [this Q2Qc]. rewrite !Qred_correct.
  split; lra.
Qed.

Lemma avg_nonneg vs : Forall u64_ok vs -> vs <> [] -> (0 <= avg vs)%Qc.
Proof.
  intros F Hne. unfold avg.
  assert (T : (0 <= tot vs)%Qc).
  { clear Hne. induction F as [|x xs Hx F IH]; [unfold tot; cbn; apply Qcle_refl|].
    unfold tot in *. cbn [map sumq fold_right]. change (fold_right Qcplus (qz 0) ?l) with (sumq l).
    replace 0%Qc with (0 + 0)%Qc by ring. apply Qcplus_le_compat; auto.
    rewrite <- qz_0. apply qz_le. unfold u64_ok in Hx. lia. }
  fold (tot vs).
  assert (L : (0 < qz (zlen vs))%Qc).
  { rewrite <- qz_0. apply qz_lt. pose proof (zlen_nonneg vs). assert (zlen vs <> 0) by (rewrite zlen_nil_iff; auto). lia. }
  destruct (Qclt_le_dec (tot vs / qz (zlen vs)) 0) as [C|C]; auto. exfalso.
  assert (M : (tot vs / qz (zlen vs) * qz (zlen vs) < 0 * qz (zlen vs))%Qc) by (apply Qcmult_lt_compat_r; auto).
  replace (tot vs / qz (zlen vs) * qz (zlen vs))%Qc with (tot vs) in M.
  - replace (0 * qz (zlen vs))%Qc with 0%Qc in M by ring. apply (Qcle_not_lt _ _ T). auto.
  - field. intros E. rewrite E in L. apply (Qclt_not_eq _ _ L). auto.
Qed.

(** Window [w] holds the samples [vs]. *)
Lemma flush_describes lm g t w : Forall u64_ok (map snd g) -> g <> [] -> J (map snd g) w ->
  exists e, entries (add_stat_to_log (mkLog w 0 []) t lm) = [e] /\ describes lm g e /\ fst (fst e) = t.
Proof.
  intros F Hne HJ. assert (Hne' : map snd g <> []) by (destruct g; cbn; congruence).
  pose proof (J_is _ _ F HJ) as H. apply is_stat_ne in H; auto.
  destruct H as (Hs & Hn & Hx & Hm & HS).
  unfold add_stat_to_log. cbn [avg_window entries].
  destruct (Z.eqb_spec (samples w) 0) as [E|_].
  { rewrite Hs in E. apply zlen_nil_iff in E. congruence. }
  unfold describes. destruct lm; cbn [app]; eexists; (split; [reflexivity|]); (split; [|reflexivity]); cbn;
    repeat split; auto; try (rewrite Hm; apply qtrunc_spec; apply avg_nonneg; auto); try (apply Hx).
Qed.

Lemma flush_app w l t lm :
  entries (add_stat_to_log (mkLog w (avg_last l) (entries l)) t lm) =
  entries l ++ entries (add_stat_to_log (mkLog w 0 []) t lm).
Proof. reflexivity. Qed.

(** All samples fed so far are the logged groups followed by the current window. *)
Definition LInv (lm : log_max_t) (ss : list (Z * Z)) (l : iolog) (gs : list (list (Z * Z))) (g : list (Z * Z)) : Prop :=
  ss = concat gs ++ g /\ Forall2 (describes lm) gs (entries l) /\ J (map snd g) (avg_window l).

Lemma log_step am il lm ss l gs g e v :
  Forall u64_ok (map snd (ss ++ [(e, v)])) -> zlen (ss ++ [(e, v)]) < 2 ^ 64 ->
  LInv lm ss l gs g ->
  exists gs' g', LInv lm (ss ++ [(e, v)]) (add_log_sample am il lm l e v) gs' g'.
Proof.
  intros F Hl (E & D & HJ). rewrite map_app in F. apply Forall_app in F. destruct F as [F Fv].
  cbn in Fv. inversion Fv as [|? ? Hv _]; subst x l0.
  assert (Fg : Forall u64_ok (map snd g)).
  { rewrite E, map_app in F. apply Forall_app in F. apply F. }
  assert (HJ' : J (map snd (g ++ [(e, v)])) (add_stat_sample (avg_window l) v)).
  { rewrite map_app. cbn [map snd]. apply add_J; auto.
    rewrite zlen_app, E, zlen_app in Hl. change (zlen [(e, v)]) with 1 in Hl.
    pose proof (zlen_nonneg (concat gs)). assert (zlen (map snd g) = zlen g) by (unfold zlen; rewrite map_length; auto). lia. }
  assert (Keep : LInv lm (ss ++ [(e, v)]) (mkLog (add_stat_sample (avg_window l) v) (avg_last l) (entries l)) gs (g ++ [(e, v)])).
  { split; [rewrite E, <- app_assoc; auto|]. split; auto. }
  unfold add_log_sample. cbn [avg_last].
  destruct (e <? avg_last l); [eauto|].
  destruct ((u64 (e - avg_last l) <? am) && (il || (LOG_MSEC_SLACK <? u64 (am - u64 (e - avg_last l))))); [eauto|].
  exists (gs ++ [g ++ [(e, v)]]), [].
  destruct (flush_describes lm (g ++ [(e, v)]) e (add_stat_sample (avg_window l) v)) as (en & En & De & _); auto.
  { rewrite map_app. apply Forall_app. split; auto. }
  { destruct g; discriminate. }
  split; [|split].
  - rewrite E, concat_app. cbn. rewrite !app_nil_r, <- app_assoc. auto.
  - cbn [entries avg_window]. rewrite flush_app, En. apply Forall2_app; auto.
  - cbn [avg_window add_stat_to_log map]. apply J_reset.
Qed.

Lemma run_log_inv am il lm ss2 : forall ss1 l gs g,
  Forall u64_ok (map snd (ss1 ++ ss2)) -> zlen (ss1 ++ ss2) < 2 ^ 64 -> LInv lm ss1 l gs g ->
  exists gs' g', LInv lm (ss1 ++ ss2) (run_log am il lm l ss2) gs' g'.
Proof.
  induction ss2 as [|[e v] ss2 IH]; intros ss1 l gs g F Hl H.
  - rewrite app_nil_r. cbn. eauto.
  - cbn [run_log fold_left fst snd]. change (fold_left _ ss2 ?x) with (run_log am il lm x ss2).
    replace (ss1 ++ (e, v) :: ss2) with ((ss1 ++ [(e, v)]) ++ ss2) in * by (rewrite <- app_assoc; auto).
    assert (F1 : Forall u64_ok (map snd (ss1 ++ [(e, v)]))) by (rewrite map_app in F; apply Forall_app in F; apply F).
    assert (L1 : zlen (ss1 ++ [(e, v)]) < 2 ^ 64) by (rewrite zlen_app in Hl; pose proof (zlen_nonneg ss2); lia).
    destruct (log_step am il lm ss1 l gs g e v F1 L1 H) as (gs1 & g1 & H1). eauto.
Qed.

Lemma log_partition am il lm ss t :
  Forall u64_ok (map snd ss) -> zlen ss < 2 ^ 64 ->
  exists gs, concat gs = ss /\ Forall2 (describes lm) gs (entries (finalize_log (run_log am il lm log0 ss) t lm)).
Proof.
  intros F Hl.
  destruct (run_log_inv am il lm ss [] log0 [] []) as (gs & g & E & D & HJ); auto.
  { split; [reflexivity|]. split; [constructor|apply J_reset]. }
  cbn [app] in *. set (l := run_log am il lm log0 ss) in *. unfold finalize_log.
  destruct g as [|s g'] eqn:Eg.
  - exists gs. rewrite app_nil_r in E. split; auto.
    destruct HJ as (Js & _). cbn in Js. unfold add_stat_to_log. cbn [entries].
    change (zlen (@nil Z)) with 0 in Js. rewrite Js. cbn [Z.eqb]. rewrite app_nil_r. auto.
  - rewrite <- Eg in *. assert (g <> []) by (rewrite Eg; discriminate). clear s g' Eg.
    exists (gs ++ [g]). split; [rewrite concat_app; cbn; rewrite app_nil_r; auto|].
    destruct (flush_describes lm g t (avg_window l)) as (en & En & De & _); auto.
    { rewrite E, map_app in F. apply Forall_app in F. apply F. }
    replace l with (mkLog (avg_window l) (avg_last l) (entries l)) at 1 by (destruct l; auto).
    rewrite flush_app, En. apply Forall2_app; auto.
Qed.

(** ** Spacing of the entries *)

Definition times (l : iolog) : list Z := map (fun e => fst (fst e)) (entries l).

(** Consecutive entries are written in different averaging periods. *)
Fixpoint increasing (l : list Z) : Prop :=
  match l with a :: (b :: _) as r => a < b /\ increasing r | _ => True end.

Lemma increasing_snoc l a : increasing l -> (forall x, In x l -> x < a) -> increasing (l ++ [a]).
Proof.
  induction l as [|x l IH]; cbn [app increasing]; auto. intros H1 H2. destruct l as [|y l].
  - cbn. split; auto. apply H2. left; auto.
  - cbn [app]. destruct H1 as [H1 H3]. split; auto. apply IH; auto. intros z Hz. apply H2. right; auto.
Qed.

Definition TInv (am now : Z) (l : iolog) : Prop :=
  increasing (map (fun t => t / am) (times l)) /\
  (forall t, In t (times l) -> am * (t / am) <= avg_last l) /\
  0 <= avg_last l <= now /\ avg_last l mod am = 0.

Lemma log_step_time am lm l e v now : 0 < am < 2 ^ 64 -> now <= e < 2 ^ 64 ->
  TInv am now l -> TInv am e (add_log_sample am true lm l e v).
Proof.
  intros Ha He (I1 & I2 & I3 & I4). unfold add_log_sample. cbn [avg_last].
  destruct (Z.ltb_spec e (avg_last l)) as [C|C]; [lia|].
  rewrite (u64_small (e - avg_last l)) by lia. rewrite orb_true_l, andb_true_r.
  destruct (Z.ltb_spec (e - avg_last l) am) as [C2|C2].
  - unfold TInv, times. cbn [entries avg_last]. repeat split; auto; lia.
  - pose proof (Z.mod_pos_bound e am ltac:(lia)) as Mb. pose proof (Z.div_mod e am ltac:(lia)) as Dm.
    assert (Hpos : 0 <= e / am) by (apply Z.div_pos; lia).
    rewrite u64_small by nia.
    set (new := entries (add_stat_to_log (mkLog (add_stat_sample (avg_window l) v) 0 []) e lm)).
    assert (Ee : entries (add_stat_to_log (mkLog (add_stat_sample (avg_window l) v) (avg_last l) (entries l)) e lm)
                 = entries l ++ new) by reflexivity.
    unfold TInv, times. cbn [entries avg_last avg_window]. rewrite Ee, !map_app.
    assert (Hn : new = [] \/ exists x y, new = [(e, x, y)]).
    { unfold new, add_stat_to_log. cbn [entries avg_window app].
      destruct (samples _ =? 0); [left; auto|]. right. destruct lm; eauto. }
    assert (Hm : (e - e mod am) mod am = 0).
    { replace (e - e mod am) with (e / am * am) by lia. apply Z.mod_mul. lia. }
    split; [|split; [|split; [nia|auto]]].
    + destruct Hn as [->|(x & y & ->)]; cbn [map fst]; [rewrite app_nil_r; auto|].
      apply increasing_snoc; auto. intros z Hz. apply in_map_iff in Hz. destruct Hz as (t & <- & Ht).
      specialize (I2 t Ht). pose proof (Z.div_mod (avg_last l) am ltac:(lia)) as Dl. rewrite I4 in Dl. nia.
    + intros t Ht. apply in_app_or in Ht. destruct Ht as [Ht|Ht].
      * specialize (I2 t Ht). pose proof (Z.div_mod (avg_last l) am ltac:(lia)) as Dl. rewrite I4 in Dl. nia.
      * destruct Hn as [->|(x & y & ->)]; cbn in Ht; [tauto|]. destruct Ht as [<-|[]]. lia.
Qed.

(** The times at which samples are added never go back. *)
Fixpoint nondecreasing (now : Z) (l : list Z) : Prop :=
  match l with [] => True | a :: r => now <= a < 2 ^ 64 /\ nondecreasing a r end.

Lemma run_log_time am lm ss : forall l now, 0 < am < 2 ^ 64 -> nondecreasing now (map fst ss) ->
  TInv am now l -> exists now', TInv am now' (run_log am true lm l ss).
Proof.
  induction ss as [|[e v] ss IH]; intros l now Ha Hn H; [cbn; eauto|].
  cbn [map fst nondecreasing] in Hn. destruct Hn as [H1 H2].
  cbn [run_log fold_left fst snd]. change (fold_left _ ss ?x) with (run_log am true lm x ss).
  eapply IH; eauto. eapply log_step_time; eauto.
Qed.
