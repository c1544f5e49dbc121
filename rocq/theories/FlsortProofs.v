(** Proofs about flist_sort. *)
From Coq Require Import ZArith List Lia Bool Sorting.Permutation Sorting.Sorted.
From Verif Require Import CBase FlsortModel FlsortSpec.
Import ListNotations.
Open Scope Z_scope.

Lemma fupd_same {A} (f : Z -> A) x v : fupd f x v x = v. Proof. unfold fupd. rewrite Z.eqb_refl. auto. Qed.
Lemma fupd_other {A} (f : Z -> A) x v i : i <> x -> fupd f x v i = f i.
Proof. intros. unfold fupd. destruct (Z.eqb_spec i x); congruence. Qed.

(** ** Null-terminated lists *)
Fixpoint seg (nx : Z -> Z) (a : Z) (l : list Z) : Prop :=
  match l with [] => a = 0 | x :: l => a = x /\ 0 < x /\ seg nx (nx x) l end.

Lemma seg_frame nx nx' l : forall a, seg nx a l -> (forall x, In x l -> nx' x = nx x) -> seg nx' a l.
Proof.
  induction l as [|x l IH]; intros a H F; cbn [seg] in *; auto. destruct H as (A & B & C). do 2 (split; [auto|]). rewrite F by (left; auto).
  apply IH; auto. intros; apply F; right; auto.
Qed.
Lemma seg_zero nx a l : seg nx a l -> (a = 0 <-> l = []).
Proof. destruct l as [|x l]; cbn [seg]; [split; auto|]. intros (-> & P & _). split; [lia|discriminate]. Qed.

(** ** Merging *)
Fixpoint mergel (cmp : Z -> Z -> Z) (la : list Z) : list Z -> list Z :=
  fix go (lb : list Z) :=
    match la, lb with
    | [], _ => lb
    | _, [] => la
    | a :: la', b :: lb' => if cmp a b <=? 0 then a :: mergel cmp la' lb else b :: go lb'
    end.
Lemma mergel_nil_l cmp lb : mergel cmp [] lb = lb. Proof. destruct lb; auto. Qed.
Lemma mergel_nil_r cmp la : mergel cmp la [] = la. Proof. destruct la; auto. Qed.
Lemma mergel_cons cmp a la b lb : mergel cmp (a :: la) (b :: lb) = if cmp a b <=? 0 then a :: mergel cmp la (b :: lb) else b :: mergel cmp (a :: la) lb.
Proof. reflexivity. Qed.

(** Induction following the merge. *)
Lemma merge_ind (cmp : Z -> Z -> Z) (P : list Z -> list Z -> Prop) :
  (forall lb, P [] lb) -> (forall la, P la []) ->
  (forall a la b lb, cmp a b <= 0 -> P la (b :: lb) -> P (a :: la) (b :: lb)) ->
  (forall a la b lb, 0 < cmp a b -> P (a :: la) lb -> P (a :: la) (b :: lb)) -> forall la lb, P la lb.
Proof.
  intros H1 H2 H3 H4. induction la as [|a la IH]; auto. induction lb as [|b lb IHb]; auto.
  destruct (Z_le_gt_dec (cmp a b) 0); [apply H3; auto|apply H4; auto; lia].
Qed.

Lemma mergel_perm cmp la lb : Permutation (mergel cmp la lb) (la ++ lb).
Proof.
  revert la lb. apply (merge_ind cmp).
  - intros. rewrite mergel_nil_l. auto.
  - intros. rewrite mergel_nil_r, app_nil_r. auto.
  - intros a la b lb C IH. rewrite mergel_cons. destruct (Z.leb_spec (cmp a b) 0); [|lia]. cbn [app]. constructor. auto.
  - intros a la b lb C IH. rewrite mergel_cons. destruct (Z.leb_spec (cmp a b) 0); [lia|]. apply Permutation_cons_app. auto.
Qed.
Lemma mergel_in cmp la lb x : In x (mergel cmp la lb) <-> In x la \/ In x lb.
Proof.
  rewrite <- in_app_iff. split; intros H; [apply (Permutation_in _ (mergel_perm cmp la lb)); auto|apply (Permutation_in _ (Permutation_sym (mergel_perm cmp la lb))); auto].
Qed.
Lemma mergel_len cmp la lb : (length (mergel cmp la lb) = length la + length lb)%nat.
Proof. rewrite (Permutation_length (mergel_perm cmp la lb)). apply app_length. Qed.

Lemma merge_loop_ok cmp : forall fuel la lb nx a b tail, seg nx a la -> seg nx b lb -> NoDup (la ++ lb) -> ~ In tail (la ++ lb) -> (length la + length lb <= fuel)%nat ->
  exists nx', merge_loop fuel cmp nx a b tail = Some nx' /\ seg nx' (nx' tail) (mergel cmp la lb) /\ (forall y, y <> tail -> ~ In y (la ++ lb) -> nx' y = nx y).
Proof.
  induction fuel as [|fuel IH]; intros la lb nx a b tail SA SB ND NT F.
  - destruct la, lb; cbn [length] in F; try lia. cbn in SA, SB. subst. cbn. eexists. split; [reflexivity|]. split; [apply fupd_same|]. intros. apply fupd_other. auto.
  - cbn [merge_loop]. destruct la as [|x la].
    { cbn [seg] in SA. subst a. cbn [Z.eqb negb andb]. eexists. split; [reflexivity|]. rewrite mergel_nil_l, fupd_same. split; [|intros; apply fupd_other; auto].
      apply (seg_frame nx); auto. intros y Hy. apply fupd_other. intros ->. apply NT. auto. }
    destruct lb as [|y lb].
    { pose proof SA as SA'. cbn [seg] in SA, SB. destruct SA as (-> & PX & SA). subst b. destruct (Z.eqb_spec x 0); [lia|]. cbn [Z.eqb negb andb]. eexists. split; [reflexivity|].
      rewrite mergel_nil_r, fupd_same. split; [|intros; apply fupd_other; auto]. apply (seg_frame nx); auto. intros y Hy. apply fupd_other. intros ->. apply NT, in_or_app. auto. }
    pose proof SA as SA0. pose proof SB as SB0. cbn [seg] in SA, SB. destruct SA as (-> & PX & SA), SB as (-> & PY & SB).
    destruct (Z.eqb_spec x 0); [lia|]. destruct (Z.eqb_spec y 0); [lia|]. cbn [negb andb]. rewrite mergel_cons.
    assert (XT : x <> tail) by (intros ->; apply NT; left; auto). assert (YT : y <> tail) by (intros ->; apply NT, in_or_app; right; left; auto).
    cbn [length] in F. destruct (Z.leb_spec (cmp x y) 0) as [C|C].
    + rewrite fupd_same. rewrite (fupd_other nx tail x x XT).
      cbn [app] in ND. inversion ND as [|? ? NX ND']; subst.
      destruct (IH la (y :: lb) (fupd nx tail x) (nx x) y x) as (nx' & E & S & FR); auto.
      * apply (seg_frame nx); auto. intros z Hz. apply fupd_other. intros ->. apply NT. right. apply in_or_app. auto.
      * apply (seg_frame nx); auto. intros z Hz. apply fupd_other. intros ->. apply NT. right. apply in_or_app. auto.
      * cbn [length]. lia.
      * rewrite E. exists nx'. split; auto. cbn [seg]. assert (ET : nx' tail = x). { rewrite FR; auto; [apply fupd_same|]. intros A. apply NT. right. auto. }
        split; [repeat (split; auto)|]. intros z Z1 Z2. rewrite FR, fupd_other; auto; [intros ->; apply Z2; left; auto|intros A; apply Z2; right; auto].
    + rewrite fupd_same. rewrite (fupd_other nx tail y y YT).
      assert (ND' : ~ In y ((x :: la) ++ lb) /\ NoDup ((x :: la) ++ lb)) by (split; [apply NoDup_remove_2|eapply NoDup_remove_1]; eauto). destruct ND' as [NY ND'].
      assert (IN : forall z, In z ((x :: la) ++ lb) -> In z ((x :: la) ++ y :: lb)) by (intros z Hz; apply in_app_or in Hz; apply in_or_app; cbn in *; tauto).
      destruct (IH (x :: la) lb (fupd nx tail y) x (nx y) y) as (nx' & E & S & FR); auto.
      * apply (seg_frame nx); auto. intros z Hz. apply fupd_other. intros ->. apply NT, IN. apply in_or_app. auto.
      * apply (seg_frame nx); auto. intros z Hz. apply fupd_other. intros ->. apply NT, IN. apply in_or_app. auto.
      * cbn [length]. lia.
      * rewrite E. exists nx'. split; auto. cbn [seg]. assert (ET : nx' tail = y). { rewrite FR; auto. apply fupd_same. }
        split; [repeat (split; auto)|]. intros z Z1 Z2. rewrite FR, fupd_other; auto; intros ->; apply Z2, in_or_app; right; left; auto.
Qed.

Lemma merge_ok cmp fuel la lb nx a b : seg nx a la -> seg nx b lb -> NoDup (la ++ lb) -> Forall (fun x => 0 < x) (la ++ lb) -> (length la + length lb <= fuel)%nat ->
  exists nx' c, merge fuel cmp nx a b = Some (nx', c) /\ seg nx' c (mergel cmp la lb) /\ (forall y, y <> TMP -> ~ In y (la ++ lb) -> nx' y = nx y).
Proof.
  intros SA SB ND P F. unfold merge.
  destruct (merge_loop_ok cmp fuel la lb nx a b TMP SA SB ND) as (nx' & E & S & FR); auto.
  { intros I. rewrite Forall_forall in P. specialize (P _ I). unfold TMP in P. lia. }
  rewrite E. eauto.
Qed.

(** ** The last merge *)
Fixpoint dl (nx pv : Z -> Z) (x : Z) (l : list Z) : Prop :=
  match l with [] => True | y :: l => nx x = y /\ pv y = x /\ dl nx pv y l end.
Lemma last_cons {A} (y : A) l d : last (y :: l) d = last l y.
Proof. revert y d. induction l as [|z l IH]; intros; auto. change (last (y :: z :: l) d) with (last (z :: l) d). rewrite IH. rewrite IH. auto. Qed.
Lemma last_app_ {A} (l1 l2 : list A) d : last (l1 ++ l2) d = last l2 (last l1 d).
Proof. revert d. induction l1 as [|x l1 IH]; intros; auto. cbn [app]. rewrite !last_cons. auto. Qed.
Lemma last_in {A} (l : list A) d : In (last l d) (d :: l).
Proof. revert d. induction l as [|x l IH]; intros; [left; auto|]. rewrite last_cons. right. apply IH. Qed.
Lemma links_dl nx pv h l : forall x, links nx pv h x l <-> dl nx pv x l /\ nx (last l x) = h /\ pv h = last l x.
Proof. induction l as [|y l IH]; intros x; cbn [links dl]; [cbn; tauto|]. rewrite IH, last_cons. tauto. Qed.
Lemma dl_app nx pv l1 l2 : forall x, dl nx pv x (l1 ++ l2) <-> dl nx pv x l1 /\ dl nx pv (last l1 x) l2.
Proof. induction l1 as [|y l IH]; intros x; cbn [dl app]; [cbn; tauto|]. rewrite IH, last_cons. tauto. Qed.
Lemma dl_frame nx pv nx' pv' l : forall x, dl nx pv x l -> (forall y, In y (removelast (x :: l)) -> nx' y = nx y) -> (forall y, In y l -> pv' y = pv y) -> dl nx' pv' x l.
Proof.
  induction l as [|y l IH]; intros x H F G; cbn [dl] in *; auto. destruct H as (A & B & C). change (removelast (x :: y :: l)) with (x :: removelast (y :: l)) in F.
  split; [rewrite F by (left; auto); auto|]. split; [rewrite G by (left; auto); auto|]. apply IH; auto; intros; [apply F|apply G]; right; auto.
Qed.

Lemma restore_ok cmp : forall fuel la lb nx pv a b tail, seg nx a la -> seg nx b lb -> NoDup (la ++ lb) -> ~ In tail (la ++ lb) -> la ++ lb <> [] -> (length la + length lb <= fuel)%nat ->
  exists nx' pv' l1 l2 t', restore_loop fuel cmp nx pv a b tail = Some (nx', pv', t') /\ mergel cmp la lb = l1 ++ l2 /\ l2 <> [] /\
    t' = last l1 tail /\ dl nx' pv' tail l1 /\ seg nx' (nx' t') l2 /\
    (forall y, y <> tail -> ~ In y (la ++ lb) -> nx' y = nx y) /\ (forall y, ~ In y l1 -> pv' y = pv y).
Proof.
  assert (END : forall fuel la lb nx pv a b tail, seg nx a la -> seg nx b lb -> ~ In tail (la ++ lb) -> la ++ lb <> [] -> la = [] \/ lb = [] ->
    exists nx' pv' l1 l2 t', restore_loop fuel cmp nx pv a b tail = Some (nx', pv', t') /\ mergel cmp la lb = l1 ++ l2 /\ l2 <> [] /\
      t' = last l1 tail /\ dl nx' pv' tail l1 /\ seg nx' (nx' t') l2 /\
      (forall y, y <> tail -> ~ In y (la ++ lb) -> nx' y = nx y) /\ (forall y, ~ In y l1 -> pv' y = pv y)).
  { intros fuel la lb nx pv a b tail SA SB NT NE [E|E]; subst.
    - exists (fupd nx tail b), pv, [], lb, tail. cbn [seg] in SA. subst a. rewrite mergel_nil_l. split; [destruct fuel; reflexivity|].
      split; [auto|]. split; [auto|]. split; [auto|]. split; [exact I|]. split; [|split; auto; intros; apply fupd_other; auto].
      rewrite fupd_same. apply (seg_frame nx); auto. intros y Hy. apply fupd_other. intros ->. apply NT. auto.
    - exists (fupd nx tail a), pv, [], la, tail. cbn [seg] in SB. subst b. rewrite mergel_nil_r, app_nil_r in *.
      assert (a <> 0) by (intros ->; apply NE; apply (seg_zero nx 0); auto).
      split. { destruct fuel; cbn [restore_loop]; rewrite andb_false_r; destruct (Z.eqb_spec a 0); [lia|reflexivity|lia|reflexivity]. }
      split; [auto|]. split; [auto|]. split; [auto|]. split; [exact I|]. split; [|split; auto; intros; apply fupd_other; auto].
      rewrite fupd_same. apply (seg_frame nx); auto. intros y Hy. apply fupd_other. intros ->. apply NT. auto. }
  induction fuel as [|fuel IH]; intros la lb nx pv a b tail SA SB ND NT NE F.
  - apply END; auto. destruct la, lb; cbn [length] in F; try lia. auto.
  - destruct la as [|x la]; [apply END; auto|]. destruct lb as [|y lb]; [apply END; auto|].
    pose proof SA as SA0. pose proof SB as SB0. cbn [seg] in SA, SB. destruct SA as (-> & PX & SA), SB as (-> & PY & SB). cbn [restore_loop].
    destruct (Z.eqb_spec x 0); [lia|]. destruct (Z.eqb_spec y 0); [lia|]. cbn [negb andb]. rewrite mergel_cons.
    assert (XT : x <> tail) by (intros ->; apply NT; left; auto). assert (YT : y <> tail) by (intros ->; apply NT, in_or_app; right; left; auto).
    cbn [length] in F. destruct (Z.leb_spec (cmp x y) 0) as [C|C].
    + rewrite fupd_same. rewrite (fupd_other nx tail x x XT).
      cbn [app] in ND. inversion ND as [|? ? NX ND']; subst.
      destruct (IH la (y :: lb) (fupd nx tail x) (fupd pv x tail) (nx x) y x) as (nx' & pv' & l1 & l2 & t' & E & M & N2 & T & D & S & FR & FP); auto.
      * apply (seg_frame nx); auto. intros z Hz. apply fupd_other. intros ->. apply NT. right. apply in_or_app. auto.
      * apply (seg_frame nx); auto. intros z Hz. apply fupd_other. intros ->. apply NT. right. apply in_or_app. auto.
      * destruct la; discriminate.
      * cbn [length]. lia.
      * assert (NX1 : ~ In x l1). { intros I. apply NX. apply in_or_app. apply (proj1 (mergel_in cmp la (y :: lb) x)). rewrite M. apply in_or_app. auto. }
        rewrite E. exists nx', pv', (x :: l1), l2, t'. split; [auto|]. split; [rewrite M; auto|]. split; [auto|]. split; [rewrite last_cons; auto|].
        cbn [dl]. split.
        { split. { rewrite FR; auto; [apply fupd_same|]. intros A. apply NT. right. auto. } split; auto. rewrite FP by auto. apply fupd_same. }
        split; [auto|]. split. { intros z Z1 Z2. rewrite FR, fupd_other; auto; [intros ->; apply Z2; left; auto|intros A; apply Z2; right; auto]. }
        intros z Hz. rewrite FP, fupd_other; auto; cbn in Hz; [intros ->|]; tauto.
    + rewrite fupd_same. rewrite (fupd_other nx tail y y YT).
      assert (ND' : ~ In y ((x :: la) ++ lb) /\ NoDup ((x :: la) ++ lb)) by (split; [apply NoDup_remove_2|eapply NoDup_remove_1]; eauto). destruct ND' as [NY ND'].
      assert (IN : forall z, In z ((x :: la) ++ lb) -> In z ((x :: la) ++ y :: lb)) by (intros z Hz; apply in_app_or in Hz; apply in_or_app; cbn in *; tauto).
      destruct (IH (x :: la) lb (fupd nx tail y) (fupd pv y tail) x (nx y) y) as (nx' & pv' & l1 & l2 & t' & E & M & N2 & T & D & S & FR & FP); auto.
      * apply (seg_frame nx); auto. intros z Hz. apply fupd_other. intros ->. apply NT, IN. apply in_or_app. auto.
      * apply (seg_frame nx); auto. intros z Hz. apply fupd_other. intros ->. apply NT, IN. apply in_or_app. auto.
      * discriminate.
      * cbn [length]. lia.
      * assert (NX1 : ~ In y l1). { intros I. apply NY. apply in_or_app. apply (proj1 (mergel_in cmp (x :: la) lb y)). rewrite M. apply in_or_app. auto. }
        rewrite E. exists nx', pv', (y :: l1), l2, t'. split; [auto|]. split; [rewrite M; auto|]. split; [auto|]. split; [rewrite last_cons; auto|].
        cbn [dl]. split.
        { split. { rewrite FR; auto. apply fupd_same. } split; auto. rewrite FP by auto. apply fupd_same. }
        split; [auto|]. split. { intros z Z1 Z2. rewrite FR, fupd_other; auto; intros ->; apply Z2, in_or_app; right; left; auto. }
        intros z Hz. rewrite FP, fupd_other; auto; cbn in Hz; [intros ->|]; tauto.
Qed.

Lemma back_ok : forall fuel l nx pv t, l <> [] -> seg nx (nx t) l -> NoDup (t :: l) -> (length l <= fuel)%nat ->
  exists pv', back_loop fuel nx pv t = Some (pv', last l t) /\ dl nx pv' t l /\ nx (last l t) = 0 /\ forall y, ~ In y l -> pv' y = pv y.
Proof.
  induction fuel as [|fuel IH]; intros l nx pv t NE S ND F; [destruct l; cbn [length] in F; [congruence|lia]|].
  destruct l as [|x l]; [congruence|]. cbn [seg] in S. destruct S as (EX & PX & S). cbn [back_loop]. rewrite EX. destruct (Z.eqb_spec x 0); [lia|].
  inversion ND as [|? ? N1 N2]; subst. cbn [length] in F. destruct l as [|y l].
  - cbn [seg] in S. rewrite S. cbn [Z.eqb last]. eexists. split; [reflexivity|]. cbn [dl]. rewrite fupd_same.
    split; [auto|]. split; [auto|]. intros z Hz. apply fupd_other. cbn in Hz. intuition congruence.
  - pose proof S as S'. cbn [seg] in S. destruct S as (EY & PY & S). destruct (Z.eqb_spec (nx (nx t)) 0); [lia|].
    destruct (IH (y :: l) nx (fupd pv (nx t) t) (nx t)) as (pv' & E & D & L & FR); auto; [discriminate|lia|].
    rewrite E. rewrite (last_cons (nx t)). exists pv'. split; [auto|]. split; [|split; auto; intros z Hz; rewrite FR, fupd_other; auto; cbn in Hz |- *; intuition congruence].
    change (dl nx pv' t (nx t :: y :: l)) with (nx t = nx t /\ pv' (nx t) = t /\ dl nx pv' (nx t) (y :: l)). split; [auto|]. split; auto.
    rewrite FR; [apply fupd_same|]. inversion N2; auto.
Qed.

Lemma nodup_cons_app_r {A} (x : A) l1 l2 : NoDup (x :: l1 ++ l2) -> NoDup (last l1 x :: l2).
Proof.
  revert x. induction l1 as [|y l1 IH]; intros x H; auto. rewrite last_cons. apply IH. inversion H; auto.
Qed.

Lemma merge_and_restore_ok cmp fuel nx pv head la lb a b : seg nx a la -> seg nx b lb -> NoDup (head :: la ++ lb) -> la ++ lb <> [] -> (length la + length lb <= fuel)%nat ->
  exists nx' pv', merge_and_restore fuel cmp nx pv head a b = Some (nx', pv') /\ links nx' pv' head head (mergel cmp la lb) /\
    (forall y, ~ In y (head :: la ++ lb) -> nx' y = nx y /\ pv' y = pv y).
Proof.
  intros SA SB ND NE F. unfold merge_and_restore. inversion ND as [|? ? NH ND']; subst.
  destruct (restore_ok cmp fuel la lb nx pv a b head SA SB ND' NH NE F) as (nx1 & pv1 & l1 & l2 & t & E & M & N2 & T & D & S & FR & FP).
  rewrite E. assert (NM : NoDup (head :: l1 ++ l2)).
  { rewrite <- M. constructor; [|apply (Permutation_NoDup (Permutation_sym (mergel_perm cmp la lb))); auto].
    intros I. apply NH. apply in_or_app. apply (proj1 (mergel_in cmp la lb head)). auto. }
  assert (LEN : (length (l1 ++ l2) <= fuel)%nat) by (rewrite <- M, mergel_len; auto). rewrite app_length in LEN.
  destruct (back_ok fuel l2 nx1 pv1 t N2 S) as (pv2 & E2 & D2 & L2 & FP2); [subst t; apply nodup_cons_app_r; auto|lia|].
  rewrite E2. eexists _, _. split; [reflexivity|].
  assert (LL : last l2 t = last (l1 ++ l2) head) by (rewrite last_app_; subst t; auto).
  assert (NHM : ~ In head (l1 ++ l2)) by (inversion NM; auto).
  assert (LIN : In (last (l1 ++ l2) head) (l1 ++ l2)).
  { rewrite last_app_. destruct l2 as [|z l2]; [congruence|]. rewrite last_cons. apply in_or_app. right. apply last_in. }
  split.
  - rewrite M, links_dl, LL. rewrite !fupd_same. split; [|auto]. apply (dl_frame nx1 pv2).
    + apply dl_app. split; [|subst t; auto]. apply (dl_frame nx1 pv1); auto. intros y Hy. apply FP2. intros I.
      inversion NM as [|? ? _ NM']; subst. clear - NM' Hy I. induction l1 as [|z l1 IH]; [destruct Hy|]. cbn in NM'. inversion NM'; subst. destruct Hy as [->|Hy]; [apply H1, in_or_app; auto|auto].
    + intros y Hy. apply fupd_other. intros ->. revert Hy. clear - NM N2. intros Hy.
      assert (L : head :: l1 ++ l2 = removelast (head :: l1 ++ l2) ++ [last (head :: l1 ++ l2) head]) by (apply app_removelast_last; discriminate).
      rewrite L in NM. rewrite last_cons in NM. apply NoDup_remove_2 in NM. apply NM. rewrite app_nil_r. auto.
    + intros y Hy. apply fupd_other. intros ->. auto.
  - intros y Hy. assert (Y1 : y <> head) by (intros ->; apply Hy; left; auto). assert (Y2 : ~ In y (la ++ lb)) by (intros I; apply Hy; right; auto).
    assert (Y3 : ~ In y (l1 ++ l2)). { rewrite <- M. intros I. apply Y2. apply in_or_app. apply (proj1 (mergel_in cmp la lb y)). auto. }
    split; [rewrite fupd_other; [apply FR; auto|rewrite LL; intros ->; auto]|].
    rewrite fupd_other by auto. rewrite FP2, FP; auto; intros I; apply Y3, in_or_app; auto.
Qed.

(** ** Order and stability *)
Definition le (cmp : Z -> Z -> Z) x y := cmp x y <= 0.
Definition srt (cmp : Z -> Z -> Z) (U l : list Z) : Prop := order cmp U -> StronglySorted (le cmp) l.
Definition st (cmp : Z -> Z -> Z) (U l l' : list Z) : Prop :=
  Permutation l l' /\ (order cmp U -> forall x, In x U -> filter (equiv cmp x) l' = filter (equiv cmp x) l).
Lemma st_refl cmp U l : st cmp U l l. Proof. split; auto. Qed.
Lemma st_trans cmp U a b c : st cmp U a b -> st cmp U b c -> st cmp U a c.
Proof. intros [A B] [C D]. split; [etransitivity; eauto|]. intros O x I. rewrite D, B; auto. Qed.
Lemma st_app cmp U a b c d : st cmp U a b -> st cmp U c d -> st cmp U (a ++ c) (b ++ d).
Proof. intros [A B] [C D]. split; [apply Permutation_app; auto|]. intros O x I. rewrite !filter_app, B, D; auto. Qed.
Lemma equiv_ok cmp x y : equiv cmp x y = true <-> cmp x y <= 0 /\ cmp y x <= 0.
Proof. unfold equiv. rewrite andb_true_iff, !Z.leb_le. tauto. Qed.

Lemma mergel_sorted cmp U la lb : order cmp U -> incl la U -> incl lb U -> StronglySorted (le cmp) la -> StronglySorted (le cmp) lb -> StronglySorted (le cmp) (mergel cmp la lb).
Proof.
  intros [TOT TR]. revert la lb. apply (merge_ind cmp (fun la lb => incl la U -> incl lb U -> StronglySorted (le cmp) la -> StronglySorted (le cmp) lb -> StronglySorted (le cmp) (mergel cmp la lb))).
  - intros. rewrite mergel_nil_l. auto.
  - intros. rewrite mergel_nil_r. auto.
  - intros a la b lb C IH IA IB SA SB. rewrite mergel_cons. destruct (Z.leb_spec (cmp a b) 0); [|lia]. inversion SA as [|? ? SA' FA]; inversion SB as [|? ? SB' FB]; subst.
    constructor; [apply IH; auto; intros z Hz; apply IA; right; auto|]. apply Forall_forall. intros z Hz. apply mergel_in in Hz. rewrite Forall_forall in FA, FB.
    destruct Hz as [Hz|[->|Hz]]; [apply FA; auto|auto|]. unfold le in *. apply (TR a b z); [apply IA; left; auto|apply IB; left; auto|apply IB; right; auto|lia|apply FB; auto].
  - intros a la b lb C IH IA IB SA SB. rewrite mergel_cons. destruct (Z.leb_spec (cmp a b) 0); [lia|]. inversion SA as [|? ? SA' FA]; inversion SB as [|? ? SB' FB]; subst.
    assert (BA : cmp b a <= 0). { destruct (TOT a b) as [T|T]; [apply IA; left; auto|apply IB; left; auto|lia|auto]. }
    constructor; [apply IH; auto; intros z Hz; apply IB; right; auto|]. apply Forall_forall. intros z Hz. apply mergel_in in Hz. rewrite Forall_forall in FA, FB.
    destruct Hz as [[->|Hz]|Hz]; [auto| |apply FB; auto]. unfold le in *. apply (TR b a z); [apply IB; left; auto|apply IA; left; auto|apply IA; right; auto|lia|apply FA; auto].
Qed.

Lemma mergel_stable cmp U la lb x : order cmp U -> incl la U -> incl lb U -> In x U -> StronglySorted (le cmp) la ->
  filter (equiv cmp x) (mergel cmp la lb) = filter (equiv cmp x) la ++ filter (equiv cmp x) lb.
Proof.
  intros [TOT TR] IA IB IX. revert la lb IA IB. apply (merge_ind cmp (fun la lb => incl la U -> incl lb U -> StronglySorted (le cmp) la ->
    filter (equiv cmp x) (mergel cmp la lb) = filter (equiv cmp x) la ++ filter (equiv cmp x) lb)).
  - intros. rewrite mergel_nil_l. auto.
  - intros. rewrite mergel_nil_r. cbn [filter]. rewrite app_nil_r. auto.
  - intros a la b lb C IH IA IB SA. rewrite mergel_cons. destruct (Z.leb_spec (cmp a b) 0); [|lia]. inversion SA as [|? ? SA' FA]; subst.
    assert (E : filter (equiv cmp x) (mergel cmp la (b :: lb)) = filter (equiv cmp x) la ++ filter (equiv cmp x) (b :: lb)) by (apply IH; auto; intros z Hz; apply IA; right; auto).
    change (filter (equiv cmp x) (a :: mergel cmp la (b :: lb))) with (if equiv cmp x a then a :: filter (equiv cmp x) (mergel cmp la (b :: lb)) else filter (equiv cmp x) (mergel cmp la (b :: lb))).
    rewrite E. change (filter (equiv cmp x) (a :: la)) with (if equiv cmp x a then a :: filter (equiv cmp x) la else filter (equiv cmp x) la). destruct (equiv cmp x a); auto.
  - intros a la b lb C IH IA IB SA. rewrite mergel_cons. destruct (Z.leb_spec (cmp a b) 0); [lia|].
    assert (E : filter (equiv cmp x) (mergel cmp (a :: la) lb) = filter (equiv cmp x) (a :: la) ++ filter (equiv cmp x) lb) by (apply IH; auto; intros z Hz; apply IB; right; auto).
    change (filter (equiv cmp x) (b :: mergel cmp (a :: la) lb)) with (if equiv cmp x b then b :: filter (equiv cmp x) (mergel cmp (a :: la) lb) else filter (equiv cmp x) (mergel cmp (a :: la) lb)).
    rewrite E. change (filter (equiv cmp x) (b :: lb)) with (if equiv cmp x b then b :: filter (equiv cmp x) lb else filter (equiv cmp x) lb).
    destruct (equiv cmp x b) eqn:EB; auto. apply equiv_ok in EB.
    assert (NO : filter (equiv cmp x) (a :: la) = []).
    { destruct (filter (equiv cmp x) (a :: la)) as [|c r] eqn:FE; auto. exfalso. assert (IC : In c (filter (equiv cmp x) (a :: la))) by (rewrite FE; left; auto).
      apply filter_In in IC. destruct IC as [IC EC]. apply equiv_ok in EC. inversion SA as [|? ? SA' FA]; subst. rewrite Forall_forall in FA. unfold le in FA.
      assert (UA : In a U) by (apply IA; left; auto). assert (UB : In b U) by (apply IB; left; auto). assert (UC : In c U) by (apply IA; auto).
      assert (CB : cmp c b <= 0) by (apply (TR c x b); tauto).
      destruct IC as [->|IC]; [lia|]. specialize (FA _ IC). specialize (TR a c b UA UC UB FA CB). lia. }
    rewrite NO. auto.
Qed.

Lemma mergel_st cmp U la lb : incl la U -> incl lb U -> srt cmp U la -> srt cmp U lb -> st cmp U (la ++ lb) (mergel cmp la lb) /\ srt cmp U (mergel cmp la lb).
Proof.
  intros IA IB SA SB. split; [split; [apply Permutation_sym, mergel_perm|]|].
  - intros O x I. rewrite (mergel_stable cmp U), filter_app; auto.
  - intros O. apply (mergel_sorted cmp U); auto.
Qed.

(** ** The array of partial lists *)
Definition foldm cmp (P : list (list Z)) (acc : list Z) : list Z := fold_left (fun acc p => mergel cmp p acc) P acc.
Lemma foldm_st cmp U : forall P acc, incl (concat P) U -> incl acc U -> Forall (srt cmp U) P -> srt cmp U acc ->
  st cmp U (concat (rev P) ++ acc) (foldm cmp P acc) /\ srt cmp U (foldm cmp P acc).
Proof.
  induction P as [|p P IH]; intros acc IP IA SP SA; [split; auto; apply st_refl|]. cbn [foldm fold_left]. fold (foldm cmp P (mergel cmp p acc)).
  inversion SP as [|? ? Sp SP']; subst. cbn [concat] in IP. assert (Ip : incl p U) by (intros z Hz; apply IP, in_or_app; auto). assert (IP' : incl (concat P) U) by (intros z Hz; apply IP, in_or_app; auto).
  destruct (mergel_st cmp U p acc Ip IA Sp SA) as [M1 M2].
  destruct (IH (mergel cmp p acc)) as [S1 S2]; auto. { intros z Hz. apply mergel_in in Hz. destruct Hz; auto. }
  split; auto. eapply st_trans; [|exact S1]. cbn [rev]. rewrite concat_app. cbn [concat]. rewrite app_nil_r, <- app_assoc. apply st_app; auto. apply st_refl.
Qed.
Lemma foldm_in cmp x : forall P acc, In x (foldm cmp P acc) <-> In x (concat P) \/ In x acc.
Proof.
  induction P as [|p P IH]; intros acc; cbn [foldm fold_left concat]; [cbn; tauto|]. fold (foldm cmp P (mergel cmp p acc)). rewrite IH, mergel_in, in_app_iff. tauto.
Qed.
Lemma foldm_len cmp : forall P acc, (length (foldm cmp P acc) = length (concat P) + length acc)%nat.
Proof.
  induction P as [|p P IH]; intros acc; cbn [foldm fold_left concat]; auto. fold (foldm cmp P (mergel cmp p acc)). rewrite IH, mergel_len, app_length. lia.
Qed.
Lemma foldm_perm cmp : forall P acc, Permutation (foldm cmp P acc) (concat P ++ acc).
Proof.
  induction P as [|p P IH]; intros acc; cbn [foldm fold_left concat]; auto. fold (foldm cmp P (mergel cmp p acc)). rewrite IH, mergel_perm.
  rewrite app_assoc. apply Permutation_app_tail, Permutation_app_comm.
Qed.

Lemma znth_app_repeat k (x : Z) parts : znth (repeat 0 k ++ x :: parts) (Z.of_nat k) = Some x.
Proof. unfold znth. destruct (Z.ltb_spec (Z.of_nat k) 0); [lia|]. rewrite Nat2Z.id, nth_error_app2; rewrite repeat_length; auto. rewrite Nat.sub_diag. auto. Qed.
Lemma upd_app_repeat k (x y : Z) parts : upd (repeat 0 k ++ x :: parts) k y = repeat 0 k ++ y :: parts.
Proof. induction k as [|k IH]; cbn [repeat app upd]; auto. rewrite IH. auto. Qed.
Lemma zupd_app_repeat k (x y : Z) parts : zupd (repeat 0 k ++ x :: parts) (Z.of_nat k) y = Some (repeat 0 k ++ y :: parts).
Proof. rewrite zupd_some; [rewrite Nat2Z.id, upd_app_repeat; auto|]. unfold zlen. rewrite app_length, repeat_length. cbn [length]. lia. Qed.
Lemma repeat_snoc {A} (x : A) k l : repeat x k ++ x :: l = repeat x (S k) ++ l.
Proof. induction k as [|k IH]; cbn [repeat app]; auto. cbn [repeat app] in IH. rewrite IH. auto. Qed.
Lemma nd_app_l {A} (a b : list A) : NoDup (a ++ b) -> NoDup a.
Proof. induction a; intros H; constructor; inversion H; subst; auto. intros I. apply H2, in_or_app; auto. Qed.
Lemma nd_app_r {A} (a b : list A) : NoDup (a ++ b) -> NoDup b.
Proof. induction a; intros H; auto. inversion H; auto. Qed.
Lemma nd_app_disj {A} (a b : list A) x : NoDup (a ++ b) -> In x a -> In x b -> False.
Proof. induction a as [|y a IH]; intros H I J; [destruct I|]. inversion H; subst. destruct I as [->|I]; [apply H2, in_or_app; auto|auto]. Qed.
Lemma pos_not_tmp l x : Forall (fun x => 0 < x) l -> In x l -> x <> TMP.
Proof. intros F I. rewrite Forall_forall in F. specialize (F _ I). unfold TMP. lia. Qed.

Lemma segs_frame nx nx' parts P : Forall2 (seg nx) parts P -> (forall x, In x (concat P) -> nx' x = nx x) -> Forall2 (seg nx') parts P.
Proof.
  induction 1 as [|a l parts P S H IH]; intros F; constructor.
  - apply (seg_frame nx); auto. intros; apply F; cbn [concat]; apply in_or_app; auto.
  - apply IH. intros; apply F; cbn [concat]; apply in_or_app; auto.
Qed.

Lemma carry_ok cmp fuel : forall P parts n nx k cur lc, Forall2 (seg nx) parts P -> seg nx cur lc -> NoDup (concat P ++ lc) -> Forall (fun x => 0 < x) (concat P ++ lc) ->
  In [] P -> (length P <= n)%nat -> (length (concat P) + length lc <= fuel)%nat ->
  exists P1 P2 nx' parts2 c, P = P1 ++ [] :: P2 /\ Forall (fun p => p <> []) P1 /\
    carry n fuel cmp nx (repeat 0 k ++ parts) (Z.of_nat k) cur = Some (nx', repeat 0 (k + length P1) ++ 0 :: parts2, Z.of_nat (k + length P1), c) /\
    Forall2 (seg nx') parts2 P2 /\ seg nx' c (foldm cmp P1 lc) /\ (forall y, y <> TMP -> ~ In y (concat P ++ lc) -> nx' y = nx y).
Proof.
  induction P as [|p P IH]; intros parts n nx k cur lc SP SC ND PO EM LN FU; [destruct EM|].
  inversion SP as [|a ? parts' ? Sp SP']; subst. destruct n as [|n]; [cbn in LN; lia|]. cbn [carry]. rewrite znth_app_repeat.
  destruct (Z.eqb_spec a 0) as [A0|A0].
  - assert (p = []) by (apply (seg_zero nx a); auto). subst p a. exists [], P, nx, parts', cur. cbn [app length foldm fold_left]. rewrite Nat.add_0_r.
    do 2 (split; [auto|]). split; [auto|]. auto.
  - assert (NEp : p <> []) by (intros ->; apply A0; apply (seg_zero nx a []); auto).
    destruct EM as [->|EM]; [congruence|]. cbn [concat] in *. rewrite <- app_assoc in *. rewrite app_length in FU.
    assert (PERM : Permutation (p ++ concat P ++ lc) (concat P ++ p ++ lc)).
    { rewrite !app_assoc. apply Permutation_app_tail, Permutation_app_comm. }
    assert (NDpl : NoDup (p ++ lc)) by (apply (nd_app_r (concat P)); apply (Permutation_NoDup PERM); auto).
    assert (POpl : Forall (fun x => 0 < x) (p ++ lc)). { rewrite Forall_forall in *. intros x I. apply PO. apply in_app_or in I. apply in_or_app. rewrite in_app_iff. tauto. }
    destruct (merge_ok cmp fuel p lc nx a cur Sp SC NDpl POpl) as (nx1 & c1 & E1 & S1 & FR1); [lia|]. rewrite E1. rewrite zupd_app_repeat. cbn [fst snd].
    rewrite repeat_snoc. replace (Z.of_nat k + 1) with (Z.of_nat (S k)) by lia.
    assert (P2m : Permutation (concat P ++ mergel cmp p lc) (p ++ concat P ++ lc)).
    { rewrite (mergel_perm cmp p lc). apply Permutation_sym. auto. }
    assert (SP1 : Forall2 (seg nx1) parts' P).
    { apply (segs_frame nx); auto. intros x I. apply FR1.
      - apply (pos_not_tmp _ _ PO). apply in_or_app; right; apply in_or_app; auto.
      - intros J. apply (nd_app_disj (concat P) (p ++ lc) x); auto. apply (Permutation_NoDup PERM); auto. }
    destruct (IH parts' n nx1 (S k) c1 (mergel cmp p lc)) as (P1 & P2 & nx' & parts2 & c & EP & NE & EC & SP2 & SC2 & FR2); auto.
    + apply (Permutation_NoDup (Permutation_sym P2m)). auto.
    + apply (Permutation_Forall (Permutation_sym P2m)). auto.
    + cbn [length] in LN. lia.
    + rewrite mergel_len. lia.
    + exists (p :: P1), P2, nx', parts2, c. split; [subst P; auto|]. split; [constructor; auto|]. cbn [length]. rewrite EC.
      split; [replace (S k + length P1)%nat with (k + S (length P1))%nat by lia; auto|]. split; [auto|]. split; [auto|].
      intros y Y1 Y2. rewrite FR2, FR1; auto; [intros I; apply Y2; apply in_app_or in I; apply in_or_app; rewrite in_app_iff; tauto|].
      intros I. apply Y2. apply (Permutation_in _ P2m). auto.
Qed.

(** What holds of part[] between two elements; [done] are the elements already taken, in the order of the list. *)
Record inv (cmp : Z -> Z -> Z) (U : list Z) (nx : Z -> Z) (part : list Z) (P : list (list Z)) (ml : Z) (done : list Z) : Prop := mkinv {
  i_seg : Forall2 (seg nx) part P;
  i_len : length P = 21%nat;
  i_ml : 0 <= ml <= 19;
  i_top : forall i, ml < Z.of_nat i -> nth i P [] = [];
  i_st : st cmp U done (concat (rev P));
  i_srt : Forall (srt cmp U) P }.

Lemma concat_rev_perm {A} (P : list (list A)) : Permutation (concat (rev P)) (concat P).
Proof. induction P as [|p P IH]; cbn [rev concat]; auto. rewrite concat_app. cbn [concat]. rewrite app_nil_r, IH. apply Permutation_app_comm. Qed.
Lemma concat_repeat_nil {A} k : concat (repeat (@nil A) k) = [].
Proof. induction k; auto. Qed.
Lemma rev_repeat_ {A} (x : A) k : rev (repeat x k) = repeat x k.
Proof. induction k as [|k IH]; auto. cbn [repeat rev]. rewrite IH, repeat_snoc, app_nil_r. auto. Qed.

Lemma segs_nil nx k : Forall2 (seg nx) (repeat 0 k) (repeat [] k).
Proof. induction k; constructor; auto. reflexivity. Qed.

Lemma f2_len {A B} (R : A -> B -> Prop) l l' : Forall2 R l l' -> length l = length l'.
Proof. induction 1; cbn [length]; auto. Qed.

Lemma add_one_ok cmp U fuel nx part P ml done x : inv cmp U nx part P ml done -> NoDup (done ++ [x]) -> Forall (fun x => 0 < x) (done ++ [x]) -> incl (done ++ [x]) U -> (length done + 1 <= fuel)%nat ->
  exists nx' part' P' ml', add_one fuel cmp nx part ml x = Some (nx', part', ml') /\ inv cmp U nx' part' P' ml' (done ++ [x]) /\
    (forall y, y <> TMP -> ~ In y (done ++ [x]) -> nx' y = nx y).
Proof.
  intros I ND PO IU FU. pose proof I as [SG LN ML TOP ST SR]. unfold add_one.
  assert (PD : Permutation (concat P) done). { rewrite <- concat_rev_perm. symmetry. apply (proj1 ST). }
  assert (PDX : Permutation (concat P ++ [x]) (done ++ [x])) by (apply Permutation_app_tail; auto).
  assert (PX : 0 < x). { rewrite Forall_forall in PO. apply PO, in_or_app. right. left. auto. }
  assert (NX : ~ In x (concat P)). { intros J. apply (nd_app_disj (concat P) [x] x); [apply (Permutation_NoDup (Permutation_sym PDX)); auto|auto|left; auto]. }
  destruct (carry_ok cmp fuel P part 21 (fupd nx x 0) 0 x [x]) as (P1 & P2 & nx' & parts2 & c & EP & NE & EC & SP2 & SC2 & FR).
  - apply (segs_frame nx); auto. intros y J. apply fupd_other. intros ->. auto.
  - cbn [seg]. rewrite fupd_same. auto.
  - apply (Permutation_NoDup (Permutation_sym PDX)). auto.
  - apply (Permutation_Forall (Permutation_sym PDX)). auto.
  - rewrite <- (TOP 20%nat); [|lia]. apply nth_In. lia.
  - lia.
  - rewrite (Permutation_length PD). cbn [length]. lia.
  - cbn [repeat app] in EC. change (Z.of_nat 0) with 0 in EC. cbn [Nat.add] in EC. rewrite EC.
    set (j := length P1) in *.
    assert (J20 : (j <= 20)%nat). { apply (f_equal (@length _)) in EP. rewrite app_length in EP. cbn [length] in EP. fold j in EP. lia. }
    assert (JM : Z.of_nat j <= ml + 1).
    { destruct (Z_le_gt_dec (Z.of_nat j) (ml + 1)); auto. exfalso. assert (N : nth (j - 1) P [] = []) by (apply TOP; lia).
      rewrite EP, app_nth1 in N by (fold j; lia). rewrite Forall_forall in NE. apply (NE (nth (j - 1) P1 [])); auto. apply nth_In. fold j. lia. }
    assert (SR1 : Forall (srt cmp U) P1 /\ Forall (srt cmp U) P2).
    { rewrite EP in SR. apply Forall_app in SR. destruct SR as [R1 R2]. inversion R2; auto. } destruct SR1 as [SR1 SR2].
    assert (IP : incl (concat P) U). { intros y J. apply IU. apply in_or_app. left. apply (Permutation_in _ PD). auto. }
    assert (IP1 : incl (concat P1) U). { intros y J. apply IP. rewrite EP, concat_app. apply in_or_app. auto. }
    destruct (foldm_st cmp U P1 [x]) as [FS1 FS2]; auto. { intros y [->|[]]. apply IU, in_or_app. right. left. auto. } { intros _. constructor; constructor. }
    assert (STN : st cmp U (done ++ [x]) (concat (rev P2) ++ foldm cmp P1 [x])).
    { apply (st_trans _ _ _ (concat (rev P) ++ [x])); [apply st_app; [auto|apply st_refl]|]. rewrite EP, rev_app_distr, concat_app. cbn [rev]. rewrite concat_app. cbn [concat]. rewrite !app_nil_r, <- app_assoc.
      apply st_app; [apply st_refl|auto]. }
    assert (FRM : forall y, y <> TMP -> ~ In y (done ++ [x]) -> nx' y = nx y).
    { intros y Y1 Y2. rewrite FR; auto; [apply fupd_other; intros ->; apply Y2, in_or_app; right; left; auto|]. intros J. apply Y2. apply (Permutation_in _ PDX). auto. }
    assert (LP : (j + 1 + length P2 = 21)%nat). { apply (f_equal (@length _)) in EP. rewrite app_length in EP. cbn [length] in EP. fold j in EP. lia. }
    assert (TOP2 : forall i, ml < Z.of_nat (j + 1 + i) -> nth i P2 [] = []).
    { intros i L. specialize (TOP (j + 1 + i)%nat L). rewrite EP, app_nth2 in TOP by (fold j; lia). fold j in TOP. replace (j + 1 + i - j)%nat with (S i) in TOP by lia. auto. }
    destruct (Nat.eq_dec j 20) as [J|J].
    + (* the last level is full: it stays at level 19 *)
      rewrite J in *. assert (ml = 19) by lia. subst ml. destruct P2; [|cbn [length] in LP; lia]. inversion SP2; subst parts2.
      change (Z.of_nat 20) with 20. change (20 >? 19) with true. unfold MAX_BITS. change (20 >=? 20) with true. change (20 - 1) with (Z.of_nat 19). cbn iota.
      pose proof (zupd_app_repeat 19 0 c [0]) as ZU. change (repeat 0 19 ++ [0; 0]) with (repeat 0 20 ++ [0]) in ZU. rewrite ZU.
      eexists _, _, (repeat [] 19 ++ [foldm cmp P1 [x]; []]), _. split; [reflexivity|]. split; [|exact FRM]. constructor.
      * apply Forall2_app; [apply segs_nil|]. constructor; [auto|]. constructor; [cbn; auto|constructor].
      * reflexivity.
      * lia.
      * intros i L. rewrite app_nth2; rewrite repeat_length; [|lia]. destruct (i - 19)%nat as [|[|[|]]] eqn:E; auto; lia.
      * cbn [repeat app rev concat]. cbn [rev concat app] in STN. rewrite app_nil_r. exact STN.
      * apply Forall_app. split; [apply Forall_forall; intros p Hp; apply repeat_spec in Hp; subst; intros _; constructor|]. constructor; auto. constructor; [intros _; constructor|constructor].
    + assert (RES : forall ml', Z.of_nat j <= ml' <= 19 -> ml <= ml' -> inv cmp U nx' (repeat 0 j ++ c :: parts2) (repeat [] j ++ foldm cmp P1 [x] :: P2) ml' (done ++ [x])).
      { intros ml' M1 M2. constructor.
        - apply Forall2_app; [apply segs_nil|]. constructor; auto.
        - rewrite app_length, repeat_length. cbn [length]. lia.
        - lia.
        - intros i L. rewrite app_nth2; rewrite repeat_length; [|lia]. destruct (i - j)%nat as [|q] eqn:E; [lia|]. cbn [nth]. apply TOP2. lia.
        - rewrite rev_app_distr, rev_repeat_, concat_app, concat_repeat_nil, app_nil_r. cbn [rev]. rewrite concat_app. cbn [concat]. rewrite app_nil_r. exact STN.
        - apply Forall_app. split; [apply Forall_forall; intros p Hp; apply repeat_spec in Hp; subst; intros _; constructor|]. constructor; auto. }
      destruct (Z.of_nat j >? ml) eqn:G; [rewrite Z.gtb_lt in G|apply Z.gtb_ltb in G || (rewrite Z.gtb_ltb in G; apply Z.ltb_ge in G)].
      * destruct (Z.of_nat j >=? MAX_BITS) eqn:G2; [unfold MAX_BITS in G2; apply Z.geb_le in G2; lia|]. rewrite zupd_app_repeat. eexists _, _, _, _. split; [reflexivity|].
        split; [apply RES; lia|exact FRM].
      * rewrite zupd_app_repeat. eexists _, _, _, _. split; [reflexivity|]. split; [apply RES; lia|exact FRM].
Qed.

Lemma main_ok cmp U fuel : forall l steps nx part P ml done a, inv cmp U nx part P ml done -> seg nx a l -> NoDup (done ++ l) -> Forall (fun x => 0 < x) (done ++ l) -> incl (done ++ l) U ->
  (length done + length l <= fuel)%nat -> (length l <= steps)%nat ->
  exists nx' part' P' ml', main_loop steps fuel cmp nx part ml a = Some (nx', part', ml') /\ inv cmp U nx' part' P' ml' (done ++ l) /\
    (forall y, y <> TMP -> ~ In y (done ++ l) -> nx' y = nx y).
Proof.
  induction l as [|x l IH]; intros steps nx part P ml done a I S ND PO IU FU SU.
  - cbn [seg] in S. subst a. rewrite app_nil_r in *. exists nx, part, P, ml. split; [destruct steps; reflexivity|]. split; auto.
  - cbn [seg] in S. destruct S as (-> & PX & S). destruct steps as [|steps]; [cbn in SU; lia|]. cbn [main_loop]. destruct (Z.eqb_spec x 0); [lia|].
    assert (EQ : done ++ x :: l = (done ++ [x]) ++ l) by (rewrite <- app_assoc; auto). rewrite EQ in *. cbn [length] in FU, SU.
    destruct (add_one_ok cmp U fuel nx part P ml done x I) as (nx1 & part1 & P1 & ml1 & E1 & I1 & FR1).
    { apply (nd_app_l _ l); auto. } { apply Forall_app in PO. tauto. } { intros z Hz. apply IU, in_or_app. auto. } { lia. }
    rewrite E1.
    destruct (IH steps nx1 part1 P1 ml1 (done ++ [x]) (nx x)) as (nx2 & part2 & P2 & ml2 & E2 & I2 & FR2); auto.
    + apply (seg_frame nx); auto. intros z Hz. apply FR1; [apply (pos_not_tmp _ _ PO), in_or_app; auto|]. intros J. apply (nd_app_disj (done ++ [x]) l z); auto.
    + rewrite app_length. cbn [length]. lia.
    + lia.
    + rewrite E2. exists nx2, part2, P2, ml2. split; auto. split; auto. intros y Y1 Y2. rewrite FR2, FR1; auto. intros J. apply Y2, in_or_app. auto.
Qed.

Lemma final_ok cmp fuel : forall P1 parts P2 n pre nx a lc, Forall2 (seg nx) parts (P1 ++ P2) -> seg nx a lc -> NoDup (concat (P1 ++ P2) ++ lc) -> Forall (fun x => 0 < x) (concat (P1 ++ P2) ++ lc) ->
  n = length P1 -> (length (concat P1) + length lc <= fuel)%nat ->
  exists nx' c parts2, final_loop n fuel cmp nx (pre ++ parts) (Z.of_nat (length pre)) a = Some (nx', c) /\ seg nx' c (foldm cmp P1 lc) /\ Forall2 (seg nx') parts2 P2 /\
    skipn n parts = parts2 /\ (forall y, y <> TMP -> ~ In y (concat P1 ++ lc) -> nx' y = nx y).
Proof.
  induction P1 as [|p P1 IH]; intros parts P2 n pre nx a lc SP SA ND PO -> FU.
  - exists nx, a, parts. cbn [app length skipn foldm fold_left] in *. split; [reflexivity|]. auto.
  - cbn [app] in SP. inversion SP as [|b ? parts' ? Sp SP']; subst. cbn [length final_loop].
    assert (ZN : znth (pre ++ b :: parts') (Z.of_nat (length pre)) = Some b).
    { unfold znth. destruct (Z.ltb_spec (Z.of_nat (length pre)) 0); [lia|]. rewrite Nat2Z.id, nth_error_app2 by lia. rewrite Nat.sub_diag. auto. }
    rewrite ZN. cbn [app concat] in *. rewrite <- app_assoc in *. rewrite app_length in FU.
    assert (PERM : Permutation (p ++ concat (P1 ++ P2) ++ lc) (concat (P1 ++ P2) ++ p ++ lc)).
    { rewrite !app_assoc. apply Permutation_app_tail, Permutation_app_comm. }
    assert (NDP : NoDup (concat (P1 ++ P2) ++ p ++ lc)) by (apply (Permutation_NoDup PERM); auto).
    assert (POP : Forall (fun x => 0 < x) (concat (P1 ++ P2) ++ p ++ lc)) by (apply (Permutation_Forall PERM); auto).
    assert (STEP : exists nx1 c1, (if negb (b =? 0) then merge fuel cmp nx b a else Some (nx, a)) = Some (nx1, c1) /\ seg nx1 c1 (mergel cmp p lc) /\ (forall y, y <> TMP -> ~ In y (p ++ lc) -> nx1 y = nx y)).
    { destruct (Z.eqb_spec b 0) as [B|B]; cbn [negb].
      - assert (p = []) by (apply (seg_zero nx b); auto). subst p. exists nx, a. rewrite mergel_nil_l. auto.
      - apply merge_ok; auto; [apply (nd_app_r (concat (P1 ++ P2))); auto|apply Forall_app in POP; tauto|lia]. }
    destruct STEP as (nx1 & c1 & E1 & S1 & FR1). rewrite E1. cbn [fst snd].
    assert (P2m : Permutation (concat (P1 ++ P2) ++ mergel cmp p lc) (concat (P1 ++ P2) ++ p ++ lc)) by (apply Permutation_app_head, mergel_perm).
    destruct (IH parts' P2 (length P1) (pre ++ [b]) nx1 c1 (mergel cmp p lc)) as (nx' & c & parts2 & E2 & S2 & SP2 & SK & FR2); auto.
    + apply (segs_frame nx); auto. intros y J. apply FR1; [apply (pos_not_tmp _ _ POP), in_or_app; auto|]. intros K. apply (nd_app_disj _ _ y NDP); auto.
    + apply (Permutation_NoDup (Permutation_sym P2m)); auto.
    + apply (Permutation_Forall (Permutation_sym P2m)); auto.
    + rewrite mergel_len. lia.
    + rewrite <- app_assoc in E2. cbn [app] in E2. rewrite app_length in E2. cbn [length] in E2. replace (Z.of_nat (length pre) + 1) with (Z.of_nat (length pre + 1)) by lia. rewrite E2.
      exists nx', c, parts2. split; [auto|]. split; [auto|]. split; [auto|]. split; [auto|].
      intros y Y1 Y2. rewrite FR2, FR1; auto; [intros J; apply Y2; apply in_app_or in J; apply in_or_app; rewrite in_app_iff; tauto|].
      intros J. apply Y2. apply in_app_or in J. rewrite mergel_in in J. rewrite !in_app_iff. tauto.
Qed.

(** ** The whole *)
Lemma links_seg nx pv h l : forall x, l <> [] \/ True -> links nx pv h x l -> NoDup (x :: l) -> Forall (fun y => 0 < y) l -> pv h = last l x ->
  seg (fupd nx (last l x) 0) (fupd nx (last l x) 0 x) l.
Proof.
  induction l as [|y l IH]; intros x _ L ND PO E; [cbn [last seg]; apply fupd_same|].
  cbn [links] in L. destruct L as (A & B & C). rewrite last_cons in *. inversion ND as [|? ? N1 N2]; subst. inversion PO as [|? ? PY PO']; subst.
  assert (XL : x <> last l (nx x)). { intros K. apply N1. rewrite K at 1. apply last_in. }
  cbn [seg]. rewrite (fupd_other nx _ 0 x XL). do 2 (split; [auto|]). apply IH; auto.
Qed.

Theorem sort_ok cmp fuel nx pv h l : holds nx pv h l -> (length l <= fuel)%nat ->
  exists nx' pv' l', flist_sort fuel cmp nx pv h = Some (nx', pv') /\ holds nx' pv' h l' /\ Permutation l l' /\
    (order cmp l -> StronglySorted (le cmp) l' /\ forall x, In x l -> filter (equiv cmp x) l' = filter (equiv cmp x) l) /\
    (forall y, y <> TMP -> ~ In y (h :: l) -> nx' y = nx y /\ pv' y = pv y).
Proof.
  intros (L & ND & PO) FU. unfold flist_sort. destruct l as [|x l].
  - cbn [links] in L. destruct L as [A B]. rewrite A, Z.eqb_refl. exists nx, pv, []. split; [auto|]. split; [repeat split; auto|]. split; [auto|]. split; [|auto].
    intros _. split; [constructor|]. intros x [].
  - set (ll := x :: l) in *. assert (NEQ : nx h <> h). { cbn [links ll] in L. inversion ND as [|? ? N1 N2]; subst. intros K. apply N1. left. destruct L as (A & _). congruence. }
    destruct (Z.eqb_spec (nx h) h); [congruence|]. pose proof (proj1 (links_dl nx pv h ll h) L) as (D & LN & LP).
    inversion PO as [|? ? PH PO']; subst. inversion ND as [|? ? NH ND']; subst.
    pose proof (links_seg nx pv h ll h (or_intror I) L ND PO' LP) as S. rewrite <- LP in S. set (nx0 := fupd nx (pv h) 0) in *.
    assert (I0 : inv cmp ll nx0 (repeat 0 21) (repeat [] 21) 0 []).
    { constructor; [cbn; repeat constructor|reflexivity|lia| |apply st_refl|].
      - intros i _. destruct (nth_in_or_default i (repeat (@nil Z) 21) []) as [J|J]; auto. apply repeat_spec in J. auto.
      - apply Forall_forall. intros p Hp. apply repeat_spec in Hp. subst. intros _. constructor. }
    destruct (main_ok cmp ll fuel ll fuel nx0 (repeat 0 21) (repeat [] 21) 0 [] (nx0 h) I0 S) as (nx1 & part & P & ml & E1 & I1 & FR1); auto; [apply incl_refl|].
    cbn [app] in I1, FR1. rewrite E1. pose proof I1 as [SG LENP ML TOP ST SR].
    assert (PD : Permutation (concat P) ll). { rewrite <- concat_rev_perm. symmetry. apply (proj1 ST). }
    set (k := Z.to_nat ml). assert (SPL : P = firstn k P ++ nth k P [] :: repeat [] (20 - k)).
    { rewrite <- (firstn_skipn k P) at 1. f_equal. assert (K : (k < 21)%nat) by (unfold k; lia).
      apply (nth_ext _ _ [] []).
      - rewrite skipn_length. cbn [length]. rewrite repeat_length. lia.
      - intros i Hi. rewrite skipn_length in Hi. assert (NS : nth i (skipn k P) [] = nth (k + i) P []).
        { clear - Hi. revert P Hi. induction k as [|k IH]; intros P Hi; auto. destruct P as [|p P]; cbn [skipn Nat.add nth]; [destruct i; auto|]. apply IH. cbn [length] in Hi. lia. }
        rewrite NS. destruct i as [|i]; [rewrite Nat.add_0_r; auto|]. cbn [nth]. rewrite TOP by (unfold k; lia).
        symmetry. destruct (nth_in_or_default i (repeat (@nil Z) (20 - k)) []) as [J|J]; auto. apply repeat_spec in J. auto. }
    set (P1 := firstn k P) in *. set (pm := nth k P []) in *.
    assert (LP1 : length P1 = k) by (unfold P1; rewrite firstn_length; unfold k; lia).
    assert (CP : concat P = concat P1 ++ pm). { rewrite SPL, concat_app. cbn [concat]. rewrite concat_repeat_nil, app_nil_r. auto. }
    assert (NDP : NoDup (concat P)) by (apply (Permutation_NoDup (Permutation_sym PD)); auto).
    assert (POP : Forall (fun x => 0 < x) (concat P)) by (apply (Permutation_Forall (Permutation_sym PD)); auto).
    assert (LENC : (length (concat P1) + length pm = length ll)%nat) by (rewrite <- app_length, <- CP; apply Permutation_length; auto).
    destruct (final_ok cmp fuel P1 part (pm :: repeat [] (20 - k)) k [] nx1 0 []) as (nx2 & c & parts2 & E2 & S2 & SP2 & SK & FR2); auto.
    { rewrite <- SPL. auto. } { cbn; auto. } { rewrite <- SPL, app_nil_r. auto. } { rewrite <- SPL, app_nil_r. auto. } { cbn [length]. lia. }
    cbn [app length] in E2. change (Z.of_nat 0) with 0 in E2. fold k. rewrite E2. cbn [fst snd].
    inversion SP2 as [|q pm0 parts3 P3 Sq _]; subst parts2.
    assert (ZQ : znth part ml = Some q).
    { unfold znth. destruct (Z.ltb_spec ml 0); [lia|]. fold k. rewrite <- (firstn_skipn k part), <- H.
      assert (LK : (k < length part)%nat). { rewrite (f2_len _ _ _ SG), LENP. unfold k. lia. }
      rewrite nth_error_app2; rewrite firstn_length; [|lia]. replace (k - Nat.min k (length part))%nat with 0%nat by lia. auto. }
    rewrite ZQ.
    assert (PERM2 : Permutation (pm ++ foldm cmp P1 []) ll).
    { rewrite (foldm_perm cmp P1 []), app_nil_r. rewrite (Permutation_app_comm pm (concat P1)), <- CP. auto. }
    destruct (merge_and_restore_ok cmp fuel nx2 pv h pm (foldm cmp P1 []) q c Sq S2) as (nx3 & pv3 & E3 & L3 & FR3).
    { constructor; [intros J; apply NH; apply (Permutation_in _ PERM2); auto|]. apply (Permutation_NoDup (Permutation_sym PERM2)); auto. }
    { intros J. rewrite J in PERM2. apply Permutation_nil in PERM2. discriminate. }
    { rewrite <- app_length, (Permutation_length PERM2). auto. }
    rewrite E3. exists nx3, pv3, (mergel cmp pm (foldm cmp P1 [])). split; [auto|].
    assert (PERM3 : Permutation ll (mergel cmp pm (foldm cmp P1 []))) by (rewrite mergel_perm; symmetry; auto).
    assert (IP : incl (concat P) ll) by (intros y J; apply (Permutation_in _ PD); auto).
    assert (SRS : Forall (srt cmp ll) P1 /\ srt cmp ll pm). { rewrite SPL in SR. apply Forall_app in SR. destruct SR as [R1 R2]. inversion R2; auto. }
    destruct SRS as [SR1 SRm].
    destruct (foldm_st cmp ll P1 []) as [F1 F2]; auto; [intros y J; apply IP; rewrite CP; apply in_or_app; auto|intros y []|intros _; constructor|].
    destruct (mergel_st cmp ll pm (foldm cmp P1 [])) as [M1 M2]; auto; [intros y J; apply IP; rewrite CP; apply in_or_app; auto| |].
    { intros y J. apply foldm_in in J. destruct J as [J|[]]. apply IP. rewrite CP. apply in_or_app; auto. }
    split; [|split; [auto|split]].
    + split; [auto|]. split; [constructor; [intros J; apply NH; apply (Permutation_in _ (Permutation_sym PERM3)); auto|apply (Permutation_NoDup PERM3); auto]|].
      constructor; auto. apply (Permutation_Forall PERM3). auto.
    + intros O. split; [apply M2; auto|]. intros y J.
      assert (STT : st cmp ll ll (mergel cmp pm (foldm cmp P1 []))).
      { eapply st_trans; [exact ST|]. rewrite SPL, rev_app_distr, concat_app. cbn [rev]. rewrite rev_repeat_, concat_app, concat_repeat_nil. cbn [concat app]. rewrite app_nil_r.
        eapply st_trans; [|exact M1]. apply st_app; [apply st_refl|]. rewrite app_nil_r in F1. exact F1. }
      apply (proj2 STT); auto.
    + intros y Y1 Y2. assert (Y3 : ~ In y ll) by (intros J; apply Y2; right; auto).
      destruct (FR3 y) as [A B]. { intros [->|J]; [apply Y2; left; auto|]. apply Y3, (Permutation_in _ PERM2). auto. }
      split; auto. rewrite A, FR2, FR1; auto.
      * unfold nx0. apply fupd_other. rewrite LP. intros ->. apply Y2. apply last_in.
      * rewrite app_nil_r. intros J. apply Y3, (Permutation_in _ PD). rewrite CP. apply in_or_app. auto.
Qed.
