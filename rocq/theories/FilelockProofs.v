(** The invariant of the file locks (C38). *)
From Coq Require Import ZArith List Bool Lia Arith.
From Verif Require Import CBase FilelockModel FilelockSpec.
Import ListNotations.
Open Scope Z_scope.

Definition b2z (b : bool) : Z := if b then 1 else 0.
Definition sumz {A} (f : A -> Z) (l : list A) : Z := fold_right (fun j a => f j + a) 0 l.
Lemma sumz_cons {A} (f : A -> Z) x l : sumz f (x :: l) = f x + sumz f l.
Proof. reflexivity. Qed.
Lemma sumz_app {A} (f : A -> Z) a b : sumz f (a ++ b) = sumz f a + sumz f b.
Proof. induction a; cbn [app]; rewrite ?sumz_cons; [reflexivity | lia]. Qed.
Lemma sumz_upd {A} (f : A -> Z) l i x y : nth_error l i = Some x -> sumz f (upd l i y) = sumz f l - f x + f y.
Proof.
  revert i. induction l as [|a l IH]; intros [|i] H; cbn in H; try discriminate; cbn [upd]; rewrite !sumz_cons.
  - inversion H; subst. lia.
  - rewrite (IH _ H). lia.
Qed.
Lemma sumz_nonneg {A} (f : A -> Z) l : (forall x, 0 <= f x) -> 0 <= sumz f l.
Proof. intros H. induction l; [cbn; lia|]. rewrite sumz_cons. specialize (H a). lia. Qed.
Lemma sumz_le {A} (f g : A -> Z) l : (forall x, f x <= g x) -> sumz f l <= sumz g l.
Proof. intros H. induction l; [cbn; lia|]. rewrite !sumz_cons. specialize (H a). lia. Qed.
Lemma sumz_le1 {A} (f : A -> Z) l : (forall x, f x <= 1) -> sumz f l <= Z.of_nat (length l).
Proof. intros H. induction l; [cbn; lia|]. rewrite sumz_cons. specialize (H a). cbn [length]. lia. Qed.
Lemma sumz_ge {A} (f : A -> Z) l i x : (forall x, 0 <= f x) -> nth_error l i = Some x -> f x <= sumz f l.
Proof.
  intros Hf. revert i. induction l as [|a l IH]; intros [|i] H; cbn in H; try discriminate; rewrite sumz_cons.
  - inversion H; subst. pose proof (sumz_nonneg f l Hf). lia.
  - specialize (IH _ H). specialize (Hf a). lia.
Qed.
Lemma sumz_ge2 {A} (f : A -> Z) l i j x y : (forall x, 0 <= f x) -> i <> j -> nth_error l i = Some x -> nth_error l j = Some y -> f x + f y <= sumz f l.
Proof.
  intros Hf. revert i j. induction l as [|a l IH]; intros [|i] [|j] Hn H1 H2; cbn in H1, H2; try discriminate; try congruence; rewrite sumz_cons.
  - inversion H1; subst. pose proof (sumz_ge f l _ _ Hf H2). lia.
  - inversion H2; subst. pose proof (sumz_ge f l _ _ Hf H1). lia.
  - assert (i <> j) by congruence. specialize (IH _ _ H H1 H2). specialize (Hf a). lia.
Qed.
Lemma sumz_add {A} (f g : A -> Z) l : sumz (fun x => f x + g x) l = sumz f l + sumz g l.
Proof. induction l; [reflexivity|]. rewrite !sumz_cons. lia. Qed.
Lemma b2z_range b : 0 <= b2z b <= 1.
Proof. destruct b; cbn; lia. Qed.

Section Inv.
Variable hash : Z -> Z.
Variable MAX : nat.
Variable k : nat.

Definition cnt (h : Z) (hl : list Z) : Z := sumz (fun n => b2z (hash n =? h)) hl.
Definition pcref (ff : nat) (h : Z) (p : pc) : Z :=
  match p with
  | PWait _ f _ | PTry _ f | PTryMain _ f | PTryIn _ f => b2z (f =? ff)%nat
  | PUnlock n | PUnlockIn n => b2z (hash n =? h)
  | _ => 0
  end.
Definition pchold (ff : nat) (h : Z) (p : pc) : Z :=
  match p with
  | PUnlock n | PUnlockIn n => b2z (hash n =? h)
  | PUnlB _ f _ => b2z (f =? ff)%nat
  | _ => 0
  end.
Definition pcunl (ff : nat) (p : pc) : Z :=
  match p with PUnlB _ f r | PUnlC _ f r => b2z ((f =? ff)%nat && (r =? 0)) | _ => 0 end.
Definition pcin (p : pc) : Z :=
  match p with PLockIn _ _ | PRetryIn _ | PTryIn _ _ | PUnlockIn _ | PUnlB _ _ _ | PUnlC _ _ _ => 1 | _ => 0 end.
Definition tref ff h (j : job) := pcref ff h (at_ j) + cnt h (held j).
Definition thold ff h (j : job) := pchold ff h (at_ j) + cnt h (held j).
Definition tunl ff (j : job) := pcunl ff (at_ j).
Definition tin (j : job) := pcin (at_ j).

Definition listed (u : list nat) (f : nat -> Z) (n : Z) : Prop := exists ff, In ff u /\ f ff = hash n.
Definition pcok (u : list nat) (f rf : nat -> Z) (p : pc) : Prop :=
  match p with
  | PWait n ff _ | PTry n ff | PTryMain n ff | PTryIn n ff => In ff u /\ f ff = hash n
  | PUnlock n | PUnlockIn n => listed u f n
  | PUnlB n ff r | PUnlC n ff r => In ff u /\ f ff = hash n /\ rf ff = r
  | _ => True
  end.
Definition jok u f rf (j : job) : Prop := pcok u f rf (at_ j) /\ Forall (listed u f) (held j).

Record Inv (s : st) : Prop := {
  i_len : length (jobs s) = k;
  i_main : main s = 1 - sumz tin (jobs s);
  i_main0 : 0 <= main s;
  i_nodup : NoDup (used s ++ free s);
  i_all : forall ff, In ff (used s ++ free s) <-> (ff < MAX)%nat;
  i_hash : forall a b, In a (used s) -> In b (used s) -> fh s a = fh s b -> a = b;
  i_jok : forall i j, nth_error (jobs s) i = Some j -> jok (used s) (fh s) (refs s) j;
  i_refs : forall ff, In ff (used s) -> refs s ff = sumz (tref ff (fh s ff)) (jobs s);
  i_sem : forall ff, In ff (used s) -> sem s ff = 1 - sumz (thold ff (fh s ff)) (jobs s);
  i_sem0 : forall ff, 0 <= sem s ff;
  i_live : forall ff, In ff (used s) -> 1 <= refs s ff + sumz (tunl ff) (jobs s);
  i_free : forall ff, In ff (free s) -> sem s ff = 1 }.

Lemma cnt_nonneg h hl : 0 <= cnt h hl.
Proof. apply sumz_nonneg. intros. apply b2z_range. Qed.
Lemma cnt_in h hl n : In n hl -> hash n = h -> 1 <= cnt h hl.
Proof.
  intros H E. unfold cnt. induction hl as [|a l IH]; cbn in H; [tauto|]. rewrite sumz_cons. destruct H as [->|H].
  - rewrite E, Z.eqb_refl. cbn [b2z]. pose proof (cnt_nonneg h l). unfold cnt in H. lia.
  - specialize (IH H). pose proof (b2z_range (hash a =? h)). lia.
Qed.
Lemma cnt_zero h hl : (forall n, In n hl -> hash n <> h) -> cnt h hl = 0.
Proof.
  unfold cnt. induction hl as [|a l IH]; intros H; [reflexivity|]. rewrite sumz_cons, IH by (intros; apply H; now right).
  destruct (Z.eqb_spec (hash a) h); [|reflexivity]. exfalso. apply (H a); [now left|assumption].
Qed.
Lemma cnt_cons h n hl : cnt h (n :: hl) = b2z (hash n =? h) + cnt h hl.
Proof. reflexivity. Qed.
Lemma cnt_mid h n a b : cnt h (a ++ n :: b) = b2z (hash n =? h) + cnt h (a ++ b).
Proof. unfold cnt. rewrite !sumz_app, sumz_cons. lia. Qed.
Lemma pcref_range ff h p : 0 <= pcref ff h p <= 1.
Proof. destruct p; cbn; try lia; apply b2z_range. Qed.
Lemma pchold_range ff h p : 0 <= pchold ff h p <= 1.
Proof. destruct p; cbn; try lia; apply b2z_range. Qed.
Lemma pcunl_range ff p : 0 <= pcunl ff p <= 1.
Proof. destruct p; cbn; try lia; apply b2z_range. Qed.
Lemma pcin_range p : 0 <= pcin p <= 1.
Proof. destruct p; cbn; lia. Qed.
Lemma tref_nonneg ff h j : 0 <= tref ff h j.
Proof. unfold tref. pose proof (pcref_range ff h (at_ j)). pose proof (cnt_nonneg h (held j)). lia. Qed.
Lemma thold_nonneg ff h j : 0 <= thold ff h j.
Proof. unfold thold. pose proof (pchold_range ff h (at_ j)). pose proof (cnt_nonneg h (held j)). lia. Qed.
Lemma tunl_nonneg ff j : 0 <= tunl ff j.
Proof. apply pcunl_range. Qed.
Lemma tin_nonneg j : 0 <= tin j.
Proof. apply pcin_range. Qed.

(** While one job is inside the section of fld->lock, no other is. *)
Lemma main_alone s i i' j j' : Inv s -> nth_error (jobs s) i = Some j -> nth_error (jobs s) i' = Some j' -> tin j = 1 -> i <> i' -> tin j' = 0.
Proof.
  intros Hi H1 H2 H Hn. pose proof (sumz_ge2 tin _ _ _ _ _ tin_nonneg Hn H1 H2). pose proof (i_main s Hi). pose proof (i_main0 s Hi). pose proof (tin_nonneg j'). lia.
Qed.
Lemma find_some s h ff : Inv s -> find s h = Some ff -> In ff (used s) /\ fh s ff = h.
Proof. intros Hi H. apply List.find_some in H. destruct H as [H1 H2]. apply Z.eqb_eq in H2. now split. Qed.
Lemma find_none s h ff : find s h = None -> In ff (used s) -> fh s ff <> h.
Proof. intros H Hi. apply List.find_none with (x := ff) in H; [|assumption]. now apply Z.eqb_neq. Qed.
Lemma find_listed s n : Inv s -> listed (used s) (fh s) n -> exists ff, find s (hash n) = Some ff.
Proof.
  intros Hi [ff [H1 H2]]. destruct (find s (hash n)) eqn:E; [eauto|]. exfalso. exact (find_none _ _ _ E H1 H2).
Qed.

Hypothesis Hk : Z.of_nat k < 2 ^ 32 - 2.

(** The reference count cannot wrap. *)
Lemma refs_small s ff : Inv s -> In ff (used s) -> 0 <= refs s ff <= Z.of_nat k + 1.
Proof.
  intros Hi H. rewrite (i_refs s Hi ff H). split; [apply sumz_nonneg; intros; apply tref_nonneg|].
  pose proof (i_sem s Hi ff H) as Hs. pose proof (i_sem0 s Hi ff) as H0.
  assert (sumz (fun j => cnt (fh s ff) (held j)) (jobs s) <= sumz (thold ff (fh s ff)) (jobs s)).
  { apply sumz_le. intros j. unfold thold. pose proof (pchold_range ff (fh s ff) (at_ j)). lia. }
  unfold tref. rewrite sumz_add.
  assert (sumz (fun j => pcref ff (fh s ff) (at_ j)) (jobs s) <= Z.of_nat k).
  { rewrite <- (i_len s Hi). apply sumz_le1. intros j. apply pcref_range. }
  lia.
Qed.

Lemma jok_same u f rf rf' j : (forall n ff r, at_ j <> PUnlB n ff r /\ at_ j <> PUnlC n ff r) -> jok u f rf j -> jok u f rf' j.
Proof.
  intros Hn [H1 H2]. split; [|assumption]. destruct (at_ j) eqn:E; cbn in *; auto; exfalso; destruct (Hn n ff r); congruence.
Qed.
Lemma out_not j : tin j = 0 -> forall n ff r, at_ j <> PUnlB n ff r /\ at_ j <> PUnlC n ff r.
Proof. unfold tin. intros H n ff r. split; intros E; rewrite E in H; cbn in H; lia. Qed.

(** A step that only moves job [i]: the general case. *)
Lemma put_inv s i j m j' : Inv s -> nth_error (jobs s) i = Some j ->
  m = main s + tin j - tin j' -> 0 <= m ->
  jok (used s) (fh s) (refs s) j' ->
  (forall ff, In ff (used s) -> tref ff (fh s ff) j' = tref ff (fh s ff) j) ->
  (forall ff, In ff (used s) -> thold ff (fh s ff) j' = thold ff (fh s ff) j) ->
  (forall ff, In ff (used s) -> tunl ff j <= tunl ff j' \/ 1 <= refs s ff) ->
  Inv (put s i m j').
Proof.
  intros Hi Hj Hm Hm0 Hok Hr Hh Hu. pose proof (nth_error_Some (jobs s) i) as Hlt. rewrite Hj in Hlt.
  assert (i < length (jobs s))%nat by (apply Hlt; discriminate).
  constructor; cbn [put jobs main used free fh sem refs].
  - rewrite upd_length. apply (i_len s Hi).
  - rewrite (sumz_upd tin _ _ _ _ Hj). pose proof (i_main s Hi). lia.
  - assumption.
  - apply (i_nodup s Hi).
  - apply (i_all s Hi).
  - apply (i_hash s Hi).
  - intros i' jj H'. destruct (Nat.eq_dec i i') as [<-|Hn].
    + rewrite upd_nth_error_same in H' by assumption. now inversion H'; subst.
    + rewrite upd_nth_error_other in H' by assumption. exact (i_jok s Hi _ _ H').
  - intros ff Hf. rewrite (sumz_upd _ _ _ _ _ Hj), Hr, (i_refs s Hi ff Hf) by assumption. lia.
  - intros ff Hf. rewrite (sumz_upd _ _ _ _ _ Hj), Hh, (i_sem s Hi ff Hf) by assumption. lia.
  - apply (i_sem0 s Hi).
  - intros ff Hf. rewrite (sumz_upd _ _ _ _ _ Hj). pose proof (i_live s Hi ff Hf). destruct (Hu ff Hf); [lia|].
    pose proof (sumz_ge (tunl ff) _ _ _ (tunl_nonneg ff) Hj). pose proof (tunl_nonneg ff j'). lia.
  - apply (i_free s Hi).
Qed.

(** A step that changes one reference count or one semaphore. *)
Lemma one_inv s i j m ff0 r' v' j' sm rf : (forall x, sm x = set (sem s) ff0 v' x) -> (forall x, rf x = set (refs s) ff0 r' x) -> Inv s -> nth_error (jobs s) i = Some j -> In ff0 (used s) ->
  m = main s + tin j - tin j' -> 0 <= m ->
  jok (used s) (fh s) rf j' ->
  (tin j = 1 \/ r' = refs s ff0) ->
  (forall ff, In ff (used s) -> tref ff (fh s ff) j' - tref ff (fh s ff) j = if (ff =? ff0)%nat then r' - refs s ff0 else 0) ->
  (forall ff, In ff (used s) -> thold ff (fh s ff) j' - thold ff (fh s ff) j = if (ff =? ff0)%nat then sem s ff0 - v' else 0) ->
  0 <= v' ->
  (forall ff, In ff (used s) -> tunl ff j <= tunl ff j') ->
  (1 <= r' + tunl ff0 j') ->
  Inv (mkSt m (used s) (free s) (fh s) sm rf (upd (jobs s) i j')).
Proof.
  intros Hsm Hrf Hi Hj Hff Hm Hm0 Hok Hx Hr Hh Hv Hu Hl. pose proof (nth_error_Some (jobs s) i) as Hlt. rewrite Hj in Hlt.
  assert (Hil : (i < length (jobs s))%nat) by (apply Hlt; discriminate).
  constructor; cbn [jobs main used free fh sem refs].
  - rewrite upd_length. apply (i_len s Hi).
  - rewrite (sumz_upd tin _ _ _ _ Hj). pose proof (i_main s Hi). lia.
  - assumption.
  - apply (i_nodup s Hi).
  - apply (i_all s Hi).
  - apply (i_hash s Hi).
  - intros i' jj H'. destruct (Nat.eq_dec i i') as [<-|Hn].
    + rewrite upd_nth_error_same in H' by assumption. now inversion H'; subst.
    + rewrite upd_nth_error_other in H' by assumption. pose proof (i_jok s Hi _ _ H') as Ho. destruct Hx as [Hx|Hx].
      * apply (jok_same _ _ (refs s)); [|assumption]. apply out_not. exact (main_alone _ _ _ _ _ Hi Hj H' Hx Hn).
      * destruct Ho as [Ho1 Ho2]. split; [|assumption]. destruct (at_ jj); cbn in *; auto;
          rewrite Hrf; unfold set; (destruct (Nat.eqb_spec ff ff0) as [->|]; [|assumption]); rewrite Hx; assumption.
  - intros ff Hf. rewrite Hrf, (sumz_upd _ _ _ _ _ Hj). pose proof (Hr ff Hf) as E. pose proof (i_refs s Hi ff Hf) as E2. unfold set.
    destruct (Nat.eqb_spec ff ff0) as [->|]; lia.
  - intros ff Hf. rewrite Hsm, (sumz_upd _ _ _ _ _ Hj). pose proof (Hh ff Hf) as E. pose proof (i_sem s Hi ff Hf) as E2. unfold set.
    destruct (Nat.eqb_spec ff ff0) as [->|]; lia.
  - intros ff. rewrite Hsm. unfold set. destruct (Nat.eqb_spec ff ff0); [assumption|apply (i_sem0 s Hi)].
  - intros ff Hf. rewrite Hrf, (sumz_upd _ _ _ _ _ Hj). pose proof (i_live s Hi ff Hf). specialize (Hu ff Hf). unfold set.
    destruct (Nat.eqb_spec ff ff0) as [->|]; [|lia].
    pose proof (sumz_ge (tunl ff0) _ _ _ (tunl_nonneg ff0) Hj). lia.
  - intros ff Hf. rewrite Hsm. unfold set. destruct (Nat.eqb_spec ff ff0) as [->|]; [|apply (i_free s Hi ff Hf)].
    exfalso. pose proof (i_nodup s Hi) as Hnd. apply in_split in Hff. destruct Hff as (a & b & E). rewrite E in Hnd.
    rewrite <- app_assoc in Hnd. cbn in Hnd. apply NoDup_remove_2 in Hnd. apply Hnd. rewrite !in_app_iff. auto.
Qed.

Lemma listed_mono u f n ff h : listed u f n -> ~ In ff u -> listed (ff :: u) (set f ff h) n.
Proof.
  intros [x [H1 H2]] Hn. exists x. split; [now right|]. unfold set. destruct (Nat.eqb_spec x ff) as [->|]; [contradiction|assumption].
Qed.

Lemma upd_eta {A} (f : nat -> A) k0 x : set f k0 (f k0) x = f x.
Proof. unfold set. destruct (Nat.eqb_spec x k0) as [->|]; reflexivity. Qed.

Lemma used_free s ff : Inv s -> In ff (used s) -> In ff (free s) -> False.
Proof.
  intros Hi Hff Hf. pose proof (i_nodup s Hi) as Hnd. apply in_split in Hff. destruct Hff as (a & b & E). rewrite E in Hnd.
  rewrite <- app_assoc in Hnd. cbn in Hnd. apply NoDup_remove_2 in Hnd. apply Hnd. rewrite !in_app_iff. auto.
Qed.

Lemma take_inv s i n p ff t hl : Inv s -> nth_error (jobs s) i = Some (mkJob p hl) -> pcin p = 1 -> (forall f h, pcref f h p = 0 /\ pchold f h p = 0 /\ pcunl f p = 0) ->
  find s (hash n) = Some ff -> Inv (take s i n ff t hl).
Proof.
  intros Hi Hj Hp Hz Hf. destruct (find_some _ _ _ Hi Hf) as [Hu Hh].
  pose proof (refs_small _ _ Hi Hu) as Hs. assert (E : u32 (refs s ff + 1) = refs s ff + 1) by (unfold u32; rewrite Z.mod_small; lia).
  unfold take. rewrite E. pose proof (i_main0 s Hi). pose proof (i_jok s Hi _ _ Hj) as [_ Hl].
  apply (one_inv s i _ _ ff (refs s ff + 1) (sem s ff) _ _ _ (fun x => eq_sym (upd_eta _ _ _)) (fun x => eq_refl) Hi Hj Hu).
  - unfold tin. cbn [at_]. rewrite Hp. destruct t; cbn; lia.
  - lia.
  - split; [destruct t; cbn; auto | exact Hl].
  - left. exact Hp.
  - intros f Hf'. unfold tref. cbn [at_ held]. destruct (Hz f (fh s f)) as (Z1 & _). rewrite Z1.
    assert (pcref f (fh s f) (if t then PTry n ff else PWait n ff false) = b2z (ff =? f)%nat) as -> by (destruct t; reflexivity).
    rewrite (Nat.eqb_sym ff f). unfold b2z. destruct (f =? ff)%nat; lia.
  - intros f Hf'. unfold thold. cbn [at_ held]. destruct (Hz f (fh s f)) as (_ & Z1 & _). rewrite Z1.
    assert (pchold f (fh s f) (if t then PTry n ff else PWait n ff false) = 0) as -> by (destruct t; reflexivity).
    destruct (f =? ff)%nat; lia.
  - apply (i_sem0 s Hi).
  - intros f _. unfold tunl. cbn [at_]. destruct (Hz f 0) as (_ & _ & Z1). rewrite Z1. apply pcunl_range.
  - pose proof (tunl_nonneg ff (mkJob (if t then PTry n ff else PWait n ff false) hl)). lia.
Qed.

Lemma sumz_ext {A} (f g : A -> Z) l : (forall i x, nth_error l i = Some x -> f x = g x) -> sumz f l = sumz g l.
Proof.
  induction l as [|a l IH]; intros H; [reflexivity|]. rewrite !sumz_cons, (H 0%nat a eq_refl), IH; [reflexivity|].
  intros i x Hx. exact (H (S i) x Hx).
Qed.
Lemma sumz_zero {A} (f : A -> Z) l : (forall i x, nth_error l i = Some x -> f x = 0) -> sumz f l = 0.
Proof.
  induction l as [|a l IH]; intros H; [reflexivity|]. rewrite sumz_cons, (H 0%nat a eq_refl), IH; [reflexivity|].
  intros i x Hx. exact (H (S i) x Hx).
Qed.

(** Nobody refers to a lock that is not in the used list. *)
Lemma stranger s i j ff h : Inv s -> nth_error (jobs s) i = Some j -> ~ In ff (used s) -> (forall x, In x (used s) -> fh s x <> h) ->
  tref ff h j = 0 /\ thold ff h j = 0 /\ tunl ff j = 0.
Proof.
  intros Hi Hj Hn Hh. pose proof (i_jok s Hi _ _ Hj) as [Hp Hl].
  assert (Hc : cnt h (held j) = 0).
  { apply cnt_zero. intros n H. rewrite Forall_forall in Hl. destruct (Hl n H) as [x [H1 H2]]. rewrite <- H2. exact (Hh x H1). }
  assert (Hne : forall f, In f (used s) -> (f =? ff)%nat = false) by (intros f Hf; apply Nat.eqb_neq; intros ->; contradiction).
  assert (Hle : forall n, listed (used s) (fh s) n -> (hash n =? h) = false).
  { intros n [x [H1 H2]]. apply Z.eqb_neq. rewrite <- H2. exact (Hh x H1). }
  unfold tref, thold, tunl. rewrite Hc. destruct (at_ j); cbn in *; try (match type of Hp with _ /\ _ => destruct Hp as [Hp ?] end); rewrite ?Hne, ?Hle by assumption; cbn; auto.
Qed.

Lemma fresh_inv s i n p ff fs t hl : Inv s -> nth_error (jobs s) i = Some (mkJob p hl) -> pcin p = 1 -> (forall f h, pcref f h p = 0 /\ pchold f h p = 0 /\ pcunl f p = 0) ->
  find s (hash n) = None -> free s = ff :: fs -> Inv (fresh hash s i n ff fs t hl).
Proof.
  intros Hi Hj Hp Hz Hf Hfree. pose proof (nth_error_Some (jobs s) i) as Hlt. rewrite Hj in Hlt.
  assert (Hil : (i < length (jobs s))%nat) by (apply Hlt; discriminate).
  assert (Hnu : ~ In ff (used s)) by (intros H; apply (used_free s ff Hi H); rewrite Hfree; now left).
  pose proof (find_none s (hash n)) as Hno.
  assert (Hst : forall i' j', nth_error (jobs s) i' = Some j' -> tref ff (hash n) j' = 0 /\ thold ff (hash n) j' = 0 /\ tunl ff j' = 0).
  { intros i' j' H'. apply (stranger s i' j' ff (hash n) Hi H' Hnu). intros x Hx. exact (Hno x Hf Hx). }
  destruct (Hst _ _ Hj) as (Hsj & _ & _).
  assert (Eother : forall x, In x (used s) -> set (fh s) ff (hash n) x = fh s x).
  { intros x Hx. unfold set. destruct (Nat.eqb_spec x ff) as [->|]; [contradiction|reflexivity]. }
  assert (Eself : set (fh s) ff (hash n) ff = hash n) by (unfold set; now rewrite Nat.eqb_refl).
  assert (Enx : forall x, In x (used s) -> (x =? ff)%nat = false) by (intros x Hx; apply Nat.eqb_neq; intros ->; contradiction).
  set (j' := mkJob (if t then PTry n ff else PWait n ff false) hl).
  assert (J1 : forall x h, tref x h j' = b2z (ff =? x)%nat + cnt h hl) by (intros; unfold tref, j'; destruct t; reflexivity).
  assert (J2 : forall x h, thold x h j' = cnt h hl) by (intros; unfold thold, j'; destruct t; reflexivity).
  assert (J3 : forall x, tunl x j' = 0) by (intros; unfold tunl, j'; destruct t; reflexivity).
  assert (J4 : tin j' = 0) by (unfold tin, j'; destruct t; reflexivity).
  assert (K1 : forall x h, tref x h (mkJob p hl) = cnt h hl) by (intros; unfold tref; cbn [at_ held]; destruct (Hz x h) as (-> & _); lia).
  assert (K2 : forall x h, thold x h (mkJob p hl) = cnt h hl) by (intros; unfold thold; cbn [at_ held]; destruct (Hz x h) as (_ & -> & _); lia).
  assert (K3 : forall x, tunl x (mkJob p hl) = 0) by (intros x; unfold tunl; cbn [at_]; destruct (Hz x 0) as (_ & _ & ->); lia).
  assert (K4 : tin (mkJob p hl) = 1) by exact Hp.
  pose proof (i_main0 s Hi) as Hm0. pose proof (i_main s Hi) as Hm.
  constructor; unfold fresh; cbn [jobs main used free fh sem refs]; fold j'.
  - rewrite upd_length. apply (i_len s Hi).
  - rewrite (sumz_upd tin _ _ _ _ Hj), J4, K4. lia.
  - lia.
  - pose proof (i_nodup s Hi) as Hnd. rewrite Hfree in Hnd. cbn [app]. constructor; [now apply NoDup_remove_2 in Hnd | now apply NoDup_remove_1 in Hnd].
  - intros f. rewrite <- (i_all s Hi f), Hfree. cbn [app In]. rewrite !in_app_iff. cbn [In]. tauto.
  - intros a b [<-|Ha] [<-|Hb].
    + reflexivity.
    + rewrite Eself, (Eother b Hb). intros E. exfalso. apply (Hno b Hf Hb). congruence.
    + rewrite Eself, (Eother a Ha). intros E. exfalso. apply (Hno a Hf Ha). congruence.
    + rewrite (Eother a Ha), (Eother b Hb). apply (i_hash s Hi a b Ha Hb).
  - assert (Hmono : forall l, Forall (listed (used s) (fh s)) l -> Forall (listed (ff :: used s) (set (fh s) ff (hash n))) l).
    { intros l Hl. eapply Forall_impl; [|exact Hl]. intros a Ha. now apply listed_mono. }
    intros i' jj H'. destruct (Nat.eq_dec i i') as [<-|Hn].
    + rewrite upd_nth_error_same in H' by assumption. inversion H'; subst jj. split; [|apply Hmono; exact (proj2 (i_jok s Hi _ _ Hj))].
      unfold j'. destruct t; cbn; rewrite Eself; auto.
    + rewrite upd_nth_error_other in H' by assumption. pose proof (i_jok s Hi _ _ H') as [O1 O2]. split; [|now apply Hmono].
      pose proof (out_not _ (main_alone s _ _ _ _ Hi Hj H' K4 Hn)) as Hout.
      destruct (at_ jj) eqn:E; cbn in *; auto; try (destruct O1; rewrite Eother by assumption; now auto); try (now apply listed_mono);
        exfalso; destruct (Hout n0 ff0 r); congruence.
  - intros f [<-|Hx].
    + unfold set. rewrite Nat.eqb_refl. rewrite (sumz_upd _ _ _ _ _ Hj), J1, K1, Nat.eqb_refl. cbn [b2z].
      rewrite (sumz_zero (tref ff (hash n))); [lia|]. intros i' x H'. apply (Hst _ _ H').
    + rewrite (Eother f Hx). unfold set. rewrite (Enx f Hx), (sumz_upd _ _ _ _ _ Hj), J1, K1, (Nat.eqb_sym ff f), (Enx f Hx), (i_refs s Hi f Hx). cbn [b2z]. lia.
  - intros f [<-|Hx].
    + rewrite Eself, (sumz_upd _ _ _ _ _ Hj), J2, K2. rewrite (sumz_zero (thold ff (hash n))) by (intros i' x H'; apply (Hst _ _ H')).
      rewrite (i_free s Hi ff) by (rewrite Hfree; now left). lia.
    + rewrite (Eother f Hx), (sumz_upd _ _ _ _ _ Hj), J2, K2, (i_sem s Hi f Hx). lia.
  - apply (i_sem0 s Hi).
  - intros f [<-|Hx]; rewrite (sumz_upd _ _ _ _ _ Hj), J3, K3; unfold set.
    + rewrite Nat.eqb_refl. pose proof (sumz_nonneg (tunl ff) (jobs s) (tunl_nonneg ff)). lia.
    + rewrite (Enx f Hx). pose proof (i_live s Hi f Hx). lia.
  - intros f Hx. apply (i_free s Hi). rewrite Hfree. now right.
Qed.

Lemma free_inv s i n ff hl : Inv s -> nth_error (jobs s) i = Some (mkJob (PUnlC n ff 0) hl) ->
  Inv (mkSt (main s + 1) (List.remove Nat.eq_dec ff (used s)) (ff :: free s) (fh s) (sem s) (refs s) (upd (jobs s) i (mkJob PIdle hl))).
Proof.
  intros Hi Hj. pose proof (nth_error_Some (jobs s) i) as Hlt. rewrite Hj in Hlt.
  assert (Hil : (i < length (jobs s))%nat) by (apply Hlt; discriminate).
  pose proof (i_jok s Hi _ _ Hj) as [(Hu & Hh & Hr) Hl]. cbn in Hu, Hh, Hr, Hl.
  assert (Hin : forall x, In x (List.remove Nat.eq_dec ff (used s)) <-> In x (used s) /\ x <> ff).
  { intros x. split; [apply in_remove | intros [H1 H2]; now apply in_in_remove]. }
  pose proof (i_refs s Hi ff Hu) as Er. rewrite Hr in Er.
  assert (Hzero : forall i' j', nth_error (jobs s) i' = Some j' -> tref ff (fh s ff) j' = 0).
  { intros i' j' H'. pose proof (sumz_ge _ _ _ _ (tref_nonneg ff (fh s ff)) H'). pose proof (tref_nonneg ff (fh s ff) j'). lia. }
  assert (K4 : tin (mkJob (PUnlC n ff 0) hl) = 1) by reflexivity.
  assert (Hh0 : forall i' j', nth_error (jobs s) i' = Some j' -> thold ff (fh s ff) j' = 0).
  { intros i' j' H'. pose proof (Hzero _ _ H') as Hz. unfold tref in Hz. unfold thold. pose proof (cnt_nonneg (fh s ff) (held j')).
    pose proof (pcref_range ff (fh s ff) (at_ j')). destruct (Nat.eq_dec i i') as [<-|Hn]; [rewrite Hj in H'; inversion H'; subst; cbn in *; lia|].
    pose proof (out_not _ (main_alone s _ _ _ _ Hi Hj H' K4 Hn)) as Hout.
    destruct (at_ j') eqn:E; cbn in *; try lia; exfalso; destruct (Hout n0 ff0 r); congruence. }
  assert (Hkeep : forall i' j' m, nth_error (jobs s) i' = Some j' -> In m (held j') -> hash m <> fh s ff).
  { intros i' j' m H' Hm E. pose proof (Hzero _ _ H') as Hz. unfold tref in Hz. pose proof (cnt_in (fh s ff) (held j') m Hm E).
    pose proof (pcref_range ff (fh s ff) (at_ j')). lia. }
  assert (Hlis : forall m, hash m <> fh s ff -> listed (used s) (fh s) m -> listed (List.remove Nat.eq_dec ff (used s)) (fh s) m).
  { intros m Hne [x [H1 H2]]. exists x. split; [|assumption]. apply Hin. split; [assumption|]. intros ->. congruence. }
  assert (Hlisf : forall i' j', nth_error (jobs s) i' = Some j' -> Forall (listed (List.remove Nat.eq_dec ff (used s)) (fh s)) (held j')).
  { intros i' j' H'. pose proof (proj2 (i_jok s Hi _ _ H')) as Hf. rewrite Forall_forall in Hf |- *. intros m Hm. apply Hlis; [exact (Hkeep _ _ m H' Hm) | exact (Hf m Hm)]. }
  pose proof (i_main0 s Hi) as Hm0. pose proof (i_main s Hi) as Hm.
  constructor; cbn [jobs main used free fh sem refs].
  - rewrite upd_length. apply (i_len s Hi).
  - rewrite (sumz_upd tin _ _ _ _ Hj), K4. change (tin (mkJob PIdle hl)) with 0. lia.
  - lia.
  - pose proof (i_nodup s Hi) as Hnd. apply in_split in Hu. destruct Hu as (a & b & E). rewrite E in *.
    rewrite <- app_assoc in Hnd. cbn in Hnd. pose proof (NoDup_remove_2 _ _ _ Hnd) as Hni.
    rewrite !in_app_iff in Hni. rewrite remove_app. cbn [List.remove]. destruct (Nat.eq_dec ff ff); [|congruence].
    rewrite !notin_remove by tauto. rewrite <- app_assoc. apply NoDup_remove_1 in Hnd. 
    assert (~ In ff (a ++ b ++ free s)) by (rewrite !in_app_iff; tauto).
    clear - Hnd H. rewrite app_assoc in *. revert Hnd H. generalize (a ++ b) (free s). intros l1 l2 H1 H2. apply NoDup_Add with (a := ff) (l := l1 ++ l2); [apply Add_app | now split].
  - intros f. rewrite <- (i_all s Hi f). rewrite !in_app_iff, Hin. cbn [In]. destruct (Nat.eq_dec f ff) as [->|]; [tauto|]. intuition congruence.
  - intros a b Ha Hb. apply Hin in Ha, Hb. apply (i_hash s Hi); tauto.
  - intros i' jj H'. destruct (Nat.eq_dec i i') as [<-|Hn].
    + rewrite upd_nth_error_same in H' by assumption. inversion H'; subst jj. split; [exact Logic.I|]. exact (Hlisf _ _ Hj).
    + rewrite upd_nth_error_other in H' by assumption. split; [|exact (Hlisf _ _ H')].
      pose proof (i_jok s Hi _ _ H') as [O1 O2]. pose proof (Hzero _ _ H') as Hz. unfold tref in Hz.
      pose proof (cnt_nonneg (fh s ff) (held jj)). pose proof (pcref_range ff (fh s ff) (at_ jj)) as Hpr.
      assert (Hz' : pcref ff (fh s ff) (at_ jj) = 0) by lia. clear Hz Hpr.
      pose proof (out_not _ (main_alone s _ _ _ _ Hi Hj H' K4 Hn)) as Hout.
      destruct (at_ jj) eqn:E; cbn in *; auto;
        try (destruct O1 as [O1 O1']; split; [|assumption]; apply Hin; split; [assumption|]; intros ->; rewrite Nat.eqb_refl in Hz'; cbn in Hz'; lia);
        try (apply Hlis; [|assumption]; intros Ex; rewrite Ex, Z.eqb_refl in Hz'; cbn in Hz'; lia);
        exfalso; destruct (Hout n0 ff0 r); congruence.
  - intros f Hx. apply Hin in Hx. destruct Hx as [Hx _]. rewrite (sumz_upd _ _ _ _ _ Hj), (i_refs s Hi f Hx). change (tref f (fh s f) (mkJob (PUnlC n ff 0) hl)) with (0 + cnt (fh s f) hl). change (tref f (fh s f) (mkJob PIdle hl)) with (0 + cnt (fh s f) hl). lia.
  - intros f Hx. apply Hin in Hx. destruct Hx as [Hx _]. rewrite (sumz_upd _ _ _ _ _ Hj), (i_sem s Hi f Hx). change (thold f (fh s f) (mkJob (PUnlC n ff 0) hl)) with (0 + cnt (fh s f) hl). change (thold f (fh s f) (mkJob PIdle hl)) with (0 + cnt (fh s f) hl). lia.
  - apply (i_sem0 s Hi).
  - intros f Hx. apply Hin in Hx. destruct Hx as [Hx Hne]. rewrite (sumz_upd _ _ _ _ _ Hj). pose proof (i_live s Hi f Hx).
    change (tunl f (mkJob PIdle hl)) with 0. assert (tunl f (mkJob (PUnlC n ff 0) hl) = 0) as -> by (unfold tunl; cbn [at_ pcunl]; destruct (Nat.eqb_spec ff f); [congruence|reflexivity]). lia.
  - intros f [<-|Hx]; [|exact (i_free s Hi f Hx)]. rewrite (i_sem s Hi ff Hu), (sumz_zero (thold ff (fh s ff))) by (intros i' x H'; exact (Hh0 _ _ H')). lia.
Qed.
Lemma one_le_refs s i j ff : Inv s -> In ff (used s) -> nth_error (jobs s) i = Some j -> 1 <= tref ff (fh s ff) j -> 1 <= refs s ff.
Proof. intros Hi Hu Hj H. rewrite (i_refs s Hi ff Hu). pose proof (sumz_ge _ _ _ _ (tref_nonneg ff (fh s ff)) Hj). lia. Qed.

(** Two locks of the used list have the same hash only when they are the same. *)
Lemma hash_same s n f ff : Inv s -> In f (used s) -> In ff (used s) -> fh s ff = hash n -> (hash n =? fh s f) = (f =? ff)%nat.
Proof.
  intros Hi Hf Hff E. destruct (Nat.eqb_spec f ff) as [->|Hn]; [rewrite E; apply Z.eqb_refl|].
  apply Z.eqb_neq. intros E2. apply Hn. apply (i_hash s Hi); auto. congruence.
Qed.

Ltac plain Hi Hj :=
  refine (put_inv _ _ _ _ _ Hi Hj _ _ _ _ _ _);
  [ unfold tin; cbn [at_ pcin]; lia | lia | | | | ].

Lemma step_inv s s' : Inv s -> step hash s s' -> Inv s'.
Proof.
  intros Hi Hst. pose proof (i_main0 s Hi) as Hm0.
  destruct Hst as
    [i n t hl Hj | i n a b Hj | i n t hl Hj Hp | i n hl Hj Hp | i n ff hl Hj Hp | i n hl Hj Hp
    | i n t hl ff Hj Hf | i n t hl ff fs Hj Hf Hfr | i n hl Hj Hf Hfr | i n hl Hj Hf Hfr | i n hl Hj Hfr | i n hl ff f0 fs Hj Hfr Hf | i n hl ff fs Hj Hfr Hf
    | i n ff t hl Hj Hp | i n ff hl Hj Hp | i n ff hl Hj Hp | i n ff hl Hj Hr | i n ff hl Hj Hr
    | i n ff hl Hj Hf | i n hl Hj Hf | i n ff r hl Hj | i n ff r hl Hj Hr | i n ff hl Hj];
    pose proof (i_jok s Hi _ _ Hj) as [Hpc Hl]; cbn [at_ held] in Hpc, Hl.
  - plain Hi Hj; [split; [exact Logic.I|exact Hl] | reflexivity | reflexivity | left; apply Z.le_refl].
  - apply Forall_app in Hl. destruct Hl as [Hl1 Hl2]. inversion Hl2 as [|? ? Hln Hl3]; subst.
    plain Hi Hj; [split; [exact Hln | apply Forall_app; now split] | | | left; apply Z.le_refl];
      intros ff Hff; unfold tref, thold; cbn [at_ held pcref pchold]; rewrite cnt_mid; lia.
  - plain Hi Hj; [split; [exact Logic.I|exact Hl] | reflexivity | reflexivity | left; apply Z.le_refl].
  - plain Hi Hj; [split; [exact Logic.I|exact Hl] | reflexivity | reflexivity | left; apply Z.le_refl].
  - plain Hi Hj; [split; [exact Hpc|exact Hl] | reflexivity | reflexivity | left; apply Z.le_refl].
  - plain Hi Hj; [split; [exact Hpc|exact Hl] | reflexivity | reflexivity | left; apply Z.le_refl].
  - apply (take_inv s i n (PLockIn n t) ff t hl Hi Hj); auto.
  - apply (fresh_inv s i n (PLockIn n t) ff fs t hl Hi Hj); auto.
  - plain Hi Hj; [split; [exact Logic.I|exact Hl] | reflexivity | reflexivity | left; apply Z.le_refl].
  - plain Hi Hj; [split; [exact Logic.I|exact Hl] | reflexivity | reflexivity | left; apply Z.le_refl].
  - plain Hi Hj; [split; [exact Logic.I|exact Hl] | reflexivity | reflexivity | left; apply Z.le_refl].
  - apply (take_inv s i n (PRetryIn n) ff false hl Hi Hj); auto.
  - apply (fresh_inv s i n (PRetryIn n) ff fs false hl Hi Hj); auto.
  - destruct Hpc as [Hu Hh]. assert (H1 : 1 <= refs s ff).
    { apply (one_le_refs s i _ ff Hi Hu Hj). unfold tref. cbn [at_ pcref held]. rewrite Nat.eqb_refl. pose proof (cnt_nonneg (fh s ff) hl). cbn [b2z]. lia. }
    apply (one_inv s i _ _ ff (refs s ff) (sem s ff - 1) _ _ _ (fun x => eq_refl) (fun x => eq_sym (upd_eta _ _ _)) Hi Hj Hu).
    + unfold tin; cbn [at_ pcin]; lia.
    + lia.
    + split; [exact Logic.I|]. constructor; [exists ff; auto|exact Hl].
    + now right.
    + intros f Hf. unfold tref. cbn [at_ held pcref]. rewrite cnt_cons, (hash_same s n f ff Hi Hf Hu Hh), (Nat.eqb_sym ff f). destruct (f =? ff)%nat; lia.
    + intros f Hf. unfold thold. cbn [at_ held pchold]. rewrite cnt_cons, (hash_same s n f ff Hi Hf Hu Hh). unfold b2z. destruct (f =? ff)%nat; lia.
    + lia.
    + intros. apply Z.le_refl.
    + change (tunl ff (mkJob PIdle (n :: hl))) with 0. lia.
  - destruct Hpc as [Hu Hh]. assert (H1 : 1 <= refs s ff).
    { apply (one_le_refs s i _ ff Hi Hu Hj). unfold tref. cbn [at_ pcref held]. rewrite Nat.eqb_refl. pose proof (cnt_nonneg (fh s ff) hl). cbn [b2z]. lia. }
    apply (one_inv s i _ _ ff (refs s ff) (sem s ff - 1) _ _ _ (fun x => eq_refl) (fun x => eq_sym (upd_eta _ _ _)) Hi Hj Hu).
    + unfold tin; cbn [at_ pcin]; lia.
    + lia.
    + split; [exact Logic.I|]. constructor; [exists ff; auto|exact Hl].
    + now right.
    + intros f Hf. unfold tref. cbn [at_ held pcref]. rewrite cnt_cons, (hash_same s n f ff Hi Hf Hu Hh), (Nat.eqb_sym ff f). destruct (f =? ff)%nat; lia.
    + intros f Hf. unfold thold. cbn [at_ held pchold]. rewrite cnt_cons, (hash_same s n f ff Hi Hf Hu Hh). unfold b2z. destruct (f =? ff)%nat; lia.
    + lia.
    + intros. apply Z.le_refl.
    + change (tunl ff (mkJob PIdle (n :: hl))) with 0. lia.
  - plain Hi Hj; [split; [exact Hpc|exact Hl] | reflexivity | reflexivity | left; apply Z.le_refl].
  - destruct Hpc as [Hu Hh]. assert (H1 : 1 <= refs s ff).
    { apply (one_le_refs s i _ ff Hi Hu Hj). unfold tref. cbn [at_ pcref held]. rewrite Nat.eqb_refl. pose proof (cnt_nonneg (fh s ff) hl). cbn [b2z]. lia. }
    pose proof (refs_small s ff Hi Hu). assert (E : u32 (refs s ff - 1) = refs s ff - 1) by (unfold u32; rewrite Z.mod_small; lia). rewrite E.
    apply (one_inv s i _ _ ff (refs s ff - 1) (sem s ff) _ _ _ (fun x => eq_sym (upd_eta _ _ _)) (fun x => eq_refl) Hi Hj Hu).
    + unfold tin; cbn [at_ pcin]; lia.
    + lia.
    + split; [exact Logic.I|exact Hl].
    + now left.
    + intros f Hf. unfold tref. cbn [at_ held pcref]. rewrite (Nat.eqb_sym ff f). unfold b2z. destruct (f =? ff)%nat; lia.
    + intros f Hf. unfold thold. cbn [at_ held pchold]. destruct (f =? ff)%nat; lia.
    + apply (i_sem0 s Hi).
    + intros. apply Z.le_refl.
    + change (tunl ff (mkJob PIdle hl)) with 0. lia.
  - plain Hi Hj; [split; [exact Hpc|exact Hl] | reflexivity | reflexivity | left; apply Z.le_refl].
  - destruct (find_some _ _ _ Hi Hf) as [Hu Hh]. assert (H1 : 1 <= refs s ff).
    { apply (one_le_refs s i _ ff Hi Hu Hj). unfold tref. cbn [at_ pcref held]. rewrite Hh, Z.eqb_refl. pose proof (cnt_nonneg (hash n) hl). cbn [b2z]. lia. }
    pose proof (refs_small s ff Hi Hu). assert (E : u32 (refs s ff - 1) = refs s ff - 1) by (unfold u32; rewrite Z.mod_small; lia). rewrite E.
    apply (one_inv s i _ _ ff (refs s ff - 1) (sem s ff) _ _ _ (fun x => eq_sym (upd_eta _ _ _)) (fun x => eq_refl) Hi Hj Hu).
    + unfold tin; cbn [at_ pcin]; lia.
    + lia.
    + split; [|exact Hl]. cbn. unfold set. rewrite Nat.eqb_refl. auto.
    + now left.
    + intros f Hff. unfold tref. cbn [at_ held pcref]. rewrite (hash_same s n f ff Hi Hff Hu Hh). unfold b2z. destruct (f =? ff)%nat; lia.
    + intros f Hff. unfold thold. cbn [at_ held pchold]. rewrite (hash_same s n f ff Hi Hff Hu Hh), (Nat.eqb_sym ff f). destruct (f =? ff)%nat; lia.
    + apply (i_sem0 s Hi).
    + intros. apply tunl_nonneg.
    + unfold tunl. cbn [at_ pcunl]. rewrite Nat.eqb_refl. cbn [andb]. destruct (Z.eqb_spec (refs s ff - 1) 0); cbn [b2z]; lia.
  - destruct (find_listed _ _ Hi Hpc) as [ff E]. congruence.
  - destruct Hpc as (Hu & Hh & Hr).
    apply (one_inv s i _ _ ff (refs s ff) (sem s ff + 1) _ _ _ (fun x => eq_refl) (fun x => eq_sym (upd_eta _ _ _)) Hi Hj Hu).
    + unfold tin; cbn [at_ pcin]; lia.
    + lia.
    + split; [cbn; auto|exact Hl].
    + now right.
    + intros f Hff. unfold tref. cbn [at_ held pcref]. destruct (f =? ff)%nat; lia.
    + intros f Hff. unfold thold. cbn [at_ held pchold]. rewrite (Nat.eqb_sym ff f). unfold b2z. destruct (f =? ff)%nat; lia.
    + pose proof (i_sem0 s Hi ff). lia.
    + intros. apply Z.le_refl.
    + unfold tunl. cbn [at_ pcunl]. rewrite Nat.eqb_refl, Hr. cbn [andb].
      pose proof (refs_small s ff Hi Hu). destruct (Z.eqb_spec r 0); cbn [b2z]; lia.
  - destruct Hpc as (Hu & Hh & Hrr). plain Hi Hj; [split; [exact Logic.I|exact Hl] | reflexivity | reflexivity |].
    intros f Hff. unfold tunl. cbn [at_ pcunl]. destruct (Nat.eqb_spec ff f) as [<-|]; [right|left; cbn; lia].
    pose proof (refs_small s ff Hi Hu). lia.
  - now apply free_inv with (n := n).
Qed.

Lemma init_inv fh0 refs0 : Inv (init MAX k fh0 refs0).
Proof.
  constructor; cbn [init jobs main used free fh sem refs].
  - apply repeat_length.
  - assert (sumz tin (repeat (mkJob PIdle []) k) = 0) as ->; [|reflexivity].
    apply sumz_zero. intros i x H. apply nth_error_In, repeat_spec in H. now subst.
  - lia.
  - apply seq_NoDup.
  - intros ff. cbn [app]. rewrite in_seq. lia.
  - intros a b [].
  - intros i j H. apply nth_error_In, repeat_spec in H. subst. split; [exact Logic.I|constructor].
  - intros ff [].
  - intros ff [].
  - intros; lia.
  - intros ff [].
  - reflexivity.
Qed.

Lemma reach_inv s : reach hash MAX k s -> Inv s.
Proof. induction 1 as [|s s' _ IH Hs]; [apply init_inv | exact (step_inv _ _ IH Hs)]. Qed.
End Inv.
