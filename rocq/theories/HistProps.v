(** C20: the write history used by verification holds the most recent, non-overlapping writes. *)
From Coq Require Import ZArith List Lia Bool Sorting.Sorted.
From Verif Require Import CBase RbModel RbSpec RbProofs HistModel HistSpec HistProofs.
Import ListNotations.
Open Scope Z_scope.

(** The test of the specification is what it should be: a common byte of the same file. *)
Theorem C20_touch a b : 0 < elen a -> 0 < elen b -> (touchb a b = true <-> touch a b).
Proof.
  intros A B. unfold touchb, touch. rewrite !andb_true_iff, Z.eqb_eq, !Z.ltb_lt. split.
  - intros [[E H1] H2]. split; auto. exists (Z.max (eoff a) (eoff b)). lia.
  - intros [E (k & H1 & H2)]. lia.
Qed.
Print Assumptions C20_touch.

(** A job that has not logged anything yet; the heap may contain anything. *)
Definition fresh (h : hist) : Prop :=
  top (htree h) = 0 /\ hlist h = [] /\ hlen h = 0 /\ trimq h = [] /\ tents h = 0 /\ (forall x, live h x = false).

(** For every sequence of writes, completions, failures, short writes, verifications and trims: the code never touches freed
    memory nor fails an assertion, answers the verifier and the trimmer exactly as specified, keeps allocated exactly the
    recorded and the unfinished writes, and the enumeration of the tree gives the recorded writes in order, non-overlapping. *)
Theorem C20_history fuel risk evs h : fresh h -> legal risk sinit evs -> (length evs <= fuel)%nat -> Z.of_nat fuel < 2 ^ 64 ->
  exists h' outs s', hrun fuel risk evs h = Some (outs, h') /\ sruns risk sinit evs outs s' /\
    (forall x, live h' x = true <-> In x (ids (recs s')) \/ In x (fly s')) /\
    hlen h' = u64 (zlen (recs s') - lost s') /\ trimq h' = tq s' /\
    (forall e, In e (recs s') -> matches (pc h' (eid e)) e) /\
    (risk = true -> forall fuel', (length (recs s') < fuel')%nat -> exists n l, rb_first fuel' (htree h') = Some n /\ iter fuel' fuel' n (htree h') = Some l /\
        NoDup l /\ (forall x, In x l <-> In x (ids (recs s'))) /\
        StronglySorted (fun x y => pfile (pc h' x) < pfile (pc h' y) \/
           pfile (pc h' x) = pfile (pc h' y) /\ poff (pc h' x) + plen (pc h' x) <= poff (pc h' y)) l) /\
    (risk = false -> hlist h' = ids (recs s')).
Proof.
  intros (A & B & C & D & E0 & F) LG FU FB. destruct (hrun_ok fuel risk evs sinit h) as (h' & outs & s' & E1 & E2 & S); auto.
  { apply sim_init; auto. }
  exists h', outs, s'. split; [exact E1|]. split; [exact E2|]. split.
  - intros x. split; [apply (m_live _ _ _ S)|]. intros [H|H]; [apply in_ids in H; destruct H as (e & IE & <-); apply (m_ent _ _ _ S e IE)|apply (m_fly _ _ _ S x H)].
  - split; [apply (m_len _ _ _ S)|]. split; [apply (m_tq _ _ _ S)|]. split; [intros e IE; apply (m_ent _ _ _ S e IE)|].
    destruct (m_tree _ _ _ S) as (t & TO & TP). unfold tree_part in TP. split; intros ->; destruct TP as [TI HL]; [|exact HL]. intros fuel' F'.
    destruct TO as [HH BB SS MM]. pose proof (proj2 (rep_holds _ _) HH) as RR.
    assert (LEN : (length (inorder t) <= length (recs s'))%nat).
    { replace (length (recs s')) with (length (ids (recs s'))) by apply map_length. apply NoDup_incl_length; [apply HH|]. intros y Hy. apply TI. auto. }
    pose proof (height_size t) as HS. exists (hd 0 (inorder t)), (inorder t).
    split; [apply first_ok; auto; lia|]. split; [apply (iter_ok fuel' _ t RR ltac:(lia) []); auto; lia|]. split; [apply HH|]. split; [exact TI|exact SS].
Qed.
Print Assumptions C20_history.

Lemma sruns_inv risk s e evs outs s'' : sruns risk s (e :: evs) outs s'' ->
  exists o outs' s', outs = o :: outs' /\ sstep risk s e o s' /\ sruns risk s' evs outs' s''.
Proof. intros R. inversion R; subst. eauto 10. Qed.
Lemma sruns_nil risk s outs s'' : sruns risk s [] outs s'' -> outs = [] /\ s'' = s.
Proof. intros R. inversion R; subst. auto. Qed.

(** ** What the specification means for the user *)

(** [Since l evs x f o n m]: the write x of range (f, o) was logged in [evs] with length at least [l], and no write logged later
    touches (f, o, l). [d]: whether it completed. *)
Definition since (l : Z) (d : bool) (evs : list ev) (x f o n m : Z) : Prop :=
  exists a b len t, evs = a ++ Log x f o len n m t :: b /\ 0 < l <= len /\ (d = true -> In (Done x) b) /\
    forall y f' o' len' n' m' t', In (Log y f' o' len' n' m' t') b ->
      ~ touch (mkE y f' o' len' n' m' false false) (mkE x f o l n m false false).

Lemma since_more l l' d evs e x f o n m : since l d evs x f o n m -> 0 < l' <= l ->
  (forall y f' o' len' n' m' t', e = Log y f' o' len' n' m' t' -> ~ touch (mkE y f' o' len' n' m' false false) (mkE x f o l' n m false false)) ->
  since l' d (evs ++ [e]) x f o n m.
Proof.
  intros (a & b & len & t & -> & L & D & H) L' N. exists a, (b ++ [e]), len, t. split; [rewrite <- app_assoc; reflexivity|]. split; [lia|].
  split; [intros DD; apply in_or_app; auto|]. intros y f' o' len' n' m' t' I. apply in_app_or in I. destruct I as [I|[I|[]]].
  - intros [E (k & K1 & K2)]. apply (H _ _ _ _ _ _ _ I). split; auto. exists k. cbn in *. lia.
  - apply (N _ _ _ _ _ _ _ I).
Qed.

Definition sinv (evs : list ev) (s : sst) : Prop :=
  NoDup (ids (recs s)) /\ (forall e, In e (recs s) -> since (elen e) (edone e) evs (eid e) (efile e) (eoff e) (enum e) (emark e)) /\
  (forall e f, In e (recs s) -> In f (recs s) -> e <> f -> ~ touch e f).

Lemma nlog l d evs e x f o n m : since l d evs x f o n m -> (forall y f' o' len' n' m' t', e <> Log y f' o' len' n' m' t') -> since l d (evs ++ [e]) x f o n m.
Proof.
  intros H N. assert (L : 0 < l) by (destruct H as (? & ? & ? & ? & ? & ? & ?); lia).
  apply (since_more l); auto; [lia|]. intros. exfalso. eapply N; eauto.
Qed.

Lemma sinv_keep evs s e fl q ls (rs : list ent) : sinv evs s -> (forall y f' o' len' n' m' t', e <> Log y f' o' len' n' m' t') ->
  NoDup (ids rs) -> incl rs (recs s) -> sinv (evs ++ [e]) (mkT rs fl q ls).
Proof.
  intros (ND & SI & NT) N ND' IN. split; [auto|]. split; cbn [recs].
  - intros f IF. apply nlog; auto.
  - intros f g IF IG. apply NT; auto.
Qed.

Lemma sstep_sinv evs s e o s' : sinv evs s -> pre s e -> sstep true s e o s' -> sinv (evs ++ [e]) s'.
Proof.
  intros S P ST. pose proof S as (ND & SI & NT). inversion ST; subst; try discriminate; clear ST.
  - destruct P as (X0 & XR & XF & O0 & L0 & OL). repeat match goal with v := _ |- _ => subst v end. set (e := new_ent x file off len num mark) in *. cbn [recs].
    assert (EL : forall f, In f (recs s) -> 0 < elen f) by (intros f IF; destruct (SI f IF) as (? & ? & ? & ? & ? & ? & ?); lia).
    split; [cbn [recs ids map]; constructor; [|apply nd_filter; auto]; intros A; apply in_ids in A; destruct A as (f & IF & EF); apply filter_In in IF; apply XR, in_ids; exists f; tauto|].
    cbn [recs]. split.
    + intros f [<-|IF].
      * cbn. exists evs, [], len, trim. split; auto. split; [lia|]. split; [discriminate|]. intros ? ? ? ? ? ? ? [].
      * apply filter_In in IF. destruct IF as [IF T]. specialize (EL f IF). apply (since_more (elen f)); auto; [lia|].
        intros y f' o' len' n' m' t' [= -> -> -> -> -> -> ->] TT. apply negb_true_iff in T. rewrite (proj2 (C20_touch e f L0 EL)) in T; [discriminate|]. exact TT.
    + assert (K : forall f, In f (filter (fun f => negb (touchb e f)) (recs s)) -> ~ touch e f).
      { intros f IF TT. apply filter_In in IF. destruct IF as [IF T]. apply negb_true_iff in T. rewrite (proj2 (C20_touch e f L0 (EL f IF)) TT) in T. discriminate. }
      intros f g [<-|IF] [<-|IG] NE; [exfalso; apply NE; reflexivity|apply K; auto| |].
      * intros [A (k & K1 & K2)]. apply (K f IF). split; [auto|exists k; auto].
      * apply filter_In in IF, IG. apply NT; tauto.
  - (* done *) split; [cbn [recs]; rewrite ids_upd by reflexivity; auto|]. cbn [recs]. split.
    + intros f IF. apply in_upd in IF. destruct IF as (f0 & IF & ->). destruct (Z.eqb_spec (eid f0) x) as [EX|]; [|apply nlog; auto; discriminate].
      destruct (nlog _ _ _ (Done x) _ _ _ _ _ (SI f0 IF)) as (a & b & len & t & E1 & L & D & H); [discriminate|]. cbn. subst x.
      destruct (SI f0 IF) as (a' & b' & len' & t' & E1' & L' & D' & H'). exists a', (b' ++ [Done (eid f0)]), len', t'.
      split; [rewrite E1', <- app_assoc; reflexivity|]. split; [auto|]. split; [intros _; apply in_or_app; right; left; auto|].
      intros ? ? ? ? ? ? ? I. apply in_app_or in I. destruct I as [I|[I|[]]]; [eapply H'; eauto|discriminate].
    + intros f g IF IG NE. apply in_upd in IF, IG. destruct IF as (f0 & IF & ->), IG as (g0 & IG & ->).
      assert (NE0 : f0 <> g0) by (intros ->; apply NE; reflexivity). destruct (eid f0 =? x), (eid g0 =? x); apply (NT f0 g0); auto.
  - (* fail *) apply sinv_keep with s; auto; [discriminate|apply nd_filter; auto|]. intros f IF. apply filter_In in IF. tauto.
  - (* short *) destruct P as (P1 & P2 & P3). split; [cbn [recs]; rewrite ids_upd by reflexivity; auto|]. cbn [recs]. split.
    + intros f IF. apply in_upd in IF. destruct IF as (f0 & IF & ->). destruct (Z.eqb_spec (eid f0) x) as [EX|]; [|apply nlog; auto; discriminate].
      specialize (P3 f0 IF EX). cbn. apply (since_more (elen f0)); [apply SI; auto|lia|intros; discriminate].
    + assert (SH : forall f0, In f0 (recs s) -> forall k, eoff (if eid f0 =? x then cut_ent n f0 else f0) <= k < eoff (if eid f0 =? x then cut_ent n f0 else f0) + elen (if eid f0 =? x then cut_ent n f0 else f0) ->
        eoff f0 <= k < eoff f0 + elen f0).
      { intros f0 IF k. destruct (Z.eqb_spec (eid f0) x) as [EX|]; [|auto]. specialize (P3 f0 IF EX). cbn. lia. }
      intros f g IF IG NE. apply in_upd in IF, IG. destruct IF as (f0 & IF & ->), IG as (g0 & IG & ->).
      assert (NE0 : f0 <> g0) by (intros ->; apply NE; reflexivity). intros [A (k & K1 & K2)]. apply (NT f0 g0 IF IG NE0). split; [|exists k; eauto].
      destruct (eid f0 =? x), (eid g0 =? x); cbn in A; auto.
  - (* next *) apply sinv_keep with s; auto; [discriminate|apply nd_filter; auto|]. intros f IF. apply filter_In in IF. tauto.
  - destruct s' as [rs fl q ls]. apply sinv_keep with (mkT rs fl q ls); auto; [discriminate|apply incl_refl].
  - (* trim *) split; [cbn [recs]; rewrite ids_upd by reflexivity; auto|]. cbn [recs]. split.
    + intros f IF. apply in_upd in IF. destruct IF as (f0 & IF & ->). destruct (Z.eqb_spec (eid f0) (eid e0)); cbn; apply nlog; auto; discriminate.
    + intros f g IF IG NE. apply in_upd in IF, IG. destruct IF as (f0 & IF & ->), IG as (g0 & IG & ->).
      assert (NE0 : f0 <> g0) by (intros ->; apply NE; reflexivity). destruct (eid f0 =? eid e0), (eid g0 =? eid e0); apply (NT f0 g0); auto.
  - destruct s' as [rs fl q ls]. apply sinv_keep with (mkT rs fl q ls); auto; [discriminate|apply incl_refl].
Qed.

Lemma sruns_sinv : forall evs past s outs s', sinv past s -> legal true s evs -> sruns true s evs outs s' -> sinv (past ++ evs) s'.
Proof.
  induction evs as [|e evs IH]; intros past s outs s' S LG R.
  - apply sruns_nil in R. destruct R as [-> ->]. rewrite app_nil_r. auto.
  - apply sruns_inv in R. destruct R as (o & outs' & s1 & -> & ST & RR). destruct LG as [P LG]. replace (past ++ e :: evs) with ((past ++ [e]) ++ evs) by (rewrite <- app_assoc; reflexivity).
    eapply IH; eauto. eapply sstep_sinv; eauto.
Qed.
Lemma sinv_init : sinv [] sinit.
Proof. split; [constructor|]. split; [intros e []|intros e f []]. Qed.

(** Recorded writes never share a byte, and no write logged after a recorded one touches it. *)
Theorem C20_latest evs outs s : legal true sinit evs -> sruns true sinit evs outs s ->
  (forall e f, In e (recs s) -> In f (recs s) -> e <> f -> ~ touch e f) /\
  (forall e, In e (recs s) -> since (elen e) (edone e) evs (eid e) (efile e) (eoff e) (enum e) (emark e)).
Proof. intros LG R. destruct (sruns_sinv evs [] sinit outs s sinv_init LG R) as (_ & A & B). auto. Qed.
Print Assumptions C20_latest.

Lemma sruns_app risk : forall evs evs2 s outs s2, sruns risk s (evs ++ evs2) outs s2 ->
  exists o1 o2 s1, outs = o1 ++ o2 /\ length o1 = length evs /\ sruns risk s evs o1 s1 /\ sruns risk s1 evs2 o2 s2.
Proof.
  induction evs as [|e evs IH]; intros evs2 s outs s2 R; cbn [app] in R.
  - exists [], outs, s. split; [reflexivity|]. split; [reflexivity|]. split; [constructor|auto].
  - apply sruns_inv in R. destruct R as (o & outs' & s1' & -> & ST & RR). destruct (IH _ _ _ _ RR) as (o1 & o2 & s1 & -> & L & A & B). exists (o :: o1), o2, s1. split; [reflexivity|]. split; [cbn; auto|]. split; [econstructor; eauto|auto].
Qed.
Lemma legal_app risk : forall a b s outs s', legal risk s (a ++ b) -> sruns risk s a outs s' -> legal risk s a /\ legal risk s' b.
Proof.
  induction a as [|e a IH]; intros b s outs s' LG R; cbn [app] in LG.
  - apply sruns_nil in R. destruct R as [-> ->]. split; [exact I|auto].
  - destruct LG as [P LG]. apply sruns_inv in R. destruct R as (o & outs0 & s'0 & -> & ST0 & RR). destruct (IH b s'0 outs0 s' (LG _ _ ST0) RR) as [A B]. split; [|auto]. split; [auto|].
    intros o' t ST. clear -IH LG ST. specialize (LG _ _ ST). revert t LG ST. intros t LG _.
    (* any other outcome of the step is legal as well *)
    clear IH. revert t LG. induction a as [|e' a IH]; intros t LG; [exact I|]. cbn [app legal] in *. destruct LG as [P LG]. split; [auto|]. intros o1 t1 ST1. apply IH, (LG o1 t1 ST1).
Qed.

(** The verifier is always given the data of the last write: the range it is told to check was written by a completed write that no
    later write touched. *)
Theorem C20_verify_latest a outs s b v : legal true sinit (a ++ Next :: b) -> sruns true sinit (a ++ Next :: b) outs s -> nth_error outs (length a) = Some (Some v) ->
  exists x f o l n m t, v = (f, o, l, n, m, t) /\ since l true a x f o n m.
Proof.
  intros LG R V. destruct (sruns_app true a (Next :: b) sinit outs s R) as (o1 & o2 & s1 & -> & L & R1 & R2).
  destruct (legal_app true a (Next :: b) sinit o1 s1 LG R1) as [LG1 _].
  destruct (C20_latest a o1 s1 LG1 R1) as [_ SI].
  rewrite nth_error_app2 in V by lia. rewrite L, Nat.sub_diag in V. apply sruns_inv in R2. destruct R2 as (o0 & outs' & s2 & -> & ST & RR). cbn in V. injection V as ->.
  inversion ST as [| | | | |e RK IE DE FA| |e l0 RK| | |]; subst; try discriminate. exists (eid e), (efile e), (eoff e), (elen e), (enum e), (emark e), (etrim e). split; [reflexivity|].
  specialize (SI e IE). rewrite DE in SI. exact SI.
Qed.
Print Assumptions C20_verify_latest.

(** No write is forgotten: after it is logged it stays recorded until it fails, a later write touches it, or the verifier gets it. *)
Lemma kept_ok risk : forall evs s outs s' e, legal risk s evs -> sruns risk s evs outs s' -> In e (recs s) -> NoDup (ids (recs s)) ->
  (forall f, In f (recs s) -> 0 < elen f) ->
  (exists e', In e' (recs s') /\ eid e' = eid e /\ efile e' = efile e /\ eoff e' = eoff e /\ enum e' = enum e /\ emark e' = emark e /\ elen e' <= elen e) \/
  In (Fail (eid e)) evs \/
  (exists y f o l n m t, In (Log y f o l n m t) evs /\ touch (mkE y f o l n m false false) e) \/
  (exists l t, In (Next, Some (efile e, eoff e, l, enum e, emark e, t)) (combine evs outs)).
Proof.
  induction evs as [|ev evs IH]; intros s outs s' e LG R IE ND EL.
  - apply sruns_nil in R. destruct R as [-> ->]. left. exists e. repeat split; auto. lia.
  - apply sruns_inv in R. destruct R as (o & outs0 & s1 & -> & ST & RR). destruct LG as [P LG]. specialize (LG _ _ ST).
    assert (UP : forall x g, recs s1 = upd_ent x g (recs s) -> (forall f, eid (g f) = eid f /\ efile (g f) = efile f /\ eoff (g f) = eoff f /\ enum (g f) = enum f /\ emark (g f) = emark f) ->
      (forall f, In f (recs s) -> eid f = x -> 0 < elen (g f) <= elen f) ->
      (exists e', In e' (recs s') /\ eid e' = eid e /\ efile e' = efile e /\ eoff e' = eoff e /\ enum e' = enum e /\ emark e' = emark e /\ elen e' <= elen e) \/
      In (Fail (eid e)) (ev :: evs) \/ (exists y f o l n m t, In (Log y f o l n m t) (ev :: evs) /\ touch (mkE y f o l n m false false) e) \/
      (exists l t, In (Next, Some (efile e, eoff e, l, enum e, emark e, t)) (combine (ev :: evs) (o :: outs0)))).
    { intros x g E1 G1 G2. set (e1 := if eid e =? x then g e else e).
      assert (Q : eid e1 = eid e /\ efile e1 = efile e /\ eoff e1 = eoff e /\ enum e1 = enum e /\ emark e1 = emark e /\ elen e1 <= elen e).
      { unfold e1. destruct (Z.eqb_spec (eid e) x); [|repeat split; lia]. destruct (G1 e) as (? & ? & ? & ? & ?). specialize (G2 e IE e0). repeat split; auto. lia. }
      destruct Q as (Q1 & Q2 & Q3 & Q4 & Q5 & Q6).
      destruct (IH s1 outs0 s' e1 LG RR) as [(e' & A1 & A2 & A3 & A4 & A5 & A6 & A7)|[A|[(y & f & o' & l & n & m & t & A & B)|(l & t & A)]]].
      - rewrite E1. apply in_upd. exists e. auto.
      - rewrite E1, ids_upd by (intros; apply G1). auto.
      - rewrite E1. intros f IF. apply in_upd in IF. destruct IF as (f0 & IF & ->). destruct (Z.eqb_spec (eid f0) x); auto. apply G2; auto.
      - left. exists e'. repeat split; try congruence. lia.
      - right. left. right. congruence.
      - right. right. left. exists y, f, o', l, n, m, t. split; [right; auto|]. destruct B as [B1 (k & K1 & K2)]. split; [cbn in *; congruence|]. exists k. cbn in *. lia.
      - right. right. right. exists l, t. right. rewrite Q2, Q3, Q4, Q5 in A. auto. }
    assert (KP : In e (recs s1) -> incl (recs s1) (recs s) -> NoDup (ids (recs s1)) ->
      (exists e', In e' (recs s') /\ eid e' = eid e /\ efile e' = efile e /\ eoff e' = eoff e /\ enum e' = enum e /\ emark e' = emark e /\ elen e' <= elen e) \/
      In (Fail (eid e)) (ev :: evs) \/ (exists y f o l n m t, In (Log y f o l n m t) (ev :: evs) /\ touch (mkE y f o l n m false false) e) \/
      (exists l t, In (Next, Some (efile e, eoff e, l, enum e, emark e, t)) (combine (ev :: evs) (o :: outs0)))).
    { intros I1 I2 I3. destruct (IH s1 outs0 s' e LG RR I1 I3) as [A|[A|[(y & f & o' & l & n & m & t & A & B)|(l & t & A)]]]; auto.
      - right. left. right. auto.
      - right. right. left. exists y, f, o', l, n, m, t. split; [right; auto|auto].
      - right. right. right. exists l, t. right. auto. }
    assert (LGC : forall x f o' l n m t, ev = Log x f o' l n m t -> In e (recs s1) -> NoDup (ids (recs s1)) -> (forall g, In g (recs s1) -> 0 < elen g) ->
      (exists e', In e' (recs s') /\ eid e' = eid e /\ efile e' = efile e /\ eoff e' = eoff e /\ enum e' = enum e /\ emark e' = emark e /\ elen e' <= elen e) \/
      In (Fail (eid e)) (ev :: evs) \/ (exists y f o l n m t, In (Log y f o l n m t) (ev :: evs) /\ touch (mkE y f o l n m false false) e) \/
      (exists l t, In (Next, Some (efile e, eoff e, l, enum e, emark e, t)) (combine (ev :: evs) (o :: outs0)))).
    { intros x0 f0 o0 l0 n0 m0 t0 -> I1 I2 I3. destruct (IH s1 outs0 s' e LG RR I1 I2 I3) as [A|[A|[(y & f & o' & l & n & m & t & A & B)|(l & t & A)]]]; auto.
      - right. left. right. auto.
      - right. right. left. exists y, f, o', l, n, m, t. split; [right; auto|auto].
      - right. right. right. exists l, t. right. auto. }
    clear IH. inversion ST; subst; clear ST; cbn [recs] in *.
    + destruct P as (X0 & XR & XF & O0 & L0 & OL). repeat match goal with v := _ |- _ => subst v end. destruct (touchb (new_ent x file off len num mark) e) eqn:T.
      * right. right. left. exists x, file, off, len, num, mark, trim. split; [left; auto|]. apply C20_touch in T; auto.
      * eapply LGC; eauto.
        -- right. apply filter_In. rewrite T. auto.
        -- cbn [ids map]. constructor; [|apply nd_filter; auto]. intros A; apply in_ids in A; destruct A as (f & IF & EF); apply filter_In in IF; apply XR, in_ids; exists f; tauto.
        -- intros g [<-|IG]; [cbn; lia|]. apply filter_In in IG. apply EL. tauto.
    + destruct P as (X0 & XR & XF & O0 & L0 & OL). eapply LGC; eauto.
      * apply in_or_app. auto.
      * unfold ids. rewrite map_app. apply nd_app; auto; [constructor; [intros []|constructor]|]. intros y Hy [<-|[]]. auto.
      * intros g IG. apply in_app_or in IG. destruct IG as [IG|[<-|[]]]; [apply EL; auto|cbn; lia].
    + eapply UP; eauto; intros; cbn; repeat split; try lia; apply EL; auto.
    + destruct (Z.eq_dec (eid e) x) as [EX|NX]; [right; left; left; congruence|]. apply KP.
      * apply in_drop. auto.
      * intros f IF. apply in_drop in IF. tauto.
      * apply nd_filter. auto.
    + destruct P as (P1 & P2 & P3). eapply UP; eauto; intros; cbn; repeat split; try lia; specialize (P3 f H H0); lia.
    + destruct (Z.eq_dec (eid e) (eid e0)) as [EX|NX].
      * assert (e = e0) by (apply (uniq_id (recs s)); auto). subst e0. right. right. right. exists (elen e), (etrim e). left. reflexivity.
      * apply KP.
        -- apply in_drop. auto.
        -- intros f IF. apply in_drop in IF. tauto.
        -- apply nd_filter. auto.
    + apply KP; auto. apply incl_refl.
    + match goal with E : recs _ = _ :: _ |- _ => rename E into H0 end. rewrite H0 in IE. destruct IE as [<-|IE].
      * right. right. right. exists (elen e0), (etrim e0). left. reflexivity.
      * apply KP; auto; [intros f IF; rewrite H0; right; auto|]. rewrite H0 in ND. cbn in ND. inversion ND; auto.
    + apply KP; auto. apply incl_refl.
    + eapply UP; eauto; intros; cbn; repeat split; try lia; apply EL; auto.
    + apply KP; auto. apply incl_refl.
Qed.

Lemma base_inv risk : forall evs s outs s', NoDup (ids (recs s)) -> (forall f, In f (recs s) -> 0 < elen f) -> legal risk s evs -> sruns risk s evs outs s' ->
  NoDup (ids (recs s')) /\ (forall f, In f (recs s') -> 0 < elen f).
Proof.
  induction evs as [|ev evs IH]; intros s outs s' ND EL LG R; [apply sruns_nil in R; destruct R as [-> ->]; auto|].
  apply sruns_inv in R. destruct R as (o & outs0 & s'0 & -> & ST & RR). destruct LG as [P LG]. specialize (LG _ _ ST).
  assert (G : NoDup (ids (recs s'0)) /\ (forall f, In f (recs s'0) -> 0 < elen f)); [|destruct G; eapply IH; eauto].
  clear IH LG RR. inversion ST; subst; cbn [recs] in *; auto.
  - destruct P as (X0 & XR & XF & O0 & L0 & OL). split.
    + cbn [ids map]. constructor; [|apply nd_filter; auto]. intros A; apply in_ids in A; destruct A as (f & IF & EF); apply filter_In in IF; apply XR, in_ids; exists f; tauto.
    + intros g [<-|IG]; [cbn; lia|]. apply filter_In in IG. apply EL. tauto.
  - destruct P as (X0 & XR & XF & O0 & L0 & OL). split.
    + unfold ids. rewrite map_app. apply nd_app; auto; [constructor; [intros []|constructor]|]. intros y Hy [<-|[]]. auto.
    + intros g IG. apply in_app_or in IG. destruct IG as [IG|[<-|[]]]; [apply EL; auto|cbn; lia].
  - split; [cbn [recs]; rewrite ids_upd by reflexivity; auto|]. intros f IF. apply in_upd in IF. destruct IF as (f0 & IF & ->). destruct (eid f0 =? x); cbn; auto.
  - split; [apply nd_filter; auto|]. intros f IF. apply in_drop in IF. apply EL. tauto.
  - destruct P as (P1 & P2 & P3). split; [cbn [recs]; rewrite ids_upd by reflexivity; auto|]. intros f IF. apply in_upd in IF. destruct IF as (f0 & IF & ->). destruct (eid f0 =? x); cbn; auto.
  - split; [apply nd_filter; auto|]. intros f IF. apply in_drop in IF. apply EL. tauto.
  - match goal with E : recs _ = _ :: _ |- _ => rename E into H0 end. rewrite H0 in ND, EL. inversion ND; subst. split; auto. intros; apply EL; right; auto.
  - split; [cbn [recs]; rewrite ids_upd by reflexivity; auto|]. intros f IF. apply in_upd in IF. destruct IF as (f0 & IF & ->). destruct (eid f0 =? eid e); cbn; auto.
Qed.

Lemma combine_app {A B} (a b : list A) (c d : list B) : length a = length c -> combine (a ++ b) (c ++ d) = combine a c ++ combine b d.
Proof. revert c. induction a as [|x a IH]; intros [|y c] H; try discriminate; auto. cbn. f_equal. apply IH. cbn in H. lia. Qed.

Theorem C20_nothing_lost risk a x f o l n m t b outs s : legal risk sinit (a ++ Log x f o l n m t :: b) -> sruns risk sinit (a ++ Log x f o l n m t :: b) outs s ->
  (exists e, In e (recs s) /\ eid e = x /\ efile e = f /\ eoff e = o /\ enum e = n /\ emark e = m /\ elen e <= l) \/
  In (Fail x) b \/
  (exists y f' o' l' n' m' t', In (Log y f' o' l' n' m' t') b /\ touch (mkE y f' o' l' n' m' false false) (mkE x f o l n m false false)) \/
  (exists l' t', In (Next, Some (f, o, l', n, m, t')) (combine (a ++ Log x f o l n m t :: b) outs)).
Proof.
  intros LG R. destruct (sruns_app risk a (Log x f o l n m t :: b) sinit outs s R) as (o1 & o2 & s1 & -> & L & R1 & R2).
  destruct (legal_app risk a _ sinit o1 s1 LG R1) as [LG1 LG2].
  destruct (base_inv risk a sinit o1 s1 ltac:(constructor) ltac:(intros ? []) LG1 R1) as [ND EL].
  apply sruns_inv in R2. destruct R2 as (o0 & outs0 & s' & -> & ST & RR). destruct LG2 as [P LG2]. specialize (LG2 _ _ ST). destruct P as (X0 & XR & XF & O0 & L0 & OL).
  assert (G : In (new_ent x f o l n m) (recs s') /\ NoDup (ids (recs s')) /\ (forall g, In g (recs s') -> 0 < elen g)).
  { destruct (base_inv risk [Log x f o l n m t] s1 [o0] s' ND EL) as [A B]; [split; [repeat split; auto|intros; exact I]|econstructor; [eauto|constructor]|].
    split; [|auto]. inversion ST; subst; cbn [recs]; [left; reflexivity|apply in_or_app; right; left; auto]. }
  destruct G as (G1 & G2 & G3).
  destruct (kept_ok risk b s' outs0 s _ LG2 RR G1 G2 G3) as [A|[A|[A|(l' & t' & A)]]]; auto.
  right. right. right. exists l', t'. rewrite (combine_app a _ o1 _ (eq_sym L)). apply in_or_app. right. right. exact A.
Qed.
Print Assumptions C20_nothing_lost.

(** When nothing is in flight, dropping the history frees every piece. *)
Theorem C20_prune fuel risk evs h : fresh h -> legal risk sinit evs -> (length evs < fuel)%nat -> Z.of_nat fuel < 2 ^ 64 ->
  exists h' outs s, hrun fuel risk evs h = Some (outs, h') /\ sruns risk sinit evs outs s /\ (fly s = [] ->
    exists h'', prune fuel h' = Some h'' /\ (forall x, live h'' x = false) /\ top (htree h'') = 0 /\ hlist h'' = [] /\ trimq h'' = [] /\ hlen h'' = u64 (- lost s)).
Proof.
  intros (A & B & C & D & E0 & F) LG FU FB. destruct (hrun_ok fuel risk evs sinit h) as (h1 & outs & s & E1 & E2 & S); auto; [apply sim_init; auto|cbn; lia|].
  exists h1, outs, s. split; [exact E1|]. split; [exact E2|]. intros FL. apply (prune_ok fuel risk); auto.
  assert (G : forall evs s0 outs s1, sruns risk s0 evs outs s1 -> (length (recs s1) <= length (recs s0) + length evs)%nat).
  { clear. induction evs as [|e evs IH]; intros s0 outs s1 R; [apply sruns_nil in R; destruct R as [-> ->]; cbn; lia|]. apply sruns_inv in R. destruct R as (o & outs0 & s' & -> & ST & RR). specialize (IH _ _ _ RR). cbn [length].
    enough (length (recs s') <= S (length (recs s0)))%nat by lia. clear -ST.
    inversion ST; subst; repeat match goal with v := _ |- _ => subst v end; cbn [recs length]; unfold upd_ent, drop; rewrite ?map_length, ?app_length; cbn [length]; try lia.
    - match goal with |- context [filter ?f ?l] => pose proof (flen f l) end. lia.
    - match goal with |- context [filter ?f ?l] => pose proof (flen f l) end. lia.
    - match goal with |- context [filter ?f ?l] => pose proof (flen f l) end. lia.
    - match goal with E : recs _ = _ :: _ |- _ => rewrite E end. cbn. lia. }
  specialize (G _ _ _ _ E2). cbn in G. lia.
Qed.
Print Assumptions C20_prune.

(** ** Where the code does not do what one expects *)

Definition h00 : hist := mkH (mkS (fun _ => mkN 0 false 0 0) 0) [] 0 [] 0 (fun _ => mkP 0 0 0 0 0 false false false false) (fun _ => false).
Ltac step_legal := repeat match goal with
  | |- legal _ _ (_ :: _) => split; [cbn; repeat split; try lia; try congruence; try solve [intuition (try congruence; try lia)]|
       let o := fresh in let s := fresh in let ST := fresh in intros o s ST; inversion ST; subst; clear ST;
       repeat match goal with v := _ |- _ => subst v end; cbn -[legal] in *; try discriminate]
  | |- legal _ _ [] => exact I
  end.

(** The counter of recorded writes: when a write fails after a later write had replaced it, it is counted twice as removed. Here one write
    is recorded and the counter says none (td->io_hist_len; get_next_verify and the workload switch of verify_backlog rely on it). *)
Theorem C20_len_refuted : exists evs h' outs s, fresh h00 /\ legal true sinit evs /\ hrun 10 true evs h00 = Some (outs, h') /\
  sruns true sinit evs outs s /\ zlen (recs s) = 1 /\ hlen h' = 0.
Proof.
  set (evs := [Log 1 7 0 10 0 0 false; Log 2 7 5 10 1 0 false; Fail 1]).
  assert (LG : legal true sinit evs) by (unfold evs; step_legal).
  destruct (C20_history 10 true evs h00) as (h' & outs & s & E1 & E2 & _ & HL & _); auto; [repeat split; auto|cbn; lia|cbn; lia|].
  exists evs, h', outs, s. split; [repeat split; auto|]. do 3 (split; [auto|]).
  assert (R : recs s = [new_ent 2 7 5 10 1 0] /\ lost s = 1).
  { unfold evs in E2. clear -E2. repeat match goal with H : sruns _ _ (_ :: _) _ _ |- _ => apply sruns_inv in H; destruct H as (? & ? & ? & -> & ? & ?) end.
    apply sruns_nil in H2. destruct H2 as [-> ->].
    repeat match goal with H : sstep _ _ _ _ _ |- _ => inversion H; subst; clear H; repeat match goal with v := _ |- _ => subst v end; try discriminate end.
    split; reflexivity. }
  destruct R as [R1 R2]. rewrite R1, R2 in *. split; [reflexivity|rewrite HL; reflexivity].
Qed.
Print Assumptions C20_len_refuted.

(** A write that is queued for trimming and then fails is freed but stays queued: the next trim touches freed memory. The event is
    excluded from [legal] for this reason. *)
Theorem C20_trim_failed_refuted : hrun 10 true [Log 1 7 0 10 0 0 true; Fail 1; Trim] h00 = None /\
  exists r, hrun 10 true [Log 1 7 0 10 0 0 true; Fail 1] h00 = Some r /\ In 1 (trimq (snd r)) /\ live (snd r) 1 = false.
Proof. split; [vm_compute; reflexivity|]. eexists. split; [vm_compute; reflexivity|]. vm_compute. auto. Qed.
Print Assumptions C20_trim_failed_refuted.

(** With trim_verify_zero=0 the trimmer frees a piece whose write is still in flight: its completion then touches freed memory. *)
Theorem C20_trim_inflight_refuted : exists h1 r, log_piece 10 true 1 7 0 10 0 0 true h00 = Some h1 /\ next_trim 10 false h1 = Some r /\
  completed 1 (snd r) = None.
Proof. eexists. eexists. split; [vm_compute; reflexivity|]. split; [vm_compute; reflexivity|]. vm_compute. reflexivity. Qed.
Print Assumptions C20_trim_inflight_refuted.

(** In list mode one unfinished write hides all later ones from the verifier, although they completed. *)
Theorem C20_list_blocked : exists r, hrun 10 false [Log 1 7 0 10 0 0 false; Log 2 7 10 10 1 0 false; Done 2; Next; Next] h00 = Some r /\
  fst r = [None; None; None; None; None] /\ hlist (snd r) = [1; 2] /\ flying (pc (snd r) 2) = false.
Proof. eexists. split; [vm_compute; reflexivity|]. vm_compute. auto. Qed.
Print Assumptions C20_list_blocked.

(** ** The hypotheses are met: overlapping writes, a short write, a failure, verification in order. *)
Example C20_ex_evs := [Log 1 7 0 10 0 0 false; Log 2 7 20 10 1 0 true; Log 3 7 5 10 2 0 false; Done 1; Done 3; Short 2 4; Done 2; Trim; Next; Next; Next].
Example C20_ex_legal : legal true sinit C20_ex_evs.
Proof. unfold C20_ex_evs. step_legal; cbn in *; intuition (subst; cbn in *; try lia; try congruence). Qed.
Example C20_ex_run : option_map fst (hrun 11 true C20_ex_evs h00) =
  Some [None; None; None; None; None; None; None; Some (7, 20, 4, 1, 0, false); Some (7, 5, 10, 2, 0, false); Some (7, 20, 4, 1, 0, true); None].
Proof. vm_compute. reflexivity. Qed.
