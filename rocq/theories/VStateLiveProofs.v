(** Invariants of the in-flight tracking, and what a state saved while the job runs says about its writes. *)
From Coq Require Import ZArith List Bool Lia Sorted Permutation.
From Verif Require Import CBase Mem VStateModel VStateSpec VStateLive VStateProofs.
Import ListNotations.
Open Scope Z_scope.

Definition pending (s : live) : list (Z * Z) := match l_pc s with Issuing n idx => [(n, idx)] | _ => [] end.
Definition all_units (s : live) : list (Z * Z) := pending s ++ l_units s.
Record inv (s : live) : Prop := mkInv {
  i_len : 1 <= zlen (l_slots s);
  i_next : 0 <= l_next s < zlen (l_slots s);
  i_issued : 0 <= l_issued s;
  i_nodup : NoDup (map snd (all_units s));
  i_slot : forall n i, In (n, i) (all_units s) -> 0 <= i < zlen (l_slots s) /\ nth (Z.to_nat i) (l_slots s) 0 = n /\ 0 <= n <= l_issued s;
  i_unit : forall n i, In (n, i) (l_units s) -> n < l_issued s;
  i_pend : forall n i, In (n, i) (pending s) -> n = l_issued s;
  i_full : forall i, 0 <= i < zlen (l_slots s) -> nth (Z.to_nat i) (l_slots s) 0 = INVALID_NUMBERIO \/ In i (map snd (all_units s));
  i_hist : forall n, 0 <= n < l_issued s -> In (HIssue n) (l_hist s);
  i_flush : forall k t, In (k, t) (l_flush s) -> 0 <= t <= l_issued s /\ In (HFsub k) (l_hist s) /\ forall n, 0 <= n < t -> before (l_hist s) (HIssue n) (HFsub k);
  i_safe : 0 <= l_safe s <= l_issued s + 1 /\ (0 < l_safe s -> exists k, before (l_hist s) (HFsub k) (HFdone k) /\ forall n, 0 <= n < l_safe s - 1 -> before (l_hist s) (HIssue n) (HFsub k))
}.

Lemma find_slot_ok l : 1 <= zlen l -> forall fuel idx, 0 <= idx < zlen l ->
  (exists k, 0 <= k < Z.of_nat fuel /\ nth (Z.to_nat ((idx + k) mod zlen l)) l 0 = INVALID_NUMBERIO) ->
  exists r, find_slot fuel l idx = Some r /\ 0 <= r < zlen l /\ nth (Z.to_nat r) l 0 = INVALID_NUMBERIO.
Proof.
  intros HL. induction fuel as [|f IH]; intros idx HI (k & Hk & E); [lia|]. cbn [find_slot]. rewrite (znth_nth l idx 0) by auto.
  destruct (Z.eqb_spec (nth (Z.to_nat idx) l 0) INVALID_NUMBERIO) as [X|X].
  - exists idx. auto.
  - apply IH; [apply Z.mod_pos_bound; lia|]. exists (k - 1). destruct (Z.eq_dec k 0) as [->|].
    + exfalso. apply X. rewrite Z.add_0_r, Z.mod_small in E by auto. auto.
    + split; [lia|]. rewrite Zplus_mod_idemp_l. replace (idx + 1 + (k - 1)) with (idx + k) by lia. auto.
Qed.

Lemma free_slot s : inv s -> l_pc s = Idle -> zlen (l_units s) < zlen (l_slots s) -> exists i, 0 <= i < zlen (l_slots s) /\ nth (Z.to_nat i) (l_slots s) 0 = INVALID_NUMBERIO.
Proof.
  intros I P L. destruct (existsb (fun x => x =? INVALID_NUMBERIO) (l_slots s)) eqn:E.
  - apply existsb_exists in E. destruct E as (x & K & E). apply Z.eqb_eq in E. subst x. apply (In_nth _ _ 0) in K. destruct K as (i & Hi & K). exists (Z.of_nat i). rewrite Nat2Z.id. unfold zlen. split; [lia|auto].
  - exfalso. assert (NoDup (map Z.of_nat (seq 0 (length (l_slots s))))).
    { apply FinFun.Injective_map_NoDup; [intros a b; lia|apply seq_NoDup]. }
    assert (C : incl (map Z.of_nat (seq 0 (length (l_slots s)))) (map snd (l_units s))).
    { intros i Hi. apply in_map_iff in Hi. destruct Hi as (m & <- & Hm). apply in_seq in Hm. destruct (i_full s I (Z.of_nat m)) as [F|F].
      - unfold zlen. lia.
      - exfalso. rewrite Nat2Z.id in F. assert (existsb (fun x => x =? INVALID_NUMBERIO) (l_slots s) = true); [|congruence].
        apply existsb_exists. exists (nth m (l_slots s) 0). split; [apply nth_In; lia|apply Z.eqb_eq; auto].
      - unfold all_units, pending in F. rewrite P in F. auto. }
    pose proof (NoDup_incl_length H C) as N. rewrite !map_length, seq_length in N. unfold zlen in L. lia.
Qed.

Lemma before_cons h a b e : before h a b -> before (e :: h) a b.
Proof. intros (x & y & z & ->). exists (e :: x), y, z. reflexivity. Qed.
Lemma before_new h a e : In a h -> before (e :: h) a e.
Proof. intros K. apply in_split in K. destruct K as (y & z & ->). exists [], y, z. reflexivity. Qed.

Lemma remove_nth_in {A} (l : list A) : forall k x, In x (remove_nth k l) -> In x l.
Proof. induction l as [|y l IH]; intros [|k] x; cbn; auto. intros [->|K]; eauto. Qed.
Lemma remove_nth_map {A B} (f : A -> B) (l : list A) : forall k, map f (remove_nth k l) = remove_nth k (map f l).
Proof. induction l as [|y l IH]; intros [|k]; cbn; auto. rewrite IH. auto. Qed.
Lemma remove_nth_nodup {A} (l : list A) : forall k, NoDup l -> NoDup (remove_nth k l).
Proof. induction l as [|y l IH]; intros [|k] H; cbn; auto; inversion H; subst; auto. constructor; auto. intros K. apply remove_nth_in in K. auto. Qed.
Lemma remove_nth_gone {A} (l : list A) : forall k x, NoDup l -> nth_error l k = Some x -> ~ In x (remove_nth k l).
Proof.
  induction l as [|y l IH]; intros [|k] x H E; cbn in *; try discriminate; inversion H; subst.
  - inversion E; subst. auto.
  - intros [->|K]; [apply nth_error_In in E; auto|]. eapply IH; eauto.
Qed.
Lemma remove_nth_keep {A} (l : list A) : forall k x y, nth_error l k = Some x -> In y l -> y = x \/ In y (remove_nth k l).
Proof.
  induction l as [|z l IH]; intros [|k] x y E K; cbn in *; try discriminate.
  - inversion E; subst. destruct K as [->|K]; auto.
  - destruct K as [->|K]; auto. destruct (IH k x y E K); auto.
Qed.

Lemma invalidate_ok slots n idx : 0 <= idx < zlen slots -> nth (Z.to_nat idx) slots 0 = n -> n < INVALID_NUMBERIO ->
  invalidate slots n idx = Some (upd slots (Z.to_nat idx) INVALID_NUMBERIO).
Proof.
  intros H E L. unfold invalidate. rewrite (znth_nth slots idx 0), E by auto. destruct (Z.eqb_spec n INVALID_NUMBERIO); [lia|]. rewrite Z.eqb_refl. cbn [negb]. apply zupd_some. auto.
Qed.

Lemma upd_same_nat (l : list Z) (i : Z) v : 0 <= i < zlen l -> nth (Z.to_nat i) (upd l (Z.to_nat i) v) 0 = v.
Proof. intros H. apply upd_nth_same. unfold zlen in H. lia. Qed.
Lemma upd_other_nat (l : list Z) (i j : Z) v : 0 <= i -> 0 <= j -> i <> j -> nth (Z.to_nat j) (upd l (Z.to_nat i) v) 0 = nth (Z.to_nat j) l 0.
Proof. intros A B C. apply upd_nth_other. lia. Qed.
Lemma upd_zlen (l : list Z) i v : zlen (upd l i v) = zlen l.
Proof. unfold zlen. rewrite upd_length. auto. Qed.

(** Taking a write out of flight keeps the invariant, whatever is added to the history and the failed list. *)
Lemma retire s k n idx h fl pc' : inv s -> l_pc s = Idle -> nth_error (l_units s) k = Some (n, idx) -> (forall m i, pc' <> Issuing m i) ->
  inv (mkLive (upd (l_slots s) (Z.to_nat idx) INVALID_NUMBERIO) (l_next s) (l_issued s) (l_safe s) fl pc' (remove_nth k (l_units s)) (l_flush s) (l_nflush s) (h :: l_hist s)).
Proof.
  intros I P E NP. assert (PE : match pc' with Issuing n idx => [(n, idx)] | _ => [] end = []) by (destruct pc'; auto; exfalso; eapply NP; reflexivity).
  destruct I as [L NX IS ND SL UN PD FU HI FL SA]. unfold all_units, pending in *. rewrite P in *. cbn [app] in *.
  pose proof (SL n idx (nth_error_In _ _ E)) as (RI & _ & _).
  assert (ES : nth_error (map snd (l_units s)) k = Some idx) by (rewrite nth_error_map, E; reflexivity).
  constructor; unfold all_units, pending; cbn [l_slots l_next l_issued l_safe l_failed l_pc l_units l_flush l_hist]; rewrite ?PE, ?upd_zlen; cbn [app]; auto.
  - rewrite remove_nth_map. apply remove_nth_nodup. auto.
  - intros m i K. destruct (SL m i (remove_nth_in _ _ _ K)) as (A & B & C). split; auto. split; auto. rewrite upd_other_nat; auto; try lia.
    intros <-. apply (remove_nth_gone _ _ _ ND ES). rewrite <- remove_nth_map. apply (in_map snd) in K. auto.
  - intros m i K. apply (UN m i). eapply remove_nth_in; eauto.
  - intros i Hi. destruct (Z.eq_dec i idx) as [->|NE]; [left; apply upd_same_nat; auto|]. rewrite upd_other_nat by (auto; lia). destruct (FU i Hi) as [F|F]; auto. right.
    rewrite remove_nth_map. destruct (remove_nth_keep _ _ _ _ ES F); auto. contradiction.
  - intros m Hm. right. auto.
  - intros j t K. destruct (FL j t K) as (A & B & C). split; [auto|]. split; [right; auto|]. intros m Hm. apply before_cons; auto.
  - destruct SA as (A & B). split; auto. intros Z0. destruct (B Z0) as (j & B1 & B2). exists j. split; [apply before_cons; auto|]. intros m Hm. apply before_cons; auto.
Qed.

Lemma jrun_ok s e : inv s -> l_issued s + 1 < INVALID_NUMBERIO ->
  exists s', jrun s e = Some s' /\ inv s' /\ l_issued s <= l_issued s' <= l_issued s + 1 /\ zlen (l_slots s') = zlen (l_slots s).
Proof.
  intros I B. assert (STAY : exists s', Some s = Some s' /\ inv s' /\ l_issued s <= l_issued s' <= l_issued s + 1 /\ zlen (l_slots s') = zlen (l_slots s)) by (exists s; split; [auto|]; split; [auto|]; lia).
  assert (RET : forall k n idx h fl pc', l_pc s = Idle -> nth_error (l_units s) k = Some (n, idx) -> (forall m i, pc' <> Issuing m i) ->
    exists s', (do sl <- invalidate (l_slots s) n idx; Some (mkLive sl (l_next s) (l_issued s) (l_safe s) fl pc' (remove_nth k (l_units s)) (l_flush s) (l_nflush s) (h :: l_hist s))) = Some s' /\
      inv s' /\ l_issued s <= l_issued s' <= l_issued s + 1 /\ zlen (l_slots s') = zlen (l_slots s)).
  { intros k n idx h fl pc' P E NP. destruct (i_slot s I n idx) as (A1 & A2 & A3); [unfold all_units; apply in_or_app; right; eapply nth_error_In; eauto|].
    rewrite invalidate_ok by (auto; lia). eexists. split; [reflexivity|]. split; [apply retire with n; auto|]. cbn [l_issued l_slots]. rewrite upd_zlen. lia. }
  unfold jrun. destruct e, (l_pc s) as [|n0 idx0|n0] eqn:P; try exact STAY.
  - (* Issue1 *)
    destruct (Z.ltb_spec (zlen (l_units s)) (zlen (l_slots s))) as [L|L]; [|exact STAY].
    destruct (free_slot s I P L) as (i & Hi & Ei). pose proof (i_len s I) as LL. pose proof (i_next s I) as NX.
    destruct (find_slot_ok (l_slots s) LL (length (l_slots s)) (l_next s) NX) as (r & -> & Hr & Er).
    { exists ((i - l_next s) mod zlen (l_slots s)). pose proof (Z.mod_pos_bound (i - l_next s) (zlen (l_slots s)) ltac:(lia)). split; [unfold zlen in *; lia|].
      rewrite Zplus_mod_idemp_r. replace (l_next s + (i - l_next s)) with i by lia. rewrite Z.mod_small by auto. auto. }
    rewrite zupd_some by auto. eexists. split; [reflexivity|]. cbn [l_issued l_slots]. rewrite upd_zlen. split; [|lia].
    destruct I as [_ _ IS ND SL UN PD FU HI FL SA]. unfold all_units, pending in *. rewrite P in *. cbn [app] in *.
    constructor; unfold all_units, pending; cbn [l_slots l_next l_issued l_safe l_failed l_pc l_units l_flush l_hist app map snd]; rewrite ?upd_zlen; auto.
    + apply Z.mod_pos_bound. lia.
    + constructor; auto. intros K. apply in_map_iff in K. destruct K as ([m j] & E & K). cbn in E. subst j. destruct (SL m r K) as (_ & A & C). lia.
    + intros m j [K|K].
      * inversion K; subst. split; auto. split; [apply upd_same_nat; auto|lia].
      * destruct (SL m j K) as (A & C & D). split; auto. split; [|lia]. rewrite upd_other_nat; auto; try lia. intros <-. lia.
    + intros m j [K|[]]. inversion K; auto.
    + intros j Hj. destruct (Z.eq_dec j r) as [->|NE]; [right; left; auto|]. rewrite upd_other_nat by (auto; lia). destruct (FU j Hj); auto. right. right. auto.
  - (* Issue2 *)
    assert (EN : n0 = l_issued s) by (apply (i_pend s I n0 idx0); unfold pending; rewrite P; left; auto). subst n0.
    eexists. split; [reflexivity|]. cbn [l_issued l_slots]. split; [|lia].
    destruct I as [L NX IS ND SL UN PD FU HI FL SA]. unfold all_units, pending in *. rewrite P in *. cbn [app] in *.
    constructor; unfold all_units, pending; cbn [l_slots l_next l_issued l_safe l_failed l_pc l_units l_flush l_hist app map snd]; auto; try lia.
    + intros m j K. destruct (SL m j K) as (A & C & D). split; auto. split; auto. lia.
    + intros m j [K|K]; [inversion K; lia|]. specialize (UN m j K). lia.
    + intros m j [].
    + intros m Hm. destruct (Z.eq_dec m (l_issued s)) as [->|]; [left; auto|]. right. apply HI. lia.
    + intros j t K. destruct (FL j t K) as (A & C & D). split; [lia|]. split; [right; auto|]. intros m Hm. apply before_cons; auto.
    + destruct SA as (A & C). split; [lia|]. intros Z0. destruct (C Z0) as (j & B1 & B2). exists j. split; [apply before_cons; auto|]. intros m Hm. apply before_cons; auto.
  - (* Complete *)
    destruct (nth_error (l_units s) k) as [[n idx]|] eqn:E; [|exact STAY]. apply RET; auto. discriminate.
  - (* Fail1 *)
    destruct (nth_error (l_units s) k) as [[n idx]|] eqn:E; [|exact STAY]. apply RET; auto. discriminate.
  - (* Fail2 *)
    eexists. split; [reflexivity|]. cbn [l_issued l_slots]. split; [|lia].
    destruct I as [L NX IS ND SL UN PD FU HI FL SA]. unfold all_units, pending in *. rewrite P in *. cbn [app] in *.
    constructor; unfold all_units, pending; cbn [l_slots l_next l_issued l_safe l_failed l_pc l_units l_flush l_hist app]; auto.
  - (* FailSync *)
    destruct (nth_error (l_units s) k) as [[n idx]|] eqn:E; [|exact STAY]. apply RET; auto. discriminate.
  - (* Fsubmit *)
    eexists. split; [reflexivity|]. cbn [l_issued l_slots]. split; [|lia].
    destruct I as [L NX IS ND SL UN PD FU HI FL SA]. unfold all_units, pending in *. rewrite P in *. cbn [app] in *.
    constructor; unfold all_units, pending; cbn [l_slots l_next l_issued l_safe l_failed l_pc l_units l_flush l_hist app]; auto.
    + intros m Hm. right. auto.
    + intros j t [K|K].
      * inversion K; subst. split; [lia|]. split; [left; auto|]. intros m Hm. apply before_new. auto.
      * destruct (FL j t K) as (A & C & D). split; [auto|]. split; [right; auto|]. intros m Hm. apply before_cons; auto.
    + destruct SA as (A & C). split; [lia|]. intros Z0. destruct (C Z0) as (j & B1 & B2). exists j. split; [apply before_cons; auto|]. intros m Hm. apply before_cons; auto.
  - (* Fdone *)
    destruct (nth_error (l_flush s) k) as [[j t]|] eqn:E; [|exact STAY]. eexists. split; [reflexivity|]. cbn [l_issued l_slots]. split; [|lia].
    destruct I as [L NX IS ND SL UN PD FU HI FL SA]. unfold all_units, pending in *. rewrite P in *. cbn [app] in *.
    constructor; unfold all_units, pending; cbn [l_slots l_next l_issued l_safe l_failed l_pc l_units l_flush l_hist app]; auto.
    + intros m Hm. right. auto.
    + intros i u K. destruct (FL i u (remove_nth_in _ _ _ K)) as (A & C & D). split; [auto|]. split; [right; auto|]. intros m Hm. apply before_cons; auto.
    + destruct SA as (A & C). pose proof (FL j t (nth_error_In _ _ E)) as (F1 & F2 & F3). destruct (Z.ltb_spec (l_safe s) (t + 1)).
      * split; [lia|]. intros _. exists j. split; [apply before_new; auto|]. intros m Hm. apply before_cons. apply F3. lia.
      * split; [lia|]. intros Z0. destruct (C Z0) as (i & B1 & B2). exists i. split; [apply before_cons; auto|]. intros m Hm. apply before_cons; auto.
Qed.

Lemma inv0 d : (1 <= d)%nat -> inv (live0 d).
Proof.
  intros H. assert (L : zlen (repeat INVALID_NUMBERIO d) = Z.of_nat d) by (unfold zlen; rewrite repeat_length; auto).
  constructor; unfold live0, all_units, pending; cbn [l_slots l_next l_issued l_safe l_failed l_pc l_units l_flush l_hist app map]; rewrite ?L; try lia; try (intros ? ? []).
  - constructor.
  - intros i Hi. left. apply (repeat_spec d). apply nth_In. rewrite repeat_length. lia.
Qed.
Lemma jruns_ok : forall es s, inv s -> l_issued s + zlen es < INVALID_NUMBERIO -> exists s', jruns s es = Some s' /\ inv s' /\ l_issued s <= l_issued s' <= l_issued s + zlen es /\ zlen (l_slots s') = zlen (l_slots s).
Proof.
  induction es as [|e es IH]; intros s I B; cbn [jruns].
  - exists s. unfold zlen in *. cbn [length] in *. split; [auto|]. split; [auto|]. lia.
  - unfold zlen in B. cbn [length] in B. destruct (jrun_ok s e I) as (s1 & -> & I1 & L1 & Z1); [lia|].
    destruct (IH s1 I1) as (s2 & -> & I2 & L2 & Z2); [unfold zlen; lia|]. exists s2. unfold zlen in *. cbn [length]. split; [auto|]. split; [auto|]. lia.
Qed.

(** ** What becomes of a write *)
Definition accounted (s : live) : Prop :=
  forall n, 0 <= n < l_issued s -> (exists i, In (n, i) (l_units s)) \/ In (HOk n) (l_hist s) \/ In n (l_failed s) \/ l_pc s = Failing n.
Definition tracked (e : jstep) : Prop := match e with FailSync _ => False | _ => True end.
Lemma accounted_step s e s' : inv s -> l_issued s + 1 < INVALID_NUMBERIO -> accounted s -> tracked e -> jrun s e = Some s' -> accounted s'.
Proof.
  intros I B A T R.
  assert (RET : forall k n idx h fl pc' nx, l_pc s = Idle -> nth_error (l_units s) k = Some (n, idx) -> (h = HOk n \/ pc' = Failing n) -> (forall m, In m (l_failed s) -> In m fl) ->
    (do sl <- invalidate (l_slots s) n idx; Some (mkLive sl nx (l_issued s) (l_safe s) fl pc' (remove_nth k (l_units s)) (l_flush s) (l_nflush s) (h :: l_hist s))) = Some s' -> accounted s').
  { intros k n idx h fl pc' nx P E W F X. destruct (invalidate (l_slots s) n idx); [|discriminate]. inversion X; subst. intros m Hm. cbn [l_issued l_units l_hist l_failed l_pc] in *.
    destruct (A m Hm) as [(i & K)|[K|[K|K]]]; [|right; left; right; auto|right; right; left; auto|congruence].
    destruct (remove_nth_keep _ _ _ _ E K) as [X1|X1]; [|left; eauto]. inversion X1; subst. destruct W as [-> | ->]; [right; left; left; auto|right; right; right; auto]. }
  unfold jrun in R. destruct e; try contradiction T; destruct (l_pc s) as [|n0 idx0|n0] eqn:P; try (inversion R; subst; auto; fail).
  - destruct (zlen (l_units s) <? zlen (l_slots s)); [|inversion R; subst; auto].
    destruct (find_slot _ _ _) as [r|]; [|discriminate]. destruct (zupd _ _ _); [|discriminate]. inversion R; subst. intros m Hm. cbn [l_issued l_units l_hist l_failed l_pc] in *.
    destruct (A m Hm) as [K|[K|[K|K]]]; auto. congruence.
  - assert (EN : n0 = l_issued s) by (apply (i_pend s I n0 idx0); unfold pending; rewrite P; left; auto). subst n0.
    inversion R; subst. intros m Hm. cbn [l_issued l_units l_hist l_failed l_pc] in *. destruct (Z.eq_dec m (l_issued s)) as [->|NE].
    + left. eexists. left. reflexivity.
    + destruct (A m) as [(i & K)|[K|[K|K]]]; [lia|left; exists i; right; auto|right; left; right; auto|auto|congruence].
  - destruct (nth_error (l_units s) k) as [[n idx]|] eqn:E; [|inversion R; subst; auto]. apply (RET _ _ _ _ _ _ _ eq_refl E (or_introl eq_refl) (fun _ K => K) R).
  - destruct (nth_error (l_units s) k) as [[n idx]|] eqn:E; [|inversion R; subst; auto]. apply (RET _ _ _ _ _ _ _ eq_refl E (or_intror eq_refl) (fun _ K => K) R).
  - inversion R; subst. intros m Hm. cbn [l_issued l_units l_hist l_failed l_pc] in *. destruct (A m Hm) as [K|[K|[K|K]]]; auto.
    + right. right. left. apply in_or_app. auto.
    + rewrite P in K. inversion K; subst. right. right. left. apply in_or_app. right. left. auto.
  - inversion R; subst. intros m Hm. cbn [l_issued l_units l_hist l_failed l_pc] in *. destruct (A m Hm) as [K|[K|[K|K]]]; auto; [right; left; right; auto|congruence].
  - destruct (nth_error (l_flush s) k) as [[j t]|] eqn:E; [|inversion R; subst; auto]. inversion R; subst. intros m Hm. cbn [l_issued l_units l_hist l_failed l_pc] in *. destruct (A m Hm) as [K|[K|[K|K]]]; auto; [right; left; right; auto|congruence].
Qed.
Lemma accounted_run : forall es s s', inv s -> l_issued s + zlen es < INVALID_NUMBERIO -> accounted s -> Forall tracked es -> jruns s es = Some s' -> accounted s'.
Proof.
  induction es as [|e es IH]; intros s s' I B A T R; cbn [jruns] in R; [inversion R; subst; auto|]. inversion T; subst. unfold zlen in B. cbn [length] in B.
  destruct (jrun_ok s e I) as (s1 & E & I1 & L1 & _); [lia|]. rewrite E in R. eapply IH; [exact I1| | |auto|exact R]; [unfold zlen; lia|]. apply (accounted_step s e); auto. lia.
Qed.

(** ** The snapshot *)
(** While the state is read no write is issued, and a failure is recorded without a read in between. *)
Fixpoint calm (es : list ev) : Prop :=
  match es with
  | [] => True
  | Read :: r => calm r
  | Job (Fail1 _) :: r => match r with Job Fail2 :: r' => calm r' | _ => False end
  | Job (Complete _) :: r | Job Fsubmit :: r | Job (Fdone _) :: r => calm r
  | _ => False
  end.

Record seen (s : live) (p : snap) : Prop := mkSeen {
  p_slots : forall n i, In (n, i) (l_units s) -> i < zlen (s_slots p) -> In n (s_slots p);
  p_len : zlen (s_slots p) <= zlen (l_slots s);
  p_order : s_limit p <> None -> zlen (s_slots p) = zlen (l_slots s);
  p_order2 : s_failed p <> None -> s_limit p <> None;
  p_limit : forall lim, s_limit p = Some lim -> lim <= l_issued s;
  p_failed : forall fl, s_failed p = Some fl -> forall n, 0 <= n < l_issued s -> In n (s_slots p) \/ In (HOk n) (l_hist s) \/ In n fl
}.
(** The limit under the policy: every write below it was issued before a flush that completed. *)
Definition flushed (s : live) (lim : Z) : Prop :=
  forall n, 0 <= n < lim -> exists k, before (l_hist s) (HFsub k) (HFdone k) /\ before (l_hist s) (HIssue n) (HFsub k).

Lemma seen_read f s p : inv s -> accounted s -> l_pc s = Idle -> seen s p -> seen s (read1 f s p).
Proof.
  intros I A P [S1 S2 S3 S4 S5 S6]. unfold read1. destruct (Z.ltb_spec (zlen (s_slots p)) (zlen (l_slots s))) as [L|L].
  - pose proof (zlen_nonneg (s_slots p)) as NN. rewrite (znth_nth _ _ 0) by lia. set (x := nth _ _ _).
    assert (LZ : zlen (s_slots p ++ [x]) = zlen (s_slots p) + 1) by (unfold zlen; rewrite app_length; cbn; lia).
    constructor; cbn [s_slots s_limit s_failed]; rewrite ?LZ; auto; try lia.
    + intros n i K Hi. apply in_or_app. destruct (Z_lt_le_dec i (zlen (s_slots p))); [left; eauto|]. right. left. assert (i = zlen (s_slots p)) by lia. subst i.
      destruct (i_slot s I n (zlen (s_slots p))) as (_ & E & _); [unfold all_units; apply in_or_app; auto|]. auto.
    + intros H. specialize (S3 H). lia.
    + intros fl E n Hn. destruct (S6 fl E n Hn) as [K|K]; auto. left. apply in_or_app. auto.
  - destruct (s_limit p) as [lim|] eqn:EL.
    + destruct (s_failed p) as [fl|] eqn:EF; [constructor; rewrite ?EL, ?EF; auto|].
      constructor; cbn [s_slots s_limit s_failed]; auto; try lia; try discriminate; try (intros; discriminate).
      * intros fl E n Hn. inversion E; subst fl. destruct (A n Hn) as [(i & K)|[K|[K|K]]]; auto; [|congruence]. left. apply (S1 n i K).
        destruct (i_slot s I n i) as ((? & ?) & _); [unfold all_units; apply in_or_app; auto|]. lia.
    + constructor; cbn [s_slots s_limit s_failed]; auto; try lia; try discriminate.
      intros lim E. inversion E; subst lim. pose proof (i_safe s I) as (SA & _). pose proof (i_issued s I). destruct f; [|lia]. destruct (Z.eqb_spec (l_safe s) 0); cbn [negb]; lia.
Qed.

(** A step that issues nothing keeps what was seen. *)
Lemma seen_step s s' p : l_issued s' = l_issued s -> zlen (l_slots s') = zlen (l_slots s) -> (forall u, In u (l_units s') -> In u (l_units s)) -> (forall h, In h (l_hist s) -> In h (l_hist s')) -> seen s p -> seen s' p.
Proof.
  intros E1 E2 E3 E4 [S1 S2 S3 S4 S5 S6]. constructor; rewrite ?E1, ?E2; auto.
  - intros n i K. apply S1. auto.
  - intros fl E n Hn. destruct (S6 fl E n Hn) as [K|[K|K]]; auto.
Qed.
Lemma quiet_step s e s' : match e with Complete _ | Fail1 _ | Fail2 | Fsubmit | Fdone _ => True | _ => False end -> jrun s e = Some s' ->
  l_issued s' = l_issued s /\ (forall u, In u (l_units s') -> In u (l_units s)) /\ (exists x, l_hist s' = x ++ l_hist s) /\
  (match e with Fail1 _ => True | _ => l_pc s = Idle -> l_pc s' = Idle end).
Proof.
  intros T R. unfold jrun in R.
  assert (STAY : Some s = Some s' -> l_issued s' = l_issued s /\ (forall u, In u (l_units s') -> In u (l_units s)) /\ (exists x, l_hist s' = x ++ l_hist s) /\ (match e with Fail1 _ => True | _ => l_pc s = Idle -> l_pc s' = Idle end)).
  { intros X. inversion X; subst. split; auto. split; auto. split; [exists []; auto|]. destruct e; auto. }
  destruct e; try contradiction T; destruct (l_pc s) as [|n0 idx0|n0] eqn:P; auto;
    try (destruct (nth_error _ k) as [[n idx]|] eqn:E; [|auto]); try (destruct (invalidate _ _ _) as [sl|]; [|discriminate]);
    inversion R; subst; cbn [l_issued l_units l_hist l_pc]; (split; [auto|]); (split; [intros u K; auto; eapply remove_nth_in; eauto|]); (split; [first [exists []; reflexivity|eexists [_]; reflexivity]|auto]).
Qed.

Lemma before_app h a b x : before h a b -> before (x ++ h) a b.
Proof. intros (u & v & w & ->). exists (x ++ u), v, w. rewrite <- app_assoc. reflexivity. Qed.
Lemma flushed_app s s' x lim : l_hist s' = x ++ l_hist s -> flushed s lim -> flushed s' lim.
Proof. intros E F n Hn. destruct (F n Hn) as (k & A & B). exists k. rewrite E. split; apply before_app; auto. Qed.

Definition good (f : bool) (s : live) (p : snap) : Prop :=
  seen s p /\ (f = true -> forall lim, s_limit p = Some lim -> flushed s lim).
Lemma good_read f s p : inv s -> accounted s -> l_pc s = Idle -> good f s p -> good f s (read1 f s p).
Proof.
  intros I A P (S & F). split; [apply seen_read; auto|]. intros Hf lim E. unfold read1 in E. destruct (Z.ltb_spec (zlen (s_slots p)) (zlen (l_slots s))) as [L|L].
  - destruct (znth _ _); cbn in E; auto.
  - destruct (s_limit p) as [l0|] eqn:EL.
    + destruct (s_failed p); cbn in E; [rewrite EL in E|]; auto.
    + cbn in E. rewrite Hf in E. destruct (i_safe s I) as (SA & SB). inversion E; subst lim. intros n Hn. destruct (Z.eqb_spec (l_safe s) 0); cbn [negb] in Hn; [lia|].
      destruct (SB ltac:(lia)) as (k & B1 & B2). exists k. split; auto.
Qed.
Lemma good_quiet f s e s' p : inv s -> l_issued s + 1 < INVALID_NUMBERIO -> match e with Complete _ | Fail1 _ | Fail2 | Fsubmit | Fdone _ => True | _ => False end -> jrun s e = Some s' -> good f s p -> good f s' p.
Proof.
  intros I B T R (S & F). destruct (quiet_step s e s' T R) as (Q1 & Q2 & (x & Q3) & _). destruct (jrun_ok s e I B) as (s1 & E & _ & _ & Z1). rewrite R in E. inversion E; subst s1. split.
  - eapply seen_step; eauto. intros h K. rewrite Q3. apply in_or_app. auto.
  - intros Hf lim EL. eapply flushed_app; eauto.
Qed.

Lemma calm_run f : forall es s p s' p', inv s -> accounted s -> l_pc s = Idle -> l_issued s + 1 < INVALID_NUMBERIO -> good f s p -> calm es ->
  both f s p es = Some (s', p') -> inv s' /\ accounted s' /\ l_pc s' = Idle /\ good f s' p'.
Proof.
  fix IH 1. intros [|e es] s p s' p' I A P B G C R; cbn [both] in R; [inversion R; subst; auto|].
  destruct e as [e|].
  - assert (ONE : match e with Complete _ | Fsubmit | Fdone _ => True | _ => False end -> calm es -> inv s' /\ accounted s' /\ l_pc s' = Idle /\ good f s' p').
    { intros T C'. destruct (jrun_ok s e I B) as (s1 & E & I1 & L1 & _). rewrite E in R.
      assert (T2 : match e with Complete _ | Fail1 _ | Fail2 | Fsubmit | Fdone _ => True | _ => False end) by (destruct e; auto).
      destruct (quiet_step s e s1 T2 E) as (Q1 & _ & _ & Q4).
      apply (IH es s1 p s' p'); auto; [|destruct e; auto; contradiction|lia|apply (good_quiet f s e); auto]. apply (accounted_step s e); auto; destruct e; try contradiction T; exact Logic.I. }
    destruct e; try contradiction C; try (apply ONE; auto; fail).
    destruct es as [|[[]|] es]; try contradiction C. clear ONE. destruct (jrun_ok s (Fail1 k) I B) as (s1 & E1 & I1 & L1 & _). rewrite E1 in R. cbn [both] in R.
    destruct (quiet_step s (Fail1 k) s1 Logic.I E1) as (Q1 & _ & _ & _).
    assert (A1 : accounted s1) by (apply (accounted_step s (Fail1 k)); auto; exact Logic.I). assert (G1 : good f s1 p) by (apply (good_quiet f s (Fail1 k)); auto; exact Logic.I).
    destruct (jrun_ok s1 Fail2 I1) as (s2 & E2 & I2 & L2 & _); [lia|]. rewrite E2 in R.
    destruct (quiet_step s1 Fail2 s2 Logic.I E2) as (Q5 & _ & _ & Q6).
    assert (A2 : accounted s2) by (apply (accounted_step s1 Fail2); auto; try exact Logic.I; lia). assert (G2 : good f s2 p) by (apply (good_quiet f s1 Fail2); auto; try exact Logic.I; lia).
    apply (IH es s2 p s' p'); auto; [|lia]. clear - E1 E2 P. unfold jrun in E1. rewrite P in E1. destruct (nth_error (l_units s) k) as [[n idx]|].
    + destruct (invalidate _ _ _); [|discriminate]. inversion E1; subst. cbn in E2. inversion E2; subst. reflexivity.
    + inversion E1; subst. unfold jrun in E2. rewrite P in E2. inversion E2; subst. auto.
  - apply (IH es s (read1 f s p) s' p'); auto. apply good_read; auto.
Qed.

(** ** The decisions on a loaded list *)
Lemma filter_len (f : Z -> bool) : forall l, (length (filter f l) <= length l)%nat.
Proof. induction l as [|x l IHl]; cbn; [lia|]. destruct (f x); cbn; lia. Qed.
Lemma attempt_ok lim depth infl rnd iodepth n : 0 <= iodepth -> depth = zlen infl -> zlen infl < 2 ^ 31 -> n <> INVALID_NUMBERIO ->
  let v := mkV lim depth rnd infl (qsort (filter (fun n => negb (n =? INVALID_NUMBERIO)) (skipn (Z.to_nat iodepth) infl))) in
  exists d, decide v iodepth n = Some d /\ (d = Attempt <-> n < lim /\ ~ In n infl) /\
    (d = Skip <-> In n (skipn (Z.to_nat iodepth) infl)) /\
    (d = Stop <-> ~ In n (skipn (Z.to_nat iodepth) infl) /\ (lim <= n \/ In n (firstn (Z.to_nat iodepth) infl))).
Proof.
  intros HI HD HL HN v. set (fl := qsort _) in v.
  assert (FI : In n fl <-> In n (skipn (Z.to_nat iodepth) infl)).
  { unfold fl. split; intros K.
    - apply (Permutation_in n (Permutation_sym (qsort_perm _))) in K. apply filter_In in K. apply K.
    - apply (Permutation_in n (qsort_perm _)). apply filter_In. split; auto. apply negb_true_iff, Z.eqb_neq. auto. }
  destruct (should_skip_ok v n) as (b & E & SB).
  - unfold v. cbn [v_failed]. apply qsort_sorted.
  - unfold v. cbn [v_failed]. unfold fl, zlen in *. rewrite <- (Permutation_length (qsort_perm _)).
    pose proof (filter_len (fun n => negb (n =? INVALID_NUMBERIO))) as FL.
    specialize (FL (skipn (Z.to_nat iodepth) infl)). rewrite skipn_length in FL. lia.
  - unfold decide. rewrite E. eexists. split; [reflexivity|]. pose proof (should_stop_ok v iodepth n) as ST. change (v_failed v) with fl in SB. change (v_numberio v) with lim in ST. change (v_depth v) with depth in ST. change (v_inflight v) with infl in ST.
    rewrite FI in SB. replace (firstn (Z.to_nat (Z.min iodepth depth)) infl) with (firstn (Z.to_nat iodepth) infl) in ST.
    2:{ destruct (Z.min_spec iodepth depth) as [(_ & ->)|(M & ->)]; auto. rewrite !firstn_all2; unfold zlen in *; try lia. auto. }
    assert (SPL : In n infl <-> In n (firstn (Z.to_nat iodepth) infl) \/ In n (skipn (Z.to_nat iodepth) infl)) by (rewrite <- (firstn_skipn (Z.to_nat iodepth) infl) at 1; apply in_app_iff).
    rewrite SPL. destruct b.
    + destruct SB as (SB & _). specialize (SB eq_refl). split; [|split]; split; try discriminate; try tauto.
    + assert (NS : ~ In n (skipn (Z.to_nat iodepth) infl)) by (intros K; apply SB in K; discriminate).
      destruct (should_stop v iodepth n) eqn:X.
      * destruct ST as (ST & _). specialize (ST eq_refl). split; [|split]; split; try discriminate; try tauto. intros (A & Bq). exfalso. destruct ST as [ST|ST]; [lia|tauto].
      * assert (NT : ~ (lim <= n \/ In n (firstn (Z.to_nat iodepth) infl))) by (intros K; apply ST in K; discriminate).
        split; [|split]; split; try discriminate; try tauto. intros _. split; [|tauto]. destruct (Z_lt_le_dec n lim); auto. exfalso. apply NT. auto.
Qed.

Lemma live_main f d es1 es2 s s' p iodepth v n : (1 <= d)%nat -> zlen es1 + 1 < INVALID_NUMBERIO -> Forall tracked es1 -> jruns (live0 d) es1 = Some s -> l_pc s = Idle ->
  calm es2 -> both f s snap0 es2 = Some (s', p) -> snap_state iodepth p = Some v -> 0 <= iodepth -> zlen (v_inflight v) < 2 ^ 31 -> 0 <= n < INVALID_NUMBERIO ->
  decide v iodepth n = Some Attempt ->
  In (HOk n) (l_hist s') /\ (f = true -> exists k, before (l_hist s') (HFsub k) (HFdone k) /\ before (l_hist s') (HIssue n) (HFsub k)).
Proof.
  intros Hd B T R P C RB SS HI HV Hn D. pose proof (inv0 d Hd) as I0.
  destruct (jruns_ok es1 (live0 d) I0) as (s1 & E & I & L & ZL); [cbn [live0 l_issued]; lia|]. rewrite R in E. inversion E; subst s1. cbn [live0 l_issued l_slots] in *.
  assert (A : accounted s) by (eapply accounted_run; [exact I0| | |exact T|exact R]; [cbn [live0 l_issued]; lia|intros m Hm; cbn in Hm; lia]).
  assert (G : good f s snap0) by (split; [|intros _ lim X; discriminate]; constructor; cbn [snap0 s_slots s_limit s_failed]; try discriminate; try (intros; discriminate); try (intros m i K Hi; exfalso; destruct (i_slot s I m i) as ((? & ?) & _); [unfold all_units; apply in_or_app; auto|unfold zlen in Hi; cbn in Hi; lia]); try (intros K; exfalso; apply K; auto; fail); apply zlen_nonneg).
  destruct (calm_run f es2 s snap0 s' p I A P ltac:(lia) G C RB) as (I' & A' & P' & (S & F)).
  unfold snap_state in SS. destruct (s_limit p) as [lim|] eqn:EL; [|discriminate]. destruct (s_failed p) as [fl|] eqn:EF; [|discriminate]. inversion SS; subst v. cbn [v_inflight] in HV.
  destruct (attempt_ok lim (zlen (s_slots p) + zlen fl) (s_slots p ++ fl) (0, []) iodepth n) as (d' & E' & AT & _); auto; [unfold zlen; rewrite app_length; lia|lia|].
  rewrite D in E'. inversion E'; subst d'. destruct AT as (AT & _). destruct (AT eq_refl) as (LT & NI). pose proof (p_limit _ _ S lim EL) as PL.
  split.
  - destruct (p_failed _ _ S fl EF n ltac:(lia)) as [K|[K|K]]; auto; exfalso; apply NI; apply in_or_app; auto.
  - intros Hf. apply (F Hf lim eq_refl n). lia.
Qed.
