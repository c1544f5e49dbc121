(** C36: offloaded work is executed exactly once, for every number of workers and every interleaving. *)
From Coq Require Import ZArith List Bool Lia Arith Permutation.
From Verif Require Import CBase WorkqModel WorkqSpec WorkqProofs.
Import ListNotations.

Lemma of_worker_out w h n : (forall v x, In (v, x) h -> (v < n)%nat) -> (n <= w)%nat -> of_worker w h = [].
Proof.
  intros H Hn. induction h as [|[v x] h IH]; [reflexivity|]. cbn. destruct (Nat.eqb_spec v w) as [->|].
  - specialize (H w x (or_introl eq_refl)). lia.
  - apply IH. intros a b Hin. apply (H a b). now right.
Qed.
(** Everything given to a worker is what it has handled, in the same order, followed by what is pending: nothing is lost, doubled, or reordered. *)
Theorem C36_in_order : forall s w, reach s -> of_worker w (given s) = of_worker w (handled s) ++ pending s w.
Proof.
  intros s w Hr. pose proof (reach_inv s Hr) as Hi. unfold pending. destruct (nth_error (ws s) w) as [k|] eqn:E; [exact (k_hist _ _ _ (i_w s Hi w k E))|].
  apply nth_error_None in E. rewrite app_nil_r. rewrite !(of_worker_out w _ (length (ws s))); auto; intros v x H; apply (i_range s Hi v x); auto.
Qed.
Lemma of_worker_split w x r a : of_worker w a = x :: r -> exists a1 a2, a = a1 ++ (w, x) :: a2 /\ of_worker w (a1 ++ a2) = r /\ forall v, v <> w -> of_worker v (a1 ++ a2) = of_worker v a.
Proof.
  induction a as [|[v y] a IH]; cbn; [discriminate|]. destruct (Nat.eqb_spec v w) as [->|Hn].
  - intros H. inversion H; subst. exists [], a. cbn. repeat split; auto. intros v Hv. destruct (Nat.eqb_spec w v); [congruence|reflexivity].
  - intros H. destruct (IH H) as (a1 & a2 & -> & H2 & H3). exists ((v, y) :: a1), a2. cbn. destruct (Nat.eqb_spec v w); [congruence|]. repeat split; auto.
    intros u Hu. destruct (v =? u)%nat; now rewrite (H3 u Hu).
Qed.
Lemma history_perm b : forall a, (forall w, exists r, of_worker w a = of_worker w b ++ r) -> exists c, Permutation a (b ++ c).
Proof.
  induction b as [|[w x] b IH]; intros a H; [exists a; apply Permutation_refl|].
  destruct (H w) as [r Hr]. cbn in Hr. rewrite Nat.eqb_refl in Hr. cbn in Hr. destruct (of_worker_split _ _ _ _ Hr) as (a1 & a2 & -> & H2 & H3).
  destruct (IH (a1 ++ a2)) as [c Hc].
  - intros v. destruct (Nat.eq_dec v w) as [->|Hv]; [exists r; exact H2|]. destruct (H v) as [r' Hr']. exists r'. rewrite (H3 v Hv), Hr'. cbn. destruct (Nat.eqb_spec w v); [congruence|reflexivity].
  - exists c. cbn. rewrite <- Hc. symmetry. apply Permutation_middle.
Qed.
(** Over all workers together: what has been handled, with what is still to do, is what was given. *)
Theorem C36_exactly_once : forall s, reach s -> exists todo, Permutation (given s) (handled s ++ todo) /\ forall w, of_worker w todo = pending s w.
Proof.
  intros s Hr. set (todo := flat_map (fun w => map (fun x => (w, x)) (pending s w)) (seq 0 (length (ws s)))).
  assert (Hown : forall v l, of_worker v (map (fun x => (v, x)) l) = l) by (intros v; induction l; cbn; [reflexivity|]; rewrite Nat.eqb_refl; now f_equal).
  assert (Hoth : forall v u l, u <> v -> of_worker v (map (fun x => (u, x)) l) = []).
  { intros v u l Hn. induction l; cbn; [reflexivity|]. destruct (Nat.eqb_spec u v); [congruence|assumption]. }
  assert (Hfm : forall n m v, of_worker v (flat_map (fun w => map (fun x => (w, x)) (pending s w)) (seq m n)) = if (m <=? v)%nat && (v <? m + n)%nat then pending s v else []).
  { induction n as [|n IH]; intros m v; cbn [seq flat_map].
    - destruct (Nat.leb_spec m v), (Nat.ltb_spec v (m + 0)); cbn; auto; lia.
    - rewrite of_worker_app, IH. destruct (Nat.eq_dec m v) as [->|Hn].
      + rewrite Hown. destruct (Nat.leb_spec (S v) v), (Nat.leb_spec v v), (Nat.ltb_spec v (v + S n)), (Nat.ltb_spec v (S v + n)); cbn [andb]; try lia; now rewrite app_nil_r.
      + rewrite (Hoth v m _ Hn). cbn [app]. destruct (Nat.leb_spec (S m) v), (Nat.leb_spec m v), (Nat.ltb_spec v (S m + n)), (Nat.ltb_spec v (m + S n)); cbn [andb]; try lia; reflexivity. }
  assert (Ht : forall w, of_worker w todo = pending s w).
  { intros w. unfold todo. rewrite Hfm. cbn [Nat.leb andb Nat.add]. destruct (Nat.ltb_spec w (length (ws s))); [reflexivity|].
    unfold pending. destruct (nth_error (ws s) w) eqn:E; [|reflexivity]. apply nth_error_None in H. congruence. }
  exists todo. split; [|exact Ht].
  assert (Hall : forall w, of_worker w (given s) = of_worker w (handled s ++ todo)) by (intros w; rewrite of_worker_app, Ht; now apply C36_in_order).
  destruct (history_perm (handled s ++ todo) (given s)) as [c Hc]; [intros w; exists []; rewrite app_nil_r; apply Hall|].
  destruct c as [|[v x] c]; [now rewrite app_nil_r in Hc|]. exfalso.
  assert (Hlen : forall a b : list (nat * Z), Permutation a b -> forall w, length (of_worker w a) = length (of_worker w b)).
  { intros a b Hp. induction Hp as [|[u y] a b _ IH|[u y] [u' y'] l|a b c' _ IH1 _ IH2]; intros w; cbn; [reflexivity | | | now rewrite IH1].
    - destruct (u =? w)%nat; cbn; now rewrite (IH w).
    - destruct (u =? w)%nat, (u' =? w)%nat; reflexivity. }
  specialize (Hlen _ _ Hc v). rewrite Hall, !of_worker_app, !app_length in Hlen. cbn in Hlen. rewrite Nat.eqb_refl in Hlen. cbn in Hlen. lia.
Qed.
Theorem C36_never_twice : forall s, reach s -> NoDup (map snd (given s)) -> NoDup (map snd (handled s)).
Proof.
  intros s Hr H. destruct (C36_exactly_once s Hr) as (todo & Hp & _). apply (Permutation_map snd) in Hp. rewrite map_app in Hp.
  apply (Permutation_NoDup Hp) in H. revert H. generalize (map snd (handled s)) (map snd todo). intros a b. induction a; cbn; intros H; constructor; inversion H; subst; [rewrite in_app_iff in H2; tauto|auto].
Qed.
(** When workqueue_flush returns, every item that was ever enqueued has been handled. *)
Theorem C36_flush : forall s s' i, reach s -> step s s' -> mpc_ s = MCheck i -> mpc_ s' = MIdle -> given s' = given s /\ all_handled s' /\ forall w, pending s' w = [].
Proof.
  intros s s' i Hr Hs Em Em'. pose proof (reach_inv s Hr) as Hi. pose proof (i_m s Hi) as Hm. unfold mok in Hm. rewrite Em in Hm. destruct Hm as [_ Hm].
  assert (Hr' : reach s') by (econstructor; eassumption).
  assert (given s' = given s /\ ws s' = ws s /\ i = length (ws s)) as (Hg & Hw & Hlen).
  { destruct Hs; cbn [setm setw mpc_ given ws] in *; try congruence; try (repeat split; congruence). }
  assert (Hp : forall w, pending s' w = []).
  { intros w. unfold pending. rewrite Hw. destruct (nth_error (ws s) w) as [k|] eqn:E; [|reflexivity].
    apply (k_idle _ _ _ (i_w s Hi w k E)). apply (Hm w k); [|assumption]. subst i. apply nth_error_Some. congruence. }
  split; [assumption|]. split; [|assumption]. intros w. rewrite (C36_in_order s' w Hr'), Hp. now rewrite app_nil_r.
Qed.
(** When workqueue_exit returns, too. *)
Theorem C36_exit : forall s, reach s -> mpc_ s = MEnd -> all_handled s /\ forall w, pending s w = [].
Proof.
  intros s Hr Em. pose proof (reach_inv s Hr) as Hi. pose proof (i_m s Hi) as Hm. unfold mok in Hm. rewrite Em in Hm.
  assert (Hp : forall w, pending s w = []).
  { intros w. unfold pending. destruct (nth_error (ws s) w) as [k|] eqn:E; [|reflexivity]. apply (k_done _ _ _ (i_w s Hi w k E)). exact (Hm w k E). }
  split; [|assumption]. intros w. rewrite (C36_in_order s w Hr), Hp. now rewrite app_nil_r.
Qed.
(** No worker sleeps on work, and none ends with work. *)
Theorem C36_no_sleep_on_work : forall s w k, reach s -> nth_error (ws s) w = Some k -> pending s w <> [] -> wpc_ k <> WWait /\ wpc_ k <> WDone.
Proof.
  intros s w k Hr Hk Hp. pose proof (i_w s (reach_inv s Hr) w k Hk) as [G1 G2 G3 G4 G5 G6 G7]. unfold pending in Hp. rewrite Hk in Hp. split; intros E; apply Hp.
  - apply G3. apply (G4 E).
  - apply (proj1 (G6 E)).
Qed.
(** The assertion of get_submit_worker, workqueue.c:48. *)
Theorem C36_next_in_range : forall s, reach s -> (nxt s < length (ws s))%nat.
Proof. intros s Hr. exact (i_nxt s (reach_inv s Hr)). Qed.

(** ** Calls return *)
Lemma worker_moves s w k : nth_error (ws s) w = Some k -> wpc_ k <> WWait -> wpc_ k <> WDone -> (wpc_ k = WSig -> (forall i, mpc_ s <> MCheck i) /\ mpc_ s <> MSleep) ->
  exists s' k', step s s' /\ nth_error (ws s') w = Some k' /\ wpc_ k' <> wpc_ k /\ nth_error (ws s') w <> nth_error (ws s) w.
Proof.
  intros Hk Hn1 Hn2 Hsig. assert (Hlt : (w < length (ws s))%nat) by (apply nth_error_Some; rewrite Hk; discriminate).
  assert (E : forall k', nth_error (upd (ws s) w k') w = Some k') by (intros; now apply upd_nth_error_same).
  assert (Fin : forall s' k', step s s' -> nth_error (ws s') w = Some k' -> wpc_ k' <> wpc_ k -> exists s' k', step s s' /\ nth_error (ws s') w = Some k' /\ wpc_ k' <> wpc_ k /\ nth_error (ws s') w <> nth_error (ws s) w).
  { intros s' k' A B C. exists s', k'. repeat split; auto. rewrite B, Hk. congruence. }
  destruct (wpc_ k) eqn:Hp; try congruence.
  - destruct (wl k) as [|y l] eqn:Hw; [destruct (ext k) eqn:He; [|destruct (idle k) eqn:Hd]|].
    + eapply Fin; [exact (TopExit s w k Hk Hp Hw He) | apply E | discriminate].
    + eapply Fin; [exact (SecWait s w k Hk (or_introl Hp) Hw He Hd) | apply E | discriminate].
    + eapply Fin; [exact (SecIdle s w k Hk (or_introl Hp) Hw He Hd) | apply E | discriminate].
    + eapply Fin; [refine (SecTake s w k Hk (or_introl Hp) _); congruence | apply E | discriminate].
  - destruct (wl k) as [|y l] eqn:Hw; [destruct (ext k) eqn:He; [|destruct (idle k) eqn:Hd]|].
    + eapply Fin; [exact (SecExit s w k Hk Hp Hw He) | apply E | discriminate].
    + eapply Fin; [exact (SecWait s w k Hk (or_intror Hp) Hw He Hd) | apply E | discriminate].
    + eapply Fin; [exact (SecIdle s w k Hk (or_intror Hp) Hw He Hd) | apply E | discriminate].
    + eapply Fin; [refine (SecTake s w k Hk (or_intror Hp) _); congruence | apply E | discriminate].
  - eapply Fin; [exact (Signal s w k Hk Hp (proj1 (Hsig eq_refl)) (proj2 (Hsig eq_refl))) | apply E | discriminate].
  - destruct (wl k) as [|y l] eqn:Hw; [destruct (ext k) eqn:He|].
    + eapply Fin; [exact (ThirdExit s w k Hk Hp Hw He) | apply E | discriminate].
    + eapply Fin; [exact (ThirdWait s w k Hk Hp Hw He) | apply E | discriminate].
    + eapply Fin; [refine (ThirdTake s w k Hk Hp _); congruence | apply E | discriminate].
  - eapply Fin; [exact (Awake s w k Hk Hp) | apply E | discriminate].
  - destruct (loc k) as [|y l] eqn:Hl.
    + eapply Fin; [exact (Loop s w k Hk Hp Hl) | apply E | discriminate].
    + eapply Fin; [exact (Pop s w k y l Hk Hp Hl) | apply E | discriminate].
  - eapply Fin; [exact (Ran s w k x Hk Hp) | apply E | discriminate].
Qed.
Lemma worker_not_spurious s s' w k k' : nth_error (ws s) w = Some k -> wpc_ k <> WWait -> nth_error (ws s') w = Some k' -> wpc_ k' <> wpc_ k -> ~ spurious s s'.
Proof.
  intros Hk Hn Hk' Hd [[_ ->]|(v & kv & Hv & Hp & ->)]; cbn [setm setw ws] in Hk'; [congruence|].
  destruct (Nat.eq_dec v w) as [->|Hne]; [congruence|]. rewrite upd_nth_error_other in Hk' by assumption. congruence.
Qed.
(** While a call is under way somebody can always go on, without any spurious wake-up. *)
Theorem C36_progress : forall s, reach s -> in_call (mpc_ s) -> exists s', step s s' /\ ~ spurious s s'.
Proof.
  intros s Hr Hc. pose proof (reach_inv s Hr) as Hi. pose proof (i_m s Hi) as Hm. unfold mok in Hm.
  assert (Hns : forall s', mpc_ s <> MWait -> ws s' = ws s -> ~ spurious s s').
  { intros s' Hn Hw [[E _]|(w & k & Hk & Hp & ->)]; [contradiction|]. cbn [setw ws] in Hw.
    assert (Hlt : (w < length (ws s))%nat) by (apply nth_error_Some; rewrite Hk; discriminate).
    assert (E : nth_error (upd (ws s) w (mkW WAwake (wl k) (loc k) (idle k) (ext k))) w = nth_error (ws s) w) by now rewrite Hw.
    rewrite upd_nth_error_same, Hk in E by assumption. inversion E as [E1]. rewrite <- E1 in Hp. discriminate. }
  destruct (mpc_ s) eqn:Em; cbn in Hc; try contradiction.
  - eexists. split; [exact (FlushLock s Em)|]. apply Hns; [discriminate|reflexivity].
  - destruct Hm as [Hm _]. destruct (nth_error (ws s) i) as [k|] eqn:E.
    + destruct (idle k) eqn:Hd; eexists; (split; [first [exact (FlushNext s i k Em E Hd) | exact (FlushBusy s i k Em E Hd)]|]); apply Hns; [discriminate|reflexivity|discriminate|reflexivity].
    + apply nth_error_None in E. eexists. split; [apply (FlushDone s i Em); lia|]. apply Hns; [discriminate|reflexivity].
  - eexists. split; [exact (FlushWait s Em)|]. apply Hns; [discriminate|reflexivity].
  - destruct Hm as (w & k & Hk & Hb). pose proof (i_w s Hi w k Hk) as [G1 G2 G3 G4 G5 G6 G7].
    assert (Hnw : wpc_ k <> WWait) by (intros E; destruct (G4 E) as (_ & A & _); destruct Hb; congruence).
    assert (Hnd : wpc_ k <> WDone) by (intros E; destruct (G6 E) as [_ A]; specialize (G7 A); now rewrite Em in G7).
    destruct (worker_moves s w k Hk Hnw Hnd) as (s' & k' & A & B & C & D); [intros _; rewrite Em; split; [intros i|]; discriminate|].
    exists s'. split; [assumption|]. exact (worker_not_spurious s s' w k k' Hk Hnw B C).
  - eexists. split; [exact (FlushAgain s Em)|]. apply Hns; [discriminate|reflexivity].
  - destruct Hm as [Hm _]. destruct (nth_error (ws s) i) as [k|] eqn:E.
    + eexists. split; [exact (ExitOne s i k Em E)|]. intros [[A _]|(w & kw & Hk & Hp & A)]; [congruence|]. apply (f_equal mpc_) in A. cbn [setw mpc_] in A. rewrite Em in A. injection A as A. lia.
    + apply nth_error_None in E. eexists. split; [apply (ExitAll s i Em); lia|]. apply Hns; [discriminate|reflexivity].
  - destruct Hm as [Hm Hm2]. destruct (nth_error (ws s) i) as [k|] eqn:E.
    + pose proof (i_w s Hi i k E) as [G1 G2 G3 G4 G5 G6 G7]. destruct (Hm2 i k E) as [Hx _].
      assert (Hnw : wpc_ k <> WWait) by (intros F; destruct (G4 F) as (_ & _ & A); congruence).
      assert (Hd : wpc_ k = WDone \/ wpc_ k <> WDone) by (destruct (wpc_ k); auto; right; discriminate). destruct Hd as [Hd|Hd].
      * eexists. split; [exact (JoinOne s i k Em E Hd)|]. apply Hns; [discriminate|reflexivity].
      * destruct (worker_moves s i k E Hnw Hd) as (s' & k' & A & B & C & D); [intros _; rewrite Em; split; [intros j|]; discriminate|]. exists s'. split; [assumption|]. exact (worker_not_spurious s s' i k k' E Hnw B C).
    + apply nth_error_None in E. eexists. split; [apply (JoinAll s i Em); lia|]. apply Hns; [discriminate|reflexivity].
Qed.

(** How far a worker and the caller are from rest. *)
Definition prank (p : wpc) : nat := match p with WWait | WDone => 0 | WThird => 1 | WSig => 2 | WSlept => 3 | WTop => 4 | WHandle => 5 | WRun _ | WAwake => 6 end.
Definition wrank (k : wk) : nat := 10 * length (wl k) + 2 * length (loc k) + prank (wpc_ k).
Definition sumn (l : list wk) : nat := fold_right (fun k a => (wrank k + a)%nat) 0%nat l.
Definition mrank (n : nat) (m : mpc) : nat :=
  match m with
  | MIdle | MWait | MEnd => 0
  | MSleep => 1
  | MWant => n + 4
  | MAwake => n + 3
  | MCheck i => n + 2 - i
  | MExit i => (n - i) * (6 * (n + 5) + 1) + n + 3
  | MJoin i => n + 2 - i
  end.
Definition rank (s : st) : nat := sumn (ws s) * (length (ws s) + 5) + mrank (length (ws s)) (mpc_ s).
Lemma sumn_upd l w k k' : nth_error l w = Some k -> (sumn (upd l w k') + wrank k = sumn l + wrank k')%nat.
Proof.
  revert w. induction l as [|a l IH]; intros [|w] H; cbn in H; try discriminate; cbn [upd sumn fold_right].
  - inversion H; subst. fold (sumn l). lia.
  - specialize (IH _ H). fold (sumn l) (sumn (upd l w k')). lia.
Qed.
Lemma worker_rank s w k k' m' wk' nx g h : nth_error (ws s) w = Some k -> (wrank k' < wrank k)%nat ->
  (mrank (length (ws s)) m' < mrank (length (ws s)) (mpc_ s) + length (ws s) + 5)%nat -> (rank (mkSt m' wk' nx (upd (ws s) w k') g h) < rank s)%nat.
Proof.
  intros Hk Hw Hm. unfold rank. cbn [ws mpc_]. rewrite upd_length. pose proof (sumn_upd (ws s) w k k' Hk) as E.
  assert (S (sumn (upd (ws s) w k')) <= sumn (ws s))%nat by lia.
  assert (S (sumn (upd (ws s) w k')) * (length (ws s) + 5) <= sumn (ws s) * (length (ws s) + 5))%nat by (now apply Nat.mul_le_mono_r). lia.
Qed.
Lemma step_rank s s' : Inv s -> in_call (mpc_ s) -> step s s' -> ~ spurious s s' -> (rank s' < rank s)%nat.
Proof.
  intros Hi Hc Hst Hns. pose proof (i_m s Hi) as Hm. unfold mok in Hm.
  destruct Hst as [w x k nx Em Hk Hn | Em | Em | i k Em Hk Hid | i k Em Hk Hid | Em | i Em El | Em | Em | Em | i k Em Hk | i Em El | i k Em Hk Hd | i Em El
    | w k Hk Hp Hw He | w k Hk Hp Hw He | w k Hk Hp Hw He | w k Hk Hp Hw He Hid | w k Hk Hp Hw He Hid | w k Hk Hp Hw | w k Hk Hp Hcc Hcc2
    | w k Hk Hp Hw He | w k Hk Hp Hw He | w k Hk Hp Hw | w k Hk Hp | w k Hk Hp | w k x l Hk Hp Hl | w k x Hk Hp | w k Hk Hp Hl];
    try (rewrite Em in Hc; contradiction);
    try (apply (worker_rank s w k); [assumption | unfold wrank; cbn [wl loc wpc_ prank]; rewrite ?Hw, ?Hl, ?Hp; try (destruct Hp as [-> | ->]); cbn [length prank]; lia | lia]).
  - unfold rank. cbn [ws mpc_]. rewrite Em. cbn [mrank]. lia.
  - assert (i < length (ws s))%nat by (apply nth_error_Some; rewrite Hk; discriminate). unfold rank. cbn [setm ws mpc_]. rewrite Em. cbn [mrank]. lia.
  - rewrite Em in Hm. destruct Hm as [Hm _]. unfold rank. cbn [setm ws mpc_]. rewrite Em. cbn [mrank]. lia.
  - unfold rank. cbn [setm ws mpc_]. rewrite Em. cbn [mrank]. lia.
  - unfold rank. cbn [ws mpc_]. rewrite Em. cbn [mrank]. lia.
  - exfalso. apply Hns. left. auto.
  - unfold rank. cbn [setm ws mpc_]. rewrite Em. cbn [mrank]. lia.
  - assert (Hlt : (i < length (ws s))%nat) by (apply nth_error_Some; rewrite Hk; discriminate). unfold rank. cbn [ws mpc_]. rewrite upd_length, Em. cbn [mrank].
    set (k' := mkW (signal (wpc_ k)) (wl k) (loc k) (idle k) true). pose proof (sumn_upd (ws s) i k k' Hk) as E.
    assert (Hw : (wrank k' <= wrank k + 6)%nat) by (unfold wrank, k'; cbn [wl loc wpc_]; destruct (wpc_ k); cbn; lia).
    assert (Hs : (sumn (upd (ws s) i k') <= sumn (ws s) + 6)%nat) by lia. set (c := (length (ws s) + 5)%nat) in *.
    assert (sumn (upd (ws s) i k') * c <= sumn (ws s) * c + 6 * c)%nat by (rewrite <- Nat.mul_add_distr_r; now apply Nat.mul_le_mono_r).
    replace (length (ws s) - i)%nat with (S (length (ws s) - S i)) by lia. cbn [Nat.mul]. lia.
  - rewrite Em in Hm. destruct Hm as [Hm _]. unfold rank. cbn [setm ws mpc_]. rewrite Em. cbn [mrank]. rewrite El, Nat.sub_diag. cbn [Nat.mul]. lia.
  - assert (i < length (ws s))%nat by (apply nth_error_Some; rewrite Hk; discriminate). unfold rank. cbn [setm ws mpc_]. rewrite Em. cbn [mrank]. lia.
  - unfold rank. cbn [setm ws mpc_]. rewrite Em. cbn [mrank]. lia.
  - apply (worker_rank s w k); [assumption | | lia]. unfold wrank. cbn [wl loc wpc_ prank]. rewrite app_length. destruct (wl k) as [|y l]; [congruence|]. cbn [length]. destruct Hp as [-> | ->]; cbn [prank]; lia.
  - apply (worker_rank s w k); [assumption | unfold wrank; cbn [wl loc wpc_ prank]; rewrite Hp; cbn [prank]; lia |].
    destruct (wake s); [|lia]. destruct (mpc_ s); cbn [mrank]; lia.
  - apply (worker_rank s w k); [assumption | | lia]. unfold wrank. cbn [wl loc wpc_ prank]. rewrite app_length, Hp. destruct (wl k) as [|y l]; [congruence|]. cbn [length prank]. lia.
  - exfalso. apply Hns. right. exists w, k. auto.
Qed.
(** A call returns after a bounded number of steps of all threads together, if no condition variable wakes up spuriously: there is no
    endless run, and by [C36_progress] no run gets stuck. *)
Theorem C36_calls_return : forall s n s', reach s -> chain n s s' -> (n <= rank s)%nat.
Proof.
  intros s n s' Hr Hc. induction Hc as [|n s s1 s' Hin Hs Hns Hc IH]; [lia|]. pose proof (step_rank s s1 (reach_inv s Hr) Hin Hs Hns).
  assert (reach s1) as Hr1 by (econstructor; eassumption). specialize (IH Hr1). lia.
Qed.

(** ** The choice of the worker *)
Definition best_ok (vs : list view) (P : nat -> Prop) (best : option nat) : Prop :=
  match best with
  | None => forall i, ~ P i
  | Some b => P b /\ exists v, nth_error vs b = Some v /\ forall i v', P i -> nth_error vs i = Some v' -> (v_seq v <= v_seq v')%Z
  end.
Lemma scan_spec vs : forall fuel i best (P : nat -> Prop), (forall b, P b -> exists v, nth_error vs b = Some v /\ v_idle v = false) -> best_ok vs P best -> (i + fuel <= length vs)%nat ->
  match scan vs i fuel best with
  | (Some w, _) => (i <= w < i + fuel)%nat /\ exists v, nth_error vs w = Some v /\ v_idle v = true
  | (None, b) => let Q := fun j => P j \/ (i <= j < i + fuel)%nat in (forall b, Q b -> exists v, nth_error vs b = Some v /\ v_idle v = false) /\ best_ok vs Q b
  end.
Proof.
  induction fuel as [|fuel IH]; intros i best P HP Hb Hl; cbn [scan].
  - split; [intros b [H|H]; [auto|lia]|]. destruct best as [b|]; cbn in *.
    + destruct Hb as [H1 (v & H2 & H3)]. split; [now left|]. exists v. split; [assumption|]. intros j v' [Hj|Hj]; [now apply H3|lia].
    + intros j [H|H]; [exact (Hb j H)|lia].
  - destruct (nth_error vs i) as [v|] eqn:E; [|apply nth_error_None in E; lia]. destruct (v_idle v) eqn:Hv.
    + split; [lia|]. eauto.
    + set (best' := match best with None => Some i | Some b => match nth_error vs b with Some vb => if (v_seq v <? v_seq vb)%Z then Some i else Some b | None => Some b end end).
      set (P' := fun j => P j \/ j = i).
      assert (HP' : forall b, P' b -> exists v, nth_error vs b = Some v /\ v_idle v = false) by (intros b [H|H]; [auto|subst; eauto]).
      assert (Hb' : best_ok vs P' best').
      { unfold best'. destruct best as [b|]; cbn in Hb.
        - destruct Hb as [H1 (vb & H2 & H3)]. rewrite H2. destruct (Z.ltb_spec (v_seq v) (v_seq vb)); cbn.
          + split; [now right|]. exists v. split; [assumption|]. intros j v' [Hj|Hj] Hn; [specialize (H3 j v' Hj Hn); lia|subst; replace v' with v by congruence; lia].
          + split; [now left|]. exists vb. split; [assumption|]. intros j v' [Hj|Hj] Hn; [exact (H3 j v' Hj Hn)|subst; replace v' with v by congruence; lia].
        - cbn. split; [now right|]. exists v. split; [assumption|]. intros j v' [Hj|Hj] Hn; [exfalso; exact (Hb j Hj)|subst; replace v' with v by congruence; lia]. }
      specialize (IH (S i) best' P' HP' Hb'). destruct (scan vs (S i) fuel best') as [[w|] b].
      * destruct IH as [H1 H2]; [lia|]. split; [lia|assumption].
      * destruct IH as [H1 H2]; [lia|]. cbn zeta in *.
        assert (Hq : forall j, (P j \/ (i <= j < i + S fuel)%nat) <-> (P' j \/ (S i <= j < S i + fuel)%nat)).
        { intros j. unfold P'. destruct (Nat.eq_dec j i) as [->|]; split; intros [H|H]; auto; try lia; try (destruct H; [tauto|subst; right; lia]); try (right; lia). }
        split; [intros j Hj; apply H1; now apply Hq|]. destruct b as [b|]; cbn in *.
        -- destruct H2 as [A (vb & B & C)]. split; [now apply Hq|]. exists vb. split; [assumption|]. intros j v' Hj Hn. apply (C j v'); [now apply Hq|assumption].
        -- intros j Hj. apply (H2 j). now apply Hq.
Qed.
(** get_submit_worker finds a worker: an idle one if there is one, otherwise one whose last item is oldest; the next index stays in range. *)
Theorem C36_choice : forall vs next, (next < length vs)%nat ->
  exists w nx, get_submit_worker vs next = Some (w, nx) /\ (w < length vs)%nat /\ (nx < length vs)%nat /\ good_choice vs w.
Proof.
  intros vs next Hn. unfold get_submit_worker. destruct (Nat.ltb_spec next (length vs)) as [_|]; [|lia].
  assert (Fin : forall w, (w < length vs)%nat -> good_choice vs w ->
    exists w0 nx, Some (w, if (w =? next)%nat then (if (w + 1 <? length vs)%nat then w + 1 else 0)%nat else next) = Some (w0, nx) /\ (w0 < length vs)%nat /\ (nx < length vs)%nat /\ good_choice vs w0).
  { intros w Hw Hg. do 2 eexists. split; [reflexivity|]. repeat split; auto. destruct (w =? next)%nat; [|assumption]. destruct (Nat.ltb_spec (w + 1) (length vs)); lia. }
  assert (Hbest : forall (Q : nat -> Prop) (b : option nat), (forall j, (j < length vs)%nat -> Q j) -> (forall b, Q b -> exists v, nth_error vs b = Some v /\ v_idle v = false) -> best_ok vs Q b -> exists w, b = Some w /\ (w < length vs)%nat /\ good_choice vs w).
  { intros Q b Hall HQ Hb. destruct b as [b|]; cbn in Hb; [|exfalso; apply (Hb next); now apply Hall]. destruct Hb as [H1 (v & H2 & H3)].
    exists b. split; [reflexivity|]. split; [apply nth_error_Some; congruence|]. exists v. split; [assumption|]. right. intros i v' Hi.
    assert (Q i) by (apply Hall; apply nth_error_Some; congruence). split; [destruct (HQ i H) as (u & Hu & Hd); congruence | exact (H3 i v' H Hi)]. }
  pose proof (scan_spec vs (length vs - next) next None (fun _ => False)) as S1. destruct (scan vs next (length vs - next) None) as [[w|] b1].
  - destruct S1 as [H1 (v & H2 & H3)]; [tauto | cbn; tauto | lia|]. apply Fin; [lia|]. exists v. auto.
  - destruct S1 as [H1 H2]; [tauto | cbn; tauto | lia|]. cbn zeta in *. destruct (Nat.eqb_spec next 0) as [->|Hz].
    + destruct (fun a => Hbest _ b1 a H1 H2) as (w & -> & Hw & Hg); [intros j Hj; right; lia | now apply Fin].
    + pose proof (scan_spec vs next 0 b1 _ H1 H2) as S2. destruct (scan vs 0 next b1) as [[w|] b2].
      * destruct S2 as [A (v & B & C)]; [lia|]. apply Fin; [lia|]. exists v. auto.
      * destruct S2 as [A B]; [lia|]. cbn zeta in *. destruct (fun a => Hbest _ b2 a A B) as (w & -> & Hw & Hg); [|now apply Fin].
        intros j Hj. destruct (Nat.ltb_spec j next); [right; lia|left; right; lia].
Qed.

(** Two busy workers and an idle one: the idle one is taken; all busy: the one with the oldest item. *)
Example C36_choice_example :
  get_submit_worker [mkView false 7; mkView true 3; mkView false 9] 2 = Some (1%nat, 2%nat) /\
  get_submit_worker [mkView false 7; mkView false 3; mkView false 9] 1 = Some (1%nat, 2%nat) /\
  get_submit_worker [mkView false 7; mkView false 8; mkView false 2] 2 = Some (2%nat, 0%nat).
Proof. vm_compute. auto. Qed.
(** A run with one worker: two items are enqueued, the worker takes both, handles the first and is handling the second. *)
Example C36_example : exists s, reach s /\ of_worker 0 (given s) = [4; 5]%Z /\ of_worker 0 (handled s) = [4]%Z /\ pending s 0 = [5]%Z /\ mpc_ s = MWait.
Proof.
  set (s0 := mkSt MIdle false 0 [mkW WTop [] [] true false] [] []).
  assert (R0 : reach s0) by (apply RInit; repeat split; cbn; auto; apply Forall_cons; [exists true; reflexivity|apply Forall_nil]).
  pose proof (RStep _ _ R0 (Enqueue s0 0 4 _ 0 eq_refl eq_refl (or_introl eq_refl))) as R1. cbn in R1.
  match type of R1 with reach ?s => pose proof (RStep _ _ R1 (Enqueue s 0 5 _ 0 eq_refl eq_refl (or_introl eq_refl))) as R2; cbn in R2 end.
  match type of R2 with reach ?s => pose proof (RStep _ _ R2 (SecTake s 0 _ eq_refl (or_introl eq_refl) ltac:(discriminate))) as R3; cbn in R3 end.
  match type of R3 with reach ?s => pose proof (RStep _ _ R3 (Flush s eq_refl)) as R4; cbn in R4 end.
  match type of R4 with reach ?s => pose proof (RStep _ _ R4 (FlushLock s eq_refl)) as R5; cbn in R5 end.
  match type of R5 with reach ?s => pose proof (RStep _ _ R5 (FlushBusy s 0 _ eq_refl eq_refl eq_refl)) as R6; cbn in R6 end.
  match type of R6 with reach ?s => pose proof (RStep _ _ R6 (FlushWait s eq_refl)) as R6'; cbn in R6' end.
  match type of R6' with reach ?s => pose proof (RStep _ _ R6' (Pop s 0 _ _ _ eq_refl eq_refl eq_refl)) as R7; cbn in R7 end.
  match type of R7 with reach ?s => pose proof (RStep _ _ R7 (Ran s 0 _ _ eq_refl eq_refl)) as R8; cbn in R8 end.
  match type of R8 with reach ?s => pose proof (RStep _ _ R8 (Pop s 0 _ _ _ eq_refl eq_refl eq_refl)) as R9; cbn in R9 end.
  eexists. split; [exact R9|]. vm_compute. auto.
Qed.

Print Assumptions C36_in_order.
Print Assumptions C36_exactly_once.
Print Assumptions C36_never_twice.
Print Assumptions C36_flush.
Print Assumptions C36_exit.
Print Assumptions C36_no_sleep_on_work.
Print Assumptions C36_next_in_range.
Print Assumptions C36_progress.
Print Assumptions C36_calls_return.
Print Assumptions C36_choice.
