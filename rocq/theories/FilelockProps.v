(** C38: file locks exclude conflicting jobs, for every number of jobs, every interleaving and every hash. *)
From Coq Require Import ZArith List Bool Lia Arith Permutation.
From Verif Require Import CBase FilelockModel FilelockSpec FilelockProofs.
Import ListNotations.
Open Scope Z_scope.

Lemma sum_other {A} (f : A -> Z) l i x : nth_error l i = Some x -> f x < sumz f l -> exists i' x', i' <> i /\ nth_error l i' = Some x' /\ 0 < f x'.
Proof.
  revert i. induction l as [|a l IH]; intros [|i] H Hs; cbn in H; try discriminate; rewrite sumz_cons in Hs.
  - inversion H; subst. assert (0 < sumz f l) by lia. clear - H0. assert (exists i' x', nth_error l i' = Some x' /\ 0 < f x') as (i' & x' & H1 & H2).
    { induction l as [|b l IHl]; [cbn in H0; lia|]. rewrite sumz_cons in H0. destruct (Z.ltb_spec 0 (f b)); [exists 0%nat, b; auto|].
      destruct IHl as (i' & x' & H1 & H2); [lia|]. exists (S i'), x'. auto. }
    exists (S i'), x'. auto.
  - destruct (Z.ltb_spec 0 (f a)); [exists 0%nat, a; repeat split; auto|].
    destruct (IH i H) as (i' & x' & H1 & H2 & H3); [lia|]. exists (S i'), x'. auto.
Qed.
Lemma sum_some {A} (f : A -> Z) l : 0 < sumz f l -> exists i' x', nth_error l i' = Some x' /\ 0 < f x'.
Proof.
  induction l as [|b l IHl]; [cbn; lia|]. rewrite sumz_cons. intros H0. destruct (Z.ltb_spec 0 (f b)); [exists 0%nat, b; auto|].
  destruct IHl as (i' & x' & H1 & H2); [lia|]. exists (S i'), x'. auto.
Qed.
Lemma cnt_pos hash h hl : 0 < cnt hash h hl -> exists n, In n hl /\ hash n = h.
Proof.
  unfold cnt. intros H. apply sum_some in H. destruct H as (i & n & H1 & H2). exists n. split; [exact (nth_error_In _ _ H1)|].
  destruct (Z.eqb_spec (hash n) h); [assumption|cbn in H2; lia].
Qed.
Lemma cnt_two hash h a b : In a b -> forall c, In c b -> hash a = h -> hash c = h -> cnt hash h b <= 1 -> a = c.
Proof.
  induction b as [|x l IH]; intros H c H' Ea Ec Hc; [inversion H|]. rewrite cnt_cons in Hc. pose proof (cnt_nonneg hash h l).
  destruct H as [->|H], H' as [->|H']; [reflexivity | | |].
  - pose proof (cnt_in hash h l c H' Ec). rewrite Ea, Z.eqb_refl in Hc. cbn [b2z] in Hc. lia.
  - pose proof (cnt_in hash h l a H Ea). rewrite Ec, Z.eqb_refl in Hc. cbn [b2z] in Hc. lia.
  - pose proof (b2z_range (hash x =? h)). apply IH; auto. lia.
Qed.

Section Props.
Variable hash : Z -> Z.
Variable MAX k : nat.
Hypothesis Hk : Z.of_nat k < 2 ^ 32 - 2.
Variable s : st.
Hypothesis Hr : reach hash MAX k s.

Let Hi : Inv hash MAX k s.
Proof. exact (reach_inv hash MAX k Hk s Hr). Qed.

Lemma held_lock i n : holds s i n -> exists ff, In ff (used s) /\ fh s ff = hash n /\ sem s ff = 0.
Proof.
  intros (j & Hj & Hn). pose proof (proj2 (i_jok _ _ _ s Hi _ _ Hj)) as Hl. rewrite Forall_forall in Hl. destruct (Hl n Hn) as (ff & Hu & Hh).
  exists ff. repeat split; auto. rewrite (i_sem _ _ _ s Hi ff Hu). pose proof (i_sem0 _ _ _ s Hi ff) as H0. rewrite (i_sem _ _ _ s Hi ff Hu) in H0.
  pose proof (sumz_ge _ _ _ _ (thold_nonneg hash ff (fh s ff)) Hj). pose proof (cnt_in hash (fh s ff) (held j) n Hn (eq_sym Hh)).
  unfold thold in H. pose proof (pchold_range hash ff (fh s ff) (at_ j)). unfold thold in *. lia.
Qed.

Theorem exclusive i i' n n' : holds s i n -> holds s i' n' -> hash n = hash n' -> i = i' /\ n = n'.
Proof.
  intros H1 H2 E. destruct (held_lock _ _ H1) as (ff & Hu & Hh & Hs). destruct H1 as (j & Hj & Hn), H2 as (j' & Hj' & Hn').
  pose proof (i_sem _ _ _ s Hi ff Hu) as Hsem. pose proof (cnt_in hash (fh s ff) _ n Hn (eq_sym Hh)). pose proof (cnt_in hash (fh s ff) _ n' Hn' (eq_sym (eq_trans Hh E))).
  pose proof (pchold_range hash ff (fh s ff) (at_ j)). pose proof (pchold_range hash ff (fh s ff) (at_ j')).
  destruct (Nat.eq_dec i i') as [<-|Hne].
  - split; [reflexivity|]. rewrite Hj in Hj'. inversion Hj'; subst j'. pose proof (sumz_ge _ _ _ _ (thold_nonneg hash ff (fh s ff)) Hj) as Hg.
    unfold thold in Hg at 1. apply (cnt_two hash (fh s ff) n (held j) Hn n' Hn'); [congruence | congruence | lia].
  - pose proof (sumz_ge2 _ _ _ _ _ _ (thold_nonneg hash ff (fh s ff)) Hne Hj Hj') as Hg. unfold thold in Hg at 1 2. lia.
Qed.

Lemma once i j : nth_error (jobs s) i = Some j -> NoDup (held j).
Proof.
  intros Hj. pose proof (i_jok _ _ _ s Hi _ _ Hj) as [_ Hl].
  assert (Hc : forall n, In n (held j) -> cnt hash (hash n) (held j) <= 1).
  { intros n Hn. destruct (held_lock i n (ex_intro _ j (conj Hj Hn))) as (ff & Hu & Hh & Hs). rewrite <- Hh. pose proof (i_sem _ _ _ s Hi ff Hu) as Hsem.
    pose proof (sumz_ge _ _ _ _ (thold_nonneg hash ff (fh s ff)) Hj) as Hg. unfold thold in Hg at 1. pose proof (pchold_range hash ff (fh s ff) (at_ j)). lia. }
  clear - Hc. induction (held j) as [|n l IH]; constructor.
  - intros H. specialize (Hc n (or_introl eq_refl)). rewrite cnt_cons, Z.eqb_refl in Hc. cbn [b2z] in Hc. pose proof (cnt_in hash (hash n) l n H eq_refl). lia.
  - apply IH. intros m Hm. specialize (Hc m (or_intror Hm)). rewrite cnt_cons in Hc. pose proof (b2z_range (hash n =? hash m)). lia.
Qed.

Theorem released ff : In ff (free s) -> (forall i, ~ uses s i ff) /\ (forall i n, holds s i n -> exists f, In f (used s) /\ f <> ff /\ fh s f = hash n).
Proof.
  intros Hf. split.
  - intros i (p & hl & Hj & Hp). pose proof (proj1 (i_jok _ _ _ s Hi _ _ Hj)) as Ho. cbn [at_] in Ho.
    assert (In ff (used s)) by (destruct p; try contradiction; subst; cbn in Ho; tauto). exact (used_free hash MAX k s ff Hi H Hf).
  - intros i n H. destruct (held_lock i n H) as (f & Hu & Hh & _). exists f. repeat split; auto. intros ->. exact (used_free hash MAX k s ff Hi Hu Hf).
Qed.

(** Somebody holds, or is giving up, a lock whose semaphore is down. *)
Lemma holder ff : In ff (used s) -> sem s ff <= 0 -> exists i n, hash n = fh s ff /\ (holds s i n \/ unlocking s i n).
Proof.
  intros Hu Hs. rewrite (i_sem _ _ _ s Hi ff Hu) in Hs. destruct (sum_some (thold hash ff (fh s ff)) (jobs s)) as (i & j & Hj & Hp); [lia|].
  unfold thold in Hp. pose proof (pchold_range hash ff (fh s ff) (at_ j)). pose proof (cnt_nonneg hash (fh s ff) (held j)).
  destruct (Z.ltb_spec 0 (cnt hash (fh s ff) (held j))) as [Hc|Hc].
  - destruct (cnt_pos _ _ _ Hc) as (n & H1 & H2). exists i, n. split; [assumption|]. left. exists j. auto.
  - assert (0 < pchold hash ff (fh s ff) (at_ j)) by lia. destruct j as [p hl]. cbn [at_] in *. pose proof (proj1 (i_jok _ _ _ s Hi _ _ Hj)) as Ho. cbn [at_] in Ho.
    destruct p; cbn in *; try lia.
    + exists i, n. split; [destruct (Z.eqb_spec (hash n) (fh s ff)); cbn in *; [assumption|lia]|]. right. exists (PUnlock n), hl. auto.
    + exists i, n. split; [destruct (Z.eqb_spec (hash n) (fh s ff)); cbn in *; [assumption|lia]|]. right. exists (PUnlockIn n), hl. auto.
    + exists i, n. destruct (Nat.eqb_spec ff0 ff) as [->|]; [|cbn in *; lia]. destruct Ho as (_ & Ho & _). split; [congruence|]. right. exists (PUnlB n ff r), hl. auto.
Qed.

Theorem wait_has_holder i n ff : waiting s i n ff -> sem s ff <= 0 -> exists i' n', hash n' = hash n /\ (holds s i' n' \/ unlocking s i' n').
Proof.
  intros (t & hl & Hj) Hs. destruct (proj1 (i_jok _ _ _ s Hi _ _ Hj)) as [Hu Hh]. destruct (holder ff Hu Hs) as (i' & n' & H1 & H2). exists i', n'. split; [congruence|assumption].
Qed.

Theorem quiet_free : quiet s -> used s = [] /\ Permutation (free s) (seq 0 MAX).
Proof.
  intros Hq. unfold quiet in Hq. rewrite Forall_forall in Hq. assert (Hjobs : forall i j, nth_error (jobs s) i = Some j -> j = mkJob PIdle []) by (intros i j H; apply Hq; exact (nth_error_In _ _ H)).
  assert (Hu : used s = []).
  { destruct (used s) as [|ff u] eqn:E; [reflexivity|]. assert (Hff : In ff (used s)) by (rewrite E; now left).
    pose proof (i_live _ _ _ s Hi ff Hff) as Hl. rewrite (i_refs _ _ _ s Hi ff Hff) in Hl.
    rewrite !sumz_zero in Hl; [lia | |]; intros i j H; rewrite (Hjobs i j H); reflexivity. }
  split; [assumption|]. pose proof (i_nodup _ _ _ s Hi) as Hn. pose proof (i_all _ _ _ s Hi) as Ha. rewrite Hu in Hn, Ha. cbn [app] in Hn, Ha.
  apply NoDup_Permutation; [assumption|apply seq_NoDup|]. intros x. rewrite Ha, in_seq. lia.
Qed.

Theorem unlock_finds i n hl : nth_error (jobs s) i = Some (mkJob (PUnlockIn n) hl) -> exists ff, find s (hash n) = Some ff.
Proof. intros Hj. apply (find_listed hash MAX k s n Hi). exact (proj1 (i_jok _ _ _ s Hi _ _ Hj)). Qed.

Theorem try_fails_busy i n ff hl : nth_error (jobs s) i = Some (mkJob (PTryIn n ff) hl) -> refs s ff <> 1 ->
  exists i', (exists n', hash n' = hash n /\ (holds s i' n' \/ unlocking s i' n')) \/ (i' <> i /\ uses s i' ff).
Proof.
  intros Hj Hn. pose proof (i_jok _ _ _ s Hi _ _ Hj) as [[Hu Hh] _]. pose proof (i_refs _ _ _ s Hi ff Hu) as Er.
  pose proof (sumz_ge _ _ _ _ (tref_nonneg hash ff (fh s ff)) Hj) as Hg.
  destruct (Z.ltb_spec 0 (cnt hash (fh s ff) hl)) as [Hc|Hc].
  - destruct (cnt_pos _ _ _ Hc) as (n' & H1 & H2). exists i. left. exists n'. split; [congruence|]. left. exists (mkJob (PTryIn n ff) hl). auto.
  - assert (E : tref hash ff (fh s ff) (mkJob (PTryIn n ff) hl) = 1).
    { unfold tref. cbn [at_ held pcref]. rewrite Nat.eqb_refl. cbn [b2z]. pose proof (cnt_nonneg hash (fh s ff) hl). lia. }
    destruct (sum_other (tref hash ff (fh s ff)) _ _ _ Hj) as (i' & j & Hne & Hj' & Hp); [lia|]. exists i'. unfold tref in Hp.
    destruct (Z.ltb_spec 0 (cnt hash (fh s ff) (held j))) as [Hc'|Hc'].
    + destruct (cnt_pos _ _ _ Hc') as (n' & H1 & H2). left. exists n'. split; [congruence|]. left. exists j. auto.
    + assert (Hpp : 0 < pcref hash ff (fh s ff) (at_ j)) by lia. destruct j as [p hl']. cbn [at_] in Hpp. destruct p; cbn in Hpp; try lia;
        try (right; split; [assumption|]; eexists _, _; split; [exact Hj'|]; cbn; destruct (Nat.eqb_spec ff0 ff); [assumption|cbn in Hpp; lia]);
        left; exists n0; (split; [destruct (Z.eqb_spec (hash n0) (fh s ff)); cbn in *; [congruence|lia]|]); right; eexists _, _; (split; [exact Hj'|]); reflexivity.
Qed.

Theorem try_full : free s = [] -> forall ff, (ff < MAX)%nat -> exists i n, (holds s i n \/ unlocking s i n) /\ fh s ff = hash n \/ uses s i ff.
Proof.
  intros Hf ff Hff. assert (Hu : In ff (used s)) by (pose proof (i_all _ _ _ s Hi ff) as H; rewrite Hf, app_nil_r in H; now apply H).
  pose proof (i_live _ _ _ s Hi ff Hu) as Hl. rewrite (i_refs _ _ _ s Hi ff Hu), <- sumz_add in Hl.
  destruct (sum_some (fun x => tref hash ff (fh s ff) x + tunl ff x) (jobs s)) as (i & j & Hj & Hp); [lia|]. unfold tref, tunl in Hp.
  destruct (Z.ltb_spec 0 (cnt hash (fh s ff) (held j))) as [Hc|Hc].
  - destruct (cnt_pos _ _ _ Hc) as (n & H1 & H2). exists i, n. left. split; [left; exists j; auto|congruence].
  - destruct j as [p hl]. cbn [at_ held] in *. pose proof (cnt_nonneg hash (fh s ff) hl). destruct p; cbn in Hp; try lia;
      try (exists i, 0; right; eexists _, _; split; [exact Hj|]; cbn; destruct (Nat.eqb_spec ff0 ff); [assumption|cbn in Hp; lia]);
      exists i, n; left; (split; [right; eexists _, _; split; [exact Hj|reflexivity] | destruct (Z.eqb_spec (hash n) (fh s ff)); cbn in *; [congruence|lia]]).
Qed.

Lemma can_go i p hl : nth_error (jobs s) i = Some (mkJob p hl) -> pcin p = 1 -> exists s' j', step hash s s' /\ nth_error (jobs s') i = Some j' /\ at_ j' <> p.
Proof.
  intros Hj Hp. assert (Hil : (i < length (jobs s))%nat) by (apply nth_error_Some; rewrite Hj; discriminate).
  assert (E : forall j, nth_error (upd (jobs s) i j) i = Some j) by (intros; now apply upd_nth_error_same).
  destruct p; cbn in Hp; try lia.
  - destruct (find s (hash n)) as [ff|] eqn:F; [|destruct (free s) as [|ff fs] eqn:Fr].
    + do 2 eexists. split; [exact (Found hash s _ _ _ _ _ Hj F)|]. split; [apply E|]. destruct try; discriminate.
    + destruct try.
      * do 2 eexists. split; [exact (NoneTry hash s _ _ _ Hj F Fr)|]. split; [apply E|discriminate].
      * do 2 eexists. split; [exact (NoneSleep hash s _ _ _ Hj F Fr)|]. split; [apply E|discriminate].
    + do 2 eexists. split; [exact (New hash s _ _ _ _ _ _ Hj F Fr)|]. split; [apply E|]. destruct try; discriminate.
  - destruct (free s) as [|ff fs] eqn:Fr; [|destruct (find s (hash n)) as [f|] eqn:F].
    + do 2 eexists. split; [exact (RetryNone hash s _ _ _ Hj Fr)|]. split; [apply E|discriminate].
    + do 2 eexists. split; [exact (RetryFound hash s _ _ _ _ _ _ Hj Fr F)|]. split; [apply E|discriminate].
    + do 2 eexists. split; [exact (RetryNew hash s _ _ _ _ _ Hj Fr F)|]. split; [apply E|discriminate].
  - destruct (Z.eq_dec (refs s ff) 1) as [Er|Er].
    + do 2 eexists. split; [exact (TryAlone hash s _ _ _ _ Hj Er)|]. split; [apply E|discriminate].
    + do 2 eexists. split; [exact (TryFails hash s _ _ _ _ Hj Er)|]. split; [apply E|discriminate].
  - destruct (find s (hash n)) as [ff|] eqn:F.
    + do 2 eexists. split; [exact (UnlockA hash s _ _ _ _ Hj F)|]. split; [apply E|discriminate].
    + do 2 eexists. split; [exact (UnlockNone hash s _ _ _ Hj F)|]. split; [apply E|discriminate].
  - do 2 eexists. split; [exact (UnlockB hash s _ _ _ _ _ Hj)|]. split; [apply E|discriminate].
  - destruct (Z.eq_dec r 0) as [->|Er].
    + do 2 eexists. split; [exact (UnlockFree hash s _ _ _ _ Hj)|]. split; [apply E|discriminate].
    + do 2 eexists. split; [exact (UnlockC hash s _ _ _ _ _ Hj Er)|]. split; [apply E|discriminate].
Qed.

Theorem no_deadlock :
  (exists i p hl s' j', nth_error (jobs s) i = Some (mkJob p hl) /\ p <> PIdle /\ step hash s s' /\ nth_error (jobs s') i = Some j' /\ at_ j' <> p)
  \/ (forall i p hl, nth_error (jobs s) i = Some (mkJob p hl) -> p = PIdle \/ exists n ff t i' n', p = PWait n ff t /\ holds s i' n' /\ hash n' = hash n).
Proof.
  destruct (Z.eq_dec (main s) 0) as [E|E].
  { left. rewrite (i_main _ _ _ s Hi) in E. destruct (sum_some tin (jobs s)) as (i & [p hl] & Hj & Hp); [lia|]. unfold tin in Hp. cbn [at_] in Hp.
    assert (Hp1 : pcin p = 1) by (pose proof (pcin_range p); lia). destruct (can_go i p hl Hj Hp1) as (s' & j' & H1 & H2 & H3).
    exists i, p, hl, s', j'. repeat split; auto. intros ->. cbn in Hp. lia. }
  pose proof (i_main0 _ _ _ s Hi) as Hm0. assert (Hm : 0 < main s) by lia. clear E Hm0.
  set (go := fun j => match at_ j with PIdle => false | PWait _ ff _ => 0 <? sem s ff | _ => true end).
  destruct (existsb go (jobs s)) eqn:Ex.
  - left. apply existsb_exists in Ex. destruct Ex as ([p hl] & Hin & Hg). apply In_nth_error in Hin. destruct Hin as (i & Hj). unfold go in Hg. cbn [at_] in Hg.
    assert (Hil : (i < length (jobs s))%nat) by (apply nth_error_Some; rewrite Hj; discriminate).
    assert (E : forall j, nth_error (upd (jobs s) i j) i = Some j) by (intros; now apply upd_nth_error_same).
    exists i, p, hl. destruct p; try discriminate;
      try (destruct (can_go i _ hl Hj eq_refl) as (s' & j' & H1 & H2 & H3); exists s', j'; repeat split; auto; discriminate).
    + do 2 eexists. repeat split; [exact Hj | discriminate | exact (DownLock hash s _ _ _ _ Hj Hm) | apply E | discriminate].
    + do 2 eexists. repeat split; [exact Hj | discriminate | exact (DownRetry hash s _ _ _ Hj Hm) | apply E | discriminate].
    + apply Z.ltb_lt in Hg. do 2 eexists. repeat split; [exact Hj | discriminate | exact (Granted hash s _ _ _ _ _ Hj Hg) | apply E | discriminate].
    + destruct (Z.ltb_spec 0 (sem s ff)) as [Hs|Hs].
      * do 2 eexists. repeat split; [exact Hj | discriminate | exact (TryGranted hash s _ _ _ _ Hj Hs) | apply E | discriminate].
      * do 2 eexists. repeat split; [exact Hj | discriminate | exact (TryBusy hash s _ _ _ _ Hj Hs) | apply E | discriminate].
    + do 2 eexists. repeat split; [exact Hj | discriminate | exact (DownTry hash s _ _ _ _ Hj Hm) | apply E | discriminate].
    + do 2 eexists. repeat split; [exact Hj | discriminate | exact (DownUnlock hash s _ _ _ Hj Hm) | apply E | discriminate].
  - right. assert (Hn : forall i j, nth_error (jobs s) i = Some j -> go j = false).
    { intros i j Hj. apply nth_error_In in Hj. destruct (go j) eqn:G; [|reflexivity]. rewrite <- Ex. symmetry. apply existsb_exists. eauto. }
    intros i p hl Hj. pose proof (Hn _ _ Hj) as Hg. unfold go in Hg. cbn [at_] in Hg. destruct p; try discriminate; [now left|]. right.
    apply Z.ltb_ge in Hg. destruct (wait_has_holder i n ff (ex_intro _ try (ex_intro _ hl Hj)) Hg) as (i' & n' & H1 & [H2|(p & hl' & H2 & H3)]).
    + exists n, ff, try, i', n'. auto.
    + pose proof (Hn _ _ H2) as G. unfold go in G. cbn [at_] in G. destruct p; try contradiction; discriminate.
Qed.
End Props.

(** At most one job holds the lock of a name, and it holds it once; even names that only share their hash exclude each other. *)
Theorem C38_exclusive : forall hash MAX k s i i' n n', Z.of_nat k < 2 ^ 32 - 2 -> reach hash MAX k s ->
  holds s i n -> holds s i' n' -> hash n = hash n' -> i = i' /\ n = n'.
Proof. intros. eapply exclusive; eassumption. Qed.
Theorem C38_one_holder : forall hash MAX k s i i' n, Z.of_nat k < 2 ^ 32 - 2 -> reach hash MAX k s -> holds s i n -> holds s i' n -> i = i'.
Proof. intros hash MAX k s i i' n H Hr H1 H2. exact (proj1 (exclusive hash MAX k H s Hr i i' n n H1 H2 eq_refl)). Qed.
Theorem C38_held_once : forall hash MAX k s i j, Z.of_nat k < 2 ^ 32 - 2 -> reach hash MAX k s -> nth_error (jobs s) i = Some j -> NoDup (held j).
Proof. intros hash MAX k s i j H Hr. exact (once hash MAX k H s Hr i j). Qed.
(** A released lock structure is in nobody's hands, and every held name has another one. *)
Theorem C38_released : forall hash MAX k s ff, Z.of_nat k < 2 ^ 32 - 2 -> reach hash MAX k s -> In ff (free s) ->
  (forall i, ~ uses s i ff) /\ (forall i n, holds s i n -> exists f, In f (used s) /\ f <> ff /\ fh s f = hash n).
Proof. intros hash MAX k s ff H Hr. exact (released hash MAX k H s Hr ff). Qed.
(** A job waits only while another call holds the lock or is giving it up. *)
Theorem C38_wait_has_holder : forall hash MAX k s i n ff, Z.of_nat k < 2 ^ 32 - 2 -> reach hash MAX k s -> waiting s i n ff -> sem s ff <= 0 ->
  exists i' n', hash n' = hash n /\ (holds s i' n' \/ unlocking s i' n').
Proof. intros hash MAX k s i n ff H Hr. exact (wait_has_holder hash MAX k H s Hr i n ff). Qed.
(** The lock code itself never deadlocks: when no call can go on, every job is outside or waits for a lock some job holds. *)
Theorem C38_no_deadlock : forall hash MAX k s, Z.of_nat k < 2 ^ 32 - 2 -> reach hash MAX k s ->
  (exists i p hl s' j', nth_error (jobs s) i = Some (mkJob p hl) /\ p <> PIdle /\ step hash s s' /\ nth_error (jobs s') i = Some j' /\ at_ j' <> p)
  \/ (forall i p hl, nth_error (jobs s) i = Some (mkJob p hl) -> p = PIdle \/ exists n ff t i' n', p = PWait n ff t /\ holds s i' n' /\ hash n' = hash n).
Proof. intros hash MAX k s H Hr. exact (no_deadlock hash MAX k H s Hr). Qed.
(** When every job is outside and holds nothing, all locks are free again: the assertion of fio_filelock_exit, filelock.c:107. *)
Theorem C38_all_free : forall hash MAX k s, Z.of_nat k < 2 ^ 32 - 2 -> reach hash MAX k s -> quiet s -> used s = [] /\ Permutation (free s) (seq 0 MAX).
Proof. intros hash MAX k s H Hr. exact (quiet_free hash MAX k H s Hr). Qed.
(** An unlock always finds its lock. *)
Theorem C38_unlock_finds : forall hash MAX k s i n hl, Z.of_nat k < 2 ^ 32 - 2 -> reach hash MAX k s -> nth_error (jobs s) i = Some (mkJob (PUnlockIn n) hl) ->
  exists ff, find s (hash n) = Some ff.
Proof. intros hash MAX k s i n hl H Hr. exact (unlock_finds hash MAX k H s Hr i n hl). Qed.
(** A trylock gives up only when another call has to do with the same lock, or when all locks are in use. *)
Theorem C38_try_fails_busy : forall hash MAX k s i n ff hl, Z.of_nat k < 2 ^ 32 - 2 -> reach hash MAX k s ->
  nth_error (jobs s) i = Some (mkJob (PTryIn n ff) hl) -> refs s ff <> 1 ->
  exists i', (exists n', hash n' = hash n /\ (holds s i' n' \/ unlocking s i' n')) \/ (i' <> i /\ uses s i' ff).
Proof. intros hash MAX k s i n ff hl H Hr. exact (try_fails_busy hash MAX k H s Hr i n ff hl). Qed.
Theorem C38_try_fails_full : forall hash MAX k s, Z.of_nat k < 2 ^ 32 - 2 -> reach hash MAX k s -> free s = [] ->
  forall ff, (ff < MAX)%nat -> exists i n, (holds s i n \/ unlocking s i n) /\ fh s ff = hash n \/ uses s i ff.
Proof. intros hash MAX k s H Hr. exact (try_full hash MAX k H s Hr). Qed.

(** Runs, to compute examples: the next step of a job. *)
Inductive act := Go | Lock (n : Z) (t : bool) | Unlock (n : Z).
Definition exec (hash : Z -> Z) (s : st) (i : nat) (a : act) : option st :=
  match nth_error (jobs s) i with
  | None => None
  | Some (mkJob p hl) =>
    match p, a with
    | PIdle, Lock n t => Some (put s i (main s) (mkJob (PLock n t) hl))
    | PIdle, Unlock n => match hl with m :: b => if m =? n then Some (put s i (main s) (mkJob (PUnlock m) b)) else None | [] => None end
    | PLock n t, Go => if 0 <? main s then Some (put s i (main s - 1) (mkJob (PLockIn n t) hl)) else None
    | PTryMain n ff, Go => if 0 <? main s then Some (put s i (main s - 1) (mkJob (PTryIn n ff) hl)) else None
    | PUnlock n, Go => if 0 <? main s then Some (put s i (main s - 1) (mkJob (PUnlockIn n) hl)) else None
    | PLockIn n t, Go => match find s (hash n), free s with Some ff, _ => Some (take s i n ff t hl) | None, ff :: fs => Some (fresh hash s i n ff fs t hl) | _, _ => None end
    | PWait n ff t, Go => if 0 <? sem s ff then Some (mkSt (main s) (used s) (free s) (fh s) (set (sem s) ff (sem s ff - 1)) (refs s) (upd (jobs s) i (mkJob PIdle (n :: hl)))) else None
    | PTry n ff, Go => if 0 <? sem s ff then Some (mkSt (main s) (used s) (free s) (fh s) (set (sem s) ff (sem s ff - 1)) (refs s) (upd (jobs s) i (mkJob PIdle (n :: hl))))
                       else Some (put s i (main s) (mkJob (PTryMain n ff) hl))
    | PTryIn n ff, Go => if refs s ff =? 1 then Some (put s i (main s + 1) (mkJob (PWait n ff true) hl))
                         else Some (mkSt (main s + 1) (used s) (free s) (fh s) (sem s) (set (refs s) ff (u32 (refs s ff - 1))) (upd (jobs s) i (mkJob PIdle hl)))
    | PUnlockIn n, Go => match find s (hash n) with
        | Some ff => Some (mkSt (main s) (used s) (free s) (fh s) (sem s) (set (refs s) ff (u32 (refs s ff - 1))) (upd (jobs s) i (mkJob (PUnlB n ff (u32 (refs s ff - 1))) hl)))
        | None => None end
    | PUnlB n ff r, Go => Some (mkSt (main s) (used s) (free s) (fh s) (set (sem s) ff (sem s ff + 1)) (refs s) (upd (jobs s) i (mkJob (PUnlC n ff r) hl)))
    | PUnlC n ff r, Go => if r =? 0 then Some (mkSt (main s + 1) (List.remove Nat.eq_dec ff (used s)) (ff :: free s) (fh s) (sem s) (refs s) (upd (jobs s) i (mkJob PIdle hl)))
                          else Some (put s i (main s + 1) (mkJob PIdle hl))
    | _, _ => None
    end
  end.
Lemma exec_step hash s i a s' : exec hash s i a = Some s' -> step hash s s'.
Proof.
  unfold exec. destruct (nth_error (jobs s) i) as [[p hl]|] eqn:Hj; [|discriminate]. destruct p, a; try discriminate.
  - intros H; inversion H; subst. now apply CallLock.
  - destruct hl as [|m b]; [discriminate|]. destruct (m =? n); [|discriminate]. intros H; inversion H; subst. exact (CallUnlock hash s i m [] b Hj).
  - destruct (Z.ltb_spec 0 (main s)); [|discriminate]. intros E; inversion E; subst. now apply DownLock.
  - destruct (find s (hash n)) eqn:F; [intros E; inversion E; subst; now apply Found|]. destruct (free s) eqn:Fr; [discriminate|]. intros E; inversion E; subst. now apply New.
  - destruct (Z.ltb_spec 0 (sem s ff)); [|discriminate]. intros E; inversion E; subst. now apply Granted with (try := try).
  - destruct (Z.ltb_spec 0 (sem s ff)); intros E; inversion E; subst; [now apply TryGranted | now apply TryBusy].
  - destruct (Z.ltb_spec 0 (main s)); [|discriminate]. intros E; inversion E; subst. now apply DownTry.
  - destruct (Z.eqb_spec (refs s ff) 1); intros E; inversion E; subst; [now apply TryAlone | now apply TryFails with (n := n)].
  - destruct (Z.ltb_spec 0 (main s)); [|discriminate]. intros E; inversion E; subst. now apply DownUnlock.
  - destruct (find s (hash n)) eqn:F; [|discriminate]. intros E; inversion E; subst. now apply UnlockA.
  - intros E; inversion E; subst. now apply UnlockB.
  - destruct (Z.eqb_spec r 0) as [->|]; intros E; inversion E; subst; [now apply UnlockFree with (n := n) | now apply UnlockC with (n := n) (ff := ff) (r := r)].
Qed.
Fixpoint runs (hash : Z -> Z) (s : st) (l : list (nat * act)) : option st :=
  match l with [] => Some s | (i, a) :: l => match exec hash s i a with Some s' => runs hash s' l | None => None end end.
Lemma runs_reach hash MAX k s l s' : reach hash MAX k s -> runs hash s l = Some s' -> reach hash MAX k s'.
Proof.
  revert s. induction l as [|[i a] l IH]; cbn; intros s Hr H; [now inversion H; subst|]. destruct (exec hash s i a) as [s1|] eqn:E; [|discriminate].
  apply (IH s1); [|exact H]. exact (RStep _ _ _ _ _ Hr (exec_step _ _ _ _ _ E)).
Qed.

(** fio_trylock_file can block: job 1 finds itself alone after job 0 unlocked, but job 2 takes the lock before it. *)
Definition blocked_run : list (nat * act) :=
  [(0, Lock 5 false); (0, Go); (0, Go); (0, Go); (1, Lock 5 true); (1, Go); (1, Go); (1, Go); (0, Unlock 5); (0, Go); (0, Go); (0, Go); (0, Go);
   (1, Go); (1, Go); (2, Lock 5 true); (2, Go); (2, Go); (2, Go)]%nat.
Theorem C38_trylock_blocks_refuted : exists s, reach (fun n => n) 1024 3 s /\ nth_error (jobs s) 1 = Some (mkJob (PWait 5 0 true) []) /\ sem s 0 = 0 /\ holds s 2 5.
Proof.
  destruct (runs (fun n => n) (init 1024 3 (fun _ => 0) (fun _ => 0)) blocked_run) as [s|] eqn:E.
  - exists s. split; [exact (runs_reach _ _ _ _ _ _ (RInit _ _ _ _ _) E)|].
    assert (G : option_map (fun s => (jobs s, sem s 0)) (runs (fun n => n) (init 1024 3 (fun _ => 0) (fun _ => 0)) blocked_run) =
                Some ([mkJob PIdle []; mkJob (PWait 5 0 true) []; mkJob PIdle [5]], 0)) by (vm_compute; reflexivity).
    rewrite E in G. cbn [option_map] in G. inversion G as [[G1 G2]]. rewrite G1. repeat split; auto. exists (mkJob PIdle [5]). rewrite G1. cbn. auto.
  - exfalso. assert (G : option_map (fun s => main s) (runs (fun n => n) (init 1024 3 (fun _ => 0) (fun _ => 0)) blocked_run) = Some 1) by (vm_compute; reflexivity).
    rewrite E in G. discriminate.
Qed.
(** Two names with one hash share their lock, so that one job that locks both waits for itself and nothing moves any more. *)
Definition collide_run : list (nat * act) := [(0, Lock 1 false); (0, Go); (0, Go); (0, Go); (0, Lock 2 false); (0, Go); (0, Go)]%nat.
Theorem C38_collision_refuted : exists s, reach (fun _ => 7) 1024 1 s /\ holds s 0 1 /\ waiting s 0 2 0 /\ forall s', ~ step (fun _ => 7) s s'.
Proof.
  destruct (runs (fun _ => 7) (init 1024 1 (fun _ => 0) (fun _ => 0)) collide_run) as [s|] eqn:E.
  - exists s. split; [exact (runs_reach _ _ _ _ _ _ (RInit _ _ _ _ _) E)|].
    assert (G : option_map (fun s => (jobs s, sem s 0)) (runs (fun _ => 7) (init 1024 1 (fun _ => 0) (fun _ => 0)) collide_run) =
                Some ([mkJob (PWait 2 0 false) [1]], 0)) by (vm_compute; reflexivity).
    rewrite E in G. cbn [option_map] in G. inversion G as [[G1 G2]]. repeat split.
    + exists (mkJob (PWait 2 0 false) [1]). rewrite G1. cbn. auto.
    + exists false, [1]. now rewrite G1.
    + intros s' H. clear E. assert (Hone : forall i j, nth_error (jobs s) i = Some j -> j = mkJob (PWait 2 0 false) [1]).
      { intros i j Hj. rewrite G1 in Hj. destruct i as [|[|i]]; cbn in Hj; congruence. }
      destruct H; match goal with Hj : nth_error (jobs s) _ = Some _ |- _ => apply Hone in Hj; try discriminate Hj; inversion Hj; subst end. lia.
  - exfalso. assert (G : option_map (fun s => main s) (runs (fun _ => 7) (init 1024 1 (fun _ => 0) (fun _ => 0)) collide_run) = Some 1) by (vm_compute; reflexivity).
    rewrite E in G. discriminate.
Qed.

(** Three jobs: one holds, one waits, one was turned away; after the unlock the waiting one gets the lock. *)
Example C38_example :
  option_map (fun s => (jobs s, used s, sem s 0, refs s 0)) (runs (fun n => n) (init 1024 3 (fun _ => 0) (fun _ => 0))
    [(0, Lock 5 false); (0, Go); (0, Go); (0, Go); (1, Lock 5 false); (1, Go); (1, Go); (2, Lock 5 true); (2, Go); (2, Go); (2, Go); (2, Go); (2, Go)]%nat)
    = Some ([mkJob PIdle [5]; mkJob (PWait 5 0 false) []; mkJob PIdle []], [0%nat], 0, 2) /\
  option_map (fun s => (jobs s, used s, sem s 0, refs s 0)) (runs (fun n => n) (init 1024 2 (fun _ => 0) (fun _ => 0))
    [(0, Lock 5 false); (0, Go); (0, Go); (0, Go); (1, Lock 5 false); (1, Go); (1, Go); (0, Unlock 5); (0, Go); (0, Go); (0, Go); (1, Go); (0, Go)]%nat)
    = Some ([mkJob PIdle []; mkJob PIdle [5]], [0%nat], 0, 1).
Proof. vm_compute. auto. Qed.

Print Assumptions C38_exclusive.
Print Assumptions C38_one_holder.
Print Assumptions C38_held_once.
Print Assumptions C38_released.
Print Assumptions C38_wait_has_holder.
Print Assumptions C38_no_deadlock.
Print Assumptions C38_all_free.
Print Assumptions C38_unlock_finds.
Print Assumptions C38_try_fails_busy.
Print Assumptions C38_try_fails_full.
Print Assumptions C38_trylock_blocks_refuted.
Print Assumptions C38_collision_refuted.
