(** Proofs about the semaphores. *)
From Coq Require Import ZArith List Lia Bool Arith.
From Verif Require Import SemModel SemSpec.
Import ListNotations.
Open Scope Z_scope.

Ltac sim := cbn [value waiters lck pc mono real base tr s_pc s_val s_wai s_lck s_clk s_base log] in *.

Lemma up_same : forall A (f : nat -> A) i v, up f i v i = v.
Proof. intros A f i v. unfold up. rewrite Nat.eqb_refl. reflexivity. Qed.
Lemma up_other : forall A (f : nat -> A) i v j, j <> i -> up f i v j = f j.
Proof. intros A f i v j N. unfold up. apply Nat.eqb_neq in N. rewrite N. reflexivity. Qed.

(** Who holds the mutex, who is counted as a waiter. *)
Definition holds (p : pcs) : bool :=
  match p with PIdle | PLock _ | PSleep _ | PWoken _ _ => false | _ => true end.
Definition counted (p : pcs) : bool :=
  match p with
  | PTest (Timed _) | PWait _ | PSleep _ | PWoken _ _ | PDec | PRet _ _ | PLeave _ _ => true
  | _ => false
  end.
Definition downy (o : opn) : Prop := match o with Down | Timed _ => True | _ => False end.
Definition wf (p : pcs) : Prop :=
  match p with
  | PTest o | PWait o | PSleep o => downy o
  | PWoken o t => match o with Down => t = false | Timed _ => True | _ => False end
  | PTake o => o <> Up
  | PUnlock Up r | PUnlock Down r => r = true
  | _ => True
  end.
Definition phase_of (p : pcs) : phase :=
  match p with
  | PIdle => Out
  | PLock o | PTest o | PWait o | PSleep o | PWoken o _ | PTake o => In o
  | PEnter ms | PRet ms _ | PLeave ms _ => In (Timed ms)
  | PInc | PDec => In Down
  | PTry => In Try
  | PUp1 | PUp2 _ => In Up
  | PUp3 _ => Did Up true
  | PUnlock o r => Did o r
  end.
Definition late (c : cfg) (s : st) (i : nat) (ms : Z) : Prop := base s i + ms * 1000000 <= mono s.

(** What is true of thread [j]. *)
Record tok (c : cfg) (s : st) (j : nat) : Prop := Tok {
  t_lock : holds (pc s j) = true <-> lck s = Some j;
  t_wf : wf (pc s j);
  t_val : match pc s j with
          | PTake _ | PLeave _ false => 0 < value s
          | PInc | PWait _ => value s = 0
          | PUp2 w => w = ((value s =? 0) && negb (waiters s =? 0))
          | _ => True
          end;
  t_late : match pc s j with
           | PWoken (Timed ms) true | PRet ms true => honest c = true -> late c s j ms
           | PLeave ms true | PUnlock (Timed ms) false => honest c = true \/ same c = true -> late c s j ms
           | _ => True
           end;
  t_ms : match phase_of (pc s j) with In (Timed ms) => 0 <= ms | _ => True end;
  t_base : base s j <= mono s;
  t_far : (threads c <= j)%nat -> pc s j = PIdle }.

Fixpoint cnt (p : pcs -> bool) (f : nat -> pcs) (n : nat) : Z :=
  match n with O => 0 | S n' => (if p (f n') then 1 else 0) + cnt p f n' end.

Lemma cnt_up : forall p f n i v, (i < n)%nat ->
  cnt p (up f i v) n = cnt p f n - (if p (f i) then 1 else 0) + (if p v then 1 else 0).
Proof.
  intros p f n i v. induction n as [ | n IH ]; intros L; [ lia | ]. cbn [cnt].
  destruct (Nat.eq_dec i n) as [ -> | N ].
  - rewrite up_same.
    assert (E : cnt p (up f n v) n = cnt p f n).
    { assert (G : forall m, (m <= n)%nat -> cnt p (up f n v) m = cnt p f m).
      { induction m as [ | m IHm ]; intros M; [ reflexivity | ]. cbn [cnt]. rewrite IHm by lia. rewrite up_other by lia. reflexivity. }
      apply G. lia. }
    rewrite E. lia.
  - rewrite IH by lia. rewrite up_other by lia. lia.
Qed.
Lemma cnt_pos : forall p f n i, (i < n)%nat -> p (f i) = true -> 0 < cnt p f n.
Proof.
  intros p f n i. induction n as [ | n IH ]; intros L P; [ lia | ]. cbn [cnt].
  assert (G : forall m, 0 <= cnt p f m) by (induction m as [ | m IHm ]; cbn [cnt]; [ lia | destruct (p (f m)); lia ]).
  destruct (Nat.eq_dec i n) as [ -> | N ].
  - rewrite P. specialize (G n). lia.
  - specialize (IH ltac:(lia) P). destruct (p (f n)); lia.
Qed.

Record inv (c : cfg) (s : st) : Prop := Inv {
  i_tok : forall j, tok c s j;
  i_wai : waiters s = cnt counted (pc s) (threads c);
  i_val : 0 <= value s;
  i_legal : exists f, legal (v0 c) (tr s) (value s) f /\ forall j, f j = phase_of (pc s j) }.

(** The others do not notice a step of thread [i]. *)
Lemma tok_frame : forall c s s' j, tok c s j -> holds (pc s j) = false -> lck s' <> Some j -> pc s' j = pc s j ->
  base s' j = base s j -> mono s <= mono s' -> tok c s' j.
Proof.
  intros c s s' j [T1 T2 T3 T4 T5 T6 T7] H L P B M. constructor; rewrite ?P; auto.
  - rewrite H. split; [ discriminate | intros E; contradiction ].
  - destruct (pc s j); try exact Logic.I; discriminate.
  - unfold late in *. rewrite B. destruct (pc s j) as [ | o | | | | | | [] [] | | | | | | | | | ]; try exact Logic.I; try discriminate.
    intros X. specialize (T4 X). lia.
  - rewrite B. lia.
Qed.

Lemma others_free : forall c s i j, inv c s -> (lck s = Some i \/ lck s = None) -> j <> i -> holds (pc s j) = false.
Proof.
  intros c s i j I L N. destruct (i_tok _ _ I j) as [T _ _ _ _ _ _]. destruct (holds (pc s j)); [ | reflexivity ].
  destruct T as (T & _). specialize (T eq_refl). destruct L as [L|L]; rewrite L in T; congruence.
Qed.

(** A step of thread [i] that stays within an operation and has no effect. *)
Lemma move : forall c s s' i p, inv c s -> (i < threads c)%nat -> (lck s = Some i \/ lck s = None) ->
  (lck s' = Some i \/ lck s' = None) ->
  pc s' = up (pc s) i p -> tok c s' i -> value s' = value s -> base s' = base s -> mono s' = mono s ->
  tr s' = tr s -> phase_of p = phase_of (pc s i) ->
  waiters s' = waiters s - (if counted (pc s i) then 1 else 0) + (if counted p then 1 else 0) -> inv c s'.
Proof.
  intros c s s' i p I N L L' P T V B M R PH W. constructor.
  - intros j. destruct (Nat.eq_dec j i) as [ -> | J ]; [ exact T | ].
    apply (tok_frame c s s' j (i_tok _ _ I j)).
    + apply (others_free c s i j I L J).
    + destruct L' as [E|E]; rewrite E; congruence.
    + rewrite P. apply up_other. exact J.
    + rewrite B. reflexivity.
    + lia.
  - rewrite W, P, cnt_up by exact N. rewrite (i_wai _ _ I). reflexivity.
  - rewrite V. apply (i_val _ _ I).
  - destruct (i_legal _ _ I) as (f & F1 & F2). exists f. rewrite R, V. split; [ exact F1 | ].
    intros j. rewrite F2, P. destruct (Nat.eq_dec j i) as [ -> | J ]; [ rewrite up_same; congruence | rewrite up_other by exact J; reflexivity ].
Qed.

(** A step of thread [i] with an event. *)
Lemma move_ev : forall c s s' i p e, inv c s -> (i < threads c)%nat -> (lck s = Some i \/ lck s = None) ->
  (lck s' = Some i \/ lck s' = None) ->
  pc s' = up (pc s) i p -> tok c s' i -> 0 <= value s' -> base s' = base s -> mono s' = mono s ->
  tr s' = e :: tr s ->
  (forall f g, legal (v0 c) (tr s) (value s) f -> f i = phase_of (pc s i) -> g i = phase_of p ->
     (forall j, j <> i -> g j = f j) -> legal (v0 c) (e :: tr s) (value s') g) ->
  waiters s' = waiters s - (if counted (pc s i) then 1 else 0) + (if counted p then 1 else 0) -> inv c s'.
Proof.
  intros c s s' i p e I N L L' P T V B M R LG W. constructor.
  - intros j. destruct (Nat.eq_dec j i) as [ -> | J ]; [ exact T | ].
    apply (tok_frame c s s' j (i_tok _ _ I j)).
    + apply (others_free c s i j I L J).
    + destruct L' as [E|E]; rewrite E; congruence.
    + rewrite P. apply up_other. exact J.
    + rewrite B. reflexivity.
    + lia.
  - rewrite W, P, cnt_up by exact N. rewrite (i_wai _ _ I). reflexivity.
  - exact V.
  - destruct (i_legal _ _ I) as (f & F1 & F2). exists (fun j => phase_of (pc s' j)). rewrite R. split; [ | reflexivity ].
    apply (LG f); auto.
    + rewrite P, up_same. reflexivity.
    + intros j J. rewrite P, up_other by exact J. symmetry. apply F2.
Qed.

Lemma late_now : forall c s i ms, 0 <= ms -> base s i <= mono s -> same c = true -> timed_out c i ms s = true -> late c s i ms.
Proof.
  intros c s i ms M B S T. unfold timed_out, msecs_since, now in T. rewrite S in T. apply Z.leb_le in T. unfold late.
  assert (N : mono s / 1000 * 1000 <= mono s) by (pose proof (Z.mul_div_le (mono s) 1000 ltac:(lia)); lia).
  destruct (mono s / 1000 * 1000 <? base s i) eqn:E.
  - assert (ms = 0) by lia. subst. lia.
  - apply Z.ltb_ge in E.
    pose proof (Z.mul_div_le (mono s / 1000 * 1000 - base s i) 1000000 ltac:(lia)). nia.
Qed.

(** The threads' own steps. *)
Lemma awake_inv : forall c i s s', inv c s -> (i < threads c)%nat -> awake c i s = Some s' -> inv c s'.
Proof.
  intros c i s s' I N A. pose proof (i_tok _ _ I i) as T. destruct T as [T1 T2 T3 T4 T5 T6 T7].
  pose proof (i_val _ _ I) as VP.
  assert (FAR : forall p, (threads c <= i)%nat -> p = PIdle) by (intros; lia).
  unfold awake in A. destruct (pc s i) as [ | o | ms | o | | o | o | o t | | ms t | ms r | | o | | w | w | o r ] eqn:P; try discriminate.
  - (* lock *)
    destruct (lck s) as [ k | ] eqn:L; [ discriminate | ]. injection A as <-.
    apply (move c s _ i (after_lock o) I N); sim; auto.
    + constructor; sim; rewrite ?up_same; auto; destruct o; cbn [after_lock holds wf downy phase_of]; auto; try tauto.
    + rewrite P. destruct o; reflexivity.
    + rewrite P. destruct o; cbn [after_lock counted]; lia.
  - (* waiters++ *)
    assert (L : lck s = Some i) by (apply T1; reflexivity). injection A as <-.
    apply (move c s _ i (PTest (Timed ms)) I N); sim; auto.
    + constructor; sim; rewrite ?up_same; auto; cbn; tauto.
    + rewrite P. reflexivity.
    + rewrite P. cbn [counted]. lia.
  - (* the loop condition *)
    assert (L : lck s = Some i) by (apply T1; reflexivity).
    destruct o as [ | ms | | ]; cbn [wf downy] in T2; try contradiction; injection A as <-.
    + apply (move c s _ i (if value s =? 0 then PInc else PTake Down) I N); sim; auto.
      * constructor; sim; rewrite ?up_same; auto; destruct (value s =? 0) eqn:E; cbn; auto; try tauto; try discriminate.
        -- apply Z.eqb_eq. exact E.
        -- apply Z.eqb_neq in E. lia.
      * rewrite P. destruct (value s =? 0); reflexivity.
      * rewrite P. destruct (value s =? 0); cbn [counted]; lia.
    + apply (move c s _ i (if value s =? 0 then PWait (Timed ms) else PLeave ms false) I N); sim; auto.
      * constructor; sim; rewrite ?up_same; auto; destruct (value s =? 0) eqn:E; cbn; auto; try tauto.
        -- apply Z.eqb_eq. exact E.
        -- apply Z.eqb_neq in E. lia.
      * rewrite P. destruct (value s =? 0); reflexivity.
      * rewrite P. destruct (value s =? 0); cbn [counted]; lia.
  - (* waiters++ *)
    assert (L : lck s = Some i) by (apply T1; reflexivity). injection A as <-.
    apply (move c s _ i (PWait Down) I N); sim; auto.
    + constructor; sim; rewrite ?up_same; auto; cbn; tauto.
    + rewrite P. reflexivity.
    + rewrite P. cbn [counted]. lia.
  - (* wait *)
    assert (L : lck s = Some i) by (apply T1; reflexivity). injection A as <-.
    apply (move c s _ i (PSleep o) I N); sim; auto.
    + constructor; sim; rewrite ?up_same; auto; cbn [holds]. split; discriminate.
    + rewrite P. reflexivity.
    + rewrite P. cbn [counted]. lia.
  - (* relock *)
    destruct (lck s) as [ k | ] eqn:L; [ discriminate | ]. injection A as <-.
    destruct o as [ | ms | | ]; cbn [wf] in T2; try contradiction.
    + apply (move c s _ i PDec I N); sim; auto.
      * constructor; sim; rewrite ?up_same; auto; cbn; tauto.
      * rewrite P. reflexivity.
      * rewrite P. cbn [counted]. lia.
    + apply (move c s _ i (PRet ms t) I N); sim; auto.
      * constructor; sim; rewrite ?up_same; auto; cbn; tauto.
      * rewrite P. reflexivity.
      * rewrite P. cbn [counted]. lia.
  - (* waiters-- *)
    assert (L : lck s = Some i) by (apply T1; reflexivity). injection A as <-.
    apply (move c s _ i (PTest Down) I N); sim; auto.
    + constructor; sim; rewrite ?up_same; auto; cbn; tauto.
    + rewrite P. reflexivity.
    + rewrite P. cbn [counted]. lia.
  - (* the check *)
    assert (L : lck s = Some i) by (apply T1; reflexivity). injection A as <-. cbn [phase_of] in T5.
    apply (move c s _ i (if t && timed_out c i ms s then PLeave ms true else PTest (Timed ms)) I N); sim; auto.
    + constructor; sim; rewrite ?up_same; auto; destruct (t && timed_out c i ms s) eqn:E; cbn; auto; try tauto.
      apply andb_true_iff in E. destruct E as (-> & E). intros [H|H].
      * exact (T4 H).
      * change (late c s i ms). apply late_now; assumption.
    + rewrite P. destruct (t && timed_out c i ms s); reflexivity.
    + rewrite P. destruct (t && timed_out c i ms s); cbn [counted]; lia.
  - (* leave *)
    assert (L : lck s = Some i) by (apply T1; reflexivity). injection A as <-. destruct r.
    + apply (move_ev c s _ i (PUnlock (Timed ms) false) (Eff i (Timed ms) false) I N); sim; auto.
      * constructor; sim; rewrite ?up_same; auto; cbn; tauto.
      * intros f g F1 F2 G1 G2. rewrite P in F2. eapply LEff; [ exact F1 | exact F2 | reflexivity | exact G1 | exact G2 ].
      * rewrite P. cbn [counted]. lia.
    + apply (move c s _ i (PTake (Timed ms)) I N); sim; auto.
      * constructor; sim; rewrite ?up_same; auto; cbn; try tauto. discriminate.
      * rewrite P. reflexivity.
      * rewrite P. cbn [counted]. lia.
  - (* trylock *)
    assert (L : lck s = Some i) by (apply T1; reflexivity). injection A as <-. destruct (value s =? 0) eqn:E.
    + apply Z.eqb_eq in E. apply (move_ev c s _ i (PUnlock Try false) (Eff i Try false) I N); sim; auto.
      * constructor; sim; rewrite ?up_same; auto; cbn; tauto.
      * intros f g F1 F2 G1 G2. rewrite P in F2. eapply LEff; [ exact F1 | exact F2 | cbn; auto | exact G1 | exact G2 ].
      * rewrite P. cbn [counted]. lia.
    + apply Z.eqb_neq in E. apply (move c s _ i (PTake Try) I N); sim; auto.
      * constructor; sim; rewrite ?up_same; auto; cbn; try tauto; try discriminate. lia.
      * rewrite P. reflexivity.
      * rewrite P. cbn [counted]. lia.
  - (* value-- *)
    assert (L : lck s = Some i) by (apply T1; reflexivity). injection A as <-.
    apply (move_ev c s _ i (PUnlock o true) (Eff i o true) I N); sim; auto.
    + constructor; sim; rewrite ?up_same; auto; cbn; try tauto; destruct o; auto.
    + lia.
    + intros f g F1 F2 G1 G2. rewrite P in F2. eapply LEff; [ exact F1 | exact F2 | | exact G1 | exact G2 ].
      destruct o; cbn; auto. cbn in T2. congruence.
    + rewrite P. cbn [counted]. lia.
  - (* whether to wake *)
    assert (L : lck s = Some i) by (apply T1; reflexivity). injection A as <-.
    apply (move c s _ i (PUp2 ((value s =? 0) && negb (waiters s =? 0))) I N); sim; auto.
    + constructor; sim; rewrite ?up_same; auto; cbn; tauto.
    + rewrite P. reflexivity.
    + rewrite P. cbn [counted]. lia.
  - (* value++ *)
    assert (L : lck s = Some i) by (apply T1; reflexivity). injection A as <-.
    apply (move_ev c s _ i (PUp3 w) (Eff i Up true) I N); sim; auto.
    + constructor; sim; rewrite ?up_same; auto; cbn; tauto.
    + lia.
    + intros f g F1 F2 G1 G2. rewrite P in F2. eapply LEff; [ exact F1 | exact F2 | reflexivity | exact G1 | exact G2 ].
    + rewrite P. cbn [counted]. lia.
  - (* no signal *)
    assert (L : lck s = Some i) by (apply T1; reflexivity). destruct w; [ discriminate | ]. injection A as <-.
    apply (move c s _ i (PUnlock Up true) I N); sim; auto.
    + constructor; sim; rewrite ?up_same; auto; cbn; tauto.
    + rewrite P. reflexivity.
    + rewrite P. cbn [counted]. lia.
  - (* unlock *)
    assert (L : lck s = Some i) by (apply T1; reflexivity). injection A as <-.
    apply (move_ev c s _ i PIdle (Ret i o r) I N); sim; auto.
    + constructor; sim; rewrite ?up_same; auto; cbn; auto. split; discriminate.
    + intros f g F1 F2 G1 G2. rewrite P in F2. eapply LRet; [ exact F1 | exact F2 | exact G1 | exact G2 ].
    + rewrite P. cbn [counted]. lia.
Qed.

(** A sleeper is woken. *)
Lemma wake : forall c s i o t, inv c s -> (i < threads c)%nat -> pc s i = PSleep o ->
  (match o with Down => t = false | Timed ms => t = true -> honest c = true -> late c s i ms | _ => False end) ->
  inv c (s_pc i (PWoken o t) s).
Proof.
  intros c s i o t I N P H. pose proof (i_tok _ _ I i) as T. destruct T as [T1 T2 T3 T4 T5 T6 T7]. rewrite P in *.
  constructor; sim.
  - intros j. destruct (Nat.eq_dec j i) as [ -> | J ].
    + constructor; sim; rewrite ?up_same; auto.
      * cbn [wf downy] in *. destruct o; auto.
      * destruct o as [ | ms | | ]; try exact Logic.I. destruct t; [ | exact Logic.I ]. exact (H eq_refl).
      * intros L. lia.
    + destruct (i_tok _ _ I j) as [U1 U2 U3 U4 U5 U6 U7].
      constructor; sim; rewrite ?up_other by exact J; auto.
  - rewrite cnt_up by exact N. rewrite P. cbn [counted]. rewrite (i_wai _ _ I). lia.
  - apply (i_val _ _ I).
  - destruct (i_legal _ _ I) as (f & F1 & F2). exists f. split; [ exact F1 | ].
    intros j. rewrite F2. destruct (Nat.eq_dec j i) as [ -> | J ]; [ rewrite up_same, P; reflexivity | rewrite up_other by exact J; reflexivity ].
Qed.

Lemma done_up : forall c s i w, inv c s -> (i < threads c)%nat -> pc s i = PUp3 w -> inv c (s_pc i (PUnlock Up true) s).
Proof.
  intros c s i w I N P. pose proof (i_tok _ _ I i) as T. destruct T as [T1 T2 T3 T4 T5 T6 T7]. rewrite P in *.
  assert (L : lck s = Some i) by (apply T1; reflexivity).
  apply (move c s _ i (PUnlock Up true) I N); sim; auto.
  - constructor; sim; rewrite ?up_same; auto; cbn; try tauto. lia.
  - rewrite P. reflexivity.
  - rewrite P. cbn [counted]. lia.
Qed.

Lemma step_inv : forall c s s', inv c s -> step c s s' -> inv c s'.
Proof.
  intros c s s' I H. destruct H as [ i o N P M | i s' N A | i j o N P J Q | i N P Q | i o N P | i ms N P H | m r M ].
  - (* call *)
    pose proof (i_tok _ _ I i) as T. destruct T as [T1 T2 T3 T4 T5 T6 T7]. rewrite P in *. constructor; sim.
    + intros j. destruct (Nat.eq_dec j i) as [ -> | J ].
      * constructor; sim; rewrite ?up_same; auto; try (cbn; tauto); try lia. cbn [phase_of]. destruct o; auto. lia.
      * destruct (i_tok _ _ I j) as [U1 U2 U3 U4 U5 U6 U7].
        constructor; unfold late in *; sim; rewrite ?(up_other _ _ i _ j) by exact J; auto.
    + rewrite cnt_up by exact N. rewrite P. cbn [counted]. rewrite (i_wai _ _ I). lia.
    + apply (i_val _ _ I).
    + destruct (i_legal _ _ I) as (f & F1 & F2). exists (fun j => phase_of (up (pc s) i (PLock o) j)). split; [ | reflexivity ].
      eapply LCall; [ exact F1 | | rewrite up_same; reflexivity | ].
      * rewrite F2, P. reflexivity.
      * intros j J. rewrite up_other by exact J. symmetry. apply F2.
  - apply (awake_inv c i s s' I N A).
  - (* signal *)
    assert (W : inv c (s_pc j (PWoken o false) s)).
    { apply wake; auto. destruct (i_tok _ _ I j) as [_ T _ _ _ _ _]. rewrite Q in T. destruct o; cbn in *; auto. intros; discriminate. }
    apply (done_up c _ i true W N). sim. rewrite up_other; [ exact P | ]. intros ->. congruence.
  - apply (done_up c s i true I N P).
  - apply wake; auto. destruct (i_tok _ _ I i) as [_ T _ _ _ _ _]. rewrite P in T. destruct o; cbn in *; auto. intros; discriminate.
  - apply wake; auto.
  - constructor; sim.
    + intros j. destruct (i_tok _ _ I j) as [U1 U2 U3 U4 U5 U6 U7]. constructor; unfold late in *; sim; auto; [ | lia ].
      destruct (pc s j) as [ | | | | | | | [] [] | | ? [] | ? [] | | | | | | [] [] ]; auto; intros X; specialize (U4 X); lia.
    + apply (i_wai _ _ I).
    + apply (i_val _ _ I).
    + apply (i_legal _ _ I).
Qed.

Lemma cnt_none : forall p f n, (forall i, p (f i) = false) -> cnt p f n = 0.
Proof. intros p f n H. induction n as [ | n IH ]; [ reflexivity | ]. cbn [cnt]. rewrite H, IH. reflexivity. Qed.

Lemma init_inv : forall c, 0 <= v0 c -> inv c (init c).
Proof.
  intros c V. constructor; unfold init; sim.
  - intros j. constructor; sim; auto; cbn; try tauto; try lia. split; discriminate.
  - rewrite cnt_none; reflexivity.
  - exact V.
  - exists (fun _ => Out). split; [ constructor | reflexivity ].
Qed.

Lemma reach_inv : forall c P s, 0 <= v0 c -> reach c P s -> inv c s.
Proof.
  intros c P s V R. induction R as [ _ | s s' R IH S _ ]; [ apply init_inv; exact V | ]. exact (step_inv c s s' IH S).
Qed.

(** The value from the trace. *)
Definition taken (e : ev) : Z := match e with Eff _ Up true => -1 | Eff _ _ true => 1 | _ => 0 end.
Fixpoint sumz (l : list ev) : Z := match l with [] => 0 | e :: l' => taken e + sumz l' end.
Lemma legal_value : forall v0 l v f, legal v0 l v f -> v = v0 - sumz l.
Proof.
  intros v0 l v f L. induction L as [ | l v f g i o L IH A B C | l v v' f g i o r L IH A E B C | l v f g i o r L IH A B C ];
    cbn [sumz taken]; try lia.
  destruct o, r; cbn [effect taken] in *; try contradiction; lia.
Qed.

(** Steps of threads that are awake come to an end. *)
Definition weight (p : pcs) : nat :=
  match p with
  | PIdle | PSleep _ => 0 | PUnlock _ _ | PWait _ => 1 | PTake _ | PInc => 2 | PLeave _ _ | PTry => 3 | PTest _ => 4
  | PDec | PRet _ _ | PEnter _ => 5 | PWoken _ _ => 6 | PUp3 _ => 8 | PUp2 _ => 9 | PUp1 => 10 | PLock _ => 11
  end.
Fixpoint tot (f : nat -> pcs) (n : nat) : nat := match n with O => 0 | S n' => weight (f n') + tot f n' end.
Lemma tot_up : forall f n i v, (i < n)%nat -> (tot (up f i v) n + weight (f i) = tot f n + weight v)%nat.
Proof.
  intros f n i v. induction n as [ | n IH ]; intros L; [ lia | ]. cbn [tot].
  destruct (Nat.eq_dec i n) as [ -> | N ].
  - rewrite up_same.
    assert (E : tot (up f n v) n = tot f n).
    { assert (G : forall m, (m <= n)%nat -> tot (up f n v) m = tot f m).
      { induction m as [ | m IHm ]; intros M; [ reflexivity | ]. cbn [tot]. rewrite IHm by lia. rewrite up_other by lia. reflexivity. }
      apply G. lia. }
    rewrite E. lia.
  - specialize (IH ltac:(lia)). rewrite (up_other _ f i v n) by lia. lia.
Qed.
Lemma tot_bound : forall f n, (tot f n <= 11 * n)%nat.
Proof.
  intros f n. induction n as [ | n IH ]; cbn [tot]; [ lia | ].
  assert (weight (f n) <= 11)%nat by (destruct (f n); cbn [weight]; lia). lia.
Qed.

Lemma awake_pc : forall c i s s', awake c i s = Some s' -> exists p, pc s' = up (pc s) i p /\ (weight p < weight (pc s i))%nat.
Proof.
  intros c i s s' A. unfold awake in A.
  destruct (pc s i) as [ | o | ms | o | | o | o | o t | | ms t | ms r | | o | | w | w | o r ] eqn:P; try discriminate;
    try (destruct (lck s); [ discriminate | ]); try (destruct o; try discriminate); try (destruct w; try discriminate);
    injection A as <-; repeat match goal with |- context [if ?b then _ else _] => destruct b end; sim;
    eexists; (split; [ reflexivity | cbn; lia ]).
Qed.

Lemma own_less : forall c s s', own c s s' -> (tot (pc s') (threads c) < tot (pc s) (threads c))%nat.
Proof.
  intros c s s' H. destruct H as [ i s' N A | i j o N P J Q | i N P Q ].
  - destruct (awake_pc _ _ _ _ A) as (p & -> & W). pose proof (tot_up (pc s) (threads c) i p N). lia.
  - sim. pose proof (tot_up (pc s) (threads c) j (PWoken o false) J) as E1.
    pose proof (tot_up (up (pc s) j (PWoken o false)) (threads c) i (PUnlock Up true) N) as E2.
    assert (X : i <> j) by (intros ->; congruence).
    rewrite up_other in E2 by exact X. rewrite P in E2. rewrite Q in E1. cbn [weight] in *. lia.
  - sim. pose proof (tot_up (pc s) (threads c) i (PUnlock Up true) N) as E2. rewrite P in E2. cbn [weight] in *. lia.
Qed.
Lemma owns_less : forall c n s s', owns c n s s' -> (n + tot (pc s') (threads c) <= tot (pc s) (threads c))%nat.
Proof.
  intros c n s s' H. induction H as [ s | n s s' s'' A H IH ]; [ lia | ]. pose proof (own_less c s s' A). lia.
Qed.

Lemma own_step : forall c s s', own c s s' -> step c s s'.
Proof. intros c s s' H. destruct H; [ eapply SOwn | eapply SSignal | eapply SNobody ]; eassumption. Qed.

(** As long as somebody is awake, somebody can go on. *)
Lemma find_asleep : forall f n, (exists j, (j < n)%nat /\ asleep (f j) = true) \/ (forall j, (j < n)%nat -> asleep (f j) = false).
Proof.
  intros f n. induction n as [ | n [ (j & J1 & J2) | H ] ].
  - right. intros j J. lia.
  - left. exists j. split; [ lia | exact J2 ].
  - destruct (asleep (f n)) eqn:E.
    + left. exists n. split; [ lia | exact E ].
    + right. intros j J. destruct (Nat.eq_dec j n) as [ -> | X ]; [ exact E | apply H; lia ].
Qed.
Lemma free_own : forall c s i, inv c s -> (i < threads c)%nat -> pc s i <> PIdle -> asleep (pc s i) = false ->
  (lck s = Some i \/ lck s = None) -> exists s', own c s s'.
Proof.
  intros c s i I N Q A L. pose proof (i_tok _ _ I i) as T. destruct T as [T1 T2 T3 T4 T5 T6 T7].
  assert (AW : (exists s', awake c i s = Some s') -> exists s', own c s s').
  { intros (s' & E). exists s'. eapply OOwn; eassumption. }
  destruct (pc s i) as [ | o | ms | o | | o | o | o t | | ms t | ms r | | o | | w | w | o r ] eqn:P; try congruence;
    try (apply AW; unfold awake; rewrite P; eexists; reflexivity); try discriminate.
  - apply AW. unfold awake. rewrite P. destruct L as [L|L]; rewrite L in *; [ destruct T1 as (_ & T1); discriminate (T1 eq_refl) | ]. eexists; reflexivity.
  - apply AW. unfold awake. rewrite P. destruct o; eexists; reflexivity.
  - apply AW. unfold awake. rewrite P. destruct L as [L|L]; rewrite L in *; [ destruct T1 as (_ & T1); discriminate (T1 eq_refl) | ]. eexists; reflexivity.
  - destruct w.
    + destruct (find_asleep (pc s) (threads c)) as [ (j & J1 & J2) | H ].
      * destruct (pc s j) as [ | | | | | | o | | | | | | | | | | ] eqn:PJ; try discriminate.
        eexists. eapply (OSignal c s i j o); eassumption.
      * eexists. eapply (ONobody c s i); eassumption.
    + apply AW. unfold awake. rewrite P. eexists; reflexivity.
Qed.
Lemma progress : forall c s, inv c s -> quiet c s \/ exists s', own c s s'.
Proof.
  intros c s I.
  destruct (lck s) as [ k | ] eqn:L.
  - pose proof (i_tok _ _ I k) as T. destruct T as [T1 _ _ _ _ _ T7].
    assert (H : holds (pc s k) = true) by (apply T1; exact L).
    right. apply (free_own c s k I).
    + destruct (le_lt_dec (threads c) k) as [G|G]; [ | exact G ]. rewrite (T7 G) in H. discriminate.
    + intros E. rewrite E in H. discriminate.
    + destruct (pc s k); try reflexivity. discriminate.
    + left. exact L.
  - assert (D : forall n, (n <= threads c)%nat ->
      (forall i, (i < n)%nat -> pc s i = PIdle \/ asleep (pc s i) = true) \/ exists i, (i < n)%nat /\ pc s i <> PIdle /\ asleep (pc s i) = false).
    { induction n as [ | n IH ]; intros B; [ left; intros; lia | ].
      destruct (IH ltac:(lia)) as [ H | (i & I1 & I2) ]; [ | right; exists i; split; [ lia | exact I2 ] ].
      destruct (asleep (pc s n)) eqn:E.
      - left. intros i J. destruct (Nat.eq_dec i n) as [ -> | X ]; [ right; exact E | apply H; lia ].
      - assert (X : pc s n = PIdle \/ pc s n <> PIdle) by (destruct (pc s n); (left; reflexivity) || (right; discriminate)).
        destruct X as [X|X].
        + left. intros i J. destruct (Nat.eq_dec i n) as [ -> | Y ]; [ left; exact X | apply H; lia ].
        + right. exists n. split; [ lia | auto ]. }
    destruct (D (threads c) (le_n _)) as [ H | (i & I1 & I2 & I3) ]; [ left; exact H | ].
    right. apply (free_own c s i I I1 I2 I3). right. exact L.
Qed.
Lemma settles : forall c m s, (tot (pc s) (threads c) <= m)%nat -> inv c s -> exists n s', owns c n s s' /\ quiet c s'.
Proof.
  intros c m. induction m as [ | m IH ]; intros s B I; destruct (progress c s I) as [ Q | (s1 & O) ].
  - exists 0%nat, s. split; [ constructor | exact Q ].
  - pose proof (own_less c s s1 O). lia.
  - exists 0%nat, s. split; [ constructor | exact Q ].
  - pose proof (own_less c s s1 O). destruct (IH s1 ltac:(lia) (step_inv c s s1 I (own_step c s s1 O))) as (n & s' & H1 & H2).
    exists (S n), s'. split; [ econstructor; eassumption | exact H2 ].
Qed.

(** No wake-up is lost. *)
Definition helper (p : pcs) : bool :=
  match p with
  | PWoken _ false | PDec | PRet _ false | PTest _ | PLeave _ false | PUp3 true => true
  | PTake Down | PTake (Timed _) => true
  | _ => false
  end.
Definition woke (c : cfg) (s : st) : Prop :=
  0 < value s -> (exists j, (j < threads c)%nat /\ asleep (pc s j) = true) -> exists k, (k < threads c)%nat /\ helper (pc s k) = true.

(** Where the value is positive afterwards, a helper stays one unless it takes. *)
Lemma awake_woke : forall c i s s', inv c s -> (i < threads c)%nat -> awake c i s = Some s' -> well_used c s -> woke c s -> woke c s'.
Proof.
  intros c i s s' I N A U W. pose proof (i_tok _ _ I i) as T. destruct T as [T1 T2 T3 T4 T5 T6 T7].
  pose proof (i_wai _ _ I) as WAI. pose proof (i_val _ _ I) as VP.
  (* keeping everything but thread i, which does not turn from helper to something else *)
  assert (K : forall p, pc s' = up (pc s) i p -> value s' = value s -> asleep p = false -> (helper (pc s i) = true -> helper p = true) -> woke c s').
  { intros p P V Z H VP' (j & J1 & J2). rewrite P in J2. rewrite V in VP'.
    assert (JI : j <> i) by (intros ->; rewrite up_same in J2; congruence).
    rewrite up_other in J2 by exact JI.
    destruct (W VP' (ex_intro _ j (conj J1 J2))) as (k & K1 & K2). rewrite P.
    destruct (Nat.eq_dec k i) as [ -> | X ].
    - exists i. split; [ exact N | ]. rewrite up_same. exact (H K2).
    - exists k. split; [ exact K1 | ]. rewrite up_other by exact X. exact K2. }
  unfold awake in A. destruct (pc s i) as [ | o | ms | o | | o | o | o t | | ms t | ms r | | o | | w | w | o r ] eqn:P; try discriminate.
  - destruct (lck s); [ discriminate | ]. injection A as <-. apply (K (after_lock o)); auto; [ destruct o; reflexivity | discriminate ].
  - injection A as <-. apply (K (PTest (Timed ms))); auto.
  - destruct (value s =? 0) eqn:E.
    + apply Z.eqb_eq in E. destruct o; injection A as <-; intros X; sim; lia.
    + destruct o; injection A as <-; cbn [wf downy] in T2; try contradiction; [ apply (K (PTake Down)) | apply (K (PLeave ms false)) ]; auto.
  - injection A as <-. intros X. sim. lia.
  - injection A as <-. intros X. sim. lia.
  - destruct (lck s); [ discriminate | ]. injection A as <-. destruct o as [ | ms | | ]; cbn [wf] in T2; try contradiction.
    + apply (K PDec); auto.
    + apply (K (PRet ms t)); auto.
  - injection A as <-. apply (K (PTest Down)); auto.
  - injection A as <-. destruct t; cbn [andb].
    + destruct (timed_out c i ms s); [ apply (K (PLeave ms true)); auto; try discriminate | apply (K (PTest (Timed ms))); auto ].
    + apply (K (PTest (Timed ms))); auto.
  - destruct r; injection A as <-; [ apply (K (PUnlock (Timed ms) false)); auto; try discriminate | apply (K (PTake (Timed ms))); auto ].
  - destruct (value s =? 0); injection A as <-; [ apply (K (PUnlock Try false)) | apply (K (PTake Try)) ]; auto; try discriminate.
  - (* take *)
    injection A as <-. intros X (j & J1 & J2). sim.
    assert (JI : j <> i) by (intros ->; rewrite up_same in J2; discriminate). rewrite up_other in J2 by exact JI.
    destruct o as [ | ms | | ]; cbn [wf] in T2; try congruence.
    + exfalso. destruct U as [U|U]; [ lia | ]. apply JI. apply U; auto; [ destruct (pc s j); try discriminate; reflexivity | rewrite P; reflexivity ].
    + exfalso. destruct U as [U|U]; [ lia | ]. apply JI. apply U; auto; [ destruct (pc s j); try discriminate; reflexivity | rewrite P; reflexivity ].
    + destruct (W ltac:(lia) (ex_intro _ j (conj J1 J2))) as (k & K1 & K2).
      exists k. split; [ exact K1 | ]. assert (KI : k <> i) by (intros ->; rewrite P in K2; discriminate).
      rewrite up_other by exact KI. exact K2.
  - injection A as <-. apply (K (PUp2 ((value s =? 0) && negb (waiters s =? 0)))); auto; discriminate.
  - (* value++ *)
    injection A as <-. intros X (j & J1 & J2). sim.
    assert (JI : j <> i) by (intros ->; rewrite up_same in J2; discriminate). rewrite up_other in J2 by exact JI.
    destruct (Z.eq_dec (value s) 0) as [Z|Z].
    + exists i. split; [ exact N | ]. rewrite up_same, T3, Z. cbn [helper].
      assert (CP : 0 < waiters s) by (rewrite WAI; apply (cnt_pos counted (pc s) (threads c) j J1); destruct (pc s j); try discriminate; reflexivity).
      destruct (waiters s =? 0) eqn:E; [ apply Z.eqb_eq in E; lia | reflexivity ].
    + destruct (W ltac:(lia) (ex_intro _ j (conj J1 J2))) as (k & K1 & K2).
      exists k. split; [ exact K1 | ]. assert (KI : k <> i) by (intros ->; rewrite P in K2; discriminate).
      rewrite up_other by exact KI. exact K2.
  - destruct w; [ discriminate | ]. injection A as <-. apply (K (PUnlock Up true)); auto; discriminate.
  - injection A as <-. apply (K PIdle); auto; discriminate.
Qed.

Lemma step_woke : forall c s s', inv c s -> step c s s' -> well_used c s -> woke c s -> woke c s'.
Proof.
  intros c s s' I H U W. destruct H as [ i o N P M | i s' N A | i j o N P J Q | i N P Q | i o N P | i ms N P H | m r M ].
  - intros X (j & J1 & J2). sim. assert (JI : j <> i) by (intros ->; rewrite up_same in J2; discriminate). rewrite up_other in J2 by exact JI.
    destruct (W X (ex_intro _ j (conj J1 J2))) as (k & K1 & K2).
    exists k. split; [ exact K1 | ]. assert (KI : k <> i) by (intros ->; rewrite P in K2; discriminate). rewrite up_other by exact KI. exact K2.
  - exact (awake_woke c i s s' I N A U W).
  - intros X _. sim. exists j. split; [ exact J | ]. rewrite up_other; [ rewrite up_same; reflexivity | ]. intros ->. congruence.
  - intros X (j & J1 & J2). sim. assert (JI : j <> i) by (intros ->; rewrite up_same in J2; discriminate). rewrite up_other in J2 by exact JI.
    rewrite (Q j J1) in J2. discriminate.
  - intros X _. sim. exists i. split; [ exact N | ]. rewrite up_same. reflexivity.
  - intros X (j & J1 & J2). sim. assert (JI : j <> i) by (intros ->; rewrite up_same in J2; discriminate). rewrite up_other in J2 by exact JI.
    destruct (W X (ex_intro _ j (conj J1 J2))) as (k & K1 & K2).
    exists k. split; [ exact K1 | ]. assert (KI : k <> i) by (intros ->; rewrite P in K2; discriminate). rewrite up_other by exact KI. exact K2.
  - intros X Y. sim. exact (W X Y).
Qed.

Lemma reach_P : forall c P s, reach c P s -> P s.
Proof. intros c P s R. destruct R; assumption. Qed.
Lemma reach_woke : forall c s, 0 <= v0 c -> reach c (well_used c) s -> woke c s.
Proof.
  intros c s V R. induction R as [ _ | s s' R IH S _ ].
  - intros _ (j & _ & J). discriminate.
  - apply (step_woke c s s'); auto; [ exact (reach_inv _ _ _ V R) | exact (reach_P _ _ _ R) ].
Qed.

(** Runs given by a schedule. *)
Inductive act := ACall (i : nat) (o : opn) | AOwn (i : nat) | ASig (i j : nat) | ATime (i : nat) | AClk (m r : Z).
Definition do1 (c : cfg) (a : act) (s : st) : option st :=
  match a with
  | ACall i o => if (i <? threads c)%nat then
      match pc s i with
      | PIdle => match o with Timed ms => if (0 <=? ms) && (ms <? 2 ^ 32) then Some (s_pc i (PLock o) (s_base i (log (Call i o) s))) else None
                 | _ => Some (s_pc i (PLock o) (s_base i (log (Call i o) s))) end
      | _ => None end else None
  | AOwn i => if (i <? threads c)%nat then awake c i s else None
  | ASig i j => if (i <? threads c)%nat && (j <? threads c)%nat then
      match pc s i, pc s j with PUp3 true, PSleep o => Some (s_pc i (PUnlock Up true) (s_pc j (PWoken o false) s)) | _, _ => None end else None
  | ATime i => if (i <? threads c)%nat && negb (honest c) then
      match pc s i with PSleep (Timed ms) => Some (s_pc i (PWoken (Timed ms) true) s) | _ => None end
      else if (i <? threads c)%nat then
      match pc s i with PSleep (Timed ms) => if base s i + ms * 1000000 <=? mono s then Some (s_pc i (PWoken (Timed ms) true) s) else None | _ => None end
      else None
  | AClk m r => if mono s <=? m then Some (s_clk m r s) else None
  end.
Fixpoint run (c : cfg) (l : list act) (s : st) : option st :=
  match l with [] => Some s | a :: l' => match do1 c a s with Some s' => run c l' s' | None => None end end.
Lemma do1_step : forall c a s s', do1 c a s = Some s' -> step c s s'.
Proof.
  intros c a s s' H. destruct a as [ i o | i | i j | i | m r ]; cbn [do1] in H.
  - destruct (i <? threads c)%nat eqn:E; [ apply Nat.ltb_lt in E | discriminate ]. destruct (pc s i) eqn:P; try discriminate.
    destruct o as [ | ms | | ]; try (injection H as <-; apply SCall; auto; fail).
    destruct ((0 <=? ms) && (ms <? 2 ^ 32)) eqn:B; [ | discriminate ]. injection H as <-.
    apply andb_true_iff in B. destruct B as (B1 & B2). apply Z.leb_le in B1. apply Z.ltb_lt in B2. apply SCall; auto.
  - destruct (i <? threads c)%nat eqn:E; [ apply Nat.ltb_lt in E | discriminate ]. eapply SOwn; eassumption.
  - destruct ((i <? threads c)%nat && (j <? threads c)%nat) eqn:E; [ | discriminate ].
    apply andb_true_iff in E. destruct E as (E1 & E2). apply Nat.ltb_lt in E1, E2.
    destruct (pc s i) as [ | | | | | | | | | | | | | | | [] | ] eqn:P; try discriminate. destruct (pc s j) eqn:Q; try discriminate.
    injection H as <-. apply SSignal; auto.
  - destruct ((i <? threads c)%nat && negb (honest c)) eqn:E.
    + apply andb_true_iff in E. destruct E as (E1 & E2). apply Nat.ltb_lt in E1. apply negb_true_iff in E2.
      destruct (pc s i) as [ | | | | | | [] | | | | | | | | | | ] eqn:P; try discriminate. injection H as <-. apply STimeout; auto. congruence.
    + destruct (i <? threads c)%nat eqn:E1; [ | discriminate ]. apply Nat.ltb_lt in E1.
      destruct (pc s i) as [ | | | | | | [] | | | | | | | | | | ] eqn:P; try discriminate.
      destruct (base s i + ms * 1000000 <=? mono s) eqn:B; [ | discriminate ]. apply Z.leb_le in B.
      injection H as <-. apply STimeout; auto.
  - destruct (mono s <=? m) eqn:E; [ apply Z.leb_le in E | discriminate ]. injection H as <-. apply SClock. exact E.
Qed.
Lemma run_reach : forall c l s s', reach c any s -> run c l s = Some s' -> reach c any s'.
Proof.
  intros c l. induction l as [ | a l IH ]; intros s s' R H; cbn [run] in H; [ injection H as <-; exact R | ].
  destruct (do1 c a s) as [ s1 | ] eqn:D; [ | discriminate ]. apply (IH s1); [ | exact H ].
  eapply RStep; [ exact R | exact (do1_step c a s s1 D) | exact Logic.I ].
Qed.
