(** Proofs about the starting and reaping of jobs, for C56. *)
From Coq Require Import ZArith List Lia Bool.
From Verif Require Import CBase JobsModel JobsSpec.
Import ListNotations.
Open Scope Z_scope.

Definition is (a b : runstate) : bool :=
  match a, b with NotCreated, NotCreated | Created, Created | Initialized, Initialized | Running, Running | Exited, Exited | Reaped, Reaped => true | _, _ => false end.
Definition cs (r : runstate) (l : list job) : Z := fold_right (fun j a => (if is r (st j) then 1 else 0) + a) 0 l.
Lemma cs_nonneg r l : 0 <= cs r l.
Proof. induction l as [|j l IH]; cbn [cs fold_right]; [lia|]. fold (cs r l). destruct (is r (st j)); lia. Qed.
Lemma cs_upd r x : forall l i y, nth_error l i = Some y -> cs r (upd l i x) = cs r l - (if is r (st y) then 1 else 0) + (if is r (st x) then 1 else 0).
Proof.
  induction l as [|j l IH]; intros i y E; [destruct i; discriminate|]. destruct i as [|i]; cbn [nth_error upd cs fold_right] in *; fold (cs r l) in *.
  - injection E as ->. fold (cs r l). lia.
  - fold (cs r (upd l i x)). rewrite (IH i y E). lia.
Qed.
Lemma cs_pos r l i j : nth_error l i = Some j -> is r (st j) = true -> 1 <= cs r l.
Proof. intros E I. pose proof (cs_upd r (Job (o j) (if is r NotCreated then Reaped else NotCreated) false) l i j E) as H. rewrite I in H. pose proof (cs_nonneg r (upd l i (Job (o j) (if is r NotCreated then Reaped else NotCreated) false))) as P. destruct r; cbn [st is] in *; lia. Qed.
Lemma cs_total l : cs NotCreated l + cs Created l + cs Initialized l + cs Running l + cs Exited l + cs Reaped l = Z.of_nat (List.length l).
Proof. induction l as [|j l IH]; [reflexivity|]. cbn [List.length cs fold_right]. fold (cs NotCreated l) (cs Created l) (cs Initialized l) (cs Running l) (cs Exited l) (cs Reaped l). destruct (st j); cbn [is]; lia. Qed.
Lemma cs_zero r l i j : cs r l = 0 -> nth_error l i = Some j -> st j <> r.
Proof. intros Z E Q. pose proof (cs_pos r l i j E) as P. rewrite Q in P. assert (is r r = true) by (destruct r; reflexivity). specialize (P H). lia. Qed.
Lemma upd_length {A} (x : A) : forall l i, List.length (upd l i x) = List.length l.
Proof. induction l as [|y l IH]; intros i; [reflexivity|]. destruct i; cbn [upd List.length]; [reflexivity|]. rewrite IH. reflexivity. Qed.
Lemma upd_same {A} (x : A) : forall l i y, nth_error l i = Some y -> nth_error (upd l i x) i = Some x.
Proof. induction l as [|z l IH]; intros i y E; [destruct i; discriminate|]. destruct i; cbn [upd nth_error] in *; [reflexivity|eauto]. Qed.
Lemma upd_other {A} (x : A) : forall l i k, i <> k -> nth_error (upd l i x) k = nth_error l k.
Proof. induction l as [|z l IH]; intros i k N; [reflexivity|]. destruct i, k; cbn [upd nth_error]; try reflexivity; [congruence|apply IH; congruence]. Qed.

Definition no_terminate (s : state) : Prop := forall i j, nth_error (jobs s) i = Some j -> terminate j = false.
(** A stonewall without a delay that nothing else holds up. *)
Definition plain_wall (j : job) : Prop := stonewall (o j) = true /\ start_delay (o j) = 0 /\ waits (o j) = [] /\ terminate j = false.
Record inv (n : nat) (s : state) : Prop := Inv {
  i_len : List.length (jobs s) = n;
  i_started : nr_started s = cs Created (jobs s) + cs Initialized (jobs s);
  i_running : nr_running s = cs Running (jobs s) + cs Exited (jobs s);
  i_todo : no_terminate s -> todo s = cs NotCreated (jobs s) + cs Created (jobs s) + cs Initialized (jobs s);
  i_now : 0 <= now s;
  i_wall : match pc s with Scan i => forall w j, (w < i)%nat -> nth_error (jobs s) w = Some j -> plain_wall j -> st j <> NotCreated | _ => True end;
  i_final : match pc s with Final _ => todo s = 0 | Done => todo s = 0 /\ nr_running s = 0 | _ => True end }.

Lemma u32_small x : 0 <= x < 2 ^ 32 -> u32 x = x.
Proof. intros H. unfold u32. apply Z.mod_small. lia. Qed.

(** Changing the state of one job, or its mark. *)
Lemma no_term_upd (l : list job) p p' t t' a a' b b' m m' i j x : nth_error l i = Some j -> (terminate x = false -> terminate j = false) -> no_terminate (State (upd l i x) p t a b m) -> no_terminate (State l p' t' a' b' m').
Proof.
  intros E H N k y Q. cbn [jobs] in *. destruct (Nat.eq_dec i k) as [<-|NE].
  - rewrite E in Q. injection Q as <-. apply H. apply (N i x). cbn [jobs]. apply (upd_same x l i j E).
  - apply (N k y). cbn [jobs]. rewrite upd_other by auto. exact Q.
Qed.
Lemma wall_upd (l : list job) i j x n : nth_error l i = Some j -> (plain_wall x -> plain_wall j) -> (st x = NotCreated -> st j = NotCreated) ->
  (forall w y, (w < n)%nat -> nth_error l w = Some y -> plain_wall y -> st y <> NotCreated) -> forall w y, (w < n)%nat -> nth_error (upd l i x) w = Some y -> plain_wall y -> st y <> NotCreated.
Proof.
  intros E P S W w y L Q PW. destruct (Nat.eq_dec i w) as [<-|NE].
  - rewrite (upd_same x l i j E) in Q. injection Q as <-. intros X. apply (W i j L E (P PW)). auto.
  - rewrite upd_other in Q by auto. apply (W w y L Q PW).
Qed.
Lemma finish_ok t r : t = 0 -> match finish r with Final _ => t = 0 | Done => t = 0 /\ r = 0 | _ => True end.
Proof. intros T. unfold finish. destruct (Z.eqb_spec r 0); auto. Qed.

Ltac cnt E S := cbn [jobs nr_started nr_running todo]; rewrite ?(cs_upd _ _ _ _ _ E), ?S; cbn [st set_st is]; rewrite ?S; cbn [is]; lia.
Lemma sched_inv n s s' c : Z.of_nat n < 2 ^ 32 -> inv n s -> sched s = Some (s', c) -> inv n s'.
Proof.
  intros NB [LEN ST RU TD NW WL FI] E. unfold sched in E. destruct s as [js p t a b m]. cbn [jobs pc todo nr_started nr_running now] in *.
  pose proof (cs_nonneg NotCreated js) as P0. pose proof (cs_nonneg Created js) as P1. pose proof (cs_nonneg Initialized js) as P2. pose proof (cs_nonneg Running js) as P3. pose proof (cs_nonneg Exited js) as P4. pose proof (cs_nonneg Reaped js) as P5. pose proof (cs_total js) as PT. rewrite LEN in PT.
  destruct p as [i| |i|i|i|].
  - destruct (nth_error js i) as [j|] eqn:EJ.
    2: { injection E as <- <-. constructor; cbn [at_pc jobs pc todo nr_started nr_running now]; auto. }
    assert (KEEP : st j <> NotCreated \/ ~ plain_wall j -> inv n (State js (Scan (S i)) t a b m)).
    { intros H. constructor; cbn [jobs pc todo nr_started nr_running now]; auto. intros w y L Q PW. destruct (Nat.eq_dec w i) as [->|NE]; [|apply (WL w y); auto; lia]. rewrite EJ in Q. injection Q as <-. destruct H; [auto|contradiction]. }
    destruct (st j) eqn:SJ; try (injection E as <- <-; apply KEEP; left; discriminate).
    destruct (terminate j) eqn:TJ.
    { injection E as <- <-. assert (K : inv n (State js (Scan (S i)) t a b m)) by (apply KEEP; right; intros (_ & _ & _ & X); congruence). destruct K as [K1 K2 K3 K4 K5 K6 K7]. constructor; cbn [jobs pc todo nr_started nr_running now] in *; auto.
      intros NT. exfalso. specialize (NT i j EJ). congruence. }
    destruct (Z.ltb_spec m (start_delay (o j))) as [DL|DL]; [injection E as <- <-; apply KEEP; right; intros (_ & X & _); lia|].
    destruct (stonewall (o j) && (negb (a =? 0) || negb (b =? 0))) eqn:WB; [injection E as <- <-; constructor; cbn [at_pc jobs pc todo nr_started nr_running now]; auto|].
    destruct (waitee_running js (waits (o j))) eqn:WR; [injection E as <- <-; apply KEEP; right; intros (_ & _ & X & _); rewrite X in WR; discriminate|].
    injection E as <- <-. constructor; cbn [jobs pc todo nr_started nr_running now]; auto; [rewrite upd_length; auto|cnt EJ SJ|cnt EJ SJ| |].
    + intros NT. assert (TV : t = cs NotCreated js + cs Created js + cs Initialized js) by (apply TD; eapply no_term_upd; [exact EJ| |exact NT]; cbn [terminate set_st]; auto). cnt EJ SJ.
    + intros w y L Q PW. destruct (Nat.eq_dec w i) as [->|NE].
      * rewrite (upd_same _ js i j EJ) in Q. injection Q as <-. cbn. discriminate.
      * rewrite upd_other in Q by auto. apply (WL w y); auto. lia.
  - destruct (existsb _ js); [discriminate|]. injection E as <- <-. constructor; cbn [at_pc jobs pc todo nr_started nr_running now]; auto.
  - destruct (nth_error js i) as [j|] eqn:EJ; [|injection E as <- <-; constructor; cbn [at_pc jobs pc todo nr_started nr_running now]; auto].
    destruct (st j) eqn:SJ; try (injection E as <- <-; constructor; cbn [at_pc jobs pc todo nr_started nr_running now]; auto; fail).
    injection E as <- <-. pose proof (cs_pos Initialized js i j EJ ltac:(rewrite SJ; reflexivity)). constructor; cbn [jobs pc todo nr_started nr_running now]; auto; [rewrite upd_length; auto|cnt EJ SJ|cnt EJ SJ|].
    intros NT. assert (TV : t = cs NotCreated js + cs Created js + cs Initialized js) by (apply TD; eapply no_term_upd; [exact EJ| |exact NT]; cbn [terminate set_st]; auto). rewrite u32_small by lia. cnt EJ SJ.
  - destruct (nth_error js i) as [j|] eqn:EJ.
    2: { injection E as <- <-. destruct (Z.eqb_spec t 0) as [T0|T0]; constructor; cbn [at_pc jobs pc todo nr_started nr_running now]; auto; try (unfold finish; destruct (b =? 0); exact I); [apply finish_ok; auto|]. intros w y L. lia. }
    destruct (st j) eqn:SJ; try (injection E as <- <-; constructor; cbn [at_pc jobs pc todo nr_started nr_running now]; auto; fail).
    injection E as <- <-. constructor; cbn [jobs pc todo nr_started nr_running now]; auto; [rewrite upd_length; auto|cnt EJ SJ|cnt EJ SJ|].
    intros NT. assert (TV : t = cs NotCreated js + cs Created js + cs Initialized js) by (apply TD; eapply no_term_upd; [exact EJ| |exact NT]; cbn [terminate set_st]; auto). cnt EJ SJ.
  - destruct (nth_error js i) as [j|] eqn:EJ.
    2: { injection E as <- <-. constructor; cbn [at_pc jobs pc todo nr_started nr_running now]; auto; [unfold finish; destruct (b =? 0); exact I|apply finish_ok; auto]. }
    destruct (st j) eqn:SJ; try (injection E as <- <-; constructor; cbn [at_pc jobs pc todo nr_started nr_running now]; auto; fail).
    injection E as <- <-. constructor; cbn [jobs pc todo nr_started nr_running now]; auto; [rewrite upd_length; auto|cnt EJ SJ|cnt EJ SJ|].
    intros NT. assert (TV : t = cs NotCreated js + cs Created js + cs Initialized js) by (apply TD; eapply no_term_upd; [exact EJ| |exact NT]; cbn [terminate set_st]; auto). cnt EJ SJ.
  - discriminate.
Qed.
Lemma happens_inv n s s' e : inv n s -> happens s e = Some s' -> inv n s'.
Proof.
  intros [LEN ST RU TD NW WL FI] E. unfold happens in E. destruct s as [js p t a b m]. cbn [jobs pc todo nr_started nr_running now] in *.
  assert (UP : forall i j x, nth_error js i = Some j -> (terminate x = false -> terminate j = false) -> o x = o j -> (st x = NotCreated -> st j = NotCreated) ->
     cs Created (upd js i x) + cs Initialized (upd js i x) = cs Created js + cs Initialized js -> cs Running (upd js i x) + cs Exited (upd js i x) = cs Running js + cs Exited js -> cs NotCreated (upd js i x) = cs NotCreated js ->
     inv n (State (upd js i x) p t a b m)).
  { intros i j x EJ TX OX SX C1 C2 C3. constructor; cbn [jobs pc todo nr_started nr_running now]; auto; [rewrite upd_length; auto|lia|lia| |].
    - intros NT. assert (TV : t = cs NotCreated js + cs Created js + cs Initialized js) by (apply TD; eapply no_term_upd; [exact EJ|exact TX|exact NT]). lia.
    - destruct p as [k| | | | |]; auto. apply (wall_upd js i j x k EJ); auto. unfold plain_wall. rewrite OX. intuition. }
  destruct e as [i|i|i|d].
  - destruct (nth_error js i) as [j|] eqn:EJ; [|discriminate]. cbn in E. destruct (st j) eqn:SJ; try discriminate. injection E as <-. apply (UP i j); auto; try (cbn; congruence); cnt EJ SJ.
  - destruct (nth_error js i) as [j|] eqn:EJ; [|discriminate]. cbn in E. destruct (st j) eqn:SJ; try discriminate. injection E as <-. apply (UP i j); auto; try (cbn; congruence); cnt EJ SJ.
  - destruct (nth_error js i) as [j|] eqn:EJ; [|discriminate]. cbn in E. injection E as <-. apply (UP i j); auto; try (cbn; congruence); rewrite !(cs_upd _ _ _ _ _ EJ); cbn [st]; lia.
  - destruct (Z.ltb_spec d 0); [discriminate|]. injection E as <-. constructor; cbn [jobs pc todo nr_started nr_running now]; auto. lia.
Qed.
Lemma init_inv os : Z.of_nat (List.length os) < 2 ^ 32 -> inv (List.length os) (init os).
Proof.
  intros L. unfold init. set (f := fun x : opts * bool => Job (fst x) (if snd x then NotCreated else Reaped) false).
  assert (C : forall r, r <> NotCreated -> r <> Reaped -> cs r (map f os) = 0). { intros r N1 N2. clear L. induction os as [|[x b] os IH]; [reflexivity|]. cbn [map cs fold_right]. fold (cs r (map f os)). rewrite IH. unfold f. cbn [st snd]. destruct b, r; cbn; congruence. }
  assert (C0 : cs NotCreated (map f os) = Z.of_nat (List.length (filter (fun x => snd x) os))). { clear. induction os as [|[x b] os IH]; [reflexivity|]. cbn [map cs fold_right filter snd]. fold (cs NotCreated (map f os)). rewrite IH. unfold f. cbn [st snd]. destruct b; cbn [is List.length]; lia. }
  cbv zeta. constructor; cbn [jobs pc todo nr_started nr_running now]; rewrite ?C by discriminate; auto; try lia.
  - apply map_length.
  - intros _. rewrite (C Created), (C Initialized) by discriminate. lia.
  - destruct (_ =? 0); [unfold finish; exact I|]. intros w j LT. lia.
  - destruct (Z.eqb_spec (Z.of_nat (List.length (filter (fun x => snd x) os))) 0) as [Q|Q]; [unfold finish; cbn; auto|exact I].
Qed.
Lemma run_inv os s l : Z.of_nat (List.length os) < 2 ^ 32 -> run os s l -> inv (List.length os) s.
Proof. intros L H. induction H as [|s s' c l H IH S]; [apply init_inv; auto|]. destruct S as [s s' c E|s s' e E]; [eapply sched_inv; eauto|eapply happens_inv; eauto]. Qed.

(** What creating a job means. *)
Lemma creates s s' i : sched s = Some (s', Some i) -> exists j, nth_error (jobs s) i = Some j /\ pc s = Scan i /\ st j = NotCreated /\ terminate j = false /\ start_delay (o j) <= now s /\
  (stonewall (o j) = true -> nr_started s = 0 /\ nr_running s = 0) /\ waitee_running (jobs s) (waits (o j)) = false /\ jobs s' = upd (jobs s) i (set_st j Created).
Proof.
  intros E. unfold sched in E. destruct (pc s) as [k| |k|k|k|] eqn:PC.
  2: { destruct (existsb _ _); discriminate. } 5: discriminate.
  2, 3, 4: destruct (nth_error (jobs s) k) as [j|]; [destruct (st j); discriminate|discriminate].
  destruct (nth_error (jobs s) k) as [j|] eqn:EJ; [|discriminate]. destruct (st j) eqn:SJ; try discriminate. destruct (terminate j) eqn:TJ; [discriminate|]. destruct (Z.ltb_spec (now s) (start_delay (o j))); [discriminate|].
  destruct (stonewall (o j) && (negb (nr_started s =? 0) || negb (nr_running s =? 0))) eqn:WB; [discriminate|]. destruct (waitee_running (jobs s) (waits (o j))) eqn:WR; [discriminate|].
  injection E as <- <-. exists j. split; [exact EJ|]. split; [reflexivity|]. split; [exact SJ|]. split; [exact TJ|]. split; [lia|]. split; [|split; [exact WR|reflexivity]].
  intros W. rewrite W in WB. cbn [andb] in WB. apply orb_false_iff in WB. rewrite !negb_false_iff, !Z.eqb_eq in WB. exact WB.
Qed.
(** The state of a job never goes back. *)
Definition rank (r : runstate) : nat := match r with NotCreated => 0 | Created => 1 | Initialized => 2 | Running => 3 | Exited => 4 | Reaped => 5 end.
Lemma upd_rank l i x j : nth_error l i = Some j -> (rank (st j) <= rank (st x))%nat -> forall k y, nth_error l k = Some y -> exists y', nth_error (upd l i x) k = Some y' /\ (rank (st y) <= rank (st y'))%nat.
Proof.
  intros E R k y Q. destruct (Nat.eq_dec i k) as [<-|NE].
  - rewrite E in Q. injection Q as <-. exists x. split; [apply (upd_same x l i j E)|exact R].
  - exists y. rewrite upd_other by auto. auto.
Qed.
Lemma step_rank s c s' k y : step s c s' -> nth_error (jobs s) k = Some y -> exists y', nth_error (jobs s') k = Some y' /\ (rank (st y) <= rank (st y'))%nat.
Proof.
  intros S Q. assert (SAME : jobs s' = jobs s -> exists y', nth_error (jobs s') k = Some y' /\ (rank (st y) <= rank (st y'))%nat) by (intros ->; exists y; auto).
  destruct S as [s s' c E|s s' e E].
  - unfold sched in E. destruct (pc s) as [i| |i|i|i|].
    2: { destruct (existsb _ _); [discriminate|]. injection E as <- <-. apply SAME. reflexivity. } 5: discriminate.
    all: destruct (nth_error (jobs s) i) as [j|] eqn:EJ; [|injection E as <- <-; apply SAME; reflexivity].
    all: destruct (st j) eqn:SJ; try (injection E as <- <-; apply SAME; reflexivity).
    2, 3, 4: injection E as <- <-; cbn [jobs]; apply (upd_rank (jobs s) i _ j EJ); auto; rewrite SJ; cbn; lia.
    destruct (terminate j); [injection E as <- <-; apply SAME; reflexivity|]. destruct (_ <? _); [injection E as <- <-; apply SAME; reflexivity|]. destruct (_ && _); [injection E as <- <-; apply SAME; reflexivity|]. destruct (waitee_running _ _); [injection E as <- <-; apply SAME; reflexivity|].
    injection E as <- <-. cbn [jobs]. apply (upd_rank (jobs s) i _ j EJ); auto. rewrite SJ. cbn. lia.
  - unfold happens in E. destruct e as [i|i|i|d].
    1, 2, 3: destruct (nth_error (jobs s) i) as [j|] eqn:EJ; [|discriminate]; cbn in E.
    + destruct (st j) eqn:SJ; try discriminate. injection E as <-. cbn [jobs]. apply (upd_rank (jobs s) i _ j EJ); auto. rewrite SJ. cbn. lia.
    + destruct (st j) eqn:SJ; try discriminate. injection E as <-. cbn [jobs]. apply (upd_rank (jobs s) i _ j EJ); auto. rewrite SJ. cbn. lia.
    + injection E as <-. cbn [jobs]. apply (upd_rank (jobs s) i _ j EJ); auto.
    + destruct (d <? 0); [discriminate|]. injection E as <-. apply SAME. reflexivity.
Qed.
Lemma run_created os s l : run os s l -> NoDup l /\ forall i, In i l -> exists j, nth_error (jobs s) i = Some j /\ st j <> NotCreated.
Proof.
  intros H. induction H as [|s s' c l H (ND & IH) S]; [split; [constructor|intros i []]|].
  assert (OLD : forall i, In i l -> exists j, nth_error (jobs s') i = Some j /\ st j <> NotCreated).
  { intros i I. destruct (IH i I) as (j & E & N). destruct (step_rank s c s' i j S E) as (j' & E' & R). exists j'. split; [exact E'|]. intros X. rewrite X in R. destruct (st j); cbn in R; try lia. congruence. }
  destruct c as [i|]; [|auto]. inversion S as [? ? ? E|]; subst. destruct (creates s s' i E) as (j & EJ & _ & SJ & _ & _ & _ & _ & JS). split.
  - constructor; [|exact ND]. intros I. destruct (IH i I) as (j' & E' & N). congruence.
  - intros k [<-|I]; [|auto]. rewrite JS. exists (set_st j Created). split; [apply (upd_same _ _ i j EJ)|cbn; discriminate].
Qed.
