From Coq Require Import ZArith List Bool Lia.
From Verif Require Import CBase FloatZ BuflenProofs DdirModel DdirSpec.
Import ListNotations.
Open Scope Z_scope.

Lemma eqd_spec a b : reflect (a = b) (eqd a b).
Proof. destruct a, b; constructor; congruence. Qed.
Lemma u64_small x : 0 <= x < 2 ^ 64 -> u64 x = x.
Proof. intros. apply Z.mod_small. lia. Qed.

Lemma draw_eq r : 0 <= r < 2 ^ 32 -> draw r = 1 + 100 * r / 2 ^ 32.
Proof. intros H. unfold draw. pose proof (rne53_exact (100 * r) 0 ltac:(lia) ltac:(lia)) as E. change (2 ^ 0) with 1 in E. rewrite Z.mul_1_r in E. rewrite E. reflexivity. Qed.
Lemma rand_ddir_ok o r : 0 <= r < 2 ^ 32 -> (get_rand_ddir o r = Rd <-> 100 * r < o_pr o * 2 ^ 32) /\ (get_rand_ddir o r = Rd \/ get_rand_ddir o r = Wr).
Proof.
  intros H. unfold get_rand_ddir. rewrite draw_eq by auto. pose proof (Z.div_mod (100 * r) (2 ^ 32) ltac:(lia)) as D. pose proof (Z.mod_pos_bound (100 * r) (2 ^ 32) ltac:(lia)) as B.
  destruct (Z.leb_spec (1 + 100 * r / 2 ^ 32) (o_pr o)); split; auto; split; intros; try reflexivity; try discriminate; nia.
Qed.

Definition counts_ok (s : st) : Prop := 0 <= n_r s < 2 ^ 64 /\ 0 <= n_w s < 2 ^ 64 /\ 0 <= n_t s < 2 ^ 64.
(** However often the engine says busy, a request is counted once. *)
Lemma busy_step s d : counts_ok s -> queue s d false true = s.
Proof.
  intros (A & B & C). unfold queue. destruct s as [a b c m dd l]; cbn in *. assert (E : forall x, 0 <= x < 2 ^ 64 -> u64 (u64 (x + 1) + -1) = x).
  { intros x X. unfold u64. rewrite Zplus_mod_idemp_l. rewrite Z.mod_small; lia. }
  destruct d; cbn; rewrite ?E by auto; reflexivity.
Qed.
Lemma offer_eq s d b : counts_ok s -> offer s d false b = queue s d false false.
Proof. intros C. induction b as [|b IH]; cbn [offer]; auto. rewrite busy_step; auto. Qed.

Lemma due_iff n w : 0 <= w -> due n w = true <-> n <> 0 /\ w <> 0 /\ (n | w).
Proof.
  intros W. unfold due. destruct (Z.eqb_spec n 0); cbn [negb andb]; [split; [discriminate|tauto]|]. destruct (Z.eqb_spec w 0); cbn [negb andb]; [split; [discriminate|tauto]|].
  rewrite Z.eqb_eq. rewrite Z.mod_divide by auto. tauto.
Qed.

Definition step_only (e : ev) : Prop := match e with Step r _ _ _ => 0 <= r < 2 ^ 32 | Backlog _ => False end.
(** The state agrees with the log of issued requests. *)
Definition agree (l : list ddir) (s : st) : Prop := n_r s = reads l /\ n_w s = writes l /\ 0 <= n_t s < 2 ^ 64 /\ 0 <= n_t s <= Z.of_nat (length l) /\ s_last s = last l Rd.
Lemma reads_app l l' : reads (l ++ l') = reads l + reads l'.
Proof. induction l as [|[] l IH]; cbn [reads app]; lia. Qed.
Lemma writes_app l l' : writes (l ++ l') = writes l + writes l'.
Proof. induction l as [|[] l IH]; cbn [writes app]; lia. Qed.
Lemma reads_bound l : 0 <= reads l <= Z.of_nat (length l).
Proof. induction l as [|[] l IH]; cbn [reads length]; lia. Qed.
Lemma writes_bound l : 0 <= writes l <= Z.of_nat (length l).
Proof. induction l as [|[] l IH]; cbn [writes length]; lia. Qed.
Lemma agree_counts l s : agree l s -> Z.of_nat (length l) < 2 ^ 64 -> counts_ok s.
Proof. intros (A & B & C & C' & _) L. pose proof (reads_bound l). pose proof (writes_bound l). split; [lia|]. split; lia. Qed.
Lemma agree_snoc l s d : agree l s -> Z.of_nat (length l) + 1 < 2 ^ 64 -> agree (l ++ [d]) (queue s d false false).
Proof.
  intros (A & B & C & C' & _) L. unfold agree. rewrite reads_app, writes_app, app_length, last_last. pose proof (reads_bound l). pose proof (writes_bound l).
  unfold queue. destruct d; cbn; rewrite ?u64_small by lia; (split; [lia|]; split; [lia|]; split; [lia|]; split; [lia|reflexivity]).
Qed.

(** What get_rw_ddir leaves unchanged. *)
Lemma choose_keeps o s r c s' d : get_rw_ddir o s r c = (s', d) -> n_r s' = n_r s /\ n_w s' = n_w s /\ n_t s' = n_t s /\ s_last s' = s_last s.
Proof.
  unfold get_rw_ddir. destruct (_ && due (o_fsync o) _); [intros H; inversion H; subst; auto|]. destruct (_ && due (o_fdatasync o) _); [intros H; inversion H; subst; auto|]. destruct (_ && due (o_sfr o) _); [intros H; inversion H; subst; auto|].
  destruct (td_rw o).
  - destruct (_ >=? _); [|intros H; inversion H; subst; auto]. destruct (eqd _ _); intros H; inversion H; subst; auto.
  - intros H; inversion H; subst; auto.
Qed.
(** When the choice is a flush. *)
Lemma rate_no_sync o d c : is_sync d = false -> d = Rd \/ d = Wr \/ td_rw o = false -> is_sync (fst (rate_ddir o d c)) = false.
Proof.
  intros N H. unfold rate_ddir. destruct (_ <=? _); auto.
  assert (O : (td_rw o && negb (rwmix o (other d) =? 0)) = true -> is_sync (other d) = false) by (intros E; destruct H as [->|[->|E2]]; [auto|auto|rewrite E2 in E; discriminate]).
  destruct (td_rw o && negb (rwmix o (other d) =? 0)); cbn [andb].
  - destruct (_ <=? _); cbn [fst]; auto. assert (X : forall b : bool, is_sync (if b then other d else d) = false) by (intros []; auto).
    destruct (_ && _); [destruct (_ >? _)|]; cbn [fst]; auto; match goal with |- is_sync (if ?b then _ else _) = false => destruct b; auto end.
  - destruct (_ && _); [destruct (_ >? _)|]; cbn [fst]; auto; match goal with |- is_sync (if ?b then _ else _) = false => destruct b; auto end.
Qed.
(** The direction without the flushes and the rate. *)
Definition dir_ok (o : opts) (s : st) : Prop := td_rw o = true -> s_dir s = Rd \/ s_dir s = Wr.
Lemma choose_cases o s r c s' d : 0 <= r < 2 ^ 32 -> dir_ok o s -> get_rw_ddir o s r c = (s', d) ->
  if (o_w o || o_override o) && eqd (s_last s) Wr && (due (o_fsync o) (n_w s) || due (o_fdatasync o) (n_w s) || due (o_sfr o) (n_w s))
  then s' = s /\ d = (if due (o_fsync o) (n_w s) then Sync else if due (o_fdatasync o) (n_w s) then Dsync else Sfr)
  else is_sync d = false /\ s_dir s' = d.
Proof.
  intros R DO H. unfold get_rw_ddir in H. set (fs := negb (is_sync (s_last s)) && (o_w o || o_override o) && eqd (s_last s) Wr) in H.
  assert (FE : fs = (o_w o || o_override o) && eqd (s_last s) Wr). { unfold fs. destruct (eqd_spec (s_last s) Wr) as [->|]; [reflexivity|]. rewrite !andb_false_r. reflexivity. }
  clearbody fs. rewrite <- FE. destruct fs; cbn [andb] in *.
  - destruct (due (o_fsync o) (n_w s)); cbn [orb] in *; [inversion H; auto|]. destruct (due (o_fdatasync o) (n_w s)); cbn [orb] in *; [inversion H; auto|]. destruct (due (o_sfr o) (n_w s)); [inversion H; auto|].
    revert H. generalize (proj2 (rand_ddir_ok o r R)). intros RD H. destruct (td_rw o) eqn:RW.
    + assert (X : forall e, e = Rd \/ e = Wr -> is_sync (if o_rate o then fst (rate_ddir o e c) else e) = false) by (intros e E; destruct (o_rate o); [apply rate_no_sync; [destruct E; subst; auto|tauto]|destruct E; subst; auto]).
      destruct (_ >=? _); [destruct (eqd _ _)|]; inversion H; subst; cbn [s_dir set_dir]; auto.
    + inversion H; subst. cbn [s_dir set_dir]. split; auto. assert (N : is_sync (if o_r o then Rd else if o_w o then Wr else if o_t o then Tr else Inval) = false) by (destruct (o_r o), (o_w o), (o_t o); auto). destruct (o_rate o); auto. apply rate_no_sync; auto.
  - revert H. generalize (proj2 (rand_ddir_ok o r R)). intros RD H. destruct (td_rw o) eqn:RW.
    + assert (X : forall e, e = Rd \/ e = Wr -> is_sync (if o_rate o then fst (rate_ddir o e c) else e) = false) by (intros e E; destruct (o_rate o); [apply rate_no_sync; [destruct E; subst; auto|tauto]|destruct E; subst; auto]).
      destruct (_ >=? _); [destruct (eqd _ _)|]; inversion H; subst; cbn [s_dir set_dir]; auto.
    + inversion H; subst. cbn [s_dir set_dir]. split; auto. assert (N : is_sync (if o_r o then Rd else if o_w o then Wr else if o_t o then Tr else Inval) = false) by (destruct (o_r o), (o_w o), (o_t o); auto). destruct (o_rate o); auto. apply rate_no_sync; auto.
Qed.
(** The direction stays one of the two. *)
Lemma choose_dir o s r c s' d : 0 <= r < 2 ^ 32 -> dir_ok o s -> get_rw_ddir o s r c = (s', d) -> d <> Timeout -> td_rw o = true -> s_dir s' = Rd \/ s_dir s' = Wr.
Proof.
  intros R DO H NT RW. specialize (DO RW). unfold get_rw_ddir in H. destruct (_ && due (o_fsync o) _); [inversion H; subst; auto|]. destruct (_ && due (o_fdatasync o) _); [inversion H; subst; auto|]. destruct (_ && due (o_sfr o) _); [inversion H; subst; auto|].
  rewrite RW in H. pose proof (proj2 (rand_ddir_ok o r R)) as RD.
  assert (X : forall e, e = Rd \/ e = Wr -> (if o_rate o then fst (rate_ddir o e c) else e) = d -> d = Rd \/ d = Wr).
  { intros e E. destruct (o_rate o); [|intros <-; auto]. unfold rate_ddir. destruct (_ <=? _); [cbn; intros <-; auto|]. destruct (_ && (_ <=? _)); [cbn; intros <-; destruct E; subst; cbn; auto|].
    set (d' := if _ && _ then other e else e). assert (D' : d' = Rd \/ d' = Wr) by (unfold d'; destruct (_ && _); destruct E; subst; cbn; auto). clearbody d'.
    destruct (_ && _); [destruct (_ >? _)|]; cbn [fst]; try (intros <-; congruence); match goal with |- (if ?b then _ else _) = _ -> _ => destruct b; intros <-; [congruence|auto] end. }
  destruct (_ >=? _); [destruct (eqd _ _)|]; inversion H; subst; cbn [s_dir set_dir]; eapply X; try reflexivity; auto.
Qed.

(** The step: what is issued, given the log so far. *)
Definition flush_rule (o : opts) (l : list ddir) (d : ddir) : Prop :=
  (forall f, o_w o || o_override o = true -> last l Rd = Wr -> flush_after (o_fsync o) (o_fdatasync o) (o_sfr o) (writes l) f -> d = f) /\
  (a_flush d -> last l Rd = Wr /\ flush_after (o_fsync o) (o_fdatasync o) (o_sfr o) (writes l) d).
Lemma is_sync_flush d : is_sync d = true <-> a_flush d.
Proof. unfold a_flush. destruct d; cbn; split; intros H; try discriminate; try reflexivity; auto; destruct H as [|[|]]; discriminate. Qed.
Lemma last_wr_writes l : last l Rd = Wr -> writes l <> 0.
Proof.
  destruct l as [|x l] using rev_ind; [discriminate|]. rewrite last_last. intros ->. rewrite writes_app. cbn. pose proof (writes_bound l). lia.
Qed.
(** No workload reads, writes and trims (io_ddir.h:42-54). *)
Definition wf (o : opts) : Prop := td_rw o = true -> o_t o = false.
Lemma step_flush o s e l s' d : wf o -> step_only e -> agree l s -> dir_ok o s -> Z.of_nat (length l) + 1 < 2 ^ 64 -> step o s e = (s', Some d) -> agree (l ++ [d]) s' /\ dir_ok o s' /\ flush_rule o l d.
Proof.
  intros WF SO A DO L H. destruct e as [r c tw busy|busy]; [|contradiction]. cbn [step_only] in SO. cbn [step] in H. destruct (get_rw_ddir o s r c) as [s1 d1] eqn:E.
  pose proof (choose_cases o s r c s1 d1 SO DO E) as CC. destruct (choose_keeps o s r c s1 d1 E) as (K1 & K2 & K3 & K4).
  assert (A1 : agree l s1) by (destruct A as (A1 & A2 & A3 & A4 & A5); unfold agree; rewrite K1, K2, K3, K4; auto).
  pose proof (agree_counts l s1 A1 ltac:(lia)) as CT. destruct A as (_ & AW & _ & _ & AL). rewrite AW, AL in CC.
  set (d2 := if o_t o && o_w o && negb (is_sync d1) then if tw then Tr else Wr else d1) in H.
  assert (D2 : is_sync d2 = is_sync d1 /\ (is_sync d1 = true -> d2 = d1)) by (unfold d2; destruct (o_t o && o_w o); cbn [andb]; [|auto]; destruct (is_sync d1) eqn:SD; cbn [negb]; [auto|]; destruct tw; split; try reflexivity; discriminate).
  assert (H' : (offer s1 d2 false busy, Some d2) = (s', Some d)). { revert H. clearbody d2. destruct d2; intros H; try exact H; discriminate. }
  assert (NT : td_rw o = true -> d1 <> Timeout) by (intros RW ->; unfold d2 in H; rewrite (WF RW) in H; cbn in H; discriminate).
  clear H. rewrite offer_eq in H' by auto. assert (EQ : d2 = d) by congruence. assert (ES : s' = queue s1 d2 false false) by congruence. subst s'. rewrite EQ in *. clear H'. clearbody d2. subst d2.
  split; [apply agree_snoc; auto; lia|].
  assert (DS : forall x b, s_dir (queue x d b false) = s_dir x) by (intros x [|]; unfold queue; cbn; [reflexivity|]; destruct d; reflexivity).
  pose proof (writes_bound l) as WB. destruct D2 as (D2 & D3).
  assert (FR : flush_rule o l d).
  { unfold flush_rule. rewrite <- is_sync_flush. rewrite D2.
    destruct ((o_w o || o_override o) && eqd (last l Rd) Wr && (due (o_fsync o) (writes l) || due (o_fdatasync o) (writes l) || due (o_sfr o) (writes l))) eqn:B.
    - destruct CC as (-> & CC). apply andb_prop in B. destruct B as (B & B3). apply andb_prop in B. destruct B as (B1 & B2). destruct (eqd_spec (last l Rd) Wr) as [LW|]; [|discriminate]. pose proof (last_wr_writes l LW) as NZ.
      assert (SY : is_sync d1 = true) by (rewrite CC; destruct (due (o_fsync o) (writes l)), (due (o_fdatasync o) (writes l)); reflexivity). specialize (D3 SY). subst d.
      pose proof (due_iff (o_fsync o) (writes l) ltac:(lia)) as I1. pose proof (due_iff (o_fdatasync o) (writes l) ltac:(lia)) as I2. pose proof (due_iff (o_sfr o) (writes l) ltac:(lia)) as I3.
      assert (FA : flush_after (o_fsync o) (o_fdatasync o) (o_sfr o) (writes l) d1).
      { unfold flush_after. destruct (due (o_fsync o) (writes l)); [left; split; [exact CC|tauto]|]. right.
        assert (N1 : ~ (o_fsync o <> 0 /\ (o_fsync o | writes l))) by (intros X; assert (false = true) by (apply I1; tauto); discriminate).
        destruct (due (o_fdatasync o) (writes l)); [left; split; [exact CC|]; split; [exact N1|tauto]|]. right.
        assert (N2 : ~ (o_fdatasync o <> 0 /\ (o_fdatasync o | writes l))) by (intros X; assert (false = true) by (apply I2; tauto); discriminate).
        cbn [orb] in B3. rewrite B3 in I3. split; [exact CC|]. split; [exact N1|]. split; [exact N2|tauto]. }
      split; [|auto]. intros f _ _ F. unfold flush_after in FA, F. destruct FA as [(-> & X)|[(-> & X & Y)|(-> & X & Y & Z1)]]; destruct F as [(-> & X')|[(-> & X' & Y')|(-> & X' & Y' & Z')]]; try reflexivity; tauto.
    - destruct CC as (CC & _). rewrite CC. split; [|discriminate]. intros f B1 LW F. exfalso. rewrite B1, LW in B. change (eqd Wr Wr) with true in B. cbn [andb] in B. pose proof (last_wr_writes l LW) as NZ.
      apply orb_false_elim in B. destruct B as (B & B3). apply orb_false_elim in B. destruct B as (B1' & B2).
      pose proof (due_iff (o_fsync o) (writes l) ltac:(lia)) as I1. pose proof (due_iff (o_fdatasync o) (writes l) ltac:(lia)) as I2. pose proof (due_iff (o_sfr o) (writes l) ltac:(lia)) as I3.
      rewrite B1' in I1. rewrite B2 in I2. rewrite B3 in I3.
      unfold flush_after in F. destruct F as [(_ & X)|[(_ & _ & X)|(_ & _ & _ & X)]]; [assert (false = true) by (apply I1; tauto)|assert (false = true) by (apply I2; tauto)|assert (false = true) by (apply I3; tauto)]; discriminate. }
  split; auto. intros RW. rewrite DS. apply (choose_dir o s r c s1 d1 SO DO E); auto.
Qed.

Lemma run_flush o : wf o -> forall es s l s' xs, Forall step_only es -> agree l s -> dir_ok o s -> Z.of_nat (length l) + Z.of_nat (length es) < 2 ^ 64 -> run o s es = (s', xs) ->
  agree (l ++ xs) s' /\ forall a d b, xs = a ++ d :: b -> flush_rule o (l ++ a) d.
Proof.
  intros WF. assert (NIL : forall l s' s'' xs, agree l s' -> (s', @nil ddir) = (s'', xs) -> agree (l ++ xs) s'' /\ forall a d b, xs = a ++ d :: b -> flush_rule o (l ++ a) d) by (intros l s' s'' xs A E; inversion E; subst; rewrite app_nil_r; split; auto; intros [|] ? ? X; discriminate).
  induction es as [|e es IH]; intros s l s' xs FS A DO L H; cbn [run] in H; [eapply NIL; eauto|].
  inversion FS; subst. destruct (step o s e) as [s1 [d|]] eqn:E.
  - destruct (run o s1 es) as [s2 ys] eqn:ER. inversion H; subst s2 xs. clear H. cbn [length] in L. destruct (step_flush o s e l s1 d WF H2 A DO ltac:(lia) E) as (A1 & D1 & F1).
    destruct (IH s1 (l ++ [d]) s' ys H3 A1 D1) as (A2 & F2); auto. { rewrite app_length. cbn [length]. lia. }
    rewrite <- app_assoc in A2. split; auto. intros [|x a] d0 b X; cbn [app] in X; inversion X; subst; [rewrite app_nil_r; auto|]. specialize (F2 a d0 b eq_refl). rewrite <- app_assoc in F2. exact F2.
  - eapply NIL; [|exact H]. destruct e as [r c tw busy|busy]; [|contradiction]. cbn [step] in E. destruct (get_rw_ddir o s r c) as [s2 d1] eqn:EG. destruct (choose_keeps o s r c s2 d1 EG) as (K1 & K2 & K3 & K4).
    assert (ES : s2 = s1) by (revert E; generalize (if o_t o && o_w o && negb (is_sync d1) then if tw then Tr else Wr else d1); intros [] E; congruence). subst s2. destruct A as (A1 & A2 & A3 & A4 & A5). unfold agree. rewrite K1, K2, K3, K4. auto.
Qed.

(** The mix: what was forced is behind its share. *)
Definition mix_ok (o : opts) (s : st) : Prop := 0 <= s_mix s /\ 100 * s_mix s <= issues s (other (s_dir s)) * rwmix o (s_dir s) /\ (s_dir s = Rd \/ s_dir s = Wr).
Definition count (d : ddir) (l : list ddir) : Z := match d with Wr => writes l | _ => reads l end.
Definition mix_rule (o : opts) (l : list ddir) (r : Z) (d : ddir) : Prop :=
  a_flush d \/ d = get_rand_ddir o r \/ ((d = Rd \/ d = Wr) /\ 100 * (count d l + 1) <= rwmix o d * count (other d) l).
Lemma mix_step o s l r c tw busy s' d : td_rw o = true -> o_t o = false -> o_rate o = false -> 0 <= o_pr o <= 100 -> 0 <= o_pw o <= 100 -> 0 <= r < 2 ^ 32 -> agree l s -> Z.of_nat (length l) + 1 < 2 ^ 57 -> mix_ok o s -> step o s (Step r c tw busy) = (s', Some d) ->
  agree (l ++ [d]) s' /\ mix_ok o s' /\ mix_rule o l r d.
Proof.
  intros RW OT OR PR PW R A L (M0 & M1 & MD) H. assert (WF : wf o) by (intros _; auto).
  destruct (step_flush o s (Step r c tw busy) l s' d WF R A ltac:(intros _; auto) ltac:(lia) H) as (A1 & _ & _). split; auto.
  pose proof A as (AR & AW & _). pose proof (reads_bound l) as RB. pose proof (writes_bound l) as WB.
  cbn [step] in H. rewrite OT in H. cbn [andb] in H. destruct (get_rw_ddir o s r c) as [s1 d1] eqn:E. destruct (choose_keeps o s r c s1 d1 E) as (K1 & K2 & K3 & K4).
  assert (A2 : agree l s1) by (destruct A as (X1 & X2 & X3 & X4 & X5); unfold agree; rewrite K1, K2, K3, K4; auto). pose proof (agree_counts l s1 A2 ltac:(lia)) as CT.
  assert (H' : s' = queue s1 d1 false false /\ d = d1). { rewrite offer_eq in H by auto. destruct d1; inversion H; auto. } destruct H' as (-> & ->). clear H.
  (* the mark of the state that the choice leaves *)
  assert (KEY : mix_ok o s1 /\ mix_rule o l r d1).
  { unfold get_rw_ddir in E. destruct (_ && due (o_fsync o) _); [inversion E; subst; split; [split; auto|left; left; auto]|]. destruct (_ && due (o_fdatasync o) _); [inversion E; subst; split; [split; auto|left; right; left; auto]|]. destruct (_ && due (o_sfr o) _); [inversion E; subst; split; [split; auto|left; right; right; auto]|].
    rewrite RW, OR in E. destruct (Z.geb_spec (issues s (s_dir s)) (s_mix s)) as [G|G].
    - destruct (rand_ddir_ok o r R) as (_ & RD). set (g := get_rand_ddir o r) in *. assert (MR : mix_rule o l r g) by (right; left; reflexivity). destruct (eqd_spec g (s_dir s)) as [EQ|NE].
      + inversion E; subst s1 d1. cbn [set_dir s_dir]. split; [|exact MR]. unfold mix_ok; cbn [set_dir s_dir s_mix]. rewrite EQ. split; auto.
      + assert (OG : other (s_dir s) = g) by (destruct MD as [E1|E1], RD as [E2|E2]; rewrite E1, E2 in *; try reflexivity; congruence).
        assert (OS : other g = s_dir s) by (destruct MD as [E1|E1], RD as [E2|E2]; rewrite E1, E2 in *; try reflexivity; congruence).
        inversion E; subst s1 d1. cbn [set_dir s_dir]. split; [|exact MR]. unfold mix_ok; cbn [set_dir set_rwmix s_dir s_mix]. rewrite OG, OS.
        assert (IS : 0 <= issues s (s_dir s) < 2 ^ 57) by (destruct MD as [E1|E1]; rewrite E1; cbn; lia). assert (PG : 0 <= rwmix o g <= 100) by (destruct RD as [E2|E2]; rewrite E2; cbn; auto).
        rewrite u64_small by nia. change (issues (set_dir (mkS (n_r s) (n_w s) (n_t s) (issues s (s_dir s) * rwmix o g / 100) (s_dir s) (s_last s)) g) (s_dir s)) with (issues s (s_dir s)).
        split; [apply Z.div_pos; nia|]. split; [|auto]. apply Z.mul_div_le. lia.
    - inversion E; subst s1 d1. cbn [set_dir s_dir]. split; [unfold mix_ok; cbn [set_dir s_dir s_mix]; auto|]. right. right. split; [exact MD|].
      assert (CI : count (s_dir s) l = issues s (s_dir s) /\ count (other (s_dir s)) l = issues s (other (s_dir s))) by (destruct MD as [E1|E1]; rewrite E1; cbn; auto). destruct CI as (-> & ->). lia. }
  destruct KEY as ((N0 & N1 & ND) & MR). split; auto. unfold mix_ok.
  assert (DS : s_dir (queue s1 d1 false false) = s_dir s1 /\ s_mix (queue s1 d1 false false) = s_mix s1) by (unfold queue; destruct d1; cbn; auto). destruct DS as (-> & ->). split; auto. split; auto.
  assert (MONO : issues s1 (other (s_dir s1)) <= issues (queue s1 d1 false false) (other (s_dir s1))).
  { destruct ND as [E1|E1]; rewrite E1; cbn [other issues]; unfold queue; destruct d1; cbn [bump n_r n_w]; rewrite ?u64_small by lia; lia. }
  assert (PD : 0 <= rwmix o (s_dir s1)) by (destruct ND as [E1|E1]; rewrite E1; cbn; lia). nia.
Qed.
