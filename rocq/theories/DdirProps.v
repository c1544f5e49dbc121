(** C31: the mix of directions and the flushes. *)
From Coq Require Import ZArith List Bool Lia.
From Verif Require Import CBase FloatZ DdirModel DdirSpec DdirProofs.
Import ListNotations.
Open Scope Z_scope.

Lemma agree_init : agree [] init.
Proof. split; [reflexivity|]. split; [reflexivity|]. split; [cbn; lia|]. split; [cbn; lia|reflexivity]. Qed.

(** A fresh draw says read for exactly the first p percent of the values of the generator. *)
Theorem C31_draw o r : 0 <= r < 2 ^ 32 -> (get_rand_ddir o r = Rd <-> 100 * r < o_pr o * 2 ^ 32) /\ (get_rand_ddir o r = Rd \/ get_rand_ddir o r = Wr).
Proof. apply rand_ddir_ok. Qed.

(** Flushes: after the w-th write comes the flush that its number asks for, at once and once; no other request is a flush. For every
    job, with or without rates, mixes and trims, whatever the engine answers. *)
Theorem C31_flush o es s' xs a d b : wf o -> Forall step_only es -> Z.of_nat (length es) < 2 ^ 64 -> run o init es = (s', xs) -> xs = a ++ d :: b ->
  (forall f, o_w o || o_override o = true -> last a Rd = Wr -> flush_after (o_fsync o) (o_fdatasync o) (o_sfr o) (writes a) f -> d = f) /\
  (a_flush d -> last a Rd = Wr /\ flush_after (o_fsync o) (o_fdatasync o) (o_sfr o) (writes a) d).
Proof.
  intros WF FS L R X. destruct (run_flush o WF es init [] s' xs FS) as (_ & F); auto; [apply agree_init|intros _; left; reflexivity|]. apply (F a d b X).
Qed.
Fixpoint flushes (l : list ddir) : Z := match l with [] => 0 | d :: l => (if is_sync d then 1 else 0) + flushes l end.
Lemma flushes_app l l' : flushes (l ++ l') = flushes l + flushes l'.
Proof. induction l as [|d l IH]; cbn [flushes app]; [lia|]. destruct (is_sync d); lia. Qed.
Lemma succ_div w n : 0 < n -> 0 <= w -> (w + 1) / n = if (w + 1) mod n =? 0 then w / n + 1 else w / n.
Proof.
  intros N W. pose proof (Z.div_mod w n ltac:(lia)) as D. pose proof (Z.mod_pos_bound w n ltac:(lia)) as B. destruct (Z.eq_dec (w mod n + 1) n) as [E|E].
  - assert (Q : (w + 1) / n = w / n + 1) by (symmetry; apply (Z.div_unique (w + 1) n (w / n + 1) 0); lia). assert (M : (w + 1) mod n = 0) by (symmetry; apply (Z.mod_unique (w + 1) n (w / n + 1) 0); lia). rewrite Q, M. reflexivity.
  - assert (Q : (w + 1) / n = w / n) by (symmetry; apply (Z.div_unique (w + 1) n (w / n) (w mod n + 1)); lia). assert (M : (w + 1) mod n = w mod n + 1) by (symmetry; apply (Z.mod_unique (w + 1) n (w / n) (w mod n + 1)); lia). rewrite Q, M. destruct (Z.eqb_spec (w mod n + 1) 0); lia.
Qed.
Lemma count_rule o n : 0 < n -> o_w o = true -> o_fsync o = n -> o_fdatasync o = 0 -> o_sfr o = 0 -> forall l, (forall a d b, l = a ++ d :: b -> flush_rule o a d) ->
  flushes l = writes l / n - (if eqd (last l Rd) Wr && (writes l mod n =? 0) then 1 else 0).
Proof.
  intros N OW E1 E2 E3. induction l as [|d l IH] using rev_ind; intros H; [cbn [flushes writes last]; change (eqd Rd Wr) with false; cbn [andb]; rewrite Z.div_0_l by lia; reflexivity|].
  specialize (IH ltac:(intros a x b E; apply (H a x (b ++ [d])); rewrite E; rewrite <- app_assoc; reflexivity)). destruct (H l d [] eq_refl) as (H1 & H2). rewrite OW, E1, E2, E3 in *. rewrite last_last, flushes_app, writes_app, IH. cbn [flushes].
  pose proof (writes_bound l) as WB. pose proof (Z.div_mod (writes l) n ltac:(lia)) as DM. pose proof (Z.mod_pos_bound (writes l) n ltac:(lia)) as MB.
  destruct (eqd_spec (last l Rd) Wr) as [LW|LW]; cbn [andb].
  - destruct (Z.eqb_spec (writes l mod n) 0) as [M|M].
    + assert (D : d = Sync) by (apply H1; auto; left; split; [auto|]; split; [lia|apply Z.mod_divide; lia]). subst d. cbn. rewrite Z.add_0_r. lia.
    + assert (NS : is_sync d = false). { destruct (is_sync d) eqn:S; auto. apply is_sync_flush in S. destruct (H2 S) as (_ & [(_ & _ & X)|[(_ & _ & X & _)|(_ & _ & _ & X & _)]]); [apply Z.mod_divide in X; lia|lia|lia]. }
      rewrite NS. destruct (eqd_spec d Wr) as [->|NW]; cbn [andb].
      * cbn [writes]. change (1 + 0) with 1. rewrite (succ_div (writes l) n) by lia. destruct ((writes l + 1) mod n =? 0); lia.
      * assert (W0 : writes [d] = 0) by (destruct d; try reflexivity; congruence). rewrite W0, !Z.add_0_r. lia.
  - assert (NS : is_sync d = false). { destruct (is_sync d) eqn:S; auto. apply is_sync_flush in S. destruct (H2 S) as (X & _). contradiction. }
    rewrite NS. destruct (eqd_spec d Wr) as [->|NW]; cbn [andb].
    + cbn [writes]. change (1 + 0) with 1. rewrite (succ_div (writes l) n) by lia. destruct ((writes l + 1) mod n =? 0); lia.
    + assert (W0 : writes [d] = 0) by (destruct d; try reflexivity; congruence). rewrite W0, !Z.add_0_r. lia.
Qed.
(** So fsync=n gives one flush for every n writes; only the last one may still be missing, right after its write. *)
Theorem C31_flush_count o n es s' xs : wf o -> 0 < n -> o_w o = true -> o_fsync o = n -> o_fdatasync o = 0 -> o_sfr o = 0 -> Forall step_only es -> Z.of_nat (length es) < 2 ^ 64 -> run o init es = (s', xs) ->
  flushes xs = writes xs / n - (if eqd (last xs Rd) Wr && (writes xs mod n =? 0) then 1 else 0).
Proof.
  intros WF N OW E1 E2 E3 FS L R. apply (count_rule o n); auto. intros a d b X. destruct (run_flush o WF es init [] s' xs FS) as (_ & F); auto; [apply agree_init|intros _; left; reflexivity|]. apply (F a d b X).
Qed.

Definition event_draw (e : ev) : Z := match e with Step r _ _ _ => r | Backlog _ => 0 end.
Fixpoint says (o : opts) (d : ddir) (es : list ev) : Z := match es with [] => 0 | e :: es => (if eqd (get_rand_ddir o (event_draw e)) d then 1 else 0) + says o d es end.
Lemma says_nonneg o d es : 0 <= says o d es.
Proof. induction es as [|e es IH]; cbn [says]; [lia|]. destruct (eqd _ _); lia. Qed.
Lemma run_mix o : td_rw o = true -> o_t o = false -> o_rate o = false -> 0 <= o_pr o <= 100 -> 0 <= o_pw o <= 100 ->
  forall es s l s' xs, Forall step_only es -> agree l s -> mix_ok o s -> Z.of_nat (length l) + Z.of_nat (length es) < 2 ^ 57 -> run o s es = (s', xs) ->
  length xs = length es /\ (forall k e d, nth_error es k = Some e -> nth_error xs k = Some d -> mix_rule o (l ++ firstn k xs) (event_draw e) d) /\
  forall dw dr, 0 <= dw -> 0 <= dr -> 100 * writes l <= 100 * dw + o_pw o * reads l -> 100 * reads l <= 100 * dr + o_pr o * writes l ->
    100 * writes (l ++ xs) <= 100 * (dw + says o Wr es) + o_pw o * reads (l ++ xs) /\ 100 * reads (l ++ xs) <= 100 * (dr + says o Rd es) + o_pr o * writes (l ++ xs).
Proof.
  intros RW OT OR PR PW. induction es as [|e es IH]; intros s l s' xs FS A M L H; cbn [run] in H.
  { inversion H; subst. split; auto. split; [intros [|]; discriminate|]. intros. rewrite app_nil_r. cbn [says]. rewrite !Z.add_0_r. auto. }
  inversion FS; subst. destruct e as [r c tw busy|busy]; [|contradiction]. cbn [length] in L. destruct (step o s (Step r c tw busy)) as [s1 [d|]] eqn:E.
  - destruct (mix_step o s l r c tw busy s1 d RW OT OR PR PW H2 A ltac:(lia) M E) as (A1 & M1 & R1). destruct (run o s1 es) as [s2 ys] eqn:ER. inversion H; subst s2 xs. clear H.
    destruct (IH s1 (l ++ [d]) s' ys H3 A1 M1) as (L2 & R2 & S2); auto. { rewrite app_length. cbn [length]. lia. }
    split; [cbn; congruence|]. split.
    + intros [|k] e0 d0 N1 N2; cbn [nth_error] in *; [inversion N1; inversion N2; subst; cbn [firstn event_draw]; rewrite app_nil_r; auto|]. specialize (R2 k e0 d0 N1 N2). rewrite <- app_assoc in R2. exact R2.
    + intros dw dr DW DR B1 B2. cbn [says event_draw]. rewrite <- app_assoc in S2. cbn [app] in S2. set (gw := if eqd (get_rand_ddir o r) Wr then 1 else 0). set (gr := if eqd (get_rand_ddir o r) Rd then 1 else 0).
      pose proof (reads_bound l). pose proof (writes_bound l).
      assert (GW : 0 <= gw) by (unfold gw; destruct (eqd (get_rand_ddir o r) Wr); lia). assert (GR : 0 <= gr) by (unfold gr; destruct (eqd (get_rand_ddir o r) Rd); lia).
      destruct (S2 (dw + gw) (dr + gr)) as (X & Y); [lia|lia| | |rewrite !Z.add_assoc; auto].
      * rewrite writes_app, reads_app. destruct R1 as [F|[D|(D & C)]].
        -- assert (Z0 : writes [d] = 0 /\ reads [d] = 0) by (destruct F as [->|[->| ->]]; auto). destruct Z0 as (-> & ->). nia.
        -- destruct (rand_ddir_ok o r H2) as (_ & RD). unfold gw. rewrite D. destruct RD as [Q|Q]; rewrite Q; cbn [writes reads eqd]; nia.
        -- destruct D as [->| ->]; cbn [writes reads count other rwmix] in *; nia.
      * rewrite writes_app, reads_app. destruct R1 as [F|[D|(D & C)]].
        -- assert (Z0 : writes [d] = 0 /\ reads [d] = 0) by (destruct F as [->|[->| ->]]; auto). destruct Z0 as (-> & ->). nia.
        -- destruct (rand_ddir_ok o r H2) as (_ & RD). unfold gr. rewrite D. destruct RD as [Q|Q]; rewrite Q; cbn [writes reads eqd]; nia.
        -- destruct D as [->| ->]; cbn [writes reads count other rwmix] in *; nia.
  - exfalso. cbn [step] in E. rewrite OT in E. cbn [andb] in E. destruct (get_rw_ddir o s r c) as [s2 d1] eqn:EG. destruct M as (_ & _ & MD).
    pose proof (choose_cases o s r c s2 d1 H2 ltac:(intros _; auto) EG) as CC. assert (X : d1 = Rd \/ d1 = Wr \/ is_sync d1 = true).
    { destruct (_ && _); [destruct CC as (_ & ->); right; right; destruct (due _ _); [auto|destruct (due _ _); auto]|]. destruct CC as (NS & CC). unfold get_rw_ddir in EG. rewrite RW, OR in EG. destruct (_ && due (o_fsync o) _); [inversion EG; subst; auto|]. destruct (_ && due (o_fdatasync o) _); [inversion EG; subst; auto|]. destruct (_ && due (o_sfr o) _); [inversion EG; subst; auto|].
      pose proof (proj2 (rand_ddir_ok o r H2)) as RD. destruct (_ >=? _); [destruct (eqd _ _)|]; inversion EG; subst; cbn [set_dir s_dir]; tauto. }
    destruct X as [->|[->|X]]; [discriminate|discriminate|destruct d1; discriminate].
Qed.
(** Mixed jobs: every request is a flush, or follows its fresh draw, or goes to the direction that is behind its share: even with
    this request it has at most its percentage of the other direction's number. *)
Theorem C31_mix o es s' xs k r c tw busy d : td_rw o = true -> o_t o = false -> o_rate o = false -> 0 <= o_pr o <= 100 -> 0 <= o_pw o <= 100 -> Forall step_only es -> Z.of_nat (length es) < 2 ^ 57 -> run o init es = (s', xs) ->
  nth_error es k = Some (Step r c tw busy) -> nth_error xs k = Some d -> let l := firstn k xs in
  a_flush d \/ d = get_rand_ddir o r \/ (d = Wr /\ 100 * (writes l + 1) <= o_pw o * reads l) \/ (d = Rd /\ 100 * (reads l + 1) <= o_pr o * writes l).
Proof.
  intros RW OT OR PR PW FS L R N1 N2 l. destruct (run_mix o RW OT OR PR PW es init [] s' xs FS) as (_ & M & _); auto; [apply agree_init|split; [cbn; lia|]; split; [cbn; lia|left; reflexivity]|].
  specialize (M k _ d N1 N2). cbn [app event_draw] in M. destruct M as [F|[D|(D & C)]]; auto. destruct D as [->| ->]; cbn [count other rwmix] in C; auto.
Qed.
(** So what the draws did not ask for stays within the requested share. *)
Theorem C31_share o es s' xs : td_rw o = true -> o_t o = false -> o_rate o = false -> 0 <= o_pr o <= 100 -> 0 <= o_pw o <= 100 -> Forall step_only es -> Z.of_nat (length es) < 2 ^ 57 -> run o init es = (s', xs) ->
  100 * (writes xs - says o Wr es) <= o_pw o * reads xs /\ 100 * (reads xs - says o Rd es) <= o_pr o * writes xs.
Proof.
  intros RW OT OR PR PW FS L R. destruct (run_mix o RW OT OR PR PW es init [] s' xs FS) as (_ & _ & S); auto; [apply agree_init|split; [cbn; lia|]; split; [cbn; lia|left; reflexivity]|].
  destruct (S 0 0) as (X & Y); cbn [app writes reads] in *; lia.
Qed.
(** A mix with only one direction never issues the other. *)
Theorem C31_pure o es s' xs : td_rw o = true -> o_t o = false -> o_rate o = false -> o_pr o = 100 -> o_pw o = 0 -> Forall step_only es -> Z.of_nat (length es) < 2 ^ 57 -> run o init es = (s', xs) -> writes xs = 0.
Proof.
  intros RW OT OR PR PW FS L R. destruct (C31_share o es s' xs RW OT OR ltac:(lia) ltac:(lia) FS L R) as (S & _).
  assert (Z0 : says o Wr es = 0).
  { clear - FS PR. induction FS as [|e es SO _ IH]; cbn [says]; auto. rewrite IH. destruct e as [r c tw busy|]; [|contradiction]. cbn [step_only event_draw] in *. destruct (rand_ddir_ok o r SO) as (RD & _). rewrite (proj2 RD) by lia. reflexivity. }
  pose proof (writes_bound xs). nia.
Qed.
(** The engine may be busy as often as it likes. *)
Theorem C31_busy s d b : counts_ok s -> offer s d false b = offer s d false O.
Proof. apply offer_eq. Qed.
(** Rates: if the sleep is as long as asked for, nothing is issued before its time, except at the very instant of the timeout. *)
Theorem C31_rate o d c d' z : rate_ddir o d c = (d', z) -> (match z with Some u => c_now c + u <= c_after c | None => c_after c = c_now c end) -> d' <> Timeout ->
  (d' = d \/ (d' = other d /\ td_rw o = true /\ rwmix o d' <> 0)) /\ (c_next c d' <= c_after c \/ (o_timeout o <> 0 /\ c_after c = o_timeout o)) /\ (forall u, z = Some u -> 0 <= u /\ c_term c = false /\ (o_timeout o = 0 \/ c_after c <= o_timeout o)).
Proof.
  unfold rate_ddir. intros H S NT. destruct (Z.leb_spec (c_next c d) (c_now c)) as [L|L]; [inversion H; subst; split; [auto|]; split; [lia|discriminate]|].
  set (sw := td_rw o && negb (rwmix o (other d) =? 0)) in H. assert (SW : sw = true -> td_rw o = true /\ rwmix o (other d) <> 0) by (unfold sw; destruct (td_rw o); cbn [andb]; [|discriminate]; destruct (Z.eqb_spec (rwmix o (other d)) 0); [discriminate|auto]). clearbody sw.
  destruct (sw && (c_next c (other d) <=? c_now c)) eqn:B; [apply andb_prop in B; destruct B as (B1 & B2); apply Z.leb_le in B2; inversion H; subst; split; [right; split; [auto|apply SW; auto]|]; split; [lia|discriminate]|].
  set (e := if sw && negb (c_next c d <=? c_next c (other d)) then other d else d) in H.
  assert (EP : (e = d \/ (e = other d /\ td_rw o = true /\ rwmix o e <> 0)) /\ c_now c < c_next c e).
  { unfold e. destruct sw; cbn [andb] in *; [|auto]. apply Z.leb_gt in B. destruct (negb _); [|auto]. split; [right; split; auto|lia]. }
  clearbody e. destruct EP as (EP & EL).
  destruct (negb (o_timeout o =? 0) && (c_next c e - c_now c + c_now c >? o_timeout o)) eqn:T.
  - apply andb_prop in T. destruct T as (T1 & T2). destruct (Z.eqb_spec (o_timeout o) 0) as [|T0]; [discriminate|]. apply Z.gtb_lt in T2. destruct (Z.gtb_spec (c_now c) (o_timeout o)); [inversion H; congruence|].
    cbn [negb andb] in H. destruct ((c_after c >? o_timeout o) || c_term c) eqn:Q; [inversion H; congruence|]. apply orb_false_elim in Q. destruct Q as (Q1 & Q2). inversion H; subst. rewrite Z.gtb_ltb in Q1. apply Z.ltb_ge in Q1. split; auto. split; [right; split; [auto|lia]|]. intros u U. inversion U. split; [lia|]. auto.
  - destruct ((negb (o_timeout o =? 0) && (c_after c >? o_timeout o)) || c_term c) eqn:Q; [inversion H; congruence|]. apply orb_false_elim in Q. destruct Q as (Q1 & Q2). inversion H; subst. split; auto. split; [lia|]. intros u U. inversion U. split; [lia|]. split; auto.
    destruct (Z.eqb_spec (o_timeout o) 0); auto. cbn [negb andb] in Q1. rewrite Z.gtb_ltb in Q1. apply Z.ltb_ge in Q1. auto.
Qed.

(** Examples. *)
Definition idle : clock := mkC 0 (fun _ => 0) 0 false.
Definition demo_rw : opts := mkO true true false 30 70 2 3 0 false false 0.
Definition st (r : Z) : ev := Step r idle false 1.
Example demo_wf : wf demo_rw. Proof. intros _. reflexivity. Qed.
Example demo_steps : Forall step_only (map st [0; 2 ^ 31; 0; 2 ^ 31; 2 ^ 31; 0; 0; 0]).
Proof. repeat (apply Forall_cons; [cbn; lia|]). apply Forall_nil. Qed.
Example C31_ex : snd (run demo_rw init (map st [0; 2 ^ 31; 2 ^ 31; 2 ^ 31; 2 ^ 31; 0; 2 ^ 31; 0])) = [Rd; Wr; Wr; Sync; Wr; Dsync; Wr; Sync].
Proof. vm_compute. reflexivity. Qed.
(** The sixth draw said write, the seventh read is forced until reads catch up. *)
Example C31_ex_forced : snd (run (mkO true true false 50 50 0 0 0 false false 0) init (map st [0; 0; 0; 0; 0; 0; 2 ^ 31; 0; 0; 0])) = [Rd; Rd; Rd; Rd; Rd; Rd; Wr; Wr; Wr; Rd].
Proof. vm_compute. reflexivity. Qed.

(** What the code does not give. A read from the verify backlog that comes between the n-th write and the next request makes fio
    forget the flush: last_ddir_issued is no longer a write. *)
Theorem C31_backlog_refuted : exists o es s' xs, wf o /\ o_fsync o = 2 /\ run o init es = (s', xs) /\ writes xs = 4 /\ flushes xs = 0.
Proof. exists (mkO false true false 50 50 2 0 0 false false 0), [st 0; st 0; Backlog 0; st 0; st 0; Backlog 0]. eexists. eexists. split; [discriminate|]. split; [reflexivity|]. split; [vm_compute; reflexivity|]. split; reflexivity. Qed.
(** A backlog read that the engine refuses is taken off a count that it was never added to (ioengines.c:388-405): the number of reads
    issued wraps. *)
Theorem C31_backlog_busy_refuted : n_r (fst (step demo_rw init (Backlog 1))) = 2 ^ 64 - 1.
Proof. vm_compute. reflexivity. Qed.
(** The timeout that rate_ddir reports is overwritten for a trim and write job (io_u.c:875-881): it issues another request. *)
Theorem C31_timeout_refuted : exists o c, wf o /\ snd (get_rw_ddir o init 0 c) = Timeout /\ snd (step o init (Step 0 c true 0)) = Some Tr.
Proof. exists (mkO false true true 50 50 0 0 0 false true 5), (mkC 10 (fun _ => 20) 10 false). split; [discriminate|]. split; vm_compute; reflexivity. Qed.
(** When fsync and fdatasync fall on the same write only the fsync is issued, so fdatasync=3 next to fsync=2 flushes less often. *)
Example C31_ex_both : snd (run (mkO false true false 50 50 2 3 0 false false 0) init (map st [0; 0; 0; 0; 0; 0; 0; 0; 0; 0])) = [Wr; Wr; Sync; Wr; Dsync; Wr; Sync; Wr; Wr; Sync].
Proof. vm_compute. reflexivity. Qed.

Print Assumptions C31_draw.
Print Assumptions C31_flush.
Print Assumptions C31_flush_count.
Print Assumptions C31_mix.
Print Assumptions C31_share.
Print Assumptions C31_rate.
