(** C47: the rate limits hold, are caught up with and are not exceeded in any run. *)
From Coq Require Import ZArith List Lia Bool.
From Verif Require Import CBase RateModel RateSpec RateProofs.
Import ListNotations.
Open Scope Z_scope.

(** ** The cap in bytes per second *)

(** Whenever a direction is let through, what was accounted for in it so far is within the rate,
    or the job is in its very last microsecond. *)
Theorem C47_cap : forall c d os w s h w',
  linear c d -> run c init_st [] os w = Some (s, h, w') -> fair w -> fits c d h ->
  forall h1 h2 n, h = h2 ++ Rel d n :: h1 -> within (bps c d) (account c d (upto d h1)) n \/ at_end c n.
Proof.
  intros c d os w s h w' L H G F h1 h2 n E. destruct (lin_run _ _ _ _ _ _ _ L H G F) as [_ R].
  destruct (R h1 h2 n E) as [D|D]; [left|now right]. apply due_within; [apply L|exact D].
Qed.

(** When pauses are caught up with, these are all the bytes taken so far. *)
Theorem C47_cap_bytes : forall c d os w s h w',
  linear c d -> ign c = false -> run c init_st [] os w = Some (s, h, w') -> fair w -> fits c d h ->
  forall h1 h2 n, h = h2 ++ Rel d n :: h1 -> within (bps c d) (bytes d h1) n \/ at_end c n.
Proof.
  intros c d os w s h w' L I H G F h1 h2 n E.
  pose proof (C47_cap _ _ _ _ _ _ _ L H G F h1 h2 n E) as K. unfold account in K.
  rewrite I, bytes_upto, Z.add_0_r in K. exact K.
Qed.

(** A limit in I/Os per second: so many I/Os, of the minimum size or larger. *)
Theorem C47_cap_iops : forall c d iops os w s h w',
  linear c d -> ign c = false -> bps c d = iops * min_bs c d -> 0 < min_bs c d ->
  run c init_st [] os w = Some (s, h, w') -> fair w -> fits c d h ->
  (forall e len ok v, In (Iss e len ok v) h -> min_bs c d <= len) ->
  forall h1 h2 n, h = h2 ++ Rel d n :: h1 -> count d h1 * 1000000 < iops * (n / 1000 + 1) \/ at_end c n.
Proof.
  intros c d iops os w s h w' L I B M H G F Hl h1 h2 n E.
  destruct (C47_cap_bytes _ _ _ _ _ _ _ L I H G F h1 h2 n E) as [K|K]; [left|now right].
  unfold within in K. rewrite B in K.
  assert (C : count d h1 * min_bs c d <= bytes d h1).
  { apply count_bytes. intros e len ok v J. apply (Hl e len ok v). rewrite E. apply in_or_app. right. now right. }
  apply Z.mul_lt_mono_pos_l with (p := min_bs c d); [exact M|]. nia.
Qed.

(** Pauses that are not to be caught up with are taken from the time, up to a block and a byte
    for each. *)
Theorem C47_ignore_think : forall c d os w s h w',
  linear c d -> ign c = true -> run c init_st [] os w = Some (s, h, w') -> fair w -> fits c d h ->
  forall h1 h2 n, h = h2 ++ Rel d n :: h1 ->
  bytes d h1 * 1000000 < bps c d * (n / 1000 + 1 - paused d (upto d h1)) + pauses d (upto d h1) * (min_bs c d + 1) * 1000000
  \/ at_end c n.
Proof.
  intros c d os w s h w' L I H G F h1 h2 n E.
  destruct (C47_cap _ _ _ _ _ _ _ L H G F h1 h2 n E) as [K|K]; [left|now right].
  unfold within, account in K. rewrite I, bytes_upto in K.
  assert (A : bps c d * paused d (upto d h1) <=
    (allowed (bps c d) (min_bs c d) d (upto d h1) + pauses d (upto d h1) * (min_bs c d + 1)) * 1000000).
  { apply allowed_bound; try apply L. intros t J. apply (fit_pause _ _ _ F). rewrite E.
    apply in_or_app. right. right. now apply upto_in in J. }
  nia.
Qed.

(** A direction that is behind its rate is let through at once, without sleeping: the rate is
    caught up with. *)
Theorem C47_catch_up : forall c d os w s h w' n w1,
  linear c d -> run c init_st [] os w = Some (s, h, w') -> fair w -> fits c d h ->
  within (bps c d) (account c d (upto d h)) n ->
  rate_ddir c s d (Clock n :: w1) = Some (Some d, n, None, w1).
Proof.
  intros c d os w s h w' n w1 L H G F W. destruct (lin_run _ _ _ _ _ _ _ L H G F) as [[_ J] _].
  unfold rate_ddir. rewrite J. apply due_within in W; [|apply L].
  unfold lin_due. apply Z.leb_le in W. rewrite W. reflexivity.
Qed.

(** A direction without a limit is never held up. *)
Lemma unlimited_run c d os : poisson c = false -> bps c d = 0 -> forall s h w s' h' w', next s d = 0 ->
  run c s h os w = Some (s', h', w') -> next s' d = 0.
Proof.
  intros P B. induction os as [|o os IH]; intros s h w s' h' w' Z0 H; simpl in H.
  { injection H as <- <- <-. exact Z0. }
  destruct (step c s h o w) as [[[[s1 h1] f] w1]|] eqn:E; [|discriminate].
  assert (S : forall e len busy v s2, submit c s e len busy v = Some s2 -> next s2 d = 0).
  { intros e len busy v s2 ES. destruct (deq e d) eqn:Ed.
    - apply deq_true in Ed. subst e. unfold submit, usec_for_io in ES. rewrite P, B in ES. simpl in ES.
      injection ES as <-. apply setd_same.
    - destruct (submit_other _ _ _ _ _ _ _ d ES) as (_ & N & _); [intros ->; rewrite deq_refl in Ed; discriminate|].
      now rewrite N. }
  assert (N1 : next s1 d = 0).
  { clear H IH. destruct o as [e len busy v|e len busy v|e k]; cbn [step] in E.
    - destruct (rate_ddir c s e w) as [[[[[e'|] n] x] w2]|]; try discriminate.
      + destruct (submit c s e' len busy v) as [s2|] eqn:ES; [|discriminate]. injection E as <- <- <- <-. eapply S; eassumption.
      + injection E as <- <- <- <-. exact Z0.
    - destruct (submit c s e len busy v) as [s2|] eqn:ES; [|discriminate]. injection E as <- <- <- <-. eapply S; eassumption.
    - unfold handle_thinktime in E. destruct (stall c s k w) as [[[|] w2]|]; try discriminate.
      + destruct (pause c w2) as [[r w3]|]; [|discriminate]. destruct (tiotime c =? 0).
        * injection E as <- <- <- <-. exact Z0.
        * destruct w3 as [|[n|?|?] w3]; try discriminate. injection E as <- <- <- <-. exact Z0.
      + injection E as <- <- <- <-. exact Z0. }
  destruct f; [exact (IH _ _ _ _ _ _ N1 H)|]. injection H as <- <- <-. exact N1.
Qed.

Theorem C47_unlimited : forall c d os w s h w' n w1,
  poisson c = false -> bps c d = 0 -> run c init_st [] os w = Some (s, h, w') -> 0 <= n ->
  rate_ddir c s d (Clock n :: w1) = Some (Some d, n, None, w1).
Proof.
  intros c d os w s h w' n w1 P B H N.
  pose proof (unlimited_run c d os P B init_st [] w s h w' eq_refl H) as E.
  unfold rate_ddir. rewrite E. assert (0 <= n / 1000) by (apply Z.div_pos; lia).
  destruct (Z.leb_spec 0 (n / 1000)); [reflexivity|lia].
Qed.

(** The direction changes only in a mixed job to one that is due, or due earlier. *)
Theorem C47_switch : forall c s d w e n x w',
  rate_ddir c s d w = Some (Some e, n, x, w') ->
  e = d \/ (e = other d /\ mixed c = true /\ rwmix c e <> 0 /\ next s e < next s d).
Proof.
  intros c s d w e n x w' H. unfold rate_ddir in H. destruct w as [|[k|?|?] w1]; try discriminate.
  destruct (Z.leb_spec (next s d) (k / 1000)); [injection H as <- _ _ _; now left|].
  assert (K : e = fst (plan c s d (k / 1000))).
  { destruct (plan c s d (k / 1000)) as [e' u]. cbn [fst]. destruct (u =? 0); [now injection H as <- _ _ _|].
    assert (Q : forall us, match usec_sleep (gran c) us w1 with
          | Some (_, _, Clock m :: w3) =>
            if negb (timeout c =? 0) && (m / 1000 >? timeout c) then Some (None, m, Some us, w3)
            else match w3 with
                 | Term b :: w4 => Some ((if b then None else Some e'), m, Some us, w4)
                 | _ => None
                 end
          | _ => None
          end = Some (Some e, n, x, w') -> e = e').
    { intros us Q. destruct (usec_sleep (gran c) us w1) as [[[z qs] w2]|]; [|discriminate].
      destruct w2 as [|[m|?|?] w3]; try discriminate.
      destruct (negb (timeout c =? 0) && (m / 1000 >? timeout c)); [discriminate|].
      destruct w3 as [|[?|?|y] w4]; try discriminate. destruct y; [discriminate|]. now injection Q as <- _ _ _. }
    destruct (negb (timeout c =? 0) && (u + k / 1000 >? timeout c)); [|now apply (Q u)].
    destruct (k / 1000 >? timeout c); [discriminate|now apply (Q (timeout c - k / 1000))]. }
  subst e. unfold plan. destruct (mixed c && negb (rwmix c (other d) =? 0)) eqn:M; [|now left].
  apply andb_true_iff in M. destruct M as [M1 M2]. apply negb_true_iff, Z.eqb_neq in M2.
  destruct (Z.leb_spec (next s (other d)) (k / 1000)); cbn [fst]; [right; split; [reflexivity|]; split; [exact M1|]; split; [exact M2|lia]|].
  destruct (Z.leb_spec (next s d) (next s (other d))); cbn [fst]; [now left|right; split; [reflexivity|]; split; [exact M1|]; split; [exact M2|lia]].
Qed.

(** It sleeps only when nothing it may do is due, exactly until the first is or the job ends. *)
Theorem C47_sleep_until : forall c s d n w r m u w',
  rate_ddir c s d (Clock n :: w) = Some (r, m, Some u, w') ->
  let now := n / 1000 in
  let due := if mixed c && negb (rwmix c (other d) =? 0) then Z.min (next s d) (next s (other d)) else next s d in
  now < due /\ now + u = (if timeout c =? 0 then due else Z.min due (timeout c)).
Proof.
  intros c s d n w r m u w' H now due. unfold rate_ddir in H. fold now in H.
  destruct (Z.leb_spec (next s d) now); [discriminate|].
  assert (P : let (e, x) := plan c s d now in x = 0 \/ (0 < x /\ now + x = due)).
  { unfold plan, due. destruct (mixed c && negb (rwmix c (other d) =? 0)); [|right; lia].
    destruct (Z.leb_spec (next s (other d)) now); [now left|].
    destruct (Z.leb_spec (next s d) (next s (other d))); right; lia. }
  destruct (plan c s d now) as [e x]. destruct (Z.eqb_spec x 0); [discriminate|].
  destruct P as [P|[P1 P2]]; [contradiction|]. split; [lia|].
  assert (Q : forall us, match usec_sleep (gran c) us w with
          | Some (_, _, Clock m :: w3) =>
            if negb (timeout c =? 0) && (m / 1000 >? timeout c) then Some (None, m, Some us, w3)
            else match w3 with
                 | Term b :: w4 => Some ((if b then None else Some e), m, Some us, w4)
                 | _ => None
                 end
          | _ => None
          end = Some (r, m, Some u, w') -> u = us).
  { intros us Q. destruct (usec_sleep (gran c) us w) as [[[z qs] w2]|]; [|discriminate].
    destruct w2 as [|[k|?|?] w3]; try discriminate.
    destruct (negb (timeout c =? 0) && (k / 1000 >? timeout c)); [now injection Q as _ _ <- _|].
    destruct w3 as [|[?|?|y] w4]; try discriminate. now injection Q as _ _ <- _. }
  destruct (Z.eqb_spec (timeout c) 0); cbn [negb andb] in H.
  - apply Q in H. lia.
  - rewrite Z.gtb_ltb in H. destruct (Z.ltb_spec (timeout c) (x + now)).
    + destruct (now >? timeout c); [discriminate|]. apply Q in H. lia.
    + apply Q in H. lia.
Qed.

(** ** Sleeping *)

(** Without signals a sleep lasts as long as asked for, unless the job is told to terminate. *)
Theorem C47_sleep : forall g usec w r qs w', usec_sleep g usec w = Some (r, qs, w') -> fair w ->
  usec <= r \/ exists w0, w = w0 ++ Term true :: w'.
Proof.
  intros g usec w r qs w' H G. unfold usec_sleep in H.
  assert (K : forall fuel usec acc w r qs w' t b, sleep_loop fuel g usec acc w = Some (r, qs, w') -> good t b w ->
    acc + usec <= r \/ exists w0, w = w0 ++ Term true :: w').
  { clear. induction fuel as [|fuel IH]; [discriminate|]. intros usec acc w r qs w' t b. cbn [sleep_loop].
    destruct (usec <? g).
    - intros H G. destruct (usec_spin usec w) as [[x w1]|] eqn:E; [|discriminate]. injection H as <- <- <-.
      destruct (usec_spin_good _ _ _ _ _ _ E G) as (t1 & _ & _ & U & _). left. lia.
    - destruct w as [|[tv|?|?] [|[?|ok|?] w1]]; try discriminate. intros H G.
      apply good_clock in G. destruct G as [_ G]. apply good_nano in G. destruct G as [-> G]. cbn [negb] in H.
      destruct w1 as [|[n|?|?] w2]; try discriminate. apply good_clock in G. destruct G as [_ G].
      rewrite Z.geb_leb in H. destruct (Z.leb_spec usec ((n - tv) / 1000)).
      { injection H as <- <- <-. left. lia. }
      destruct w2 as [|[?|?|x] w3]; try discriminate. apply good_term in G. destruct G as [_ G]. destruct x.
      { injection H as <- <- <-. right. now exists [Clock tv; Nano true; Clock n]. }
      destruct (sleep_loop fuel g _ _ w3) as [[[r' qs'] w4]|] eqn:E; [|discriminate]. injection H as <- <- <-.
      destruct (IH _ _ _ _ _ _ _ _ E G) as [D|[w0 ->]]; [left; lia|].
      right. now exists (Clock tv :: Nano true :: Clock n :: Term false :: w0). }
  destruct (K _ _ _ _ _ _ _ 0 false H (fair_good _ G)) as [D|D]; [left; lia|now right].
Qed.

(** What is asked of nanosleep is valid, less than two seconds and no longer than the sleep. *)
Theorem C47_sleep_requests : forall g usec w r qs w' q,
  0 <= g -> usec_sleep g usec w = Some (r, qs, w') -> after 0 w -> In q qs ->
  0 <= fst q <= 1 /\ 0 <= snd q < 1000000000 /\ fst q * 1000000000 + snd q <= usec * 1000.
Proof. intros g usec w r qs w' q Hg H A I. exact (sleep_requests _ _ _ _ _ _ _ _ Hg H A q I). Qed.

(** ** Limits with a delay for each I/O *)

Theorem C47_bssplit : forall c d os w s h w',
  split_limit c d -> run c init_st [] os w = Some (s, h, w') -> fair w ->
  forall h1 h2 n, h = h2 ++ Rel d n :: h1 ->
  tries d h1 * (1000000 / (bps c d / min_bs c d)) + (if ign c then paused d (upto d h1) else 0) <= n / 1000 \/ at_end c n.
Proof.
  intros c d os w s h w' L H G h1 h2 n E. assert (L' := L). destruct L' as (Lp & Lb & Lr & Ls & Li).
  destruct (del_run c d os w s h w') as [_ R]; auto.
  { split; [exact Lb|]. split; [exact Li|]. right. now split. }
  destruct (R h1 h2 n E) as [D|D]; [left|now right].
  unfold del_due, del_now in D. rewrite delays_split, tries_upto in D by assumption. exact D.
Qed.

(** The rate in I/Os per second is recovered from that in bytes. *)
Theorem C47_bssplit_iops : forall iops bs b, 0 < iops -> 0 < bs -> iops * bs < 2 ^ 64 ->
  setup_rate 0 iops bs = Some b -> b / bs = iops.
Proof.
  intros iops bs b Hi Hb Hf. unfold setup_rate. cbn [Z.eqb]. rewrite u64_id by nia.
  destruct (iops * bs =? 0); [discriminate|]. intros [= <-]. apply Z.div_mul. lia.
Qed.

Theorem C47_poisson : forall c d os w s h w',
  poisson c = true -> 0 < bps c d -> 0 < bps c d / min_bs c d ->
  run c init_st [] os w = Some (s, h, w') -> fair w ->
  forall h1 h2 n, h = h2 ++ Rel d n :: h1 ->
  samples d h1 + (if ign c then paused d (upto d h1) else 0) <= n / 1000 \/ at_end c n.
Proof.
  intros c d os w s h w' Lp Lb Li H G h1 h2 n E.
  destruct (del_run c d os w s h w') as [_ R]; auto.
  { split; [exact Lb|]. split; [exact Li|]. now left. }
  destruct (R h1 h2 n E) as [D|D]; [left|now right].
  unfold del_due, del_now in D. rewrite delays_poisson, samples_upto in D by assumption. exact D.
Qed.

(** ** Pauses *)

(** When a pause is made. *)
Theorem C47_think_when : forall c s b w y w', stall c s b w = Some (y, w') ->
  y = true <->
  (tiotime c <> 0 /\ exists n w1, w = Clock n :: w1 /\ tiotime c <= (n - lthink s) / 1000) \/
  ((tiotime c = 0 \/ tblocks_set c = true) /\ lblocks s + tblocks c <= b).
Proof.
  intros c s b w y w' H. unfold stall in H. rewrite Z.geb_leb in H.
  destruct (Z.eqb_spec (tiotime c) 0) as [Z0|Z0].
  - injection H as <- <-. rewrite Z.leb_le. split; [intros K; right; split; [now left|exact K]|].
    intros [[K _]|[_ K]]; [contradiction|exact K].
  - destruct w as [|[n|?|?] w1]; try discriminate. rewrite Z.geb_leb in H.
    destruct (Z.leb_spec (tiotime c) ((n - lthink s) / 1000)).
    { injection H as <- <-. split; [|auto]. intros _. left. split; [exact Z0|]. now exists n, w1. }
    assert (N : forall m w2, Clock n :: w1 = Clock m :: w2 -> tiotime c <= (m - lthink s) / 1000 -> False).
    { intros m w2 [= -> ->]. lia. }
    destruct (tblocks_set c); cbn [negb] in H; injection H as <- <-.
    + rewrite Z.leb_le. split; [intros K; right; split; [now right|exact K]|].
      intros [[_ (m & w2 & K1 & K2)]|[_ K]]; [elim (N m w2 K1 K2)|exact K].
    + split; [discriminate|]. intros [[_ (m & w2 & K1 & K2)]|[[K|K] _]]; [elim (N m w2 K1 K2)|contradiction|discriminate].
Qed.

(** In a job without an end, a pause lasts as long as asked for, unless it is told to terminate. *)
Theorem C47_think_long : forall c w r w', timeout c = 0 -> pause c w = Some (r, w') -> fair w ->
  (think c <= r /\ tspin c <= r) \/ exists w0, w = w0 ++ Term true :: w'.
Proof.
  intros c w r w' T H G. unfold pause in H. unfold cut in H. rewrite T in H. cbn [Z.eqb] in H.
  match type of H with match ?r with _ => _ end = _ => destruct r as [[x w2]|] eqn:E2; [|discriminate] end.
  assert (G2 : (exists t2, good t2 false w2) /\ tspin c <= x /\ exists w0, w = w0 ++ w2).
  { destruct (Z.eqb_spec (tspin c) 0) as [Z0|Z0].
    - injection E2 as <- <-. split; [exists 0; now apply fair_good|]. split; [lia|]. now exists [].
    - destruct (usec_spin_good _ _ _ _ _ _ E2 (fair_good _ G)) as (t2 & A & B & C & D).
      split; [now exists t2|]. split; [exact C|].
      destruct w as [|[k|?|?] w]; try discriminate. cbn [usec_spin] in E2. clear - E2.
      assert (S : forall w s u x w2, spin_loop s u w = Some (x, w2) -> exists w0, w = w0 ++ w2).
      { clear. induction w as [|[n|?|?] w IH]; simpl; intros s u x w2 H; try discriminate.
        destruct (_ <? u); [destruct (IH _ _ _ _ H) as [w0 ->]; now exists (Clock n :: w0)|].
        injection H as _ <-. now exists [Clock n]. }
      destruct (S _ _ _ _ _ E2) as [w0 ->]. now exists (Clock k :: w0). }
  destruct G2 as ([t2 G2] & U2 & w0 & ->).
  destruct (Z.ltb_spec x (think c)).
  - destruct (Z.eqb_spec (think c - x) 0) as [Z0|Z0]; [lia|].
    destruct (usec_sleep _ _ w2) as [[[z qs] w4]|] eqn:E4; [|discriminate]. injection H as <- <-.
    assert (F2 : fair w2 \/ True) by now right.
    assert (G0 : good 0 false w2).
    { destruct (fair_good _ G) as [A B C]. constructor; try apply G2.
      clear - A. induction w0 as [|[n|?|?] w0 IH]; simpl in A; auto. apply IH.
      destruct A as [A1 A2]. clear - A1 A2. revert A2. generalize (w0 ++ w2). intros l A2. revert n A1 A2.
      induction l as [|[m|?|?] l IH]; simpl; intros; auto; [destruct A2; split; [lia|auto]| |]; eauto. }
    destruct (C47_sleep _ _ _ _ _ _ E4) as [S|[w1 ->]].
    + destruct G0. now constructor.
    + left. lia.
    + right. exists (w0 ++ w1). now rewrite app_assoc.
  - cbn [Z.eqb] in H. injection H as <- <-. left. lia.
Qed.

(** A pause does not go beyond the end of the job if it starts before. *)
Theorem C47_think_cut : forall c left n, timeout c <> 0 -> 0 <= n / 1000 <= timeout c -> timeout c < 2 ^ 64 ->
  n / 1000 + cut c left n <= timeout c /\ cut c left n <= left.
Proof.
  intros c left n T N F. unfold cut. destruct (Z.eqb_spec (timeout c) 0); [contradiction|].
  rewrite u64_id by lia. destruct (Z.ltb_spec (timeout c - n / 1000) left); lia.
Qed.

(** ** The minimum rates *)

(** A job that is stopped was too slow between two checks a cycle apart, after the first two
    seconds. *)
Theorem C47_min_bytes : forall ratemin iopsmin cycle start l,
  0 < ratemin -> rising start 0 0 l -> check_all ratemin iopsmin cycle start (Chk 0 0 start) l = true ->
  exists a b, In a l /\ In b l /\ 2000 <= (time_of b - start) / 1000000 /\ too_slow bytes_of ratemin cycle a b.
Proof.
  intros ratemin iopsmin cycle start l P R H.
  destruct (check_sound ratemin iopsmin cycle start ltac:(lia) l [] (Chk 0 0 start) start 0 0 R) as (a & b & A & B & C & D); auto.
  { split; [|split]; simpl; lia. }
  unfold measure, least in D. destruct (Z.eqb_spec ratemin 0); [lia|]. exists a, b. split; [exact A|]. split; [exact B|]. now split.
Qed.

Theorem C47_min_iops : forall iopsmin cycle start l,
  0 < iopsmin -> rising start 0 0 l -> check_all 0 iopsmin cycle start (Chk 0 0 start) l = true ->
  exists a b, In a l /\ In b l /\ 2000 <= (time_of b - start) / 1000000 /\ too_slow blocks_of iopsmin cycle a b.
Proof.
  intros iopsmin cycle start l P R H.
  destruct (check_sound 0 iopsmin cycle start ltac:(lia) l [] (Chk 0 0 start) start 0 0 R) as (a & b & A & B & C & D); auto.
  { split; [|split]; simpl; lia. }
  exists a, b. split; [exact A|]. split; [exact B|]. now split.
Qed.

(** A job that makes no progress over two cycles is stopped, however often it is checked. *)
Theorem C47_min_stall : forall ratemin iopsmin cycle start l1 a l2 b l3 c l4,
  0 <= ratemin -> 0 <= iopsmin -> (0 < ratemin \/ 0 < iopsmin) -> 1 <= cycle ->
  rising start 0 0 (l1 ++ a :: l2 ++ b :: l3 ++ c :: l4) ->
  0 < bytes_of a -> bytes_of c = bytes_of a -> blocks_of c = blocks_of a -> 2000 <= (time_of a - start) / 1000000 ->
  time_of a + cycle * 1000000 <= time_of b -> time_of b + cycle * 1000000 <= time_of c ->
  check_all ratemin iopsmin cycle start (Chk 0 0 start) (l1 ++ a :: l2 ++ b :: l3 ++ c :: l4) = true.
Proof.
  intros ratemin iopsmin cycle start l1 a l2 b l3 c l4 P1 P2 P3 P4 R A0 AC AK AS AB BC.
  apply (check_stall _ _ _ _ _ _ _ _ _ _ _ _ start 0 0); auto; try lia.
  - unfold least. destruct (Z.eqb_spec ratemin 0); lia.
  - split; [|split]; simpl; lia.
  - intros [N|N]; now elim N.
  - unfold measure. destruct (ratemin =? 0); congruence.
Qed.

(** ** Refuted *)

Definition base : cfg :=
  Cfg (fun d => match d with Rd => 1000000 | _ => 0 end) (fun _ => 4096) (fun d => match d with Rd => 1000000 | _ => 0 end)
      (fun _ => false) false false (fun _ => 50) 0 10 false 0 0 1 false 0.

(** A signal during the sleep lets the I/O through ahead of its time: the second block, due after
    4 ms, is let through after 10 us. *)
Theorem C47_signal_refuted : exists c d os w s h w' h1 h2 n,
  linear c d /\ run c init_st [] os w = Some (s, h, w') /\ after 0 w /\ sticky false w /\ fits c d h /\
  h = h2 ++ Rel d n :: h1 /\ ~ within (bps c d) (account c d (upto d h1)) n /\ ~ at_end c n.
Proof.
  exists base, Rd, [OIo Rd 4096 false 0; OIo Rd 4096 false 0],
    [Clock 0; Clock 5000; Clock 6000; Nano false; Clock 10000; Term false].
  eexists _, _, _, [Iss Rd 4096 true 0; Rel Rd 0], [Iss Rd 4096 true 0], 10000.
  split; [repeat split; try reflexivity; try (right; reflexivity); simpl; lia|].
  split; [vm_compute; reflexivity|]. split; [simpl; lia|]. split; [simpl; auto|].
  split; [|split; [reflexivity|split; [vm_compute; discriminate|intros [K _]; now elim K]]].
  constructor; try (simpl; lia).
  - intros h1 h2 E. assert (K : account base Rd h1 = 0 \/ account base Rd h1 = 4096 \/ account base Rd h1 = 8192).
    { destruct h2 as [|? [|? [|? [|? [|? ?]]]]]; simpl in E; try discriminate E; inversion E; subst; vm_compute; auto. }
    simpl bps. destruct K as [->|[->| ->]]; vm_compute; repeat split; congruence.
  - intros t [K|[K|[K|[K|[]]]]]; discriminate K.
Qed.

(** Sleeping until the end of the job: if the clock then shows that very microsecond, the I/O is
    let through although it is due much later. *)
Theorem C47_deadline_refuted : exists c d os w s h w' h1 h2 n,
  linear c d /\ run c init_st [] os w = Some (s, h, w') /\ fair w /\
  h = h2 ++ Rel d n :: h1 /\ ~ within (bps c d) (account c d (upto d h1)) n.
Proof.
  exists (Cfg (bps base) (min_bs base) (rate base) (bssplit base) false false (fun _ => 50) 1000 10 false 0 0 1 false 0), Rd,
    [OIo Rd 4096 false 0; OIo Rd 4096 false 0],
    [Clock 0; Clock 5000; Clock 5000; Nano true; Clock 1000400; Clock 1000900; Term false].
  eexists _, _, _, [Iss Rd 4096 true 0; Rel Rd 0], [Iss Rd 4096 true 0], 1000900.
  split; [repeat split; try reflexivity; try (right; reflexivity); simpl; lia|].
  split; [vm_compute; reflexivity|]. split; [constructor; [simpl; lia|simpl; auto|intros K; simpl in K; intuition discriminate]|].
  split; [reflexivity|vm_compute; discriminate].
Qed.

(** With bssplit the delay is rounded down to microseconds: 600000 I/Os per second become a
    million, and more than a million are not limited at all. *)
Theorem C47_bssplit_refuted :
  (exists c d os w s h w' h1 h2 n, split_limit c d /\ bps c d / min_bs c d = 600000 /\
     run c init_st [] os w = Some (s, h, w') /\ fair w /\ h = h2 ++ Rel d n :: h1 /\
     600000 * (n / 1000 + 1) <= tries d h1 * 1000000) /\
  forall c d s, split_limit c d -> 1000000 < bps c d / min_bs c d -> forall len busy v s',
     submit c s d len busy v = Some s' -> next s' d = lastu s d /\ lastu s' d = lastu s d.
Proof.
  split.
  - exists (Cfg (fun _ => 600000 * 4096) (fun _ => 4096) (fun _ => 0) (fun _ => true) false false (fun _ => 50) 0 10 false 0 0 1 false 0), Rd,
      (repeat (OIo Rd 4096 false 0) 4), [Clock 0; Clock 1000; Clock 2000; Clock 3000].
    eexists _, _, _. exists (concat (repeat [Iss Rd 4096 true 0; Rel Rd 0] 0) ++
      [Iss Rd 4096 true 0; Rel Rd 2000; Iss Rd 4096 true 0; Rel Rd 1000; Iss Rd 4096 true 0; Rel Rd 0]), [Iss Rd 4096 true 0], 3000.
    split; [repeat split; try reflexivity; vm_compute; reflexivity|]. split; [vm_compute; reflexivity|].
    split; [vm_compute; reflexivity|]. split; [constructor; [simpl; lia|simpl; auto|intros K; simpl in K; intuition discriminate]|].
    split; [reflexivity|vm_compute; discriminate].
  - intros c d s (Lp & Lb & Lr & Ls & Li) M len busy v s' H.
    unfold submit, usec_for_io in H. cbn [cnt next lastu lthink lblocks] in H. rewrite Lp, Lr, Ls in H.
    destruct (Z.eqb_spec (bps c d) 0); [lia|]. cbn [Z.eqb andb] in H.
    destruct (Z.eqb_spec (bps c d / min_bs c d) 0); [lia|].
    rewrite (Z.div_small 1000000) in H by lia. injection H as <-. cbn [next lastu]. rewrite !setd_same. lia.
Qed.

(** A Poisson process with a rate below one block a second divides by zero, and so does one that
    limits only the other direction of a mixed job. *)
Theorem C47_poisson_refuted : forall c s d len busy v, poisson c = true -> 0 < min_bs c d -> 0 <= bps c d < min_bs c d ->
  submit c s d len busy v = None.
Proof.
  intros c s d len busy v P M B. unfold submit, usec_for_io. rewrite P, Z.div_small by lia. reflexivity.
Qed.

(** A pause that starts after the end of the job is not cut. *)
Theorem C47_think_cut_refuted : forall c left n, timeout c <> 0 -> 0 < timeout c < n / 1000 -> n / 1000 < 2 ^ 63 -> left < 2 ^ 32 ->
  cut c left n = left.
Proof.
  intros c left n T N F L. unfold cut. destruct (Z.eqb_spec (timeout c) 0); [contradiction|].
  assert (E : u64 (timeout c - n / 1000) = 2 ^ 64 + (timeout c - n / 1000)).
  { unfold u64. symmetry. apply Z.mod_unique with (q := -1); lia. }
  rewrite E. destruct (Z.ltb_spec (2 ^ 64 + (timeout c - n / 1000)) left); [|reflexivity].
  change (2 ^ 64) with (2 * 2 ^ 63) in *. change (2 ^ 32) with 4294967296 in L. change (2 ^ 63) with 9223372036854775808 in *. lia.
Qed.

(** Given both minima, that in I/Os per second is not looked at. *)
Theorem C47_min_both_refuted : exists ratemin iopsmin cycle start l a b,
  0 < ratemin /\ 0 < iopsmin /\ 1 <= cycle /\ rising start 0 0 l /\ l = [a; b] /\ 2000 <= (time_of a - start) / 1000000 /\
  too_slow blocks_of iopsmin cycle a b /\ check_all ratemin iopsmin cycle start (Chk 0 0 start) l = false.
Proof.
  exists 1000, 1000, 1000, 0, [(2000000000, 10000, 10); (3000000000, 20000, 20)], (2000000000, 10000, 10), (3000000000, 20000, 20).
  split; [lia|]. split; [lia|]. split; [lia|]. split; [simpl; lia|]. split; [reflexivity|]. split; [vm_compute; discriminate|].
  split; [|vm_compute; reflexivity]. unfold too_slow, blocks_of. vm_compute. repeat split; congruence.
Qed.

(** ** Examples *)

(** Reads at 1 MB/s: the second block waits 4096 us, in two sleeps; the third is late and goes at
    once, but is not taken. *)
Definition ex_ops : list op := [OIo Rd 4096 false 0; OIo Rd 4096 false 0; OIo Rd 4096 true 0].
Definition ex_world : list ans :=
  [Clock 0; Clock 5000; Clock 6000; Nano true; Clock 3100000; Term false; Clock 3101000; Nano true; Clock 4098000;
   Clock 4099000; Term false; Clock 9000000].
Definition ex_hist : list ev :=
  [Iss Rd 4096 false 0; Rel Rd 9000000; Iss Rd 4096 true 0; Rel Rd 4099000; Iss Rd 4096 true 0; Rel Rd 0].

Example ex_run : exists s, run base init_st [] ex_ops ex_world = Some (s, ex_hist, []) /\ cnt s Rd = 8192 /\ next s Rd = 8192.
Proof. eexists. split; [vm_compute; reflexivity|]. split; vm_compute; reflexivity. Qed.

Example ex_fair : fair ex_world.
Proof. constructor; [simpl; lia|simpl; auto|intros K; simpl in K; intuition discriminate]. Qed.

Example ex_linear : linear base Rd.
Proof. split; [reflexivity|]. split; [reflexivity|]. split; [simpl; lia|]. right. reflexivity. Qed.

Example ex_fits : fits base Rd ex_hist.
Proof.
  constructor; try (simpl; lia).
  - intros h1 h2 E. assert (K : account base Rd h1 = 0 \/ account base Rd h1 = 4096 \/ account base Rd h1 = 8192).
    { destruct h2 as [|? [|? [|? [|? [|? [|? [|? ?]]]]]]]; simpl in E; try discriminate E; inversion E; subst; vm_compute; auto. }
    simpl bps. destruct K as [->|[->| ->]]; vm_compute; repeat split; congruence.
  - intros t K. simpl in K. intuition discriminate.
Qed.

(** The theorem applied to it: at 4099 us one block, at 9 ms two. *)
Example ex_cap : within 1000000 4096 4099000 \/ at_end base 4099000.
Proof.
  destruct ex_run as (s & H & _).
  exact (C47_cap_bytes base Rd ex_ops ex_world s ex_hist [] ex_linear eq_refl H ex_fair ex_fits
    [Iss Rd 4096 true 0; Rel Rd 0] [Iss Rd 4096 false 0; Rel Rd 9000000; Iss Rd 4096 true 0] 4099000 eq_refl).
Qed.

(** One microsecond earlier it would not be within the rate. *)
Example ex_tight : ~ within 1000000 4096 4095000 /\ within 1000000 4096 4096000.
Proof. vm_compute. split; [discriminate|reflexivity]. Qed.

(** A pause of 10 ms every block, not to be caught up with: the next block goes at once, and the
    one after it waits for its rate. *)
Definition tbase : cfg :=
  Cfg (bps base) (min_bs base) (rate base) (bssplit base) false false (fun _ => 50) 0 10 true 10000 0 1 false 0.

Example ex_think : exists s, run tbase init_st [] [OIo Rd 4096 false 0; OThink Rd 1; OIo Rd 4096 false 0]
    [Clock 0; Clock 5000; Nano true; Clock 10005000; Clock 10006000] =
  Some (s, [Iss Rd 4096 true 0; Rel Rd 10006000; Paused Rd 10000; Iss Rd 4096 true 0; Rel Rd 0], []) /\
  cnt s Rd = 4096 + (10000 - 4096) + 4096 /\ next s Rd = 14096.
Proof. eexists. split; [vm_compute; reflexivity|]. split; vm_compute; reflexivity. Qed.

(** A mixed job: reads are ahead, writes are due: writes go. *)
Definition mbase : cfg :=
  Cfg (fun _ => 1000000) (min_bs base) (fun _ => 1000000) (bssplit base) false true (fun _ => 50) 0 10 false 0 0 1 false 0.

Example ex_mixed : exists s, run mbase init_st [] [OIo Rd 4096 false 0; OIo Rd 4096 false 0] [Clock 0; Clock 5000] =
  Some (s, [Iss Wr 4096 true 0; Rel Wr 5000; Iss Rd 4096 true 0; Rel Rd 0], []).
Proof. eexists. vm_compute. reflexivity. Qed.

(** A long sleep is asked for in pieces. *)
Example ex_sleep : usec_sleep 50 2500000
    [Clock 0; Nano true; Clock 1499950000; Term false; Clock 1499950000; Nano true; Clock 2500000000; Term false;
     Clock 2500000000; Clock 2500050000] =
  Some (2500000, [(1, 499950000); (1, 0)], [Term false; Clock 2500000000; Clock 2500050000]).
Proof. vm_compute. reflexivity. Qed.

(** Ten I/Os a second with bssplit: 100 ms each. *)
Example ex_split : exists s, run (Cfg (fun _ => 10 * 4096) (fun _ => 4096) (fun _ => 0) (fun _ => true) false false (fun _ => 50) 0 10 false 0 0 1 false 0)
    init_st [] [OIo Wr 8192 false 0; OIo Wr 4096 false 0] [Clock 0; Clock 100000000] =
  Some (s, [Iss Wr 4096 true 0; Rel Wr 100000000; Iss Wr 8192 true 0; Rel Wr 0], []) /\ next s Wr = 200000.
Proof. eexists. split; [vm_compute; reflexivity|]. vm_compute. reflexivity. Qed.

(** A job at 1000 bytes a second that stalls after three seconds. *)
Definition ex_samples : list (Z * Z * Z) :=
  [(1000000000, 5000, 5); (2000000000, 9000, 9); (3000000000, 10000, 10); (4000000000, 10000, 10); (5000000000, 10000, 10)].

Example ex_min : check_all 1000 0 1000 0 (Chk 0 0 0) ex_samples = true /\
  check_all 1000 0 1000 0 (Chk 0 0 0) [(1000000000, 5000, 5); (2000000000, 9000, 9); (3000000000, 10000, 10)] = false.
Proof. vm_compute. split; reflexivity. Qed.

Example ex_rising : rising 0 0 0 ex_samples.
Proof. vm_compute. repeat split; congruence. Qed.

Example ex_setup : setup_rate 0 1000 4096 = Some 4096000 /\ setup_rate 0 0 4096 = None /\ setup_rate 5 1000 4096 = Some 5.
Proof. vm_compute. repeat split. Qed.

Print Assumptions C47_cap.
Print Assumptions C47_cap_bytes.
Print Assumptions C47_cap_iops.
Print Assumptions C47_ignore_think.
Print Assumptions C47_catch_up.
Print Assumptions C47_unlimited.
Print Assumptions C47_switch.
Print Assumptions C47_sleep_until.
Print Assumptions C47_sleep.
Print Assumptions C47_sleep_requests.
Print Assumptions C47_bssplit.
Print Assumptions C47_bssplit_iops.
Print Assumptions C47_poisson.
Print Assumptions C47_think_when.
Print Assumptions C47_think_long.
Print Assumptions C47_think_cut.
Print Assumptions C47_min_bytes.
Print Assumptions C47_min_iops.
Print Assumptions C47_min_stall.
Print Assumptions C47_signal_refuted.
Print Assumptions C47_deadline_refuted.
Print Assumptions C47_bssplit_refuted.
Print Assumptions C47_poisson_refuted.
Print Assumptions C47_think_cut_refuted.
Print Assumptions C47_min_both_refuted.
