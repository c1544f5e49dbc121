From Coq Require Import ZArith List Lia Bool.
From Verif Require Import CBase TimeModel TimeSpec.
Import ListNotations.
Open Scope Z_scope.

Lemma s64_ok z : - 2 ^ 63 <= z < 2 ^ 63 -> s64 z = Some z.
Proof.
  intros H. unfold s64. destruct (Z.leb_spec (- 2 ^ 63) z); [|lia].
  destruct (Z.ltb_spec z (2 ^ 63)); [auto|lia].
Qed.
Lemma to_s64_ok z : 0 <= z < 2 ^ 63 -> to_s64 z = z.
Proof.
  intros H. unfold to_s64, u64. rewrite Z.mod_small by lia.
  destruct (Z.ltb_spec z (2 ^ 63)); [auto|lia].
Qed.

Lemma ntime_ok s e : norm NS s -> norm NS e -> ntime_since s e = Some (Z.max 0 (inst NS e - inst NS s)).
Proof.
  unfold norm, inst, ntime_since. intros [S1 S2] [E1 E2]. rewrite !s64_ok by lia.
  destruct (Z.ltb_spec 0 (sec e - sec s)), (Z.ltb_spec (sub e - sub s) 0); cbn [andb].
  all: match goal with |- (if (?a <? 0) || ((?a =? 0) && (?b <? 0)) then _ else _) = _ =>
         destruct (Z.ltb_spec a 0), (Z.eqb_spec a 0), (Z.ltb_spec b 0); cbn [orb andb] end.
  all: rewrite ?s64_ok by lia; rewrite ?s64_ok by lia; try (f_equal; lia); try lia.
Qed.

Lemma quot_facts d : exists r, d = 1000 * Z.quot d 1000 + r /\ -1000 < r < 1000 /\ 0 <= r * d.
Proof.
  exists (Z.rem d 1000). split; [apply Z.quot_rem'|]. 
  pose proof (Z.rem_bound_abs d 1000 ltac:(lia)). split; [lia|].
  apply Z.rem_sign_mul. lia.
Qed.

Lemma utime_ok s e : norm NS s -> norm NS e -> exists u, utime_since s e = Some u /\ 0 <= u /\
  (inst NS s <= inst NS e -> -1000 < inst NS e - inst NS s - 1000 * u < 1000) /\
  (inst NS e <= inst NS s -> u = 0) /\
  u = Z.max 0 ((sec e - sec s) * 1000000 + Z.quot (sub e - sub s) 1000).
Proof.
  unfold norm, inst, utime_since. intros [S1 S2] [E1 E2]. rewrite !s64_ok by lia.
  destruct (quot_facts (sub e - sub s)) as (r & Er & Hr & Hs).
  set (q := Z.quot (sub e - sub s) 1000) in *. clearbody q.
  assert (-1000000 <= q <= 1000000) by lia.
  assert (Hq1 : sub e - sub s < 0 -> q <= 0) by (intros; nia).
  assert (Hq2 : 0 <= sub e - sub s -> 0 <= q) by (intros; nia).
  destruct (Z.ltb_spec 0 (sec e - sec s)), (Z.ltb_spec q 0); cbn [andb].
  all: match goal with |- context [(?a <? 0) || ((?a =? 0) && (?b <? 0))] =>
         destruct (Z.ltb_spec a 0), (Z.eqb_spec a 0), (Z.ltb_spec b 0); cbn [orb andb] end.
  all: rewrite ?s64_ok by lia; rewrite ?s64_ok by lia; try lia.
  all: eexists; split; [reflexivity|]; split; [lia|]; split; [intros; lia|]; split; [intros; nia|lia].
Qed.

Lemma utime_mono s e e' u u' : norm NS s -> norm NS e -> norm NS e' -> inst NS e <= inst NS e' ->
  utime_since s e = Some u -> utime_since s e' = Some u' -> u <= u'.
Proof.
  intros Hs He He' H E E'.
  destruct (utime_ok s e Hs He) as (v & Ev & _ & _ & _ & Fv).
  destruct (utime_ok s e' Hs He') as (v' & Ev' & _ & _ & _ & Fv').
  assert (v = u) by congruence. assert (v' = u') by congruence. subst u u'. rewrite Fv, Fv'. clear Fv Fv' Ev Ev' E E'.
  unfold norm, inst in *.
  destruct (quot_facts (sub e - sub s)) as (r & Er & Hr & Hrs).
  destruct (quot_facts (sub e' - sub s)) as (r' & Er' & Hr' & Hrs').
  set (q := Z.quot (sub e - sub s) 1000) in *. set (q' := Z.quot (sub e' - sub s) 1000) in *.
  assert (Hm : sec e = sec e' -> q <= q').
  { intros Ee. unfold q, q'. apply Z.quot_le_mono; lia. }
  clearbody q q'. destruct (Z.eq_dec (sec e) (sec e')); [lia|].
  assert (sec e + 1 <= sec e') by lia.
  assert (q - q' <= 1000000); [|lia].
  assert (0 <= q \/ q < 0) as [|] by lia; assert (0 <= q' \/ q' < 0) as [|] by lia; try nia.
Qed.

Lemma mtime_tv_ok s e : norm US s -> norm US e -> 
  mtime_since_tv s e = Some (Z.max 0 (inst US e - inst US s) / 1000).
Proof.
  unfold norm, inst, mtime_since_tv. intros [S1 S2] [E1 E2]. rewrite !s64_ok by lia.
  destruct (Z.ltb_spec 0 (sec e - sec s)), (Z.ltb_spec (sub e - sub s) 0); cbn [andb].
  all: match goal with |- context [(?a <? 0) || ((?a =? 0) && (?b <? 0))] =>
         destruct (Z.ltb_spec a 0), (Z.eqb_spec a 0), (Z.ltb_spec b 0); cbn [orb andb] end.
  all: try lia.
  all: try (rewrite s64_ok by lia; rewrite Z.quot_div_nonneg by lia;
    match goal with |- context [?a * 1000 + ?b / 1000] =>
      pose proof (Z.div_mod b 1000 ltac:(lia)); pose proof (Z.mod_pos_bound b 1000 ltac:(lia)) end;
    rewrite s64_ok by lia; rewrite Z.max_r by lia; f_equal;
    match goal with |- ?a * 1000 + ?b / 1000 = ?d / 1000 =>
      apply Z.div_unique with (b mod 1000); lia end).
  all: rewrite Z.max_l by lia; reflexivity.
Qed.

Lemma rel_ok s e : norm NS s -> norm NS e ->
  rel_time_since s e = Some ((inst NS e - inst NS s) / 1000000).
Proof.
  unfold norm, inst, rel_time_since. intros [S1 S2] [E1 E2]. rewrite !s64_ok by lia.
  destruct (Z.ltb_spec (sub e - sub s) 0).
  all: match goal with |- context [(0 <=? ?a) && (?a <? _)] =>
         destruct (Z.leb_spec 0 a), (Z.ltb_spec a 1000000000); cbn [andb]; try lia;
         pose proof (Z.div_mod a 1000000 ltac:(lia)); pose proof (Z.mod_pos_bound a 1000000 ltac:(lia));
         rewrite (s64_ok (_ * 1000)) by lia; rewrite Z.quot_div_nonneg by lia; rewrite s64_ok by lia;
         f_equal; apply Z.div_unique with (a mod 1000000); lia end.
Qed.

Lemma add_msec_ok t msec : 0 <= sec t < 2 ^ 62 -> 0 <= sub t < NS -> 0 <= msec < 2 ^ 32 ->
  exists t', timespec_add_msec t msec = Some t' /\ 0 <= sub t' < NS /\
    inst NS t' = inst NS t + 1000000 * msec.
Proof.
  intros HS HN HM. unfold timespec_add_msec, inst.
  assert (U : u64 (1000000 * msec) = 1000000 * msec) by (unfold u64; apply Z.mod_small; lia).
  rewrite U. rewrite (to_s64_ok (sub t + _)) by lia.
  set (a := 1000000 * msec) in *. assert (0 <= a < 2 ^ 53) by lia.
  destruct (Z.leb_spec 1000000000 a).
  - pose proof (Z.div_mod a 1000000000 ltac:(lia)). pose proof (Z.mod_pos_bound a 1000000000 ltac:(lia)).
    set (q := a / 1000000000) in *. clearbody q a.
    assert (U2 : u64 (q * 1000000000) = q * 1000000000) by (unfold u64; apply Z.mod_small; lia).
    rewrite U2. rewrite !to_s64_ok by lia.
    destruct (Z.leb_spec 1000000000 (sub t + a - q * 1000000000)).
    + rewrite s64_ok by lia. eexists. split; [reflexivity|]. cbn [sec sub]. lia.
    + eexists. split; [reflexivity|]. cbn [sec sub]. lia.
  - destruct (Z.leb_spec 1000000000 (sub t + a)).
    + rewrite s64_ok by lia. eexists. split; [reflexivity|]. cbn [sec sub]. lia.
    + eexists. split; [reflexivity|]. cbn [sec sub]. lia.
Qed.

(** Microseconds asked for by one request. *)
Definition req_us (r : Z * Z) : Z := fst r * 1000000 + snd r / 1000.
Definition ev_time (e : sleep_ev) : Z := match e with Slept n _ => n | Spun n => n | SleepErr => 0 end.
Definition ev_full (gran : Z) (e : sleep_ev) : Prop := 0 <= ev_time e < 2 ^ 40.

Definition total (evs : list sleep_ev) : Z := fold_right (fun e a => ev_time e + a) 0 evs.

Lemma total_ge evs : Forall (fun e => 0 <= ev_time e) evs -> 0 <= total evs.
Proof. induction 1 as [|e l He Hl IH]; cbn [total fold_right]; [lia|fold (total l); lia]. Qed.

Lemma sleep_ok gran : 0 <= gran -> forall evs usec t r reqs, 0 <= usec -> 0 <= t ->
  Forall (fun e => 0 <= ev_time e) evs -> t + total evs < 2 ^ 64 ->
  usec_sleep gran usec t evs = Some (r, reqs) ->
  t <= r <= t + total evs /\
  (* every request: well-formed, below two seconds, and never beyond what is left *)
  Forall (fun q => 0 <= fst q <= 1 /\ 0 <= snd q < 1000000000 /\ req_us q <= usec - gran) reqs /\
  (* unless interrupted, the time reported covers the time asked for *)
  (~ In SleepErr evs -> (forall n, ~ In (Slept n true) evs) -> t + usec <= r).
Proof.
  intros Hg. induction evs as [|e evs IH]; intros usec t r reqs Hu Ht Hev Htot E; [discriminate|].
  inversion Hev as [|? ? He Hev']; subst. cbn [total fold_right] in Htot. fold (total evs) in Htot.
  cbn [total fold_right]. fold (total evs).
  pose proof (total_ge evs Hev') as TG.
  cbn [usec_sleep] in E. destruct (Z.ltb_spec usec gran) as [Hlt|Hge].
  - destruct e as [n tm| |n]; try discriminate. destruct (Z.leb_spec usec n); [|discriminate].
    inversion E; subst. cbn [ev_time] in *.
    unfold u64. rewrite Z.mod_small by lia. split; [lia|]. split; [constructor|]. intros; lia.
  - set (ts0 := usec - gran) in *.
    destruct (if 1000000 <=? ts0 then ((if 1 <? ts0 / 1000000 then 1 else ts0 / 1000000), ts0 - 1000000 * (ts0 / 1000000)) else (0, ts0)) as [rs ts1] eqn:Eq.
    assert (RQ : 0 <= rs <= 1 /\ 0 <= ts1 < 1000000 /\ rs * 1000000 + ts1 <= ts0).
    { destruct (Z.leb_spec 1000000 ts0).
      - pose proof (Z.div_mod ts0 1000000 ltac:(lia)). pose proof (Z.mod_pos_bound ts0 1000000 ltac:(lia)).
        set (q := ts0 / 1000000) in *. set (m := ts0 mod 1000000) in *. clearbody q m.
        assert (rs = if 1 <? q then 1 else q) by congruence.
        assert (ts1 = ts0 - 1000000 * q) by congruence.
        destruct (Z.ltb_spec 1 q); lia.
      - assert (rs = 0) by congruence. assert (ts1 = ts0) by congruence. lia. }
    assert (RQ' : 0 <= fst (rs, ts1 * 1000) <= 1 /\ 0 <= snd (rs, ts1 * 1000) < 1000000000 /\
                  req_us (rs, ts1 * 1000) <= usec - gran).
    { unfold req_us. cbn [fst snd]. rewrite Z.div_mul by lia. fold ts0. lia. }
    destruct e as [n tm| |n]; [| |discriminate].
    + cbn [ev_time] in *. assert (U : u64 (t + n) = t + n) by (unfold u64; apply Z.mod_small; lia).
      rewrite U in E. destruct (Z.leb_spec usec n) as [Hle|Hgt].
      * inversion E; subst. split; [lia|]. split; [constructor; auto|]. intros; lia.
      * destruct tm.
        -- inversion E; subst. split; [lia|]. split; [constructor; auto|]. intros _ Hn.
           exfalso. apply (Hn n). left. auto.
        -- destruct (usec_sleep gran (usec - n) (t + n) evs) as [[r' reqs']|] eqn:E2; [|discriminate].
           inversion E; subst.
           destruct (IH (usec - n) (t + n) r reqs') as (A & B & C); auto; [lia|lia|lia|].
           split; [lia|]. split.
           ++ constructor; auto. eapply Forall_impl; [|exact B]. cbv beta. intros q (Q1 & Q2 & Q3).
              split; [auto|]. split; [auto|]. lia.
           ++ intros H1 H2. assert (t + n + (usec - n) <= r); [|lia]. apply C.
              ** intros H3. apply H1. right. auto.
              ** intros m H3. apply (H2 m). right. auto.
    + inversion E; subst. cbn [ev_time] in *. split; [lia|]. split; [constructor; auto|].
      intros H. exfalso. apply H. left. auto.
Qed.

(** What the sleep consumes: turns that end neither by time nor by termination, then one last turn. *)
Lemma sleep_exact gran : forall evs usec t r reqs, 0 <= t ->
  Forall (fun e => 0 <= ev_time e) evs -> t + total evs < 2 ^ 64 ->
  usec_sleep gran usec t evs = Some (r, reqs) ->
  exists pre last post, evs = pre ++ last :: post /\ r = t + total pre + ev_time last /\
    Forall (fun e => exists n, e = Slept n false) pre /\ (pre <> [] -> total pre < usec) /\
    length reqs = (length pre + match last with Spun _ => 0 | _ => 1 end)%nat /\
    match last with Slept n false => usec <= total pre + n | Slept n true => True | SleepErr => True | Spun n => usec < total pre + gran /\ usec <= total pre + n end.
Proof.
  induction evs as [|e evs IH]; intros usec t r reqs Ht Hev Htot E; [discriminate|].
  inversion Hev as [|? ? He Hev']; subst. cbn [total fold_right] in Htot. fold (total evs) in Htot.
  pose proof (total_ge evs Hev') as TG.
  cbn [usec_sleep] in E. destruct (Z.ltb_spec usec gran) as [Hlt|Hge].
  - destruct e as [n tm| |n]; try discriminate. destruct (Z.leb_spec usec n); [|discriminate].
    inversion E; subst. cbn [ev_time] in *. exists [], (Spun n), evs.
    unfold u64. rewrite Z.mod_small by lia. cbn. repeat split; auto; try lia; try congruence.
  - set (ts0 := usec - gran) in *.
    destruct (if 1000000 <=? ts0 then ((if 1 <? ts0 / 1000000 then 1 else ts0 / 1000000), ts0 - 1000000 * (ts0 / 1000000)) else (0, ts0)) as [rs ts1].
    destruct e as [n tm| |n]; [| |discriminate].
    + cbn [ev_time] in *. assert (U : u64 (t + n) = t + n) by (unfold u64; apply Z.mod_small; lia).
      rewrite U in E. destruct (Z.leb_spec usec n) as [Hle|Hgt].
      * inversion E; subst. exists [], (Slept n tm), evs. cbn. repeat split; auto; try lia; try congruence. destruct tm; auto.
      * destruct tm.
        -- inversion E; subst. exists [], (Slept n true), evs. cbn. repeat split; auto; try lia; congruence.
        -- destruct (usec_sleep gran (usec - n) (t + n) evs) as [[r' reqs']|] eqn:E2; [|discriminate].
           inversion E; subst.
           destruct (IH (usec - n) (t + n) r reqs') as (pre & last & post & A & B & C & D & L & M); auto; [lia|lia|].
           exists (Slept n false :: pre), last, post. cbn [total fold_right ev_time app length]. fold (total pre).
           split; [congruence|]. split; [lia|]. split; [constructor; eauto|].
           split; [intros _; destruct pre as [|e pre]; [cbn; lia|]; specialize (D ltac:(discriminate)); lia|].
           split; [lia|]. destruct last as [m [|]| |m]; auto; lia.
    + inversion E; subst. exists [], SleepErr, evs. cbn. repeat split; auto; try lia; congruence.
Qed.
