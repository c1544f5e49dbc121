(** Proofs about the rate limits. *)
From Coq Require Import ZArith List Lia Bool.
From Verif Require Import CBase RateModel RateSpec.
Import ListNotations.
Open Scope Z_scope.

Lemma u64_id x : 0 <= x < 2 ^ 64 -> u64 x = x.
Proof. apply Z.mod_small. Qed.

Lemma u64_add_l x y : u64 (u64 x + y) = u64 (x + y).
Proof. unfold u64. apply Zplus_mod_idemp_l. Qed.

Lemma u64_add_r x y : u64 (x + u64 y) = u64 (x + y).
Proof. unfold u64. apply Zplus_mod_idemp_r. Qed.

Lemma u64_sub_l x y : u64 (u64 x - y) = u64 (x - y).
Proof. unfold u64. apply Zminus_mod_idemp_l. Qed.

Lemma deq_true a b : deq a b = true <-> a = b.
Proof. destruct a, b; simpl; split; congruence. Qed.

Lemma deq_refl a : deq a a = true.
Proof. now apply deq_true. Qed.

Lemma deq_false a b : a <> b -> deq a b = false.
Proof. destruct (deq a b) eqn:E; auto. apply deq_true in E. contradiction. Qed.

Lemma setd_same f d v : setd f d v d = v.
Proof. unfold setd. now rewrite deq_refl. Qed.

Lemma setd_other f d e v : e <> d -> setd f d v e = f e.
Proof. intros H. unfold setd. now rewrite deq_false. Qed.

(** ** The world *)

Record good (t : Z) (b : bool) (w : list ans) : Prop :=
  { g_after : after t w; g_sticky : sticky b w; g_calm : calm w }.

Lemma fair_good w : fair w -> good 0 false w.
Proof. intros [A B C]. constructor; assumption. Qed.

Lemma calm_tl a w : calm (a :: w) -> calm w.
Proof. unfold calm. simpl. tauto. Qed.

Lemma good_clock t b n w : good t b (Clock n :: w) -> t <= n /\ good n b w.
Proof. intros [A B C]. simpl in A, B. apply calm_tl in C. split; [tauto|]. constructor; tauto. Qed.

Lemma good_nano t b ok w : good t b (Nano ok :: w) -> ok = true /\ good t b w.
Proof.
  intros [A B C]. simpl in A, B. split.
  - destruct ok; auto. exfalso. apply C. now left.
  - apply calm_tl in C. constructor; auto.
Qed.

Lemma good_term t b x w : good t b (Term x :: w) -> (b = true -> x = true) /\ good t x w.
Proof. intros [A B C]. simpl in A, B. apply calm_tl in C. split; [tauto|]. constructor; tauto. Qed.

Lemma good_weaken t t' b w : good t b w -> t' <= t -> good t' b w.
Proof.
  intros [A B C] L. constructor; auto.
  clear B C. induction w as [|[n|ok|x] w IH]; simpl in *; auto. destruct A. split; [lia|auto].
Qed.

Lemma spin_good w : forall start usec t b x w', spin_loop start usec w = Some (x, w') -> good t b w -> start <= t ->
  exists t1, good t1 b w' /\ t <= t1 /\ x = (t1 - start) / 1000 /\ usec <= x.
Proof.
  induction w as [|[n|ok|y] w IH]; simpl; intros start usec t b x w' H G L; try discriminate.
  destruct (good_clock _ _ _ _ G) as [Ln Gn].
  destruct (Z.ltb_spec ((n - start) / 1000) usec).
  - destruct (IH _ _ n b _ _ H Gn) as (t1 & G1 & L1 & E1 & U1); [lia|].
    exists t1. repeat split; auto; try apply G1; lia.
  - injection H as <- <-. exists n. split; [exact Gn|]. repeat split; lia.
Qed.

Lemma usec_spin_good usec w t b x w' : usec_spin usec w = Some (x, w') -> good t b w ->
  exists t1, good t1 b w' /\ t + x * 1000 <= t1 /\ usec <= x /\ 0 <= x.
Proof.
  destruct w as [|[n|ok|y] w]; simpl; intros H G; try discriminate.
  destruct (good_clock _ _ _ _ G) as [Ln Gn].
  destruct (spin_good _ _ _ n b _ _ H Gn) as (t1 & G1 & L1 & E1 & U1); [lia|].
  exists t1. split; [exact G1|].
  pose proof (Z.mul_div_le (t1 - n) 1000). assert (0 <= (t1 - n) / 1000) by (apply Z.div_pos; lia). lia.
Qed.

Lemma sleep_good fuel : forall g usec acc w r qs w' t b, sleep_loop fuel g usec acc w = Some (r, qs, w') -> good t b w ->
  exists t1 b', good t1 b' w' /\ t + (r - acc) * 1000 <= t1 /\ acc <= r /\ (b' = true \/ acc + usec <= r).
Proof.
  induction fuel as [|fuel IH]; [discriminate|]. intros g usec acc w r qs w' t b. cbn [sleep_loop].
  destruct (usec <? g).
  - intros H G. destruct (usec_spin usec w) as [[x w1]|] eqn:E; [|discriminate]. injection H as <- <- <-.
    destruct (usec_spin_good _ _ _ _ _ _ E G) as (t1 & G1 & L1 & U1 & P1).
    exists t1, b. split; [exact G1|]. repeat split; lia.
  - destruct w as [|[tv|?|?] [|[?|ok|?] w1]]; try discriminate. intros H G.
    apply good_clock in G. destruct G as [L0 G]. apply good_nano in G. destruct G as [-> G].
    cbn [negb] in H. destruct w1 as [|[n|?|?] w2]; try discriminate.
    apply good_clock in G. destruct G as [L1 G].
    pose proof (Z.mul_div_le (n - tv) 1000). assert (0 <= (n - tv) / 1000) by (apply Z.div_pos; lia).
    set (ts := (n - tv) / 1000) in *. rewrite Z.geb_leb in H.
    destruct (Z.leb_spec usec ts).
    + injection H as <- <- <-. exists n, b. split; [exact G|]. repeat split; lia.
    + destruct w2 as [|[?|?|x] w3]; try discriminate. apply good_term in G. destruct G as [_ G].
      destruct x.
      * injection H as <- <- <-. exists n, true. split; [exact G|]. repeat split; lia.
      * destruct (sleep_loop fuel g (usec - ts) (acc + ts) w3) as [[[r' qs'] w4]|] eqn:E; [|discriminate].
        injection H as <- <- <-.
        destruct (IH _ _ _ _ _ _ _ n false E G) as (t1 & b' & G1 & L2 & P2 & D).
        exists t1, b'. split; [exact G1|]. repeat split; try lia; destruct D; [left; assumption|right; lia].
Qed.

Lemma usec_sleep_good g usec w r qs w' t b : usec_sleep g usec w = Some (r, qs, w') -> good t b w ->
  exists t1 b', good t1 b' w' /\ t + r * 1000 <= t1 /\ 0 <= r /\ (b' = true \/ usec <= r).
Proof.
  intros H G. destruct (sleep_good _ _ _ _ _ _ _ _ _ _ H G) as (t1 & b' & A & B & C & D).
  exists t1, b'. split; [exact A|]. repeat split; try lia; destruct D; [left; assumption|right; lia].
Qed.

(** ** The requests to [nanosleep] *)

Lemma nano_req_valid ts : 0 <= ts -> let q := nano_req ts in
  0 <= fst q <= 1 /\ 0 <= snd q < 1000000000 /\ fst q * 1000000000 + snd q <= ts * 1000.
Proof.
  intros H. unfold nano_req. rewrite Z.geb_leb. destruct (Z.leb_spec 1000000 ts); cbn [fst snd].
  - pose proof (Z.div_mod ts 1000000). pose proof (Z.mod_pos_bound ts 1000000).
    assert (1 <= ts / 1000000) by (apply Z.div_le_lower_bound; lia).
    rewrite Z.gtb_ltb. destruct (Z.ltb_spec 1 (ts / 1000000)); lia.
  - lia.
Qed.

Lemma sleep_requests fuel : forall g usec acc w r qs w', 0 <= g -> sleep_loop fuel g usec acc w = Some (r, qs, w') ->
  after 0 w -> forall q, In q qs -> 0 <= fst q <= 1 /\ 0 <= snd q < 1000000000 /\ fst q * 1000000000 + snd q <= usec * 1000.
Proof.
  induction fuel as [|fuel IH]; [discriminate|]. intros g usec acc w r qs w' Hg. cbn [sleep_loop].
  destruct (Z.ltb_spec usec g).
  - destruct (usec_spin usec w) as [[x w1]|]; [|discriminate]. intros [= <- <- <-] _ q [].
  - pose proof (nano_req_valid (usec - g)) as V. cbv zeta in V.
    assert (V' : forall q, q = nano_req (usec - g) -> 0 <= fst q <= 1 /\ 0 <= snd q < 1000000000 /\ fst q * 1000000000 + snd q <= usec * 1000).
    { intros q ->. destruct V as (A & B & C); [lia|]. repeat split; lia. }
    destruct w as [|[tv|?|?] [|[?|ok|?] w1]]; try discriminate. intros Hr A q.
    destruct ok; cbn [negb] in Hr.
    2:{ injection Hr as <- <- <-. intros [<-|[]]. now apply V'. }
    destruct w1 as [|[n|?|?] w2]; try discriminate. simpl in A. destruct A as [A0 [A1 A2]].
    set (ts := (n - tv) / 1000) in *. assert (0 <= ts) by (apply Z.div_pos; lia).
    rewrite Z.geb_leb in Hr. destruct (Z.leb_spec usec ts).
    { injection Hr as <- <- <-. intros [<-|[]]. now apply V'. }
    destruct w2 as [|[?|?|x] w3]; try discriminate. simpl in A2. destruct x.
    { injection Hr as <- <- <-. intros [<-|[]]. now apply V'. }
    destruct (sleep_loop fuel g (usec - ts) (acc + ts) w3) as [[[r' qs'] w4]|] eqn:E; [|discriminate].
    injection Hr as <- <- <-. intros [<-|I]; [now apply V'|].
    assert (A3 : after 0 w3).
    { assert (G : 0 <= n) by lia. clear - A2 G. revert n G A2.
      induction w3 as [|[k|?|?] w3 IH]; simpl; intros; auto. destruct A2. split; [lia|auto].
      - eauto. - eauto. }
    destruct (IH _ _ _ _ _ _ _ Hg E A3 q I) as (P & Q & R). repeat split; lia.
Qed.

(** ** The choice of a direction *)

Lemma plan_pos c s d now : now < next s d -> let (e, u) := plan c s d now in
  (u = 0 /\ next s e <= now) \/ (0 < u /\ next s e = now + u).
Proof.
  intros H. unfold plan. destruct (mixed c && negb (rwmix c (other d) =? 0)).
  - destruct (Z.leb_spec (next s (other d)) now); [left; lia|].
    destruct (Z.leb_spec (next s d) (next s (other d))); right; lia.
  - right; lia.
Qed.

Lemma rate_good c s d w r n x w' t b : rate_ddir c s d w = Some (r, n, x, w') -> good t b w ->
  exists b', good n b' w' /\ t <= n /\ forall e, r = Some e -> next s e <= n / 1000 \/ at_end c n.
Proof.
  unfold rate_ddir. destruct w as [|[k|?|?] w1]; try discriminate. intros H G.
  apply good_clock in G. destruct G as [L G].
  destruct (Z.leb_spec (next s d) (k / 1000)).
  { injection H as <- <- <- <-. exists b. split; [exact G|]. split; [lia|]. intros e [= <-]. now left. }
  pose proof (plan_pos c s d (k / 1000)) as P. destruct (plan c s d (k / 1000)) as [e u].
  specialize (P ltac:(lia)). destruct (Z.eqb_spec u 0).
  { injection H as <- <- <- <-. exists b. split; [exact G|]. split; [lia|]. intros e' [= <-]. left; lia. }
  assert (K : forall us, (next s e <= k / 1000 + us \/ (timeout c <> 0 /\ k / 1000 + us = timeout c)) ->
    match usec_sleep (gran c) us w1 with
          | Some (_, _, Clock m :: w3) =>
            if negb (timeout c =? 0) && (m / 1000 >? timeout c) then Some (None, m, Some us, w3)
            else match w3 with
                 | Term b :: w4 => Some ((if b then None else Some e), m, Some us, w4)
                 | _ => None
                 end
          | _ => None
          end = Some (r, n, x, w') ->
    exists b', good n b' w' /\ t <= n /\ forall e, r = Some e -> next s e <= n / 1000 \/ at_end c n).
  { intros us D K. destruct (usec_sleep (gran c) us w1) as [[[z qs] w2]|] eqn:E; [|discriminate].
    destruct (usec_sleep_good _ _ _ _ _ _ _ _ E G) as (t1 & b' & G1 & L1 & P1 & D1).
    destruct w2 as [|[m|?|?] w3]; try discriminate.
    apply good_clock in G1. destruct G1 as [L2 G1].
    destruct (negb (timeout c =? 0) && (m / 1000 >? timeout c)) eqn:T.
    { injection K as <- <- <- <-. exists b'. split; [exact G1|]. split; [lia|]. discriminate. }
    destruct w3 as [|[?|?|y] w4]; try discriminate. injection K as <- <- <- <-.
    apply good_term in G1. destruct G1 as [S1 G1]. exists y. split; [exact G1|]. split; [lia|].
    destruct y; [discriminate|]. intros e' [= <-].
    destruct D1 as [->|D1]; [discriminate (S1 eq_refl)|].
    assert (M : k / 1000 + us <= m / 1000).
    { replace (k / 1000 + us) with ((k + us * 1000) / 1000) by (rewrite Z.div_add; lia).
      apply Z.div_le_mono; lia. }
    destruct D as [D|[D0 D]]; [left; lia|].
    right. split; [exact D0|].
    apply andb_false_iff in T. destruct T as [T|T].
    - apply negb_false_iff, Z.eqb_eq in T. contradiction.
    - rewrite Z.gtb_ltb in T. apply Z.ltb_ge in T. lia. }
  destruct (negb (timeout c =? 0) && (u + k / 1000 >? timeout c)) eqn:T.
  - apply andb_true_iff in T. destruct T as [T _]. apply negb_true_iff, Z.eqb_neq in T.
    destruct (k / 1000 >? timeout c).
    + injection H as <- <- <- <-. exists b. split; [exact G|]. split; [lia|]. discriminate.
    + apply (K (timeout c - k / 1000)); [right; split; [exact T|lia]|exact H].
  - apply (K u); [left; lia|exact H].
Qed.

(** ** Pauses *)

Lemma read_good c w t b n w' :
  (if timeout c =? 0 then Some (0, w) else match w with Clock n :: w' => Some (n, w') | _ => None end) = Some (n, w') ->
  good t b w -> exists t1, good t1 b w' /\ t <= t1 /\ (timeout c <> 0 -> t1 = n).
Proof.
  destruct (Z.eqb_spec (timeout c) 0).
  - intros [= <- <-] G. exists t. split; [exact G|]. split; [lia|]. contradiction.
  - destruct w as [|[k|?|?] w1]; try discriminate. intros [= <- <-] G. apply good_clock in G.
    exists k. split; [apply G|]. split; [apply G|auto].
Qed.

Lemma pause_good c w r w' t b : pause c w = Some (r, w') -> good t b w ->
  exists t1 b', good t1 b' w' /\ t + r * 1000 <= t1 /\ 0 <= r.
Proof.
  unfold pause. intros H G.
  match type of H with match ?r with _ => _ end = _ => destruct r as [[n w1]|] eqn:E1; [|discriminate] end.
  destruct (read_good _ _ _ _ _ _ E1 G) as (t1 & G1 & L1 & _).
  match type of H with match ?r with _ => _ end = _ => destruct r as [[x w2]|] eqn:E2; [|discriminate] end.
  assert (G2 : exists t2, good t2 b w2 /\ t1 + x * 1000 <= t2 /\ 0 <= x).
  { destruct (cut c (tspin c) n =? 0).
    - injection E2 as <- <-. exists t1. split; [exact G1|lia].
    - destruct (usec_spin_good _ _ _ _ _ _ E2 G1) as (t2 & A & B & C & D). exists t2. split; [exact A|lia]. }
  destruct G2 as (t2 & G2 & L2 & P2).
  match type of H with match ?r with _ => _ end = _ => destruct r as [[m w3]|] eqn:E3; [|discriminate] end.
  destruct (read_good _ _ _ _ _ _ E3 G2) as (t3 & G3 & L3 & _).
  destruct (cut c (if x <? think c then think c - x else 0) m =? 0).
  - injection H as <- <-. exists t3, b. split; [exact G3|lia].
  - destruct (usec_sleep _ _ w3) as [[[z qs] w4]|] eqn:E4; [|discriminate]. injection H as <- <-.
    destruct (usec_sleep_good _ _ _ _ _ _ _ _ E4 G3) as (t4 & b' & G4 & L4 & P4 & _).
    exists t4, b'. split; [exact G4|lia].
Qed.

Lemma stall_good c s k w y w' t b : stall c s k w = Some (y, w') -> good t b w ->
  exists t1, good t1 b w' /\ t <= t1.
Proof.
  unfold stall. destruct (tiotime c =? 0).
  - intros [= <- <-] G. exists t. split; [exact G|lia].
  - destruct w as [|[n|?|?] w1]; try discriminate. intros H G. apply good_clock in G.
    exists n. split; [|apply G].
    destruct (_ >=? tiotime c) in H; [injection H as <- <-; apply G|].
    destruct (negb (tblocks_set c)) in H; injection H as <- <-; apply G.
Qed.

Lemma think_good c s d k w s' y w' t b : handle_thinktime c s d k w = Some (s', y, w') -> good t b w ->
  (exists t1 b', good t1 b' w' /\ t <= t1) /\
  match y with
  | None => s' = s
  | Some total => 0 <= total /\ next s' = next s /\
      if negb (total =? 0) && negb (bps c d =? 0) && ign c
      then cnt s' = setd (cnt s) d (u64 (cnt s d + credit c d total)) /\ lastu s' = setd (lastu s) d (lastu s d + total)
      else cnt s' = cnt s /\ lastu s' = lastu s
  end.
Proof.
  unfold handle_thinktime. intros H G.
  destruct (stall c s k w) as [[[|] w1]|] eqn:E1; try discriminate;
    destruct (stall_good _ _ _ _ _ _ _ _ E1 G) as (t1 & G1 & L1).
  2:{ injection H as <- <- <-. split; [|reflexivity]. exists t1, b. split; [exact G1|lia]. }
  destruct (pause c w1) as [[r w2]|] eqn:E2; [|discriminate].
  destruct (pause_good _ _ _ _ _ _ E2 G1) as (t2 & b' & G2 & L2 & P2).
  destruct (tiotime c =? 0).
  - injection H as <- <- <-. split; [exists t2, b'; split; [exact G2|lia]|].
    split; [exact P2|]. split; [reflexivity|]. destruct (_ && ign c); split; reflexivity.
  - destruct w2 as [|[n|?|?] w3]; try discriminate. injection H as <- <- <-.
    apply good_clock in G2. split; [exists n, b'; split; [apply G2|lia]|].
    split; [exact P2|]. split; [reflexivity|]. destruct (_ && ign c); split; reflexivity.
Qed.

(** ** Runs *)

Lemma step_extends c s h o w s' h' f w' : step c s h o w = Some (s', h', f, w') -> exists p, h' = p ++ h.
Proof.
  destruct o as [d len busy v|d len busy v|d k]; simpl.
  - destruct (rate_ddir c s d w) as [[[[[e|] n] x] w1]|]; try discriminate.
    + destruct (submit c s e len busy v); [|discriminate]. intros [= <- <- <- <-].
      exists [Iss e len (negb busy) v; Rel e n]. reflexivity.
    + intros [= <- <- <- <-]. now exists [].
  - destruct (submit c s d len busy v); [|discriminate]. intros [= <- <- <- <-].
    now exists [Iss d len (negb busy) v].
  - destruct (handle_thinktime c s d k w) as [[[s1 [total|]] w1]|]; try discriminate; intros [= <- <- <- <-].
    + now exists [Paused d total].
    + now exists [].
Qed.

Lemma run_extends c os : forall s h w s' h' w', run c s h os w = Some (s', h', w') -> exists p, h' = p ++ h.
Proof.
  induction os as [|o os IH]; simpl; intros s h w s' h' w' H.
  - injection H as <- <- <-. now exists [].
  - destruct (step c s h o w) as [[[[s1 h1] f] w1]|] eqn:E; [|discriminate].
    destruct (step_extends _ _ _ _ _ _ _ _ _ E) as [p ->]. destruct f.
    + destruct (IH _ _ _ _ _ _ H) as [q ->]. exists (q ++ p). now rewrite app_assoc.
    + injection H as <- <- <-. now exists p.
Qed.

(** A general invariant of runs: [J] ties the state to the history, and gives the due time. *)
Definition releases (c : cfg) (d : dir) (D : list ev -> Z) (h : list ev) : Prop :=
  forall h1 h2 n, h = h2 ++ Rel d n :: h1 -> D h1 <= n / 1000 \/ at_end c n.

Lemma releases_skip c d D a h : releases c d D h -> (forall n, a <> Rel d n) -> releases c d D (a :: h).
Proof.
  intros R N h1 h2 n E. destruct h2 as [|b h2]; simpl in E; injection E as -> E.
  - now elim (N n).
  - subst h. now apply (R h1 h2).
Qed.

Lemma releases_rel c d D e n h : releases c d D h -> (e = d -> D h <= n / 1000 \/ at_end c n) ->
  releases c d D (Rel e n :: h).
Proof.
  intros R N h1 h2 m E. destruct h2 as [|b h2]; simpl in E.
  - injection E as E1 E2 E3. subst. now apply N.
  - injection E as E1 E. subst h. now apply (R h1 h2).
Qed.

Lemma run_rel c d (J : st -> list ev -> Prop) (D : list ev -> Z) (R : list ev -> Prop) :
  (forall p h, R (p ++ h) -> R h) ->
  (forall s h, J s h -> next s d = D h) ->
  (forall s h e n, J s h -> J s (Rel e n :: h)) ->
  (forall s h e len busy v s', J s h -> submit c s e len busy v = Some s' -> R (Iss e len (negb busy) v :: h) ->
     J s' (Iss e len (negb busy) v :: h)) ->
  (forall s h e k total w s' w' t b, J s h -> handle_thinktime c s e k w = Some (s', Some total, w') -> good t b w ->
     R (Paused e total :: h) -> J s' (Paused e total :: h)) ->
  forall os s h w s' h' w' t b,
  run c s h os w = Some (s', h', w') -> good t b w -> R h' -> J s h -> releases c d D h ->
  J s' h' /\ releases c d D h' /\ exists t' b', good t' b' w'.
Proof.
  intros RS JD JR JI JP. induction os as [|o os IH]; intros s h w s' h' w' t b H G F Js Rs.
  - injection H as <- <- <-. split; [exact Js|]. split; [exact Rs|]. now exists t, b.
  - simpl in H. destruct (step c s h o w) as [[[[s1 h1] f] w1]|] eqn:E; [|discriminate].
    assert (F1 : R h1).
    { destruct f; [|injection H as <- <- <-; exact F].
      destruct (run_extends _ _ _ _ _ _ _ _ H) as [p Hp]. subst h'. now apply (RS p). }
    assert (K : J s1 h1 /\ releases c d D h1 /\ exists t' b', good t' b' w1).
    { clear H IH. destruct o as [e len busy v|e len busy v|e k]; cbn [step] in E.
      - destruct (rate_ddir c s e w) as [[[[[e'|] n] x] w2]|] eqn:ER; try discriminate.
        + destruct (submit c s e' len busy v) as [s2|] eqn:ES; [|discriminate]. injection E as <- <- <- <-.
          destruct (rate_good _ _ _ _ _ _ _ _ _ _ ER G) as (b' & G' & _ & N).
          split; [|split].
          * apply (JI s); auto.
          * apply releases_skip; [|discriminate]. apply releases_rel; auto.
            intros ->. rewrite <- (JD s h Js). now apply N.
          * now exists n, b'.
        + injection E as <- <- <- <-. destruct (rate_good _ _ _ _ _ _ _ _ _ _ ER G) as (b' & G' & _).
          split; [exact Js|]. split; [exact Rs|]. now exists n, b'.
      - destruct (submit c s e len busy v) as [s2|] eqn:ES; [|discriminate]. injection E as <- <- <- <-.
        split; [apply (JI s); auto|]. split; [apply releases_skip; [exact Rs|discriminate]|]. now exists t, b.
      - destruct (handle_thinktime c s e k w) as [[[s2 [total|]] w2]|] eqn:ET; try discriminate; injection E as <- <- <- <-.
        + split; [apply (JP s h e k total w s2 w2 t b); auto|].
          split; [apply releases_skip; [exact Rs|discriminate]|].
          destruct (think_good _ _ _ _ _ _ _ _ _ _ ET G) as [(t1 & b' & G' & _) _]. now exists t1, b'.
        + destruct (think_good _ _ _ _ _ _ _ _ _ _ ET G) as [(t1 & b' & G' & _) ->].
          split; [exact Js|]. split; [exact Rs|]. now exists t1, b'. }
    destruct K as (Ja & Ra & t1 & b1 & G1). destruct f.
    + exact (IH _ _ _ _ _ _ _ _ H G1 F Ja Ra).
    + injection H as <- <- <-. split; [exact Ja|]. split; [exact Ra|]. now exists t1, b1.
Qed.

Lemma releases_nil c d D : releases c d D [].
Proof. intros h1 h2 n E. destruct h2; discriminate. Qed.

(** ** Limits in bytes per second *)

Lemma submit_other c s e len busy v s' d : submit c s e len busy v = Some s' -> e <> d ->
  cnt s' d = cnt s d /\ next s' d = next s d /\ lastu s' d = lastu s d.
Proof.
  unfold submit, usec_for_io. intros H N. assert (N' : d <> e) by congruence.
  cbn [cnt next lastu lthink lblocks] in H.
  destruct (poisson c).
  - destruct (bps c e / min_bs c e =? 0); [discriminate|]. injection H as <-.
    cbn [cnt next lastu]. rewrite !setd_other; auto.
  - destruct (bps c e =? 0).
    { injection H as <-. cbn [cnt next lastu]. rewrite !setd_other; auto. }
    destruct ((rate c e =? 0) && bssplit c e).
    + destruct (bps c e / min_bs c e =? 0); injection H as <-; cbn [cnt next lastu]; rewrite !setd_other; auto.
    + injection H as <-. cbn [cnt next lastu]. rewrite !setd_other; auto.
Qed.

Lemma usec_exact b k : 0 < b -> b * 1000000 <= 2 ^ 64 -> 0 <= k -> k * 1000000 / b < 2 ^ 64 ->
  u64 (u64 (k mod b * 1000000) / b + k / b * 1000000) = k * 1000000 / b.
Proof.
  intros Hb Hr Hk Hf. pose proof (Z.mod_pos_bound k b Hb). pose proof (Z.div_mod k b ltac:(lia)) as M.
  rewrite (u64_id (k mod b * 1000000)) by nia.
  assert (E : k * 1000000 / b = k mod b * 1000000 / b + k / b * 1000000).
  { rewrite M at 1. replace ((b * (k / b) + k mod b) * 1000000) with (k mod b * 1000000 + (k / b * 1000000) * b) by ring.
    rewrite Z.div_add by lia. reflexivity. }
  rewrite <- E. apply u64_id. split; [apply Z.div_pos; lia|exact Hf].
Qed.

(** The due time of a number of bytes. *)
Definition lin_due (c : cfg) (d : dir) (h : list ev) : Z := account c d (upto d h) * 1000000 / bps c d.

Definition lin_inv (c : cfg) (d : dir) (s : st) (h : list ev) : Prop :=
  cnt s d = account c d h /\ next s d = lin_due c d h.

Lemma fits_suffix c d p h : fits c d (p ++ h) -> fits c d h.
Proof.
  intros [A B C D]. constructor; auto.
  - intros h1 h2 ->. apply (C h1 (p ++ h2)). now rewrite app_assoc.
  - intros t I. apply D. apply in_or_app. now right.
Qed.

Lemma fits_here c d h : fits c d h -> 0 <= account c d h < 2 ^ 64 /\ account c d h * 1000000 / bps c d < 2 ^ 64.
Proof. intros F. apply (fit_account _ _ _ F h []). reflexivity. Qed.

Lemma lin_rel c d s h e n : lin_inv c d s h -> lin_inv c d s (Rel e n :: h).
Proof. intros H. exact H. Qed.

Lemma lin_sub c d s h e len busy v s' : linear c d -> lin_inv c d s h -> submit c s e len busy v = Some s' ->
  fits c d (Iss e len (negb busy) v :: h) -> lin_inv c d s' (Iss e len (negb busy) v :: h).
Proof.
  intros (Lp & Lb & _ & Lr) [I1 I2] H F. unfold lin_inv, lin_due.
  destruct (deq e d) eqn:Ed.
  - apply deq_true in Ed. subst e. cbn [upto]. rewrite deq_refl.
    set (h' := Iss d len (negb busy) v :: h) in *.
    destruct (fits_here _ _ _ F) as [R1 R2].
    assert (A : account c d h' = account c d h + (if busy then 0 else len)).
    { unfold account, h'. destruct busy; simpl; rewrite ?deq_refl; lia. }
    unfold submit, usec_for_io in H. cbn [cnt next lastu lthink lblocks] in H. rewrite Lp in H.
    destruct (Z.eqb_spec (bps c d) 0); [lia|].
    replace ((rate c d =? 0) && bssplit c d) with false in H.
    2:{ destruct Lr as [Lr|Lr]; [apply Z.eqb_neq in Lr; now rewrite Lr|rewrite Lr; now rewrite andb_false_r]. }
    rewrite setd_same in H. injection H as <-. cbn [cnt next].
    assert (K : (if busy then u64 (u64 (cnt s d + len) - len) else u64 (cnt s d + len)) = account c d h').
    { rewrite A, I1. destruct busy.
      - rewrite u64_sub_l. replace (account c d h + len - len) with (account c d h + 0) by lia. rewrite <- A at 1. 
        rewrite A. apply u64_id. lia.
      - apply u64_id. lia. }
    rewrite K. rewrite !setd_same. split; [reflexivity|].
    apply usec_exact; try lia. apply (fit_rate _ _ _ F).
  - assert (N : e <> d) by (intros ->; rewrite deq_refl in Ed; discriminate).
    destruct (submit_other _ _ _ _ _ _ _ d H N) as (E1 & E2 & _). rewrite E1, E2. cbn [upto]. rewrite Ed.
    split; [|exact I2]. rewrite I1. unfold account. simpl. rewrite Ed. destruct busy; reflexivity.
Qed.

Lemma credit_exact c d t : 0 < bps c d -> 0 <= min_bs c d -> min_bs c d * 1000000 < 2 ^ 64 -> 0 < t -> bps c d * t < 2 ^ 64 ->
  credit c d t = u64 (allowance (bps c d) (min_bs c d) t).
Proof.
  intros Hb Hm Hf Ht Hp. unfold credit, allowance.
  destruct (Z.eqb_spec t 0); [lia|]. rewrite (u64_id (bps c d * t)), (u64_id (min_bs c d * 1000000)) by (split; [apply Z.mul_nonneg_nonneg; lia|assumption]).
  assert (0 <= min_bs c d * 1000000 / bps c d) by (apply Z.div_pos; lia).
  destruct (Z.leb_spec (min_bs c d * 1000000 / bps c d) t); [reflexivity|].
  rewrite (Z.div_small (min_bs c d * 1000000 / bps c d - t) (min_bs c d * 1000000 / bps c d)) by lia.
  replace (0 * - min_bs c d) with 0 by lia. reflexivity.
Qed.

Lemma lin_pause c d s h e k total w s' w' t b : linear c d -> lin_inv c d s h ->
  handle_thinktime c s e k w = Some (s', Some total, w') -> good t b w -> fits c d (Paused e total :: h) ->
  lin_inv c d s' (Paused e total :: h).
Proof.
  intros (Lp & Lb & Lm & Lr) [I1 I2] H G F. unfold lin_inv, lin_due in *. cbn [upto].
  destruct (think_good _ _ _ _ _ _ _ _ _ _ H G) as [_ (P & N & C)]. rewrite N. split; [|exact I2].
  destruct (fits_here _ _ _ F) as [R1 _].
  assert (A : account c d (Paused e total :: h) =
    account c d h + (if ign c then if deq e d then allowance (bps c d) (min_bs c d) total else 0 else 0)).
  { unfold account. cbn [bytes allowed]. destruct (ign c); lia. }
  destruct (negb (total =? 0) && negb (bps c e =? 0) && ign c) eqn:Q.
  - destruct C as [-> _]. apply andb_true_iff in Q. destruct Q as [Q Qi]. apply andb_true_iff in Q. destruct Q as [Q _].
    apply negb_true_iff, Z.eqb_neq in Q. rewrite Qi in A.
    destruct (deq e d) eqn:Ed.
    + apply deq_true in Ed. subst e. rewrite setd_same. 
      destruct (fit_pause _ _ _ F total) as [P1 P2]; [now left|].
      rewrite credit_exact by (try lia; apply (fit_bs _ _ _ F)).
      rewrite u64_add_r, I1, <- A. now apply u64_id.
    + rewrite setd_other by (intros ->; rewrite deq_refl in Ed; discriminate). rewrite A, I1. lia.
  - destruct C as [-> _]. rewrite I1, A. destruct (ign c) eqn:Qi; [|lia].
    destruct (deq e d) eqn:Ed; [|lia]. apply deq_true in Ed. subst e.
    rewrite andb_true_r in Q. apply andb_false_iff in Q. destruct Q as [Q|Q].
    + apply negb_false_iff in Q. unfold allowance. rewrite Q. lia.
    + apply negb_false_iff, Z.eqb_eq in Q. lia.
Qed.

Lemma lin_run c d os w s h w' : linear c d -> run c init_st [] os w = Some (s, h, w') -> fair w -> fits c d h ->
  lin_inv c d s h /\ releases c d (lin_due c d) h.
Proof.
  intros L H G F.
  destruct (run_rel c d (lin_inv c d) (lin_due c d) (fits c d)) with (os := os) (s := init_st) (h := @nil ev) (w := w)
    (s' := s) (h' := h) (w' := w') (t := 0) (b := false) as (A & B & _); auto.
  - intros p h0. apply fits_suffix.
  - intros s0 h0 [_ E]. exact E.
  - intros s0 h0 e len busy v s1. now apply lin_sub.
  - intros s0 h0 e k total w0 s1 w1 t b. now apply lin_pause.
  - now apply fair_good.
  - split; [|]. { unfold account. simpl. destruct (ign c); reflexivity. }
    unfold lin_due, account. simpl. destruct (ign c); reflexivity.
  - apply releases_nil.
Qed.

Lemma due_within b k n : 0 < b -> (k * 1000000 / b <= n / 1000 <-> within b k n).
Proof.
  intros Hb. unfold within. split; intros H.
  - pose proof (Z.div_mod (k * 1000000) b). pose proof (Z.mod_pos_bound (k * 1000000) b). nia.
  - apply Z.lt_succ_r. apply Z.div_lt_upper_bound; lia.
Qed.

(** ** Counting *)

Lemma bytes_upto d h : bytes d (upto d h) = bytes d h.
Proof. induction h as [|[e n|e len ok v|e t] h IH]; simpl; auto. destruct (deq e d) eqn:E; simpl; rewrite ?E; destruct ok; auto. Qed.

Lemma count_upto d h : count d (upto d h) = count d h.
Proof. induction h as [|[e n|e len ok v|e t] h IH]; simpl; auto. destruct (deq e d) eqn:E; simpl; rewrite ?E; destruct ok; auto. Qed.

Lemma count_bytes d m h : (forall e len ok v, In (Iss e len ok v) h -> m <= len) -> count d h * m <= bytes d h.
Proof.
  induction h as [|[e n|e len ok v|e t] h IH]; intros H; simpl; try (apply IH; intros; eapply H; right; eassumption); [lia|].
  assert (IH' := IH ltac:(intros; eapply H; right; eassumption)).
  pose proof (H e len ok v (or_introl eq_refl)). destruct ok; [|lia]. destruct (deq e d); lia.
Qed.

Lemma upto_in d a h : In a (upto d h) -> In a h.
Proof.
  induction h as [|[e n|e len ok v|e t] h IH]; simpl; auto. destruct (deq e d); simpl; auto.
Qed.

Lemma allowed_bound b bs d h : 0 < b -> 0 <= bs -> (forall t, In (Paused d t) h -> 0 <= t) ->
  b * paused d h <= (allowed b bs d h + pauses d h * (bs + 1)) * 1000000.
Proof.
  intros Hb Hs. induction h as [|[e n|e len ok v|e t] h IH]; intros H; simpl;
    try (apply IH; intros; apply H; right; assumption); [lia|].
  assert (IH' := IH ltac:(intros; apply H; right; assumption)).
  destruct (deq e d) eqn:E; [|lia]. apply deq_true in E. subst e. specialize (H t (or_introl eq_refl)).
  unfold allowance. destruct (Z.eqb_spec t 0); [nia|].
  pose proof (Z.div_mod (b * t) 1000000). pose proof (Z.mod_pos_bound (b * t) 1000000).
  destruct (_ <=? t); lia.
Qed.

(** ** Limits with a delay for each I/O *)

(** The delay after an I/O with the sample [v]. *)
Definition delay (c : cfg) (d : dir) (v : Z) : Z :=
  if poisson c then v else 1000000 / (bps c d / min_bs c d).

Fixpoint delays (c : cfg) (d : dir) (h : list ev) : Z :=
  match h with
  | [] => 0
  | Iss e _ _ v :: h' => (if deq e d then delay c d v else 0) + delays c d h'
  | _ :: h' => delays c d h'
  end.

Definition each (c : cfg) (d : dir) : Prop :=
  0 < bps c d /\ 0 < bps c d / min_bs c d /\ (poisson c = true \/ (rate c d = 0 /\ bssplit c d = true)).

Definition del_now (c : cfg) (d : dir) (h : list ev) : Z := delays c d h + (if ign c then paused d h else 0).

Definition del_due (c : cfg) (d : dir) (h : list ev) : Z := del_now c d (upto d h).

Definition del_inv (c : cfg) (d : dir) (s : st) (h : list ev) : Prop :=
  lastu s d = del_now c d h /\ next s d = del_due c d h.

Lemma del_sub c d s h e len busy v s' : each c d -> del_inv c d s h -> submit c s e len busy v = Some s' ->
  del_inv c d s' (Iss e len (negb busy) v :: h).
Proof.
  intros (Lb & Li & Lk) [I1 I2] H. unfold del_inv, del_due in *. cbn [upto].
  destruct (deq e d) eqn:Ed.
  - apply deq_true in Ed. subst e. unfold submit, usec_for_io in H. cbn [cnt next lastu lthink lblocks] in H.
    assert (K : exists cn lt lb, s' = St cn (setd (next s) d (lastu s d + delay c d v)) (setd (lastu s) d (lastu s d + delay c d v)) lt lb).
    { unfold delay. destruct (poisson c).
      - destruct (Z.eqb_spec (bps c d / min_bs c d) 0); [lia|]. injection H as <-. eauto.
      - destruct Lk as [Lk|[Lk1 Lk2]]; [discriminate|]. rewrite Lk1, Lk2 in H.
        destruct (Z.eqb_spec (bps c d) 0); [lia|]. cbn [Z.eqb andb] in H.
        destruct (Z.eqb_spec (bps c d / min_bs c d) 0); [lia|]. injection H as <-. eauto. }
    destruct K as (cn & lt & lb & ->). cbn [lastu next]. rewrite !setd_same.
    unfold del_now. cbn [delays paused]. rewrite deq_refl. rewrite I1. unfold del_now. split; lia.
  - assert (N : e <> d) by (intros ->; rewrite deq_refl in Ed; discriminate).
    destruct (submit_other _ _ _ _ _ _ _ d H N) as (_ & E2 & E3). rewrite E2, E3. split; [|exact I2].
    rewrite I1. unfold del_now. cbn [delays paused]. rewrite Ed. lia.
Qed.

Lemma del_pause c d s h e k total w s' w' t b : each c d -> del_inv c d s h ->
  handle_thinktime c s e k w = Some (s', Some total, w') -> good t b w -> del_inv c d s' (Paused e total :: h).
Proof.
  intros (Lb & _) [I1 I2] H G. unfold del_inv, del_due in *. cbn [upto].
  destruct (think_good _ _ _ _ _ _ _ _ _ _ H G) as [_ (P & N & C)]. rewrite N. split; [|exact I2].
  unfold del_now in *. cbn [delays paused].
  destruct (negb (total =? 0) && negb (bps c e =? 0) && ign c) eqn:Q.
  - destruct C as [_ ->]. apply andb_true_iff in Q. destruct Q as [_ Qi]. rewrite Qi in *.
    destruct (deq e d) eqn:Ed.
    + apply deq_true in Ed. subst e. rewrite setd_same. lia.
    + rewrite setd_other by (intros ->; rewrite deq_refl in Ed; discriminate). lia.
  - destruct C as [_ ->]. rewrite I1. destruct (ign c); [|lia].
    destruct (deq e d) eqn:Ed; [|lia]. apply deq_true in Ed. subst e.
    rewrite andb_true_r in Q. apply andb_false_iff in Q. destruct Q as [Q|Q].
    + apply negb_false_iff, Z.eqb_eq in Q. lia.
    + apply negb_false_iff, Z.eqb_eq in Q. lia.
Qed.

Lemma del_run c d os w s h w' : each c d -> run c init_st [] os w = Some (s, h, w') -> fair w ->
  del_inv c d s h /\ releases c d (del_due c d) h.
Proof.
  intros L H G.
  destruct (run_rel c d (del_inv c d) (del_due c d) (fun _ => True)) with (os := os) (s := init_st) (h := @nil ev) (w := w)
    (s' := s) (h' := h) (w' := w') (t := 0) (b := false) as (A & B & _); auto.
  - intros s0 h0 [_ E]. exact E.
  - intros s0 h0 e len busy v s1 I S1 _. now apply (del_sub c d s0).
  - intros s0 h0 e k total w0 s1 w1 t b I S1 G1 _. now apply (del_pause c d s0 h0 e k total w0 s1 w1 t b).
  - now apply fair_good.
  - unfold del_inv, del_due, del_now. simpl. destruct (ign c); split; reflexivity.
  - apply releases_nil.
Qed.

Lemma delays_split c d h : split_limit c d -> delays c d h = tries d h * (1000000 / (bps c d / min_bs c d)).
Proof.
  intros (Lp & _). induction h as [|[e n|e len ok v|e t] h IH]; simpl; auto.
  unfold delay. rewrite Lp. destruct (deq e d); lia.
Qed.

Lemma delays_poisson c d h : poisson c = true -> delays c d h = samples d h.
Proof.
  intros Lp. induction h as [|[e n|e len ok v|e t] h IH]; simpl; auto.
  unfold delay. rewrite Lp. destruct (deq e d); lia.
Qed.

Lemma tries_upto d h : tries d (upto d h) = tries d h.
Proof. induction h as [|[e n|e len ok v|e t] h IH]; simpl; auto. destruct (deq e d) eqn:E; simpl; rewrite ?E; auto. Qed.

Lemma samples_upto d h : samples d (upto d h) = samples d h.
Proof. induction h as [|[e n|e len ok v|e t] h IH]; simpl; auto. destruct (deq e d) eqn:E; simpl; rewrite ?E; auto. Qed.

(** ** The minimum rates *)

Lemma floor_lt x m k : 0 < k -> (x / k < m <-> x < m * k).
Proof.
  intros Hk. split; intros H.
  - pose proof (Z.div_mod x k). pose proof (Z.mod_pos_bound x k). nia.
  - apply Z.div_lt_upper_bound; lia.
Qed.

(** The counter that is looked at. *)
Definition measure (ratemin : Z) (x : Z * Z * Z) : Z := if ratemin =? 0 then blocks_of x else bytes_of x.
Definition least (ratemin iopsmin : Z) : Z := if ratemin =? 0 then iopsmin else ratemin.
Definition sample_of (k : chk) : Z * Z * Z := (ctime k, cbytes k, cblocks k).

Lemma check_min_spec ratemin iopsmin cycle start k n x y :
  (ratemin <> 0 \/ iopsmin <> 0) -> 0 <= cbytes k <= x -> 0 <= cblocks k <= y -> ctime k <= n -> x * 1000 < 2 ^ 64 -> y * 1000 < 2 ^ 64 ->
  let r := check_min ratemin iopsmin cycle start k n x y in
  if (n - start) / 1000000 <? 2000 then r = (false, k)
  else if (cbytes k =? 0) && (cblocks k =? 0) then r = (false, Chk x y n)
  else if ((n - ctime k) / 1000000 <? cycle) || ((n - ctime k) / 1000000 =? 0) then r = (false, k)
  else if (measure ratemin (n, x, y) - measure ratemin (sample_of k)) * 1000 <? least ratemin iopsmin * ((n - ctime k) / 1000000)
       then r = (true, k) else r = (false, Chk x y n).
Proof.
  intros Hm Hx Hy Ht Fx Fy. cbv zeta. unfold check_min.
  replace ((ratemin =? 0) && (iopsmin =? 0)) with false.
  2:{ symmetry. apply andb_false_iff. destruct Hm as [Hm|Hm]; apply Z.eqb_neq in Hm; tauto. }
  destruct ((n - start) / 1000000 <? 2000); [reflexivity|].
  rewrite <- negb_andb. destruct ((cbytes k =? 0) && (cblocks k =? 0)); cbn [negb]; [reflexivity|].
  set (sp := (n - ctime k) / 1000000). assert (0 <= sp) by (apply Z.div_pos; lia).
  destruct ((sp <? cycle) || (sp =? 0)) eqn:Q; [reflexivity|].
  apply orb_false_iff in Q. destruct Q as [_ Q]. apply Z.eqb_neq in Q.
  unfold measure, least, sample_of, bytes_of, blocks_of. cbn [fst snd].
  destruct (ratemin =? 0); cbn [negb].
  - rewrite (u64_id (y - cblocks k)), u64_id by lia.
    pose proof (floor_lt ((y - cblocks k) * 1000) iopsmin sp ltac:(lia)).
    destruct (Z.ltb_spec ((y - cblocks k) * 1000 / sp) iopsmin), (Z.ltb_spec ((y - cblocks k) * 1000) (iopsmin * sp)); try reflexivity; lia.
  - rewrite (u64_id (x - cbytes k)), u64_id by lia.
    pose proof (floor_lt ((x - cbytes k) * 1000) ratemin sp ltac:(lia)).
    destruct (Z.ltb_spec ((x - cbytes k) * 1000 / sp) ratemin), (Z.ltb_spec ((x - cbytes k) * 1000) (ratemin * sp)); try reflexivity; lia.
Qed.

Definition chk_ok (k : chk) (t x y : Z) : Prop := 0 <= cbytes k <= x /\ 0 <= cblocks k <= y /\ ctime k <= t.

Lemma check_sound ratemin iopsmin cycle start : (ratemin <> 0 \/ iopsmin <> 0) ->
  forall l pre k t x y, rising t x y l -> chk_ok k t x y ->
  ((cbytes k = 0 /\ cblocks k = 0) \/ In (sample_of k) pre) ->
  check_all ratemin iopsmin cycle start k l = true ->
  exists a b, In a (pre ++ l) /\ In b l /\ 2000 <= (time_of b - start) / 1000000 /\
    too_slow (measure ratemin) (least ratemin iopsmin) cycle a b.
Proof.
  intros Hm. induction l as [|[[n bx] by_] l IH]; intros pre k t x y R K P H; [discriminate|].
  simpl in R. destruct R as (R1 & R2 & R3 & R4 & R5 & R6). destruct K as (K1 & K2 & K3).
  cbn [check_all] in H.
  pose proof (check_min_spec ratemin iopsmin cycle start k n bx by_ Hm ltac:(lia) ltac:(lia) ltac:(lia) R4 R5) as S.
  cbv zeta in S.
  assert (Same : check_all ratemin iopsmin cycle start k l = true -> exists a b, In a (pre ++ (n, bx, by_) :: l) /\ In b ((n, bx, by_) :: l) /\
    2000 <= (time_of b - start) / 1000000 /\ too_slow (measure ratemin) (least ratemin iopsmin) cycle a b).
  { intros H'. destruct (IH (pre ++ [(n, bx, by_)]) k n bx by_ R6) as (a & b & A & B & C); auto.
    - split; [|split]; lia.
    - destruct P; [now left|]. right. apply in_or_app. now left.
    - exists a, b. rewrite <- app_assoc in A. split; [exact A|]. split; [now right|exact C]. }
  assert (New : check_all ratemin iopsmin cycle start (Chk bx by_ n) l = true -> exists a b, In a (pre ++ (n, bx, by_) :: l) /\ In b ((n, bx, by_) :: l) /\
    2000 <= (time_of b - start) / 1000000 /\ too_slow (measure ratemin) (least ratemin iopsmin) cycle a b).
  { intros H'. destruct (IH (pre ++ [(n, bx, by_)]) (Chk bx by_ n) n bx by_ R6) as (a & b & A & B & C); auto.
    - split; [|split]; simpl; lia.
    - right. apply in_or_app. right. now left.
    - exists a, b. rewrite <- app_assoc in A. split; [exact A|]. split; [now right|exact C]. }
  destruct (Z.ltb_spec ((n - start) / 1000000) 2000) as [|Q0].
  { rewrite S in H. now apply Same. }
  destruct ((cbytes k =? 0) && (cblocks k =? 0)) eqn:Q1.
  { rewrite S in H. now apply New. }
  destruct (((n - ctime k) / 1000000 <? cycle) || ((n - ctime k) / 1000000 =? 0)) eqn:Q2.
  { rewrite S in H. now apply Same. }
  match type of S with if ?c then _ else _ => destruct c eqn:Q3 end; rewrite S in H; [|now apply New].
  exists (sample_of k), (n, bx, by_).
  split; [|split; [now left|split; [exact Q0|]]].
  - apply in_or_app. left. destruct P as [[P1 P2]|P]; [|exact P]. rewrite P1, P2 in Q1. discriminate.
  - apply orb_false_iff in Q2. destruct Q2 as [Q2 Q4]. apply Z.ltb_ge in Q2. apply Z.eqb_neq in Q4. apply Z.ltb_lt in Q3.
    unfold too_slow. unfold sample_of at 1 2 3. cbn [fst snd].
    assert (0 <= (n - ctime k) / 1000000) by (apply Z.div_pos; lia).
    split; [exact Q2|]. split; [lia|exact Q3].
Qed.

(** A stall. *)

(** After a failure-free prefix, the last check is one of its samples or still the initial one. *)
Lemma check_prefix ratemin iopsmin cycle start : (ratemin <> 0 \/ iopsmin <> 0) ->
  forall l1 l2 k t x y, rising t x y (l1 ++ l2) -> chk_ok k t x y ->
  check_all ratemin iopsmin cycle start k (l1 ++ l2) = true \/
  exists k' t' x' y', check_all ratemin iopsmin cycle start k (l1 ++ l2) = check_all ratemin iopsmin cycle start k' l2 /\
    rising t' x' y' l2 /\ chk_ok k' t' x' y' /\ t <= t' /\ x <= x' /\ y <= y' /\ (k' = k \/ In (sample_of k') l1) /\
    (forall a, In a l1 -> time_of a <= t' /\ bytes_of a <= x' /\ blocks_of a <= y').
Proof.
  intros Hm. induction l1 as [|[[n bx] by_] l1 IH]; intros l2 k t x y R K.
  - right. exists k, t, x, y. split; [reflexivity|]. split; [exact R|]. split; [exact K|]. split; [lia|]. split; [lia|]. split; [lia|].
    split; [now left|]. intros a [].
  - cbn [app] in *. cbn [check_all]. destruct (check_min ratemin iopsmin cycle start k n bx by_) as [f k1] eqn:E.
    destruct f; [now left|]. simpl in R. destruct R as (R1 & R2 & R3 & R4 & R5 & R6).
    assert (K1 : k1 = k \/ k1 = Chk bx by_ n).
    { destruct K as (Ka & Kb & Kc).
      pose proof (check_min_spec ratemin iopsmin cycle start k n bx by_ Hm ltac:(lia) ltac:(lia) ltac:(lia) R4 R5) as S.
      cbv zeta in S. rewrite E in S.
      repeat match type of S with if ?c then _ else _ => destruct c end; injection S; auto. }
    assert (K2 : chk_ok k1 n bx by_).
    { destruct K as (Ka & Kb & Kc). destruct K1 as [->| ->]; repeat split; simpl; lia. }
    destruct (IH l2 k1 n bx by_ R6 K2) as [H|(k' & t' & x' & y' & A & B & C & D1 & D2 & D3 & D4 & D5)]; [now left|].
    right. exists k', t', x', y'. split; [exact A|]. split; [exact B|]. split; [exact C|].
    split; [lia|]. split; [lia|]. split; [lia|]. split.
    + destruct D4 as [->|D4]; [|right; now right]. destruct K1 as [->| ->]; [now left|]. right. now left.
    + intros a [<-|I]; [unfold time_of, bytes_of, blocks_of; simpl; lia|now apply D5].
Qed.

Lemma measure_bounds ratemin t x y a l : rising t x y l -> In a l ->
  measure ratemin (t, x, y) <= measure ratemin a /\ t <= time_of a /\ x <= bytes_of a /\ y <= blocks_of a.
Proof.
  revert t x y. induction l as [|[[n bx] by_] l IH]; intros t x y R I; [destruct I|]; destruct I as [<-|I]; simpl in R.
  - unfold measure, time_of, bytes_of, blocks_of. simpl. destruct (ratemin =? 0); lia.
  - destruct R as (R1 & R2 & R3 & _ & _ & R6). destruct (IH _ _ _ R6 I) as (A & B & C & D).
    split; [|lia]. unfold measure, bytes_of, blocks_of in *. simpl in *. destruct (ratemin =? 0); lia.
Qed.

Definition nonzero (k : chk) : Prop := cbytes k <> 0 \/ cblocks k <> 0.

Lemma nonzero_test k : nonzero k -> (cbytes k =? 0) && (cblocks k =? 0) = false.
Proof. intros [H|H]; apply Z.eqb_neq in H; rewrite H; auto using andb_false_r. Qed.

(** From a check with the counter at [B], through samples at [B], to one a cycle later. *)
Lemma check_frozen ratemin iopsmin cycle start B : (ratemin <> 0 \/ iopsmin <> 0) -> 1 <= cycle -> 0 < least ratemin iopsmin ->
  forall l1 c l2 k t x y, rising t x y (l1 ++ c :: l2) -> chk_ok k t x y -> nonzero k -> measure ratemin (sample_of k) = B ->
  measure ratemin c = B -> 2000 <= (ctime k - start) / 1000000 -> ctime k + cycle * 1000000 <= time_of c ->
  check_all ratemin iopsmin cycle start k (l1 ++ c :: l2) = true.
Proof.
  intros Hm Hc Hl. induction l1 as [|[[n bx] by_] l1 IH]; intros c l2 k t x y R K N MB CB ST SP.
  - destruct c as [[n bx] by_]. simpl in R. destruct R as (R1 & R2 & R3 & R4 & R5 & R6). destruct K as (Ka & Kb & Kc).
    cbn [app check_all].
    pose proof (check_min_spec ratemin iopsmin cycle start k n bx by_ Hm ltac:(lia) ltac:(lia) ltac:(lia) R4 R5) as S.
    cbv zeta in S. rewrite (nonzero_test _ N) in S.
    assert (E0 : 2000 <= (n - start) / 1000000) by (etransitivity; [exact ST|apply Z.div_le_mono; lia]).
    assert (E1 : cycle <= (n - ctime k) / 1000000) by (apply Z.div_le_lower_bound; unfold time_of in SP; simpl in SP; lia).
    destruct (Z.ltb_spec ((n - start) / 1000000) 2000); [lia|].
    destruct (Z.ltb_spec ((n - ctime k) / 1000000) cycle); [lia|].
    destruct (Z.eqb_spec ((n - ctime k) / 1000000) 0); [lia|]. cbn [orb] in S.
    rewrite MB, CB, Z.sub_diag in S. destruct (Z.ltb_spec (0 * 1000) (least ratemin iopsmin * ((n - ctime k) / 1000000))) as [|Q]; [|nia].
    rewrite S. reflexivity.
  - assert (R0 := R). cbn [app] in *. simpl in R. destruct R as (R1 & R2 & R3 & R4 & R5 & R6). assert (K0 := K). destruct K as (Ka & Kb & Kc).
    assert (SB : measure ratemin (n, bx, by_) = B).
    { destruct (measure_bounds ratemin n bx by_ c _ R6) as [L1 _]; [apply in_or_app; right; now left|].
      assert (measure ratemin (sample_of k) <= measure ratemin (n, bx, by_)).
      { unfold measure, sample_of, bytes_of, blocks_of. simpl. destruct (ratemin =? 0); lia. }
      lia. }
    cbn [check_all].
    pose proof (check_min_spec ratemin iopsmin cycle start k n bx by_ Hm ltac:(lia) ltac:(lia) ltac:(lia) R4 R5) as S.
    cbv zeta in S. rewrite (nonzero_test _ N) in S.
    assert (E0 : 2000 <= (n - start) / 1000000) by (etransitivity; [exact ST|apply Z.div_le_mono; lia]).
    destruct (Z.ltb_spec ((n - start) / 1000000) 2000); [lia|].
    destruct (((n - ctime k) / 1000000 <? cycle) || ((n - ctime k) / 1000000 =? 0)) eqn:Q.
    + rewrite S. apply (IH c l2 k n bx by_); auto. split; [|split]; lia.
    + apply orb_false_iff in Q. destruct Q as [Q Q']. apply Z.ltb_ge in Q.
      rewrite MB, SB, Z.sub_diag in S. destruct (Z.ltb_spec (0 * 1000) (least ratemin iopsmin * ((n - ctime k) / 1000000))) as [|Q2]; [|nia].
      rewrite S. reflexivity.
Qed.

Lemma check_stall ratemin iopsmin cycle start l1 a l2 b l3 c l4 k t x y :
  (ratemin <> 0 \/ iopsmin <> 0) -> 1 <= cycle -> 0 < least ratemin iopsmin ->
  rising t x y (l1 ++ a :: l2 ++ b :: l3 ++ c :: l4) -> chk_ok k t x y ->
  (nonzero k -> 2000 <= (ctime k - start) / 1000000) ->
  0 < bytes_of a -> measure ratemin a = measure ratemin c -> 2000 <= (time_of a - start) / 1000000 ->
  time_of a + cycle * 1000000 <= time_of b -> time_of b + cycle * 1000000 <= time_of c ->
  check_all ratemin iopsmin cycle start k (l1 ++ a :: l2 ++ b :: l3 ++ c :: l4) = true.
Proof.
  intros Hm Hc Hl. revert k t x y. induction l1 as [|[[n bx] by_] l1 IH]; intros k t x y R K ST A0 AC AS AB BC.
  2:{ cbn [app] in *. cbn [check_all]. simpl in R. destruct R as (R1 & R2 & R3 & R4 & R5 & R6). destruct K as (Ka & Kb & Kc).
      pose proof (check_min_spec ratemin iopsmin cycle start k n bx by_ Hm ltac:(lia) ltac:(lia) ltac:(lia) R4 R5) as S.
      cbv zeta in S.
      assert (I1 : check_all ratemin iopsmin cycle start k (l1 ++ a :: l2 ++ b :: l3 ++ c :: l4) = true).
      { apply (IH k n bx by_); auto. split; [|split]; lia. }
      destruct (Z.ltb_spec ((n - start) / 1000000) 2000); [now rewrite S|].
      assert (I2 : check_all ratemin iopsmin cycle start (Chk bx by_ n) (l1 ++ a :: l2 ++ b :: l3 ++ c :: l4) = true).
      { apply (IH (Chk bx by_ n) n bx by_); auto. split; [|split]; simpl; lia. }
      destruct ((cbytes k =? 0) && (cblocks k =? 0)); [now rewrite S|].
      destruct (((n - ctime k) / 1000000 <? cycle) || ((n - ctime k) / 1000000 =? 0)); [now rewrite S|].
      match type of S with if ?c then _ else _ => destruct c end; now rewrite S. }
  (* the sample a *)
  destruct a as [[n bx] by_]. unfold bytes_of, time_of in A0, AS, AB. cbn [fst snd] in A0, AS, AB.
  cbn [app check_all]. simpl in R. destruct R as (R1 & R2 & R3 & R4 & R5 & R6). destruct K as (Ka & Kb & Kc).
  assert (Mono : forall z, In z (l2 ++ b :: l3) -> measure ratemin z = measure ratemin (n, bx, by_) /\ n <= time_of z /\ bx <= bytes_of z).
  { intros z I. replace (l2 ++ b :: l3 ++ c :: l4) with ((l2 ++ b :: l3) ++ c :: l4) in R6 by (rewrite <- app_assoc; reflexivity).
    assert (I' : In z ((l2 ++ b :: l3) ++ c :: l4)) by (apply in_or_app; now left).
    destruct (measure_bounds ratemin _ _ _ _ _ R6 I') as (M1 & M2 & M3 & _).
    split; [|split; assumption].
    apply in_split in I. destruct I as (p & q & Eq). rewrite Eq in R6. rewrite <- app_assoc in R6. cbn [app] in R6.
    clear - R6 AC M1 M2 M3. revert R6. generalize n at 1. generalize bx at 1. generalize by_ at 1. induction p as [|[[u v] o] p IHp]; intros y x t R6.
    - destruct z as [[u v] o]. simpl in R6. destruct R6 as (_ & _ & _ & _ & _ & R7).
      destruct (measure_bounds ratemin _ _ _ c _ R7) as (M4 & _); [apply in_or_app; right; now left|]. lia.
    - simpl in R6. destruct R6 as (_ & _ & _ & _ & _ & R7). exact (IHp _ _ _ R7). }
  pose proof (check_min_spec ratemin iopsmin cycle start k n bx by_ Hm ltac:(lia) ltac:(lia) ltac:(lia) R4 R5) as S.
  cbv zeta in S.
  assert (Step2 : forall k2, chk_ok k2 n bx by_ -> nonzero k2 -> 2000 <= (ctime k2 - start) / 1000000 ->
     check_all ratemin iopsmin cycle start k2 (l2 ++ b :: l3 ++ c :: l4) = true).
  { intros k2 K2 N2 S2.
    destruct (check_prefix ratemin iopsmin cycle start Hm l2 (b :: l3 ++ c :: l4) k2 n bx by_ R6 K2)
      as [H|(k3 & t' & x' & y' & E & R7 & K3 & D1 & D2 & D3 & D4 & D5)]; [exact H|]. rewrite E.
    assert (N3 : nonzero k3 /\ 2000 <= (ctime k3 - start) / 1000000 /\ (n < ctime k3 -> measure ratemin (sample_of k3) = measure ratemin (n, bx, by_))).
    { destruct D4 as [->|D4].
      - split; [exact N2|]. split; [exact S2|]. intros L. destruct K2 as (_ & _ & K2). lia.
      - destruct (Mono (sample_of k3)) as (M1 & M2 & M3); [apply in_or_app; now left|].
        unfold time_of, bytes_of in M2, M3. cbn [sample_of fst snd] in M2, M3.
        split; [left; lia|]. split; [|intros _; exact M1]. etransitivity; [exact AS|]. apply Z.div_le_mono; lia. }
    destruct N3 as (N3 & S3 & T3). destruct b as [[m cx] cy].
    destruct (Mono (m, cx, cy)) as (B1 & B2 & B3); [apply in_or_app; right; now left|].
    unfold time_of, bytes_of in B2, B3, AB, BC. cbn [fst snd] in B2, B3, AB, BC.
    simpl in R7. destruct R7 as (Q1 & Q2 & Q3 & Q4 & Q5 & Q6). destruct K3 as (K3a & K3b & K3c).
    cbn [check_all].
    pose proof (check_min_spec ratemin iopsmin cycle start k3 m cx cy Hm ltac:(lia) ltac:(lia) ltac:(lia) Q4 Q5) as S'.
    cbv zeta in S'. rewrite (nonzero_test _ N3) in S'.
    assert (E0 : 2000 <= (m - start) / 1000000) by (etransitivity; [exact S3|apply Z.div_le_mono; lia]).
    destruct (Z.ltb_spec ((m - start) / 1000000) 2000); [lia|].
    assert (FB : check_all ratemin iopsmin cycle start (Chk cx cy m) (l3 ++ c :: l4) = true).
    { apply (check_frozen ratemin iopsmin cycle start (measure ratemin (n, bx, by_)) Hm Hc Hl) with (t := m) (x := cx) (y := cy); auto.
      - split; [|split]; simpl; lia.
      - left. simpl. lia. }
    destruct (((m - ctime k3) / 1000000 <? cycle) || ((m - ctime k3) / 1000000 =? 0)) eqn:Q.
    - rewrite S'. 
      assert (L : n < ctime k3).
      { destruct (Z.lt_ge_cases n (ctime k3)); auto.
        assert (cycle <= (m - ctime k3) / 1000000) by (apply Z.div_le_lower_bound; lia).
        apply orb_true_iff in Q. destruct Q as [Q|Q]; [apply Z.ltb_lt in Q|apply Z.eqb_eq in Q]; lia. }
      apply (check_frozen ratemin iopsmin cycle start (measure ratemin (n, bx, by_)) Hm Hc Hl) with (t := m) (x := cx) (y := cy); auto.
      + split; [|split]; lia.
      + unfold time_of. lia.
    - match type of S' with if ?c then _ else _ => destruct c end; now rewrite S'. }
  assert (SA : check_all ratemin iopsmin cycle start (Chk bx by_ n) (l2 ++ b :: l3 ++ c :: l4) = true).
  { apply Step2; auto. - split; [|split]; simpl; lia. - left. simpl. lia. }
  destruct (Z.ltb_spec ((n - start) / 1000000) 2000); [lia|].
  destruct ((cbytes k =? 0) && (cblocks k =? 0)) eqn:Z0; [now rewrite S|].
  assert (NK : nonzero k).
  { apply andb_false_iff in Z0. destruct Z0 as [Z0|Z0]; apply Z.eqb_neq in Z0; [now left|now right]. }
  destruct (((n - ctime k) / 1000000 <? cycle) || ((n - ctime k) / 1000000 =? 0)) eqn:Q.
  - rewrite S.
    apply Step2; auto. split; [|split]; lia.
  - match type of S with if ?c then _ else _ => destruct c end; now rewrite S.
Qed.
