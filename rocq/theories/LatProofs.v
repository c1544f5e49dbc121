(** Proofs about the search for a queue depth. *)
From Coq Require Import ZArith List Lia Bool.
From Verif Require Import CBase FloatZ LatModel LatSpec.
Import ListNotations.
Open Scope Z_scope.

Definition ok (c : cfg) : Prop := 1 <= iodepth c < 2 ^ 31 - 4.

Lemma u32_in x : 0 <= x < 2 ^ 32 -> u32 x = x.
Proof. intros H. apply Z.mod_small. exact H. Qed.

Ltac half := Z.to_euclidean_division_equations; lia.

(** The next values, without overflow. *)
Definition near (s : st) : bool := qd s + 1 =? high s.
Definition nh (s : st) : Z := if near s && (3 <=? stable s + 1) then high s + 1 else high s.
Definition nn (s : st) : Z := if near s && (3 <=? stable s + 1) then 0 else if near s then stable s + 1 else stable s.
Definition nq (c : cfg) (s : st) : Z :=
  let q := if nh s =? iodepth c then qd s * 2 else (qd s + nh s) / 2 in if iodepth c <? q then iodepth c else q.

Lemma success_fields c s : ok c -> sane c s ->
  let s' := success c s in
  let same := negb (latency_run c) && (nq c s =? qd s) in
  qd s' = nq c s /\ high s' = nh s /\ low s' = qd s /\ stable s' = nn s /\
  end_run s' = end_run s || same /\ done s' = done s || (same && end_run s) /\ ios s' = blocks s' /\ failed s' = 0.
Proof.
  intros HO (H1 & H2 & H3 & H4). unfold ok in HO. unfold success, nq, nh, nn, near.
  rewrite (u32_in (qd s + 1)) by lia. rewrite (u32_in (high s + 1)) by lia. rewrite (u32_in (qd s * 2)) by lia.
  set (h := if (qd s + 1 =? high s) && (3 <=? stable s + 1) then high s + 1 else high s).
  assert (Hh : 0 <= h <= iodepth c + 3) by (unfold h; destruct (_ && _); lia).
  rewrite (u32_in (qd s + h)) by lia.
  replace (if negb (h =? iodepth c) then (qd s + h) / 2 else qd s * 2) with (if h =? iodepth c then qd s * 2 else (qd s + h) / 2)
    by (destruct (h =? iodepth c); reflexivity).
  set (q0 := if h =? iodepth c then qd s * 2 else (qd s + h) / 2).
  set (q := if iodepth c <? q0 then iodepth c else q0).
  set (n := if (qd s + 1 =? high s) && (3 <=? stable s + 1) then 0 else if qd s + 1 =? high s then stable s + 1 else stable s).
  cbv zeta. destruct (negb (latency_run c) && (q =? qd s)) eqn:ES.
  - destruct (end_run s) eqn:EE; unfold new_cycle, reset_stats, reset; cbn; rewrite ?EE, ?orb_true_r, ?orb_false_r; repeat (split; [reflexivity|]); reflexivity.
  - unfold new_cycle; cbn. rewrite !orb_false_r. repeat (split; [reflexivity|]). reflexivity.
Qed.

Lemma fail_fields c s : ok c -> sane c s -> qd s <> 1 ->
  let s' := snd (fail s) in
  let l := if qd s =? low s then low s - 1 else low s in
  fst (fail s) = false /\
  qd s' = (qd s + l) / 2 /\ high s' = qd s /\ low s' = l /\ stable s' = 0 /\ end_run s' = end_run s /\ done s' = done s /\
  ios s' = blocks s' /\ failed s' = 0.
Proof.
  intros HO (H1 & H2 & H3 & H4) H5. unfold ok in HO. unfold fail. destruct (Z.eqb_spec (qd s) 1); [lia|].
  rewrite (u32_in (low s - 1)) by lia. cbv zeta. rewrite (u32_in (qd s + _)).
  2:{ destruct (qd s =? low s); lia. }
  cbn. repeat (split; [reflexivity|]). reflexivity.
Qed.

Lemma nq_bounds c s : ok c -> sane c s -> qd s <= nq c s <= iodepth c /\ nq c s <= nh s.
Proof.
  intros HO (H1 & H2 & H3 & H4). unfold ok in HO. unfold nq, nh, near.
  destruct (Z.eqb_spec (qd s + 1) (high s)); destruct (Z.leb_spec 3 (stable s + 1)); cbn [andb];
  match goal with |- context [?a =? iodepth c] => destruct (Z.eqb_spec a (iodepth c)) end;
  match goal with |- context [iodepth c <? ?a] => destruct (Z.ltb_spec (iodepth c) a) end; half.
Qed.

Lemma success_sane c s : ok c -> sane c s -> sane c (success c s).
Proof.
  intros HO HS. pose proof (success_fields c s HO HS) as (E1 & E2 & E3 & E4 & _). pose proof (nq_bounds c s HO HS) as (B1 & B2).
  destruct HS as (H1 & H2 & H3 & H4). unfold sane. rewrite E1, E2, E3, E4.
  assert (B3 : nh s <= iodepth c + 2).
  { unfold nh, near. destruct (Z.eqb_spec (qd s + 1) (high s)); destruct (Z.leb_spec 3 (stable s + 1)); cbn [andb]; lia. }
  assert (B4 : 0 <= nn s <= 2).
  { unfold nn, near. destruct (Z.eqb_spec (qd s + 1) (high s)); destruct (Z.leb_spec 3 (stable s + 1)); cbn [andb]; lia. }
  lia.
Qed.

Lemma fail_sane c s : ok c -> sane c s -> sane c (snd (fail s)).
Proof.
  intros HO HS. destruct (Z.eq_dec (qd s) 1) as [E|N].
  { unfold fail. rewrite E. exact HS. }
  pose proof (fail_fields c s HO HS N) as (_ & E1 & E2 & E3 & E4 & _). destruct HS as (H1 & H2 & H3 & H4).
  unfold sane. rewrite E1, E2, E3, E4. destruct (Z.eqb_spec (qd s) (low s)); half.
Qed.

Lemma step_sane c s e : ok c -> sane c s -> sane c (snd (step c s e)).
Proof.
  intros HO HS. destruct e as [l|x]; cbn [step snd].
  - set (s1 := St _ _ _ _ _ _ (blocks s + 1) _ _). assert (S1 : sane c s1) by exact HS.
    destruct l; [|exact S1]. unfold late. destruct (strict c); [now apply fail_sane|]. exact S1.
  - unfold check. destruct (negb x); [exact HS|]. destruct (enough _ _ _); [now apply success_sane|now apply fail_sane].
Qed.

Lemma run_sane c es : ok c -> forall s, sane c s -> sane c (run c s es).
Proof.
  intros HO. induction es as [|e es IH]; intros s HS; [exact HS|]. cbn. apply IH. now apply step_sane.
Qed.

Lemma start_sane c : ok c -> sane c (start c).
Proof. unfold ok, sane. cbn. lia. Qed.

(** ** Convergence *)

Definition fresh (s : st) : Prop := end_run s = false /\ done s = false.

Definition ends (c : cfg) (T : Z) (n : nat) (s : st) (q : Z) : Prop :=
  exists m, (m <= n)%nat /\ done (windows c T m s) = true /\ qd (windows c T m s) = q.

Lemma windows_S c T n s : windows c T (S n) s = windows c T n (window c T s).
Proof. unfold windows. induction n as [|n IH]; [reflexivity|]. cbn [Nat.iter nat_rect] in *. now rewrite IH. Qed.

Lemma ends_step c T n s q : ends c T n (window c T s) q -> ends c T (S n) s q.
Proof. intros (m & H & D & Q). exists (S m). rewrite windows_S. split; [lia|]. now split. Qed.

Lemma ends_mono c T n m s q : (n <= m)%nat -> ends c T n s q -> ends c T m s q.
Proof. intros H (k & K & D). exists k. split; [lia|exact D]. Qed.

Lemma near_off s : qd s + 1 <> high s -> nh s = high s /\ nn s = stable s.
Proof. intros H. unfold nh, nn, near. apply Z.eqb_neq in H. rewrite H. cbn. auto. Qed.

Lemma near_on s : qd s + 1 = high s -> stable s < 2 -> nh s = high s /\ nn s = stable s + 1.
Proof.
  intros H H2. unfold nh, nn, near. apply Z.eqb_eq in H. rewrite H. destruct (Z.leb_spec 3 (stable s + 1)); [lia|]. cbn. auto.
Qed.

(** The last two windows, at the depth found. *)
Lemma last_two c T s : ok c -> sane c s -> latency_run c = false -> fresh s -> qd s = T -> high s = T + 1 -> stable s = 0 ->
  T + 1 <> iodepth c -> ends c T 2 s T.
Proof.
  intros HO HS HR (F1 & F2) Q Hh St0 ND.
  assert (Hw : window c T s = success c s) by (unfold window; destruct (Z.leb_spec (qd s) T); [reflexivity|lia]).
  pose proof (success_fields c s HO HS) as (E1 & E2 & E3 & E4 & E5 & E6 & _).
  destruct (near_on s) as (N1 & N2); [lia|lia|]. rewrite HR in *. cbn [negb andb] in *.
  assert (Nq : forall t, qd t = T -> nh t = T + 1 -> nq c t = T).
  { intros t Ht Hht. unfold nq. rewrite Ht, Hht. apply Z.eqb_neq in ND. rewrite ND.
    replace ((T + (T + 1)) / 2) with T by half. destruct HS as (_ & HS & _). destruct (Z.ltb_spec (iodepth c) T); lia. }
  rewrite (Nq s) in * by lia. rewrite Q, Z.eqb_refl, F1 in *. cbn [orb] in *.
  pose proof (success_sane c s HO HS) as HS'.
  apply ends_step. rewrite Hw. set (s1 := success c s) in *.
  assert (Hw1 : window c T s1 = success c s1) by (unfold window; destruct (Z.leb_spec (qd s1) T); [reflexivity|lia]).
  pose proof (success_fields c s1 HO HS') as (G1 & G2 & G3 & G4 & G5 & G6 & _).
  destruct (near_on s1) as (M1 & M2); [lia|lia|].
  exists 1%nat. split; [lia|]. cbn [windows Nat.iter]. change (windows c T 1 s1) with (window c T s1).
  rewrite Hw1, G1, G6, HR, E5, (Nq s1), E1, Z.eqb_refl by lia. cbn. now rewrite orb_true_r.
Qed.

(** The state in which the depth is found. *)
Definition found (c : cfg) (T : Z) (s : st) : Prop :=
  sane c s /\ fresh s /\ qd s = T /\ high s = T + 1 /\ low s <= T /\ stable s = 0 /\ T + 1 <> iodepth c.

Definition reach (c : cfg) (T : Z) (n : nat) (s : st) : Prop := exists m, (m <= n)%nat /\ found c T (windows c T m s).

Lemma reach_step c T n s : reach c T n (window c T s) -> reach c T (S n) s.
Proof. intros (m & H & D). exists (S m). rewrite windows_S. split; [lia|exact D]. Qed.

Lemma reach_mono c T n m s : (n <= m)%nat -> reach c T n s -> reach c T m s.
Proof. intros H (k & K & D). exists k. split; [lia|exact D]. Qed.

Lemma reach_here c T n s : sane c s -> fresh s -> qd s = T -> high s = T + 1 -> low s <= T -> stable s = 0 -> T + 1 <> iodepth c ->
  reach c T n s.
Proof. intros. exists 0%nat. split; [lia|]. unfold found. change (windows c T 0 s) with s. tauto. Qed.

Lemma phase_c c T : ok c -> 1 <= T ->
  forall k s, sane c s -> fresh s -> low s <= T < high s -> high s < iodepth c -> qd s = (low s + high s) / 2 ->
  stable s = 0 -> high s - low s <= 2 ^ Z.of_nat k -> reach c T k s.
Proof.
  intros HO HT. induction k as [|k IH]; intros s HS HF HL HH HQ Hst HG.
  { simpl in HG. apply reach_here; auto; half. }
  rewrite Nat2Z.inj_succ, Z.pow_succ_r in HG by lia.
  destruct (Z.eq_dec (qd s + 1) (high s)) as [E|N].
  { destruct (Z_le_gt_dec (qd s) T) as [L|L].
    - apply (reach_mono c T 0); [lia|]. apply reach_here; auto; lia.
    - apply (reach_step c T k). unfold window. destruct (Z.leb_spec (qd s) T); [lia|].
      pose proof HS as (A1 & A2 & A3 & A4).
      pose proof (fail_fields c s HO HS ltac:(lia)) as (_ & E1 & E2 & E3 & E4 & E5 & E6 & _).
      destruct (Z.eqb_spec (qd s) (low s)); [lia|].
      apply IH; [now apply fail_sane| |lia|lia|rewrite E1, E2, E3; f_equal; lia|exact E4|rewrite E2, E3; half].
      destruct HF. split; congruence. }
  apply (reach_step c T k). pose proof HS as (A1 & A2 & A3 & A4). unfold window. destruct (Z.leb_spec (qd s) T) as [L|L].
  - pose proof (success_fields c s HO HS) as (E1 & E2 & E3 & E4 & E5 & E6 & _).
    destruct (near_off s N) as (N1 & N2).
    assert (NQ : nq c s = (qd s + high s) / 2).
    { unfold nq. rewrite N1. destruct (Z.eqb_spec (high s) (iodepth c)); [lia|].
      destruct (Z.ltb_spec (iodepth c) ((qd s + high s) / 2)); half. }
    assert (NE : nq c s =? qd s = false) by (apply Z.eqb_neq; rewrite NQ; half).
    rewrite NE, andb_false_r in *. rewrite ?orb_false_r in *. cbn [andb] in *. rewrite ?orb_false_r in *.
    apply IH; [now apply success_sane| |lia|lia|rewrite E1, E2, E3, NQ, N1; reflexivity|lia|rewrite E2, E3, N1; half].
    destruct HF. split; congruence.
  - pose proof (fail_fields c s HO HS ltac:(lia)) as (_ & E1 & E2 & E3 & E4 & E5 & E6 & _).
    destruct (Z.eqb_spec (qd s) (low s)); [lia|].
    apply IH; [now apply fail_sane| |lia|lia|rewrite E1, E2, E3; f_equal; lia|exact E4|rewrite E2, E3; half].
    destruct HF. split; congruence.
Qed.

Lemma phase_b c T : ok c -> 1 <= T <= iodepth c - 2 ->
  forall k s, sane c s -> fresh s -> low s <= T -> high s = iodepth c -> qd s = (low s + high s) / 2 ->
  stable s = 0 -> high s - low s <= 2 ^ Z.of_nat k -> reach c T (2 * k) s.
Proof.
  intros HO HT. induction k as [|k IH]; intros s HS HF HL HH HQ Hst HG.
  { simpl in HG. lia. }
  rewrite Nat2Z.inj_succ, Z.pow_succ_r in HG by lia. pose proof HS as (A1 & A2 & A3 & A4).
  destruct (Z_le_gt_dec (qd s) T) as [L|L].
  - replace (2 * S k)%nat with (S (S (2 * k))) by lia. apply reach_step.
    unfold window at 1. destruct (Z.leb_spec (qd s) T); [|lia].
    pose proof (success_fields c s HO HS) as (E1 & E2 & E3 & E4 & E5 & E6 & _).
    destruct (near_off s) as (N1 & N2); [lia|].
    assert (NQ : nq c s = iodepth c).
    { unfold nq. rewrite N1, HH, Z.eqb_refl. destruct (Z.ltb_spec (iodepth c) (qd s * 2)); [reflexivity|]. half. }
    assert (NE : nq c s =? qd s = false) by (apply Z.eqb_neq; lia).
    rewrite NE, andb_false_r in *. rewrite ?orb_false_r in *. cbn [andb] in *. rewrite ?orb_false_r in *.
    pose proof (success_sane c s HO HS) as HS'. set (s1 := success c s) in *.
    apply reach_step. unfold window. destruct (Z.leb_spec (qd s1) T); [lia|].
    pose proof (fail_fields c s1 HO HS' ltac:(lia)) as (_ & F1 & F2 & F3 & F4 & F5 & F6 & _).
    destruct (Z.eqb_spec (qd s1) (low s1)); [lia|].
    apply IH; [now apply fail_sane| |lia|lia|rewrite F1, F2, F3; f_equal; lia|exact F4|rewrite F2, F3, E1, E3, NQ; half].
    destruct HF. split; congruence.
  - apply (reach_mono c T (S k)); [lia|]. apply reach_step. unfold window. destruct (Z.leb_spec (qd s) T); [lia|].
    pose proof (fail_fields c s HO HS ltac:(lia)) as (_ & E1 & E2 & E3 & E4 & E5 & E6 & _).
    destruct (Z.eqb_spec (qd s) (low s)); [lia|].
    apply phase_c; auto; [lia|now apply fail_sane| |lia|rewrite E2; half|rewrite E1, E2, E3; f_equal; lia|rewrite E2, E3; half].
    destruct HF. split; congruence.
Qed.

Lemma phase_a c T k : ok c -> 1 <= T <= iodepth c - 2 -> iodepth c <= 2 ^ Z.of_nat k ->
  forall j s, sane c s -> fresh s -> low s <= T -> high s = iodepth c -> stable s = 0 -> (qd s = 1 \/ low s < qd s) ->
  iodepth c <= qd s * 2 ^ Z.of_nat j -> reach c T (j + 1 + 2 * k) s.
Proof.
  intros HO HT HK. induction j as [|j IH]; intros s HS HF HL HH Hst HLQ HG; pose proof HS as (A1 & A2 & A3 & A4).
  - simpl in HG. assert (EQ : qd s = iodepth c) by lia.
    replace (0 + 1 + 2 * k)%nat with (S (2 * k)) by lia. apply reach_step.
    unfold window. destruct (Z.leb_spec (qd s) T); [lia|].
    pose proof (fail_fields c s HO HS ltac:(lia)) as (_ & E1 & E2 & E3 & E4 & E5 & E6 & _).
    destruct (Z.eqb_spec (qd s) (low s)); [lia|].
    apply phase_b; auto; [now apply fail_sane| |lia|lia|rewrite E1, E2, E3; f_equal; lia|lia].
    destruct HF. split; congruence.
  - replace (S j + 1 + 2 * k)%nat with (S (j + 1 + 2 * k)) by lia. apply reach_step.
    unfold window. destruct (Z.leb_spec (qd s) T).
    + pose proof (success_fields c s HO HS) as (E1 & E2 & E3 & E4 & E5 & E6 & _).
      destruct (near_off s) as (N1 & N2); [lia|].
      assert (NQ : nq c s = Z.min (iodepth c) (qd s * 2)).
      { unfold nq. rewrite N1, HH, Z.eqb_refl. destruct (Z.ltb_spec (iodepth c) (qd s * 2)); lia. }
      assert (NE : nq c s =? qd s = false) by (apply Z.eqb_neq; lia).
      rewrite NE, andb_false_r in *. rewrite ?orb_false_r in *. cbn [andb] in *. rewrite ?orb_false_r in *.
      rewrite Nat2Z.inj_succ, Z.pow_succ_r in HG by lia.
      assert (P : 0 < 2 ^ Z.of_nat j) by (apply Z.pow_pos_nonneg; lia).
      apply IH; [now apply success_sane| |lia|lia|lia|lia|rewrite E1, NQ; nia].
      destruct HF. split; congruence.
    + pose proof (fail_fields c s HO HS ltac:(lia)) as (_ & E1 & E2 & E3 & E4 & E5 & E6 & _).
      destruct (Z.eqb_spec (qd s) (low s)); [lia|].
      assert (FF : fresh (snd (fail s))) by (destruct HF; split; congruence).
      destruct (Z.eq_dec (qd s) (iodepth c)) as [EQ|NQ].
      * apply (reach_mono c T (2 * k)); [lia|].
        apply phase_b; auto; [now apply fail_sane|lia|lia|rewrite E1, E2, E3; f_equal; lia|lia].
      * apply (reach_mono c T k); [lia|].
        apply phase_c; auto; [lia|now apply fail_sane|lia|lia|rewrite E1, E2, E3; f_equal; lia|lia].
Qed.

(** Every depth is good enough. *)
Lemma phase_top c T : ok c -> latency_run c = false -> iodepth c <= T ->
  forall j s, sane c s -> fresh s -> high s = iodepth c -> 0 <= stable s <= 1 -> (qd s < iodepth c -> stable s = 0) ->
  iodepth c <= qd s * 2 ^ Z.of_nat j -> ends c T (j + 2) s (iodepth c).
Proof.
  intros HO HR HT.
  assert (W : forall s, sane c s -> window c T s = success c s).
  { intros s (_ & S2 & _). unfold window. destruct (Z.leb_spec (qd s) T); [reflexivity|lia]. }
  assert (Top : forall s, sane c s -> fresh s -> high s = iodepth c -> 0 <= stable s <= 1 -> qd s = iodepth c -> ends c T 2 s (iodepth c)).
  { intros s HS (F1 & F2) HH Hst EQ. apply ends_step. rewrite W by assumption.
    pose proof HS as (A1 & A2 & A3 & A4).
    pose proof (success_fields c s HO HS) as (E1 & E2 & E3 & E4 & E5 & E6 & _).
    destruct (near_off s) as (N1 & N2); [lia|].
    assert (NQ : forall t, qd t = iodepth c -> high t = iodepth c -> nq c t = iodepth c).
    { intros t T1 T2. unfold nq. destruct (near_off t) as (-> & _); [lia|]. rewrite T2, Z.eqb_refl.
      destruct (Z.ltb_spec (iodepth c) (qd t * 2)); lia. }
    rewrite NQ in * by assumption. rewrite HR, EQ, Z.eqb_refl, F1 in *. cbn [negb andb orb] in E5.
    pose proof (success_sane c s HO HS) as HS'. set (s1 := success c s) in *.
    pose proof (success_fields c s1 HO HS') as (G1 & G2 & G3 & G4 & G5 & G6 & _).
    exists 1%nat. split; [lia|]. change (windows c T 1 s1) with (window c T s1).
    rewrite W, G1, G6, HR, E5, NQ, E1, Z.eqb_refl by (try assumption; lia). cbn. now rewrite orb_true_r. }
  induction j as [|j IH]; intros s HS HF HH Hst H0 HG; pose proof HS as (A1 & A2 & A3 & A4).
  - simpl in HG. apply Top; auto. lia.
  - destruct (Z.eq_dec (qd s) (iodepth c)) as [EQ|NQ]; [apply (ends_mono c T 2); [lia|now apply Top]|].
    apply (ends_step c T (j + 2)). rewrite W by assumption.
    pose proof (success_fields c s HO HS) as (E1 & E2 & E3 & E4 & E5 & E6 & _).
    assert (S0 : stable s = 0) by lia.
    assert (N : nh s = high s /\ 0 <= nn s <= 1 /\ (qd s + 1 <> high s -> nn s = 0)).
    { destruct (Z.eq_dec (qd s + 1) (high s)) as [E|E].
      - destruct (near_on s E) as (-> & ->); [lia|]. lia.
      - destruct (near_off s E) as (-> & ->). lia. }
    destruct N as (N1 & N2 & N3).
    assert (Q : nq c s = Z.min (iodepth c) (qd s * 2)).
    { unfold nq. rewrite N1, HH, Z.eqb_refl. destruct (Z.ltb_spec (iodepth c) (qd s * 2)); lia. }
    assert (NE : nq c s =? qd s = false) by (apply Z.eqb_neq; lia).
    rewrite NE, andb_false_r in *. rewrite ?orb_false_r in *. cbn [andb] in *. rewrite ?orb_false_r in *.
    rewrite Nat2Z.inj_succ, Z.pow_succ_r in HG by lia.
    assert (P : 0 < 2 ^ Z.of_nat j) by (apply Z.pow_pos_nonneg; lia).
    apply IH; [now apply success_sane| |lia|lia| |rewrite E1, Q; nia].
    + destruct HF. split; congruence.
    + intros LT. rewrite E4. apply N3. lia.
Qed.

(** ** Oscillation *)

Definition swings (c : cfg) (s : st) : Prop :=
  sane c s /\ high s = iodepth c /\ low s < iodepth c /\ 0 <= stable s <= 1 /\ (qd s < iodepth c -> stable s = 0) /\ fresh s.

Lemma swing c s : ok c -> 2 <= iodepth c -> swings c s -> swings c (window c (iodepth c - 1) s).
Proof.
  intros HO HD (HS & HH & HL & Hst & H0 & HF). pose proof HS as (A1 & A2 & A3 & A4). unfold window.
  destruct (Z.leb_spec (qd s) (iodepth c - 1)) as [L|L].
  - pose proof (success_fields c s HO HS) as (E1 & E2 & E3 & E4 & E5 & E6 & _).
    assert (N : nh s = high s /\ 0 <= nn s <= 1 /\ (qd s + 1 <> high s -> nn s = 0)).
    { destruct (Z.eq_dec (qd s + 1) (high s)) as [E|E].
      - destruct (near_on s E) as (-> & ->); lia.
      - destruct (near_off s E) as (-> & ->). lia. }
    destruct N as (N1 & N2 & N3).
    assert (Q : nq c s = Z.min (iodepth c) (qd s * 2)).
    { unfold nq. rewrite N1, HH, Z.eqb_refl. destruct (Z.ltb_spec (iodepth c) (qd s * 2)); lia. }
    assert (NE : nq c s =? qd s = false) by (apply Z.eqb_neq; lia).
    rewrite NE, andb_false_r in *. rewrite ?orb_false_r in *. cbn [andb] in *. rewrite ?orb_false_r in *.
    split; [now apply success_sane|]. split; [lia|]. split; [lia|]. split; [lia|]. split.
    + intros LT. rewrite E4. apply N3. lia.
    + destruct HF. split; congruence.
  - pose proof (fail_fields c s HO HS ltac:(lia)) as (_ & E1 & E2 & E3 & E4 & E5 & E6 & _).
    destruct (Z.eqb_spec (qd s) (low s)); [lia|].
    split; [now apply fail_sane|]. split; [lia|]. split; [lia|]. split; [lia|]. split; [lia|]. destruct HF. split; congruence.
Qed.

(** ** The settled state *)

Lemma settled_step c T s : ok c -> 1 <= T <= iodepth c - 2 -> sane c s -> settled c T s -> settled c T (window c T s).
Proof.
  intros HO HT HS HX. pose proof HS as (A1 & A2 & A3 & A4). unfold window. destruct (Z.leb_spec (qd s) T) as [L|L].
  - destruct HX as [(Q & Hh & Hl & Hs)|(Q & _)]; [|lia].
    pose proof (success_fields c s HO HS) as (E1 & E2 & E3 & E4 & _).
    unfold settled. rewrite E1, E2, E3, E4. unfold nq, nh, nn, near. rewrite Hh, Q, Z.eqb_refl. cbn [andb].
    destruct (Z.leb_spec 3 (stable s + 1)).
    + right. destruct (Z.eqb_spec (T + 1 + 1) (iodepth c)).
      * destruct (Z.ltb_spec (iodepth c) (T * 2)); lia.
      * replace ((T + (T + 1 + 1)) / 2) with (T + 1) by half. destruct (Z.ltb_spec (iodepth c) (T + 1)); lia.
    + left. destruct (Z.eqb_spec (T + 1) (iodepth c)); [lia|].
      replace ((T + (T + 1)) / 2) with T by half. destruct (Z.ltb_spec (iodepth c) T); lia.
  - pose proof (fail_fields c s HO HS ltac:(lia)) as (_ & E1 & E2 & E3 & E4 & _).
    unfold settled. rewrite E1, E2, E3, E4. destruct HX as [(Q & _)|(Q & Hh & Hl & Hs)]; [lia|].
    destruct (Z.eqb_spec (qd s) (low s)); [lia|]. rewrite Hl.
    assert (QC : qd s = T + 1 \/ qd s = T + 2) by lia. destruct QC as [->| ->].
    + left. replace ((T + 1 + T) / 2) with T by half. lia.
    + right. replace ((T + 2 + T) / 2) with (T + 1) by half. lia.
Qed.

(** ** The share of I/Os in time *)

Lemma div53_error a b : 0 < a <= b ->
  exists m e, div53 a b = (m, e) /\ 0 < e /\ 0 <= m /\ 2 ^ 52 * Z.abs (m * b - a * 2 ^ e) <= a * 2 ^ e.
Proof.
  intros H. unfold div53. destruct (Z.eqb_spec a 0); [lia|].
  set (e := 56 + Z.log2 b - Z.log2 a). set (x := a * 2 ^ e).
  assert (LE : Z.log2 a <= Z.log2 b) by (apply Z.log2_le_mono; lia).
  pose proof (Z.log2_nonneg a) as La. pose proof (Z.log2_nonneg b) as Lb.
  assert (He : 56 <= e) by (unfold e; lia).
  set (y := 2 * (x / b) + (if x mod b =? 0 then 0 else 1)).
  exists (rne53 y), (e + 1). split; [reflexivity|].
  pose proof (Z.log2_spec a ltac:(lia)) as [A1 _]. pose proof (Z.log2_spec b ltac:(lia)) as [_ B2].
  assert (X1 : 2 ^ 55 * b <= x).
  { apply Z.le_trans with (2 ^ 55 * 2 ^ Z.succ (Z.log2 b)); [apply Z.mul_le_mono_nonneg_l; lia|].
    unfold x. apply Z.le_trans with (2 ^ Z.log2 a * 2 ^ e); [|apply Z.mul_le_mono_nonneg_r; [apply Z.pow_nonneg; lia|lia]].
    rewrite <- !Z.pow_add_r by lia. apply Z.pow_le_mono_r; lia. }
  assert (Q1 : 2 ^ 55 <= x / b) by (apply Z.div_le_lower_bound; lia).
  pose proof (Z.div_mod x b ltac:(lia)) as DM. pose proof (Z.mod_pos_bound x b ltac:(lia)) as MB.
  assert (Y0 : 2 ^ 56 <= y) by (unfold y; destruct (x mod b =? 0); lia).
  assert (YB : Z.abs (y * b - 2 * x) <= b).
  { unfold y. destruct (Z.eqb_spec (x mod b) 0); [|]; apply Z.abs_le; nia. }
  assert (EX : a * 2 ^ (e + 1) = 2 * x) by (unfold x; rewrite Z.pow_add_r by lia; ring).
  rewrite EX.
  pose proof (rne53_error y ltac:(lia)) as (R0 & R1 & R2).
  assert (YY : 2 ^ 56 * b <= y * b) by (apply Z.mul_le_mono_nonneg_r; lia).
  assert (M1 : 2 ^ 53 * (rne53 y * b - y * b) <= y * b) by nia.
  assert (M2 : 2 ^ 53 * (y * b - rne53 y * b) <= y * b) by nia.
  split; [lia|]. split; [exact R0|]. revert YB YY M1 M2. generalize (rne53 y * b) (y * b). intros; lia.
Qed.

Lemma enough_spec c n f : 0 < n < 2 ^ 53 -> 0 <= f <= n -> 0 <= pk c ->
  (enough c n f = true -> pm c * n * 2 ^ 51 <= (2 ^ 51 + 1) * (100 * (n - f)) * 2 ^ pk c) /\
  (pm c * n * 2 ^ 51 <= (2 ^ 51 - 1) * (100 * (n - f)) * 2 ^ pk c -> enough c n f = true).
Proof.
  intros Hn Hf Hk. unfold enough. destruct (Z.eqb_spec n 0); [lia|].
  replace (u64 (n - f)) with (n - f) by (symmetry; apply Z.mod_small; lia).
  rewrite !rne53_small by lia. set (a := n - f).
  assert (PK : 0 < 2 ^ pk c) by (apply Z.pow_pos_nonneg; lia).
  destruct (Z.eq_dec a 0) as [A0|A0].
  { rewrite A0. unfold div53. cbn [Z.eqb]. change (rne53 (0 * 100)) with 0. rewrite Z.leb_le. nia. }
  destruct (div53_error a n) as (m & e & -> & He & Hm & EM); [lia|].
  pose proof (rne53_error (m * 100) ltac:(lia)) as (R0 & R1 & R2).
  set (N := rne53 (m * 100)) in *. assert (PE : 0 < 2 ^ e) by (apply Z.pow_pos_nonneg; lia).
  assert (N1 : 2 ^ 53 * (N * n - 100 * (m * n)) <= 100 * (m * n)) by nia.
  assert (N2 : 2 ^ 53 * (100 * (m * n) - N * n) <= 100 * (m * n)) by nia.
  assert (B : 2 ^ 51 * Z.abs (N * n - 100 * (a * 2 ^ e)) <= 100 * (a * 2 ^ e)).
  { revert EM N1 N2. generalize (N * n) (m * n) (a * 2 ^ e). intros; lia. }
  clear EM N1 N2 R0 R1 R2. rewrite Z.leb_le. split; intros H.
  - assert (H1 : pm c * 2 ^ e * n <= N * 2 ^ pk c * n) by (apply Z.mul_le_mono_nonneg_r; lia).
    assert (H2 : 2 ^ 51 * (N * n) <= (2 ^ 51 + 1) * (100 * (a * 2 ^ e))) by lia.
    assert (H3 : 2 ^ 51 * (N * n) * 2 ^ pk c <= (2 ^ 51 + 1) * (100 * (a * 2 ^ e)) * 2 ^ pk c) by (apply Z.mul_le_mono_nonneg_r; lia).
    apply Z.mul_le_mono_pos_r with (2 ^ e); [exact PE|].
    replace (pm c * n * 2 ^ 51 * 2 ^ e) with (2 ^ 51 * (pm c * 2 ^ e * n)) by ring.
    replace ((2 ^ 51 + 1) * (100 * a) * 2 ^ pk c * 2 ^ e) with ((2 ^ 51 + 1) * (100 * (a * 2 ^ e)) * 2 ^ pk c) by ring.
    replace (2 ^ 51 * (N * n) * 2 ^ pk c) with (2 ^ 51 * (N * 2 ^ pk c * n)) in H3 by ring. lia.
  - assert (H2 : (2 ^ 51 - 1) * (100 * (a * 2 ^ e)) <= 2 ^ 51 * (N * n)) by lia.
    assert (H3 : (2 ^ 51 - 1) * (100 * (a * 2 ^ e)) * 2 ^ pk c <= 2 ^ 51 * (N * n) * 2 ^ pk c) by (apply Z.mul_le_mono_nonneg_r; lia).
    assert (H1 : pm c * n * 2 ^ 51 * 2 ^ e <= (2 ^ 51 - 1) * (100 * a) * 2 ^ pk c * 2 ^ e) by (apply Z.mul_le_mono_nonneg_r; lia).
    apply Z.mul_le_mono_pos_r with (n * 2 ^ 51); [lia|].
    replace (pm c * 2 ^ e * (n * 2 ^ 51)) with (pm c * n * 2 ^ 51 * 2 ^ e) by ring.
    replace (N * 2 ^ pk c * (n * 2 ^ 51)) with (2 ^ 51 * (N * n) * 2 ^ pk c) by ring.
    replace ((2 ^ 51 - 1) * (100 * a) * 2 ^ pk c * 2 ^ e) with ((2 ^ 51 - 1) * (100 * (a * 2 ^ e)) * 2 ^ pk c) in H1 by ring. lia.
Qed.

(** ** The counters *)

Definition counted (s : st) : Prop := 0 <= failed s <= blocks s - ios s /\ 0 <= ios s.

Lemma step_counted c s e : ok c -> sane c s -> counted s -> blocks s < 2 ^ 32 - 1 ->
  counted (snd (step c s e)) /\ 0 <= blocks (snd (step c s e)) <= blocks s + 1.
Proof.
  intros HO HS (C1 & C2) HB. destruct e as [l|x]; cbn [step snd].
  - set (s1 := St _ _ _ _ _ _ (blocks s + 1) _ _).
    assert (K1 : counted s1 /\ blocks s1 = blocks s + 1) by (unfold counted, s1; cbn; lia).
    destruct l; [|split; [apply K1|cbn; lia]].
    unfold late. destruct (strict c).
    + unfold fail. destruct (qd s1 =? 1); cbn; [split; [apply K1|cbn; lia]|]. unfold counted. cbn. lia.
    + unfold counted. cbn. rewrite u32_in by lia. lia.
  - unfold check. destruct (negb x); [split; [split; assumption|lia]|].
    destruct (enough _ _ _).
    + unfold success. set (s2 := if negb (latency_run c) && _ then _ else _).
      assert (0 <= blocks s2 <= blocks s).
      { unfold s2. destruct (negb (latency_run c) && _); [|cbn; lia]. destruct (end_run s); [cbn; lia|]. unfold reset_stats, reset. cbn. lia. }
      unfold counted, new_cycle. cbn. lia.
    + unfold fail. destruct (qd s =? 1); cbn; [split; [split; assumption|lia]|]. unfold counted. cbn. lia.
Qed.

Lemma run_counted c : ok c -> forall es s, sane c s -> counted s -> blocks s + Z.of_nat (length es) < 2 ^ 32 - 1 ->
  counted (run c s es).
Proof.
  intros HO. induction es as [|e es IH]; intros s HS HC HB; [exact HC|]. cbn [run fold_left].
  cbn [length] in HB. destruct (step_counted c s e HO HS HC) as (K1 & K2); [lia|].
  apply IH; [now apply step_sane|exact K1|lia].
Qed.
