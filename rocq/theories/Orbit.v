(** Minimal periods of iterated functions, and Pocklington's primality criterion. *)
From Coq Require Import ZArith Znumtheory List Lia Bool FinFun.
Import ListNotations.
Open Scope Z_scope.

Definition iterz {A} (k : Z) (f : A -> A) (x : A) : A := Nat.iter (Z.to_nat k) f x.

Lemma nat_iter_add {A} (f : A -> A) x a b : Nat.iter (a + b) f x = Nat.iter a f (Nat.iter b f x).
Proof. induction a; simpl; auto. rewrite IHa. auto. Qed.

Lemma iterz_add {A} (f : A -> A) x a b : 0 <= a -> 0 <= b ->
  iterz (a + b) f x = iterz a f (iterz b f x).
Proof. intros. unfold iterz. rewrite Z2Nat.inj_add by lia. apply nat_iter_add. Qed.

Lemma iterz_0 {A} (f : A -> A) x : iterz 0 f x = x.
Proof. reflexivity. Qed.

Lemma iterz_succ {A} (f : A -> A) x k : 0 <= k -> iterz (k + 1) f x = f (iterz k f x).
Proof. intros. rewrite Z.add_comm, iterz_add by lia. reflexivity. Qed.

Lemma iterz_succ_r {A} (f : A -> A) x k : 0 <= k -> iterz (k + 1) f x = iterz k f (f x).
Proof. intros. rewrite iterz_add by lia. reflexivity. Qed.

(** ** Prime divisors *)

Lemma exists_prime_divisor n : 1 < n -> exists p, prime p /\ (p | n).
Proof.
  intros Hn. assert (H0 : 0 <= n) by lia. revert Hn.
  pattern n. apply Zlt_0_ind with (x := n); auto. clear n H0. intros n IH _ Hn.
  destruct (prime_dec n) as [P|P]; [exists n; split; auto; apply Z.divide_refl|].
  destruct (not_prime_divide n Hn P) as (d & Hd & Hdiv).
  destruct (IH d ltac:(lia) ltac:(lia)) as (p & Hp & Hpd).
  exists p. split; auto. apply Z.divide_trans with d; auto.
Qed.

(** Product of a list of primes (with repetitions). *)
Fixpoint pprod (l : list Z) : Z :=
  match l with [] => 1 | q :: r => q * pprod r end.

Lemma prime_divides_pprod p l : prime p -> Forall prime l -> (p | pprod l) -> In p l.
Proof.
  intros Hp. induction l as [|q r IH]; intros HF Hd; simpl in Hd.
  - exfalso. apply prime_ge_2 in Hp. apply Z.divide_1_r_nonneg in Hd; lia.
  - inversion HF as [|? ? Hq Hr]; subst.
    destruct (prime_mult p Hp _ _ Hd) as [D|D].
    + left. symmetry. apply prime_div_prime; auto.
    + right. auto.
Qed.

Lemma in_divides_pprod p l : In p l -> (p | pprod l).
Proof.
  induction l as [|q r IH]; simpl; [tauto|]. intros [->|I].
  - apply Z.divide_factor_l.
  - apply Z.divide_mul_r. auto.
Qed.

(** ** Exact order *)
Section Order.
Context {A : Type}.
Variables (f : A -> A) (e : A).
Hypothesis eq_dec : forall x y : A, {x = y} + {x <> y}.

Let it k := iterz k f e.

Lemma min_period F : 0 < F -> it F = e ->
  exists d, 0 < d <= F /\ it d = e /\ forall j, 0 < j < d -> it j <> e.
Proof.
  intros HF. assert (H0 : 0 <= F) by lia. revert HF.
  pattern F. apply Zlt_0_ind with (x := F); auto. clear F H0. intros F IH _ HF E.
  assert (S : (exists j, 0 < j < F /\ it j = e) \/ (forall j, 0 < j < F -> it j <> e)).
  { assert (G : forall n : nat, (exists j, 0 < j < Z.of_nat n /\ it j = e) \/
       (forall j, 0 < j < Z.of_nat n -> it j <> e)).
    { induction n as [|n IHn]; [right; intros; lia|].
      destruct IHn as [(j & Hj & Ej)|N]; [left; exists j; split; [lia|auto]|].
      destruct (Z.eq_dec (Z.of_nat n) 0); [right; intros; lia|].
      destruct (eq_dec (it (Z.of_nat n)) e) as [D|D].
      - left. exists (Z.of_nat n). split; [lia|auto].
      - right. intros j Hj. destruct (Z.eq_dec j (Z.of_nat n)) as [->|]; auto. apply N. lia. }
    specialize (G (Z.to_nat F)). rewrite Z2Nat.id in G by lia. auto. }
  destruct S as [(j & Hj & Ej)|S].
  - destruct (IH j ltac:(lia) ltac:(lia) Ej) as (d & Hd & Ed & Md). exists d. split; [lia|auto].
  - exists F. split; [lia|auto].
Qed.

Lemma it_mul d k : 0 <= d -> 0 <= k -> it d = e -> it (d * k) = e.
Proof.
  intros Hd Hk E. pattern k. apply natlike_ind; auto.
  - rewrite Z.mul_0_r. reflexivity.
  - intros x Hx IH. rewrite Z.mul_succ_r. unfold it in *. rewrite iterz_add by lia. rewrite E. auto.
Qed.

Lemma min_period_divides d k : 0 < d -> it d = e -> (forall j, 0 < j < d -> it j <> e) ->
  0 <= k -> it k = e -> (d | k).
Proof.
  intros Hd Ed M Hk Ek. apply Z.mod_divide; [lia|].
  pose proof (Z.mod_pos_bound k d Hd) as B. destruct (Z.eq_dec (k mod d) 0) as [|N]; auto.
  exfalso. apply (M (k mod d)); [lia|].
  pose proof (Z.div_pos k d Hk Hd) as Q.
  rewrite (Z.div_mod k d) in Ek by lia. rewrite Z.add_comm in Ek.
  unfold it in *. rewrite iterz_add in Ek by nia.
  fold (it (d * (k / d))) in Ek. rewrite it_mul in Ek by (auto; lia). auto.
Qed.

(** If [it] returns at [F] but at none of the [F / q], then [F] is the minimal period. *)
Lemma exact_order l : Forall prime l ->
  let F := pprod l in 0 < F -> it F = e ->
  (forall q, In q l -> it (F / q) <> e) ->
  forall j, 0 < j < F -> it j <> e.
Proof.
  intros HP F HF E HQ j Hj Ej.
  destruct (min_period F HF E) as (d & Hd & Ed & Md).
  pose proof (min_period_divides d j ltac:(lia) Ed Md ltac:(lia) Ej) as Dj.
  assert (d <= j) by (apply Z.divide_pos_le; auto; lia).
  pose proof (min_period_divides d F ltac:(lia) Ed Md ltac:(lia) E) as [c Hc].
  assert (1 < c) by nia.
  destruct (exists_prime_divisor c H0) as (p & Hp & [c' Hc']).
  assert (DpF : (p | F)). { exists (c' * d). rewrite Hc, Hc'. ring. }
  apply (HQ p (prime_divides_pprod p l Hp HP DpF)). pose proof (prime_ge_2 p Hp).
  assert (Q : F / p = d * c').
  { rewrite Hc, Hc'. replace (c' * p * d) with (d * c' * p) by ring. apply Z.div_mul. lia. }
  rewrite Q. apply it_mul; auto; nia.
Qed.

(** Distinctness along the orbit. *)
Variable P : A -> Prop.
Hypothesis P_e : P e.
Hypothesis P_f : forall x, P x -> P (f x).
Hypothesis f_inj : forall x y, P x -> P y -> f x = f y -> x = y.

Lemma it_P k : P (it k).
Proof. unfold it, iterz. induction (Z.to_nat k); simpl; auto. Qed.

Lemma it_cancel a x y : P x -> P y -> Nat.iter a f x = Nat.iter a f y -> x = y.
Proof.
  revert x y. induction a; intros x y Hx Hy H; auto.
  simpl in H. apply f_inj in H.
  - apply IHa; auto.
  - clear H. induction a; simpl; auto. apply P_f. apply IHa0. intros. apply IHa; auto. simpl. congruence.
  - clear H. induction a; simpl; auto. apply P_f. apply IHa0. intros. apply IHa; auto. simpl. congruence.
Qed.

Lemma it_distinct F : (forall j, 0 < j < F -> it j <> e) ->
  forall i j, 0 <= i < j -> j < F -> it i <> it j.
Proof.
  intros M i j Hij HjF E. apply (M (j - i)); [lia|].
  unfold it in *. replace j with (i + (j - i)) in E by lia. rewrite iterz_add in E by lia.
  unfold iterz in E at 1 2. apply it_cancel in E; auto. apply (it_P (j - i)).
Qed.

Definition orbit (F : Z) : list A := map (fun i => it (Z.of_nat i)) (seq 0 (Z.to_nat F)).

Lemma orbit_nodup F : (forall j, 0 < j < F -> it j <> e) -> NoDup (orbit F).
Proof.
  intros M. unfold orbit.
  assert (G : forall n s, (s + n <= Z.to_nat F)%nat -> NoDup (map (fun i => it (Z.of_nat i)) (seq s n))).
  { induction n; intros s Hs; simpl; [constructor|]. constructor; [|apply IHn; lia].
    intros I. apply in_map_iff in I. destruct I as (k & Ek & Ik). apply in_seq in Ik.
    symmetry in Ek. revert Ek. apply it_distinct with F; auto; lia. }
  apply G. lia.
Qed.

Lemma orbit_length F : length (orbit F) = Z.to_nat F.
Proof. unfold orbit. rewrite map_length, seq_length. auto. Qed.

Lemma in_orbit F x : In x (orbit F) -> exists k, 0 <= k < F /\ x = it k.
Proof.
  unfold orbit. rewrite in_map_iff. intros (k & <- & Hk). apply in_seq in Hk.
  exists (Z.of_nat k). split; [lia|auto].
Qed.
End Order.

(** ** Integers 1..M as a list *)
Definition upto (M : Z) : list Z := map (fun i => Z.of_nat i + 1) (seq 0 (Z.to_nat M)).

Lemma in_upto M x : In x (upto M) <-> 1 <= x <= M.
Proof.
  unfold upto. rewrite in_map_iff. split.
  - intros (k & <- & Hk). apply in_seq in Hk. lia.
  - intros H. exists (Z.to_nat (x - 1)). split; [lia|]. apply in_seq. lia.
Qed.
Lemma upto_length M : length (upto M) = Z.to_nat M.
Proof. unfold upto. rewrite map_length, seq_length. auto. Qed.
Lemma upto_nodup M : NoDup (upto M).
Proof. unfold upto. apply Injective_map_NoDup; [intros a b; lia|apply seq_NoDup]. Qed.

(** ** Modular powers *)

Fixpoint powm_pos (a : Z) (k : positive) (n : Z) : Z :=
  match k with
  | xH => a mod n
  | xO k' => let y := powm_pos a k' n in (y * y) mod n
  | xI k' => let y := powm_pos a k' n in (((y * y) mod n) * a) mod n
  end.
Definition powm (a k n : Z) : Z :=
  match k with Zpos p => powm_pos a p n | _ => 1 mod n end.

Lemma powm_pos_spec a k n : 0 < n -> powm_pos a k n = a ^ Zpos k mod n.
Proof.
  intros Hn. induction k; cbn [powm_pos].
  - rewrite IHk, <- Zmult_mod, Z.mul_mod_idemp_l by lia.
    f_equal. rewrite Pos2Z.inj_xI, Z.pow_add_r, Z.pow_1_r by lia.
    replace (2 * Zpos k) with (Zpos k + Zpos k) by lia. rewrite Z.pow_add_r by lia. ring.
  - rewrite IHk, <- Zmult_mod. f_equal. rewrite Pos2Z.inj_xO.
    replace (2 * Zpos k) with (Zpos k + Zpos k) by lia. rewrite Z.pow_add_r by lia. ring.
  - rewrite Z.pow_1_r. auto.
Qed.

Lemma powm_spec a k n : 0 < n -> 0 <= k -> powm a k n = a ^ k mod n.
Proof. intros Hn Hk. destruct k; try lia; auto. apply powm_pos_spec; auto. Qed.

(** ** Primality *)

(** Trial division. *)
Fixpoint no_div (k : nat) (d n : Z) : bool :=
  match k with O => true | S k' => negb (n mod d =? 0) && no_div k' (d + 1) n end.
Definition prime_small (n : Z) : bool := (1 <? n) && no_div (Z.to_nat (Z.sqrt n - 1)) 2 n.

Lemma no_div_spec k : forall d n, 0 < d -> no_div k d n = true ->
  forall x, d <= x < d + Z.of_nat k -> ~ (x | n).
Proof.
  induction k; intros d n Hd H x Hx D; [lia|].
  cbn [no_div] in H. apply andb_true_iff in H. destruct H as [H1 H2].
  apply negb_true_iff, Z.eqb_neq in H1.
  destruct (Z.eq_dec x d) as [->|].
  - apply H1. apply Z.mod_divide; auto. lia.
  - apply (IHk (d + 1) n ltac:(lia) H2 x ltac:(lia) D).
Qed.

Lemma prime_small_ok n : prime_small n = true -> prime n.
Proof.
  unfold prime_small. rewrite andb_true_iff, Z.ltb_lt. intros [Hn H].
  destruct (prime_dec n) as [|P]; auto. exfalso.
  destruct (not_prime_divide n Hn P) as (d & Hd & [c Hc]).
  pose proof (Z.sqrt_spec n ltac:(lia)) as Sq. cbv zeta in Sq.
  assert (Hsq : 1 <= Z.sqrt n) by (pose proof (Z.sqrt_nonneg n); nia).
  assert (H2 : 0 < 2) by lia. pose proof (no_div_spec _ 2 n H2 H) as ND.
  destruct (Z_le_gt_dec d (Z.sqrt n)).
  - apply (ND d); [rewrite Z2Nat.id; lia|]. exists c. auto.
  - assert (1 < c) by nia. assert (c <= Z.sqrt n) by nia.
    apply (ND c); [rewrite Z2Nat.id; lia|]. exists d. lia.
Qed.

(** Pocklington: [l] is the factored part of [n - 1], [r] the rest, [a] the witness. *)
Definition pock (n a r : Z) (l : list Z) : bool :=
  let F := pprod l in
  (1 <? n) && (n - 1 =? F * r) && (0 <? F) && (0 <? r) && (n <? F * F + 2 * F + 1) &&
  (powm a (n - 1) n =? 1) &&
  forallb (fun q => Z.gcd (powm a ((n - 1) / q) n - 1) n =? 1) (nodup Z.eq_dec l).

Lemma powmod_iter b p k : 1 < p -> 0 <= k ->
  iterz k (fun y => (b * y) mod p) 1 = b ^ k mod p.
Proof.
  intros Hp Hk. pattern k. apply natlike_ind; auto.
  - rewrite iterz_0. simpl. symmetry. apply Z.mod_small. lia.
  - intros x Hx IH. unfold Z.succ. rewrite iterz_succ, IH by lia.
    rewrite Z.mul_mod_idemp_r by lia. f_equal. rewrite Z.pow_add_r, Z.pow_1_r by lia. ring.
Qed.

Lemma prime_divides_pow p a k : prime p -> 0 <= k -> (p | a ^ k) -> (p | a).
Proof.
  intros Hp Hk. pattern k. apply natlike_ind; auto.
  - simpl. intros D1. pose proof (prime_ge_2 p Hp). apply Z.divide_1_r_nonneg in D1; lia.
  - intros x Hx IH D1. rewrite Z.pow_succ_r in D1 by lia.
    destruct (prime_mult p Hp _ _ D1); auto.
Qed.

Lemma pock_ok n a r l : Forall prime l -> pock n a r l = true -> prime n.
Proof.
  intros HP. unfold pock. rewrite !andb_true_iff, !Z.ltb_lt, !Z.eqb_eq, forallb_forall.
  set (F := pprod l). intros [[[[[[Hn HF] HF0] Hr] HFn] Hpow] Hg].
  destruct (prime_dec n) as [|NP]; auto. exfalso.
  destruct (not_prime_divide n Hn NP) as (d & Hd & [c Hc]).
  (* a prime divisor p with p * p <= n *)
  assert (exists p, prime p /\ (p | n) /\ p * p <= n) as (p & Hp & Hpn & Hpp).
  { assert (S : exists s, 1 < s /\ (s | n) /\ s * s <= n).
    { destruct (Z_le_gt_dec d c).
      - exists d. split; [lia|]. split; [exists c; auto|nia].
      - exists c. split; [nia|]. split; [exists d; lia|nia]. }
    destruct S as (s & Hs & Hsn & Hss). destruct (exists_prime_divisor s Hs) as (p & Hp & Hps).
    exists p. split; auto. split; [apply Z.divide_trans with s; auto|].
    pose proof (prime_ge_2 p Hp). apply Z.divide_pos_le in Hps; [nia|lia]. }
  pose proof (prime_ge_2 p Hp) as Hp2.
  assert (Hpow1 : forall k, 0 <= k -> a ^ k mod n mod p = a ^ k mod p).
  { intros k Hk. destruct Hpn as [t Ht]. rewrite (Z.div_mod (a ^ k) n) at 2 by lia.
    rewrite Ht at 2. replace (t * p * (a ^ k / n) + a ^ k mod n) with (a ^ k mod n + t * (a ^ k / n) * p) by ring.
    rewrite Z.mod_add by lia. auto. }
  rewrite powm_spec in Hpow by lia.
  assert (Ha1 : a ^ (n - 1) mod p = 1).
  { rewrite <- Hpow1, Hpow by lia. apply Z.mod_small. lia. }
  assert (Ha : ~ (p | a)).
  { intros D. assert (D2 : (p | a ^ (n - 1))).
    { replace (n - 1) with (Z.succ (n - 2)) by lia. rewrite Z.pow_succ_r by lia.
      apply Z.divide_mul_l. auto. }
    apply Z.mod_divide in D2; lia. }
  set (b := a ^ r). set (g := fun y => (b * y) mod p).
  assert (Hb : ~ (p | b)).
  { intros D. apply Ha. apply prime_divides_pow with r; auto. lia. }
  assert (Hit : forall k, 0 <= k -> iterz k g 1 = b ^ k mod p) by (intros; apply powmod_iter; lia).
  assert (HitF : iterz F g 1 = 1).
  { rewrite Hit by lia. unfold b. rewrite <- Z.pow_mul_r by lia. rewrite Z.mul_comm, <- HF. auto. }
  assert (HitQ : forall q, In q l -> iterz (F / q) g 1 <> 1).
  { intros q I E. specialize (Hg q ltac:(apply nodup_In; auto)). apply Z.eqb_eq in Hg.
    assert (Pq : prime q) by (rewrite Forall_forall in HP; apply (HP q I)).
    pose proof (prime_ge_2 q Pq).
    assert (Hq0 : 0 <= F / q) by (apply Z.div_pos; lia).
    destruct (in_divides_pprod q l I) as [t Ht]. fold F in Ht.
    assert (Q1 : F / q = t) by (rewrite Ht; apply Z.div_mul; lia).
    assert (Q2 : (n - 1) / q = r * t).
    { rewrite HF, Ht. replace (t * q * r) with (r * t * q) by ring. apply Z.div_mul. lia. }
    rewrite Q2, powm_spec in Hg by nia.
    rewrite Hit, Q1 in E by auto. unfold b in E. rewrite <- Z.pow_mul_r in E by lia.
    assert (D : (p | a ^ (r * t) mod n - 1)).
    { apply Z.mod_divide; [lia|]. rewrite Zminus_mod, Hpow1, E by nia.
      rewrite (Z.mod_small 1 p) by lia. reflexivity. }
    assert (D1 : (p | 1)) by (rewrite <- Hg; apply Z.gcd_greatest; auto).
    apply Z.divide_1_r_nonneg in D1; lia. }
  assert (Hg1 : forall x, 1 <= x < p -> 1 <= g x < p).
  { intros x Hx. unfold g. pose proof (Z.mod_pos_bound (b * x) p ltac:(lia)).
    destruct (Z.eq_dec ((b * x) mod p) 0) as [E|]; [|lia].
    apply Z.mod_divide in E; [|lia]. destruct (prime_mult p Hp _ _ E); [tauto|].
    apply Z.divide_pos_le in H0; lia. }
  assert (Hginj : forall x y, 1 <= x < p -> 1 <= y < p -> g x = g y -> x = y).
  { intros x y Hx Hy E. unfold g in E.
    assert (D : (p | b * (x - y))).
    { apply Z.mod_divide; [lia|]. rewrite Z.mul_sub_distr_l, Zminus_mod, E, Z.sub_diag. reflexivity. }
    destruct (prime_mult p Hp _ _ D) as [|[u Hu]]; [tauto|].
    assert (u = 0) by nia. lia. }
  pose proof (exact_order g 1 Z.eq_dec l HP HF0 HitF HitQ) as Ord. fold F in Ord.
  assert (ND : NoDup (orbit g 1 F)).
  { apply orbit_nodup with (P := fun x => 1 <= x < p); auto. lia. }
  assert (L : (length (orbit g 1%Z F) <= length (upto (p - 1)%Z))%nat).
  { apply NoDup_incl_length; auto. intros x Hx. apply in_orbit in Hx. destruct Hx as (k & _ & ->).
    apply in_upto. assert (P1 : 1 <= 1 < p) by lia.
    pose proof (it_P g 1 (fun x => 1 <= x < p) P1 Hg1 k) as B. cbv beta in B. lia. }
  rewrite orbit_length, upto_length in L.
  assert (F <= p - 1) by lia. nia.
Qed.
