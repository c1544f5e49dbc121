(** C strings as lists of byte codes: decimal output of printf("%d"/"%llu") and its reading back. *)
From Coq Require Import ZArith List Lia Bool.
From Verif Require Import CBase.
Import ListNotations.
Open Scope Z_scope.

(** A character is a decimal digit. *)
Definition digit (c : Z) : bool := (48 <=? c) && (c <=? 57).
(** The value of a string of digits. *)
Definition dval (ds : list Z) : Z := fold_left (fun a c => a * 10 + (c - 48)) ds 0.

(** The decimal digits of a non-negative number without leading zeros, as the C standard describes the conversions u and d
    (C11 7.21.6.1). *)
Fixpoint dec_ (fuel : nat) (n : Z) : list Z :=
  match fuel with
  | O => []
  | S f => if n <? 10 then [48 + n] else dec_ f (n / 10) ++ [48 + n mod 10]
  end.
Definition dec (n : Z) : list Z := dec_ (S (Z.to_nat (Z.log2 n))) n.

Lemma dval_app a b : forall x, fold_left (fun a c => a * 10 + (c - 48)) (a ++ b) x =
  fold_left (fun a c => a * 10 + (c - 48)) b (fold_left (fun a c => a * 10 + (c - 48)) a x).
Proof. intros x. apply fold_left_app. Qed.
Lemma dval_snoc a c : dval (a ++ [c]) = dval a * 10 + (c - 48).
Proof. unfold dval. rewrite fold_left_app. reflexivity. Qed.

Lemma log2_div10 n : 10 <= n -> (Z.to_nat (Z.log2 (n / 10)) < Z.to_nat (Z.log2 n))%nat.
Proof.
  intros H. assert (Z.log2 (n / 10) <= Z.log2 (n / 2)) by (apply Z.log2_le_mono; apply Z.div_le_compat_l; lia).
  assert (Z.log2 (n / 2) = Z.log2 n - 1).
  { change 2 with (2 ^ 1). rewrite <- (Z.shiftr_div_pow2 n 1) by lia. rewrite Z.log2_shiftr by lia. rewrite Z.max_r; auto. pose proof (Z.log2_le_mono 2 n ltac:(lia)) as L. change (Z.log2 2) with 1 in L. lia. }
  pose proof (Z.log2_le_mono 2 n ltac:(lia)) as L. change (Z.log2 2) with 1 in L. pose proof (Z.log2_nonneg (n / 10)). lia.
Qed.
Lemma dec_ok_ : forall f n, 0 <= n -> (Z.to_nat (Z.log2 n) < f)%nat -> dval (dec_ f n) = n /\ Forall (fun c => digit c = true) (dec_ f n) /\ dec_ f n <> [].
Proof.
  induction f as [|f IH]; intros n Hn Hf; [lia|]. cbn [dec_]. destruct (Z.ltb_spec n 10) as [L|L].
  - unfold dval, digit. cbn [fold_left]. split; [lia|]. split; [|discriminate]. constructor; [|constructor]. apply andb_true_iff. rewrite !Z.leb_le. lia.
  - pose proof (log2_div10 n L). destruct (IH (n / 10)) as (A & B & C); [apply Z.div_pos; lia|lia|]. split; [|split].
    + rewrite dval_snoc, A. pose proof (Z.div_mod n 10). lia.
    + apply Forall_app. split; auto. constructor; [|constructor]. unfold digit. pose proof (Z.mod_pos_bound n 10). apply andb_true_iff. rewrite !Z.leb_le. lia.
    + destruct (dec_ f (n / 10)); discriminate.
Qed.
Lemma dec_val n : 0 <= n -> dval (dec n) = n.
Proof. intros H. apply dec_ok_; [auto|lia]. Qed.
Lemma dec_digits n : 0 <= n -> Forall (fun c => digit c = true) (dec n).
Proof. intros H. apply dec_ok_; [auto|lia]. Qed.
Lemma dec_nonempty n : 0 <= n -> dec n <> [].
Proof. intros H. apply dec_ok_; [auto|lia]. Qed.
Lemma dec_inj a b : 0 <= a -> 0 <= b -> dec a = dec b -> a = b.
Proof. intros Ha Hb E. rewrite <- (dec_val a), <- (dec_val b), E by auto. auto. Qed.

(** The longest prefix of characters satisfying [p], and the rest. *)
Fixpoint span (p : Z -> bool) (s : list Z) : list Z * list Z :=
  match s with
  | c :: s' => if p c then let (a, b) := span p s' in (c :: a, b) else ([], s)
  | [] => ([], [])
  end.
Lemma span_app p a b : Forall (fun c => p c = true) a -> (forall c r, b = c :: r -> p c = false) -> span p (a ++ b) = (a, b).
Proof.
  intros H Hb. induction H as [|c a Hc _ IH]; cbn [app span].
  - destruct b as [|c r]; auto. cbn [span]. rewrite (Hb c r eq_refl). reflexivity.
  - rewrite Hc, IH. reflexivity.
Qed.
Lemma span_eq p s : fst (span p s) ++ snd (span p s) = s.
Proof. induction s as [|c s IH]; cbn [span]; auto. destruct (p c); auto. destruct (span p s). cbn in *. congruence. Qed.
Lemma span_all p s : Forall (fun c => p c = true) (fst (span p s)).
Proof. induction s as [|c s IH]; cbn [span]; [constructor|]. destruct (p c) eqn:E; [destruct (span p s); cbn in *; auto|constructor]. Qed.
Lemma span_stop p s c r : snd (span p s) = c :: r -> p c = false.
Proof.
  induction s as [|d s IH]; cbn [span]; [discriminate|]. destruct (p d) eqn:E.
  - destruct (span p s). cbn in *. auto.
  - cbn. intros X; inversion X; subst; auto.
Qed.

(** Two strings that end in a run after the last occurrence of a separator. *)
Lemma last_sep_inj (sep : Z) a b x y : ~ In sep x -> ~ In sep y -> a ++ sep :: x = b ++ sep :: y -> a = b /\ x = y.
Proof.
  intros Hx Hy E.
  assert (G : forall (a b x y : list Z), ~ In sep x -> ~ In sep y -> x ++ sep :: a = y ++ sep :: b -> x = y /\ a = b).
  { clear. intros a b x. induction x as [|c x IH]; intros [|d y] Hx Hy E; cbn in *.
    - inversion E. auto.
    - inversion E; subst. exfalso. apply Hy. auto.
    - inversion E; subst. exfalso. apply Hx. auto.
    - inversion E; subst. destruct (IH y) as [-> ->]; auto. }
  apply (f_equal (@rev Z)) in E. rewrite !rev_app_distr in E. cbn [rev] in E. rewrite <- !app_assoc in E. cbn [app] in E.
  destruct (G (rev a) (rev b) (rev x) (rev y)) as [E1 E2]; auto; [intros K; apply Hx; apply in_rev; auto|intros K; apply Hy; apply in_rev; auto|].
  rewrite <- (rev_involutive a), <- (rev_involutive b), <- (rev_involutive x), <- (rev_involutive y), E1, E2. auto.
Qed.
