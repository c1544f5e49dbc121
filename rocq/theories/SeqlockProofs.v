From Coq Require Import ZArith List Bool Lia Znumtheory.
From Verif Require Import CBase SeqlockModel SeqlockSpec.
Import ListNotations.
Open Scope Z_scope.

(** Increments of the sequence number so far: two per finished update, one for an update whose odd store is visible. *)
Definition odd_out (s : sys) : bool := match m_w s with WBusy (SSeq _ :: _) _ => false | WBusy _ _ => true | WIdle => false end.
Definition gen (s : sys) : Z := 2 * (Z.of_nat (length (completed s)) - 1) + (if odd_out s then 1 else 0).
Fixpoint after (p : list store) (d : list Z) : list Z := match p with [] => d | SSeq _ :: p => after p d | SWord i x :: p => after p (upd d (Z.to_nat i) x) end.
Definition is_word (x : store) : Prop := match x with SWord _ _ => True | _ => False end.
Definition inv (s : sys) : Prop :=
  completed s <> [] /\ m_seq s = u32 (gen s) /\ (odd_out s = false -> m_data s = latest s) /\
  match m_w s with
  | WIdle => begun s = Z.of_nat (length (completed s)) - 1
  | WBusy p v => begun s = Z.of_nat (length (completed s)) /\ length v = length (m_data s) /\ after p (m_data s) = v /\
      (Forall is_word p \/ exists p', p = SSeq (u32 (gen s + 1)) :: p' /\ Forall is_word p')
  end.

Lemma words_is i v : Forall is_word (words i v).
Proof. revert i. induction v as [|x v IH]; intros i; cbn; constructor; auto. exact I. Qed.
Lemma after_words v : forall pre d, length d = (length pre + length v)%nat -> firstn (length pre) d = pre -> after (words (Z.of_nat (length pre)) v) d = pre ++ v.
Proof.
  induction v as [|x v IH]; intros pre d L F; cbn [words after].
  - rewrite app_nil_r. cbn in L. rewrite Nat.add_0_r in L. rewrite <- F. symmetry. apply firstn_all2. lia.
  - replace (Z.of_nat (length pre) + 1) with (Z.of_nat (length (pre ++ [x]))) by (rewrite app_length; cbn; lia). rewrite Nat2Z.id. rewrite IH.
    + rewrite <- app_assoc. reflexivity.
    + rewrite upd_length, app_length. cbn in *. lia.
    + rewrite app_length. cbn [length]. cbn [length] in L. clear IH. revert d L F. induction pre as [|y pre IHp]; intros [|z d] L F; cbn in *; try lia.
      * reflexivity.
      * injection F as F1 F2. rewrite F1. f_equal. apply IHp; [lia|auto].
Qed.
Lemma u32_u32 a : u32 (u32 a + 1) = u32 (a + 1).
Proof. unfold u32. apply Zplus_mod_idemp_l. Qed.

Lemma inv_step s s' : inv s -> step true s s' -> inv s' /\ gen s <= gen s' /\ (gen s' = gen s -> odd_out s = odd_out s' /\ latest s' = latest s /\ (odd_out s = false -> m_data s' = m_data s)) /\ begun s <= begun s' /\ length (m_data s') = length (m_data s).
Proof.
  intros (C & Q & D & W) H. inversion H as [s0 v E L|s0 p x q v E O|s0 v E|s0 k E M|s0 k E M|s0 k seq ws x E N|s0 k seq ws E L M|s0 k seq ws E L M|s0 k ws E]; subst; clear H.
  - (* begin *) rewrite E in W. assert (OF : odd_out s = false) by (unfold odd_out; rewrite E; reflexivity). specialize (D OF).
    assert (G : gen (mkSys (m_seq s) (m_data s) (WBusy (SSeq (u32 (m_seq s + 1)) :: words 0 v) v) (m_r s) (completed s) (begun s + 1)) = gen s) by (unfold gen; rewrite OF; reflexivity).
    split; [|split; [lia|split; [intros _; rewrite OF; split; [reflexivity|split; [reflexivity|auto]]|split; [cbn; lia|reflexivity]]]]. unfold inv. rewrite G. cbn [m_seq m_data m_w completed begun odd_out]. split; [auto|]. split; [auto|]. split; [auto|].
    split; [lia|]. split; [auto|]. split; [cbn [after]; apply (after_words v [] (m_data s)); [cbn; auto|reflexivity]|]. right. eexists. split; [|apply words_is]. f_equal. f_equal. rewrite Q. apply u32_u32.
  - (* a store *) assert (P : p = []) by auto. subst p. cbn [app] in *. rewrite E in W. destruct W as (B & L & A & K). destruct x as [nv|i nv]; cbn [apply_store].
    + destruct K as [K|(p' & K1 & K2)]; [inversion K as [|? ? X]; subst; contradiction|]. inversion K1; subst nv p'. assert (OF : odd_out s = false) by (unfold odd_out; rewrite E; reflexivity).
      assert (OT : forall nq, odd_out (mkSys nq (m_data s) (WBusy q v) (m_r s) (completed s) (begun s)) = true) by (intros nq; unfold odd_out; cbn [m_w]; destruct q as [|y q']; [reflexivity|]; inversion K2 as [|? ? Y]; destruct y; [contradiction|reflexivity]).
      assert (G : forall nq, gen (mkSys nq (m_data s) (WBusy q v) (m_r s) (completed s) (begun s)) = gen s + 1) by (intros nq; unfold gen; rewrite OT, OF; cbn [completed]; lia).
      split; [|split; [rewrite G; lia|split; [rewrite G; lia|split; [cbn; lia|reflexivity]]]]. unfold inv. rewrite G, OT. cbn [m_seq m_data m_w completed begun]. split; [auto|]. split; [auto|]. split; [discriminate|]. split; [auto|]. split; [auto|]. split; [exact A|]. left. auto.
    + assert (K' : Forall is_word q) by (destruct K as [K|(p' & K1 & _)]; [inversion K; auto|discriminate]). assert (OT : odd_out s = true) by (unfold odd_out; rewrite E; reflexivity).
      assert (OT' : odd_out (mkSys (m_seq s) (upd (m_data s) (Z.to_nat i) nv) (WBusy q v) (m_r s) (completed s) (begun s)) = true) by (unfold odd_out; cbn [m_w]; destruct q as [|y q']; [reflexivity|]; inversion K' as [|? ? Y]; destruct y; [contradiction|reflexivity]).
      assert (G : gen (mkSys (m_seq s) (upd (m_data s) (Z.to_nat i) nv) (WBusy q v) (m_r s) (completed s) (begun s)) = gen s) by (unfold gen; rewrite OT, OT'; reflexivity).
      split; [|split; [lia|split; [intros _; rewrite OT, OT'; split; [reflexivity|split; [reflexivity|discriminate]]|split; [cbn; lia|cbn; apply upd_length]]]]. unfold inv. rewrite G, OT'. cbn [m_seq m_data m_w completed begun]. split; [auto|]. split; [auto|]. split; [discriminate|]. split; [auto|]. split; [rewrite upd_length; auto|]. split; [exact A|]. left. auto.
  - (* end *) rewrite E in W. destruct W as (B & L & A & _). cbn [after] in A. assert (OT : odd_out s = true) by (unfold odd_out; rewrite E; reflexivity).
    assert (G : gen (mkSys (u32 (m_seq s + 1)) (m_data s) WIdle (m_r s) (v :: completed s) (begun s)) = gen s + 1) by (unfold gen; rewrite OT; cbn [completed odd_out m_w length]; lia).
    split; [|split; [lia|split; [lia|split; [cbn; lia|reflexivity]]]]. unfold inv. rewrite G. cbn [m_seq m_data m_w completed begun odd_out]. split; [discriminate|]. split; [rewrite Q; apply u32_u32|]. split; [intros _; exact A|]. cbn [length]. lia.
  - split; [exact (conj C (conj Q (conj D W)))|]. split; [apply Z.le_refl|]. split; [auto|]. split; [apply Z.le_refl|reflexivity].
  - split; [exact (conj C (conj Q (conj D W)))|]. split; [lia|]. split; [auto|]. split; [lia|reflexivity].
  - split; [exact (conj C (conj Q (conj D W)))|]. split; [apply Z.le_refl|]. split; [auto|]. split; [apply Z.le_refl|reflexivity].
  - split; [exact (conj C (conj Q (conj D W)))|]. split; [apply Z.le_refl|]. split; [auto|]. split; [apply Z.le_refl|reflexivity].
  - split; [exact (conj C (conj Q (conj D W)))|]. split; [apply Z.le_refl|]. split; [auto|]. split; [apply Z.le_refl|reflexivity].
  - split; [exact (conj C (conj Q (conj D W)))|]. split; [apply Z.le_refl|]. split; [auto|]. split; [apply Z.le_refl|reflexivity].
Qed.

Lemma inv_init v0 : inv (init v0).
Proof. unfold inv, init; cbn. split; [discriminate|]. split; [reflexivity|]. split; [auto|]. reflexivity. Qed.
Lemma inv_steps s s' : inv s -> steps true s s' -> inv s'.
Proof. intros I H. induction H as [|a b c H IH K]; [auto|]. exact (proj1 (inv_step _ _ (IH I) K)). Qed.

(** What a reader of a started round knows: as long as the sequence has not moved its words are those of the latest value. *)
Definition rinv (g0 : Z) (k : nat) (s : sys) : Prop :=
  exists seq ws, m_r s k = RReading seq ws /\ seq = u32 g0 /\ g0 <= gen s /\ (gen s = g0 -> odd_out s = false /\ firstn (length ws) (m_data s) = ws).
Lemma set_r_same f k x : set_r f k x k = x.
Proof. unfold set_r. rewrite Nat.eqb_refl. reflexivity. Qed.
Lemma set_r_other f k j x : j <> k -> set_r f k x j = f j.
Proof. intros H. unfold set_r. apply Nat.eqb_neq in H. rewrite H. reflexivity. Qed.
Lemma firstn_snoc {A} (d : list A) ws x : firstn (length ws) d = ws -> nth_error d (length ws) = Some x -> firstn (length (ws ++ [x])) d = ws ++ [x].
Proof.
  revert d. induction ws as [|y ws IH]; intros [|z d] F N; cbn in *; try discriminate; try congruence.
  injection F as F1 F2. rewrite F1. f_equal. auto.
Qed.
Lemma reader_step s s' k : step true s s' -> forall seq ws, m_r s k = RReading seq ws ->
  m_r s' k = RReading seq ws \/ (exists x, m_r s' k = RReading seq (ws ++ [x]) /\ nth_error (m_data s) (length ws) = Some x /\ m_data s' = m_data s) \/ (forall a b, m_r s' k <> RReading a b).
Proof.
  intros H seq ws E.
  destruct H as [s v W L|s p x q v W O|s v W|s j W M|s j W M|s j sq w x W N|s j sq w W L M|s j sq w W L M|s j w W].
  - left. exact E.
  - left. destruct x; exact E.
  - left. exact E.
  - destruct (Nat.eq_dec k j) as [J|J]; [subst j; congruence|]. left. cbn [m_r]. rewrite set_r_other; auto.
  - left. exact E.
  - destruct (Nat.eq_dec k j) as [J|J].
    + subst j. rewrite E in W. injection W as W1 W2. subst. right. left. exists x. cbn [m_r m_data]. rewrite set_r_same. auto.
    + left. cbn [m_r]. rewrite set_r_other; auto.
  - destruct (Nat.eq_dec k j) as [J|J]; [subst j; right; right; intros a b; cbn [m_r]; rewrite set_r_same; discriminate|]. left. cbn [m_r]. rewrite set_r_other; auto.
  - destruct (Nat.eq_dec k j) as [J|J]; [subst j; right; right; intros a b; cbn [m_r]; rewrite set_r_same; discriminate|]. left. cbn [m_r]. rewrite set_r_other; auto.
  - destruct (Nat.eq_dec k j) as [J|J]; [subst j; right; right; intros a b; cbn [m_r]; rewrite set_r_same; discriminate|]. left. cbn [m_r]. rewrite set_r_other; auto.
Qed.
Lemma rinv_step g0 k s s' : inv s -> rinv g0 k s -> step true s s' -> (exists a b, m_r s' k = RReading a b) -> rinv g0 k s'.
Proof.
  intros I (seq & ws & E & Q & G & P) H (a & b & X). destruct (inv_step s s' I H) as (_ & G1 & G2 & _ & _).
  destruct (reader_step s s' k H seq ws E) as [R|[(x & R & N & D)|R]].
  - exists seq, ws. split; [auto|]. split; [auto|]. split; [lia|]. intros S. assert (S' : gen s' = gen s) by lia. destruct (G2 S') as (O1 & _ & O2). destruct P as (P1 & P2); [lia|]. rewrite (O2 P1), <- O1. auto.
  - exists seq, (ws ++ [x]). split; [auto|]. split; [auto|]. split; [lia|]. intros S. assert (S' : gen s' = gen s) by lia. destruct (G2 S') as (O1 & _ & O2). destruct P as (P1 & P2); [lia|]. rewrite (O2 P1), <- O1. split; [auto|]. apply firstn_snoc; auto.
  - exfalso. exact (R a b X).
Qed.
Lemma u32_even g : u32 g mod 2 = g mod 2.
Proof. unfold u32. symmetry. apply Znumtheory.Zmod_div_mod; [lia|reflexivity|]. exists 2147483648. reflexivity. Qed.
Lemma gen_even s : gen s mod 2 = 0 -> odd_out s = false.
Proof.
  unfold gen. destruct (odd_out s); [|auto]. intros H. exfalso. set (n := Z.of_nat (length (completed s))) in *.
  replace (2 * (n - 1) + 1) with (1 + (n - 1) * 2) in H by ring. rewrite Z.mod_add in H by lia. discriminate.
Qed.
Lemma enter_rinv a b k : inv a -> step true a b -> enters a b k -> rinv (gen a) k b /\ gen b = gen a /\ completed b = completed a.
Proof.
  intros I H (E & seq & F). pose proof I as (_ & Q & _ & _).
  destruct H as [s v W L|s p x q v W O|s v W|s j W M|s j W M|s j sq w x W N|s j sq w W L M|s j sq w W L M|s j w W]; cbn [m_r] in F; try congruence.
  - destruct x; cbn in F; congruence.
  - destruct (Nat.eq_dec k j) as [J|J].
    + subst j. rewrite set_r_same in F. injection F as F. split; [|split; reflexivity]. exists seq, []. cbn [m_r]. rewrite set_r_same, F. split; [auto|]. split; [congruence|].
      assert (GE : gen (mkSys (m_seq s) (m_data s) (m_w s) (set_r (m_r s) k (RReading (m_seq s) [])) (completed s) (begun s)) = gen s) by reflexivity. split; [rewrite <- F; lia|].
      intros _. split; [|reflexivity]. apply (gen_even s). rewrite <- u32_even, <- Q. exact M.
    + rewrite set_r_other in F by auto. congruence.
  - destruct (Nat.eq_dec k j) as [J|J]; [subst j; congruence|rewrite set_r_other in F by auto; congruence].
  - destruct (Nat.eq_dec k j) as [J|J]; [subst j; congruence|rewrite set_r_other in F by auto; congruence].
  - destruct (Nat.eq_dec k j) as [J|J]; [subst j; congruence|rewrite set_r_other in F by auto; congruence].
  - destruct (Nat.eq_dec k j) as [J|J]; [subst j; congruence|rewrite set_r_other in F by auto; congruence].
Qed.
Lemma within_rinv g0 k s s' : within true k s s' -> inv s -> rinv g0 k s -> inv s' /\ rinv g0 k s'.
Proof.
  intros H I R. induction H as [|a b c H IH K X]; [auto|]. destruct (IH I R) as (I' & R'). split; [exact (proj1 (inv_step _ _ I' K))|]. exact (rinv_step g0 k b c I' R' K X).
Qed.
Lemma gen_bound a s : gen a mod 2 = 0 -> gen a <= gen s -> Z.of_nat (length (completed s)) - Z.of_nat (length (completed a)) < 2 ^ 31 -> gen s - gen a < 2 ^ 32.
Proof. intros E _ H. pose proof (gen_even a E) as O. unfold gen. rewrite O. destruct (odd_out s); lia. Qed.
Lemma accepts_inv o s t k ws : step o s t -> accepts s t k ws -> exists seq, m_r s k = RReading seq ws /\ length ws = length (m_data s) /\ m_seq s = seq.
Proof.
  intros H ((seq & w & E) & F).
  destruct H as [s v W L|s p x q v W O|s v W|s j W M|s j W M|s j sq u x W N|s j sq u W L M|s j sq u W L M|s j u W]; cbn [m_r] in F; try congruence.
  - destruct x; cbn in F; congruence.
  - destruct (Nat.eq_dec k j) as [J|J]; [subst j; congruence|rewrite set_r_other in F by auto; congruence].
  - destruct (Nat.eq_dec k j) as [J|J]; [subst j; rewrite set_r_same in F; discriminate|rewrite set_r_other in F by auto; congruence].
  - destruct (Nat.eq_dec k j) as [J|J]; [subst j; rewrite set_r_same in F; injection F as F; subst u; exists sq; auto|rewrite set_r_other in F by auto; congruence].
  - destruct (Nat.eq_dec k j) as [J|J]; [subst j; rewrite set_r_same in F; discriminate|rewrite set_r_other in F by auto; congruence].
  - destruct (Nat.eq_dec k j) as [J|J]; [subst j; rewrite set_r_same in F; discriminate|rewrite set_r_other in F by auto; congruence].
Qed.
Theorem accepted v0 a b s t k ws : steps true (init v0) a -> step true a b -> enters a b k -> within true k b s -> step true s t -> accepts s t k ws ->
  Z.of_nat (length (completed s)) - Z.of_nat (length (completed a)) < 2 ^ 31 -> ws = latest s /\ completed s = completed a.
Proof.
  intros Ha Hab En Hw Hst Ac B. destruct (accepts_inv true s t k ws Hst Ac) as (seq & E & L & Q). pose proof (inv_steps _ _ (inv_init v0) Ha) as Ia. destruct (enter_rinv a b k Ia Hab En) as (R & Gb & Cb).
  destruct (within_rinv (gen a) k b s Hw (proj1 (inv_step _ _ Ia Hab)) R) as (Is & Rs). destruct Rs as (sq & w & E' & Q' & G & P). rewrite E in E'. injection E' as E1 E2. subst sq w.
  assert (Ev : gen a mod 2 = 0). { destruct R as (sq & w & _ & _ & _ & P0). destruct (P0 Gb) as (O & _). unfold gen in Gb |- *. rewrite O in Gb. rewrite <- Gb, Z.add_0_r, Z.mul_comm. apply Z.mod_mul. lia. }
  pose proof (gen_bound a s Ev G B) as GB. pose proof Is as (_ & Qs & D & _). assert (GG : gen s = gen a).
  { rewrite Qs, Q' in Q. unfold u32 in Q. assert ((gen s - gen a) mod 2 ^ 32 = 0) as M. { rewrite Zminus_mod, Q, Z.sub_diag. reflexivity. } rewrite Z.mod_small in M by lia. lia. }
  destruct (P GG) as (O & F). split.
  - rewrite <- (D O), <- F, L. apply firstn_all2. lia.
  - clear -Hw Cb GG Gb Hab Ia. assert (T : gen b = gen s) by lia. clear GG Gb. pose proof (proj1 (inv_step _ _ Ia Hab)) as Ib. rewrite <- Cb. clear -Hw Ib T.
    assert (X : inv s /\ gen b <= gen s /\ (gen b = gen s -> completed s = completed b)).
    { clear T. induction Hw as [|a b c H IH K X]; [split; [auto|]; split; [lia|auto]|]. destruct (IH Ib) as (I1 & I2 & I3). destruct (inv_step _ _ I1 K) as (J1 & J2 & J3 & _). split; [auto|]. split; [lia|]. intros S.
      rewrite <- I3 by lia. assert (S' : gen c = gen b) by lia. destruct (J3 S') as (O & _). unfold gen in S'. rewrite O in S'. assert (L : length (completed c) = length (completed b)) by lia.
      destruct K; cbn [completed] in *; auto. { destruct x; reflexivity. } cbn in L. lia. }
    apply X. auto.
Qed.

(** A whole update while reader [k] stays inside its loop, for the counterexamples. *)
Lemma one_write o k sq ws s v : m_r s k = RReading sq ws -> m_w s = WIdle -> length v = 2%nat -> length (m_data s) = 2%nat ->
  within o k s (mkSys (u32 (u32 (m_seq s + 1) + 1)) v WIdle (m_r s) (v :: completed s) (begun s + 1)).
Proof.
  intros R W L D. destruct v as [|a [|b [|? ?]]]; cbn in L; try lia. destruct s as [q d w r c n]; cbn in *. destruct d as [|x [|y [|? ?]]]; cbn in D; try lia. subst w.
  eapply InN; [| apply (WEnd o (mkSys (u32 (q + 1)) [a; b] (WBusy [] [a; b]) r c (n + 1)) [a; b]); reflexivity|exists sq, ws; exact R]. eapply InN; [| apply (WStore o (mkSys (u32 (q + 1)) [a; y] (WBusy [SWord 1 b] [a; b]) r c (n + 1)) [] (SWord 1 b) [] [a; b]); [reflexivity|auto]|exists sq, ws; exact R].
  eapply InN; [| apply (WStore o (mkSys (u32 (q + 1)) [x; y] (WBusy [SWord 0 a; SWord 1 b] [a; b]) r c (n + 1)) [] (SWord 0 a) [SWord 1 b] [a; b]); [reflexivity|auto]|exists sq, ws; exact R].
  eapply InN; [| apply (WStore o (mkSys q [x; y] (WBusy [SSeq (u32 (q + 1)); SWord 0 a; SWord 1 b] [a; b]) r c (n + 1)) [] (SSeq (u32 (q + 1))) [SWord 0 a; SWord 1 b] [a; b]); [reflexivity|auto]|exists sq, ws; exact R].
  eapply InN; [| apply (WBegin o (mkSys q [x; y] WIdle r c n) [a; b]); reflexivity|exists sq, ws; exact R]. apply In0.
Qed.

Lemma u32_add2 q : u32 (u32 (q + 1) + 1) = u32 (q + 2).
Proof. rewrite u32_u32. f_equal. lia. Qed.
Lemma within_trans o k a b c : within o k a b -> within o k b c -> within o k a c.
Proof. intros H K. induction K as [|x y z K IH S X]; [auto|]. exact (InN o k a y z (IH H) S X). Qed.
Lemma many_writes o k sq ws v (n : nat) : length v = 2%nat -> forall s, m_r s k = RReading sq ws -> m_w s = WIdle -> length (m_data s) = 2%nat -> m_seq s = u32 (m_seq s) ->
  exists s', within o k s s' /\ m_seq s' = u32 (m_seq s + 2 * Z.of_nat n) /\ m_w s' = WIdle /\ m_r s' = m_r s /\ m_data s' = (if Nat.eqb n 0 then m_data s else v) /\
    length (completed s') = (length (completed s) + n)%nat /\ Forall (fun x => x = v \/ In x (completed s)) (completed s').
Proof.
  intros L. induction n as [|n IH]; intros s R W D Q.
  - exists s. split; [apply In0|]. split; [rewrite Z.add_0_r; auto|]. split; [auto|]. split; [auto|]. split; [auto|]. split; [lia|]. apply Forall_forall. auto.
  - destruct (IH s R W D Q) as (s1 & H1 & H2 & H3 & H4 & H5 & H6 & H7). assert (D1 : length (m_data s1) = 2%nat) by (rewrite H5; destruct (Nat.eqb n 0); auto).
    assert (R1 : m_r s1 k = RReading sq ws) by (rewrite H4; auto). pose proof (one_write o k sq ws s1 v R1 H3 L D1) as O1.
    eexists. split; [exact (within_trans o k _ _ _ H1 O1)|]. cbn [m_seq m_w m_r m_data completed]. split; [|split; [reflexivity|split; [auto|split; [reflexivity|split; [cbn; lia|]]]]].
    + rewrite u32_add2, H2. unfold u32. rewrite Zplus_mod_idemp_l. f_equal. lia.
    + constructor; [auto|exact H7].
Qed.
