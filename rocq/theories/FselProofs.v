(** Proofs for the choice of files. *)
From Coq Require Import ZArith List Lia Bool.
From Verif Require Import CBase FloatZ FselModel FselSpec.
Import ListNotations.
Open Scope Z_scope.

(** No opening fails half way. *)
Definition nohalf (h : outcomes) : Prop := forall o, h o -> o <> Half.

Definition b2z (b : bool) : Z := if b then 1 else 0.

Lemma nth_upd_same {A} (l : list A) i (x y : A) : nth_error l i = Some y -> nth_error (upd l i x) i = Some x.
Proof. revert i. induction l as [|z l IH]; intros [|i] H; cbn in *; try discriminate; auto. Qed.

Lemma nth_upd_other {A} (l : list A) i j (x : A) : i <> j -> nth_error (upd l i x) j = nth_error l j.
Proof. revert i j. induction l as [|z l IH]; intros [|i] [|j] H; cbn; try reflexivity; [congruence|]. apply IH. congruence. Qed.

Lemma upd_length {A} (l : list A) i (x : A) : length (upd l i x) = length l.
Proof. revert i. induction l as [|z l IH]; intros [|i]; cbn; auto. Qed.

Lemma upd_upd {A} (l : list A) i (x y : A) : upd (upd l i x) i y = upd l i y.
Proof. revert i. induction l as [|z l IH]; intros [|i]; cbn; auto. now rewrite IH. Qed.

Lemma howmany_upd p l i f g : nth_error l i = Some f -> howmany p (upd l i g) = howmany p l - b2z (p f) + b2z (p g).
Proof.
  unfold howmany. revert i. induction l as [|z l IH]; intros [|i] H; cbn in *; try discriminate.
  - injection H as ->. destruct (p f), (p g); cbn [length b2z]; lia.
  - specialize (IH i H). destruct (p z); cbn [length]; lia.
Qed.

Lemma howmany_le p l : 0 <= howmany p l <= Z.of_nat (length l).
Proof. unfold howmany. induction l as [|z l IH]; cbn; [lia|]. destruct (p z); cbn [length]; lia. Qed.

Lemma howmany_all p l : howmany p l = Z.of_nat (length l) -> Forall (fun f => p f = true) l.
Proof.
  unfold howmany. induction l as [|z l IH]; cbn; intros H; [constructor|].
  assert (B : 0 <= Z.of_nat (length (filter p l)) <= Z.of_nat (length l)) by (apply (howmany_le p l)).
  destruct (p z) eqn:E; cbn [length] in H; [|lia]. constructor; [exact E|]. apply IH. lia.
Qed.

Lemma howmany_some p l : 0 < howmany p l -> exists i f, nth_error l i = Some f /\ p f = true.
Proof.
  unfold howmany. induction l as [|z l IH]; cbn; intros H; [lia|]. destruct (p z) eqn:E.
  - exists O, z. auto.
  - destruct (IH H) as (i & f & H1 & H2). exists (S i), f. auto.
Qed.

Lemma howmany_not_all p l : howmany p l < Z.of_nat (length l) -> exists i f, nth_error l i = Some f /\ p f = false.
Proof.
  unfold howmany. induction l as [|z l IH]; cbn; intros H; [lia|]. destruct (p z) eqn:E.
  - cbn [length] in H. destruct IH as (i & f & H1 & H2); [lia|]. exists (S i), f. auto.
  - exists O, z. auto.
Qed.

Definition plain (c : cfg) (s : td) : Prop :=
  ndone s = howmany dn (files s) /\ nopen s <= limit c /\
  (forall i f, nth_error (files s) i = Some f -> (dn f = true -> op f = true -> cl f = true) /\ (knd c <> Skewed -> cl f = true -> dn f = true)).

Definition inv (c : cfg) (verify : bool) (half : outcomes) (s : td) (fl : flight) : Prop :=
  length (files s) = nr c /\ (next s < nr c)%nat /\ (forall i, cur s = Some i -> (i < nr c)%nat) /\
  (forall i f, nth_error (files s) i = Some f -> file_ok f (fl i)) /\
  (forall i, (nr c <= i)%nat -> fl i = 0) /\
  nopen s = howmany op (files s) /\
  (verify = false -> plain c s) /\
  (nohalf half -> forall i f, nth_error (files s) i = Some f -> op f = fd f).

Lemma inv_nth c v h s fl i : inv c v h s fl -> (i < nr c)%nat -> exists f, nth_error (files s) i = Some f.
Proof. intros (L & _) H. rewrite <- L in H. apply nth_error_Some in H. destruct (nth_error (files s) i) as [f|]; [now exists f|congruence]. Qed.

(** A change of one file. *)
Lemma local c v h s fl i f f' o' d' n' c' l' fl' : inv c v h s fl -> nth_error (files s) i = Some f ->
  file_ok f' (fl' i) -> (forall j, j <> i -> fl' j = fl j) ->
  o' = nopen s - b2z (op f) + b2z (op f') -> (n' < nr c)%nat -> (forall k, c' = Some k -> (k < nr c)%nat) ->
  (v = false -> d' = ndone s - b2z (dn f) + b2z (dn f') /\ o' <= limit c /\ (dn f' = true -> op f' = true -> cl f' = true) /\
     (knd c <> Skewed -> cl f' = true -> dn f' = true)) ->
  (nohalf h -> op f' = fd f') ->
  inv c v h (Td (upd (files s) i f') o' d' n' c' l') fl'.
Proof.
  intros (L & N & C & K & Z0 & O & P & Hh) I K' FL HO HN HC HP HH.
  assert (IL : (i < nr c)%nat) by (rewrite <- L; apply nth_error_Some; congruence).
  unfold inv. cbn [files next cur nopen].
  split; [now rewrite upd_length|]. split; [exact HN|]. split; [exact HC|].
  split. { intros j g J. destruct (Nat.eq_dec i j) as [<-|NE].
    - rewrite (nth_upd_same _ _ _ _ I) in J. now injection J as <-.
    - rewrite nth_upd_other in J by exact NE. rewrite FL by congruence. now apply K. }
  split. { intros j J. rewrite FL by lia. now apply Z0. }
  split. { rewrite (howmany_upd op _ _ _ _ I). lia. }
  split.
  - intros V. specialize (P V). specialize (HP V). destruct P as (P1 & P2 & P3), HP as (Q1 & Q2 & Q3 & Q4).
    unfold plain. cbn [ndone files nopen]. split; [rewrite (howmany_upd dn _ _ _ _ I); lia|]. split; [exact Q2|].
    intros j g J. destruct (Nat.eq_dec i j) as [<-|NE].
    + rewrite (nth_upd_same _ _ _ _ I) in J. injection J as <-. auto.
    + rewrite nth_upd_other in J by exact NE. now apply (P3 j).
  - intros Hf j g J. destruct (Nat.eq_dec i j) as [<-|NE].
    + rewrite (nth_upd_same _ _ _ _ I) in J. injection J as <-. auto.
    + rewrite nth_upd_other in J by exact NE. now apply (Hh Hf j).
Qed.

Lemma inv_move c v h s fl n' c' l' : inv c v h s fl -> (n' < nr c)%nat -> (forall k, c' = Some k -> (k < nr c)%nat) ->
  inv c v h (Td (files s) (nopen s) (ndone s) n' c' l') fl.
Proof.
  intros (L & N & C & K & Z0 & O & P & Hh) HN HC. unfold inv, plain in *. cbn [files next cur nopen ndone].
  split; [exact L|]. split; [exact HN|]. split; [exact HC|]. auto.
Qed.

Lemma inv_fl c v h s fl fl' : inv c v h s fl -> (forall i, fl' i = fl i) -> inv c v h s fl'.
Proof.
  intros (L & N & C & K & Z0 & O & P & Hh) E. unfold inv. repeat (split; [assumption|]).
  split; [intros i f I; rewrite E; auto|]. split; [intros i I; rewrite E; auto|]. auto.
Qed.

Lemma more_same fl i d : more fl i d i = fl i + d.
Proof. unfold more. now rewrite Nat.eqb_refl. Qed.
Lemma more_other fl i d j : j <> i -> more fl i d j = fl j.
Proof. unfold more. intros H. destruct (Nat.eqb_spec j i); [congruence|reflexivity]. Qed.

(** ** References *)

Lemma get_inv c v h s fl i f : inv c v h s fl -> nth_error (files s) i = Some f -> op f = true ->
  exists s', get_file s i = Some s' /\ inv c v h s' (more fl i 1) /\ ndone s' = ndone s /\ next s' = next s /\ cur s' = cur s.
Proof.
  intros H I O. unfold get_file. rewrite I, O. eexists. split; [reflexivity|]. split; [|cbn; auto]. unfold setf.
  pose proof H as (L & N & C & K & _ & _ & P & Hh). specialize (K i f I). destruct K as (K1 & K2 & K3 & K4).
  eapply local; [exact H|exact I| | | | | | |]; cbn [op cl dn refs fd].
  - rewrite more_same. unfold file_ok. cbn [op cl refs]. rewrite O in *. split; [lia|]. split; [lia|]. split; [|auto]. split; [intros _; destruct (true && negb (cl f)); lia|auto].
  - intros j J. now apply more_other.
  - rewrite O. cbn. lia.
  - exact N.
  - exact C.
  - intros V. destruct (P V) as (P1 & P2 & P3). destruct (P3 i f I) as (P4 & P5). split; [lia|]. auto.
  - intros X. rewrite <- O. exact (Hh X i f I).
Qed.

Lemma put_inv c v h s fl i : inv c v h s fl -> (i < nr c)%nat -> 0 < fl i ->
  exists s', put_file s i = Some s' /\ inv c v h s' (more fl i (-1)) /\ ndone s' = ndone s /\ next s' = next s /\ cur s' = cur s.
Proof.
  intros H I0 B. destruct (inv_nth _ _ _ _ _ _ H I0) as (f & I). pose proof H as (L & N & C & K & _ & OO & P & Hh).
  specialize (K i f I). destruct K as (K1 & K2 & K3 & K4). unfold put_file. rewrite I.
  assert (R : 0 < refs f) by (destruct (op f && negb (cl f)); lia). assert (O : op f = true) by now apply K3. rewrite O.
  destruct (Z.eqb_spec (refs f) 0); [lia|]. destruct (Z.eqb_spec (refs f - 1) 0) as [E|E].
  - eexists. split; [reflexivity|]. split; [|cbn; auto]. unfold setf. eapply local; [exact H|exact I| | | | | | |]; cbn [op cl dn refs fd].
    + rewrite more_same. unfold file_ok. cbn. rewrite O in K2. destruct (cl f); cbn in K2; [|lia].
      split; [lia|]. split; [lia|]. split; [split; [discriminate|lia]|auto].
    + intros j J. now apply more_other.
    + rewrite O. cbn. lia.
    + exact N.
    + exact C.
    + intros V. destruct (P V) as (P1 & P2 & P3). split; [lia|]. split; [lia|]. split; [auto|discriminate].
    + reflexivity.
  - eexists. split; [reflexivity|]. split; [|cbn; auto]. unfold setf. eapply local; [exact H|exact I| | | | | | |]; cbn [op cl dn refs fd].
    + rewrite more_same. unfold file_ok. cbn [op cl refs]. rewrite O in *.
      split; [lia|]. split; [lia|]. split; [split; [lia|auto]|auto].
    + intros j J. now apply more_other.
    + rewrite O. cbn. lia.
    + exact N.
    + exact C.
    + intros V. destruct (P V) as (P1 & P2 & P3). destruct (P3 i f I) as (P4 & P5). split; [lia|]. auto.
    + intros X. rewrite <- O. exact (Hh X i f I).
Qed.

(** ** Opening *)

Lemma open_inv c v h s fl i f o : inv c v h s fl -> nth_error (files s) i = Some f -> op f = false ->
  h o -> (v = false -> dn f = false /\ nopen s < limit c) ->
  exists s' e, open_file s i o = Some (s', e) /\ inv c v h s' fl /\ next s' = next s /\ cur s' = cur s /\ left_ s' = left_ s /\
    ndone s' = ndone s /\ (e = false -> nth_error (files s') i = Some (F true false (dn f) (refs f + 1) true)) /\
    (o = Opened -> e = false) /\ (o = Refused -> s' = s).
Proof.
  intros H I O T LM. pose proof H as (L & N & C & K & _ & OO & P & Hh). specialize (K i f I). destruct K as (K1 & K2 & K3 & K4).
  unfold open_file. rewrite I, O. assert (CL : cl f = false) by (destruct (cl f); [rewrite O in K4; now specialize (K4 eq_refl)|reflexivity]). rewrite CL.
  assert (R0 : refs f = 0). { rewrite O in K2. cbn in K2. destruct (Z.eq_dec (refs f) 0); [assumption|]. assert (op f = true) by (apply K3; lia). congruence. }
  assert (KO : forall b, file_ok (F true false (dn f) (refs f + 1) b) (fl i)).
  { intros b. unfold file_ok. cbn. rewrite O in K2. cbn in K2. split; [lia|]. split; [lia|]. split; [split; [lia|auto]|auto]. }
  assert (G : forall b, (nohalf h -> b = true) -> inv c v h (setf s i (F true false (dn f) (refs f + 1) b) (nopen s + 1)) fl).
  { intros b Hb. unfold setf. eapply local; [exact H|exact I|apply KO|auto| | | | |]; cbn [op cl dn refs fd].
    - rewrite O. cbn. lia.
    - exact N.
    - exact C.
    - intros V. destruct (P V) as (P1 & P2 & P3). destruct (LM V) as (D & LL). split; [lia|]. split; [lia|]. rewrite D. split; congruence.
    - intros X. now rewrite Hb. }
  destruct o.
  - exists (setf s i (F true false (dn f) (refs f + 1) true) (nopen s + 1)), false. split; [reflexivity|]. split; [now apply G|]. cbn [setf next cur left_ ndone files].
    repeat (split; [reflexivity|]). split; [intros _; eapply nth_upd_same; exact I|]. split; [auto|discriminate].
  - exists s, true. split; [reflexivity|]. split; [exact H|]. repeat (split; [reflexivity|]). split; [discriminate|]. split; [discriminate|auto].
  - exists (setf s i (F true false (dn f) (refs f + 1) false) (nopen s + 1)), true. split; [reflexivity|].
    split; [apply G; intros X; exfalso; now apply (X Half T)|]. cbn [setf next cur left_ ndone]. repeat (split; [reflexivity|]). split; [discriminate|]. split; discriminate.
Qed.

(** ** Trying a file *)

Definition suffix_ok (c : cfg) (h : outcomes) (ins : list input) : Prop := drawn c ins /\ Forall (fun x => h (snd x)) ins.

Definition same_place (s s' : td) : Prop := next s' = next s /\ cur s' = cur s /\ left_ s' = left_ s /\ ndone s' = ndone s.

Lemma try_inv c v h s fl i ins : inv c v h s fl -> (i < nr c)%nat -> suffix_ok c h ins ->
  exists r, try c s i ins = Some r /\
  match r with
  | inl (s', p) => inv c v h s' fl /\ same_place s s' /\
     match p with
     | File k => k = i /\ exists f, nth_error (files s') i = Some f /\ op f = true /\ cl f = false /\ dn f = false
     | Busy => s' = s /\ limit c <= nopen s
     | Hungry => True
     | Nothing => False
     end
  | inr (s', ins') => inv c v h s' fl /\ same_place s s' /\ suffix_ok c h ins'
  end.
Proof.
  intros H I0 S. destruct (inv_nth _ _ _ _ _ _ H I0) as (f & I). unfold try. rewrite I.
  destruct (dn f) eqn:D; [eexists; split; [reflexivity|]; split; [exact H|]; split; [unfold same_place; auto|exact S]|].
  destruct (op f) eqn:O.
  - destruct (cl f) eqn:CL; (eexists; split; [reflexivity|]); (split; [exact H|]); (split; [unfold same_place; auto|]); [exact S|].
    split; [reflexivity|]. exists f. auto.
  - destruct (Z.leb_spec (limit c) (nopen s)).
    { eexists. split; [reflexivity|]. split; [exact H|]. split; [unfold same_place; auto|]. auto. }
    destruct ins as [|(d, o) ins']; [eexists; split; [reflexivity|]; split; [exact H|]; split; [unfold same_place; auto|trivial]|].
    destruct S as (S1 & S2). inversion S1; subst. inversion S2; subst. cbn [snd] in *.
    destruct (open_inv c v h s fl i f o H I O H5 ltac:(intros _; split; [exact D|lia])) as (s' & e & E & INV & N' & C' & L' & D' & X & _).
    rewrite E. destruct e.
    + eexists. split; [reflexivity|]. split; [exact INV|]. split; [unfold same_place; auto|]. split; assumption.
    + rewrite (X eq_refl). cbn [op cl andb negb]. eexists. split; [reflexivity|]. split; [exact INV|]. split; [unfold same_place; auto|].
      split; [reflexivity|]. eexists. split; [apply X; reflexivity|]. cbn. auto.
Qed.

(** ** Round robin *)

Fixpoint scan (n : nat) (c : cfg) (s : td) (ins : list input) : option (td * pick) :=
  match n with
  | O => Some (s, Nothing)
  | S n' =>
    match try c (advance c s) (next s) ins with
    | None => None
    | Some (inl r) => Some r
    | Some (inr (s', ins')) => scan n' c s' ins'
    end
  end.

Lemma advance_next c s : (next s < nr c)%nat -> next (advance c s) = ((next s + 1) mod nr c)%nat.
Proof.
  intros H. unfold advance. cbn [next]. destruct (Nat.leb_spec (nr c) (S (next s))).
  - replace (next s + 1)%nat with (nr c) by lia. now rewrite Nat.mod_same by lia.
  - rewrite Nat.mod_small by lia. lia.
Qed.

Lemma try_place c s i ins r : try c s i ins = Some r -> match r with inl (s', _) => next s' = next s | inr (s', _) => next s' = next s end.
Proof.
  unfold try. destruct (nth_error (files s) i) as [f|]; [|discriminate]. destruct (dn f); [intros [= <-]; reflexivity|].
  destruct (op f); [destruct (cl f); intros [= <-]; reflexivity|]. destruct (limit c <=? nopen s); [intros [= <-]; reflexivity|].
  destruct ins as [|(d, o) ins']; [intros [= <-]; reflexivity|].
  assert (PF : forall s i s', put_file s i = Some s' -> next s' = next s).
  { clear. intros s i s'. unfold put_file. destruct (nth_error (files s) i) as [f|]; [|discriminate].
    destruct (op f); [|now intros [= <-]]. destruct (refs f =? 0); [discriminate|]. destruct (refs f - 1 =? 0); now intros [= <-]. }
  assert (GF : forall s i s', get_file s i = Some s' -> next s' = next s).
  { clear. intros s i s'. unfold get_file. destruct (nth_error (files s) i) as [f|]; [|discriminate]. destruct (op f); [|discriminate]. now intros [= <-]. }
  destruct (open_file s i o) as [(s', e)|] eqn:E; [|discriminate].
  assert (N' : next s' = next s).
  { unfold open_file in E. destruct (nth_error (files s) i) as [g|]; [|discriminate]. destruct (cl g).
    - destruct (get_file (setf s i _ _) i) eqn:G; [|discriminate]. injection E as <- _. apply GF in G. exact G.
    - destruct (op g); [discriminate|]. destruct o; injection E as <- _; reflexivity. }
  destruct e; [intros [= <-]; exact N'|]. destruct (nth_error (files s') i) as [f'|]; [|discriminate].
  destruct (op f' && negb (cl f')); [intros [= <-]; exact N'|]. destruct (close_file s' i) as [s''|] eqn:CF; [|discriminate].
  intros [= <-]. unfold close_file in CF. destruct (nth_error (files s') i); [|discriminate]. apply PF in CF. cbn [setf next] in CF. congruence.
Qed.

Lemma rr_scan c m : forall s old ins, (old < nr c)%nat -> (1 <= m <= nr c)%nat -> next s = ((old + (nr c - m)) mod nr c)%nat ->
  rr m c s old ins = scan m c s ins.
Proof.
  induction m as [|m IH]; intros s old ins HO HM HN; [lia|]. cbn [rr scan].
  destruct (try c (advance c s) (next s) ins) as [[(s', p)|(s', ins')]|] eqn:T; [reflexivity| |reflexivity].
  apply try_place in T. rewrite advance_next in T by (rewrite HN; apply Nat.mod_upper_bound; lia). rewrite HN in T.
  rewrite Nat.add_mod_idemp_l in T by lia.
  destruct (Nat.eq_dec m 0) as [->|M0].
  - replace (old + (nr c - 1) + 1)%nat with (old + 1 * nr c)%nat in T by lia. rewrite Nat.mod_add, Nat.mod_small in T by lia.
    rewrite T, Nat.eqb_refl. reflexivity.
  - replace (old + (nr c - S m) + 1)%nat with (old + (nr c - m))%nat in T by lia.
    destruct (Nat.eqb_spec (next s') old) as [E|E].
    + exfalso. rewrite T in E. destruct (Nat.lt_ge_cases (old + (nr c - m)) (nr c)) as [X|X].
      * rewrite Nat.mod_small in E by exact X. lia.
      * replace (old + (nr c - m))%nat with ((old - m) + 1 * nr c)%nat in E by lia. rewrite Nat.mod_add, Nat.mod_small in E by lia. lia.
    + apply IH; [exact HO|lia|exact T].
Qed.

Lemma rr_full c s ins : (next s < nr c)%nat -> rr (nr c) c s (next s) ins = scan (nr c) c s ins.
Proof. intros H. apply rr_scan; [exact H|lia|]. rewrite Nat.sub_diag, Nat.add_0_r, Nat.mod_small by exact H. reflexivity. Qed.

Lemma advance_inv c v h s fl : inv c v h s fl -> inv c v h (advance c s) fl.
Proof.
  intros H. pose proof H as (L & N & C & _). unfold advance. apply inv_move; [exact H| |exact C].
  destruct (Nat.leb_spec (nr c) (S (next s))); lia.
Qed.

Definition picked (c : cfg) (s' : td) (p : pick) : Prop :=
  match p with
  | File i => (i < nr c)%nat /\ exists f, nth_error (files s') i = Some f /\ op f = true /\ cl f = false /\ dn f = false
  | _ => True
  end.

Lemma scan_inv c v h n : forall s fl ins, inv c v h s fl -> suffix_ok c h ins ->
  exists s' p, scan n c s ins = Some (s', p) /\ inv c v h s' fl /\ cur s' = cur s /\ ndone s' = ndone s /\ picked c s' p /\
    (p = Busy -> limit c <= nopen s').
Proof.
  induction n as [|n IH]; intros s fl ins H S.
  - exists s, Nothing. cbn. repeat (split; [auto|]). discriminate.
  - cbn [scan]. pose proof H as (L & N & C & _).
    destruct (try_inv c v h (advance c s) fl (next s) ins (advance_inv _ _ _ _ _ H) N S) as (r & E & R). rewrite E. destruct r as [(s', p)|(s', ins')].
    + destruct R as (R1 & (R2 & R3 & R4 & R5) & R6). exists s', p. split; [reflexivity|]. split; [exact R1|]. cbn [advance cur ndone] in R3, R5.
      split; [exact R3|]. split; [exact R5|]. split.
      * destruct p; cbn; auto. destruct R6 as (-> & X). auto.
      * intros ->. destruct R6 as (-> & X). exact X.
    + destruct R as (R1 & (R2 & R3 & R4 & R5) & R6). destruct (IH s' fl ins' R1 R6) as (s2 & p & X1 & X2 & X3 & X4 & X5).
      exists s2, p. split; [exact X1|]. split; [exact X2|]. cbn [advance cur ndone] in R3, R5. split; [congruence|]. split; [congruence|exact X5].
Qed.

Lemma rand_inv c v h ins : forall s fl, inv c v h s fl -> suffix_ok c h ins ->
  exists s' p, rand c s ins = Some (s', p) /\ inv c v h s' fl /\ cur s' = cur s /\ ndone s' = ndone s /\ picked c s' p /\
    (p = Busy -> limit c <= nopen s').
Proof.
  induction ins as [|x ins IH]; intros s fl H (S1 & S2).
  - exists s, Hungry. cbn. repeat (split; [auto|]). discriminate.
  - cbn [rand]. inversion S1; subst. inversion S2; subst.
    destruct (try_inv c v h s fl (fst x) [x] H H2 ltac:(split; constructor; auto)) as (r & E & R). rewrite E. destruct r as [(s', p)|(s', ins')].
    + destruct R as (R1 & (R2 & R3 & R4 & R5) & R6). exists s', p. split; [reflexivity|]. split; [exact R1|].
      split; [exact R3|]. split; [exact R5|]. split.
      * destruct p; cbn; auto. destruct R6 as (-> & X). auto.
      * intros ->. destruct R6 as (-> & X). exact X.
    + destruct R as (R1 & (R2 & R3 & R4 & R5) & R6). destruct (IH s' fl R1 ltac:(split; assumption)) as (s2 & p & X1 & X2 & X3 & X4 & X5).
      exists s2, p. split; [exact X1|]. split; [exact X2|]. split; [congruence|]. split; [congruence|exact X5].
Qed.

(** ** The choice *)

Definition choice (c : cfg) (s : td) (ins : list input) : option (td * pick) :=
  match knd c with RR | Seq => rr (nr c) c s (next s) ins | Uniform | Skewed => rand c s ins end.

Lemma choice_inv c v h s fl ins : inv c v h s fl -> suffix_ok c h ins ->
  exists s' p, choice c s ins = Some (s', p) /\ inv c v h s' fl /\ cur s' = cur s /\ ndone s' = ndone s /\ picked c s' p /\
    (p = Busy -> limit c <= nopen s').
Proof.
  intros H S. pose proof H as (L & N & C & _). unfold choice. destruct (knd c).
  - rewrite rr_full by exact N. now apply scan_inv.
  - rewrite rr_full by exact N. now apply scan_inv.
  - now apply rand_inv.
  - now apply rand_inv.
Qed.

Definition usable_at (c : cfg) (s : td) (v : bool) (p : pick) : Prop :=
  match p with
  | File i => (i < nr c)%nat /\ exists f, nth_error (files s) i = Some f /\ op f = true /\ cl f = false /\ (v = false -> dn f = false)
  | _ => True
  end.

Lemma get_next_inv c v h s fl ins : inv c v h s fl -> suffix_ok c h ins ->
  exists s' p, get_next_file c s ins = Some (s', p) /\ inv c v h s' fl /\ ndone s' = ndone s /\ usable_at c s' v p /\
    (p = Busy -> limit c <= nopen s').
Proof.
  intros H S. pose proof H as (L & N & C & K & _ & _ & P & _). unfold get_next_file. cbv zeta.
  change (match knd c with RR | Seq => rr (nr c) c s (next s) ins | Uniform | Skewed => rand c s ins end) with (choice c s ins).
  set (ch := match choice c s ins with Some _ => _ | None => _ end).
  assert (G : exists s' p, ch = Some (s', p) /\ inv c v h s' fl /\ ndone s' = ndone s /\ usable_at c s' v p /\ (p = Busy -> limit c <= nopen s')).
  { unfold ch. destruct (choice_inv c v h s fl ins H S) as (s' & p & E & I' & C' & D' & PK & B). rewrite E. pose proof I' as (_ & N' & CC & _).
    destruct p; eexists _, _; (split; [reflexivity|]).
    - split; [apply inv_move; [exact I'|exact N'|intros k [= <-]; apply PK]|]. split; [exact D'|]. split; [|discriminate].
      destruct PK as (P1 & f & P2 & P3 & P4 & P5). split; [exact P1|]. exists f. auto.
    - split; [apply inv_move; [exact I'|exact N'|discriminate]|]. split; [exact D'|]. split; [exact I|discriminate].
    - split; [exact I'|]. split; [exact D'|]. split; [exact I|exact B].
    - split; [exact I'|]. split; [exact D'|]. split; [exact I|discriminate]. }
  destruct (Z.of_nat (nr c) <=? ndone s).
  { eexists _, _. split; [reflexivity|]. split; [exact H|]. split; [reflexivity|]. split; [exact I|discriminate]. }
  destruct (cur s) as [i|] eqn:CU; [|exact G]. destruct (usable s i) eqn:U; [|exact G].
  assert (UA : usable_at c s v (File i)).
  { split; [now apply C|]. unfold usable in U. destruct (nth_error (files s) i) as [f|] eqn:I; [|discriminate]. apply andb_true_iff in U. destruct U as (U1 & U2).
    apply negb_true_iff in U2. exists f. split; [reflexivity|]. split; [exact U1|]. split; [exact U2|]. intros V. destruct (P V) as (_ & _ & P3). destruct (P3 i f I) as (P4 & _).
    destruct (dn f); [|reflexivity]. specialize (P4 eq_refl U1). congruence. }
  assert (KEEP : exists s' p, Some (Td (files s) (nopen s) (ndone s) (next s) (Some i) (left_ s - 1), File i) = Some (s', p) /\ inv c v h s' fl /\ ndone s' = ndone s /\ usable_at c s' v p /\ (p = Busy -> limit c <= nopen s')).
  { eexists _, _. split; [reflexivity|]. split; [apply inv_move; [exact H|exact N|intros k [= <-]; now apply C]|]. split; [reflexivity|]. split; [exact UA|discriminate]. }
  destruct (knd c).
  - destruct (left_ s =? 0); [exact G|exact KEEP].
  - eexists _, _. split; [reflexivity|]. split; [exact H|]. split; [reflexivity|]. split; [exact UA|discriminate].
  - destruct (left_ s =? 0); [exact G|exact KEEP].
  - destruct (left_ s =? 0); [exact G|exact KEEP].
Qed.

(** ** One round of set_io_u_file *)

Lemma ask_inv c v h s fl ins fits : inv c v h s fl -> suffix_ok c h ins ->
  exists s' p, ask c s ins fits = Some (s', p) /\ inv c v h s' (match p with File i => more fl i 1 | _ => fl end) /\
    usable_at c s' v p /\ (p = Busy -> limit c <= nopen s').
Proof.
  intros H S. destruct (get_next_inv c v h s fl ins H S) as (s1 & p & E & I1 & D1 & U & B). unfold ask. rewrite E.
  destruct p as [i| | |]; try (eexists _, _; split; [reflexivity|]; split; [exact I1|]; split; [exact U|exact B]).
  destruct U as (I0 & f & I & O & CL & DF). pose proof I1 as (L & N & C & K & _ & OO & P & Hh).
  destruct fits.
  - destruct (get_inv c v h s1 fl i f I1 I O) as (s2 & G & I2 & _). rewrite G. eexists _, _. split; [reflexivity|]. split; [exact I2|]. split; [|discriminate].
    split; [exact I0|]. unfold get_file in G. rewrite I, O in G. injection G as <-. cbn [setf files].
    eexists. split; [eapply nth_upd_same; exact I|]. cbn. auto.
  - pose proof (K i f I) as (K1 & K2 & K3 & K4). rewrite O, CL in K2. cbn in K2.
    unfold get_file. rewrite I, O. unfold put_file at 1. cbn [setf files nopen ndone next cur left_]. rewrite (nth_upd_same _ _ _ _ I). cbn [op refs cl dn fd].
    destruct (Z.eqb_spec (refs f + 1) 0); [lia|]. destruct (Z.eqb_spec (refs f + 1 - 1) 0); [lia|].
    unfold close_file. cbn [setf files nopen ndone next cur left_]. rewrite !upd_upd, ?(nth_upd_same _ _ _ _ I). cbn [op refs cl dn fd].
    unfold put_file. cbn [setf files nopen ndone next cur left_]. rewrite !upd_upd, ?(nth_upd_same _ _ _ _ I). cbn [op refs cl dn fd].
    replace (refs f + 1 - 1) with (refs f) by lia. destruct (Z.eqb_spec (refs f) 0); [lia|].
    destruct (Z.eqb_spec (refs f - 1) 0) as [R|R].
    + assert (FL0 : fl i = 0) by lia. assert (OK : forall d, file_ok (F false false d 0 false) (fl i)).
      { intros d. unfold file_ok. cbn. rewrite FL0. split; [lia|]. split; [lia|]. split; [split; [discriminate|lia]|auto]. }
      cbn [setf files nopen ndone next cur left_]. rewrite !upd_upd, ?(nth_upd_same _ _ _ _ I). cbn [op refs cl dn fd].
      destruct (knd c) eqn:KD; (eexists _, _; split; [reflexivity|]); (split; [|split; [exact Logic.I|discriminate]]); unfold setf; cbn [files nopen ndone next cur left_]; rewrite ?upd_upd;
        (eapply local; [exact I1|exact I|apply OK|auto| |exact N|exact C| |]; cbn [op cl dn refs fd]; 
         [rewrite O; cbn; lia|intros V; destruct (P V) as (P1 & P2 & _); rewrite ?(DF V); cbn [b2z]; split; [lia|]; split; [lia|]; split; [auto|discriminate]|reflexivity]).
    + assert (OK : forall d, file_ok (F true true d (refs f - 1) (fd f)) (fl i)).
      { intros d. unfold file_ok. cbn. split; [lia|]. split; [lia|]. split; [split; [lia|auto]|auto]. }
      cbn [setf files nopen ndone next cur left_]. rewrite !upd_upd, ?(nth_upd_same _ _ _ _ I). cbn [op refs cl dn fd].
      destruct (knd c) eqn:KD; (eexists _, _; split; [reflexivity|]); (split; [|split; [exact Logic.I|discriminate]]); unfold setf; cbn [files nopen ndone next cur left_]; rewrite ?upd_upd;
        (eapply local; [exact I1|exact I|apply OK|auto| |exact N|exact C| |]; cbn [op cl dn refs fd]; 
         [rewrite O; cbn; lia|intros V; destruct (P V) as (P1 & P2 & _); rewrite ?(DF V); cbn [b2z]; split; [lia|]; split; [lia|]; split; [auto|congruence]|intros X; rewrite <- O; exact (Hh X i f I)]).
Qed.

Lemma again_inv c h s fl i o : inv c true h s fl -> (i < nr c)%nat -> h o ->
  exists s' p, again s i o = Some (s', p) /\ inv c true h s' (match p with File _ => more fl i 1 | _ => fl end).
Proof.
  intros H I0 T. destruct (inv_nth _ _ _ _ _ _ H I0) as (f & I). unfold again. rewrite I. destruct (op f) eqn:O.
  - destruct (get_inv c true h s fl i f H I O) as (s' & G & I' & _). rewrite G. eexists _, _. split; [reflexivity|exact I'].
  - destruct (open_inv c true h s fl i f o H I O T ltac:(discriminate)) as (s' & e & E & I' & _ & _ & _ & _ & X & _). rewrite E. destruct e.
    + eexists _, _. split; [reflexivity|exact I'].
    + destruct (get_inv c true h s' fl i _ I' (X eq_refl) eq_refl) as (s'' & G & I'' & _). rewrite G. eexists _, _. split; [reflexivity|exact I''].
Qed.

Lemma nth_repeat {A} (x : A) n i y : nth_error (repeat x n) i = Some y -> y = x.
Proof. revert i. induction n as [|n IH]; intros [|i] H; cbn in H; try discriminate; [congruence|]. now apply (IH i). Qed.

Lemma howmany_repeat p x n : p x = false -> howmany p (repeat x n) = 0.
Proof. intros H. unfold howmany. induction n; cbn; [reflexivity|]. now rewrite H. Qed.

Lemma start_inv c v h : (0 < nr c)%nat -> 0 <= limit c -> inv c v h (start c) (fun _ => 0).
Proof.
  intros H L. unfold inv, start, plain. cbn [files next cur nopen ndone].
  split; [now rewrite repeat_length|]. split; [exact H|]. split; [discriminate|].
  split. { intros i f I. apply nth_repeat in I. subst f. unfold file_ok. cbn. split; [lia|]. split; [lia|]. split; [split; [discriminate|lia]|auto]. }
  split; [auto|]. split; [now rewrite howmany_repeat|]. split.
  - intros _. split; [now rewrite howmany_repeat|]. split; [exact L|]. intros i f I. apply nth_repeat in I. subst f. cbn. split; [auto|discriminate].
  - intros _ i f I. apply nth_repeat in I. now subst f.
Qed.

Lemma reach_inv c v h s fl : (0 < nr c)%nat -> 0 <= limit c -> reach c v h s fl -> inv c v h s fl.
Proof.
  intros N L R. induction R as [|s fl ins fits s' p R IH D T E NH|s fl i s' R IH B E|s fl i o s' p R IH V I0 T E].
  - now apply start_inv.
  - destruct (ask_inv c v h s fl ins fits IH ltac:(split; assumption)) as (s2 & p2 & E2 & X & _). rewrite E in E2. injection E2 as <- <-. exact X.
  - assert (I0 : (i < nr c)%nat). { destruct (Nat.lt_ge_cases i (nr c)) as [|G]; [assumption|]. destruct IH as (_ & _ & _ & _ & Z0 & _). rewrite (Z0 i G) in B. lia. }
    destruct (put_inv c v h s fl i IH I0 B) as (s2 & E2 & X & _). rewrite E in E2. injection E2 as <-. exact X.
  - subst v. destruct (again_inv c h s fl i o IH I0 T) as (s2 & p2 & E2 & X). rewrite E in E2. injection E2 as <- <-. exact X.
Qed.

(** ** Which file round robin takes *)

Definition moved (s : td) (n : nat) : td := Td (files s) (nopen s) (ndone s) n (cur s) (left_ s).
Definition at_k (c : cfg) (s : td) (k : nat) : nat := ((next s + k) mod nr c)%nat.

Lemma scan_first c : forall k m s ins f, (next s < nr c)%nat -> (k < m)%nat ->
  (forall j, (j < k)%nat -> exists g, nth_error (files s) (at_k c s j) = Some g /\ dn g = true) ->
  nth_error (files s) (at_k c s k) = Some f -> dn f = false -> (op f = true -> cl f = false) ->
  scan m c s ins =
    if op f then Some (moved s (at_k c s (S k)), File (at_k c s k))
    else if limit c <=? nopen s then Some (moved s (at_k c s (S k)), Busy)
    else match ins with
         | [] => Some (moved s (at_k c s (S k)), Hungry)
         | _ => match try c (moved s (at_k c s (S k))) (at_k c s k) ins with
                | Some (inl r) => Some r
                | Some (inr (s', ins')) => scan (m - S k) c s' ins'
                | None => None
                end
         end.
Proof.
  induction k as [|k IH]; intros m s ins f N KM SK I D U.
  - destruct m as [|m]; [lia|]. cbn [scan]. clear SK. unfold at_k in *. rewrite !Nat.add_0_r in *. rewrite !(Nat.mod_small (next s) (nr c)) in * by exact N.
    assert (A : advance c s = moved s ((next s + 1) mod nr c)%nat) by (rewrite <- advance_next by exact N; reflexivity).
    rewrite A. unfold try at 1. cbn [moved files nopen]. rewrite I, D. destruct (op f) eqn:O.
    + rewrite U by reflexivity. reflexivity.
    + destruct (limit c <=? nopen s) eqn:LL; [reflexivity|]. destruct ins as [|(d, o) ins']; [reflexivity|].
      unfold try. cbn [moved files nopen]. rewrite I, D, O, LL. rewrite Nat.sub_succ, Nat.sub_0_r. reflexivity.
  - destruct m as [|m]; [lia|]. cbn [scan]. destruct (SK O ltac:(lia)) as (g & G1 & G2).
    assert (A0 : at_k c s 0 = next s) by (unfold at_k; rewrite Nat.add_0_r; now apply Nat.mod_small). rewrite A0 in G1.
    unfold try at 1. cbn [advance files]. rewrite G1, G2. 
    assert (SH : forall j, at_k c (advance c s) j = at_k c s (S j)).
    { intros j. unfold at_k. rewrite advance_next by exact N. rewrite Nat.add_mod_idemp_l by lia. f_equal. lia. }
    rewrite (IH m (advance c s) ins f).
    + rewrite !SH. cbn [advance nopen]. rewrite Nat.sub_succ. reflexivity.
    + rewrite advance_next by exact N. apply Nat.mod_upper_bound. lia.
    + lia.
    + intros j J. rewrite SH. cbn [advance files]. apply SK. lia.
    + rewrite SH. exact I.
    + exact D.
    + exact U.
Qed.

(** The first file, from a place on, that is not done. *)
Lemma first_live c s : (next s < nr c)%nat -> length (files s) = nr c ->
  (exists i f, nth_error (files s) i = Some f /\ dn f = false) ->
  exists k f, (k < nr c)%nat /\ nth_error (files s) (at_k c s k) = Some f /\ dn f = false /\
    forall j, (j < k)%nat -> exists g, nth_error (files s) (at_k c s j) = Some g /\ dn g = true.
Proof.
  intros N L (i & f & I & D).
  assert (IL : (i < nr c)%nat) by (rewrite <- L; apply nth_error_Some; congruence).
  assert (AT : exists k, (k < nr c)%nat /\ at_k c s k = i).
  { unfold at_k. destruct (Nat.le_gt_cases (next s) i) as [B|B].
    - exists (i - next s)%nat. split; [lia|]. rewrite Nat.mod_small by lia. lia.
    - exists (nr c - next s + i)%nat. split; [lia|]. replace (next s + (nr c - next s + i))%nat with (i + 1 * nr c)%nat by lia.
      rewrite Nat.mod_add by lia. now apply Nat.mod_small. }
  assert (G : forall m, (m <= nr c)%nat -> (exists k f, (k < m)%nat /\ nth_error (files s) (at_k c s k) = Some f /\ dn f = false /\
      forall j, (j < k)%nat -> exists g, nth_error (files s) (at_k c s j) = Some g /\ dn g = true) \/
    (forall j, (j < m)%nat -> exists g, nth_error (files s) (at_k c s j) = Some g /\ dn g = true)).
  { induction m as [|m IH]; intros M; [right; intros j J; lia|]. destruct (IH ltac:(lia)) as [(k & g & K1 & K2)|A].
    - left. exists k, g. split; [lia|exact K2].
    - assert (X : exists g, nth_error (files s) (at_k c s m) = Some g).
      { assert (B : (at_k c s m < length (files s))%nat) by (rewrite L; apply Nat.mod_upper_bound; lia). apply nth_error_Some in B.
        destruct (nth_error (files s) (at_k c s m)) as [g|]; [now exists g|congruence]. }
      destruct X as (g & X). destruct (dn g) eqn:DG.
      + right. intros j J. destruct (Nat.eq_dec j m) as [->|]; [exists g; auto|apply A; lia].
      + left. exists m, g. split; [lia|]. auto. }
  destruct (G (nr c) (le_n _)) as [X|A]; [exact X|]. exfalso. destruct AT as (k & K1 & K2). destruct (A k K1) as (g & G1 & G2). rewrite K2 in G1. congruence.
Qed.

Lemma not_all_done c s : plain c s -> length (files s) = nr c -> ndone s < Z.of_nat (nr c) ->
  exists i f, nth_error (files s) i = Some f /\ dn f = false.
Proof. intros (P1 & _) L H. apply howmany_not_all. rewrite L, <- P1. exact H. Qed.

(** ** Turns *)

Definition all_live (s : td) : Prop := forall i f, nth_error (files s) i = Some f -> op f = true /\ cl f = false /\ dn f = false.

Lemma get_live s i : all_live s -> (i < length (files s))%nat -> exists s', get_file s i = Some s' /\ all_live s' /\
  length (files s') = length (files s) /\ next s' = next s /\ cur s' = cur s /\ left_ s' = left_ s /\ ndone s' = ndone s.
Proof.
  intros A B. apply nth_error_Some in B. unfold get_file. destruct (nth_error (files s) i) as [f|] eqn:I; [|congruence].
  destruct (A i f I) as (O & C & D). rewrite O. eexists. split; [reflexivity|]. cbn [setf files next cur left_ ndone].
  split. { intros j g J. cbn [setf files] in J. destruct (Nat.eq_dec i j) as [<-|NE].
    - rewrite (nth_upd_same _ _ _ _ I) in J. injection J as <-. cbn. auto.
    - rewrite nth_upd_other in J by exact NE. now apply (A j). }
  split; [apply upd_length|]. auto.
Qed.

(** The state after [r + 1] requests of the turn of file [q]. *)
Definition turn (c : cfg) (s : td) (q r : Z) : Prop :=
  all_live s /\ length (files s) = nr c /\ ndone s = 0 /\ cur s = Some (Z.to_nat (q mod Z.of_nat (nr c))) /\
  left_ s = serve c - 1 - r /\ next s = Z.to_nat ((q + 1) mod Z.of_nat (nr c)).

Lemma ask_same c s q r : knd c = RR -> (0 < nr c)%nat -> turn c s q r -> 0 <= r -> r + 1 < serve c ->
  exists s', ask c s [] true = Some (s', File (Z.to_nat (q mod Z.of_nat (nr c)))) /\ turn c s' q (r + 1).
Proof.
  intros KD N (A & L & D & C & LF & NX) R0 R1. unfold ask, get_next_file. rewrite D, C, KD.
  destruct (Z.leb_spec (Z.of_nat (nr c)) 0); [lia|]. set (i := Z.to_nat (q mod Z.of_nat (nr c))) in *.
  assert (IL : (i < length (files s))%nat) by (unfold i; pose proof (Z.mod_pos_bound q (Z.of_nat (nr c)) ltac:(lia)); lia).
  assert (U : usable s i = true).
  { unfold usable. apply nth_error_Some in IL. destruct (nth_error (files s) i) as [f|] eqn:I; [|congruence]. destruct (A i f I) as (O & X & _). now rewrite O, X. }
  rewrite U. destruct (Z.eqb_spec (left_ s) 0); [lia|].
  destruct (get_live (Td (files s) (nopen s) (ndone s) (next s) (Some i) (left_ s - 1)) i A IL) as (s' & G & A' & L' & N' & C' & LF' & D'). rewrite <- D.
  rewrite G. eexists. split; [reflexivity|]. unfold turn. cbn [files next cur left_ ndone] in *. split; [exact A'|]. split; [congruence|]. split; [congruence|]. split; [exact C'|]. split; [lia|congruence].
Qed.

Lemma ask_next c s a : knd c = RR -> (0 < nr c)%nat -> 1 <= serve c < 2 ^ 32 -> all_live s -> length (files s) = nr c -> ndone s = 0 ->
  (cur s = None \/ left_ s = 0) -> 0 <= a -> next s = Z.to_nat (a mod Z.of_nat (nr c)) ->
  exists s', ask c s [] true = Some (s', File (Z.to_nat (a mod Z.of_nat (nr c)))) /\ turn c s' a 0.
Proof.
  intros KD N SV A L D CL A0 NX. pose proof (Z.mod_pos_bound a (Z.of_nat (nr c)) ltac:(lia)) as MB.
  assert (NL : (next s < nr c)%nat) by lia.
  unfold ask, get_next_file. rewrite KD, D. destruct (Z.leb_spec (Z.of_nat (nr c)) 0); [lia|].
  set (ch := match rr (nr c) c s (next s) [] with Some _ => _ | None => _ end).
  assert (I : exists f, nth_error (files s) (next s) = Some f).
  { assert (B := NL). rewrite <- L in B. apply nth_error_Some in B. destruct (nth_error (files s) (next s)) as [f|]; [now exists f|congruence]. }
  destruct I as (f & I). destruct (A _ _ I) as (O & CF & DF).
  assert (AT0 : at_k c s 0 = next s) by (unfold at_k; rewrite Nat.add_0_r; now apply Nat.mod_small).
  assert (CH : ch = Some (Td (files s) (nopen s) 0 (at_k c s 1) (Some (next s)) (serve c - 1), File (next s))).
  { unfold ch. rewrite rr_full by exact NL. rewrite (scan_first c 0 (nr c) s [] f); [|exact NL|exact N|intros j J; lia|now rewrite AT0|exact DF|auto].
    rewrite O, AT0. cbn [moved files nopen ndone next cur left_]. unfold u32. rewrite Z.mod_small by lia. now rewrite D. }
  assert (E : match cur s with Some i => if usable s i then if left_ s =? 0 then ch else Some (Td (files s) (nopen s) 0 (next s) (cur s) (left_ s - 1), File i) else ch | None => ch end = ch).
  { destruct (cur s) as [i|]; [|reflexivity]. destruct CL as [CL|CL]; [discriminate|]. destruct (usable s i); [|reflexivity]. now rewrite CL. }
  rewrite E, CH.
  destruct (get_live (Td (files s) (nopen s) 0 (at_k c s 1) (Some (next s)) (serve c - 1)) (next s) A ltac:(cbn [files]; lia)) as (s' & G & A' & L' & N' & C' & LF' & D').
  rewrite G, <- NX. eexists. split; [reflexivity|]. unfold turn. cbn [files next cur left_ ndone] in *. split; [exact A'|]. split; [congruence|]. split; [exact D'|].
  split; [congruence|]. split; [lia|]. rewrite N'. unfold at_k. rewrite NX.
  rewrite <- (Z.add_mod_idemp_l a 1) by lia. set (b := a mod Z.of_nat (nr c)) in *.
  apply Nat2Z.inj. rewrite Nat2Z.inj_mod, Z2Nat.id by (apply Z.mod_pos_bound; lia). f_equal. rewrite Nat2Z.inj_add, Z2Nat.id by lia. reflexivity.
Qed.

Definition shown (c : cfg) (a k : Z) : pick := File (Z.to_nat ((a + k / serve c) mod Z.of_nat (nr c))).

Lemma asks_turn c : knd c = RR -> (0 < nr c)%nat -> 1 <= serve c < 2 ^ 32 -> forall n s q r, turn c s q r -> 0 <= q -> 0 <= r < serve c ->
  asks n c s = map (fun k => shown c q (r + 1 + Z.of_nat k)) (seq 0 n).
Proof.
  intros KD N SV. induction n as [|n IH]; intros s q r T Q0 R; [reflexivity|]. cbn [asks seq map].
  assert (SHIFT : forall q' r', (forall k, shown c q' (r' + 1 + Z.of_nat k) = shown c q (r + 1 + Z.of_nat (S k))) ->
     map (fun k => shown c q' (r' + 1 + Z.of_nat k)) (seq 0 n) = map (fun k => shown c q (r + 1 + Z.of_nat k)) (seq 1 n)).
  { intros q' r' H. rewrite <- seq_shift, map_map. apply map_ext. intros k. apply H. }
  destruct (Z_lt_le_dec (r + 1) (serve c)) as [LT|GE].
  - destruct (ask_same c s q r KD N T ltac:(lia) LT) as (s' & E & T'). rewrite E. f_equal.
    + unfold shown. rewrite Z.add_0_r, Z.div_small by lia. now rewrite Z.add_0_r.
    + rewrite (IH s' q (r + 1) T' Q0 ltac:(lia)). apply SHIFT. intros k. f_equal. lia.
  - assert (r = serve c - 1) by lia. subst r. pose proof T as (A & L & D & C & LF & NX).
    destruct (ask_next c s (q + 1) KD N SV A L D ltac:(right; lia) ltac:(lia) NX) as (s' & E & T'). rewrite E. f_equal.
    + unfold shown. replace (serve c - 1 + 1 + Z.of_nat 0) with (serve c) by lia. rewrite Z.div_same by lia. reflexivity.
    + rewrite (IH s' (q + 1) 0 T' ltac:(lia) ltac:(lia)). apply SHIFT. intros k. unfold shown. do 3 f_equal.
      replace (serve c - 1 + 1 + Z.of_nat (S k)) with (0 + 1 + Z.of_nat k + 1 * serve c) by lia. rewrite Z.div_add by lia. lia.
Qed.

Lemma asks_all c s n : knd c = RR -> (0 < nr c)%nat -> 1 <= serve c < 2 ^ 32 -> all_live s -> length (files s) = nr c -> ndone s = 0 ->
  (next s < nr c)%nat -> (cur s = None \/ left_ s = 0) ->
  asks n c s = map (fun k => shown c (Z.of_nat (next s)) (Z.of_nat k)) (seq 0 n).
Proof.
  intros KD N SV A L D NL CL. destruct n as [|n]; [reflexivity|]. cbn [asks seq map].
  destruct (ask_next c s (Z.of_nat (next s)) KD N SV A L D CL ltac:(lia)) as (s' & E & T').
  { rewrite Z.mod_small by lia. now rewrite Nat2Z.id. }
  rewrite E. f_equal.
  - unfold shown. rewrite Z.div_small by lia. now rewrite Z.add_0_r.
  - rewrite (asks_turn c KD N SV n s' _ 0 T') by lia. rewrite <- seq_shift, map_map. apply map_ext. intros k. f_equal. lia.
Qed.

(** ** No waiting for ever *)

Definition robin (c : cfg) : Prop := knd c = RR \/ knd c = Seq.

Lemma next_choice c s ins : robin c -> (next s < nr c)%nat -> ndone s < Z.of_nat (nr c) ->
  (exists s' i, get_next_file c s ins = Some (s', File i)) \/
  get_next_file c s ins =
    match scan (nr c) c s ins with
    | None => None
    | Some (s', p) =>
      match p with
      | File i => Some (Td (files s') (nopen s') (ndone s') (next s') (Some i) (u32 (serve c - 1)), p)
      | Nothing => Some (Td (files s') (nopen s') (ndone s') (next s') None (u32 (serve c - 1)), p)
      | _ => Some (s', p)
      end
    end.
Proof.
  intros KD N D. unfold get_next_file. destruct (Z.leb_spec (Z.of_nat (nr c)) (ndone s)); [lia|]. rewrite <- rr_full by exact N.
  destruct KD as [-> | ->]; destruct (cur s) as [i|]; [destruct (usable s i); [destruct (left_ s =? 0)|]| |destruct (usable s i)|]; eauto.
Qed.

Lemma tries_busy c v h ins : (v = false) -> robin c -> (0 < nr c)%nat -> 1 <= limit c -> ins <> [] -> Forall (fun x => snd x = Opened) ins ->
  forall d n s fl p f, inv c v h s fl -> (forall i, fl i = 0) -> ndone s < Z.of_nat (nr c) ->
  (d < nr c)%nat -> (d < n)%nat -> p = at_k c s d -> nth_error (files s) p = Some f -> op f = true ->
  exists s' i, tries n c s ins = Some (s', File i).
Proof.
  intros V KD N0 LM NE OK. induction d as [d IH] using (well_founded_induction Wf_nat.lt_wf).
  intros n s fl p f H FL D DN HN E I O. pose proof H as (L & N & C & K & _ & _ & P & _). specialize (P V).
  assert (KS : knd c <> Skewed) by (destruct KD as [-> | ->]; discriminate).
  destruct n as [|n]; [lia|]. cbn [tries].
  destruct (next_choice c s ins KD N D) as [(s' & i & G)|G]; [rewrite G; eauto|].
  assert (DF : dn f = false).
  { destruct (dn f) eqn:X; [|reflexivity]. destruct P as (_ & _ & P3). destruct (P3 p f I) as (P4 & _). specialize (P4 X O).
    destruct (K p f I) as (_ & K2 & K3 & _). rewrite O, P4, FL in K2. cbn in K2. apply K3 in O. lia. }
  destruct (first_live c s N L ltac:(exists p, f; auto)) as (k & g & K1 & KG & KD2 & KB).
  assert (CG : op g = true -> cl g = false).
  { intros _. destruct (cl g) eqn:X; [|reflexivity]. destruct P as (_ & _ & P3). destruct (P3 _ g KG) as (_ & P5). rewrite (P5 KS X) in KD2. discriminate. }
  rewrite G, (scan_first c k (nr c) s ins g N K1 KB KG KD2 CG). destruct (op g) eqn:OG; [eauto|].
  destruct (Z.leb_spec (limit c) (nopen s)) as [LB|LB].
  - assert (KLT : (k < d)%nat).
    { destruct (Nat.lt_trichotomy k d) as [|[->|GT]]; [assumption|rewrite <- E in KG; congruence|]. destruct (KB d GT) as (g' & G1 & G2). rewrite <- E in G1. congruence. }
    apply (IH (d - S k)%nat ltac:(lia) n _ fl p f); try assumption.
    + apply inv_move; [exact H|apply Nat.mod_upper_bound; lia|exact C].
    + lia.
    + lia.
    + rewrite E. unfold at_k, moved. cbn [next]. rewrite Nat.add_mod_idemp_l by lia. f_equal. lia.
  - destruct ins as [|(x, o) ins']; [congruence|]. inversion OK as [|? ? O1 O2]; subst. cbn [snd] in O1. subst o.
    unfold try. cbn [moved files nopen]. rewrite KG, KD2, OG. destruct (Z.leb_spec (limit c) (nopen s)); [lia|].
    unfold open_file. cbn [moved files nopen]. rewrite KG, OG.
    assert (CLG : cl g = false) by (destruct (K _ g KG) as (_ & _ & _ & K4); destruct (cl g); [rewrite OG in K4; now specialize (K4 eq_refl)|reflexivity]).
    rewrite CLG. cbn [setf files moved]. rewrite (nth_upd_same _ _ _ _ KG). cbn [op cl andb negb]. eauto.
Qed.

Lemma tries_file c h s fl ins : robin c -> (0 < nr c)%nat -> 1 <= limit c -> inv c false h s fl -> (forall i, fl i = 0) ->
  ndone s < Z.of_nat (nr c) -> ins <> [] -> Forall (fun x => snd x = Opened) ins ->
  exists s' i, tries (nr c) c s ins = Some (s', File i).
Proof.
  intros KD N0 LM H FL D NE OK. pose proof H as (L & N & C & K & _ & OO & P & _).
  destruct (Z_lt_le_dec (nopen s) (limit c)) as [LT|GE].
  - specialize (P eq_refl). assert (KS : knd c <> Skewed) by (destruct KD as [-> | ->]; discriminate).
    destruct (nr c) as [|n] eqn:NR; [lia|]. cbn [tries]. rewrite <- NR in *.
    destruct (next_choice c s ins KD N D) as [(s' & i & G)|G]; [rewrite G; eauto|].
    destruct (first_live c s N L (not_all_done c s P L D)) as (k & g & K1 & KG & KD2 & KB).
    assert (CG : op g = true -> cl g = false).
    { intros _. destruct (cl g) eqn:X; [|reflexivity]. destruct P as (_ & _ & P3). destruct (P3 _ g KG) as (_ & P5). rewrite (P5 KS X) in KD2. discriminate. }
    rewrite G, (scan_first c k (nr c) s ins g N K1 KB KG KD2 CG). destruct (op g) eqn:OG; [eauto|].
    destruct (Z.leb_spec (limit c) (nopen s)); [lia|].
    destruct ins as [|(x, o) ins']; [congruence|]. inversion OK as [|? ? O1 O2]; subst. cbn [snd] in O1. subst o.
    unfold try. cbn [moved files nopen]. rewrite KG, KD2, OG. destruct (Z.leb_spec (limit c) (nopen s)); [lia|].
    unfold open_file. cbn [moved files nopen]. rewrite KG, OG.
    assert (CLG : cl g = false) by (destruct (K _ g KG) as (_ & _ & _ & K4); destruct (cl g); [rewrite OG in K4; now specialize (K4 eq_refl)|reflexivity]).
    rewrite CLG. cbn [setf files moved]. rewrite (nth_upd_same _ _ _ _ KG). cbn [op cl andb negb]. eauto.
  - assert (X : 0 < howmany op (files s)) by lia. apply howmany_some in X. destruct X as (p & f & I & O).
    assert (IL : (p < nr c)%nat) by (rewrite <- L; apply nth_error_Some; congruence).
    assert (AT : exists k, (k < nr c)%nat /\ p = at_k c s k).
    { unfold at_k. destruct (Nat.le_gt_cases (next s) p) as [B|B].
      - exists (p - next s)%nat. split; [lia|]. rewrite Nat.mod_small by lia. lia.
      - exists (nr c - next s + p)%nat. split; [lia|]. replace (next s + (nr c - next s + p))%nat with (p + 1 * nr c)%nat by lia.
        rewrite Nat.mod_add by lia. symmetry. now apply Nat.mod_small. }
    destruct AT as (d & D1 & D2).
    exact (tries_busy c false h ins eq_refl KD N0 LM NE OK d (nr c) s fl p f H FL D D1 D1 D2 I O).
Qed.

(** ** Random choice *)

Lemma rand_hit c s d f ins : nth_error (files s) d = Some f -> dn f = false -> (cl f = true -> op f = true) -> (op f = true -> cl f = false) ->
  exists s', rand c s ((d, Opened) :: ins) = Some (s', if negb (op f) && (limit c <=? nopen s) then Busy else File d).
Proof.
  intros I D C U. cbn [rand fst]. unfold try. rewrite I, D. destruct (op f) eqn:O; cbn [negb andb].
  - rewrite U by reflexivity. eauto.
  - destruct (limit c <=? nopen s); [eauto|]. unfold open_file. rewrite I, O.
    assert (CF : cl f = false) by (destruct (cl f); [now specialize (C eq_refl)|reflexivity]). rewrite CF. cbn [setf files].
    rewrite (nth_upd_same _ _ _ _ I). cbn [op cl andb negb]. eauto.
Qed.

Lemma rand_endless c s ins : length (files s) = nr c -> drawn c ins ->
  (forall i f, nth_error (files s) i = Some f -> dn f = true \/ (op f = true /\ cl f = true)) -> rand c s ins = Some (s, Hungry).
Proof.
  intros L D A. induction D as [|x ins B D IH]; [reflexivity|]. cbn [rand]. rewrite <- L in B. apply nth_error_Some in B.
  unfold try. destruct (nth_error (files s) (fst x)) as [f|] eqn:I; [|congruence]. destruct (A _ f I) as [-> |(-> & ->)]; [exact IH|].
  destruct (dn f); exact IH.
Qed.

(** ** Sequential order *)

Definition fresh_file (f : file) : Prop := op f = false /\ cl f = false /\ dn f = false.

Definition in_order (c : cfg) (s : td) : Prop :=
  exists k, (k <= nr c)%nat /\ next s = (k mod nr c)%nat /\
    (forall i f, nth_error (files s) i = Some f -> (S i < k)%nat -> dn f = true) /\
    (forall i f, nth_error (files s) i = Some f -> (k <= i)%nat -> fresh_file f) /\
    (forall i f, nth_error (files s) i = Some f -> S i = k -> dn f = true \/ (op f = true /\ cl f = false /\ cur s = Some i)) /\
    (forall i, cur s = Some i -> S i = k).

Definition good : outcomes := fun o => o = Opened.

Lemma put_keeps c v h s fl i s' : inv c v h s fl -> 0 < fl i -> put_file s i = Some s' ->
  next s' = next s /\ cur s' = cur s /\
  forall j f, nth_error (files s) j = Some f -> exists f', nth_error (files s') j = Some f' /\ dn f' = dn f /\ (fresh_file f -> f' = f) /\ (op f = true -> cl f = false -> op f' = true /\ cl f' = false).
Proof.
  intros H B E. pose proof H as (L & N & C & K & _). unfold put_file in E. destruct (nth_error (files s) i) as [f|] eqn:I; [|discriminate].
  destruct (K i f I) as (K1 & K2 & K3 & K4).
  assert (O : op f = true) by (apply K3; destruct (op f && negb (cl f)); lia). rewrite O in *.
  destruct (refs f =? 0); [discriminate|]. destruct (Z.eqb_spec (refs f - 1) 0) as [R|R]; injection E as <-; cbn [setf next cur files]; (split; [reflexivity|]); (split; [reflexivity|]);
    intros j g J; (destruct (Nat.eq_dec i j) as [<-|NE]; [|rewrite nth_upd_other by exact NE; exists g; auto]); rewrite (nth_upd_same _ _ _ _ I);
    assert (g = f) by congruence; subst g; eexists; (split; [reflexivity|]); cbn; (split; [reflexivity|]); (split; [intros (X & _); congruence|]).
  - intros _ X. rewrite X in K2. cbn in K2. lia.
  - auto.
Qed.

(** One round for sequential service, where every opening succeeds. *)
Lemma seq_ask c s fl ins fits s' p : knd c = Seq -> (0 < nr c)%nat -> Z.of_nat (nr c) <= limit c -> inv c false good s fl -> in_order c s ->
  suffix_ok c good ins -> ask c s ins fits = Some (s', p) -> p <> Hungry ->
  in_order c s' /\ forall i, p = File i -> forall j f, nth_error (files s') j = Some f -> ((j < i)%nat -> dn f = true) /\ ((i < j)%nat -> fresh_file f).
Proof.
  intros KD N0 LM H IO SF E PH. pose proof H as (L & N & C & K & _ & OO & P & _). specialize (P eq_refl).
  (* what get_next_file does *)
  assert (G : exists s1 p1, get_next_file c s ins = Some (s1, p1) /\ (p1 = Hungry \/ (p1 = Nothing /\ s1 = s) \/
     exists i f, p1 = File i /\ in_order c s1 /\ nth_error (files s1) i = Some f /\ op f = true /\ cl f = false /\ 0 < refs f /\ dn f = false /\ cur s1 = Some i)).
  { unfold get_next_file. rewrite KD. destruct (Z.leb_spec (Z.of_nat (nr c)) (ndone s)) as [DN|DN].
    { eexists _, _. split; [reflexivity|]. right. left. auto. }
    destruct IO as (k & B1 & B2 & B3 & B4 & B5 & B6).
    set (ch := match rr (nr c) c s (next s) ins with Some _ => _ | None => _ end).
    assert (CH : (forall i f, nth_error (files s) i = Some f -> (i < k)%nat -> dn f = true) -> exists s1 p1, ch = Some (s1, p1) /\ (p1 = Hungry \/ (p1 = Nothing /\ s1 = s) \/
       exists i f, p1 = File i /\ in_order c s1 /\ nth_error (files s1) i = Some f /\ op f = true /\ cl f = false /\ 0 < refs f /\ dn f = false /\ cur s1 = Some i)).
    { intros AD. assert (KL : (k < nr c)%nat).
      { destruct (Nat.eq_dec k (nr c)) as [->|]; [|lia]. exfalso. destruct (not_all_done c s P L DN) as (i & f & I & D).
        assert (i < nr c)%nat by (rewrite <- L; apply nth_error_Some; congruence). rewrite (AD i f I) in D by assumption. discriminate. }
      rewrite Nat.mod_small in B2 by exact KL.
      destruct (inv_nth _ _ _ _ _ _ H KL) as (f & I). destruct (B4 k f I ltac:(lia)) as (O & CF & DF).
      assert (AT0 : at_k c s 0 = k) by (unfold at_k; rewrite Nat.add_0_r, B2; now apply Nat.mod_small).
      assert (NO : nopen s < limit c).
      { pose proof (howmany_le op (files s)) as HL. destruct (Z.eq_dec (howmany op (files s)) (Z.of_nat (length (files s)))) as [EQ|NEQ]; [|lia].
        apply howmany_all in EQ. rewrite Forall_forall in EQ. apply nth_error_In in I. rewrite (EQ f I) in O. discriminate. }
      unfold ch. rewrite rr_full by exact N. rewrite (scan_first c 0 (nr c) s ins f N N0); [|intros j J; lia|now rewrite AT0|exact DF|intros; congruence].
      rewrite O, AT0. destruct (Z.leb_spec (limit c) (nopen s)); [lia|]. destruct ins as [|(d, o) ins']; [eexists _, _; split; [reflexivity|]; now left|].
      destruct SF as (S1 & S2). apply Forall_inv in S2. unfold good in S2. cbn [snd] in S2. subst o.
      unfold try. cbn [moved files nopen]. rewrite I, DF, O. destruct (Z.leb_spec (limit c) (nopen s)); [lia|].
      unfold open_file. cbn [moved files nopen]. rewrite I, O, CF. cbn [setf files moved]. rewrite (nth_upd_same _ _ _ _ I). cbn [op cl andb negb].
      eexists _, _. split; [reflexivity|]. right. right. exists k, (F true false (dn f) (refs f + 1) true). split; [reflexivity|].
      cbn [setf moved files nopen ndone next cur left_].
      split; [|split; [apply (nth_upd_same _ _ _ _ I)|cbn [op cl refs dn]; split; [reflexivity|]; split; [reflexivity|]; split; [destruct (K k f I) as (K1 & K2 & _); rewrite O in K2; cbn in K2; lia|auto]]].
      exists (S k). cbn [files next cur]. split; [lia|]. split; [unfold at_k; rewrite B2; f_equal; lia|].
      split; [intros i g J Hi; rewrite nth_upd_other in J by lia; apply (AD i); [exact J|lia]|].
      split; [intros i g J Hi; rewrite nth_upd_other in J by lia; apply (B4 i); [exact J|lia]|].
      split; [|intros i [= <-]; reflexivity]. intros i g J Hi. injection Hi as ->. rewrite (nth_upd_same _ _ _ _ I) in J. injection J as <-. right. cbn. auto. }
    destruct (cur s) as [i|] eqn:CU.
    - pose proof (B6 i eq_refl) as SK. destruct (inv_nth _ _ _ _ _ _ H (C i eq_refl)) as (f & I). unfold usable. rewrite I.
      destruct (op f && negb (cl f)) eqn:U.
      + apply andb_true_iff in U. destruct U as (U1 & U2). apply negb_true_iff in U2. eexists _, _. split; [reflexivity|]. right. right. exists i, f. split; [reflexivity|].
        split; [|split; [exact I|]]. { exists k. rewrite CU. repeat (split; [assumption|]). assumption. }
        split; [exact U1|]. split; [exact U2|]. split; [destruct (K i f I) as (_ & _ & K3 & _); now apply K3|]. split; [|exact CU].
        destruct P as (_ & _ & P3). destruct (P3 i f I) as (P4 & _). destruct (dn f); [|reflexivity]. rewrite (P4 eq_refl U1) in U2. discriminate.
      + apply CH. intros j g J Hj. destruct (Nat.eq_dec (S j) k) as [SJ|SJ]; [|apply (B3 j g J); lia].
        destruct (B5 j g J SJ) as [|(X1 & X2 & X3)]; [assumption|]. assert (j = i) by lia. subst j. rewrite I in J. injection J as <-. rewrite X1, X2 in U. discriminate.
    - apply CH. intros j g J Hj. destruct (Nat.eq_dec (S j) k) as [SJ|SJ]; [|apply (B3 j g J); lia].
      destruct (B5 j g J SJ) as [|(X1 & X2 & X3)]; [assumption|discriminate]. }
  destruct G as (s1 & p1 & G & CASES). unfold ask in E. rewrite G in E.
  destruct CASES as [-> |[(-> & ->)|(i & f & -> & IO1 & I & O & CF & R & DF & CU)]].
  - injection E as <- <-. congruence.
  - injection E as <- <-. split; [exact IO|discriminate].
  - destruct IO1 as (k & B1 & B2 & B3 & B4 & B5 & B6). pose proof (B6 i CU) as SK.
    unfold get_file in E. rewrite I, O in E. destruct fits.
    + injection E as <- <-. split.
      * exists k. cbn [setf files next cur]. split; [exact B1|]. split; [exact B2|].
        split; [intros j g J Hj; rewrite nth_upd_other in J by lia; now apply (B3 j)|].
        split; [intros j g J Hj; rewrite nth_upd_other in J by lia; now apply (B4 j)|].
        split; [|exact B6]. intros j g J Hj. assert (j = i) by lia. subst j. rewrite (nth_upd_same _ _ _ _ I) in J. injection J as <-. right. cbn. auto.
      * intros i' [= <-] j g J. cbn [setf files] in J. split; intros Hj; rewrite nth_upd_other in J by lia; [apply (B3 j g J); lia|apply (B4 j g J); lia].
    + unfold put_file at 1 in E. cbn [setf files nopen ndone next cur left_] in E. rewrite (nth_upd_same _ _ _ _ I) in E. cbn [op refs cl dn fd] in E.
      destruct (Z.eqb_spec (refs f + 1) 0); [lia|]. destruct (Z.eqb_spec (refs f + 1 - 1) 0); [lia|].
      unfold close_file in E. cbn [setf files nopen ndone next cur left_] in E. rewrite !upd_upd, (nth_upd_same _ _ _ _ I) in E. cbn [op refs cl dn fd] in E.
      unfold put_file in E. cbn [setf files nopen ndone next cur left_] in E. rewrite !upd_upd, (nth_upd_same _ _ _ _ I) in E. cbn [op refs cl dn fd] in E. rewrite KD in E.
      replace (refs f + 1 - 1) with (refs f) in E by lia. destruct (Z.eqb_spec (refs f) 0); [lia|].
      assert (X : forall x o' d', dn x = true -> in_order c (Td (upd (files s1) i x) o' d' (next s1) (cur s1) (left_ s1))).
      { intros x o' d' DX. exists k. cbn [files next cur]. split; [exact B1|]. split; [exact B2|].
        split; [intros j g J Hj; rewrite nth_upd_other in J by lia; now apply (B3 j)|].
        split; [intros j g J Hj; rewrite nth_upd_other in J by lia; now apply (B4 j)|].
        split; [|exact B6]. intros j g J Hj. assert (j = i) by lia. subst j. rewrite (nth_upd_same _ _ _ _ I) in J. injection J as <-. now left. }
      destruct (refs f - 1 =? 0); cbn [setf files nopen ndone next cur left_] in E; rewrite !upd_upd, (nth_upd_same _ _ _ _ I) in E; rewrite ?upd_upd in E; injection E as <- <-; (split; [now apply X|discriminate]).
Qed.

Lemma seq_reach c s fl : knd c = Seq -> (0 < nr c)%nat -> Z.of_nat (nr c) <= limit c -> reach c false good s fl -> in_order c s.
Proof.
  intros KD N0 LM R. induction R as [|s fl ins fits s' p R IH D T E NH|s fl i s' R IH B E|s fl i o s' p R IH V I0 T E].
  - exists O. unfold start. cbn [next files cur]. split; [lia|]. split; [symmetry; apply Nat.mod_0_l; lia|]. split; [intros; lia|].
    split; [intros i f I _; apply nth_repeat in I; subst f; unfold fresh_file; cbn; auto|]. split; [intros; lia|discriminate].
  - apply (seq_ask c s fl ins fits s' p KD N0 LM); auto; [apply reach_inv; auto; lia|split; assumption].
  - pose proof (reach_inv c false good s fl N0 ltac:(lia) R) as H. destruct (put_keeps c false good s fl i s' H B E) as (N' & C' & KEEP).
    destruct IH as (k & B1 & B2 & B3 & B4 & B5 & B6). exists k. rewrite N', C'. split; [exact B1|]. split; [exact B2|].
    assert (BACK : forall j g, nth_error (files s') j = Some g -> exists f, nth_error (files s) j = Some f /\ dn g = dn f /\ (fresh_file f -> g = f) /\ (op f = true -> cl f = false -> op g = true /\ cl g = false)).
    { intros j g J. destruct (nth_error (files s) j) as [f|] eqn:I.
      - destruct (KEEP j f I) as (f' & F1 & F2). rewrite J in F1. injection F1 as <-. exists f. auto.
      - exfalso. apply nth_error_None in I. assert (length (files s') = length (files s)).
        { unfold put_file in E. destruct (nth_error (files s) i) as [f|]; [|discriminate]. destruct (op f); [|injection E as <-; reflexivity].
          destruct (refs f =? 0); [discriminate|]. destruct (refs f - 1 =? 0); injection E as <-; apply upd_length. }
        assert (j < length (files s'))%nat by (apply nth_error_Some; congruence). lia. }
    split; [intros j g J Hj; destruct (BACK j g J) as (f & F1 & F2 & _); rewrite F2; now apply (B3 j)|].
    split; [intros j g J Hj; destruct (BACK j g J) as (f & F1 & F2 & F3 & _); specialize (B4 j f F1 Hj); rewrite (F3 B4); exact B4|].
    split; [|exact B6]. intros j g J Hj. destruct (BACK j g J) as (f & F1 & F2 & _ & F4). rewrite F2. destruct (B5 j f F1 Hj) as [|(X1 & X2 & X3)]; [now left|]. right. destruct (F4 X1 X2). auto.
  - discriminate.
Qed.

(** ** Draws *)

Lemma draw32_lt n r : 0 <= n < 2 ^ 32 -> 0 <= r < 2 ^ 32 -> 0 < n -> 0 <= draw32 n r < n.
Proof.
  intros Hn Hr Hp. unfold draw32. destruct (rne53_error (n * r) ltac:(nia)) as (E0 & E1 & _).
  split; [apply Z.div_pos; lia|]. apply Z.div_lt_upper_bound; [lia|].
  assert (n * r <= n * (2 ^ 32 - 1)) by (apply Z.mul_le_mono_nonneg_l; lia). lia.
Qed.
