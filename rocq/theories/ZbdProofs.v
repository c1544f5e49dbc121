(** Proofs for C39. *)
From Coq Require Import ZArith List Lia Bool Arith.
From Verif Require Import CBase ZbdModel ZbdSpec.
Import ListNotations.
Open Scope Z_scope.

(** ** Total correctness *)

Definition wpre {A} (m : M A) (Q : A -> st -> Prop) (s : st) : Prop :=
  match m s with Ret a s' => Q a s' | _ => False end.

Lemma wp_ret {A} (a : A) (Q : A -> st -> Prop) s : Q a s -> wpre (ret a) Q s.
Proof. auto. Qed.
Lemma wp_bnd {A B} (m : M A) (k : A -> M B) (Q : B -> st -> Prop) s :
  wpre m (fun a s' => wpre (k a) Q s') s -> wpre (bnd m k) Q s.
Proof. unfold wpre, bnd. destruct (m s); auto. Qed.
Lemma wp_gets {A} (f : st -> A) (Q : A -> st -> Prop) s : Q (f s) s -> wpre (gets f) Q s.
Proof. auto. Qed.
Lemma wp_modi f (Q : unit -> st -> Prop) s : Q tt (f s) -> wpre (modi f) Q s.
Proof. auto. Qed.
Lemma wp_check b (Q : unit -> st -> Prop) s : b = true -> Q tt s -> wpre (check b) Q s.
Proof. intros ->; auto. Qed.
Lemma wp_mono {A} (m : M A) (Q R : A -> st -> Prop) s :
  wpre m Q s -> (forall a s', Q a s' -> R a s') -> wpre m R s.
Proof. unfold wpre. destruct (m s); auto; contradiction. Qed.

Lemma fset_same {A} (f : nat -> A) i v : fset f i v i = v.
Proof. unfold fset; now rewrite Nat.eqb_refl. Qed.
Lemma fset_other {A} (f : nat -> A) i v j : j <> i -> fset f i v j = f j.
Proof. intros H; unfold fset; destruct (Nat.eqb_spec j i); congruence. Qed.

Lemma remove1_in i j l : In j (remove1 i l) -> In j l.
Proof.
  induction l as [|x l IH]; simpl; auto. destruct (Nat.eqb_spec x i); simpl; intuition.
Qed.
Lemma remove1_in_other i j l : i <> j -> In j l -> In j (remove1 i l).
Proof.
  intros N. induction l as [|x l IH]; simpl; auto. destruct (Nat.eqb_spec x i); simpl; intuition; congruence.
Qed.
Lemma remove1_nodup i l : NoDup l -> NoDup (remove1 i l) /\ ~ In i (remove1 i l).
Proof.
  induction l as [|x l IH]; simpl; intros H; [auto|].
  inversion H; subst. destruct (Nat.eqb_spec x i); subst; auto.
  destruct (IH H3) as [A B]. split; [constructor; auto; intros C; apply H2; eapply remove1_in; eauto|].
  simpl; intros [E|E]; auto.
Qed.
Lemma remove1_length i l : In i l -> length l = S (length (remove1 i l)).
Proof.
  induction l as [|x l IH]; simpl; [tauto|]. destruct (Nat.eqb_spec x i); auto.
  intros [E|E]; [congruence|]. simpl. now rewrite <- IH.
Qed.
Lemma existsb_in i l : existsb (Nat.eqb i) l = true <-> In i l.
Proof.
  rewrite existsb_exists. split.
  - intros (x & H & E). apply Nat.eqb_eq in E. now subst.
  - intros H. exists i. split; auto. apply Nat.eqb_refl.
Qed.

(** ** Geometry *)

Section Geo.
Variable c : cfg.
Hypothesis OK : cfg_ok c.

Lemma start_mono i j : (i <= j)%nat -> start c i <= start c j.
Proof. intros. unfold start. pose proof (ok_zsz _ OK). nia. Qed.
Lemma start_succ i : start c (S i) = start c i + zsz c.
Proof. unfold start. rewrite Nat2Z.inj_succ. lia. Qed.
Lemma start_0 i : 0 <= start c i.
Proof. unfold start. pose proof (ok_zsz _ OK). nia. Qed.
Lemma end_range : foff c + iosz c = start c (zmax c).
Proof. unfold foff, iosz, start. pose proof (ok_range _ OK). nia. Qed.

Lemma valid_iff o : valid c o = true <-> start c (zmin c) <= o < start c (zmax c).
Proof. unfold valid. rewrite end_range. unfold foff. rewrite andb_true_iff, Z.leb_le, Z.ltb_lt. tauto. Qed.

Lemma zidx_of i o : (i <= nr c)%nat -> start c i <= o < start c (S i) -> zidx c o = i.
Proof.
  intros H1 H2. unfold zidx.
  assert (E : o / zsz c = Z.of_nat i).
  { symmetry. apply (Z.div_unique_pos _ _ _ (o - start c i)); [rewrite start_succ in H2; lia|].
    unfold start. lia. }
  rewrite E, Nat2Z.id. lia.
Qed.

Lemma zidx_valid o : valid c o = true ->
  (zmin c <= zidx c o < zmax c)%nat /\ start c (zidx c o) <= o < start c (S (zidx c o)).
Proof.
  intros V. apply valid_iff in V. pose proof (ok_zsz _ OK) as P. pose proof (ok_range _ OK) as R.
  pose proof (start_0 (zmin c)).
  assert (D : o / zsz c * zsz c <= o < (o / zsz c + 1) * zsz c).
  { pose proof (Z.div_mod o (zsz c) ltac:(lia)). pose proof (Z.mod_pos_bound o (zsz c) P). nia. }
  assert (N : 0 <= o / zsz c) by (apply Z.div_pos; lia).
  unfold start in V.
  assert (L : Z.of_nat (zmin c) <= o / zsz c) by nia.
  assert (U : o / zsz c < Z.of_nat (zmax c)) by nia.
  assert (E : zidx c o = Z.to_nat (o / zsz c)) by (unfold zidx; lia).
  rewrite E. split; [lia|]. unfold start. rewrite Nat2Z.inj_succ, Z2Nat.id by lia. lia.
Qed.

Lemma valid_start i : (zmin c <= i < zmax c)%nat -> valid c (start c i) = true.
Proof.
  intros H. apply valid_iff. split; [apply start_mono; lia|].
  pose proof (start_mono (S i) (zmax c) ltac:(lia)). rewrite start_succ in H0.
  pose proof (ok_zsz _ OK). lia.
Qed.
Lemma valid_start_out i : (zmax c <= i)%nat -> valid c (start c i) = false.
Proof.
  intros H. apply not_true_is_false. intros V. apply valid_iff in V.
  pose proof (start_mono _ _ H). lia.
Qed.
Lemma capend_le i : (i < nr c)%nat -> start c i < capend c i <= start c (S i).
Proof. intros H. pose proof (ok_cap _ OK i H). rewrite start_succ. unfold capend. lia. Qed.
End Geo.

(** ** The invariant *)

(** Writes of zone [i] not executed yet lead from [a] to [b]. *)
Fixpoint chain (c : cfg) (i : nat) (l : list io) (a b : Z) : Prop :=
  match l with
  | [] => a = b
  | x :: l' =>
      if Nat.eqb (zidx c (i_off x)) i && negb (i_sent x)
      then i_off x = a /\ chain c i l' (a + i_len x) b
      else chain c i l' a b
  end.

(** Writes of one zone do not overlap and are queued in order. *)
Fixpoint sorted (c : cfg) (l : list io) : Prop :=
  match l with
  | [] => True
  | x :: l' => (forall y, In y l' -> zidx c (i_off y) = zidx c (i_off x) -> i_off x + i_len x <= i_off y)
               /\ sorted c l'
  end.

Definition holders (c : cfg) (i : nat) (l : list io) : nat :=
  length (filter (fun x => Nat.eqb (zidx c (i_off x)) i && i_put x) l).

Definition cnt (i : nat) (L : list nat) : nat := count_occ Nat.eq_dec L i.

(** [L] are the zones locked by the code that runs, [ex] a zone removed from
    the array that may still be open. *)
Record Inv (c : cfg) (L ex : list nat) (d0 : dev) (s : st) (d : dev) : Prop := MkInv {
  v_wp : forall i, (i < nr c)%nat -> gseq c i = true -> start c i <= wp s i <= start c (S i);
  v_nodup : NoDup (arr s ++ ex);
  v_wr : forall i, wr s i = true <-> In i (arr s);
  v_in : forall i, In i (arr s) -> (i < nr c)%nat /\ gseq c i = true /\ goff c i = false;
  v_num : (length (arr s ++ ex) <= maxw c)%nat;
  v_job : jn s (job c) = Z.of_nat (length (arr s));
  v_hold : forall i, hold s i = (holders c i (infl s) + cnt i L)%nat;
  v_io : forall x, In x (infl s) ->
           (zmin c <= zidx c (i_off x) < zmax c)%nat /\ gseq c (zidx c (i_off x)) = true
           /\ start c (zidx c (i_off x)) <= i_off x /\ 0 < i_len x
           /\ i_off x + i_len x <= capend c (zidx c (i_off x));
  v_below : forall x, In x (infl s) -> i_off x + i_len x <= wp s (zidx c (i_off x));
  v_chain : forall i, (i < nr c)%nat -> gseq c i = true -> chain c i (infl s) (d_wp (d i)) (wp s i);
  v_open : maxw c <> O -> forall i, (i < nr c)%nat -> d_open (d i) = true -> In i (arr s ++ ex);
  v_unsent : maxw c <> O -> forall x, In x (infl s) -> i_sent x = false -> In (zidx c (i_off x)) (arr s ++ ex);
  v_fill : maxw c <> O -> forall x, In x (infl s) -> i_put x = true ->
           capend c (zidx c (i_off x)) <= i_off x + i_len x -> In (zidx c (i_off x)) (arr s ++ ex);
  v_sorted : sorted c (infl s);
  v_closed : forall i, (i < nr c)%nat -> gseq c i = true -> d_open (d i) = true -> start c i < d_wp (d i) < capend c i;
  v_exec : dexec c d0 (tr s) d }.

Definition J (c : cfg) (L ex : list nat) (d0 : dev) (s : st) : Prop := exists d, Inv c L ex d0 s d.

Lemma limit_of c L ex d0 s d (d' : dev) :
  Inv c L ex d0 s d ->
  (maxw c <> O -> forall i, (i < nr c)%nat -> d_open (d' i) = true -> In i (arr s ++ ex)) -> limit_ok c d'.
Proof.
  intros I H. destruct (Nat.eq_dec (maxw c) 0) as [E|E]; [now left|right].
  unfold open_count.
  eapply Nat.le_trans; [|apply (v_num _ _ _ _ _ _ I)].
  apply NoDup_incl_length; [apply NoDup_filter, seq_NoDup|].
  intros i Hi. apply filter_In in Hi. destruct Hi as [Hi Ho]. apply in_seq in Hi.
  apply H; auto. lia.
Qed.

(** ** [sendall] *)

Lemma sendall_infl c i l : forall x, In x (fst (sendall c i l)) ->
  exists y, In y l /\ i_off x = i_off y /\ i_len x = i_len y /\ i_put x = i_put y /\
    (i_sent x = false -> x = y /\ zidx c (i_off y) <> i).
Proof.
  induction l as [|x l IH]; simpl; [tauto|].
  destruct (sendall c i l) as [r t]. simpl in *.
  destruct (Nat.eqb_spec (zidx c (i_off x)) i); simpl.
  - destruct (i_sent x) eqn:S; simpl; intros y [<-|H].
    + exists x. repeat split; auto; congruence.
    + destruct (IH _ H) as (z & A & B). exists z. auto.
    + exists x. simpl. repeat split; auto; congruence.
    + destruct (IH _ H) as (z & A & B). exists z. auto.
  - intros y [<-|H].
    + exists x. repeat split; auto.
    + destruct (IH _ H) as (z & A & B). exists z. auto.
Qed.

Lemma sendall_length c i l : length (fst (sendall c i l)) = length l.
Proof.
  induction l as [|x l IH]; simpl; auto. destruct (sendall c i l). simpl in *.
  destruct (_ && _); simpl; auto.
Qed.

Lemma sendall_nth c i l k x : nth_error l k = Some x ->
  exists b, nth_error (fst (sendall c i l)) k = Some (MkIo (i_off x) (i_len x) (i_put x) b)
       /\ (zidx c (i_off x) = i -> b = true).
Proof.
  revert k. induction l as [|y l IH]; intros [|k]; simpl; intros E; try discriminate.
  - injection E as ->. destruct (sendall c i l). simpl.
    destruct (Nat.eqb_spec (zidx c (i_off x)) i); simpl.
    + destruct (i_sent x) eqn:S; simpl; exists true; destruct x; simpl in *; subst; auto.
    + exists (i_sent x). split; [now destruct x|congruence].
  - destruct (IH _ E) as (b & A & B). exists b. destruct (sendall c i l). simpl in *.
    destruct (_ && _); simpl; auto.
Qed.

Lemma sendall_holders c i j l : holders c j (fst (sendall c i l)) = holders c j l.
Proof.
  unfold holders. induction l as [|x l IH]; simpl; auto. destruct (sendall c i l). simpl in *.
  destruct (Nat.eqb (zidx c (i_off x)) i && negb (i_sent x)); simpl;
  destruct (Nat.eqb (zidx c (i_off x)) j && i_put x); simpl; auto.
Qed.

Lemma sendall_chain_other c i j l a b : i <> j ->
  chain c j l a b -> chain c j (fst (sendall c i l)) a b.
Proof.
  intros N. revert a. induction l as [|x l IH]; simpl; intros a; auto.
  specialize (IH). destruct (sendall c i l) as [r t]. simpl in *.
  destruct (Nat.eqb_spec (zidx c (i_off x)) i) as [E|E]; simpl.
  - destruct (i_sent x) eqn:S; simpl; rewrite ?andb_false_r; simpl; rewrite ?S, ?andb_false_r; simpl.
    + destruct (Nat.eqb_spec (zidx c (i_off x)) j); simpl; try congruence; auto.
    + destruct (Nat.eqb_spec (zidx c (i_off x)) j); simpl; try congruence; auto.
  - destruct (Nat.eqb_spec (zidx c (i_off x)) j); simpl; auto.
    destruct (i_sent x); simpl; auto. intros [A B]; auto.
Qed.

Lemma sendall_chain_same c i l a b : chain c i (fst (sendall c i l)) a b <-> a = b.
Proof.
  induction l as [|x l IH]; simpl; [tauto|]. destruct (sendall c i l) as [r t]. simpl in *.
  destruct (Nat.eqb_spec (zidx c (i_off x)) i) as [E|E]; simpl.
  - destruct (i_sent x) eqn:S; simpl; rewrite ?S, ?andb_false_r; simpl; auto.
  - destruct (Nat.eqb_spec (zidx c (i_off x)) i); simpl; congruence || auto.
Qed.

Lemma sendall_cmds c i l : fst (sendall c i l) = l -> snd (sendall c i l) = [].
Proof.
  induction l as [|x l IH]; simpl; auto. destruct (sendall c i l) as [r t]. simpl in *.
  destruct (Nat.eqb (zidx c (i_off x)) i && negb (i_sent x)) eqn:B; simpl; intros E; injection E.
  - intros _ E2. rewrite <- E2 in B. simpl in B. rewrite andb_false_r in B. discriminate.
  - auto.
Qed.

(** The device executes the chain. *)
Lemma sendall_exec c i l : forall d0 t0 d b,
  cfg_ok c -> (i < nr c)%nat -> gseq c i = true ->
  dexec c d0 t0 d -> chain c i l (d_wp (d i)) b ->
  (forall x, In x l -> zidx c (i_off x) = i -> i_sent x = false ->
     start c i <= i_off x /\ 0 < i_len x /\ i_off x + i_len x <= capend c i) ->
  (forall d', (forall j, j <> i -> d' j = d j) ->
     ((exists x, In x l /\ zidx c (i_off x) = i /\ i_sent x = false) \/ d' i = d i) -> limit_ok c d') ->
  exists d', dexec c d0 (snd (sendall c i l) ++ t0) d' /\ d_wp (d' i) = b
    /\ (forall j, j <> i -> d' j = d j)
    /\ ((exists x, In x l /\ zidx c (i_off x) = i /\ i_sent x = false) \/ d' i = d i)
    /\ ((d_open (d i) = true -> start c i < d_wp (d i) < capend c i) -> d_open (d' i) = true ->
        start c i < d_wp (d' i) < capend c i).
Proof.
  intros d0 t0 d b OK Hi Hs. revert t0 d. induction l as [|x l IH]; simpl; intros t0 d E C W P.
  { exists d. split; [|split; [|split; [|split]]]; auto. }
  destruct (sendall c i l) as [r t] eqn:SA. simpl in *.
  destruct (Nat.eqb_spec (zidx c (i_off x)) i) as [Ex|Ex]; simpl in C |- *.
  - destruct (i_sent x) eqn:S; simpl in C |- *.
    + destruct (IH t0 d) as (d' & A1 & A2 & A3 & A4 & A5); auto.
      { intros d' Q1 Q2. apply P; auto. destruct Q2 as [(y & Y1 & Y2)|Q2]; [left; exists y; auto|now right]. }
      exists d'. split; [|split; [|split; [|split]]]; auto.
      destruct A4 as [(y & Y1 & Y2)|A4]; [left; exists y; auto|now right].
    + destruct C as [C1 C2].
      destruct (W x (or_introl eq_refl) Ex S) as (W1 & W2 & W3).
      set (d1 := fset d i (MkD (i_off x + i_len x) (i_off x + i_len x <? capend c i))).
      assert (X1 : forall j, j <> i -> d1 j = d j) by (intros; unfold d1; now rewrite fset_other).
      assert (X2 : d1 i = MkD (i_off x + i_len x) (i_off x + i_len x <? capend c i)) by (unfold d1; now rewrite fset_same).
      assert (E1 : dexec c d0 (CWrite (i_off x) (i_len x) :: t0) d1).
      { econstructor; [exact E|]. apply DWrite with (i := i); auto.
        - change (geo_start c) with (start c).
          pose proof (capend_le c OK i Hi). lia.
        - split; [exact X2|auto].
        - apply P; auto. left. exists x. auto. }
      destruct (IH _ d1 E1) as (d' & A1 & A2 & A3 & A4 & A5).
      { rewrite X2. simpl. now rewrite C1. }
      { auto. }
      { intros d' Q1 Q2. apply P; [|left; exists x; auto].
        intros j Hj. rewrite Q1 by auto. now apply X1. }
      exists d'. rewrite <- app_assoc. simpl. split; [|split; [|split; [|split]]]; auto.
      * intros j Hj. rewrite A3 by auto. auto.
      * left. exists x. auto.
      * intros _. apply A5. rewrite X2. simpl. intros Z1. apply Z.ltb_lt in Z1. lia.
  - destruct (IH t0 d) as (d' & A1 & A2 & A3 & A4 & A5); auto.
    { intros d' Q1 Q2. apply P; auto. destruct Q2 as [(y & Y1 & Y2)|Q2]; [left; exists y; auto|now right]. }
    exists d'. split; [|split; [|split; [|split]]]; auto.
    destruct A4 as [(y & Y1 & Y2)|A4]; [left; exists y; auto|now right].
Qed.

Lemma sendall_sorted c i l : sorted c l -> sorted c (fst (sendall c i l)).
Proof.
  induction l as [|x l IH]; simpl; auto. intros [H1 H2].
  pose proof (sendall_infl c i l) as SI. specialize (IH H2).
  destruct (sendall c i l) as [r t]. simpl in *.
  assert (K : forall y, In y r -> zidx c (i_off y) = zidx c (i_off x) -> i_off x + i_len x <= i_off y).
  { intros y Hy E. destruct (SI y Hy) as (z & Z1 & Z2 & _). rewrite Z2 in *. auto. }
  destruct (_ && _); simpl; auto.
Qed.

Lemma drop_in k l : forall x, In x (drop k l) -> In x l.
Proof. revert k. induction l as [|y l IH]; intros [|k] x; simpl; auto. intros [H|H]; eauto. Qed.
Lemma drop_length k l x : nth_error l k = Some x -> length l = S (length (drop k l)).
Proof. revert k. induction l as [|y l IH]; intros [|k]; simpl; try discriminate; auto. Qed.
Lemma drop_sorted c k l : sorted c l -> sorted c (drop k l).
Proof.
  revert k. induction l as [|y l IH]; intros [|k]; simpl; auto; intros [H1 H2]; auto.
  split; auto. intros x Hx. apply H1. eapply drop_in; eauto.
Qed.
Lemma sorted_other c k l x y : sorted c l -> nth_error l k = Some x -> In y (drop k l) ->
  zidx c (i_off y) = zidx c (i_off x) -> i_off x + i_len x <= i_off y \/ i_off y + i_len y <= i_off x.
Proof.
  revert k. induction l as [|z l IH]; intros [|k]; simpl; try discriminate.
  - intros [H1 H2] E Hy Ez. injection E as ->. left. auto.
  - intros [H1 H2] E [<-|Hy] Ez.
    + right. apply H1; auto. eapply nth_error_In; eauto.
    + eapply IH; eauto.
Qed.
Lemma drop_holders c i k l x : nth_error l k = Some x ->
  holders c i l = (holders c i (drop k l) + (if Nat.eqb (zidx c (i_off x)) i && i_put x then 1 else 0))%nat.
Proof.
  unfold holders. revert k. induction l as [|y l IH]; intros [|k]; simpl; try discriminate.
  - intros E; injection E as ->. destruct (_ && _); simpl; lia.
  - intros E. specialize (IH _ E). destruct (Nat.eqb (zidx c (i_off y)) i && i_put y); simpl; lia.
Qed.
Lemma drop_chain c i k l x a b : nth_error l k = Some x -> i_sent x = true ->
  chain c i l a b -> chain c i (drop k l) a b.
Proof.
  revert k a. induction l as [|y l IH]; intros [|k] a; simpl; try discriminate.
  - intros E S. injection E as ->. rewrite S, andb_false_r. auto.
  - intros E S. destruct (_ && _); [intros [C1 C2]; split; eauto|eauto].
Qed.

(** ** Primitives keep the invariant *)

Section Prim.
Variables (c : cfg) (d0 : dev).
Hypothesis OK : cfg_ok c.

Local Notation J L ex s := (ZbdProofs.J c L ex d0 s).

(** What does not change while zones are locked, and so on. *)
Definition inr (i : nat) : Prop := (zmin c <= i < zmax c)%nat.

Lemma inr_nr i : inr i -> (i < nr c)%nat.
Proof. unfold inr. pose proof (ok_range _ OK). lia. Qed.

Ltac inv_split I := destruct I as [A1 A2 A3 A4 A5 A6 A7 A8 A9 A10 A11 A12 A13 A14 A15 A16].

Lemma lock_spec i L ex s (Q : unit -> st -> Prop) :
  J L ex s -> inr i -> gseq c i = true ->
  (forall s', J (i :: L) ex s' -> s' = set_hold (hold s') s -> Q tt s') ->
  wpre (zone_lock c i) Q s.
Proof.
  intros (d & I) R G K. unfold zone_lock.
  apply wp_bnd, wp_check. { unfold inr in R. apply andb_true_intro; split; [apply Nat.leb_le|apply Nat.ltb_lt]; lia. }
  apply wp_bnd, wp_check; auto. apply wp_modi. apply K; [|reflexivity].
  exists d. inv_split I. constructor; auto. simpl. intros j. unfold cnt in *. simpl.
  unfold fset. specialize (A7 j). destruct (Nat.eq_dec i j); destruct (Nat.eqb_spec j i); subst; try congruence; lia.
Qed.

Lemma unlock_spec i L ex s (Q : unit -> st -> Prop) :
  J (i :: L) ex s -> gseq c i = true ->
  (forall s', J L ex s' -> s' = set_hold (hold s') s -> Q tt s') ->
  wpre (zone_unlock c i) Q s.
Proof.
  intros (d & I) G K. unfold zone_unlock. apply wp_bnd, wp_check; auto.
  apply wp_bnd, wp_gets.
  pose proof (v_hold _ _ _ _ _ _ I i) as H. unfold cnt in H. simpl in H.
  destruct (Nat.eq_dec i i) as [_|]; [|congruence].
  destruct (hold s i) as [|h] eqn:E; [lia|]. apply wp_modi. apply K; [|reflexivity].
  exists d. inv_split I. constructor; auto. simpl. intros j. unfold cnt in *. simpl in *.
  unfold fset. specialize (A7 j). destruct (Nat.eq_dec i j); destruct (Nat.eqb_spec j i); subst; try congruence; lia.
Qed.

(** A zone that is closed on the device, with nothing pending. *)
Definition quiet (s : st) (d : dev) (i : nat) : Prop :=
  d_open (d i) = false /\
  (forall x, In x (infl s) -> zidx c (i_off x) = i -> i_sent x = true) /\
  (forall x, In x (infl s) -> zidx c (i_off x) = i -> i_put x = true -> i_off x + i_len x < capend c i).

Lemma Inv_arr L ex ex' s d w a j :
  Inv c L ex d0 s d ->
  NoDup (a ++ ex') -> (forall i, w i = true <-> In i a) ->
  (forall i, In i a -> (i < nr c)%nat /\ gseq c i = true /\ goff c i = false) ->
  (length (a ++ ex') <= maxw c)%nat -> j (job c) = Z.of_nat (length a) ->
  (forall k, In k (arr s ++ ex) -> In k (a ++ ex') \/ quiet s d k) ->
  Inv c L ex' d0 (set_arr w a j s) d.
Proof.
  intros I B1 B2 B3 B4 B5 B6. inv_split I. constructor; auto; simpl.
  - intros M0 i Hi Ho. destruct (B6 i) as [H|(H & _)]; auto. congruence.
  - intros M0 x Hx Hs. destruct (B6 (zidx c (i_off x))) as [H|(_ & H & _)]; auto.
    rewrite (H x Hx eq_refl) in Hs; discriminate.
  - intros M0 x Hx Hp Hf. destruct (B6 (zidx c (i_off x))) as [H|(_ & _ & H)]; auto.
    specialize (H x Hx eq_refl Hp). lia.
Qed.

Lemma put_frame i s (Q : unit -> st -> Prop) :
  (forall k, wr s k = true <-> In k (arr s)) ->
  (~ In i (arr s) -> Q tt s) ->
  (In i (arr s) -> Q tt (set_arr (fset (wr s) i false) (remove1 i (arr s)) (fset (jn s) (job c) (u32 (jn s (job c) - 1))) s)) ->
  wpre (write_zone_put c i) Q s.
Proof.
  intros W K1 K2. unfold write_zone_put. apply wp_bnd, wp_gets.
  destruct (wr s i) eqn:E; simpl.
  - apply wp_bnd, wp_gets. apply W in E. destruct (existsb (Nat.eqb i) (arr s)) eqn:F.
    + apply wp_modi, K2; auto.
    + apply existsb_in in E. congruence.
  - apply K1. rewrite <- W. congruence.
Qed.

Lemma nodup_app_remove i (l ex : list nat) : NoDup (l ++ ex) -> NoDup (remove1 i l ++ ex).
Proof.
  induction l as [|x l IH]; simpl; auto. intros H. inversion H; subst.
  destruct (Nat.eqb_spec x i); auto. simpl. constructor; auto.
  intros N. apply H2. apply in_app_or in N. apply in_or_app. destruct N as [N|N]; auto.
  left. eapply remove1_in; eauto.
Qed.
Lemma nodup_app_l (l ex : list nat) : NoDup (l ++ ex) -> NoDup l.
Proof.
  induction l as [|x l IH]; simpl; intros H; constructor; inversion H; subst; auto.
  intros N. apply H2, in_or_app; auto.
Qed.

Lemma num_small L ex s d : Inv c L ex d0 s d -> (length (arr s) + length ex <= 4096)%nat.
Proof. intros I. pose proof (v_num _ _ _ _ _ _ I). pose proof (ok_maxw _ OK). rewrite app_length in H. lia. Qed.

Lemma remove_flags i L ex s d : Inv c L ex d0 s d ->
  forall k, fset (wr s) i false k = true <-> In k (remove1 i (arr s)).
Proof.
  intros I k. destruct (remove1_nodup i (arr s) (nodup_app_l _ _ (v_nodup _ _ _ _ _ _ I))) as [_ N].
  unfold fset. destruct (Nat.eqb_spec k i) as [->|E].
  - split; [discriminate|tauto].
  - rewrite (v_wr _ _ _ _ _ _ I). split; [apply remove1_in_other; auto|apply remove1_in].
Qed.

(** Removing a zone that is quiet. *)
Lemma put_inv i L ex s d (Q : unit -> st -> Prop) :
  Inv c L ex d0 s d -> quiet s d i ->
  (forall s', Inv c L ex d0 s' d -> (forall j, j <> i -> In j (arr s) -> In j (arr s')) ->
     (forall j, In j (arr s') -> In j (arr s)) ->
     s' = set_arr (wr s') (arr s') (jn s') s -> Q tt s') ->
  wpre (write_zone_put c i) Q s.
Proof.
  intros I q K. apply put_frame; [apply (v_wr _ _ _ _ _ _ I)|intros N; apply K; auto; now destruct s|intros N].
  pose proof (remove1_length _ _ N) as LL. pose proof (num_small _ _ _ _ I) as NS.
  apply K; [|simpl; intros; (apply remove1_in_other; auto)|simpl; intros j; apply remove1_in|reflexivity].
  eapply Inv_arr; [exact I|..].
  - apply nodup_app_remove, (v_nodup _ _ _ _ _ _ I).
  - eapply remove_flags; eauto.
  - intros k Hk. apply (v_in _ _ _ _ _ _ I). eapply remove1_in; eauto.
  - pose proof (v_num _ _ _ _ _ _ I). rewrite app_length in *. lia.
  - rewrite fset_same, (v_job _ _ _ _ _ _ I). unfold u32. rewrite Z.mod_small; lia.
  - intros k Hk. destruct (Nat.eq_dec k i) as [->|E]; [now right|left].
    apply in_app_or in Hk. apply in_or_app. destruct Hk; auto. left; (apply remove1_in_other; auto).
Qed.

(** Removing a zone of the array that is about to be finished. *)
Lemma put_ex i L s d (Q : unit -> st -> Prop) :
  Inv c L [] d0 s d ->
  (forall s' ex', Inv c L ex' d0 s' d -> (ex' = [] \/ ex' = [i]) -> ~ In i (arr s') ->
     s' = set_arr (wr s') (arr s') (jn s') s -> Q tt s') ->
  wpre (write_zone_put c i) Q s.
Proof.
  intros I K. apply put_frame; [apply (v_wr _ _ _ _ _ _ I)|intros N; apply (K s []); auto; now destruct s|intros N].
  pose proof (remove1_length _ _ N) as LL. pose proof (num_small _ _ _ _ I) as NS.
  pose proof (v_nodup _ _ _ _ _ _ I) as ND. rewrite app_nil_r in ND.
  destruct (remove1_nodup i (arr s) ND) as [ND' NI].
  apply (K _ [i]); auto.
  eapply Inv_arr; [exact I|..].
  - apply NoDup_rev in ND'. rewrite <- (rev_involutive (remove1 i (arr s) ++ [i])). apply NoDup_rev.
    rewrite rev_app_distr. simpl. constructor; auto. now rewrite <- in_rev.
  - eapply remove_flags; eauto.
  - intros k Hk. apply (v_in _ _ _ _ _ _ I). eapply remove1_in; eauto.
  - pose proof (v_num _ _ _ _ _ _ I). rewrite app_length in *. simpl in *. lia.
  - rewrite fset_same, (v_job _ _ _ _ _ _ I). unfold u32. rewrite Z.mod_small; simpl in NS; lia.
  - intros k Hk. rewrite app_nil_r in Hk. left. apply in_or_app.
    destruct (Nat.eq_dec k i) as [->|E]; [right; now left|left; (apply remove1_in_other; auto)].
Qed.

(** ** [zbd_write_zone_get] *)

Definition no_fill (s : st) (i : nat) : Prop :=
  forall x, In x (infl s) -> zidx c (i_off x) = i -> i_put x = true -> i_off x + i_len x < capend c i.

(** The zone may be written: it is tracked, and no completion will untrack it. *)
Definition ready (s : st) (i : nat) : Prop :=
  inr i /\ gseq c i = true /\ goff c i = false /\
  (maxw c <> O -> In i (arr s) /\ no_fill s i).

Lemma remain_0 s i : remain c s i = 0 <-> capend c i <= wp s i.
Proof. unfold remain. destruct (Z.leb_spec (capend c i) (wp s i)); lia. Qed.

Lemma full_spec i (Q : bool -> st -> Prop) s :
  gseq c i = true ->
  Q (if wzr c then remain c s i =? 0 else remain c s i <? minbs c) s ->
  wpre (zone_full c i (minbs c)) Q s.
Proof.
  intros G K. unfold zone_full. rewrite G. simpl. destruct (wzr c) eqn:W.
  - now apply wp_gets.
  - apply wp_bnd, wp_check; [|now apply wp_gets]. apply Z.eqb_eq. now apply (ok_512 _ OK).
Qed.

Lemma get0_spec i L s (Q : bool -> st -> Prop) :
  J L [] s -> inr i -> gseq c i = true ->
  (forall s', J L [] s' -> ready s' i -> s' = set_arr (wr s') (arr s') (jn s') s -> Q true s') ->
  Q false s ->
  wpre (write_zone_get0 c i) Q s.
Proof.
  intros (d & I) R G K1 K2. unfold write_zone_get0.
  destruct (goff c i) eqn:GO; [apply wp_ret; auto|].
  apply wp_bnd, wp_gets. destruct (vfy c && (remain c s i =? 0)); [apply wp_ret; auto|].
  destruct (Nat.eqb_spec (maxw c) 0) as [M0|M0].
  { apply wp_ret, K1; [exists d; auto| |now destruct s]. split; [auto|split; [auto|split; [auto|intros; contradiction]]]. }
  apply wp_bnd, wp_gets. destruct (wr s i) eqn:W.
  { apply wp_ret. destruct (Z.eqb_spec (remain c s i) 0) as [E|E]; simpl; auto.
    apply K1; [exists d; auto| |now destruct s].
    split; [auto|split; [auto|split; [auto|intros _]]]. split; [now apply (v_wr _ _ _ _ _ _ I)|].
    intros x Hx Ex _. pose proof (v_below _ _ _ _ _ _ I x Hx) as BB.
    rewrite Ex in BB. rewrite remain_0 in E. lia. }
  apply wp_bnd, wp_gets. destruct (_ && _); [apply wp_ret; auto|].
  apply wp_bnd, wp_gets. destruct (Nat.leb_spec (maxw c) (length (arr s))) as [LE|LT]; [apply wp_ret; auto|].
  apply wp_bnd, wp_check. { apply Nat.ltb_lt. pose proof (ok_maxw _ OK). unfold max_write_zones_size. lia. }
  assert (NI : ~ In i (arr s)) by (rewrite <- (v_wr _ _ _ _ _ _ I); congruence).
  pose proof (v_nodup _ _ _ _ _ _ I) as ND. rewrite app_nil_r in ND.
  apply wp_bnd, wp_modi, wp_ret, K1; [exists d| |reflexivity].
  - eapply Inv_arr; [exact I|..].
    + rewrite app_nil_r. apply NoDup_rev in ND. rewrite <- (rev_involutive (arr s ++ [i])). apply NoDup_rev.
      rewrite rev_app_distr. simpl. constructor; auto. now rewrite <- in_rev.
    + intros k. unfold fset. rewrite in_app_iff. simpl. destruct (Nat.eqb_spec k i) as [->|E].
      * split; auto.
      * rewrite (v_wr _ _ _ _ _ _ I). split; auto. intros [H|[H|[]]]; auto; congruence.
    + intros k. rewrite in_app_iff. simpl. intros [H|[<-|[]]].
      * now apply (v_in _ _ _ _ _ _ I).
      * repeat split; auto. now apply inr_nr.
    + rewrite app_nil_r, app_length. simpl. lia.
    + rewrite fset_same, (v_job _ _ _ _ _ _ I), app_length. unfold u32. simpl.
      pose proof (ok_maxw _ OK). rewrite Z.mod_small; lia.
    + intros k Hk. rewrite app_nil_r in *. left. apply in_or_app; auto.
  - split; [auto|split; [auto|split; [auto|intros _]]]. simpl.
    split; [apply in_or_app; right; now left|].
    intros x Hx Ex P. destruct (Z_lt_le_dec (i_off x + i_len x) (capend c i)) as [|GE]; auto.
    exfalso. apply NI. simpl in Hx.
    pose proof (v_fill _ _ _ _ _ _ I M0 x Hx P) as F. rewrite Ex, app_nil_r in F. auto.
Qed.

Lemma get_spec i L s (Q : bool -> st -> Prop) :
  J L [] s -> inr i -> gseq c i = true ->
  (forall s', J L [] s' -> ready s' i -> s' = set_arr (wr s') (arr s') (jn s') s -> Q true s') ->
  Q false s ->
  wpre (write_zone_get c i) Q s.
Proof.
  intros I R G K1 K2. unfold write_zone_get. destruct (vfy c).
  - apply wp_bnd, full_spec; auto. match goal with |- context [if ?b then ret false else _] => destruct b end.
    + apply wp_ret; auto.
    + apply (get0_spec i L s); auto.
  - apply (get0_spec i L s); auto.
Qed.

(** ** Completion *)

Lemma flush_spec i L ex s d :
  Inv c L ex d0 s d -> inr i -> gseq c i = true ->
  let s' := (let (r, t) := sendall c i (infl s) in set_infl r (set_tr (t ++ tr s) s)) in
  exists d', Inv c L ex d0 s' d' /\ d_wp (d' i) = wp s i /\
    (forall x, In x (infl s') -> zidx c (i_off x) = i -> i_sent x = true).
Proof.
  intros I R G. simpl. pose proof (inr_nr _ R) as N.
  destruct (sendall_exec c i (infl s) d0 (tr s) d (wp s i) OK N G) as (d' & B1 & B2 & B3 & B4 & B5).
  - apply (v_exec _ _ _ _ _ _ I).
  - apply (v_chain _ _ _ _ _ _ I); auto.
  - intros x Hx Ex S. pose proof (v_io _ _ _ _ _ _ I x Hx) as H. rewrite Ex in H. tauto.
  - intros d' Q1 Q2. eapply limit_of; [exact I|]. intros M0 k Hk Ho.
    destruct (Nat.eq_dec k i) as [->|E].
    + destruct Q2 as [(x & Hx & Ex & S)|Q2].
      * rewrite <- Ex. apply (v_unsent _ _ _ _ _ _ I); auto.
      * apply (v_open _ _ _ _ _ _ I); auto. congruence.
    + apply (v_open _ _ _ _ _ _ I); auto. rewrite <- Q1; auto.
  - exists d'. pose proof (sendall_infl c i (infl s)) as SI.
    split; [|split; [exact B2|]].
    2: { destruct (sendall c i (infl s)) as [r t]. simpl in *. intros x Hx Ex.
         destruct (SI x Hx) as (y & Y1 & Y2 & _ & _ & Y5). destruct (i_sent x) eqn:S; auto.
         destruct (Y5 eq_refl) as [-> Y6]. congruence. } pose proof (fun j => sendall_holders c i j (infl s)) as SH.
    pose proof (sendall_sorted c i (infl s)) as SS.
    pose proof (fun j a b => sendall_chain_other c i j (infl s) a b) as SO.
    pose proof (fun a b => sendall_chain_same c i (infl s) a b) as SM.
    destruct (sendall c i (infl s)) as [r t]. simpl in *.
    inv_split I. constructor; simpl; auto.
    + intros j. rewrite SH. auto.
    + intros x Hx. destruct (SI x Hx) as (y & Y1 & Y2 & Y3 & _). rewrite Y2, Y3. auto.
    + intros x Hx. destruct (SI x Hx) as (y & Y1 & Y2 & Y3 & _). rewrite Y2, Y3. auto.
    + intros j Hj Gj. destruct (Nat.eq_dec i j) as [<-|E]; [now apply SM|].
      rewrite B3 by auto. apply SO; auto.
    + intros M0 k Hk Ho. destruct (Nat.eq_dec k i) as [->|E].
      * destruct B4 as [(x & Hx & Ex & S)|B4]; [rewrite <- Ex; auto|apply A11; congruence].
      * apply A11; auto. rewrite <- B3; auto.
    + intros M0 x Hx S. destruct (SI x Hx) as (y & Y1 & Y2 & Y3 & Y4 & Y5). destruct (Y5 S) as [-> _]. auto.
    + intros M0 x Hx P F. destruct (SI x Hx) as (y & Y1 & Y2 & Y3 & Y4 & Y5). rewrite Y2, Y3, Y4 in *. auto.
    + intros k Hk Gk Ho. destruct (Nat.eq_dec k i) as [->|E]; [auto|]. rewrite B3 in * by auto. auto.
Qed.

Lemma Inv_drop k x L ex s d :
  Inv c L ex d0 s d -> nth_error (infl s) k = Some x -> i_sent x = true ->
  Inv c (if i_put x then zidx c (i_off x) :: L else L) ex d0 (set_infl (drop k (infl s)) s) d.
Proof.
  intros I E S. inv_split I.
  assert (DI := drop_in k (infl s)).
  constructor; simpl; auto.
  - intros i. rewrite A7. rewrite (drop_holders c i k (infl s) x E). unfold cnt.
    destruct (i_put x) eqn:P; rewrite ?andb_true_r, ?andb_false_r; simpl; [|lia].
    destruct (Nat.eq_dec (zidx c (i_off x)) i); destruct (Nat.eqb_spec (zidx c (i_off x)) i); try congruence; lia.
  - intros i Hi Gi. eapply drop_chain; eauto.
  - now apply drop_sorted.
Qed.

(** What completions leave alone. *)
Record keeps (s s' : st) : Prop := MkKeeps {
  k_wp : wp s' = wp s;
  k_rst : rst s' = rst s;
  k_rok : o_rok (orc s') = o_rok (orc s);
  k_arr : forall i, In i (arr s') -> In i (arr s);
  k_in : forall i, In i (arr s) -> no_fill s i -> In i (arr s');
  k_fill : forall i, no_fill s i -> no_fill s' i }.

Lemma keeps_refl s : keeps s s.
Proof. constructor; auto. Qed.
Lemma keeps_trans a b d : keeps a b -> keeps b d -> keeps a d.
Proof.
  intros [A1 A2 A3 A4 A5 A6] [B1 B2 B3 B4 B5 B6].
  constructor; try congruence; auto.
Qed.

Lemma complete_spec k x L ex s (Q : unit -> st -> Prop) :
  J L ex s -> nth_error (infl s) k = Some x ->
  (forall s', J L ex s' -> keeps s s' -> length (infl s) = S (length (infl s')) -> Q tt s') ->
  wpre (complete c k) Q s.
Proof.
  intros (d & I) E K. unfold complete. apply wp_bnd, wp_gets. rewrite E.
  destruct (v_io _ _ _ _ _ _ I x (nth_error_In _ _ E)) as (R & G & B1 & B2 & B3).
  set (i := zidx c (i_off x)) in *.
  destruct (flush_spec i L ex s d I R G) as (d1 & I1 & W1 & S1).
  destruct (sendall_nth c i (infl s) k x E) as (b & E1 & Eb). specialize (Eb eq_refl). subst b.
  pose proof (sendall_infl c i (infl s)) as SI.
  pose proof (sendall_length c i (infl s)) as SL.
  apply wp_bnd. unfold flush. apply wp_modi.
  set (s1 := let (r, t) := sendall c i (infl s) in set_infl r (set_tr (t ++ tr s) s)) in *.
  assert (F1 : infl s1 = fst (sendall c i (infl s)) /\ wp s1 = wp s /\ rst s1 = rst s /\ orc s1 = orc s
               /\ arr s1 = arr s /\ wr s1 = wr s)
    by (unfold s1; destruct (sendall c i (infl s)); repeat split).
  destruct F1 as (F1 & F2 & F3 & F4 & F5 & F6).
  rewrite <- F1 in E1, SI, SL.
  apply wp_bnd, wp_modi.
  pose proof (Inv_drop k _ L ex s1 d1 I1 E1 eq_refl) as I2. simpl in I2. fold i in I2.
  set (s2 := set_infl (drop k (infl s1)) s1) in *.
  assert (LEN : length (infl s) = S (length (infl s2))).
  { unfold s2. simpl. rewrite <- SL. now apply drop_length with (x := MkIo (i_off x) (i_len x) (i_put x) true). }
  assert (NF : forall j, no_fill s j -> no_fill s2 j).
  { intros j H y Hy Ey P. unfold s2 in Hy. simpl in Hy. apply drop_in in Hy.
    destruct (SI y Hy) as (z & Z1 & Z2 & Z3 & Z4 & _). rewrite Z2, Z3 in *. rewrite Z4 in P. now apply H. }
  destruct (i_put x) eqn:P.
  - unfold put_io. fold i. apply wp_bnd, wp_check; auto. apply wp_bnd. unfold end_zone_io. fold i.
    destruct (Z.leb_spec (capend c i) (i_off x + i_len x)) as [F|F].
    + eapply put_inv; [exact I2| |].
      * split; [|split].
        -- destruct (d_open (d1 i)) eqn:O; auto.
           pose proof (v_closed _ _ _ _ _ _ I1 i (inr_nr _ R) G O) as C.
           pose proof (v_below _ _ _ _ _ _ I1 _ (nth_error_In _ _ E1)) as BB. simpl in BB. fold i in BB.
           rewrite F2 in BB. lia.
        -- intros y Hy Ey. unfold s2 in Hy. simpl in Hy. apply drop_in in Hy. now apply S1.
        -- intros y Hy Ey Py. unfold s2 in Hy. simpl in Hy.
           destruct (sorted_other c k (infl s1) _ y (v_sorted _ _ _ _ _ _ I1) E1 Hy) as [H|H]; simpl in *.
           { unfold i in Ey. auto. }
           { apply drop_in in Hy. pose proof (v_io _ _ _ _ _ _ I1 y Hy) as V. rewrite Ey in V. lia. }
           { lia. }
      * intros s3 I3 A3 A3' E3. eapply unlock_spec; [exists d1; exact I3|auto|].
        intros s4 I4 E4. apply K; auto.
        -- constructor; rewrite E4, E3; simpl; try congruence.
           ++ intros j Hj. apply A3' in Hj. simpl in Hj. now rewrite F5 in Hj.
           ++ intros j Hj Nj. apply A3; [|change (arr s2) with (arr s1); now rewrite F5].
              intros ->. specialize (Nj x (nth_error_In _ _ E) eq_refl P). unfold i in *. lia.
           ++ intros j Nj. apply NF in Nj. exact Nj.
        -- rewrite E4, E3. simpl. exact LEN.
    + apply wp_ret. eapply unlock_spec; [exists d1; exact I2|auto|].
      intros s4 I4 E4. apply K; auto.
      * constructor; rewrite E4; simpl; try congruence; auto.
      * rewrite E4. exact LEN.
  - apply wp_ret. apply K; [exists d1; auto| |auto].
    constructor; simpl; try congruence; auto.
Qed.

Lemma J_orc o L ex s : J L ex s -> J L ex (set_orc o s).
Proof. intros (d & I). exists d. inv_split I. constructor; auto. Qed.
Lemma J_rst v L ex s : J L ex s -> J L ex (set_rst v s).
Proof. intros (d & I). exists d. inv_split I. constructor; auto. Qed.

Lemma quiesce_loop_spec n : forall L ex s (Q : unit -> st -> Prop),
  J L ex s -> length (infl s) = n ->
  (forall s', J L ex s' -> keeps s s' -> infl s' = [] -> Q tt s') ->
  wpre (quiesce_loop c n) Q s.
Proof.
  induction n as [|n IH]; intros L ex s Q I N K; cbn [quiesce_loop].
  { apply wp_ret. apply K; auto using keeps_refl. destruct (infl s); [auto|discriminate]. }
  apply wp_bnd, wp_gets, wp_bnd, wp_modi, wp_bnd.
  set (k := (hd 0%nat (o_pick (orc s)) mod S n)%nat).
  assert (B : (k < S n)%nat) by (apply Nat.mod_upper_bound; lia).
  destruct (nth_error (infl s) k) as [x|] eqn:E.
  2: { apply nth_error_None in E. lia. }
  match goal with |- wpre _ _ (set_orc ?o s) => set (o' := o) end.
  eapply complete_spec; [apply J_orc; exact I|exact E|].
  intros s1 I1 K1 L1. apply (IH L ex); auto. { simpl in L1. lia. }
  intros s2 I2 K2 N2. apply K; auto.
  eapply keeps_trans; [|exact K2].
  destruct K1 as [B1 B2 B3 B4 B5 B6]. constructor; auto.
Qed.

Lemma quiesce_spec L ex s (Q : unit -> st -> Prop) :
  J L ex s ->
  (forall s', J L ex s' -> keeps s s' -> infl s' = [] -> Q tt s') ->
  wpre (quiesce c) Q s.
Proof. intros I K. unfold quiesce. apply wp_bnd, wp_gets. apply (quiesce_loop_spec _ L ex); auto. Qed.

Lemma Inv_setzone L ex ex' s d d' i v x :
  Inv c L ex d0 s d -> inr i -> gseq c i = true ->
  (forall y, In y (infl s) -> zidx c (i_off y) <> i) ->
  start c i <= v <= start c (S i) ->
  dput d d' i (MkD v false) -> (limit_ok c d' -> dstep c d x d') ->
  (ex' = ex \/ (ex = [i] /\ ex' = [])) ->
  Inv c L ex' d0 (set_wp (fset (wp s) i v) (set_tr (x :: tr s) s)) d'.
Proof.
  intros I R G N V [D1 D2] X E.
  assert (LIM : limit_ok c d').
  { eapply limit_of; [exact I|]. intros M0 k Hk Ho. destruct (Nat.eq_dec k i) as [->|F].
    - rewrite D1 in Ho. discriminate.
    - apply (v_open _ _ _ _ _ _ I); auto. rewrite <- D2; auto. }
  assert (INC : forall k, k <> i -> In k (arr s ++ ex) -> In k (arr s ++ ex')).
  { intros k F H. destruct E as [->|[-> ->]]; auto. apply in_app_or in H. apply in_or_app.
    destruct H as [H|[H|[]]]; auto; congruence. }
  inv_split I. constructor; simpl; auto.
  - intros k Hk Gk. destruct (Nat.eq_dec k i) as [->|F]; [rewrite fset_same|rewrite fset_other]; auto.
  - destruct E as [->|[-> ->]]; auto. rewrite app_nil_r. eapply nodup_app_l; eauto.
  - destruct E as [->|[-> ->]]; auto. rewrite app_length in *. simpl in *. lia.
  - intros y Hy. rewrite fset_other by auto. auto.
  - intros k Hk Gk. destruct (Nat.eq_dec k i) as [->|F].
    + rewrite fset_same, D1. simpl.
      clear - N. induction (infl s) as [|y l IH]; simpl; auto.
      destruct (Nat.eqb_spec (zidx c (i_off y)) i) as [E|E]; simpl.
      * exfalso. eapply N; [now left|exact E].
      * apply IH. intros z Hz. apply N. now right.
    + rewrite fset_other, D2 by auto. auto.
  - intros M0 k Hk Ho. destruct (Nat.eq_dec k i) as [->|F]; [rewrite D1 in Ho; discriminate|].
    apply INC; auto. apply A11; auto. rewrite <- D2; auto.
  - intros k Hk Gk Ho. destruct (Nat.eq_dec k i) as [->|F]; [rewrite D1 in Ho; discriminate|].
    rewrite D2 in * by auto. auto.
  - econstructor; [exact A16|auto].
Qed.

Lemma dput_fset (d : dev) i z : dput d (fset d i z) i z.
Proof. split; [apply fset_same|intros; now apply fset_other]. Qed.

Lemma finish_spec i L ex s (Q : unit -> st -> Prop) :
  J L ex s -> inr i -> gseq c i = true -> infl s = [] -> (ex = [] \/ ex = [i]) ->
  (J L [] (set_wp (fset (wp s) i (start c (S i))) (set_tr (CFinish i :: tr s) s)) ->
     Q tt (set_wp (fset (wp s) i (start c (S i))) (set_tr (CFinish i :: tr s) s))) ->
  wpre (finish_zone c i) Q s.
Proof.
  intros (d & I) R G N E K. unfold finish_zone. apply wp_modi. apply K.
  exists (fset d i (MkD (start c (S i)) false)).
  eapply Inv_setzone; [exact I|auto|auto| | |apply dput_fset| |].
  - rewrite N. intros y [].
  - split; [|lia]. rewrite start_succ. pose proof (ok_zsz _ OK). lia.
  - intros LIM. apply DFinish; auto. now apply inr_nr. apply dput_fset.
  - destruct E as [->| ->]; auto.
Qed.

Lemma reset0_spec i L s (Q : bool -> st -> Prop) :
  J L [] s -> inr i -> gseq c i = true ->
  (forall y, In y (infl s) -> zidx c (i_off y) <> i) ->
  (forall s', J L [] s' -> wp s' i = start c i -> (forall j, j <> i -> wp s' j = wp s j) -> arr s' = arr s -> wr s' = wr s ->
      infl s' = infl s -> rst s' = rst s -> Q true s') ->
  Q false s ->
  wpre (reset_zone0 c i) Q s.
Proof.
  intros JI R G N K1 K2. unfold reset_zone0. apply wp_bnd, wp_gets.
  destruct (Z.eqb_spec (wp s i) (start c i)) as [E|E]; [apply wp_ret; apply K1; auto|].
  apply wp_bnd, wp_check.
  { apply valid_iff; auto. unfold inr in R. pose proof (ok_zsz _ OK). rewrite start_succ.
    pose proof (start_mono c OK (zmin c) i ltac:(lia)). pose proof (start_mono c OK (S i) (zmax c) ltac:(lia)) as H1.
    rewrite start_succ in H1. lia. }
  apply wp_bnd, wp_gets. destruct (o_rok (orc s)); [|apply wp_ret; auto].
  simpl. apply wp_bnd, wp_modi, wp_ret. destruct JI as (d & I).
  apply K1; simpl; auto.
  - exists (fset d i (MkD (start c i) false)).
    eapply Inv_setzone; [exact I|auto|auto|auto| |apply dput_fset| |now left].
    + split; [lia|]. rewrite start_succ. pose proof (ok_zsz _ OK). lia.
    + intros LIM. apply DReset; auto. now apply inr_nr. apply dput_fset.
  - apply fset_same.
  - intros; now apply fset_other.
Qed.

(** ** [zbd_convert_to_write_zone] *)

Lemma pick_idx_bound off s : valid c off = true -> (pick_idx c off s = 0 \/ pick_idx c off s < length (arr s))%nat.
Proof.
  intros V. unfold pick_idx. apply valid_iff in V; auto.
  destruct (length (arr s)) as [|n] eqn:E; [left; now rewrite Z.mul_0_r, Z.div_0_l by (unfold iosz; pose proof (ok_range _ OK); pose proof (ok_zsz _ OK); nia)|right].
  assert (IO : 0 < iosz c) by (unfold iosz; pose proof (ok_range _ OK); pose proof (ok_zsz _ OK); nia).
  pose proof (end_range c OK) as ER. unfold foff in *.
  assert (B : 0 <= (off - start c (zmin c)) * Z.of_nat (S n) / iosz c < Z.of_nat (S n)).
  { split; [apply Z.div_pos; nia|]. apply Z.div_lt_upper_bound; nia. }
  lia.
Qed.

Lemma pick_loop_some a n : forall w j, pick_loop c a n w = Some j -> a <> [] -> In j a /\ inr j.
Proof.
  induction n as [|n IH]; simpl; intros w j; [discriminate|].
  set (w' := if (length a <=? w)%nat then 0%nat else w).
  destruct (in_range c (nth w' a 0%nat)) eqn:R; intros E NE.
  - injection E as <-. split.
    + apply nth_In. unfold w'. destruct (Nat.leb_spec (length a) w); [destruct a; simpl; [congruence|lia]|lia].
    + unfold in_range in R. apply andb_true_iff in R. rewrite Nat.leb_le, Nat.ltb_lt in R. exact R.
  - eapply IH; eauto.
Qed.

Lemma pick_spec off L ex s (Q : option nat -> st -> Prop) :
  J L ex s -> valid c off = true ->
  Q (pick_loop c (arr s) (length (arr s)) (pick_idx c off s)) s ->
  wpre (pick_write_zone c off) Q s.
Proof.
  intros I V K. unfold pick_write_zone. apply wp_bnd, wp_gets, wp_bnd, wp_gets, wp_bnd, wp_check.
  - destruct (pick_idx_bound off s V) as [H|H]; [rewrite H; reflexivity|].
    apply orb_true_iff; right. now apply Nat.ltb_lt.
  - now apply wp_ret.
Qed.

Lemma pick_some L ex s off j : J L ex s -> pick_loop c (arr s) (length (arr s)) (pick_idx c off s) = Some j ->
  In j (arr s) /\ inr j /\ gseq c j = true /\ goff c j = false.
Proof.
  intros (d & I) E. destruct (arr s) as [|a l] eqn:EA; [discriminate|].
  rewrite <- EA in *. destruct (pick_loop_some _ _ _ _ E) as [H1 H2]; [congruence|].
  destruct (v_in _ _ _ _ _ _ I j H1) as (_ & G & O). auto.
Qed.

Lemma next_seq_spec i0 : inr i0 -> gseq c i0 = true -> forall n i (Q : nat -> st -> Prop) s,
  inr i -> (n = if (i0 <=? i)%nat then zmax c - i + (i0 - zmin c) else i0 - i)%nat -> (0 < n)%nat ->
  (forall j, inr j -> gseq c j = true -> Q j s) -> wpre (next_seq c n i) Q s.
Proof.
  intros R0 G0. induction n as [|n IH]; intros i Q s R E P K; [lia|]. cbn [next_seq].
  unfold inr in R0, R.
  set (j := if (zmax c <=? S i)%nat then zmin c else S i).
  assert (Rj : inr j) by (unfold j, inr; destruct (Nat.leb_spec (zmax c) (S i)); lia).
  destruct (gseq c j) eqn:Gj; [apply wp_ret; auto|].
  assert (J0 : j <> i0) by congruence.
  apply IH; auto.
  - unfold j in *. unfold inr in *.
    destruct (Nat.leb_spec (zmax c) (S i)); destruct (Nat.leb_spec i0 i);
    match goal with |- context [(i0 <=? ?k)%nat] => destruct (Nat.leb_spec i0 k) end; lia.
  - unfold j in *. unfold inr in *.
    destruct (Nat.leb_spec (zmax c) (S i)); destruct (Nat.leb_spec i0 i); lia.
Qed.

(** States that differ only in the hold counts. *)
Definition hsame (s s' : st) : Prop := exists h, s' = set_hold h s.
Lemma hsame_refl s : hsame s s.
Proof. exists (hold s). now destruct s. Qed.
Lemma hsame_trans a b d : hsame a b -> hsame b d -> hsame a d.
Proof. intros [h ->] [k ->]. exists k. reflexivity. Qed.
Lemma hsame_of a b : b = set_hold (hold b) a -> hsame a b.
Proof. intros ->. eexists. reflexivity. Qed.
Hint Resolve hsame_refl hsame_of : zb.

Lemma hs_wp a b : hsame a b -> wp b = wp a. Proof. now intros [h ->]. Qed.
Lemma hs_infl a b : hsame a b -> infl b = infl a. Proof. now intros [h ->]. Qed.
Lemma hs_arr a b : hsame a b -> arr b = arr a. Proof. now intros [h ->]. Qed.
Lemma hs_wr a b : hsame a b -> wr b = wr a. Proof. now intros [h ->]. Qed.
Lemma hs_remain a b i : hsame a b -> remain c b i = remain c a i. Proof. now intros [h ->]. Qed.

Lemma pick_hs off a b : hsame a b -> pick_loop c (arr b) (length (arr b)) (pick_idx c off b)
  = pick_loop c (arr a) (length (arr a)) (pick_idx c off a).
Proof. now intros [h ->]. Qed.

Lemma lockif i L ex s (Q : unit -> st -> Prop) :
  J L ex s -> inr i ->
  (forall s', J (if gseq c i then i :: L else L) ex s' -> hsame s s' -> Q tt s') ->
  wpre (if gseq c i then zone_lock c i else ret tt) Q s.
Proof.
  intros I R K. destruct (gseq c i) eqn:G.
  - eapply lock_spec; eauto. intros; apply K; auto with zb.
  - apply wp_ret, K; auto with zb.
Qed.
Lemma unlockif i L ex s (Q : unit -> st -> Prop) :
  J (if gseq c i then i :: L else L) ex s ->
  (forall s', J L ex s' -> hsame s s' -> Q tt s') ->
  wpre (if gseq c i then zone_unlock c i else ret tt) Q s.
Proof.
  intros I K. destruct (gseq c i) eqn:G.
  - eapply unlock_spec; eauto. intros; apply K; auto with zb.
  - apply wp_ret, K; auto with zb.
Qed.

Lemma maxw0 L ex s : J L ex s -> arr s <> [] -> maxw c <> O.
Proof.
  intros (d & I) N E. pose proof (v_num _ _ _ _ _ _ I) as H. rewrite app_length, E in H.
  destruct (arr s); [auto|simpl in H; lia].
Qed.

Definition first_post (s : st) (f : first) (s' : st) : Prop :=
  hsame s s' /\
  match f with
  | FNone => J [] [] s'
  | FExamine z => J [z] [] s' /\ inr z /\ gseq c z = true /\ goff c z = false /\ (maxw c <> O -> In z (arr s'))
  | FOther z => J [z] [] s' /\ inr z /\ gseq c z = true
  end.

Lemma first_loop_pick n off i s (Q : first -> st -> Prop) :
  J [] [] s -> valid c off = true -> pick_loop c (arr s) (length (arr s)) (pick_idx c off s) = Some i ->
  (forall f s', first_post s f s' -> Q f s') -> wpre (first_loop c (S n) off i) Q s.
Proof.
  intros I V P K. destruct (pick_some _ _ _ _ _ I P) as (N & R & G & O).
  assert (NE : arr s <> []) by (intros E; rewrite E in N; contradiction).
  cbn [first_loop]. apply wp_bnd. eapply lockif; eauto. rewrite G. intros s1 I1 H1.
  apply wp_bnd, wp_gets. rewrite O. cbn [negb andb].
  destruct (Nat.eqb_spec (maxw c) 0) as [M0|M0]; [destruct (maxw0 _ _ _ I NE M0)|]. cbn [andb].
  rewrite (hs_arr _ _ H1).
  destruct (length (arr s)) as [|m] eqn:LA; [destruct (arr s); [congruence|discriminate]|].
  cbn [Nat.eqb andb]. apply wp_bnd. eapply pick_spec; eauto. rewrite (pick_hs off _ _ H1), LA, P.
  rewrite Nat.eqb_refl. apply wp_ret, K. split; auto. repeat split; auto; try apply R.
  intros _. now rewrite (hs_arr _ _ H1).
Qed.

Lemma first_loop_spec n off i s (Q : first -> st -> Prop) :
  J [] [] s -> valid c off = true -> inr i ->
  (forall f s', first_post s f s' -> Q f s') -> wpre (first_loop c (S (S n)) off i) Q s.
Proof.
  intros I V R K. change (first_loop c (S (S n)) off i) with
   ((if gseq c i then zone_lock c i else ret tt) ;;;
      a <- gets arr ;;
      if gseq c i && negb (goff c i) && (maxw c =? 0)%nat && (jmax c =? 0)
      then ret (FExamine i)
      else if gseq c i && (length a =? 0)%nat then ret (FOther i)
      else
        p <- pick_write_zone c off ;;
        match p with
        | None => (if gseq c i then zone_unlock c i else ret tt) ;;; ret FNone
        | Some j =>
            if Nat.eqb j i then ret (FExamine i)
            else (if gseq c i then zone_unlock c i else ret tt) ;;; first_loop c (S n) off j
        end).
  apply wp_bnd. eapply lockif; eauto. intros s1 I1 H1. apply wp_bnd, wp_gets.
  destruct (gseq c i && negb (goff c i) && (maxw c =? 0)%nat && (jmax c =? 0)) eqn:B.
  { apply andb_true_iff in B. destruct B as [B _]. apply andb_true_iff in B. destruct B as [B B3].
    apply andb_true_iff in B. destruct B as [B1 B2]. apply Nat.eqb_eq in B3. rewrite B1 in I1.
    apply wp_ret, K. split; auto. split; [auto|split; [auto|split; [auto|split]]].
    - now apply negb_true_iff in B2.
    - intros; contradiction. }
  destruct (gseq c i && (length (arr s1) =? 0)%nat) eqn:B2.
  { apply andb_true_iff in B2. destruct B2 as [B1 _]. rewrite B1 in I1. apply wp_ret, K. split; auto. }
  apply wp_bnd. eapply pick_spec; eauto.
  destruct (pick_loop c (arr s1) (length (arr s1)) (pick_idx c off s1)) as [j|] eqn:P.
  - destruct (pick_some _ _ _ _ _ I1 P) as (Nj & Rj & Gj & Oj).
    destruct (Nat.eqb_spec j i) as [->|E].
    + apply wp_ret, K. rewrite Gj in I1. split; auto.
    + apply wp_bnd. eapply unlockif; eauto. intros s2 I2 H2.
      apply first_loop_pick; auto. { rewrite (pick_hs off _ _ H2). exact P. }
      intros f s3 [F1 F2]. apply K. split; [|exact F2]. eauto using hsame_trans.
  - apply wp_bnd. eapply unlockif; eauto. intros s2 I2 H2. apply wp_ret, K. split; eauto using hsame_trans.
Qed.

(** The position after [n] turns of the search. *)
Definition adv (n z : nat) : nat := (zmin c + (z - zmin c + n) mod (zmax c - zmin c))%nat.

Lemma adv_next n z : inr z -> adv n (if valid c (start c (S z)) then S z else zmin c) = adv (S n) z.
Proof.
  intros R. unfold inr in R. unfold adv.
  destruct (Nat.lt_ge_cases (S z) (zmax c)) as [H|H].
  - rewrite valid_start by (auto; lia). f_equal. f_equal. lia.
  - rewrite valid_start_out by auto. f_equal.
    replace (z - zmin c + S n)%nat with (zmin c - zmin c + n + 1 * (zmax c - zmin c))%nat by lia.
    now rewrite Nat.mod_add by lia.
Qed.
Lemma adv_full z : inr z -> adv (zmax c - zmin c) z = z.
Proof.
  intros R. unfold inr in R. unfold adv.
  replace (z - zmin c + (zmax c - zmin c))%nat with (z - zmin c + 1 * (zmax c - zmin c))%nat by lia.
  rewrite Nat.mod_add, Nat.mod_small by lia. lia.
Qed.

(** States that differ only in the hold counts and the array. *)
Definition asame (s s' : st) : Prop := wp s' = wp s /\ infl s' = infl s.
Lemma asame_h a b : hsame a b -> asame a b. Proof. intros [h ->]; split; reflexivity. Qed.
Lemma asame_a a b : b = set_arr (wr b) (arr b) (jn b) a -> asame a b.
Proof. intros ->. split; reflexivity. Qed.
Lemma asame_trans a b d : asame a b -> asame b d -> asame a d.
Proof. intros [A1 A2] [B1 B2]. split; congruence. Qed.
Lemma asame_refl a : asame a a. Proof. split; reflexivity. Qed.

Lemma scan_spec n : forall z s (Q : bool * nat -> st -> Prop),
  J (if gseq c z then [z] else []) [] s -> inr z ->
  (forall z' s', J [z'] [] s' -> ready s' z' -> asame s s' -> Q (true, z') s') ->
  (forall s', J (if gseq c (adv n z) then [adv n z] else []) [] s' -> hsame s s' -> Q (false, adv n z) s') ->
  wpre (scan c n z) Q s.
Proof.
  induction n as [|n IH]; intros z s Q I R K1 K2.
  { assert (E : adv 0 z = z).
    { unfold adv, inr in *. rewrite Nat.add_0_r, Nat.mod_small by lia. lia. }
    cbn [scan]. apply wp_ret. rewrite E in K2. apply K2; auto with zb. }
  cbn [scan]. apply wp_bnd. eapply unlockif; eauto. intros s1 I1 H1.
  rewrite <- adv_next in K2 by auto.
  set (z1 := if valid c (start c (S z)) then S z else zmin c) in *.
  assert (R1 : inr z1).
  { unfold z1, inr in *. destruct (Nat.lt_ge_cases (S z) (zmax c)).
    - rewrite valid_start by (auto; lia). lia.
    - rewrite valid_start_out by auto. pose proof (ok_range _ OK). lia. }
  apply wp_bnd, wp_check. { apply valid_start; auto. }
  destruct (gseq c z1) eqn:G; cbn [negb].
  - apply wp_bnd. eapply lock_spec; eauto. intros s2 I2 H2. apply hsame_of in H2.
    apply wp_bnd, wp_gets.
    assert (GO : forall s3, J [z1] [] s3 -> hsame s s3 -> wpre (scan c n z1) Q s3).
    { intros s3 I3 H3. apply IH; auto. { now rewrite G. }
      - intros; apply K1; auto. eauto using asame_trans, asame_h.
      - intros; apply K2; auto. eauto using hsame_trans. }
    destruct (wr s2 z1). { apply GO; auto. eauto using hsame_trans. }
    apply wp_bnd. apply (get_spec z1 [z1] s2); auto.
    + intros s3 I3 RD E3. apply wp_ret. apply K1; auto.
      eapply asame_trans; [|apply asame_a; eassumption]; apply asame_h; eauto using hsame_trans.
    + apply GO; auto. eauto using hsame_trans.
  - apply IH; auto. { rewrite G; auto. }
    + intros; apply K1; auto. eauto using asame_trans, asame_h.
    + intros; apply K2; auto. eauto using hsame_trans.
Qed.

Lemma fits_spec n : forall i z s (Q : bool * nat -> st -> Prop),
  J [z] [] s -> inr z -> gseq c z = true ->
  (forall z' s', J [z'] [] s' -> ready s' z' -> asame s s' -> Q (true, z') s') ->
  (forall z' s', J [z'] [] s' -> inr z' -> gseq c z' = true -> hsame s s' -> Q (false, z') s') ->
  wpre (fits c n i z) Q s.
Proof.
  induction n as [|n IH]; intros i z s Q I R G K1 K2; cbn [fits].
  { apply wp_ret. apply K2; auto with zb. }
  apply wp_bnd, wp_gets. destruct (nth_error (arr s) i) as [j|] eqn:E.
  2: { apply wp_ret. apply K2; auto with zb. }
  destruct (in_range c j) eqn:RJ; cbn [negb].
  - assert (Rj : inr j).
    { unfold in_range in RJ. apply andb_true_iff in RJ. rewrite Nat.leb_le, Nat.ltb_lt in RJ. exact RJ. }
    assert (Gj : gseq c j = true).
    { destruct I as (d & I). apply (v_in _ _ _ _ _ _ I j). eapply nth_error_In; eauto. }
    apply wp_bnd. eapply unlock_spec; eauto. intros s1 I1 H1. apply hsame_of in H1.
    apply wp_bnd. eapply lock_spec; eauto. intros s2 I2 H2. apply hsame_of in H2.
    assert (H02 : hsame s s2) by eauto using hsame_trans.
    assert (GO : wpre (fits c n (S i) j) Q s2).
    { apply IH; auto.
      - intros; apply K1; auto. eauto using asame_trans, asame_h.
      - intros; apply K2; auto. eauto using hsame_trans. }
    apply wp_bnd, wp_gets. match goal with |- context [if ?b then _ else _] => destruct b end; auto.
    apply wp_bnd. apply (get_spec j [j] s2); auto.
    intros s3 I3 RD E3. apply wp_ret. apply K1; auto.
    eapply asame_trans; [|apply asame_a; eassumption]; apply asame_h; eauto using hsame_trans.
  - apply IH; auto.
Qed.

(** Some zones have been finished, nothing else has happened to write pointers. *)
Definition fin (s s' : st) : Prop := forall i, wp s' i = wp s i \/ wp s' i = start c (S i).
Lemma fin_same a b : wp b = wp a -> fin a b. Proof. intros E i. left. now rewrite E. Qed.
Lemma fin_trans a b d : fin a b -> fin b d -> fin a d.
Proof. intros H1 H2 i. destruct (H2 i) as [E|E]; [rewrite E; auto|auto]. Qed.
Lemma fin_h a b : hsame a b -> fin a b. Proof. intros H. apply fin_same. now apply hs_wp. Qed.
Lemma fin_a a b : asame a b -> fin a b. Proof. intros [H _]. now apply fin_same. Qed.
Lemma fin_k a b : keeps a b -> fin a b. Proof. intros H. apply fin_same. apply (k_wp _ _ H). Qed.

Definition rpost (s : st) (r : option (nat * bool)) (s' : st) : Prop :=
  fin s s' /\
  match r with
  | None => J [] [] s'
  | Some (z, m) => J [z] [] s' /\ ready s' z
  end.

Definition fuel (s : st) (should : bool) : nat :=
  match infl s with [] => if should then 2 else 1 | _ => 3 end.

Lemma retry_spec n : forall off zb z should s (Q : option (nat * bool) -> st -> Prop),
  J [z] [] s -> inr z -> gseq c z = true -> inr zb -> gseq c zb = true -> valid c off = true ->
  (fuel s should <= n)%nat ->
  (forall r s', rpost s r s' -> Q r s') -> wpre (retry c n off zb z should) Q s.
Proof.
  induction n as [|n IH]; intros off zb z should s Q I R G Rb Gb V F K.
  { exfalso. unfold fuel in F. destruct (infl s); [destruct should|]; lia. }
  cbn [retry]. apply wp_bnd.
  assert (REST : forall z s1, J [z] [] s1 -> inr z -> gseq c z = true -> asame s s1 ->
    wpre (q <- scan c (zmax c - zmin c) z ;;
        if fst q then ret (Some (snd q, true))
        else
          a <- gets arr ;;
          f <- fits c (length a) O (snd q) ;;
          if fst f then ret (Some (snd f, true))
          else
            let z := snd f in
            busy <- gets (fun s => negb (length (infl s) =? 0)%nat) ;;
            if busy || should then
              zone_unlock c z ;;; quiesce c ;;; zone_lock c z ;;;
              retry c n off zb z busy
            else
              if rnd c && negb (vfy c) && negb (wzr c) then
                k <- pick_write_zone c off ;;
                match k with
                | Some j =>
                    zone_unlock c z ;;; zone_lock c j ;;; quiesce c ;;;
                    finish_zone c j ;;; ret (Some (j, true))
                | None => zone_unlock c z ;;; ret None
                end
              else zone_unlock c z ;;; ret None) Q s1).
  { clear z I R G. intros z s1 I R G A1. apply wp_bnd. apply scan_spec; auto. { now rewrite G. }
    { intros z' s2 I2 RD A2. cbn [fst snd]. apply wp_ret, K. split; auto.
      apply fin_a. eauto using asame_trans. }
    rewrite adv_full by auto. rewrite G. intros s2 I2 H2. cbn [fst snd].
    apply wp_bnd, wp_gets, wp_bnd. apply fits_spec; auto.
    { intros z' s3 I3 RD A3. cbn [fst snd]. apply wp_ret, K. split; auto.
      apply fin_a. eauto using asame_trans, asame_h. }
    clear z I I2 R G. intros z s3 I3 R G H3. cbn [fst snd].
    assert (A3 : asame s s3) by eauto using asame_trans, asame_h.
    cbv zeta. apply wp_bnd, wp_gets.
    destruct (negb (length (infl s3) =? 0)%nat || should) eqn:B.
    - apply wp_bnd. eapply unlock_spec; eauto. intros s4 I4 H4. apply hsame_of in H4.
      apply wp_bnd. apply (quiesce_spec [] [] s4); auto. intros s5 I5 K5 N5.
      apply wp_bnd. eapply lock_spec; eauto. intros s6 I6 H6. apply hsame_of in H6.
      apply IH; auto.
      + unfold fuel in *. rewrite (hs_infl _ _ H6), N5.
        rewrite (proj2 A3) in *. destruct (infl s); simpl in *.
        * rewrite B in F. lia.
        * lia.
      + intros r s7 [P1 P2]. apply K. split; [|exact P2].
        eapply fin_trans; [apply fin_a; exact A3|]. eapply fin_trans; [apply fin_h; exact H4|].
        eapply fin_trans; [apply fin_k; exact K5|]. eapply fin_trans; [apply fin_h; exact H6|]. exact P1.
    - apply orb_false_iff in B. destruct B as [B _]. apply negb_false_iff, Nat.eqb_eq in B.
      assert (N3 : infl s3 = []) by (destruct (infl s3); [auto|discriminate]).
      assert (STOP : wpre (zone_unlock c z ;;; ret None) Q s3).
      { apply wp_bnd. eapply unlock_spec; eauto. intros s4 I4 H4. apply hsame_of in H4.
        apply wp_ret, K. split; auto. eauto using fin_trans, fin_a, fin_h. }
      destruct (rnd c && negb (vfy c) && negb (wzr c)); auto.
      apply wp_bnd. eapply pick_spec; eauto.
      destruct (pick_loop c (arr s3) (length (arr s3)) (pick_idx c off s3)) as [j|] eqn:P; auto.
      destruct (pick_some _ _ _ _ _ I3 P) as (Nj & Rj & Gj & Oj).
      apply wp_bnd. eapply unlock_spec; eauto. intros s4 I4 H4. apply hsame_of in H4.
      apply wp_bnd. eapply lock_spec; eauto. intros s5 I5 H5. apply hsame_of in H5.
      apply wp_bnd. apply (quiesce_spec [j] [] s5); auto. intros s6 I6 K6 N6.
      apply wp_bnd. eapply finish_spec; eauto. intros I7. apply wp_ret, K. split.
      + eapply fin_trans; [apply fin_a; exact A3|]. eapply fin_trans; [apply fin_h; exact H4|].
        eapply fin_trans; [apply fin_h; exact H5|]. eapply fin_trans; [apply fin_k; exact K6|].
        intros i. simpl. unfold fset. destruct (Nat.eqb_spec i j); subst; auto.
      + split; [exact I7|]. split; [auto|split; [auto|split; [auto|]]]. intros M0. simpl. split.
        * apply (k_in _ _ K6); [now rewrite (hs_arr _ _ H5), (hs_arr _ _ H4)|].
          intros x Hx. rewrite (hs_infl _ _ H5), (hs_infl _ _ H4), N3 in Hx. contradiction.
        * intros x Hx. simpl in Hx. rewrite N6 in Hx. contradiction. }
  destruct (rnd c).
  - apply wp_bnd. eapply unlock_spec; eauto. intros s1 I1 H1. apply hsame_of in H1.
    apply wp_bnd. eapply lock_spec; eauto. intros s2 I2 H2. apply hsame_of in H2.
    apply wp_bnd. apply (get_spec zb [zb] s2); auto.
    + intros s3 I3 RD E3. apply wp_ret. cbn [fst snd]. apply wp_ret, K. split; auto.
      apply asame_a in E3. eapply fin_trans; [apply fin_h; exact H1|].
      eapply fin_trans; [apply fin_h; exact H2|apply fin_a; exact E3].
    + apply wp_ret. cbn [fst snd]. apply REST; auto. eauto using asame_trans, asame_h.
  - apply wp_ret. cbn [fst snd]. apply REST; auto. apply asame_refl.
Qed.

Definition cpost (s : st) (r : option (nat * Z)) (s' : st) : Prop :=
  fin s s' /\
  match r with
  | None => J [] [] s'
  | Some (z, off) => J [z] [] s' /\ ready s' z /\ valid c off = true
  end.

Lemma search_spec off zb s (Q : option (nat * Z) -> st -> Prop) :
  J [zb] [] s -> inr zb -> gseq c zb = true -> valid c off = true ->
  (forall r s', cpost s r s' -> Q r s') -> wpre (convert_search c off zb) Q s.
Proof.
  intros I R G V K. unfold convert_search.
  apply wp_bnd. eapply unlock_spec; eauto. intros s1 I1 H1. apply hsame_of in H1.
  apply wp_bnd, wp_gets, wp_bnd, wp_gets, wp_bnd, wp_gets. cbv zeta.
  match goal with |- wpre (bnd (first_loop c 3 off ?i) _) _ _ => set (i0 := i) end.
  assert (R0 : inr i0).
  { unfold i0. match goal with |- context [(?i <? zmin c)%nat] => generalize i end. intros i.
    pose proof (ok_range _ OK). unfold inr.
    destruct (Nat.ltb_spec i (zmin c)); [lia|]. destruct (Nat.leb_spec (zmax c) i); lia. }
  apply wp_bnd. apply (first_loop_spec 1); auto. intros f s2 [H2 P2].
  assert (F2 : fin s s2) by eauto using fin_trans, fin_h.
  assert (OTHER : forall z, J [z] [] s2 -> inr z -> gseq c z = true ->
    wpre (b <- gets (wait_zone_write c) ;;
    (if b then quiesce c else ret tt) ;;;
    r <- retry c 4 off zb z true ;;
    match r with
    | None => ret None
    | Some (z, moved) => conv_out c off z moved
    end) Q s2).
  { intros z I2 Rz Gz. apply wp_bnd, wp_gets. apply wp_bnd.
    assert (GO : forall s3, J [z] [] s3 -> fin s2 s3 -> wpre (r <- retry c 4 off zb z true ;;
      match r with
      | None => ret None
      | Some (z, moved) => conv_out c off z moved
      end) Q s3).
    { intros s3 I3 F3. apply wp_bnd. apply retry_spec; auto.
      { unfold fuel. destruct (infl s3); lia. }
      intros r s4 [F4 P4]. destruct r as [[z' m]|].
      - destruct P4 as [I4 RD]. unfold conv_out. destruct m.
        + destruct RD as (X1 & X2 & X3 & X4).
          apply wp_bnd, wp_check; auto. apply wp_bnd, wp_check; [now rewrite X3|].
          apply wp_ret, K. split; [eauto using fin_trans|].
          split; [auto|split; [split; [auto|split; [auto|split; auto]]|now apply valid_start]].
        + apply wp_ret, K. split; [eauto using fin_trans|auto].
      - apply wp_ret, K. split; [eauto using fin_trans|auto]. }
    destruct (wait_zone_write c s2).
    - apply (quiesce_spec [z] [] s2); auto. intros s3 I3 K3 N3. apply GO; auto using fin_k.
    - apply wp_ret. apply GO; auto. intros k; now left. }
  destruct f as [|z|z].
  - apply wp_ret, K. split; auto.
  - destruct P2 as (I2 & Rz & Gz & Oz & Az). apply wp_bnd, wp_gets.
    destruct (Z.leb_spec (minbs c) (remain c s2 z)) as [L|L]; [|apply OTHER; auto].
    unfold conv_out. apply wp_bnd, wp_check; auto. apply wp_bnd, wp_check; [now rewrite Oz|].
    apply wp_ret, K. split; auto. split; [auto|]. split; [|now apply valid_start].
    split; [auto|split; [auto|split; [auto|]]]. intros M0. split; auto.
    intros x Hx Ex P. destruct I2 as (d & I2). pose proof (v_below _ _ _ _ _ _ I2 x Hx) as B. rewrite Ex in B.
    pose proof (ok_minbs _ OK). assert (remain c s2 z <> 0) by lia. rewrite remain_0 in H0. lia.
  - destruct P2 as (I2 & Rz & Gz). apply OTHER; auto.
Qed.

Lemma convert_spec off zb s (Q : option (nat * Z) -> st -> Prop) :
  J [zb] [] s -> inr zb -> gseq c zb = true -> valid c off = true ->
  (forall r s', cpost s r s' -> (small c s zb = true -> wp s' zb = start c (S zb)) -> Q r s') ->
  wpre (convert c off zb) Q s.
Proof.
  intros I R G V K. unfold convert. apply wp_bnd, wp_check; auto. apply wp_bnd, wp_gets, wp_bnd.
  assert (TAIL : forall z s1, J [z] [] s1 -> inr z -> gseq c z = true -> fin s s1 ->
     (small c s zb = true -> wp s1 zb = start c (S zb)) ->
     wpre (b <- write_zone_get c z ;; if b then ret (Some (z, off)) else convert_search c off z) Q s1).
  { intros z s1 I1 Rz Gz F1 S1. apply wp_bnd. apply (get_spec z [z] s1); auto.
    - intros s2 I2 RD E2. apply asame_a in E2. apply wp_ret, K.
      + split; [eauto using fin_trans, fin_a|]. auto.
      + rewrite (proj1 E2). auto.
    - apply search_spec; auto. intros r s2 [F2 P2]. apply K.
      + split; [eauto using fin_trans|auto].
      + intros H. destruct (F2 zb) as [E|E]; auto. rewrite E. auto. }
  destruct (small c s zb) eqn:SM.
  - destruct I as (d & I). apply wp_bnd. eapply put_ex; [exact I|]. intros s1 ex1 I1 X1 N1 E1.
    apply wp_bnd. apply (quiesce_spec [zb] ex1 s1); [exists d; auto|]. intros s2 I2 K2 N2.
    apply wp_bnd. eapply finish_spec; eauto. intros I3.
    match type of I3 with ZbdProofs.J _ _ _ _ ?s => set (s3 := s) in * end.
    apply wp_bnd. eapply unlock_spec; eauto. intros s4 I4 H4. apply hsame_of in H4.
    assert (W4 : wp s4 zb = start c (S zb)) by (rewrite (hs_wp _ _ H4); simpl; apply fset_same).
    assert (F4 : fin s s4).
    { intros i. rewrite (hs_wp _ _ H4). simpl. unfold fset. destruct (Nat.eqb_spec i zb); subst; auto.
      left. rewrite (k_wp _ _ K2), E1. reflexivity. }
    destruct ((zmax c <=? S zb)%nat && negb (rnd c)).
    + apply wp_ret. apply wp_ret, K; auto. split; auto.
    + apply wp_bnd. apply (next_seq_spec zb R G); auto.
      * rewrite Nat.leb_refl. unfold inr in R. lia.
      * unfold inr in R. lia.
      * intros j Rj Gj. apply wp_bnd. eapply lock_spec; eauto. intros s5 I5 H5. apply hsame_of in H5.
        apply wp_ret. apply TAIL; auto.
        -- eauto using fin_trans, fin_h.
        -- intros _. now rewrite (hs_wp _ _ H5).
  - apply wp_ret. apply TAIL; auto. { intros i; now left. } discriminate.
Qed.

(** ** [zbd_adjust_block] *)

Definition smalls (s : st) : nat := length (filter (small c s) (seq (zmin c) (zmax c - zmin c))).

Lemma small_fin s i : inr i -> wp s i = start c (S i) -> small c s i = false.
Proof.
  intros R E. unfold small.
  assert (H : remain c s i = 0) by (apply remain_0; rewrite E; apply capend_le; auto; now apply inr_nr).
  rewrite H. simpl. now rewrite andb_false_r.
Qed.
Lemma small_wp s s' i : wp s' i = wp s i -> small c s' i = small c s i.
Proof. intros E. unfold small, remain. now rewrite E. Qed.

Lemma filter_le {A} (f g : A -> bool) l : (forall x, In x l -> f x = true -> g x = true) ->
  (length (filter f l) <= length (filter g l))%nat.
Proof.
  induction l as [|x l IH]; simpl; intros H; auto.
  assert (IH' : (length (filter f l) <= length (filter g l))%nat) by (apply IH; auto).
  destruct (f x) eqn:F; [rewrite (H x); auto; simpl; lia|]. destruct (g x); simpl; lia.
Qed.
Lemma filter_lt {A} (f g : A -> bool) l y : (forall x, In x l -> f x = true -> g x = true) ->
  In y l -> f y = false -> g y = true -> (length (filter f l) < length (filter g l))%nat.
Proof.
  induction l as [|x l IH]; simpl; intros H I F G; [contradiction|].
  destruct I as [->|I].
  - rewrite F, G. simpl. pose proof (filter_le f g l ltac:(auto)). lia.
  - assert (IH' : (length (filter f l) < length (filter g l))%nat) by (apply IH; auto).
    destruct (f x) eqn:Fx; [rewrite (H x); auto; simpl; lia|]. destruct (g x); simpl; lia.
Qed.

Lemma smalls_le s s' : fin s s' -> (smalls s' <= smalls s)%nat.
Proof.
  intros F. apply filter_le. intros x Hx S. apply in_seq in Hx.
  destruct (F x) as [E|E]; [now rewrite <- (small_wp s s' x E)|].
  rewrite small_fin in S; [discriminate| |exact E]. unfold inr. lia.
Qed.
Lemma smalls_lt s s' z : fin s s' -> inr z -> small c s z = true -> wp s' z = start c (S z) -> (smalls s' < smalls s)%nat.
Proof.
  intros F R S E. apply filter_lt with (y := z); auto.
  - intros x Hx S'. apply in_seq in Hx.
    destruct (F x) as [E'|E']; [now rewrite <- (small_wp s s' x E')|].
    rewrite small_fin in S'; [discriminate| |exact E']. unfold inr. lia.
  - apply in_seq. unfold inr in R. lia.
  - now apply small_fin.
Qed.
Lemma smalls_bound s : (smalls s <= zmax c - zmin c)%nat.
Proof.
  unfold smalls. rewrite <- (seq_length (zmax c - zmin c) (zmin c)) at 2.
  generalize (seq (zmin c) (zmax c - zmin c)). induction l as [|x l IH]; simpl; auto. destruct (small c s x); simpl; lia.
Qed.

Lemma adjust_retry_spec n : forall off zb s (Q : option nat -> st -> Prop),
  J [zb] [] s -> inr zb -> gseq c zb = true -> valid c off = true ->
  (smalls s + (if small c s zb then 1 else 2) <= n)%nat ->
  (forall r s', match r with None => J [] [] s' | Some z => J [z] [] s' /\ ready s' z /\ small c s' z = false end -> Q r s') ->
  wpre (adjust_retry c n off zb) Q s.
Proof.
  induction n as [|n IH]; intros off zb s Q I R G V F K.
  { destruct (small c s zb); lia. }
  cbn [adjust_retry]. apply wp_bnd. apply convert_spec; auto. intros r s1 [F1 P1] S1.
  destruct r as [[z off']|]; [|apply wp_ret, K; auto].
  destruct P1 as (I1 & RD & V1). apply wp_bnd, wp_gets.
  destruct (small c s1 z) eqn:S.
  - apply IH; auto; try apply RD. rewrite S.
    destruct (small c s zb) eqn:S0.
    + pose proof (smalls_lt s s1 zb F1 R S0 (S1 eq_refl)). lia.
    + pose proof (smalls_le s s1 F1). lia.
  - apply wp_ret, K. auto.
Qed.

Definition notfull (s : st) (z : nat) : Prop :=
  (if wzr c then remain c s z =? 0 else remain c s z <? minbs c) = false.

Lemma ready_keeps s s' z : keeps s s' -> ready s z -> ready s' z.
Proof.
  intros K (A & B & C & D). split; [auto|split; [auto|split; [auto|]]].
  intros M0. destruct (D M0) as [D1 D2]. split; [apply (k_in _ _ K); auto|now apply (k_fill _ _ K)].
Qed.

Lemma maybe_reset_spec z s (Q : option bool -> st -> Prop) :
  J [z] [] s -> ready s z ->
  (forall r s', J [z] [] s' -> (r = Some true -> ready s' z /\ notfull s' z) -> Q r s') ->
  wpre (maybe_reset c z) Q s.
Proof.
  intros I RD K. unfold maybe_reset. apply wp_bnd, wp_gets. apply wp_bnd.
  assert (GO : forall s1, J [z] [] s1 -> ready s1 z ->
    wpre (r <- gets (fun s => rst s z) ;;
      f <- (if r then ret true else zone_full c z (minbs c)) ;;
      if negb f then ret (Some true)
      else if vfy c && o_ver (orc s) then ret None
      else
        quiesce c ;;;
        modi (fun s => set_rst (fset (rst s) z false) s) ;;;
        ok <- reset_zone0 c z ;;
        if negb ok then ret (Some false)
        else ret (Some (negb (gcap c z <? minbs c)))) Q s1).
  { clear I RD. intros s1 I RD. apply wp_bnd, wp_gets, wp_bnd.
    assert (GO : wpre (if vfy c && o_ver (orc s) then ret None
      else
        quiesce c ;;;
        modi (fun s => set_rst (fset (rst s) z false) s) ;;;
        ok <- reset_zone0 c z ;;
        if negb ok then ret (Some false)
        else ret (Some (negb (gcap c z <? minbs c)))) Q s1).
    { destruct (vfy c && o_ver (orc s)). { apply wp_ret, K; auto; discriminate. }
      destruct RD as (X1 & X2 & X3 & X4).
      apply wp_bnd. apply (quiesce_spec [z] [] s1); auto. intros s2 I2 K2 N2.
      apply wp_bnd, wp_modi.
      apply wp_bnd. apply (reset0_spec z [z]); auto.
      - apply J_rst; auto.
      - simpl. rewrite N2. intros y [].
      - intros s3 I3 W3 _ A3 _ F3 _. cbn [negb]. apply wp_ret, K; auto.
        intros E. injection E as E. apply negb_true_iff, Z.ltb_ge in E. split.
        + split; [auto|split; [auto|split; [auto|]]]. intros M0. destruct (X4 M0) as [X5 X6]. split.
          * rewrite A3. simpl. apply (k_in _ _ K2); auto.
          * intros x Hx. rewrite F3 in Hx. simpl in Hx. rewrite N2 in Hx. contradiction.
        + unfold notfull, remain. rewrite W3. pose proof (ok_minbs _ OK).
          pose proof (capend_le c OK z (inr_nr _ X1)).
          destruct (Z.leb_spec (capend c z) (start c z)); [lia|].
          unfold capend. destruct (wzr c); [apply Z.eqb_neq|apply Z.ltb_ge]; lia.
      - cbn [negb]. apply wp_ret, K; [apply J_rst; auto|discriminate]. }
    destruct (rst s1 z).
    - apply wp_ret. cbn [negb]. exact GO.
    - apply full_spec; [apply RD|].
      destruct (if wzr c then remain c s1 z =? 0 else remain c s1 z <? minbs c) eqn:F; cbn [negb].
      + exact GO.
      + apply wp_ret, K; auto. }
  destruct (o_thr (orc s)).
  - apply wp_modi. apply GO; [apply J_rst; auto|exact RD].
  - apply wp_ret. apply GO; auto.
Qed.

(** What an accepted write looks like. *)
Definition wpost (len : Z) (v : verdict) (s' : st) : Prop :=
  match v with
  | VSeq z off n => J [z] [] s' /\ ready s' z /\ off = wp s' z /\ 0 < n <= len /\ off + n <= capend c z
                    /\ zidx c off = z
  | VConv off n => J [] [] s' /\ forall i, (i < nr c)%nat -> gseq c i = true -> off + n <= start c i \/ start c (S i) <= off
  | _ => J [] [] s'
  end.

Lemma write_len_spec z off len n : 0 < len -> off < capend c z ->
  write_len c z off len = Some n -> 0 < n <= len /\ off + n <= capend c z.
Proof.
  intros P B. pose proof (ok_minbs _ OK) as MB. unfold write_len.
  set (m := Z.min len (capend c z - off)).
  assert (M1 : 0 < m <= len /\ off + m <= capend c z) by (unfold m; lia).
  assert (DV : forall x, 0 <= x -> 0 <= x / minbs c * minbs c <= x).
  { intros x Hx. pose proof (Z.div_mod x (minbs c) ltac:(lia)). pose proof (Z.mod_pos_bound x (minbs c) MB).
    assert (0 <= x / minbs c) by (apply Z.div_pos; lia). nia. }
  set (m' := if (wzr c && (minbs c <? m)) || negb (wzr c) then m / minbs c * minbs c else m).
  assert (M2 : 0 <= m' <= m). { unfold m'. destruct (_ || _); [apply DV; lia|lia]. }
  assert (M3 : wzr c = true -> 0 < m').
  { intros W. unfold m'. rewrite W. simpl. rewrite orb_false_r. destruct (Z.ltb_spec (minbs c) m); [|lia].
    assert (1 <= m / minbs c) by (apply Z.div_le_lower_bound; lia). nia. }
  destruct (Z.eqb_spec m' len) as [E|E].
  - intros H; injection H as <-. lia.
  - destruct (wzr c) eqn:W; simpl.
    + intros H; injection H as <-. specialize (M3 eq_refl). lia.
    + destruct (Z.leb_spec (minbs c) m'); [|discriminate]. intros H0; injection H0 as <-. lia.
Qed.

Lemma adjust_conv_spec zb off len :
  (zb < nr c)%nat -> gseq c zb = false -> start c zb <= off < start c (S zb) -> 0 < len <= zsz c ->
  let (o, n) := adjust_conv c zb off len in
  forall i, (i < nr c)%nat -> gseq c i = true -> o + n <= start c i \/ start c (S i) <= o.
Proof.
  intros N G B P. pose proof (ok_minbs _ OK) as MB. pose proof (ok_zsz _ OK) as ZS. unfold adjust_conv.
  assert (DV : forall x, 0 <= x -> 0 <= x / minbs c * minbs c <= x).
  { intros x Hx. pose proof (Z.div_mod x (minbs c) ltac:(lia)). pose proof (Z.mod_pos_bound x (minbs c) MB).
    assert (0 <= x / minbs c) by (apply Z.div_pos; lia). nia. }
  assert (LT : forall i o, (i < zb)%nat -> start c zb <= o -> start c (S i) <= o).
  { intros i o H H1. pose proof (start_mono c OK (S i) zb ltac:(lia)). lia. }
  assert (IN : forall o n, start c zb <= o -> o + n <= start c (S zb) ->
     forall i, (i < nr c)%nat -> gseq c i = true -> o + n <= start c i \/ start c (S i) <= o).
  { intros o n H1 H2 i Hi Gi. destruct (Nat.lt_trichotomy i zb) as [H|[->|H]]; [right; auto|congruence|].
    left. pose proof (start_mono c OK (S zb) i ltac:(lia)). lia. }
  rewrite start_succ in *.
  destruct (gseq c (S zb)) eqn:G1; cbn [negb orb].
  - destruct (Z.leb_spec (off + len) (start c zb + zsz c)) as [L|L].
    + apply IN; lia.
    + destruct (Z.ltb_spec (start c zb + zsz c) (off + minbs c)) as [M1|M1].
      * set (o := start c zb + (start c zb + zsz c) - off).
        pose proof (DV (Z.min len (start c zb + zsz c - o)) ltac:(unfold o; lia)).
        apply IN; unfold o in *; lia.
      * pose proof (DV (start c zb + zsz c - off) ltac:(lia)). apply IN; lia.
  - intros i Hi Gi. destruct (Nat.lt_trichotomy i zb) as [H|[->|H]]; [right; apply LT; auto; lia|congruence|].
    destruct (Nat.eq_dec i (S zb)) as [->|NE]; [congruence|].
    left. pose proof (start_mono c OK (S (S zb)) i ltac:(lia)). rewrite !start_succ in H0. lia.
Qed.

Lemma adjust_write_spec off len s (Q : verdict -> st -> Prop) :
  J [] [] s -> valid c off = true -> 0 < len -> (gseq c (zidx c off) = false -> len <= zsz c) ->
  (forall v s', wpost len v s' -> Q v s') -> wpre (adjust_write c off len) Q s.
Proof.
  intros I V P LC K. unfold adjust_write. pose proof (ok_minbs _ OK) as MB.
  apply wp_bnd, wp_check; [apply negb_true_iff, Z.eqb_neq; lia|].
  apply wp_bnd, wp_check; auto.
  apply wp_bnd, wp_check; [apply negb_true_iff, Z.eqb_neq; lia|].
  destruct (zidx_valid c OK off V) as [R B].
  destruct (gseq c (zidx c off)) eqn:G; cbn [negb].
  - apply wp_bnd. eapply lock_spec; eauto. intros s1 I1 H1.
    assert (EOF : forall z s', J [z] [] s' -> gseq c z = true -> wpre (zone_unlock c z ;;; ret VEof) Q s').
    { intros z s' I' G'. apply wp_bnd. eapply unlock_spec; eauto. intros s2 I2 H2. apply wp_ret, K. exact I2. }
    destruct (zsz c <? len). { apply EOF; auto. }
    apply wp_bnd. apply adjust_retry_spec; auto.
    { pose proof (smalls_bound s1). destruct (small c s1 (zidx c off)); lia. }
    intros r s2 P2. destruct r as [z|]; [|apply wp_ret, K; exact P2].
    destruct P2 as (I2 & RD & SM). apply wp_bnd. apply maybe_reset_spec; auto.
    intros b s3 I3 P3. assert (Gz : gseq c z = true) by apply RD.
    destruct b as [[|]|]; auto.
    2: { apply wp_bnd. eapply unlock_spec; eauto. intros s4 I4 H4. apply wp_ret, K. exact I4. }
    destruct (P3 eq_refl) as [RD3 NF]. apply wp_bnd. apply full_spec; auto. rewrite NF.
    apply wp_bnd, wp_check; auto. apply wp_bnd, wp_gets.
    destruct (valid c (wp s3 z)) eqn:V3; cbn [negb]; [|apply EOF; auto].
    destruct (write_len c z (wp s3 z) len) as [n|] eqn:WL; [|apply EOF; auto].
    destruct RD3 as (X1 & X2 & X3 & X4).
    apply wp_bnd, wp_check; auto. apply wp_bnd, wp_check; [now rewrite X3|].
    assert (LTC : wp s3 z < capend c z).
    { assert (remain c s3 z <> 0).
      { unfold notfull in NF. destruct (wzr c); [now apply Z.eqb_neq|apply Z.ltb_ge in NF; lia]. }
      rewrite remain_0 in H. lia. }
    destruct (write_len_spec _ _ _ _ P LTC WL) as [L1 L2].
    apply wp_ret, K. split; [auto|split; [split; [auto|split; [auto|split; auto]]|split; [auto|split; [auto|split; [auto|]]]]].
    destruct I3 as (d & I3). pose proof (v_wp _ _ _ _ _ _ I3 z (inr_nr _ X1) X2) as W.
    pose proof (capend_le c OK z (inr_nr _ X1)). pose proof (inr_nr _ X1). apply zidx_of; auto; lia.
  - destruct (adjust_conv c (zidx c off) off len) as [o n] eqn:AC. apply wp_ret, K. split; auto.
    pose proof (adjust_conv_spec (zidx c off) off len (inr_nr _ R) G B) as H. rewrite AC in H. apply H.
    split; auto.
Qed.

(** ** Submission *)

Lemma chain_sent i l a b : (forall x, In x l -> zidx c (i_off x) = i -> i_sent x = true) -> (chain c i l a b <-> a = b).
Proof.
  induction l as [|x l IH]; simpl; intros H; [tauto|].
  destruct (Nat.eqb_spec (zidx c (i_off x)) i) as [E|E]; simpl; [|apply IH; auto].
  rewrite (H x (or_introl eq_refl) E). simpl. apply IH; auto.
Qed.
Lemma chain_app i l x a b : chain c i l a b -> i_sent x = false ->
  chain c i (l ++ [x]) a (if Nat.eqb (zidx c (i_off x)) i then b + i_len x else b) \/ (zidx c (i_off x) = i /\ i_off x <> b).
Proof.
  intros H S. revert a H. induction l as [|y l IH]; simpl; intros a.
  - intros <-. rewrite S. destruct (Nat.eqb_spec (zidx c (i_off x)) i); simpl; auto.
    destruct (Z.eq_dec (i_off x) a); auto.
  - destruct (Nat.eqb (zidx c (i_off y)) i && negb (i_sent y)).
    + intros [H1 H2]. destruct (IH _ H2); auto.
    + apply IH.
Qed.
Lemma sorted_app l x : sorted c l -> (forall y, In y l -> zidx c (i_off x) = zidx c (i_off y) -> i_off y + i_len y <= i_off x) ->
  sorted c (l ++ [x]).
Proof.
  induction l as [|y l IH]; simpl; intros S H.
  - split; auto. intros y [].
  - destruct S as [S1 S2]. split; auto. intros z Hz. apply in_app_or in Hz.
    destruct Hz as [Hz|[<-|[]]]; auto.
Qed.
Lemma holders_app i l x : holders c i (l ++ [x]) =
  (holders c i l + (if Nat.eqb (zidx c (i_off x)) i && i_put x then 1 else 0))%nat.
Proof.
  unfold holders. induction l as [|y l IH]; simpl.
  - destruct (_ && _); reflexivity.
  - destruct (Nat.eqb (zidx c (i_off y)) i && i_put y); simpl; rewrite IH; lia.
Qed.

(** A write put in flight; [b] tells whether it keeps the lock. *)
Lemma Inv_queue z off len (b : bool) s d :
  Inv c [z] [] d0 s d -> ready s z -> off = wp s z -> 0 < len -> off + len <= capend c z -> zidx c off = z ->
  Inv c (if b then [] else [z]) [] d0
    (set_infl (infl s ++ [MkIo off len b false]) (set_wp (fset (wp s) z (Z.min (off + len) (capend c z))) s)) d.
Proof.
  intros I (R & G & O & RD) E P B Z. rewrite Z.min_l by lia.
  pose proof (inr_nr _ R) as N. pose proof (capend_le c OK z N) as CE.
  pose proof (v_wp _ _ _ _ _ _ I z N G) as W.
  inv_split I. constructor; simpl; auto.
  - intros i Hi Gi. destruct (Nat.eq_dec i z) as [->|F]; [rewrite fset_same; lia|rewrite fset_other; auto].
  - intros i. rewrite holders_app, A7. simpl. rewrite Z. unfold cnt.
    destruct b; simpl; destruct (Nat.eq_dec z i); destruct (Nat.eqb_spec z i); try congruence; simpl; lia.
  - intros x Hx. apply in_app_or in Hx. destruct Hx as [Hx|[<-|[]]]; auto. simpl. rewrite Z.
    unfold inr in R. repeat split; auto; try lia.
  - intros x Hx. apply in_app_or in Hx. destruct Hx as [Hx|[<-|[]]].
    + pose proof (A9 x Hx). destruct (Nat.eq_dec (zidx c (i_off x)) z) as [F|F].
      * rewrite F in *. rewrite fset_same. lia.
      * rewrite fset_other by auto. auto.
    + simpl. rewrite Z, fset_same. lia.
  - intros i Hi Gi. destruct (chain_app i (infl s) (MkIo off len b false) _ _ (A10 i Hi Gi) eq_refl) as [H|[H1 H2]]; simpl in *.
    + rewrite Z in H. destruct (Nat.eqb_spec z i) as [<-|F].
      * rewrite fset_same. rewrite <- E in H. exact H.
      * rewrite fset_other by auto. exact H.
    + rewrite Z in H1. subst i. congruence.
  - intros M0 x Hx S. apply in_app_or in Hx. destruct Hx as [Hx|[<-|[]]]; auto. simpl. rewrite Z, app_nil_r. apply RD; auto.
  - intros M0 x Hx Q1 Q2. apply in_app_or in Hx. destruct Hx as [Hx|[<-|[]]]; auto. simpl. rewrite Z, app_nil_r. apply RD; auto.
  - apply sorted_app; auto. intros y Hy Ey. simpl in *. rewrite Z in Ey.
    pose proof (A9 y Hy). rewrite <- Ey in H. lia.
Qed.

(** A write executed at once. *)
Lemma Inv_write z off len s d :
  Inv c [z] [] d0 s d -> ready s z -> off = wp s z -> d_wp (d z) = wp s z -> 0 < len -> off + len <= capend c z ->
  (forall x, In x (infl s) -> zidx c (i_off x) = z -> i_sent x = true) ->
  exists d', d' z = MkD (off + len) (off + len <? capend c z) /\
  Inv c [z] [] d0 (set_tr (CWrite off len :: tr s) (set_wp (fset (wp s) z (Z.min (off + len) (capend c z))) s)) d'.
Proof.
  intros I (R & G & OF & RD) E D P B S. rewrite Z.min_l by lia.
  pose proof (inr_nr _ R) as N. pose proof (capend_le c OK z N) as CE.
  pose proof (v_wp _ _ _ _ _ _ I z N G) as W.
  set (d' := fset d z (MkD (off + len) (off + len <? capend c z))).
  assert (D1 : d' z = MkD (off + len) (off + len <? capend c z)) by (unfold d'; apply fset_same).
  assert (D2 : forall j, j <> z -> d' j = d j) by (intros; unfold d'; now apply fset_other).
  exists d'. split; [exact D1|].
  assert (OP : maxw c <> O -> forall i, (i < nr c)%nat -> d_open (d' i) = true -> In i (arr s ++ [])).
  { intros M0 i Hi Ho. destruct (Nat.eq_dec i z) as [->|F].
    - rewrite app_nil_r. apply RD; auto.
    - apply (v_open _ _ _ _ _ _ I); auto. rewrite <- D2; auto. }
  assert (LIM : limit_ok c d') by (eapply limit_of; [exact I|exact OP]).
  inv_split I. constructor; simpl; auto.
  - intros i Hi Gi. destruct (Nat.eq_dec i z) as [->|F]; [rewrite fset_same; lia|rewrite fset_other; auto].
  - intros x Hx. pose proof (A9 x Hx). destruct (Nat.eq_dec (zidx c (i_off x)) z) as [F|F].
    + rewrite F in *. rewrite fset_same. lia.
    + rewrite fset_other by auto. auto.
  - intros i Hi Gi. destruct (Nat.eq_dec i z) as [->|F].
    + apply chain_sent; auto. rewrite D1, fset_same. reflexivity.
    + rewrite fset_other, D2 by auto. auto.
  - intros i Hi Gi Ho. destruct (Nat.eq_dec i z) as [->|F].
    + rewrite D1 in *. simpl in *. apply Z.ltb_lt in Ho. lia.
    + rewrite D2 in * by auto. auto.
  - econstructor; [exact A16|]. apply DWrite with (i := z); auto.
    + change (geo_start c) with (start c). lia.
    + congruence.
    + split; auto.
Qed.

Lemma queue_write_spec z off len q s (Q : unit -> st -> Prop) :
  J [z] [] s -> ready s z -> off = wp s z -> 0 < len -> off + len <= capend c z -> zidx c off = z ->
  (forall s', J [] [] s' -> Q tt s') -> wpre (queue_write c off len q) Q s.
Proof.
  intros (d & I) RD E P B Z K. unfold queue_write. rewrite Z.
  assert (G : gseq c z = true) by apply RD. assert (R : inr z) by apply RD.
  apply wp_bnd, wp_check; auto. destruct q.
  - (* completed *)
    apply wp_bnd, wp_modi. unfold flush. apply wp_bnd, wp_modi.
    destruct (flush_spec z [z] [] s d I R G) as (d1 & I1 & W1 & S1).
    pose proof (sendall_infl c z (infl s)) as SI. cbn [infl set_wp].
    destruct (sendall c z (infl s)) as [r t]. cbn [fst] in SI.
    set (s1 := set_infl r (set_tr (t ++ tr s) s)) in *.
    assert (RD1 : ready s1 z).
    { destruct RD as (X1 & X2 & X3 & X4). split; [auto|split; [auto|split; [auto|]]].
      intros M0. destruct (X4 M0) as [Y1 Y2]. split; [exact Y1|].
      intros x Hx Ex Px. destruct (SI x Hx) as (y & H1 & H2 & H3 & H4 & _). rewrite H2, H3 in *.
      rewrite H4 in Px. apply Y2; auto. }
    destruct (Inv_write z off len s1 d1 I1 RD1 E W1 P B S1) as (d2 & D2 & I2).
    apply wp_bnd, wp_modi. apply wp_bnd. unfold end_zone_io. rewrite Z.
    match goal with |- wpre _ _ ?s => change s with
      (set_tr (CWrite off len :: tr s1) (set_wp (fset (wp s1) z (Z.min (off + len) (capend c z))) s1)) end.
    set (s2 := set_tr _ _) in *.
    destruct (Z.leb_spec (capend c z) (off + len)) as [F|F].
    + eapply put_inv; [exact I2| |].
      * split; [|split].
        -- rewrite D2. simpl. apply Z.ltb_ge. lia.
        -- exact S1.
        -- intros x Hx Ex Px. destruct (Z_lt_le_dec (i_off x + i_len x) (capend c z)) as [|GE]; auto. exfalso.
           pose proof (v_below _ _ _ _ _ _ I1 x Hx) as BB. rewrite Ex in BB. simpl in BB. lia.
      * intros s3 I3 _ _ _. eapply unlock_spec; [exists d2; exact I3|auto|]. intros s4 I4 _. apply K. auto.
    + apply wp_ret. eapply unlock_spec; [exists d2; exact I2|auto|]. intros s4 I4 _. apply K. auto.
  - apply wp_bnd, wp_modi. apply wp_modi. apply K. exists d.
    exact (Inv_queue z off len true s d I RD E P B Z).
  - apply wp_bnd, wp_modi. apply wp_bnd, wp_modi.
    eapply unlock_spec; [exists d; exact (Inv_queue z off len false s d I RD E P B Z)|auto|].
    intros s4 I4 _. apply K. auto.
  - eapply unlock_spec; [exists d; exact I|auto|]. intros s4 I4 _. apply K. auto.
Qed.

Lemma conv_write_spec off len s :
  J [] [] s -> (forall i, (i < nr c)%nat -> gseq c i = true -> off + len <= start c i \/ start c (S i) <= off) ->
  J [] [] (set_tr (CWrite off len :: tr s) s).
Proof.
  intros (d & I) H. exists d. pose proof (limit_of _ _ _ _ _ _ d I (v_open _ _ _ _ _ _ I)) as LIM.
  inv_split I. constructor; auto. simpl. econstructor; [exact A16|]. apply DConv; auto.
Qed.

(** ** Reads *)

Definition lk (z : nat) : list nat := if gseq c z then [z] else [].

Definition fpost (min : Z) (zb : nat) (s : st) (r : option nat) (s' : st) : Prop :=
  hsame s s' /\
  match r with
  | None => J [] [] s'
  | Some z => J (lk z) [] s' /\ inr z /\ z <> zb /\ goff c z = false /\ start c z + min <= wp s z
  end.

Lemma find_zone_spec n : forall k min zb s (Q : option nat -> st -> Prop),
  J [] [] s -> inr zb -> (0 < k)%nat -> (forall r s', fpost min zb s r s' -> Q r s') ->
  wpre (find_zone c n k min zb) Q s.
Proof.
  induction n as [|n IH]; intros k min zb s Q I R P K; cbn [find_zone].
  { apply wp_ret, K. split; auto using hsame_refl. }
  assert (NONE : wpre (ret None) Q s) by (apply wp_ret, K; split; auto using hsame_refl).
  destruct ((zb + k <? zmax c)%nat || (zmin c + k <=? zb)%nat) eqn:UD; cbn [negb]; [|exact NONE].
  assert (TRY : forall z s1 (m : M (option nat)), hsame s s1 -> J [] [] s1 -> inr z -> z <> zb -> goff c z = false ->
    (forall s2, hsame s s2 -> J [] [] s2 -> wpre m Q s2) ->
    wpre ((if gseq c z then zone_lock c z else ret tt) ;;;
          w <- gets (fun s => wp s z) ;;
          if start c z + min <=? w then ret (Some z)
          else (if gseq c z then zone_unlock c z else ret tt) ;;; m) Q s1).
  { intros z s1 m H1 I1 Rz Nz Oz Km. apply wp_bnd. eapply lockif; eauto. intros s2 I2 H2.
    pose proof (hsame_trans _ _ _ H1 H2) as H3.
    apply wp_bnd, wp_gets. rewrite (hs_wp _ _ H3).
    destruct (Z.leb_spec (start c z + min) (wp s z)) as [L|L].
    - apply wp_ret, K. split; [auto|]. split; [exact I2|auto].
    - apply wp_bnd. eapply unlockif; [exact I2|]. intros s3 I3 H4. apply Km; auto. eapply hsame_trans; eauto. }
  assert (NEXT : forall s2, hsame s s2 -> J [] [] s2 -> wpre (find_zone c n (S k) min zb) Q s2).
  { intros s2 H2 I2. apply IH; auto. intros r s' [F1 F2]. apply K. split; [eapply hsame_trans; eauto|].
    now rewrite (hs_wp _ _ H2) in F2. }
  assert (BELOW : forall s2, hsame s s2 -> J [] [] s2 -> wpre (
     if rnd c && (zmin c + k <=? zb)%nat && negb (goff c (zb - k)) then
            (if gseq c (zb - k) then zone_lock c (zb - k) else ret tt) ;;;
            w <- gets (fun s => wp s (zb - k)%nat) ;;
            if start c (zb - k) + min <=? w then ret (Some (zb - k)%nat)
            else (if gseq c (zb - k) then zone_unlock c (zb - k) else ret tt) ;;;
                 find_zone c n (S k) min zb
          else find_zone c n (S k) min zb) Q s2).
  { intros s2 H2 I2. destruct (rnd c && (zmin c + k <=? zb)%nat && negb (goff c (zb - k))) eqn:B; auto.
    apply andb_prop in B. destruct B as [B B3]. apply andb_prop in B. destruct B as [_ B2].
    apply Nat.leb_le in B2. apply negb_true_iff in B3. unfold inr in R.
    apply TRY; auto; unfold inr; lia. }
  destruct ((zb + k <? zmax c)%nat && negb (goff c (zb + k))) eqn:U.
  - apply andb_prop in U. destruct U as [U1 U2]. apply Nat.ltb_lt in U1. apply negb_true_iff in U2. unfold inr in R.
    apply TRY; auto using hsame_refl; unfold inr; lia.
  - destruct (negb (rnd c)); [exact NONE|]. apply BELOW; auto using hsame_refl.
Qed.

Lemma adjust_read_spec off len s (Q : verdict -> st -> Prop) :
  J [] [] s -> valid c off = true -> rbs c <= len ->
  (forall v s', hsame s s' ->
     match v with
     | VSeq z o n => J [z] [] s' /\ inr z /\ gseq c z = true /\ goff c z = false
                     /\ start c z <= o /\ 0 < n <= len /\ o + n <= wp s z
     | VConv o n => J [] [] s'
     | _ => J [] [] s'
     end -> Q v s') ->
  wpre (adjust_read c off len) Q s.
Proof.
  intros I V LE K. unfold adjust_read. pose proof (ok_rbs _ OK) as RB.
  apply wp_bnd, wp_check; [apply negb_true_iff, Z.eqb_neq; lia|].
  apply wp_bnd, wp_check; auto.
  apply wp_bnd, wp_check; [apply negb_true_iff, Z.eqb_neq; lia|].
  destruct (zidx_valid c OK off V) as [R B]. set (zb := zidx c off) in *.
  destruct (gseq c zb) eqn:G; cbn [negb]; [|apply wp_ret, K; auto using hsame_refl].
  apply wp_bnd. eapply lock_spec; eauto. intros s1 I1 E1. assert (H1 : hsame s s1) by (apply hsame_of; exact E1).
  apply wp_bnd, wp_gets. rewrite (hs_wp _ _ H1).
  apply wp_bnd.
  assert (DV : forall x, 0 <= x -> 0 <= x / rbs c * rbs c <= x).
  { intros x Hx. pose proof (Z.div_mod x (rbs c) ltac:(lia)). pose proof (Z.mod_pos_bound x (rbs c) RB).
    assert (0 <= x / rbs c) by (apply Z.div_pos; lia). nia. }
  assert (DP : forall x, rbs c <= x -> 0 < x / rbs c * rbs c).
  { intros x Hx. assert (1 <= x / rbs c) by (apply Z.div_le_lower_bound; lia). nia. }
  assert (GO : forall z s2, hsame s s2 -> J (lk z) [] s2 -> inr z -> goff c z = false -> start c z + rbs c <= wp s z ->
     (z = zb -> rnd c = false -> off + rbs c <= wp s z) ->
     wpre (
        w <- gets (fun s => wp s z) ;;
        let range := w - start c z in
        check (rbs c <=? range) ;;;
        let off := if negb (rnd c) && negb (Nat.eqb z zb) then start c z else off in
        let off := if range <=? len then start c z
                   else if rnd c then start c z + (off - start c zb) mod (range - len) / rbs c * rbs c
                   else off in
        if negb (gseq c z) then ret (VConv off len)
        else
          let n := Z.min len (w - off) / rbs c * rbs c in
          let n := if n <? len then n else len in
          check (start c z <=? off) ;;; check (off + n <=? w) ;;;
          ret (VSeq z off n)) Q s2).
  { clear I1 E1 s1 H1. intros z s2 H2 I2 Rz Oz W F. apply wp_bnd, wp_gets. rewrite (hs_wp _ _ H2). cbv zeta.
    apply wp_bnd, wp_check; [apply Z.leb_le; lia|].
    set (o1 := if negb (rnd c) && negb (Nat.eqb z zb) then start c z else off).
    set (o2 := if wp s z - start c z <=? len then start c z
               else if rnd c then start c z + (o1 - start c zb) mod (wp s z - start c z - len) / rbs c * rbs c else o1).
    unfold lk in I2. destruct (gseq c z) eqn:Gz; cbn [negb]; [|apply wp_ret, K; auto].
    assert (A : start c z <= o2 /\ o2 + rbs c <= wp s z).
    { unfold o2. destruct (Z.leb_spec (wp s z - start c z) len); [lia|]. destruct (rnd c) eqn:RN.
      - pose proof (Z.mod_pos_bound (o1 - start c zb) (wp s z - start c z - len) ltac:(lia)) as M.
        pose proof (DV _ (proj1 M)). lia.
      - unfold o1. cbn [negb andb]. destruct (Nat.eqb_spec z zb) as [->|NE]; cbn [negb]; [|lia].
        specialize (F eq_refl eq_refl). lia. }
    set (n0 := Z.min len (wp s z - o2) / rbs c * rbs c).
    assert (N0 : 0 < n0 <= Z.min len (wp s z - o2)).
    { unfold n0. split; [apply DP; lia|apply DV; lia]. }
    replace (if n0 <? len then n0 else len) with n0 by (destruct (Z.ltb_spec n0 len); lia).
    apply wp_bnd, wp_check; [apply Z.leb_le; lia|]. apply wp_bnd, wp_check; [apply Z.leb_le; lia|].
    apply wp_ret, K; auto. repeat split; auto; try lia; apply Rz. }
  set (w := wp s zb) in *.
  destruct (((if goff c zb then 0 else w - start c zb) <? rbs c) || (negb (rnd c) && (w <? off + rbs c))) eqn:C1.
  - apply wp_bnd. eapply unlock_spec; [exact I1|auto|]. intros s2 I2 E2.
    assert (H2 : hsame s s2) by (eapply hsame_trans; [exact H1|apply hsame_of; exact E2]).
    apply find_zone_spec; auto. intros r s3 [F1 F2]. pose proof (hsame_trans _ _ _ H2 F1) as H3.
    destruct r as [z|]; [|apply wp_ret, K; auto].
    destruct F2 as (F2 & F3 & F4 & F5 & F6). rewrite (hs_wp _ _ H2) in F6. apply GO; auto. intros; contradiction.
  - apply orb_false_elim in C1. destruct C1 as [C1 C2]. apply Z.ltb_ge in C1.
    destruct (goff c zb) eqn:GOF; [lia|]. apply wp_ret. apply GO; auto.
    + unfold lk. now rewrite G.
    + unfold w in *. lia.
    + intros _ RN. rewrite RN in C2. simpl in C2. apply Z.ltb_ge in C2. exact C2.
Qed.

(** ** Trims *)

Lemma reset_spec z L s (Q : bool -> st -> Prop) :
  J L [] s -> inr z -> gseq c z = true -> infl s = [] ->
  (forall b s', J L [] s' -> Q b s') -> wpre (reset_zone c z) Q s.
Proof.
  intros (d & I) R G N K. unfold reset_zone, reset_zone0. pose proof (inr_nr _ R) as NR.
  assert (PUT : forall s1 d1, Inv c L [] d0 s1 d1 -> infl s1 = [] -> d_open (d1 z) = false ->
     wpre (write_zone_put c z ;;; ret true) Q s1).
  { intros s1 d1 I1 N1 D1. apply wp_bnd. eapply put_inv; [exact I1| |].
    - split; [exact D1|]. rewrite N1. split; intros x [].
    - intros s2 I2 _ _ _. apply wp_ret, K. now exists d1. }
  apply wp_bnd, wp_bnd, wp_gets. destruct (Z.eqb_spec (wp s z) (start c z)) as [E|E].
  - apply wp_ret. eapply PUT; eauto. destruct (d_open (d z)) eqn:O; auto.
    pose proof (v_closed _ _ _ _ _ _ I z NR G O) as C.
    pose proof (v_chain _ _ _ _ _ _ I z NR G) as H. rewrite N in H. simpl in H. lia.
  - apply wp_bnd, wp_check.
    { apply valid_iff; auto. unfold inr in R. pose proof (ok_zsz _ OK). rewrite start_succ.
      pose proof (start_mono c OK (zmin c) z ltac:(lia)). pose proof (start_mono c OK (S z) (zmax c) ltac:(lia)) as H1.
      rewrite start_succ in H1. lia. }
    apply wp_bnd, wp_gets. destruct (o_rok (orc s)); cbn [negb]; [|apply wp_ret, wp_ret, K; now exists d].
    apply wp_bnd, wp_modi, wp_ret.
    eapply PUT with (d1 := fset d z (MkD (start c z) false)); auto.
    + eapply Inv_setzone; [exact I|auto|auto| | |apply dput_fset| |now left].
      * rewrite N. intros y [].
      * rewrite start_succ. pose proof (ok_zsz _ OK). lia.
      * intros LIM. apply DReset; auto. apply dput_fset.
    + now rewrite fset_same.
Qed.

Lemma adjust_trim_spec off s (Q : verdict -> st -> Prop) :
  J [] [] s -> valid c off = true -> goff c (zidx c off) = false ->
  (rnd c = true -> forall i, (zmin c <= i < zmax c)%nat -> gseq c i = true) ->
  (forall v s', hsame s s' ->
     match v with VSeq z o _ => J [z] [] s' /\ inr z /\ gseq c z = true | _ => J [] [] s' end -> Q v s') ->
  wpre (adjust_trim c off) Q s.
Proof.
  intros I V O A K. unfold adjust_trim. apply wp_bnd, wp_check; auto.
  destruct (zidx_valid c OK off V) as [R B]. set (zb := zidx c off) in *.
  destruct (gseq c zb) eqn:G; cbn [negb]; [|apply wp_ret, K; auto using hsame_refl].
  apply wp_bnd. eapply lock_spec; eauto. intros s1 I1 E1. assert (H1 : hsame s s1) by (apply hsame_of; exact E1).
  apply wp_bnd, wp_gets.
  destruct (negb (rnd c) || (start c zb <? wp s1 zb)) eqn:C1.
  - apply wp_bnd, wp_check; [now rewrite O|]. apply wp_ret, K; auto.
  - apply orb_false_elim in C1. destruct C1 as [C1 _]. apply negb_false_iff in C1.
    apply wp_bnd. eapply unlock_spec; [exact I1|auto|]. intros s2 I2 E2.
    assert (H2 : hsame s s2) by (eapply hsame_trans; [exact H1|apply hsame_of; exact E2]).
    apply wp_bnd. apply find_zone_spec; auto. intros r s3 [F1 F2]. pose proof (hsame_trans _ _ _ H2 F1) as H3.
    destruct r as [z|]; [|apply wp_ret, K; auto].
    destruct F2 as (F2 & F3 & F4 & F5 & F6).
    assert (Gz : gseq c z = true) by (apply A; auto).
    apply wp_bnd, wp_check; auto. apply wp_bnd, wp_check; [now rewrite F5|].
    apply wp_ret, K; auto. unfold lk in F2. rewrite Gz in F2. auto.
Qed.

(** ** Operations *)

(** What fio's own checks and the workload promise about an operation. *)
Definition op_ok (s : st) (p : op) : Prop :=
  match p with
  | OWrite off len _ _ => valid c off = true /\ 0 < len /\ (gseq c (zidx c off) = false -> len <= zsz c)
  | ORead off len => valid c off = true /\ rbs c <= len
  | OTrim off _ => valid c off = true /\ infl s = [] /\ goff c (zidx c off) = false
                   /\ (rnd c = true -> forall i, (zmin c <= i < zmax c)%nat -> gseq c i = true)
  | OSend i => (zmin c <= i < zmax c)%nat /\ gseq c i = true
  | OComplete k => True
  end.

Lemma step_spec p s (Q : verdict -> st -> Prop) :
  J [] [] s -> op_ok s p -> (forall v s', J [] [] s' -> Q v s') -> wpre (step c p) Q s.
Proof.
  intros I OP K. destruct p as [off len q o|off len|off o|i|k]; cbn [step op_ok] in *.
  - destruct OP as (V & P & L). apply wp_bnd, wp_modi, wp_bnd.
    apply adjust_write_spec; auto. { apply J_orc; auto. }
    intros v s1 W. destruct v as [z o1 n|o1 n| |]; cbn [wpost] in W.
    + destruct W as (W1 & W2 & W3 & W4 & W5 & W6). apply wp_bnd.
      apply queue_write_spec with (z := z); auto; try lia. intros s2 I2. apply wp_ret, K; auto.
    + destruct W as (W1 & W2). apply wp_bnd, wp_modi, wp_ret, K. apply conv_write_spec; auto.
    + apply wp_ret, K; auto.
    + apply wp_ret, K; auto.
  - destruct OP as (V & L). apply wp_bnd. apply adjust_read_spec; auto.
    intros v s1 H1 W. destruct v as [z o n|o n| |]; try (apply wp_ret, K; exact W).
    destruct W as (W1 & W2 & W3 & _). apply wp_bnd. eapply unlock_spec; [exact W1|auto|]. intros s2 I2 _. apply wp_ret, K; auto.
  - destruct OP as (V & N & GO & A). apply wp_bnd, wp_modi, wp_bnd.
    apply adjust_trim_spec; auto. { apply J_orc; auto. }
    intros v s1 H1 W. destruct v as [z o1 n|o1 n| |]; try (apply wp_ret, K; exact W).
    destruct W as (W1 & W2 & W3). apply wp_bnd. unfold queue_trim. apply wp_bnd.
    assert (FIN : forall s2, J [z] [] s2 -> wpre (zone_unlock c z) (fun _ s' => wpre (ret (VSeq z o1 n)) Q s') s2).
    { intros s2 I2. eapply unlock_spec; [exact I2|auto|]. intros s3 I3 _. apply wp_ret, K; auto. }
    destruct (o1 =? start c z).
    + apply wp_bnd. assert (N1 : infl s1 = []) by (rewrite (hs_infl _ _ H1); exact N).
      apply (reset_spec z [z]); auto.
    + apply wp_ret. auto.
  - destruct OP as (R & G). apply wp_bnd, wp_modi, wp_ret, K.
    destruct I as (d & I). destruct (flush_spec i [] [] s d I R G) as (d1 & I1 & _). exists d1. exact I1.
  - apply wp_bnd. destruct (nth_error (infl s) k) as [x|] eqn:E.
    + eapply complete_spec; eauto. intros s1 I1 _ _. apply wp_ret, K; auto.
    + unfold complete. apply wp_bnd, wp_gets. rewrite E. apply wp_ret, wp_ret, K; auto.
Qed.
End Prim.

(** ** Executions *)

(** The states an execution passes, between operations. *)
Inductive reach (c : cfg) (s0 : st) : st -> Prop :=
| R0 : reach c s0 s0
| RS : forall s p v s', reach c s0 s -> op_ok c s p -> step c p s = Ret v s' -> reach c s0 s'.

Lemma start_J c s0 d : cfg_ok c -> start_ok c s0 d -> J c [] [] d s0.
Proof.
  intros OK [B1 [B2 B3] B4 B5 B6 B7 B8 (B9 & B10 & B11)]. exists d.
  constructor; rewrite ?app_nil_r; auto.
  - intros i Hi G. apply B1; auto.
  - intros i. rewrite B9, B10. reflexivity.
  - rewrite B9. intros x [].
  - rewrite B9. intros x [].
  - intros i Hi G. rewrite B9. simpl. symmetry. apply B1; auto.
  - rewrite B9. intros M0 x [].
  - rewrite B9. intros M0 x [].
  - rewrite B9. exact I.
  - rewrite B11. constructor.
Qed.

Lemma reach_J c s0 d s : cfg_ok c -> start_ok c s0 d -> reach c s0 s -> J c [] [] d s.
Proof.
  intros OK SO R. induction R as [|s p v s' R IH OP E].
  - now apply start_J.
  - pose proof (step_spec c d OK p s (fun v s' => J c [] [] d s') IH OP (fun _ _ H => H)) as W.
    unfold wpre in W. rewrite E in W. exact W.
Qed.
