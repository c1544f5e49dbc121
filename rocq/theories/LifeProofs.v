(** Proofs about the life of an io_u. *)
From Coq Require Import ZArith List Lia Bool Arith Permutation.
From Verif Require Import CBase LifeModel LifeSpec.
Import ListNotations.
Open Scope Z_scope.

Ltac sim := cbn [ff fl fc fv fo off xb xl fr rq eng held cd qd inf issues ibytes blocks bytes tr
  s_ff s_fl s_fc s_fv s_fo s_data s_fr s_rq s_eng s_held s_cd s_q s_iss s_blk log] in *.

Lemma up_same : forall A (f : nat -> A) i v, up f i v i = v.
Proof. intros A f i v. unfold up. rewrite Nat.eqb_refl. reflexivity. Qed.
Lemma up_other : forall A (f : nat -> A) i v j, j <> i -> up f i v j = f j.
Proof. intros A f i v j N. unfold up. apply Nat.eqb_neq in N. rewrite N. reflexivity. Qed.

Definition dat (f : nat -> phase) (s : st) (i : nat) (b : bool) : Prop :=
  exists o n d, f i = Active o n d b /\ off s i = o + d /\ xb s i = d /\ xl s i = n - d /\ 0 <= d < n.

(** The invariant while the io_us [w] are in hand. *)
Record inv (c : cfg) (s : st) (w : list nat) (f : nat -> phase) : Prop := Inv {
  i_perm : Permutation (fr s ++ rq s ++ eng s ++ w) (seq 0 (depth c));
  i_ff : forall j, In j (fr s ++ rq s) -> ff s j = true;
  i_nf : forall j, In j (eng s ++ w) -> ff s j = false;
  i_fl : forall j, In j (eng s) -> fl s j = true;
  i_nl : forall j, In j (fr s ++ rq s) -> fl s j = false;
  i_fc : forall j, In j (eng s ++ w) -> fc s j = true;
  i_fo : forall j, In j (rq s ++ eng s) -> fo s j = true;
  i_cd : cd s = Z.of_nat (length (eng s) + length w);
  i_q : u32 (inf s + qd s) = Z.of_nat (length (eng s));
  i_q0 : 0 <= qd s < 2 ^ 32;
  i_i0 : 0 <= inf s < 2 ^ 32;
  i_rq : forall j, In j (rq s) -> dat f s j false;
  i_eng : forall j, In j (eng s) -> dat f s j true;
  i_idle : forall j, In j (fr s) -> f j = Idle;
  i_life : life (fsize c) (tr s) f }.

Lemma inv_nodup : forall c s w f, inv c s w f -> NoDup (fr s ++ rq s ++ eng s ++ w).
Proof.
  intros c s w f I. eapply Permutation_NoDup; [ | apply (seq_NoDup (depth c) 0) ].
  apply Permutation_sym. exact (i_perm _ _ _ _ I).
Qed.

Lemma inv_len : forall c s w f, inv c s w f ->
  (length (fr s) + length (rq s) + length (eng s) + length w = depth c)%nat.
Proof.
  intros c s w f I. pose proof (Permutation_length (i_perm _ _ _ _ I)) as L.
  rewrite !app_length, seq_length in L. lia.
Qed.

(** An io_u in hand is in none of the lists. *)
Lemma nodup_mid : forall (a b : list nat) (x : nat), NoDup (a ++ x :: b) -> ~ In x a /\ ~ In x b.
Proof.
  intros a b x N. apply NoDup_remove_2 in N. rewrite in_app_iff in N. tauto.
Qed.

Lemma hand_out : forall c s i w f, inv c s (i :: w) f ->
  ~ In i (fr s) /\ ~ In i (rq s) /\ ~ In i (eng s) /\ ~ In i w.
Proof.
  intros c s i w f I. pose proof (inv_nodup _ _ _ _ I) as N.
  replace (fr s ++ rq s ++ eng s ++ i :: w) with ((fr s ++ rq s ++ eng s) ++ i :: w) in N
    by (rewrite !app_assoc; reflexivity).
  apply nodup_mid in N. rewrite !in_app_iff in N. tauto.
Qed.

(** The changes that a step makes to one io_u: the rest keeps its values. *)
Record frame (i : nat) (s s' : st) : Prop := Frame {
  k_ff : forall j, j <> i -> ff s' j = ff s j;
  k_fl : forall j, j <> i -> fl s' j = fl s j;
  k_fc : forall j, j <> i -> fc s' j = fc s j;
  k_fo : forall j, j <> i -> fo s' j = fo s j;
  k_off : forall j, j <> i -> off s' j = off s j;
  k_xb : forall j, j <> i -> xb s' j = xb s j;
  k_xl : forall j, j <> i -> xl s' j = xl s j }.

Ltac fr1 := constructor; intros j N; sim; rewrite ?up_other by exact N; reflexivity.

Lemma frame_dat : forall i s s' f g j b, frame i s s' -> j <> i -> (forall k, k <> i -> g k = f k) ->
  dat f s j b -> dat g s' j b.
Proof.
  intros i s s' f g j b F N G (o & n & d & A & B & C & D & E).
  exists o, n, d. rewrite G, (k_off _ _ _ F), (k_xb _ _ _ F), (k_xl _ _ _ F) by exact N. auto.
Qed.

(** An io_u in hand goes to the free list. *)
Lemma to_free : forall c s s' i w f g, Z.of_nat (depth c) < 2 ^ 32 -> inv c s (i :: w) f ->
  frame i s s' -> ff s' i = true -> fl s' i = false -> fr s' = i :: fr s -> rq s' = rq s -> eng s' = eng s ->
  cd s' = u32 (cd s - 1) -> qd s' = qd s -> inf s' = inf s ->
  g i = Idle -> (forall k, k <> i -> g k = f k) -> life (fsize c) (tr s') g -> inv c s' w g.
Proof.
  intros c s s' i w f g D I F A1 A2 A3 A4 A5 A6 A7 A8 A9 A10 A11.
  destruct (hand_out _ _ _ _ _ I) as (O1 & O2 & O3 & O4). pose proof (inv_len _ _ _ _ I) as L. cbn [length] in L.
  destruct I as [I1 I2 I3 I4 I5 I6 I7 I8 I9 I10 I11 I12 I13 I14 I15].
  assert (NE : forall j l, In j l -> ~ In i l -> j <> i) by (intros j l X Y Z; subst; auto).
  constructor; rewrite ?A3, ?A4, ?A5, ?A6, ?A7, ?A8.
  - etransitivity; [ | exact I1 ]. rewrite !app_assoc.
    change ((((i :: fr s) ++ rq s) ++ eng s) ++ w) with (i :: (((fr s ++ rq s) ++ eng s) ++ w)).
    apply Permutation_middle.
  - intros j X. cbn [app] in X. destruct X as [ <- | X ]; [ exact A1 | ].
    rewrite (k_ff _ _ _ F); [ apply I2; exact X | ]. apply (NE j _ X). rewrite in_app_iff. tauto.
  - intros j X. rewrite (k_ff _ _ _ F).
    + apply I3. rewrite in_app_iff in *. cbn [In]. tauto.
    + apply (NE j _ X). rewrite in_app_iff. tauto.
  - intros j X. rewrite (k_fl _ _ _ F); [ apply I4; exact X | apply (NE j _ X O3) ].
  - intros j X. cbn [app] in X. destruct X as [ <- | X ]; [ exact A2 | ].
    rewrite (k_fl _ _ _ F); [ apply I5; exact X | ]. apply (NE j _ X). rewrite in_app_iff. tauto.
  - intros j X. rewrite (k_fc _ _ _ F).
    + apply I6. rewrite in_app_iff in *. cbn [In]. tauto.
    + apply (NE j _ X). rewrite in_app_iff. tauto.
  - intros j X. rewrite (k_fo _ _ _ F); [ apply I7; exact X | ]. apply (NE j _ X). rewrite in_app_iff. tauto.
  - rewrite I8. cbn [length]. unfold u32. rewrite Z.mod_small; lia.
  - exact I9.
  - exact I10.
  - exact I11.
  - intros j X. apply (frame_dat i s s' f g j false F); auto. apply (NE j _ X O2).
  - intros j X. apply (frame_dat i s s' f g j true F); auto. apply (NE j _ X O3).
  - intros j X. cbn [In] in X. destruct X as [ <- | X ]; [ exact A9 | ].
    rewrite A10; [ apply I14; exact X | apply (NE j _ X O1) ].
  - exact A11.
Qed.

(** An io_u in hand goes to the requeue list. *)
Lemma to_requeue : forall c s s' i w f g, Z.of_nat (depth c) < 2 ^ 32 -> inv c s (i :: w) f ->
  frame i s s' -> ff s' i = true -> fl s' i = false -> fo s' i = true ->
  fr s' = fr s -> rq s' = rq s ++ [i] -> eng s' = eng s ->
  cd s' = u32 (cd s - 1) -> qd s' = qd s -> inf s' = inf s ->
  dat g s' i false -> (forall k, k <> i -> g k = f k) -> life (fsize c) (tr s') g -> inv c s' w g.
Proof.
  intros c s s' i w f g D I F A1 A2 A2' A3 A4 A5 A6 A7 A8 A9 A10 A11.
  destruct (hand_out _ _ _ _ _ I) as (O1 & O2 & O3 & O4). pose proof (inv_len _ _ _ _ I) as L. cbn [length] in L.
  destruct I as [I1 I2 I3 I4 I5 I6 I7 I8 I9 I10 I11 I12 I13 I14 I15].
  assert (NE : forall j l, In j l -> ~ In i l -> j <> i) by (intros j l X Y Z; subst; auto).
  constructor; rewrite ?A3, ?A4, ?A5, ?A6, ?A7, ?A8.
  - etransitivity; [ | exact I1 ]. rewrite <- !app_assoc. apply Permutation_app_head, Permutation_app_head.
    cbn [app]. apply Permutation_middle.
  - intros j X. rewrite !in_app_iff in X. cbn [In] in X. destruct (Nat.eq_dec j i) as [ -> | N ]; [ exact A1 | ].
    rewrite (k_ff _ _ _ F) by exact N. apply I2. rewrite in_app_iff. destruct X as [X|[X|[X|[]]]]; auto. congruence.
  - intros j X. rewrite (k_ff _ _ _ F).
    + apply I3. rewrite in_app_iff in *. cbn [In]. tauto.
    + apply (NE j _ X). rewrite in_app_iff. tauto.
  - intros j X. rewrite (k_fl _ _ _ F); [ apply I4; exact X | apply (NE j _ X O3) ].
  - intros j X. rewrite !in_app_iff in X. cbn [In] in X. destruct (Nat.eq_dec j i) as [ -> | N ]; [ exact A2 | ].
    rewrite (k_fl _ _ _ F) by exact N. apply I5. rewrite in_app_iff. destruct X as [X|[X|[X|[]]]]; auto. congruence.
  - intros j X. rewrite (k_fc _ _ _ F).
    + apply I6. rewrite in_app_iff in *. cbn [In]. tauto.
    + apply (NE j _ X). rewrite in_app_iff. tauto.
  - intros j X. rewrite !in_app_iff in X. cbn [In] in X. destruct (Nat.eq_dec j i) as [ -> | N ]; [ exact A2' | ].
    rewrite (k_fo _ _ _ F) by exact N. apply I7. rewrite in_app_iff. destruct X as [[X|[X|[]]]|X]; auto. congruence.
  - rewrite I8. cbn [length]. unfold u32. rewrite Z.mod_small; lia.
  - exact I9.
  - exact I10.
  - exact I11.
  - intros j X. destruct (Nat.eq_dec j i) as [ -> | N ]; [ exact A9 | ].
    apply (frame_dat i s s' f g j false F); auto. apply I12.
    rewrite in_app_iff in X. cbn [In] in X. destruct X as [X|[X|[]]]; auto. congruence.
  - intros j X. apply (frame_dat i s s' f g j true F); auto. apply (NE j _ X O3).
  - intros j X. rewrite A10; [ apply I14; exact X | apply (NE j _ X O1) ].
  - exact A11.
Qed.

(** An io_u in hand goes to the engine. *)
Lemma to_engine : forall c s s' i w f g, Z.of_nat (depth c) < 2 ^ 32 -> inv c s (i :: w) f ->
  frame i s s' -> ff s' i = false -> fl s' i = true -> fc s' i = true -> fo s' i = true ->
  fr s' = fr s -> rq s' = rq s -> eng s' = eng s ++ [i] ->
  cd s' = cd s -> qd s' = u32 (qd s + 1) -> inf s' = inf s ->
  dat g s' i true -> (forall k, k <> i -> g k = f k) -> life (fsize c) (tr s') g -> inv c s' w g.
Proof.
  intros c s s' i w f g D I F A1 A2 A2' A2'' A3 A4 A5 A6 A7 A8 A9 A10 A11.
  destruct (hand_out _ _ _ _ _ I) as (O1 & O2 & O3 & O4). pose proof (inv_len _ _ _ _ I) as L. cbn [length] in L.
  destruct I as [I1 I2 I3 I4 I5 I6 I7 I8 I9 I10 I11 I12 I13 I14 I15].
  assert (NE : forall j l, In j l -> ~ In i l -> j <> i) by (intros j l X Y Z; subst; auto).
  constructor; rewrite ?A3, ?A4, ?A5, ?A6, ?A7, ?A8.
  - etransitivity; [ | exact I1 ]. rewrite <- !app_assoc. reflexivity.
  - intros j X. rewrite (k_ff _ _ _ F); [ apply I2; exact X | ]. apply (NE j _ X). rewrite in_app_iff. tauto.
  - intros j X. rewrite <- app_assoc in X. cbn [app] in X. destruct (Nat.eq_dec j i) as [ -> | N ]; [ exact A1 | ].
    rewrite (k_ff _ _ _ F) by exact N. apply I3. exact X.
  - intros j X. rewrite in_app_iff in X. cbn [In] in X. destruct (Nat.eq_dec j i) as [ -> | N ]; [ exact A2 | ].
    rewrite (k_fl _ _ _ F) by exact N. apply I4. destruct X as [X|[X|[]]]; auto. congruence.
  - intros j X. rewrite (k_fl _ _ _ F); [ apply I5; exact X | ]. apply (NE j _ X). rewrite in_app_iff. tauto.
  - intros j X. rewrite <- app_assoc in X. cbn [app] in X. destruct (Nat.eq_dec j i) as [ -> | N ]; [ exact A2' | ].
    rewrite (k_fc _ _ _ F) by exact N. apply I6. exact X.
  - intros j X. rewrite !in_app_iff in X. cbn [In] in X. destruct (Nat.eq_dec j i) as [ -> | N ]; [ exact A2'' | ].
    rewrite (k_fo _ _ _ F) by exact N. apply I7. rewrite in_app_iff. destruct X as [X|[X|[X|[]]]]; auto. congruence.
  - rewrite I8, app_length. cbn [length]. lia.
  - rewrite app_length. cbn [length]. unfold u32 in *.
    rewrite Zplus_mod_idemp_r, Z.add_assoc, <- Zplus_mod_idemp_l, I9. rewrite Z.mod_small; lia.
  - unfold u32. apply Z.mod_pos_bound. reflexivity.
  - exact I11.
  - intros j X. apply (frame_dat i s s' f g j false F); auto. apply (NE j _ X O2).
  - intros j X. destruct (Nat.eq_dec j i) as [ -> | N ]; [ exact A9 | ].
    apply (frame_dat i s s' f g j true F); auto. apply I13.
    rewrite in_app_iff in X. cbn [In] in X. destruct X as [X|[X|[]]]; auto. congruence.
  - intros j X. rewrite A10; [ apply I14; exact X | apply (NE j _ X O1) ].
  - exact A11.
Qed.

(** An io_u is taken from the requeue list or from the free list. *)
Lemma from_requeue : forall c s s' i r f, Z.of_nat (depth c) < 2 ^ 32 -> inv c s [] f -> rq s = i :: r ->
  frame i s s' -> ff s' i = false -> fc s' i = true ->
  fr s' = fr s -> rq s' = r -> eng s' = eng s ->
  cd s' = u32 (cd s + 1) -> qd s' = qd s -> inf s' = inf s -> tr s' = tr s -> inv c s' [i] f.
Proof.
  intros c s s' i r f D I R F A1 A2 A3 A4 A5 A6 A7 A8 A9.
  pose proof (inv_nodup _ _ _ _ I) as ND. pose proof (inv_len _ _ _ _ I) as L. rewrite R in ND, L. cbn [length] in L.
  rewrite app_nil_r in ND. cbn [app] in ND. apply nodup_mid in ND. rewrite in_app_iff in ND.
  destruct ND as (O1 & O2). assert (O3 : ~ In i (eng s)) by tauto. assert (O4 : ~ In i r) by tauto.
  destruct I as [I1 I2 I3 I4 I5 I6 I7 I8 I9 I10 I11 I12 I13 I14 I15]. rewrite R in *.
  assert (NE : forall j l, In j l -> ~ In i l -> j <> i) by (intros j l X Y Z; subst; auto).
  constructor; rewrite ?A3, ?A4, ?A5, ?A6, ?A7, ?A8, ?A9.
  - etransitivity; [ | exact I1 ]. apply Permutation_app_head. rewrite app_nil_r. cbn [app].
    rewrite app_assoc. symmetry. apply Permutation_cons_append.
  - intros j X. rewrite (k_ff _ _ _ F); [ apply I2 | ].
    + rewrite in_app_iff in *. cbn [In]. tauto.
    + apply (NE j _ X). rewrite in_app_iff. tauto.
  - intros j X. rewrite in_app_iff in X. cbn [In] in X. destruct (Nat.eq_dec j i) as [ -> | N ]; [ exact A1 | ].
    rewrite (k_ff _ _ _ F) by exact N. apply I3. rewrite app_nil_r. destruct X as [X|[X|[]]]; auto. congruence.
  - intros j X. rewrite (k_fl _ _ _ F); [ apply I4; exact X | apply (NE j _ X O3) ].
  - intros j X. rewrite (k_fl _ _ _ F); [ apply I5 | ].
    + rewrite in_app_iff in *. cbn [In]. tauto.
    + apply (NE j _ X). rewrite in_app_iff. tauto.
  - intros j X. rewrite in_app_iff in X. cbn [In] in X. destruct (Nat.eq_dec j i) as [ -> | N ]; [ exact A2 | ].
    rewrite (k_fc _ _ _ F) by exact N. apply I6. rewrite app_nil_r. destruct X as [X|[X|[]]]; auto. congruence.
  - intros j X. rewrite (k_fo _ _ _ F); [ apply I7 | ].
    + cbn [app In]. right. exact X.
    + apply (NE j _ X). rewrite in_app_iff. tauto.
  - rewrite I8. cbn [length]. unfold u32. rewrite Z.mod_small; lia.
  - exact I9.
  - exact I10.
  - exact I11.
  - intros j X. apply (frame_dat i s s' f f j false F); auto.
    + apply (NE j _ X O4).
    + apply I12. right. exact X.
  - intros j X. apply (frame_dat i s s' f f j true F); auto. apply (NE j _ X O3).
  - exact I14.
  - exact I15.
Qed.

Lemma from_free : forall c s s' i r f, Z.of_nat (depth c) < 2 ^ 32 -> inv c s [] f -> fr s = i :: r ->
  frame i s s' -> ff s' i = false -> fc s' i = true ->
  fr s' = r -> rq s' = rq s -> eng s' = eng s ->
  cd s' = u32 (cd s + 1) -> qd s' = qd s -> inf s' = inf s -> tr s' = tr s -> inv c s' [i] f.
Proof.
  intros c s s' i r f D I R F A1 A2 A3 A4 A5 A6 A7 A8 A9.
  pose proof (inv_nodup _ _ _ _ I) as ND. pose proof (inv_len _ _ _ _ I) as L. rewrite R in ND, L. cbn [length] in L.
  rewrite app_nil_r in ND. cbn [app] in ND. apply NoDup_cons_iff in ND. rewrite !in_app_iff in ND.
  destruct ND as (O1 & _). assert (O3 : ~ In i (eng s)) by tauto. assert (O4 : ~ In i r) by tauto.
  assert (O5 : ~ In i (rq s)) by tauto.
  destruct I as [I1 I2 I3 I4 I5 I6 I7 I8 I9 I10 I11 I12 I13 I14 I15]. rewrite R in *.
  assert (NE : forall j l, In j l -> ~ In i l -> j <> i) by (intros j l X Y Z; subst; auto).
  constructor; rewrite ?A3, ?A4, ?A5, ?A6, ?A7, ?A8, ?A9.
  - etransitivity; [ | exact I1 ]. rewrite app_nil_r. cbn [app].
    replace (r ++ rq s ++ eng s ++ [i]) with ((r ++ rq s ++ eng s) ++ [i]) by (rewrite <- !app_assoc; reflexivity).
    symmetry. apply Permutation_cons_append.
  - intros j X. rewrite (k_ff _ _ _ F); [ apply I2 | ].
    + cbn [app In]. right. exact X.
    + apply (NE j _ X). rewrite in_app_iff. tauto.
  - intros j X. rewrite in_app_iff in X. cbn [In] in X. destruct (Nat.eq_dec j i) as [ -> | N ]; [ exact A1 | ].
    rewrite (k_ff _ _ _ F) by exact N. apply I3. rewrite app_nil_r. destruct X as [X|[X|[]]]; auto. congruence.
  - intros j X. rewrite (k_fl _ _ _ F); [ apply I4; exact X | apply (NE j _ X O3) ].
  - intros j X. rewrite (k_fl _ _ _ F); [ apply I5 | ].
    + cbn [app In]. right. exact X.
    + apply (NE j _ X). rewrite in_app_iff. tauto.
  - intros j X. rewrite in_app_iff in X. cbn [In] in X. destruct (Nat.eq_dec j i) as [ -> | N ]; [ exact A2 | ].
    rewrite (k_fc _ _ _ F) by exact N. apply I6. rewrite app_nil_r. destruct X as [X|[X|[]]]; auto. congruence.
  - intros j X. rewrite (k_fo _ _ _ F); [ apply I7; exact X | ]. apply (NE j _ X). rewrite in_app_iff. tauto.
  - rewrite I8. cbn [length]. unfold u32. rewrite Z.mod_small; lia.
  - exact I9.
  - exact I10.
  - exact I11.
  - intros j X. apply (frame_dat i s s' f f j false F); auto. apply (NE j _ X O5).
  - intros j X. apply (frame_dat i s s' f f j true F); auto. apply (NE j _ X O3).
  - intros j X. apply I14. right. exact X.
  - exact I15.
Qed.

(** Something happens to an io_u in hand. *)
Lemma in_hand : forall c s s' i w f g, inv c s (i :: w) f ->
  frame i s s' -> ff s' i = false -> fc s' i = true ->
  fr s' = fr s -> rq s' = rq s -> eng s' = eng s ->
  cd s' = cd s -> qd s' = qd s -> inf s' = inf s ->
  (forall k, k <> i -> g k = f k) -> life (fsize c) (tr s') g -> inv c s' (i :: w) g.
Proof.
  intros c s s' i w f g I F A1 A2 A3 A4 A5 A6 A7 A8 A10 A11.
  destruct (hand_out _ _ _ _ _ I) as (O1 & O2 & O3 & O4).
  destruct I as [I1 I2 I3 I4 I5 I6 I7 I8 I9 I10 I11 I12 I13 I14 I15].
  assert (NE : forall j l, In j l -> ~ In i l -> j <> i) by (intros j l X Y Z; subst; auto).
  constructor; rewrite ?A3, ?A4, ?A5, ?A6, ?A7, ?A8.
  - exact I1.
  - intros j X. rewrite (k_ff _ _ _ F); [ apply I2; exact X | ]. apply (NE j _ X). rewrite in_app_iff. tauto.
  - intros j X. destruct (Nat.eq_dec j i) as [ -> | N ]; [ exact A1 | ]. rewrite (k_ff _ _ _ F) by exact N. apply I3. exact X.
  - intros j X. rewrite (k_fl _ _ _ F); [ apply I4; exact X | apply (NE j _ X O3) ].
  - intros j X. rewrite (k_fl _ _ _ F); [ apply I5; exact X | ]. apply (NE j _ X). rewrite in_app_iff. tauto.
  - intros j X. destruct (Nat.eq_dec j i) as [ -> | N ]; [ exact A2 | ]. rewrite (k_fc _ _ _ F) by exact N. apply I6. exact X.
  - intros j X. rewrite (k_fo _ _ _ F); [ apply I7; exact X | ]. apply (NE j _ X). rewrite in_app_iff. tauto.
  - exact I8.
  - exact I9.
  - exact I10.
  - exact I11.
  - intros j X. apply (frame_dat i s s' f g j false F); auto. apply (NE j _ X O2).
  - intros j X. apply (frame_dat i s s' f g j true F); auto. apply (NE j _ X O3).
  - intros j X. rewrite A10; [ apply I14; exact X | apply (NE j _ X O1) ].
  - exact A11.
Qed.

(** A commit. *)
Lemma commit_inv : forall c s w f, inv c s w f ->
  exists s', td_io_commit s = Ret tt s' /\ inv c s' w f /\
    (forall j, off s' j = off s j /\ xb s' j = xb s j /\ xl s' j = xl s j /\ fl s' j = fl s j /\ fo s' j = fo s j) /\
    eng s' = eng s /\ held s' = held s /\ cd s' = cd s /\ (cd s <> 0 -> qd s' = 0) /\ rq s' = rq s.
Proof.
  intros c s w f I. unfold td_io_commit, modi. eexists. split; [ reflexivity | ].
  destruct ((cd s =? 0) || (qd s =? 0)) eqn:E.
  - split; [ exact I | ]. split; [ auto 6 | ]. split; [ auto | ]. split; [ auto | ]. split; [ auto | ].
    split; [ | auto ]. intros N. apply orb_true_iff in E. destruct E as [E|E]; apply Z.eqb_eq in E; congruence.
  - split; [ | sim; auto 8 ].
    destruct I as [I1 I2 I3 I4 I5 I6 I7 I8 I9 I10 I11 I12 I13 I14 I15].
    constructor; sim; auto.
    + rewrite Z.add_0_r. unfold u32 in *. rewrite Zmod_mod. exact I9.
    + lia.
    + unfold u32. apply Z.mod_pos_bound. reflexivity.
Qed.

(** Weakest preconditions. *)
Definition wpre {A} (m : M A) (Q : A -> st -> Prop) (s : st) : Prop :=
  match m s with Ret a s' => Q a s' | _ => False end.

Lemma wp_ret : forall A (a : A) (Q : A -> st -> Prop) s, Q a s -> wpre (ret a) Q s.
Proof. intros. exact H. Qed.
Lemma wp_bnd : forall A B (m : M A) (k : A -> M B) Q s, wpre m (fun a => wpre (k a) Q) s -> wpre (bnd m k) Q s.
Proof. intros A B m k Q s H. unfold wpre, bnd in *. destruct (m s); auto. Qed.
Lemma wp_gets : forall A (g : st -> A) (Q : A -> st -> Prop) s, Q (g s) s -> wpre (gets g) Q s.
Proof. intros. exact H. Qed.
Lemma wp_modi : forall g (Q : unit -> st -> Prop) s, Q tt (g s) -> wpre (modi g) Q s.
Proof. intros. exact H. Qed.
Lemma wp_check : forall (b : bool) (Q : unit -> st -> Prop) s, b = true -> Q tt s -> wpre (check b) Q s.
Proof. intros b Q s -> H. exact H. Qed.
Lemma wp_mono : forall A (m : M A) (P Q : A -> st -> Prop) s,
  wpre m P s -> (forall a s', P a s' -> Q a s') -> wpre m Q s.
Proof. intros A m P Q s H K. unfold wpre in *. destruct (m s); auto. Qed.
Lemma wp_inv : forall A (m : M A) Q s, wpre m Q s -> exists a s', m s = Ret a s' /\ Q a s'.
Proof. intros A m Q s H. unfold wpre in H. destruct (m s) as [ a s' | | ]; [ eauto | destruct H | destruct H ]. Qed.

Ltac wp := repeat lazymatch goal with
  | |- wpre (ret _) _ _ => apply wp_ret
  | |- wpre (gets _) _ _ => apply wp_gets
  | |- wpre (modi _) _ _ => apply wp_modi
  | |- wpre (bnd _ _) _ _ => apply wp_bnd
  end.

(** What the functions below leave alone besides the other io_us. *)
Record keep (s s' : st) : Prop := Keep {
  p_eng : eng s' = eng s; p_held : held s' = held s; p_qd : qd s' = qd s; p_inf : inf s' = inf s }.
Lemma keep_refl : forall s, keep s s.
Proof. intros. constructor; reflexivity. Qed.
Lemma keep_trans : forall a b c, keep a b -> keep b c -> keep a c.
Proof. intros a b c [A1 A2 A3 A4] [B1 B2 B3 B4]. constructor; congruence. Qed.
Lemma frame_refl : forall i s, frame i s s.
Proof. intros. constructor; reflexivity. Qed.
Lemma frame_trans : forall i a b c, frame i a b -> frame i b c -> frame i a c.
Proof.
  intros i a b c [A1 A2 A3 A4 A5 A6 A7] [B1 B2 B3 B4 B5 B6 B7].
  constructor; intros j N; [ rewrite B1, A1 | rewrite B2, A2 | rewrite B3, A3 | rewrite B4, A4 | rewrite B5, A5 | rewrite B6, A6 | rewrite B7, A7 ]; auto.
Qed.
Ltac kp := constructor; sim; reflexivity.

Section Funs.
Variable c : cfg.
Hypothesis D : Z.of_nat (depth c) < 2 ^ 32.

Lemma put_spec : forall s i w f, inv c s (i :: w) f -> fl s i = false -> f i = Idle ->
  wpre (put_io_u c i) (fun _ s' => inv c s' w f /\ frame i s s' /\ keep s s' /\ tr s' = tr s /\ rq s' = rq s) s.
Proof.
  intros s i w f I L P. unfold put_io_u. wp. sim.
  assert (FC : fc s i = true) by (apply (i_fc _ _ _ _ I); rewrite in_app_iff; cbn; auto).
  rewrite FC. sim. apply wp_check.
  { apply Nat.ltb_lt. pose proof (inv_len _ _ _ _ I) as Q. cbn [length] in Q. lia. }
  apply wp_modi. match goal with |- inv c ?x _ _ /\ _ => assert (F : frame i s x) by fr1 end.
  split; [ | split; [ exact F | split; [ kp | split; reflexivity ] ] ].
  eapply (to_free c s _ i w f f D I F); sim; rewrite ?up_same; auto. apply (i_life _ _ _ _ I).
Qed.

Lemma requeue_spec : forall s i w f, inv c s (i :: w) f -> fo s i = true -> dat f s i false ->
  wpre (requeue_io_u c i) (fun _ s' => inv c s' w f /\ frame i s s' /\ keep s s') s.
Proof.
  intros s i w f I FO P. unfold requeue_io_u. wp. sim.
  assert (FC : fc s i = true) by (apply (i_fc _ _ _ _ I); rewrite in_app_iff; cbn; auto).
  assert (E : (length (rq s) < depth c)%nat) by (pose proof (inv_len _ _ _ _ I) as Q; cbn [length] in Q; lia).
  destruct (fl s i); sim; rewrite FC; sim; (apply wp_check; [ apply Nat.ltb_lt; exact E | ]); apply wp_modi;
    match goal with |- inv c ?x _ _ /\ _ => assert (F : frame i s x) by fr1 end;
    (split; [ | split; [ exact F | kp ] ]);
    eapply (to_requeue c s _ i w f f D I F); sim; rewrite ?up_same; auto; try apply (i_life _ _ _ _ I);
    destruct P as (o & n & d & P1 & P2 & P3 & P4 & P5); exists o, n, d; sim; auto.
Qed.

(** The state of an I/O when its completion is handled. *)
Definition fini (f : nat -> phase) (s : st) (i : nat) (err : bool) (resid : Z) : Prop :=
  exists o n d b, off s i = o + d /\ xb s i = d /\ xl s i = n - d /\ 0 <= d < n /\
    f i = Active o n (if err then d else d + (xl s i - resid)) b /\
    (err = false -> xl s i - resid <> 0 -> b = false).

Lemma log_move_spec : forall s i w f (err : bool) resid, inv c s (i :: w) f -> dat f s i true -> 0 <= resid <= xl s i ->
  wpre (log_move i err resid) (fun _ s' => exists g, inv c s' (i :: w) g /\ fini g s' i err resid /\
    (forall k, k <> i -> g k = f k) /\ (s' = s \/ exists e, s' = log e s)) s.
Proof.
  intros s i w f err resid I (o & n & d & P1 & P2 & P3 & P4 & P5) R. unfold log_move. apply wp_modi.
  destruct (err || (xl s i - resid =? 0)) eqn:E.
  - exists f. split; [ exact I | ]. split; [ | split; auto ].
    exists o, n, d, true. split; [ exact P2 | ]. split; [ exact P3 | ]. split; [ exact P4 | ]. split; [ exact P5 | ].
    destruct err; [ split; [ exact P1 | discriminate ] | ]. cbn in E. apply Z.eqb_eq in E. rewrite E, Z.add_0_r.
    split; [ exact P1 | ]. intros _ Q. congruence.
  - apply orb_false_iff in E. destruct E as (-> & E). apply Z.eqb_neq in E.
    exists (up f i (Active o n (d + (xl s i - resid)) false)).
    assert (G : forall k, k <> i -> up f i (Active o n (d + (xl s i - resid)) false) k = f k) by (intros; apply up_other; auto).
    split; [ | split; [ | split; [ exact G | right; eexists; reflexivity ] ] ].
    + eapply (in_hand c s _ i w f _ I); sim; auto; try reflexivity.
      * fr1.
      * apply (i_nf _ _ _ _ I). rewrite in_app_iff. cbn. auto.
      * apply (i_fc _ _ _ _ I). rewrite in_app_iff. cbn. auto.
      * rewrite P2, P3. eapply LMove; [ apply (i_life _ _ _ _ I) | exact P1 | lia | lia | apply up_same | exact G ].
    + exists o, n, d, false. sim. rewrite up_same. repeat (split; auto).
Qed.

Lemma io_completed_spec : forall s i w f (err : bool) resid, inv c s (i :: w) f -> fl s i = true -> fo s i = true ->
  fini f s i err resid -> 0 <= resid <= xl s i -> (err = false -> resid < xl s i \/ fsize c <= off s i) ->
  wpre (io_completed c i err resid) (fun mine s' => exists g, frame i s s' /\ keep s s' /\
    (forall k, k <> i -> g k = f k) /\
    if mine then inv c s' (i :: w) g /\ fl s' i = false /\ g i = Idle else inv c s' w g) s.
Proof.
  intros s i w f err resid I FL FO (o & n & d & b & P1 & P2 & P3 & P4 & P5 & P6) R K.
  unfold io_completed. apply wp_bnd, wp_gets. rewrite FL. apply wp_bnd, wp_check; [ reflexivity | ].
  apply wp_bnd, wp_modi.
  assert (NF : ff s i = false) by (apply (i_nf _ _ _ _ I); rewrite in_app_iff; cbn; auto).
  assert (FC : fc s i = true) by (apply (i_fc _ _ _ _ I); rewrite in_app_iff; cbn; auto).
  assert (G : forall k, k <> i -> up f i Idle k = f k) by (intros; apply up_other; auto).
  destruct err.
  - wp. exists (up f i Idle). split; [ fr1 | ]. split; [ kp | ]. split; [ exact G | ].
    split; [ | split; [ sim; apply up_same | apply up_same ] ].
    eapply (in_hand c s _ i w f _ I); sim; auto; try reflexivity.
    + fr1.
    + eapply LErr; [ apply (i_life _ _ _ _ I) | exact P5 | apply up_same | exact G ].
  - apply wp_bnd, wp_gets. sim. specialize (P6 eq_refl). specialize (K eq_refl).
    destruct (negb (xl s i - resid =? 0) && negb (resid =? 0)) eqn:E.
    + apply andb_true_iff in E. destruct E as (E1 & E2). apply negb_true_iff, Z.eqb_neq in E1, E2.
      specialize (P6 E1). subst b. apply wp_bnd, wp_modi. apply wp_bnd, wp_gets. sim. rewrite up_same.
      destruct (off s i + (xl s i - resid) <? fsize c) eqn:E3.
      * apply wp_bnd. eapply wp_mono; [ eapply (requeue_spec _ i w f) | ].
        -- eapply (in_hand c s _ i w f _ I); sim; auto; try reflexivity; [ fr1 | apply (i_life _ _ _ _ I) ].
        -- sim. exact FO.
        -- exists o, n, (d + (xl s i - resid)). sim. rewrite !up_same. split; [ exact P5 | ]. lia.
        -- intros [] s' (I' & F' & K'). apply wp_ret. exists f. split; [ | split; [ | split; auto ] ].
           ++ eapply frame_trans; [ | exact F' ]. fr1.
           ++ eapply keep_trans; [ | exact K' ]. kp.
      * apply Z.ltb_ge in E3. wp. sim. exists (up f i Idle). split; [ fr1 | ]. split; [ kp | ]. split; [ exact G | ].
        split; [ | split; [ sim; apply up_same | apply up_same ] ].
        eapply (in_hand c s _ i w f _ I); sim; auto; try reflexivity; [ fr1 | ].
        eapply LFin; [ apply (i_life _ _ _ _ I) | exact P5 | right; lia | apply up_same | exact G ].
    + wp. sim. exists (up f i Idle). split; [ fr1 | ]. split; [ kp | ]. split; [ exact G | ].
      split; [ | split; [ sim; apply up_same | apply up_same ] ].
      eapply (in_hand c s _ i w f _ I); sim; auto; try reflexivity; [ fr1 | ].
      eapply LFin; [ apply (i_life _ _ _ _ I) | exact P5 | | apply up_same | exact G ].
      apply andb_false_iff in E. destruct E as [E|E]; apply negb_false_iff, Z.eqb_eq in E; lia.
Qed.

(** One event. *)
Definition one (e : event) : M unit :=
  let '(i, err, resid) := e in
  log_move i err resid ;;;
  mine <- io_completed c i err resid ;;
  (if mine then put_io_u c i else ret tt).

Lemma one_spec : forall s i w f (err : bool) resid, inv c s (i :: w) f -> fl s i = true -> fo s i = true ->
  dat f s i true -> 0 <= resid <= xl s i -> (err = false -> resid < xl s i \/ fsize c <= off s i) ->
  wpre (one (i, err, resid)) (fun _ s' => exists g, inv c s' w g /\ frame i s s' /\ keep s s' /\
    (forall k, k <> i -> g k = f k)) s.
Proof.
  intros s i w f err resid I FL FO P R K. unfold one. apply wp_bnd.
  eapply wp_mono; [ apply (log_move_spec s i w f err resid I P R) | ].
  intros [] s1 (g & I1 & F1 & G1 & S1).
  assert (X : fl s1 = fl s /\ fo s1 = fo s /\ xl s1 = xl s /\ off s1 = off s /\ keep s s1 /\ frame i s s1).
  { destruct S1 as [ -> | (e & ->) ]; sim; repeat (split; [ reflexivity | ]); (split; [ kp | ]).
    - apply frame_refl.
    - fr1. }
  destruct X as (X1 & X2 & X3 & X4 & X5 & X6). apply wp_bnd.
  eapply wp_mono; [ eapply (io_completed_spec s1 i w g err resid I1) | ];
    rewrite ?X1, ?X2, ?X3, ?X4; auto.
  intros mine s2 (g2 & F2 & K2 & G2 & I2). destruct mine.
  - destruct I2 as (I2 & L2 & P2). eapply wp_mono; [ apply (put_spec s2 i w g2 I2 L2 P2) | ].
    intros [] s3 (I3 & F3 & K3 & _). exists g2. split; [ exact I3 | ].
    split; [ eapply frame_trans; [ exact X6 | eapply frame_trans; [ exact F2 | exact F3 ] ] | ].
    split; [ eapply keep_trans; [ exact X5 | eapply keep_trans; [ exact K2 | exact K3 ] ] | ].
    intros k N. rewrite G2, G1 by exact N. reflexivity.
  - apply wp_ret. exists g2. split; [ exact I2 | ].
    split; [ eapply frame_trans; [ exact X6 | exact F2 ] | ].
    split; [ eapply keep_trans; [ exact X5 | exact K2 ] | ].
    intros k N. rewrite G2, G1 by exact N. reflexivity.
Qed.

Lemma ios_unfold : forall e l s, ios_completed c (e :: l) s = bnd (one e) (fun _ => ios_completed c l) s.
Proof.
  intros [[i err] resid] l s. cbn [ios_completed one]. unfold bnd.
  destruct (log_move i err resid s) as [ [] s1 | | ]; auto.
  destruct (io_completed c i err resid s1) as [ [] s2 | | ]; auto.
Qed.

Definition pend (f : nat -> phase) (s : st) (e : event) : Prop :=
  let '(i, err, resid) := e in
  fl s i = true /\ fo s i = true /\ dat f s i true /\ 0 <= resid <= xl s i /\
  (err = false -> resid < xl s i \/ fsize c <= off s i).

Definition still (l : list nat) (f g : nat -> phase) (s s' : st) : Prop :=
  forall j, ~ In j l -> fl s' j = fl s j /\ fo s' j = fo s j /\ forall b, dat f s j b -> dat g s' j b.

Lemma ios_spec : forall w l s f, inv c s (ids l ++ w) f -> NoDup (ids l) -> Forall (pend f s) l ->
  wpre (ios_completed c l) (fun _ s' => exists g, inv c s' w g /\ keep s s' /\ still (ids l) f g s s') s.
Proof.
  intros w. induction l as [ | e l IH ]; intros s f I ND P.
  - cbn [ios_completed]. apply wp_ret. exists f. split; [ exact I | split; [ apply keep_refl | ] ].
    intros j _. auto.
  - unfold wpre. rewrite ios_unfold. fold (wpre (bnd (one e) (fun _ => ios_completed c l)) (fun _ s' => exists g, inv c s' w g /\ keep s s' /\ still (ids (e :: l)) f g s s') s).
    destruct e as [[i err] resid]. inversion P as [ | ? ? P1 P2 ]; subst. destruct P1 as (A1 & A2 & A3 & A4 & A5).
    unfold ids in I, ND. cbn [map fst] in I, ND. fold (ids l) in I, ND. cbn [app] in I.
    apply NoDup_cons_iff in ND. destruct ND as (N1 & N2).
    apply wp_bnd. eapply wp_mono; [ apply (one_spec s i (ids l ++ w) f err resid I A1 A2 A3 A4 A5) | ].
    intros [] s1 (g & I1 & F1 & K1 & G1). eapply wp_mono; [ apply (IH s1 g I1 N2) | ].
    + rewrite Forall_forall in *. intros e X. specialize (P2 e X).
      assert (NE : fst (fst e) <> i).
      { intros <-. apply N1. unfold ids. apply (in_map (fun z : event => fst (fst z))). exact X. }
      destruct e as [[j err'] r']. cbn [fst] in NE. destruct P2 as (B1 & B2 & B3 & B4 & B5). unfold pend.
      rewrite (k_fl _ _ _ F1), (k_fo _ _ _ F1), (k_xl _ _ _ F1), (k_off _ _ _ F1) by exact NE.
      split; [ exact B1 | ]. split; [ exact B2 | ]. split; [ | split; [ exact B4 | exact B5 ] ].
      apply (frame_dat i s s1 f g j true F1 NE G1 B3).
    + intros [] s2 (g2 & I2 & K2 & S2). exists g2. split; [ exact I2 | ]. split; [ eapply keep_trans; eauto | ].
      intros j NJ. unfold ids in NJ. cbn [map fst In] in NJ. fold (ids l) in NJ.
      assert (NE : j <> i) by (intros ->; apply NJ; left; reflexivity).
      destruct (S2 j) as (T1 & T2 & T3); [ intros X; apply NJ; right; exact X | ].
      rewrite T1, T2, (k_fl _ _ _ F1), (k_fo _ _ _ F1) by exact NE. split; [ reflexivity | ]. split; [ reflexivity | ].
      intros b B. apply T3. apply (frame_dat i s s1 f g j b F1 NE G1 B).
Qed.

Lemma take_out_perm : forall l x, In x l -> Permutation (x :: take_out l x) l.
Proof.
  induction l as [ | y l IH ]; intros x H; [ destruct H | ]. cbn [take_out].
  destruct (Nat.eqb x y) eqn:E.
  - apply Nat.eqb_eq in E. subst. reflexivity.
  - destruct H as [ <- | H ]; [ rewrite Nat.eqb_refl in E; discriminate | ].
    etransitivity; [ apply perm_swap | ]. apply perm_skip. apply IH. exact H.
Qed.

Lemma take_all_perm : forall xs l, NoDup xs -> incl xs l -> Permutation (fold_left take_out xs l ++ xs) l.
Proof.
  induction xs as [ | x xs IH ]; intros l ND IN.
  - cbn. rewrite app_nil_r. reflexivity.
  - cbn [fold_left]. apply NoDup_cons_iff in ND. destruct ND as (N1 & N2).
    assert (X : In x l) by (apply IN; left; reflexivity).
    pose proof (take_out_perm l x X) as P.
    etransitivity; [ symmetry; apply Permutation_middle | ].
    etransitivity; [ apply perm_skip, IH | exact P ]; [ exact N2 | ].
    intros y Y. assert (Z : In y (x :: take_out l x)).
    { eapply Permutation_in; [ symmetry; exact P | ]. apply IN. right. exact Y. }
    destruct Z as [ Z | Z ]; [ subst; contradiction | exact Z ].
Qed.

Lemma ids_len : forall l : list event, length (ids l) = length l.
Proof. intros l. apply map_length. Qed.

Lemma queued_spec : forall s w f min l, inv c s w f -> reap_ok c min s l ->
  wpre (queued_complete c l) (fun _ s' => exists g, inv c s' w g /\ held s' = held s /\ qd s' = qd s /\
    (length (eng s') + length l = length (eng s))%nat /\ inf s' = u32 (inf s - Z.of_nat (length l)) /\
    forall j, In j w -> fl s' j = fl s j /\ fo s' j = fo s j /\ forall b, dat f s j b -> dat g s' j b) s.
Proof.
  intros s w f min l I (ND & MX & EV). pose proof (inv_nodup _ _ _ _ I) as NDA.
  unfold queued_complete. apply wp_bnd, wp_modi.
  set (e' := fold_left take_out (map (fun e => fst (fst e)) l) (eng s)).
  assert (INC : incl (ids l) (eng s)).
  { intros j X. unfold ids in X. apply in_map_iff in X. destruct X as ([[i err] r] & <- & X).
    rewrite Forall_forall in EV. apply EV in X. exact (proj1 X). }
  assert (PE : Permutation (e' ++ ids l) (eng s)) by (apply take_all_perm; assumption).
  assert (PI : forall j, In j (e' ++ ids l) <-> In j (eng s)).
  { intros j. split; apply Permutation_in; [ exact PE | symmetry; exact PE ]. }
  assert (PI2 : forall j, In j (e' ++ ids l ++ w) <-> In j (eng s ++ w)).
  { intros j. rewrite app_assoc, in_app_iff, PI, in_app_iff. reflexivity. }
  assert (LE : (length e' + length l = length (eng s))%nat).
  { rewrite <- (Permutation_length PE), app_length, ids_len. reflexivity. }
  clearbody e'. destruct I as [I1 I2 I3 I4 I5 I6 I7 I8 I9 I10 I11 I12 I13 I14 I15].
  assert (LD : (length (eng s) <= depth c)%nat).
  { apply Permutation_length in I1. rewrite !app_length, seq_length in I1. lia. }
  eapply wp_mono; [ apply (ios_spec w l _ f) | ].
  - constructor; sim; auto.
    + etransitivity; [ | exact I1 ]. apply Permutation_app_head, Permutation_app_head.
      rewrite app_assoc. apply Permutation_app_tail. exact PE.
    + intros j X. apply I3. apply PI2. exact X.
    + intros j X. apply I4. apply PI. rewrite in_app_iff. auto.
    + intros j X. apply I6. apply PI2. exact X.
    + intros j X. apply I7. rewrite in_app_iff in *. destruct X as [X|X]; [ auto | right ]. apply PI. rewrite in_app_iff. auto.
    + rewrite I8, app_length, ids_len. lia.
    + unfold u32 in *. rewrite Zplus_mod_idemp_l.
      replace (inf s - Z.of_nat (length l) + qd s) with ((inf s + qd s) - Z.of_nat (length l)) by lia.
      rewrite <- Zminus_mod_idemp_l, I9. rewrite Z.mod_small; lia.
    + unfold u32. apply Z.mod_pos_bound. reflexivity.
    + intros j X. apply I13. apply PI. rewrite in_app_iff. auto.
  - exact ND.
  - rewrite Forall_forall in *. intros [[i err] r] X. destruct (EV _ X) as (B1 & B2 & B3). unfold pend. sim.
    split; [ auto | ]. split; [ apply I7; rewrite in_app_iff; auto | ]. split; [ apply I13; exact B1 | auto ].
  - intros [] s' (g & I' & K' & S'). destruct K' as [K1 K2 K3 K4]. sim. exists g. split; [ exact I' | ].
    split; [ exact K2 | ]. split; [ exact K3 | ]. split; [ rewrite K1; exact LE | ]. split; [ exact K4 | ].
    intros j X. apply (S' j). intros Y. apply INC in Y.
    rewrite app_assoc in NDA. rewrite app_assoc in NDA.
    apply in_split in X. destruct X as (w1 & w2 & ->). rewrite app_assoc in NDA. apply nodup_mid in NDA.
    rewrite !in_app_iff in NDA. tauto.
Qed.

(** Submission. *)
Lemma sync_spec : forall s i w f resid, inv c s (i :: w) f -> fl s i = true -> fo s i = true ->
  fini f s i false resid -> 0 <= resid <= xl s i -> (resid < xl s i \/ fsize c <= off s i) ->
  wpre (sync_complete c i resid) (fun _ s' => exists g, inv c s' w g /\ keep s s') s.
Proof.
  intros s i w f resid I FL FO P R K. unfold sync_complete. apply wp_bnd.
  eapply wp_mono; [ apply (io_completed_spec s i w f false resid I FL FO P R); auto | ].
  intros mine s2 (g2 & F2 & K2 & G2 & I2). destruct mine.
  - destruct I2 as (I2 & L2 & P2). eapply wp_mono; [ apply (put_spec s2 i w g2 I2 L2 P2) | ].
    intros [] s3 (I3 & F3 & K3 & _). exists g2. split; [ exact I3 | eapply keep_trans; eauto ].
  - apply wp_ret. exists g2. split; [ exact I2 | exact K2 ].
Qed.

(** Giving up: [TErr], then [clear_io_u]. *)
Lemma err_clear_spec : forall s i w f o n d b, inv c s (i :: w) f -> f i = Active o n d b ->
  wpre (modi (log (TErr i)) ;;; clear_io_u c i) (fun _ s' => exists g, inv c s' w g /\ keep s s') s.
Proof.
  intros s i w f o n d b I P. apply wp_bnd, wp_modi. unfold clear_io_u. apply wp_bnd, wp_modi.
  assert (NF : ff s i = false) by (apply (i_nf _ _ _ _ I); rewrite in_app_iff; cbn; auto).
  assert (FC : fc s i = true) by (apply (i_fc _ _ _ _ I); rewrite in_app_iff; cbn; auto).
  assert (G : forall k, k <> i -> up f i Idle k = f k) by (intros; apply up_other; auto).
  eapply wp_mono; [ apply (put_spec _ i w (up f i Idle)) | ].
  - eapply (in_hand c s _ i w f _ I); sim; auto; try reflexivity; [ fr1 | ].
    eapply LErr; [ apply (i_life _ _ _ _ I) | exact P | apply up_same | exact G ].
  - sim. apply up_same.
  - apply up_same.
  - intros [] s' (I' & F' & K' & _). eexists. split; [ exact I' | ]. eapply keep_trans; [ | exact K' ]. kp.
Qed.

Lemma err_put_spec : forall s i w f o n d b, inv c s (i :: w) f -> f i = Active o n d b -> fl s i = false ->
  wpre (modi (log (TErr i)) ;;; put_io_u c i) (fun _ s' => exists g, inv c s' w g /\ keep s s' /\ rq s' = rq s) s.
Proof.
  intros s i w f o n d b I P FL. apply wp_bnd, wp_modi.
  assert (NF : ff s i = false) by (apply (i_nf _ _ _ _ I); rewrite in_app_iff; cbn; auto).
  assert (FC : fc s i = true) by (apply (i_fc _ _ _ _ I); rewrite in_app_iff; cbn; auto).
  assert (G : forall k, k <> i -> up f i Idle k = f k) by (intros; apply up_other; auto).
  eapply wp_mono; [ apply (put_spec _ i w (up f i Idle)) | ].
  - eapply (in_hand c s _ i w f _ I); sim; auto; try reflexivity; [ fr1 | ].
    eapply LErr; [ apply (i_life _ _ _ _ I) | exact P | apply up_same | exact G ].
  - sim. exact FL.
  - apply up_same.
  - intros [] s' (I' & F' & K' & _ & R'). eexists. split; [ exact I' | ]. split; [ | exact R' ].
    eapply keep_trans; [ | exact K' ]. kp.
Qed.

Definition fitting (s : st) (i : nat) (a : answer) : Prop :=
  match a with ADone _ resid => 0 <= resid <= xl s i | _ => True end.

Lemma submit_spec : forall s i f a, inv c s [i] f -> fl s i = false -> fo s i = true -> dat f s i false -> fitting s i a ->
  wpre (submit c i a) (fun _ s' => exists g, inv c s' [] g /\ held s' = held s) s.
Proof.
  intros s i f a I FL FO P R. unfold submit.
  assert (NF : ff s i = false) by (apply (i_nf _ _ _ _ I); rewrite in_app_iff; cbn; auto).
  assert (FC : fc s i = true) by (apply (i_fc _ _ _ _ I); rewrite in_app_iff; cbn; auto).
  assert (BUSY : forall s0, inv c s0 [i] f -> fo s0 i = true -> dat f s0 i false ->
    wpre (requeue_io_u c i ;;; td_io_commit) (fun _ s' => exists g, inv c s' [] g /\ held s' = held s0) s0).
  { intros s0 I0 F0 P0. apply wp_bnd. eapply wp_mono; [ apply (requeue_spec s0 i [] f I0 F0 P0) | ].
    intros [] s1 (I1 & F1 & K1). destruct (commit_inv c s1 [] f I1) as (s2 & E & I2 & _ & _ & H2 & _).
    unfold wpre. rewrite E. exists f. split; [ exact I2 | ]. rewrite H2. apply (p_held _ _ K1). }
  destruct a as [ err resid | | | ]; cbn [io_queue_event].
  - (* completed at once *)
    apply wp_bnd. unfold td_io_queue. apply wp_bnd, wp_gets. rewrite FL. apply wp_bnd, wp_check; [ reflexivity | ].
    apply wp_bnd, wp_modi. apply wp_bnd, wp_gets. sim. apply wp_bnd, wp_check; [ exact FO | ].
    apply wp_bnd, wp_modi. sim. apply wp_bnd, wp_modi.
    match goal with |- wpre _ _ ?x => set (s1 := x) end.
    assert (S1 : frame i s s1 /\ keep s s1 /\ ff s1 = ff s /\ fc s1 = fc s /\ fl s1 i = true /\ fo s1 = fo s /\
                 off s1 = off s /\ xb s1 = xb s /\ xl s1 = xl s /\ fr s1 = fr s /\ rq s1 = rq s /\ cd s1 = cd s /\ tr s1 = TSub i (xl s i) :: tr s).
    { unfold s1. destruct (fv s i); (split; [ fr1 | ]); (split; [ kp | ]); sim; rewrite up_same; repeat (split; [ reflexivity | ]); reflexivity. }
    clearbody s1. destruct S1 as (F1 & [K1 K2 K3 K4] & E1 & E2 & E3 & E4 & E5 & E6 & E7 & E8 & E9 & E10 & E11).
    destruct P as (o & n & d & P1 & P2 & P3 & P4 & P5).
    set (f1 := up f i (Active o n d true)).
    assert (G1 : forall k, k <> i -> f1 k = f k) by (intros; apply up_other; auto).
    assert (I1 : inv c s1 [i] f1).
    { eapply (in_hand c s s1 i [] f f1 I F1); rewrite ?E1, ?E2; auto. rewrite E11, P4.
      eapply LSub; [ apply (i_life _ _ _ _ I) | exact P1 | lia | apply up_same | exact G1 ]. }
    cbn [fitting] in R. rewrite <- E7 in R.
    eapply wp_mono; [ apply (log_move_spec s1 i [] f1 err resid I1) | ].
    { exists o, n, d. unfold f1. rewrite up_same, E5, E6, E7. auto. }
    { exact R. }
    intros [] s2 (g & I2 & FI & G2 & S2).
    assert (X : fl s2 = fl s1 /\ fo s2 = fo s1 /\ xl s2 = xl s1 /\ off s2 = off s1 /\ held s2 = held s1 /\ xb s2 = xb s1).
    { destruct S2 as [ -> | (e & ->) ]; sim; auto 7. }
    destruct X as (X1 & X2 & X3 & X4 & X5 & X6). clear S2.
    destruct FI as (o' & n' & d' & b' & Q1 & Q2 & Q3 & Q4 & Q5 & Q6).
    destruct err.
    + eapply wp_mono; [ apply (err_clear_spec s2 i [] g _ _ _ _ I2 Q5) | ].
      intros [] s3 (h & I3 & [L1 L2 L3 L4]). exists h. split; [ exact I3 | congruence ].
    + destruct (resid =? 0) eqn:E; cbn [negb].
      * apply Z.eqb_eq in E. subst resid. eapply wp_mono; [ apply (sync_spec s2 i [] g 0 I2) | ]; rewrite ?X1, ?X2, ?E3, ?E4; auto.
        -- exists o', n', d', b'. auto 8.
        -- rewrite X3. lia.
        -- rewrite X3, E7, P4. lia.
        -- intros [] s3 (h & I3 & [L1 L2 L3 L4]). exists h. split; [ exact I3 | congruence ].
      * apply Z.eqb_neq in E. apply wp_bnd, wp_gets. destruct (xl s2 i - resid =? 0) eqn:E0.
        -- eapply wp_mono; [ apply (err_clear_spec s2 i [] g _ _ _ _ I2 Q5) | ].
           intros [] s3 (h & I3 & [L1 L2 L3 L4]). exists h. split; [ exact I3 | congruence ].
        -- apply Z.eqb_neq in E0. specialize (Q6 eq_refl E0). subst b'.
           apply wp_bnd, wp_modi. apply wp_bnd, wp_gets. sim. rewrite up_same.
           match goal with |- wpre _ _ ?x => set (s3 := x) end.
           assert (NF2 : ff s2 i = false) by (apply (i_nf _ _ _ _ I2); rewrite in_app_iff; cbn; auto).
           assert (FC2 : fc s2 i = true) by (apply (i_fc _ _ _ _ I2); rewrite in_app_iff; cbn; auto).
           assert (I3 : inv c s3 [i] g).
           { eapply (in_hand c s2 s3 i [] g g I2); unfold s3; sim; auto; try reflexivity; [ fr1 | apply (i_life _ _ _ _ I2) ]. }
           assert (R2 : 0 <= resid <= xl s2 i) by (rewrite X3; exact R).
           assert (P3' : dat g s3 i false).
           { exists o', n', (d' + (xl s2 i - resid)). unfold s3. sim. rewrite !up_same. split; [ exact Q5 | ]. lia. }
           destruct (off s2 i + (xl s2 i - resid) =? fsize c) eqn:E5'.
           ++ apply Z.eqb_eq in E5'. eapply wp_mono; [ apply (sync_spec s3 i [] g resid I3) | ].
              ** unfold s3. sim. congruence.
              ** unfold s3. sim. rewrite X2, E4. exact FO.
              ** destruct P3' as (oo & nn & dd & U1 & U2 & U3 & U4 & U5). exists oo, nn, dd, false.
                 assert (V : xl s3 i - resid = 0) by (unfold s3; sim; rewrite up_same; lia).
                 rewrite V, Z.add_0_r. repeat (split; auto).
              ** unfold s3. sim. rewrite up_same. lia.
              ** right. unfold s3. sim. rewrite up_same. lia.
              ** intros [] s4 (h & I4 & [L1 L2 L3 L4]). exists h. split; [ exact I4 | ]. rewrite L2. unfold s3. sim. congruence.
           ++ eapply wp_mono; [ apply (requeue_spec s3 i [] g I3) | ].
              ** unfold s3. sim. rewrite X2, E4. exact FO.
              ** exact P3'.
              ** intros [] s4 (I4 & _ & [L1 L2 L3 L4]). exists g. split; [ exact I4 | ]. rewrite L2. unfold s3. sim. congruence.
  - (* queued *)
    apply wp_bnd. unfold td_io_queue. apply wp_bnd, wp_gets. rewrite FL. apply wp_bnd, wp_check; [ reflexivity | ].
    apply wp_bnd, wp_modi. apply wp_bnd, wp_gets. sim. apply wp_bnd, wp_check; [ exact FO | ].
    apply wp_bnd, wp_modi. sim. apply wp_bnd, wp_modi. apply wp_bnd, wp_modi.
    match goal with |- wpre _ _ ?x => set (s1 := x) end.
    destruct P as (o & n & d & P1 & P2 & P3 & P4 & P5).
    set (f1 := up f i (Active o n d true)).
    assert (G1 : forall k, k <> i -> f1 k = f k) by (intros; apply up_other; auto).
    assert (I1 : inv c s1 [] f1 /\ held s1 = held s).
    { unfold s1. destruct (fv s i); (split; [ | reflexivity ]);
        (eapply (to_engine c s _ i [] f f1 D I); sim; rewrite ?up_same; auto; try reflexivity; [ fr1 | | ];
         [ exists o, n, d; sim; unfold f1; rewrite up_same; auto
         | rewrite P4; eapply LSub; [ apply (i_life _ _ _ _ I) | exact P1 | lia | apply up_same | exact G1 ] ]). }
    clearbody s1. destruct I1 as (I1 & H1). apply wp_bnd, wp_gets.
    destruct (batch c <=? qd s1).
    + destruct (commit_inv c s1 [] f1 I1) as (s2 & E & I2 & _ & _ & H2 & _).
      unfold wpre. rewrite E. exists f1. split; [ exact I2 | congruence ].
    + exists f1. auto.
  - (* busy *)
    apply wp_bnd. unfold td_io_queue. apply wp_bnd, wp_gets. rewrite FL. apply wp_bnd, wp_check; [ reflexivity | ].
    apply wp_bnd, wp_modi. apply wp_bnd, wp_gets. sim. apply wp_bnd, wp_check; [ exact FO | ].
    apply wp_bnd, wp_modi. sim. apply wp_bnd, wp_modi. apply wp_modi.
    match goal with |- wpre _ _ ?x => set (s1 := x) end.
    assert (I1 : inv c s1 [i] f /\ held s1 = held s /\ fo s1 i = true /\ dat f s1 i false).
    { unfold s1. destruct (fv s i); (split; [ eapply (in_hand c s _ i [] f f I); sim; auto; try reflexivity; [ fr1 | apply (i_life _ _ _ _ I) ] | ]);
        (split; [ reflexivity | ]); (split; [ exact FO | ]);
        destruct P as (o & n & d & P1 & P2 & P3 & P4 & P5); exists o, n, d; sim; auto. }
    destruct I1 as (I1 & H1 & F1 & P1). rewrite <- H1. apply BUSY; assumption.
  - apply wp_bnd. cbn. apply wp_ret. apply BUSY; assumption.
Qed.

(** Getting an io_u. *)
Lemma get_spec : forall s f lim req prep, inv c s [] f -> (match req with Some (_, n, _) => 0 <= n | None => True end) ->
  wpre (get_io_u c lim req prep) (fun r s' => exists g, held s' = held s /\ eng s' = eng s /\
    match r with
    | None => inv c s' [] g
    | Some i => inv c s' [i] g /\ fl s' i = false /\ fo s' i = true /\ dat g s' i false /\
        match rq s with
        | j :: _ => i = j /\ off s' i = off s i /\ xb s' i = xb s i /\ xl s' i = xl s i
        | [] => match lim with Some q => cd s < q | None => True end
        end
    end) s.
Proof.
  intros s f lim req prep I RQ. unfold get_io_u. apply wp_bnd. unfold get_io_u0. apply wp_bnd, wp_gets.
  destruct (rq s) as [ | i r ] eqn:R.
  - apply wp_bnd. apply wp_bnd, wp_gets. unfold queue_full.
    destruct (fr s) as [ | i r ] eqn:FR.
    + apply wp_ret. apply wp_ret. apply wp_ret. exists f. auto.
    + assert (L : In i (fr s ++ rq s)) by (rewrite in_app_iff, FR; cbn; auto).
      pose proof (i_nl _ _ _ _ I i L) as NL. pose proof (i_ff _ _ _ _ I i L) as FFI.
      assert (IDL : f i = Idle) by (apply (i_idle _ _ _ _ I); rewrite FR; left; reflexivity).
      destruct (match lim with None => false | Some q => q <=? cd s end) eqn:LIM.
      * apply wp_ret. apply wp_ret. apply wp_ret. exists f. auto.
      * apply wp_bnd, wp_gets. rewrite FR. apply wp_bnd, wp_modi. apply wp_ret.
        apply wp_bnd, wp_gets. apply wp_bnd, wp_check; [ sim; exact FFI | ].
        apply wp_bnd, wp_modi. apply wp_bnd, wp_modi. apply wp_ret. sim.
        match goal with |- wpre _ _ ?x => set (s1 := x) end.
        assert (I1 : inv c s1 [i] f).
        { eapply (from_free c s s1 i r f D I FR); unfold s1; sim; rewrite ?up_same; auto. fr1. }
        assert (L1 : fl s1 i = false /\ fo s1 i = false /\ held s1 = held s /\ eng s1 = eng s).
        { unfold s1. sim. rewrite ?up_same. auto. }
        clearbody s1. destruct L1 as (L1 & L2 & L3 & L4). apply wp_bnd, wp_gets. rewrite L2.
        assert (PUT : wpre (put_io_u c i ;;; ret None) (fun (r0 : option nat) s' => exists g, held s' = held s /\ eng s' = eng s /\
          match r0 with
          | None => inv c s' [] g
          | Some i => inv c s' [i] g /\ fl s' i = false /\ fo s' i = true /\ dat g s' i false /\
              match lim with Some q => cd s < q | None => True end
          end) s1).
        { apply wp_bnd. eapply wp_mono; [ apply (put_spec s1 i [] f I1 L1 IDL) | ].
          intros [] s2 (I2 & _ & [K1 K2 K3 K4] & _). apply wp_ret. exists f. split; [ congruence | ]. split; [ congruence | exact I2 ]. }
        destruct req as [ [[o n] v] | ]; [ | exact PUT ].
        destruct (n =? 0) eqn:N0; [ exact PUT | ]. apply Z.eqb_neq in N0. clear PUT.
        apply wp_bnd, wp_modi. match goal with |- wpre _ _ ?x => set (s2 := x) end.
        set (g := up f i (Active o n 0 false)).
        assert (G : forall k, k <> i -> g k = f k) by (intros; apply up_other; auto).
        assert (NF : ff s1 i = false) by (apply (i_nf _ _ _ _ I1); rewrite in_app_iff; cbn; auto).
        assert (FC : fc s1 i = true) by (apply (i_fc _ _ _ _ I1); rewrite in_app_iff; cbn; auto).
        assert (I2 : inv c s2 [i] g).
        { eapply (in_hand c s1 s2 i [] f g I1); unfold s2; sim; auto; try reflexivity; [ fr1 | ].
          eapply LGet; [ apply (i_life _ _ _ _ I1) | exact IDL | lia | apply up_same | exact G ]. }
        assert (P2 : dat g s2 i false).
        { exists o, n, 0. unfold s2, g. sim. rewrite !up_same. split; [ reflexivity | ]. lia. }
        assert (X : fl s2 i = false /\ fo s2 i = true /\ held s2 = held s /\ eng s2 = eng s).
        { unfold s2. sim. rewrite up_same. auto. }
        clearbody s2. destruct X as (X1 & X2 & X3 & X4). destruct prep.
        -- apply wp_ret. exists g. split; [ exact X3 | ]. split; [ exact X4 | ]. split; [ exact I2 | ].
           split; [ exact X1 | ]. split; [ exact X2 | ]. split; [ exact P2 | ].
           destruct lim as [ q | ]; [ apply Z.leb_gt; exact LIM | exact Logic.I ].
        -- destruct P2 as (oo & nn & dd & P2 & _).
           assert (W := err_put_spec s2 i [] g _ _ _ _ I2 P2 X1). unfold wpre in W |- *. unfold bnd in *.
           destruct (modi (log (TErr i)) s2) as [ [] sa | | ]; auto.
           destruct (put_io_u c i sa) as [ [] sb | | ]; auto.
           destruct W as (h & I3 & [K1 K2 K3 K4] & _). exists h. cbn. split; [ congruence | ]. split; [ congruence | exact I3 ].
  - assert (L : In i (fr s ++ rq s)) by (rewrite in_app_iff, R; cbn; auto).
    pose proof (i_nl _ _ _ _ I i L) as NL. pose proof (i_ff _ _ _ _ I i L) as FFI.
    assert (FOI : fo s i = true) by (apply (i_fo _ _ _ _ I); rewrite in_app_iff, R; cbn; auto).
    assert (P : dat f s i false) by (apply (i_rq _ _ _ _ I); rewrite R; left; reflexivity).
    apply wp_bnd. apply wp_bnd, wp_modi. apply wp_ret.
    apply wp_bnd, wp_gets. apply wp_bnd, wp_check; [ sim; exact FFI | ].
    apply wp_bnd, wp_modi. apply wp_bnd, wp_modi. apply wp_ret. sim.
    match goal with |- wpre _ _ ?x => set (s1 := x) end.
    assert (I1 : inv c s1 [i] f).
    { eapply (from_requeue c s s1 i r f D I R); unfold s1; sim; rewrite ?up_same; auto. fr1. }
    assert (L1 : fl s1 i = false /\ fo s1 i = true /\ held s1 = held s /\ eng s1 = eng s /\ off s1 i = off s i /\ xb s1 i = xb s i /\ xl s1 i = xl s i).
    { unfold s1. sim. auto 8. }
    assert (P1 : dat f s1 i false).
    { destruct P as (o & n & d & P1 & P2 & P3 & P4 & P5). exists o, n, d. unfold s1. sim. auto. }
    clearbody s1. destruct L1 as (L1 & L2 & L3 & L4 & L5 & L6 & L7). apply wp_bnd, wp_gets. rewrite L2. destruct prep.
    + apply wp_ret. exists f. auto 12.
    + destruct P1 as (oo & nn & dd & P1 & _).
      assert (W := err_put_spec s1 i [] f _ _ _ _ I1 P1 L1). unfold wpre in W |- *. unfold bnd in *.
      destruct (modi (log (TErr i)) s1) as [ [] sa | | ]; auto.
      destruct (put_io_u c i sa) as [ [] sb | | ]; auto.
      destruct W as (h & I3 & [K1 K2 K3 K4] & _). exists h. cbn. split; [ congruence | ]. split; [ congruence | exact I3 ].
Qed.

(** All steps. *)
Definition hl (h : option nat) : list nat := match h with Some i => [i] | None => [] end.
Definition top (s : st) : Prop := exists f, inv c s (hl (held s)) f /\
  forall i, held s = Some i -> fl s i = false /\ fo s i = true /\ dat f s i false.

Lemma top_held : forall s f h, inv c s (hl h) f ->
  (forall i, h = Some i -> fl s i = false /\ fo s i = true /\ dat f s i false) -> top (s_held h s).
Proof.
  intros s f h I P. exists f. sim. split.
  - destruct I as [I1 I2 I3 I4 I5 I6 I7 I8 I9 I10 I11 I12 I13 I14 I15]. constructor; sim; auto.
  - intros i H. destruct (P i H) as (A & B & C). auto.
Qed.

Lemma commit_top : forall s, top s -> exists s', td_io_commit s = Ret tt s' /\ top s' /\ cd s' = cd s /\
  eng s' = eng s /\ held s' = held s /\ (cd s <> 0 -> qd s' = 0).
Proof.
  intros s (f & I & P). destruct (commit_inv c s _ f I) as (s' & E & I' & S' & E1 & H & C & Q & R).
  exists s'. split; [ exact E | ]. split; [ | auto ]. exists f. rewrite H. split; [ exact I' | ].
  intros i Hi. destruct (P i Hi) as (A1 & A2 & (o & n & d & A3 & A4 & A5 & A6 & A7)).
  destruct (S' i) as (B1 & B2 & B3 & B4 & B5). rewrite B4, B5. split; [ exact A1 | ]. split; [ exact A2 | ].
  exists o, n, d. rewrite B1, B2, B3. auto.
Qed.

Lemma reap_top : forall s min l, top s -> reap_ok c min s l -> exists s', queued_complete c l s = Ret tt s' /\
  top s' /\ held s' = held s /\ qd s' = qd s /\ (length (eng s') + length l = length (eng s))%nat /\
  inf s' = u32 (inf s - Z.of_nat (length l)).
Proof.
  intros s min l (f & I & P) R. destruct (wp_inv _ _ _ _ (queued_spec s _ f min l I R)) as ([] & s' & E & g & I' & H & Q & L & N & S').
  exists s'. split; [ exact E | ]. split; [ | auto ]. exists g. rewrite H. split; [ exact I' | ].
  intros i Hi. destruct (P i Hi) as (A1 & A2 & A3). destruct (S' i) as (B1 & B2 & B3).
  { rewrite Hi. left. reflexivity. }
  rewrite B1, B2. auto.
Qed.

Lemma loop_top : forall bs s, top s -> rounds_ok c s bs ->
  match quiesce_loop c bs s with Ret _ s' => top s' /\ inf s' = 0 | Bug => False | More => True end.
Proof.
  induction bs as [ | l bs IH ]; intros s T R; cbn [quiesce_loop]; unfold bnd, gets;
    destruct (inf s =? 0) eqn:E; unfold ret; auto.
  - split; [ exact T | apply Z.eqb_eq; exact E ].
  - split; [ exact T | apply Z.eqb_eq; exact E ].
  - apply Z.eqb_neq in E. cbn [rounds_ok] in R. destruct (R E) as (R1 & _ & R2).
    destruct (reap_top s 1 l T R1) as (s1 & Q & T1 & _). rewrite Q in *. apply IH; assumption.
Qed.

Lemma step_top : forall s p, top s -> op_ok c s p ->
  match step c p s with Ret _ s' => top s' | Bug => False | More => exists bs, p = OQuiesce bs end.
Proof.
  intros s p T OK. destruct p as [ lim req prep | a | | min l | bs ]; cbn [step op_ok] in *.
  - destruct T as (f & I & _). destruct OK as (H & RQ). rewrite H in I.
    destruct (wp_inv _ _ _ _ (get_spec s f lim req prep I RQ)) as (r & s' & E & g & H' & EE & P).
    unfold bnd. rewrite E. cbn. destruct r as [ i | ].
    + destruct P as (P1 & P2 & P3 & P4 & _). apply (top_held s' g (Some i) P1). intros j [= <-]. auto.
    + apply (top_held s' g None P). discriminate.
  - destruct T as (f & I & P). unfold bnd, gets. destruct (held s) as [ i | ] eqn:H.
    + destruct (P i eq_refl) as (P1 & P2 & P3).
      destruct (wp_inv _ _ _ _ (submit_spec s i f a I P1 P2 P3 ltac:(destruct a; exact OK))) as ([] & s' & E & g & I' & H').
      rewrite E. cbn. apply (top_held s' g None I'). discriminate.
    + cbn. exists f. rewrite H. split; [ exact I | discriminate ].
  - destruct (commit_top s T) as (s' & E & T' & _). rewrite E. exact T'.
  - destruct OK as (_ & R). destruct (reap_top s min l T R) as (s' & E & T' & _). rewrite E. exact T'.
  - unfold quiesce, bnd, gets. destruct (commit_top s T) as (s' & E & T' & _).
    destruct (negb (qd s =? 0) || negb (cd s =? 0)).
    + rewrite E in *. pose proof (loop_top bs s' T' OK) as L. destruct (quiesce_loop c bs s'); [ tauto | exact L | eauto ].
    + cbn [ret]. unfold ret. pose proof (loop_top bs s T OK) as L. destruct (quiesce_loop c bs s); [ tauto | exact L | eauto ].
Qed.

Lemma init_top : top (init c).
Proof.
  exists (fun _ => Idle). split; [ | discriminate ]. cbn [init held hl].
  constructor; cbn [init ff fl fc fv fo off xb xl fr rq eng held cd qd inf tr app length].
  - rewrite app_nil_r. reflexivity.
  - reflexivity.
  - intros j [].
  - intros j [].
  - reflexivity.
  - intros j [].
  - intros j [].
  - reflexivity.
  - reflexivity.
  - lia.
  - lia.
  - intros j [].
  - intros j [].
  - reflexivity.
  - constructor.
Qed.

Lemma reach_top : forall P s, reach c P s -> top s.
Proof.
  intros P s R. induction R as [ | s p s' R IH OK PP E ]; [ apply init_top | ].
  pose proof (step_top s p IH OK) as S. rewrite E in S. exact S.
Qed.

(** Quiescing ends. *)
Lemma top_facts : forall s, top s -> cd s = Z.of_nat (length (eng s) + length (hl (held s))) /\
  u32 (inf s + qd s) = Z.of_nat (length (eng s)) /\ 0 <= qd s < 2 ^ 32 /\ 0 <= inf s < 2 ^ 32 /\
  (length (fr s) + length (rq s) + length (eng s) + length (hl (held s)) = depth c)%nat.
Proof.
  intros s (f & I & _). split; [ apply (i_cd _ _ _ _ I) | ]. split; [ apply (i_q _ _ _ _ I) | ].
  split; [ apply (i_q0 _ _ _ _ I) | ]. split; [ apply (i_i0 _ _ _ _ I) | apply (inv_len _ _ _ _ I) ].
Qed.

Lemma loop_ends : forall bs s, top s -> qd s = 0 -> rounds_ok c s bs -> (length (eng s) <= length bs)%nat ->
  exists s', quiesce_loop c bs s = Ret tt s' /\ top s' /\ eng s' = [] /\ inf s' = 0 /\ qd s' = 0 /\ held s' = held s.
Proof.
  induction bs as [ | l bs IH ]; intros s T Q R L; cbn [quiesce_loop]; unfold bnd, gets;
    pose proof (top_facts s T) as (F1 & F2 & F3 & F4 & F5); rewrite Q, Z.add_0_r in F2;
    assert (FI : inf s = Z.of_nat (length (eng s))) by (rewrite <- F2; unfold u32; rewrite Z.mod_small; [ reflexivity | exact F4 ]);
    destruct (inf s =? 0) eqn:E.
  - apply Z.eqb_eq in E. exists s. split; [ reflexivity | ]. split; [ exact T | ]. split; [ | auto ].
    destruct (eng s); [ reflexivity | cbn [length] in FI; lia ].
  - apply Z.eqb_neq in E. destruct (eng s); cbn [length] in *; lia.
  - apply Z.eqb_eq in E. exists s. split; [ reflexivity | ]. split; [ exact T | ]. split; [ | auto ].
    destruct (eng s); [ reflexivity | cbn [length] in FI; lia ].
  - apply Z.eqb_neq in E. cbn [rounds_ok] in R. destruct (R E) as (R1 & R2 & R3).
    destruct (reap_top s 1 l T R1) as (s1 & Q1 & T1 & H1 & D1 & L1 & _). rewrite Q1 in *.
    assert (NL : l <> []).
    { apply R2. unfold want_min. cbn [Z.eqb]. destruct (cd s <? 1) eqn:X; [ | lia ]. apply Z.ltb_lt in X. lia. }
    destruct (IH s1 T1) as (s2 & B1 & B2 & B3 & B4 & B5 & B6); [ congruence | exact R3 | | ].
    + destruct l; [ congruence | ]. cbn [length] in *. lia.
    + exists s2. rewrite B1, B6, H1. auto 8.
Qed.

Lemma quiesce_ends : forall s bs, top s -> op_ok c s (OQuiesce bs) -> (cd s <> 0 \/ qd s = 0) ->
  (length (eng s) <= length bs)%nat ->
  exists s', step c (OQuiesce bs) s = Ret tt s' /\ eng s' = [] /\ inf s' = 0 /\ qd s' = 0 /\ held s' = held s.
Proof.
  intros s bs T OK C L. cbn [step op_ok] in *. unfold quiesce, bnd, gets.
  destruct (commit_top s T) as (s1 & E & T1 & C1 & G1 & H1 & Q1).
  pose proof (top_facts s T) as (F1 & F2 & F3 & F4 & F5).
  destruct (negb (qd s =? 0) || negb (cd s =? 0)) eqn:B.
  - rewrite E in *. assert (CD : cd s <> 0 \/ qd s1 = 0).
    { destruct C as [C|C]; [ auto | ]. destruct (Z.eq_dec (cd s) 0) as [X|X]; [ | auto ].
      rewrite C, X in B. discriminate. }
    destruct (loop_ends bs s1 T1) as (s2 & B1 & B2 & B3 & B4 & B5 & B6); [ tauto | exact OK | rewrite G1; exact L | ].
    exists s2. rewrite B1, B6, H1. auto.
  - apply orb_false_iff in B. destruct B as (B & _). apply negb_false_iff, Z.eqb_eq in B.
    destruct (loop_ends bs s T B OK L) as (s2 & B1 & B2 & B3 & B4 & B5 & B6). exists s2. unfold ret. auto.
Qed.

(** Quiescing without end: nothing is out, but the counters disagree. *)
Lemma loop_stuck : 0 <= cmax c -> forall bs s, cd s = 0 -> inf s <> 0 -> 0 <= inf s < 2 ^ 32 -> rounds_ok c s bs -> quiesce_loop c bs s = More.
Proof.
  intros CM. induction bs as [ | l bs IH ]; intros s C N B R; cbn [quiesce_loop]; unfold bnd, gets.
  - apply Z.eqb_neq in N. rewrite N. reflexivity.
  - cbn [rounds_ok] in R. destruct (R N) as ((R0 & R1 & R1') & _ & R2).
    assert (E : l = []).
    { unfold want_max, want_min in R1. rewrite C in R1. cbn in R1. destruct (0 <? cmax c) eqn:X.
      - cbn in R1. destruct l; [ reflexivity | cbn [length] in R1; lia ].
      - apply Z.ltb_ge in X. destruct (cmax c <? 0) eqn:Y; [ apply Z.ltb_lt in Y; lia | ].
        destruct l; [ reflexivity | cbn [length] in R1; lia ]. }
    subst l. apply Z.eqb_neq in N. rewrite N. cbn [queued_complete ios_completed map length fold_left] in *.
    unfold queued_complete, bnd, modi in *. cbn [ios_completed ret map length fold_left] in *. unfold ret in *.
    apply IH; sim; auto.
    + unfold u32. rewrite Z.sub_0_r, Z.mod_small by exact B. apply Z.eqb_neq. exact N.
    + unfold u32. apply Z.mod_pos_bound. reflexivity.
Qed.

Lemma quiesce_stuck : 0 <= cmax c -> forall s bs, top s -> cd s = 0 -> qd s <> 0 -> op_ok c s (OQuiesce bs) ->
  step c (OQuiesce bs) s = More.
Proof.
  intros CM s bs T C Q OK. cbn [step op_ok] in *. unfold quiesce, bnd, gets.
  pose proof (top_facts s T) as (F1 & F2 & F3 & F4 & F5).
  assert (NI : inf s <> 0).
  { intros X. rewrite X in F2. unfold u32 in F2. rewrite Z.mod_small in F2 by lia. lia. }
  assert (E : td_io_commit s = Ret tt s).
  { unfold td_io_commit, modi. rewrite C. reflexivity. }
  apply Z.eqb_neq in Q. rewrite Q in *. cbn [negb orb] in *. rewrite E in *. apply loop_stuck; auto.
Qed.

End Funs.

(** * The counters *)

Definition wl {A} (m : M A) (Q : A -> st -> Prop) (s : st) : Prop :=
  match m s with Ret a s' => Q a s' | _ => True end.
Lemma wl_ret : forall A (a : A) (Q : A -> st -> Prop) s, Q a s -> wl (ret a) Q s.
Proof. intros. exact H. Qed.
Lemma wl_bnd : forall A B (m : M A) (k : A -> M B) Q s, wl m (fun a => wl (k a) Q) s -> wl (bnd m k) Q s.
Proof. intros A B m k Q s H. unfold wl, bnd in *. destruct (m s); auto. Qed.
Lemma wl_gets : forall A (g : st -> A) (Q : A -> st -> Prop) s, Q (g s) s -> wl (gets g) Q s.
Proof. intros. exact H. Qed.
Lemma wl_modi : forall g (Q : unit -> st -> Prop) s, Q tt (g s) -> wl (modi g) Q s.
Proof. intros. exact H. Qed.
Lemma wl_check : forall (b : bool) (Q : unit -> st -> Prop) s, (b = true -> Q tt s) -> wl (check b) Q s.
Proof. intros b Q s H. unfold wl, check. destruct b; auto. Qed.
Lemma wl_mono : forall A (m : M A) (P Q : A -> st -> Prop) s,
  wl m P s -> (forall a s', P a s' -> Q a s') -> wl m Q s.
Proof. intros A m P Q s H K. unfold wl in *. destruct (m s); auto. Qed.

Ltac wll := repeat (lazymatch goal with
  | |- wl (ret _) _ _ => apply wl_ret
  | |- wl (gets _) _ _ => apply wl_gets
  | |- wl (modi _) _ _ => apply wl_modi
  | |- wl (check _) _ _ => apply wl_check; intros ?
  | |- wl (bnd _ _) _ _ => apply wl_bnd
  | |- wl (if ?b then _ else _) _ _ => let E := fresh "E" in destruct b eqn:E
  end; sim).
Ltac ifs := repeat match goal with |- context [if ?b then _ else _] => let E := fresh "E" in destruct b eqn:E; sim end.

(** The counters that [put_io_u], commits, taking and data leave alone. *)
Record cnt (s s' : st) : Prop := Cnt {
  n_iss : issues s' = issues s; n_ib : ibytes s' = ibytes s; n_blk : blocks s' = blocks s; n_by : bytes s' = bytes s;
  n_fv : fv s' = fv s; n_fl : fl s' = fl s }.
Ltac cn := constructor; sim; reflexivity.
Lemma cnt_trans : forall a b c, cnt a b -> cnt b c -> cnt a c.
Proof. intros a b c [A1 A2 A3 A4 A5 A6] [B1 B2 B3 B4 B5 B6]. constructor; congruence. Qed.

Lemma put_cnt : forall c i s, wl (put_io_u c i) (fun _ s' => cnt s s' /\ tr s' = tr s /\ held s' = held s /\ eng s' = eng s) s.
Proof. intros c i s. unfold put_io_u. wll; sim; ifs; (split; [ cn | auto ]). Qed.

Lemma requeue_cnt : forall c i s, wl (requeue_io_u c i) (fun _ s' =>
  ibytes s' = ibytes s /\ blocks s' = blocks s /\ bytes s' = bytes s /\ fv s' = fv s /\ tr s' = tr s /\
  issues s' = (if fl s i then u64 (issues s - 1) else issues s)) s.
Proof. intros c i s. unfold requeue_io_u. wll. sim. ifs; auto 8. Qed.

Lemma commit_cnt : forall s, wl td_io_commit (fun _ s' => cnt s s' /\ tr s' = tr s) s.
Proof. intros s. unfold td_io_commit. wll. ifs; (split; [ cn | auto ]). Qed.

Definition J1 (s : st) : Prop := blocks s = sum fin (tr s).
Definition J2 (s : st) : Prop := bytes s = sum moved (tr s).
Definition J3 (s : st) : Prop := (forall i, fv s i = false) /\ ibytes s = sum asked (tr s).
Definition J4 (s : st) : Prop := (forall i, fv s i = false) /\ issues s = u64 (sum sub (tr s)).

Lemma u64_add : forall a b, u64 (u64 a + b) = u64 (a + b).
Proof. intros. unfold u64. apply Zplus_mod_idemp_l. Qed.
Lemma u64_undo : forall a, u64 (u64 (u64 a + 1) - 1) = u64 a.
Proof.
  intros a. replace (u64 (u64 a + 1) - 1) with (u64 (u64 a + 1) + -1) by lia. rewrite u64_add.
  replace (u64 a + 1 + -1) with (u64 a) by lia. unfold u64. apply Zmod_mod.
Qed.

Lemma log_move_cnt : forall i err resid s, wl (log_move i err resid) (fun _ s' => cnt s s' /\ xl s' = xl s /\ off s' = off s /\ xb s' = xb s /\
  tr s' = (if err || (xl s i - resid =? 0) then tr s else TMove i (off s i) (xb s i) (xl s i - resid) :: tr s)) s.
Proof. intros i err resid s. unfold log_move. wll. destruct (err || _); (split; [ cn | auto ]). Qed.

Lemma completed_cnt : forall c i err resid s, wl (io_completed c i err resid) (fun mine s' =>
  issues s' = issues s /\ ibytes s' = ibytes s /\ fv s' = fv s /\
  ((err = true /\ mine = true /\ tr s' = TErr i :: tr s /\ blocks s' = blocks s /\ bytes s' = bytes s) \/
   (err = false /\ mine = false /\ resid <> 0 /\ tr s' = tr s /\ blocks s' = blocks s /\ bytes s' = bytes s) \/
   (err = false /\ mine = true /\ tr s' = TFin i :: tr s /\ blocks s' = blocks s + 1 /\ bytes s' = bytes s + (xl s i - resid)))) s.
Proof.
  intros c i err resid s. unfold io_completed. wll; auto 12.
  eapply wl_mono; [ apply requeue_cnt | ]. intros [] s' (C1 & C2 & C3 & C4 & T & C5). wll.
  sim. rewrite up_same in C5.
  match goal with H : _ && _ = true |- _ => apply andb_true_iff in H; destruct H as (_ & H); apply negb_true_iff, Z.eqb_neq in H end.
  rewrite C1, C2, C3, C4, C5, T. auto 12.
Qed.

Lemma one_cnt : forall c i err resid s, wl (one c (i, err, resid)) (fun _ s' =>
  issues s' = issues s /\ ibytes s' = ibytes s /\ fv s' = fv s /\
  exists t, t = (if err || (xl s i - resid =? 0) then tr s else TMove i (off s i) (xb s i) (xl s i - resid) :: tr s) /\
  ((err = true /\ tr s' = TErr i :: t /\ blocks s' = blocks s /\ bytes s' = bytes s) \/
   (err = false /\ resid <> 0 /\ tr s' = t /\ blocks s' = blocks s /\ bytes s' = bytes s) \/
   (err = false /\ tr s' = TFin i :: t /\ blocks s' = blocks s + 1 /\ bytes s' = bytes s + (xl s i - resid)))) s.
Proof.
  intros c i err resid s. unfold one. apply wl_bnd. eapply wl_mono; [ apply log_move_cnt | ].
  intros [] s1 ([A1 A2 A3 A4 A5 A6] & X & _ & _ & T). apply wl_bnd. eapply wl_mono; [ apply completed_cnt | ].
  intros mine s2 (B1 & B2 & B3 & B4). rewrite A1, A2, A3, A4, A5, X, T in *. clear T.
  assert (PUT : forall (Q : st -> Prop), (forall s', cnt s2 s' -> tr s' = tr s2 -> Q s') -> wl (if mine then put_io_u c i else ret tt) (fun _ s' => Q s') s2).
  { intros Q HQ. destruct mine.
    - eapply wl_mono; [ apply put_cnt | ]. intros [] s' (C & T & _). auto.
    - apply wl_ret. apply HQ; [ constructor; reflexivity | reflexivity ]. }
  apply PUT. intros s' [C1 C2 C3 C4 C5 C6] T. rewrite C1, C2, C3, C4, C5, T.
  split; [ exact B1 | ]. split; [ exact B2 | ]. split; [ exact B3 | ]. eexists. split; [ reflexivity | ].
  destruct B4 as [ B | [ B | B ] ]; [ left | right; left | right; right ]; tauto.
Qed.

(** One event. *)
Lemma one_J1 : forall c e s, J1 s -> wl (one c e) (fun _ s' => J1 s') s.
Proof.
  intros c [[i err] resid] s J. unfold J1 in *. eapply wl_mono; [ apply one_cnt | ].
  intros [] s' (_ & _ & _ & t & -> & [ (-> & -> & -> & _) | [ (-> & _ & -> & -> & _) | (-> & -> & -> & _) ] ]);
    cbn [orb]; try destruct (xl s i - resid =? 0); cbn [sum fin]; lia.
Qed.

Lemma one_J2 : forall c e s, whole e -> J2 s -> wl (one c e) (fun _ s' => J2 s') s.
Proof.
  intros c [[i err] resid] s W J. unfold J2 in *. unfold whole in W. cbn [fst snd] in W. eapply wl_mono; [ apply one_cnt | ].
  intros [] s' (_ & _ & _ & t & -> & [ (-> & -> & _ & ->) | [ (-> & N & _) | (-> & -> & _ & ->) ] ]).
  - cbn [orb sum moved]. lia.
  - specialize (W eq_refl). congruence.
  - cbn [orb]. destruct (xl s i - resid =? 0) eqn:E; cbn [sum moved]; [ apply Z.eqb_eq in E; lia | lia ].
Qed.

Lemma one_J3 : forall c e s, J3 s -> wl (one c e) (fun _ s' => J3 s') s.
Proof.
  intros c [[i err] resid] s (V & J). unfold J3 in *. eapply wl_mono; [ apply one_cnt | ].
  intros [] s' (_ & -> & -> & t & -> & [ (-> & -> & _) | [ (-> & _ & -> & _) | (-> & -> & _) ] ]);
    (split; [ exact V | ]); cbn [orb]; try destruct (xl s i - resid =? 0); cbn [sum asked]; lia.
Qed.

Lemma one_J4 : forall c e s, J4 s -> wl (one c e) (fun _ s' => J4 s') s.
Proof.
  intros c [[i err] resid] s (V & J). unfold J4 in *. eapply wl_mono; [ apply one_cnt | ].
  intros [] s' (-> & _ & -> & t & -> & [ (-> & -> & _) | [ (-> & _ & -> & _) | (-> & -> & _) ] ]);
    (split; [ exact V | ]); cbn [orb]; try destruct (xl s i - resid =? 0); cbn [sum sub]; rewrite ?Z.add_0_l; exact J.
Qed.

Lemma ios_J : forall (J : st -> Prop) (K : event -> Prop) c,
  (forall e s, K e -> J s -> wl (one c e) (fun _ s' => J s') s) ->
  forall l s, Forall K l -> J s -> wl (ios_completed c l) (fun _ s' => J s') s.
Proof.
  intros J K c H. induction l as [ | e l IH ]; intros s F S.
  - cbn [ios_completed]. apply wl_ret. exact S.
  - inversion F; subst. unfold wl. rewrite ios_unfold. fold (wl (bnd (one c e) (fun _ => ios_completed c l)) (fun _ s' => J s') s).
    apply wl_bnd. eapply wl_mono; [ apply H; assumption | ]. intros [] s' S'. apply IH; assumption.
Qed.

Section Counters.
Variable c : cfg.
Variable J : st -> Prop.
Variable K : event -> Prop.
Variable P : op -> Prop.
Hypothesis JC : forall s s', cnt s s' -> tr s' = tr s -> J s -> J s'.
Hypothesis JE : forall e s, K e -> J s -> wl (one c e) (fun _ s' => J s') s.
Hypothesis PR : forall min l, P (OReap min l) -> Forall K l.
Hypothesis PQ : forall bs, P (OQuiesce bs) -> Forall (Forall K) bs.
Hypothesis PG : forall lim req prep s, P (OGet lim req prep) -> J s -> wl (get_io_u c lim req prep) (fun _ s' => J s') s.
Hypothesis PS : forall i a s, P (OSubmit a) -> fl s i = false -> J s -> wl (submit c i a) (fun _ s' => J s') s.

Lemma queued_J : forall l s, Forall K l -> J s -> wl (queued_complete c l) (fun _ s' => J s') s.
Proof.
  intros l s F S. unfold queued_complete. apply wl_bnd, wl_modi. apply (ios_J J K c JE); [ exact F | ].
  eapply JC; [ | | exact S ]; [ cn | reflexivity ].
Qed.

Lemma loop_J : forall bs s, Forall (Forall K) bs -> J s -> wl (quiesce_loop c bs) (fun _ s' => J s') s.
Proof.
  induction bs as [ | l bs IH ]; intros s F S; cbn [quiesce_loop]; apply wl_bnd, wl_gets; destruct (inf s =? 0).
  - apply wl_ret. exact S.
  - exact Logic.I.
  - apply wl_ret. exact S.
  - inversion F; subst. apply wl_bnd. eapply wl_mono; [ apply queued_J; assumption | ]. intros [] s' S'. apply IH; assumption.
Qed.

Lemma commit_J : forall s, J s -> wl td_io_commit (fun _ s' => J s') s.
Proof. intros s S. eapply wl_mono; [ apply commit_cnt | ]. intros [] s' (C & T). exact (JC _ _ C T S). Qed.

Lemma step_J : forall p s, top c s -> P p -> J s -> wl (step c p) (fun _ s' => J s') s.
Proof.
  intros p s (f & I & H) PP S. destruct p as [ lim req prep | a | | min l | bs ]; cbn [step].
  - apply wl_bnd. eapply wl_mono; [ apply PG; assumption | ]. intros r s' S'. apply wl_modi. eapply JC; [ | | exact S' ]; [ cn | reflexivity ].
  - apply wl_bnd, wl_gets. destruct (held s) as [ i | ]; [ | apply wl_ret; exact S ].
    apply wl_bnd. eapply wl_mono; [ apply PS; [ exact PP | apply (H i eq_refl) | exact S ] | ].
    intros r s' S'. apply wl_modi. eapply JC; [ | | exact S' ]; [ cn | reflexivity ].
  - apply commit_J. exact S.
  - apply queued_J; [ apply (PR _ _ PP) | exact S ].
  - unfold quiesce. apply wl_bnd, wl_gets. apply wl_bnd. destruct (_ || _).
    + eapply wl_mono; [ apply commit_J; exact S | ]. intros [] s' S'. apply loop_J; [ apply PQ; exact PP | exact S' ].
    + apply wl_ret. apply loop_J; [ apply PQ; exact PP | exact S ].
Qed.

Lemma reach_J : Z.of_nat (depth c) < 2 ^ 32 -> J (init c) -> forall s, reach c P s -> J s.
Proof.
  intros D J0 s R. induction R as [ | s p s' R IH OK PP E ]; [ exact J0 | ].
  pose proof (step_J p s (reach_top c D P s R) PP IH) as W. unfold wl in W. rewrite E in W. exact W.
Qed.
End Counters.

(** Getting an io_u changes no counter. *)
Lemma get_cnt : forall c lim req prep s, wl (get_io_u c lim req prep) (fun _ s' =>
  issues s' = issues s /\ ibytes s' = ibytes s /\ blocks s' = blocks s /\ bytes s' = bytes s /\
  sum fin (tr s') = sum fin (tr s) /\ sum moved (tr s') = sum moved (tr s) /\
  sum asked (tr s') = sum asked (tr s) /\ sum sub (tr s') = sum sub (tr s) /\
  (match req with Some (_, _, v) => v = false | None => True end -> (forall i, fv s i = false) -> forall i, fv s' i = false)) s.
Proof.
  intros c lim req prep s. unfold get_io_u. apply wl_bnd.
  assert (W : wl (get_io_u0 lim) (fun _ s' => issues s' = issues s /\ ibytes s' = ibytes s /\ blocks s' = blocks s /\
    bytes s' = bytes s /\ tr s' = tr s /\ ((forall i, fv s i = false) -> forall i, fv s' i = false)) s).
  { assert (UP : forall i, (forall j, fv s j = false) -> forall j, up (fv s) i false j = false).
    { intros i V j. unfold up. destruct (Nat.eqb j i); auto. }
    unfold get_io_u0. apply wl_bnd, wl_gets. destruct (rq s) as [ | i r ].
    - apply wl_bnd. apply wl_bnd, wl_gets. destruct (queue_full lim s).
      + wll. auto 8.
      + apply wl_bnd, wl_gets. destruct (fr s) as [ | i r ]; [ exact Logic.I | ]. wll. auto 8.
    - wll. auto 8. }
  eapply wl_mono; [ exact W | ]. clear W. intros [ i | ] s1 (W1 & W2 & W3 & W4 & W5 & W6); [ | wll; rewrite W5; auto 12 ].
  assert (UP : forall v, v = false -> (forall j, fv s j = false) -> forall j, up (fv s1) i v j = false).
  { intros v -> V j. unfold up. destruct (Nat.eqb j i); auto. }
  apply wl_bnd, wl_gets. destruct (fo s1 i).
  - wll.
    + rewrite W5. auto 12.
    + eapply wl_mono; [ apply put_cnt | ]. intros [] s2 ([C1 C2 C3 C4 C5 C6] & T & _). wll. rewrite C1, C2, C3, C4, C5, T. sim.
      cbn [sum fin moved asked sub]. rewrite W5. auto 12.
  - destruct req as [ [[o n] v] | ].
    + wll.
      * eapply wl_mono; [ apply put_cnt | ]. intros [] s2 ([C1 C2 C3 C4 C5 C6] & T & _). wll. rewrite C1, C2, C3, C4, C5, T, W5. auto 12.
      * cbn [sum fin moved asked sub]. rewrite W5. auto 12.
      * eapply wl_mono; [ apply put_cnt | ]. intros [] s2 ([C1 C2 C3 C4 C5 C6] & T & _). wll. rewrite C1, C2, C3, C4, C5, T. sim.
        cbn [sum fin moved asked sub]. rewrite W5. auto 12.
    + wll. eapply wl_mono; [ apply put_cnt | ]. intros [] s2 ([C1 C2 C3 C4 C5 C6] & T & _). wll. rewrite C1, C2, C3, C4, C5, T, W5. auto 12.
Qed.

(** Submission and the counters. *)
Lemma queue_cnt : forall c i a s, wl (td_io_queue c i a) (fun _ s' =>
  blocks s' = blocks s /\ bytes s' = bytes s /\ fv s' = fv s /\ xl s' = xl s /\
  match a with
  | ADone err resid =>
      issues s' = (if fv s i then issues s else u64 (issues s + 1)) /\ ibytes s' = (if fv s i then ibytes s else ibytes s + xl s i) /\
      tr s' = (if err || (xl s i - resid =? 0) then TSub i (xl s i) :: tr s
               else TMove i (off s i) (xb s i) (xl s i - resid) :: TSub i (xl s i) :: tr s)
  | AQueued =>
      issues s' = (if fv s i then issues s else u64 (issues s + 1)) /\ ibytes s' = (if fv s i then ibytes s else ibytes s + xl s i) /\
      tr s' = TSub i (xl s i) :: tr s
  | _ =>
      issues s' = u64 ((if fv s i then issues s else u64 (issues s + 1)) - 1) /\
      ibytes s' = (if fv s i then ibytes s else ibytes s + xl s i) - xl s i /\
      tr s' = tr s /\ fl s' i = false
  end) s.
Proof.
  intros c i a s. unfold td_io_queue. apply wl_bnd, wl_gets. apply wl_bnd, wl_check. intros _.
  apply wl_bnd, wl_modi. apply wl_bnd, wl_gets. sim. apply wl_bnd, wl_check. intros _. apply wl_bnd, wl_modi.
  match goal with |- wl _ _ ?x => set (s1 := x) end.
  assert (S1 : blocks s1 = blocks s /\ bytes s1 = bytes s /\ fv s1 = fv s /\ xl s1 = xl s /\ off s1 = off s /\ xb s1 = xb s /\ tr s1 = tr s /\
    issues s1 = (if fv s i then issues s else u64 (issues s + 1)) /\ ibytes s1 = (if fv s i then ibytes s else ibytes s + xl s i)).
  { unfold s1. sim. destruct (fv s i); sim; auto 12. }
  clearbody s1. destruct S1 as (A1 & A2 & A3 & A4 & A5 & A6 & A7 & A8 & A9).
  destruct a as [ err resid | | | ].
  - apply wl_bnd, wl_modi. eapply wl_mono; [ apply log_move_cnt | ]. sim.
    intros [] s2 ([C1 C2 C3 C4 C5 C6] & X1 & X2 & X3 & T). sim. rewrite C1, C2, C3, C4, C5, X1, T, A1, A2, A3, A4, A5, A6, A7, A8, A9.
    auto 12.
  - apply wl_bnd, wl_modi. apply wl_bnd, wl_modi. sim. apply wl_bnd, wl_gets.
    match goal with |- context [if ?b then td_io_commit else _] => destruct b end.
    + unfold td_io_commit. apply wl_modi. sim. destruct (_ || _); sim; rewrite A1, A2, A3, A4, A7, A8, A9; auto 12.
    + apply wl_ret. sim. rewrite A1, A2, A3, A4, A7, A8, A9. auto 12.
  - apply wl_bnd, wl_modi. apply wl_modi. sim. rewrite up_same, A1, A2, A3, A4, A7, A8, A9. auto 12.
  - apply wl_bnd, wl_modi. apply wl_modi. sim. rewrite up_same, A1, A2, A3, A4, A7, A8, A9. auto 12.
Qed.

Lemma sync_cnt : forall c i resid s, wl (sync_complete c i resid) (fun _ s' =>
  issues s' = issues s /\ ibytes s' = ibytes s /\ fv s' = fv s /\
  ((resid <> 0 /\ tr s' = tr s /\ blocks s' = blocks s /\ bytes s' = bytes s) \/
   (tr s' = TFin i :: tr s /\ blocks s' = blocks s + 1 /\ bytes s' = bytes s + (xl s i - resid)))) s.
Proof.
  intros c i resid s. unfold sync_complete. apply wl_bnd. eapply wl_mono; [ apply completed_cnt | ].
  intros mine s2 (B1 & B2 & B3 & [ (X & _) | [ (_ & -> & B4 & B5 & B6 & B7) | (_ & -> & B5 & B6 & B7) ] ]); [ discriminate | | ].
  - apply wl_ret. auto 8.
  - eapply wl_mono; [ apply put_cnt | ]. intros [] s' ([C1 C2 C3 C4 C5 C6] & T & _). rewrite C1, C2, C3, C4, C5, T. auto 8.
Qed.

(** What [io_queue_event] does to the counters after a completion. *)
Lemma event_cnt : forall c i err resid s, wl (io_queue_event c i (ADone err resid)) (fun _ s' =>
  ibytes s' = ibytes s /\ fv s' = fv s /\
  ((tr s' = TErr i :: tr s /\ blocks s' = blocks s /\ bytes s' = bytes s /\ issues s' = issues s /\ (err = true \/ resid <> 0)) \/
   (resid <> 0 /\ err = false /\ tr s' = tr s /\ blocks s' = blocks s /\ bytes s' = bytes s) \/
   (err = false /\ tr s' = TFin i :: tr s /\ blocks s' = blocks s + 1 /\ (resid = 0 -> bytes s' = bytes s + xl s i) /\ issues s' = issues s))) s.
Proof.
  intros c i err resid s. cbn [io_queue_event].
  assert (CL : wl (modi (log (TErr i)) ;;; clear_io_u c i) (fun _ s' => ibytes s' = ibytes s /\ fv s' = fv s /\
    tr s' = TErr i :: tr s /\ blocks s' = blocks s /\ bytes s' = bytes s /\ issues s' = issues s) s).
  { apply wl_bnd, wl_modi. unfold clear_io_u. apply wl_bnd, wl_modi. eapply wl_mono; [ apply put_cnt | ].
    intros [] s' ([C1 C2 C3 C4 C5 C6] & T & _). rewrite C1, C2, C3, C4, C5, T. sim. auto 8. }
  destruct err.
  - eapply wl_mono; [ exact CL | ]. intros [] s' (A1 & A2 & A3 & A4 & A5 & A6). auto 12.
  - destruct (resid =? 0) eqn:E; cbn [negb].
    + apply Z.eqb_eq in E. subst resid. eapply wl_mono; [ apply sync_cnt | ].
      intros [] s' (A1 & A2 & A3 & [ (A4 & _) | (A4 & A5 & A6) ]); [ congruence | ].
      split; [ exact A2 | ]. split; [ exact A3 | ]. right. right. rewrite Z.sub_0_r in A6. auto 8.
    + apply Z.eqb_neq in E. apply wl_bnd, wl_gets. destruct (xl s i - resid =? 0).
      * eapply wl_mono; [ exact CL | ]. intros [] s' (A1 & A2 & A3 & A4 & A5 & A6). auto 12.
      * apply wl_bnd, wl_modi. apply wl_bnd, wl_gets. sim. destruct (_ =? _).
        -- eapply wl_mono; [ apply sync_cnt | ].
           intros [] s' (A1 & A2 & A3 & [ (A4 & A5 & A6 & A7) | (A4 & A5 & A6) ]); sim; (split; [ exact A2 | ]); (split; [ exact A3 | ]).
           ++ right. left. auto 8.
           ++ right. right. split; [ reflexivity | ]. split; [ exact A4 | ]. split; [ exact A5 | ]. split; [ intros; congruence | exact A1 ].
        -- eapply wl_mono; [ apply requeue_cnt | ]. intros [] s' (A1 & A2 & A3 & A4 & A5 & A6). sim.
           split; [ exact A1 | ]. split; [ exact A4 | ]. right. left. auto 8.
Qed.

Lemma busy_cnt : forall c i s, wl (requeue_io_u c i ;;; td_io_commit) (fun _ s' =>
  ibytes s' = ibytes s /\ blocks s' = blocks s /\ bytes s' = bytes s /\ fv s' = fv s /\ tr s' = tr s /\
  issues s' = (if fl s i then u64 (issues s - 1) else issues s)) s.
Proof.
  intros c i s. apply wl_bnd. eapply wl_mono; [ apply requeue_cnt | ].
  intros [] s1 (A1 & A2 & A3 & A4 & A5 & A6). eapply wl_mono; [ apply commit_cnt | ].
  intros [] s2 ([C1 C2 C3 C4 C5 C6] & T). rewrite C1, C2, C3, C4, C5, T. auto 8.
Qed.

Lemma submit_J1 : forall c i a s, J1 s -> wl (submit c i a) (fun _ s' => J1 s') s.
Proof.
  intros c i a s J. unfold J1 in *. unfold submit. apply wl_bnd. destruct a as [ err resid | | | ].
  - eapply wl_mono; [ apply queue_cnt | ]. intros [] s1 (A1 & _ & _ & _ & _ & _ & T).
    eapply wl_mono; [ apply event_cnt | ]. intros [] s2 (_ & _ & H). rewrite T, A1 in H.
    assert (X : forall b : bool, sum fin (if b then TSub i (xl s i) :: tr s else TMove i (off s i) (xb s i) (xl s i - resid) :: TSub i (xl s i) :: tr s) = blocks s).
    { intros []; cbn [sum fin]; lia. }
    destruct H as [ (-> & -> & _) | [ (_ & _ & -> & -> & _) | (_ & -> & -> & _) ] ]; cbn [sum fin]; rewrite X; lia.
  - eapply wl_mono; [ apply queue_cnt | ]. intros [] s1 (A1 & _ & _ & _ & _ & _ & T). cbn [io_queue_event]. apply wl_ret.
    rewrite A1, T. cbn [sum fin]. lia.
  - eapply wl_mono; [ apply queue_cnt | ]. intros [] s1 (A1 & _ & _ & _ & _ & _ & T & _). cbn [io_queue_event].
    eapply wl_mono; [ apply busy_cnt | ]. intros [] s2 (_ & -> & _ & _ & -> & _). congruence.
  - apply wl_ret. cbn [io_queue_event]. eapply wl_mono; [ apply busy_cnt | ]. intros [] s2 (_ & -> & _ & _ & -> & _). congruence.
Qed.

Lemma submit_J2 : forall c i a s, no_sync_short (OSubmit a) -> J2 s -> wl (submit c i a) (fun _ s' => J2 s') s.
Proof.
  intros c i a s N J. unfold J2 in *. unfold submit. apply wl_bnd. destruct a as [ err resid | | | ].
  - cbn in N. eapply wl_mono; [ apply queue_cnt | ]. intros [] s1 (_ & A1 & _ & X & _ & _ & T).
    eapply wl_mono; [ apply event_cnt | ]. intros [] s2 (_ & _ & H). rewrite T, A1, X in H.
    destruct H as [ (-> & _ & -> & _ & [ -> | R ]) | [ (R & -> & _) | (-> & -> & _ & H & _) ] ].
    + cbn [orb sum moved]. lia.
    + destruct err; [ cbn [orb sum moved]; lia | specialize (N eq_refl); congruence ].
    + specialize (N eq_refl). congruence.
    + specialize (N eq_refl). subst resid. rewrite (H eq_refl). cbn [orb]. rewrite Z.sub_0_r.
      destruct (xl s i =? 0) eqn:E; cbn [sum moved]; [ apply Z.eqb_eq in E; lia | lia ].
  - eapply wl_mono; [ apply queue_cnt | ]. intros [] s1 (_ & A1 & _ & _ & _ & _ & T). cbn [io_queue_event]. apply wl_ret.
    rewrite A1, T. cbn [sum moved]. lia.
  - eapply wl_mono; [ apply queue_cnt | ]. intros [] s1 (_ & A1 & _ & _ & _ & _ & T & _). cbn [io_queue_event].
    eapply wl_mono; [ apply busy_cnt | ]. intros [] s2 (_ & _ & -> & _ & -> & _). congruence.
  - apply wl_ret. cbn [io_queue_event]. eapply wl_mono; [ apply busy_cnt | ]. intros [] s2 (_ & _ & -> & _ & -> & _). congruence.
Qed.

Lemma submit_J3 : forall c i a s, J3 s -> wl (submit c i a) (fun _ s' => J3 s') s.
Proof.
  intros c i a s (V & J). unfold J3 in *. unfold submit. apply wl_bnd. destruct a as [ err resid | | | ].
  - eapply wl_mono; [ apply queue_cnt | ]. intros [] s1 (_ & _ & F & _ & _ & A1 & T). rewrite V in A1.
    eapply wl_mono; [ apply event_cnt | ]. intros [] s2 (B1 & B2 & H). rewrite B1, B2, F, A1. split; [ exact V | ]. rewrite T in H.
    assert (X : forall b : bool, sum asked (if b then TSub i (xl s i) :: tr s else TMove i (off s i) (xb s i) (xl s i - resid) :: TSub i (xl s i) :: tr s) = ibytes s + xl s i).
    { intros []; cbn [sum asked]; lia. }
    destruct H as [ (-> & _) | [ (_ & _ & -> & _) | (_ & -> & _) ] ]; cbn [sum asked]; rewrite X; lia.
  - eapply wl_mono; [ apply queue_cnt | ]. intros [] s1 (_ & _ & F & _ & _ & A1 & T). rewrite V in A1. cbn [io_queue_event]. apply wl_ret.
    rewrite A1, T, F. split; [ exact V | ]. cbn [sum asked]. lia.
  - eapply wl_mono; [ apply queue_cnt | ]. intros [] s1 (_ & _ & F & _ & _ & A1 & T & _). rewrite V in A1. cbn [io_queue_event].
    eapply wl_mono; [ apply busy_cnt | ]. intros [] s2 (-> & _ & _ & -> & -> & _). rewrite F, A1, T. split; [ exact V | lia ].
  - apply wl_ret. cbn [io_queue_event]. eapply wl_mono; [ apply busy_cnt | ]. intros [] s2 (-> & _ & _ & -> & -> & _). auto.
Qed.

Lemma submit_J4 : forall c i a s, no_sync_short (OSubmit a) -> fl s i = false -> J4 s -> wl (submit c i a) (fun _ s' => J4 s') s.
Proof.
  intros c i a s N FL (V & J). unfold J4 in *. unfold submit. apply wl_bnd. destruct a as [ err resid | | | ].
  - cbn in N. eapply wl_mono; [ apply queue_cnt | ]. intros [] s1 (_ & _ & F & _ & A1 & _ & T). rewrite V in A1.
    eapply wl_mono; [ apply event_cnt | ]. intros [] s2 (_ & B2 & H). rewrite B2, F. split; [ exact V | ]. rewrite T, A1 in H.
    assert (X : forall b : bool, sum sub (if b then TSub i (xl s i) :: tr s else TMove i (off s i) (xb s i) (xl s i - resid) :: TSub i (xl s i) :: tr s) = 1 + sum sub (tr s)).
    { intros []; cbn [sum sub]; lia. }
    assert (Y : u64 (issues s + 1) = u64 (1 + sum sub (tr s))) by (rewrite J, u64_add; f_equal; lia).
    destruct H as [ (-> & _ & _ & -> & _) | [ (R & -> & _) | (_ & -> & _ & _ & ->) ] ]; cbn [sum sub].
    + rewrite X. exact Y.
    + specialize (N eq_refl). congruence.
    + rewrite X. exact Y.
  - eapply wl_mono; [ apply queue_cnt | ]. intros [] s1 (_ & _ & F & _ & A1 & _ & T). rewrite V in A1. cbn [io_queue_event]. apply wl_ret.
    rewrite A1, T, F. split; [ exact V | ]. cbn [sum sub]. rewrite J, u64_add. f_equal. lia.
  - eapply wl_mono; [ apply queue_cnt | ]. intros [] s1 (_ & _ & F & _ & A1 & _ & T & FL'). rewrite V in A1. cbn [io_queue_event].
    eapply wl_mono; [ apply busy_cnt | ]. intros [] s2 (_ & _ & _ & -> & -> & ->). rewrite F, FL', A1, T. split; [ exact V | ].
    rewrite J. apply u64_undo.
  - apply wl_ret. cbn [io_queue_event]. eapply wl_mono; [ apply busy_cnt | ]. intros [] s2 (_ & _ & _ & -> & -> & ->). rewrite FL. auto.
Qed.

Lemma Forall_any : forall A (l : list A), Forall (fun _ => True) l.
Proof. intros A l. apply Forall_forall. auto. Qed.

Lemma reach_J1 : forall c P s, Z.of_nat (depth c) < 2 ^ 32 -> reach c P s -> blocks s = sum fin (tr s).
Proof.
  intros c P s D R. apply (reach_J c J1 (fun _ => True) P); auto.
  - unfold J1. intros a b [C1 C2 C3 C4 C5 C6] T. congruence.
  - intros e x _. apply one_J1.
  - intros. apply Forall_any.
  - intros. apply Forall_forall. intros. apply Forall_any.
  - intros lim req prep x _ J. unfold J1 in *. eapply wl_mono; [ apply get_cnt | ].
    intros r s' (C1 & C2 & C3 & C4 & C5 & _). congruence.
  - intros i a x _ _. apply submit_J1.
  - reflexivity.
Qed.

Lemma reach_J2 : forall c s, Z.of_nat (depth c) < 2 ^ 32 -> reach c no_short s -> bytes s = sum moved (tr s).
Proof.
  intros c s D R. apply (reach_J c J2 whole no_short); auto.
  - unfold J2. intros a b [C1 C2 C3 C4 C5 C6] T. congruence.
  - intros e x. apply one_J2.
  - intros min l (_ & H). exact H.
  - intros bs (_ & H). exact H.
  - intros lim req prep x _ J. unfold J2 in *. eapply wl_mono; [ apply get_cnt | ].
    intros r s' (C1 & C2 & C3 & C4 & C5 & C6 & _). congruence.
  - intros i a x (H & _) _. apply submit_J2. exact H.
  - reflexivity.
Qed.

Lemma reach_J3 : forall c s, Z.of_nat (depth c) < 2 ^ 32 -> reach c no_verify s -> ibytes s = sum asked (tr s).
Proof.
  intros c s D R. apply (reach_J c J3 (fun _ => True) no_verify); auto.
  - unfold J3. intros a b [C1 C2 C3 C4 C5 C6] T. rewrite C2, C5, T. auto.
  - intros e x _. apply one_J3.
  - intros. apply Forall_any.
  - intros. apply Forall_forall. intros. apply Forall_any.
  - intros lim req prep x N (V & J). unfold J3 in *. eapply wl_mono; [ apply get_cnt | ].
    intros r s' (C1 & C2 & C3 & C4 & C5 & C6 & C7 & C8 & C9). split; [ | congruence ]. apply C9; [ exact N | exact V ].
  - intros i a x _ _. apply submit_J3.
  - split; reflexivity.
Qed.

Lemma reach_J4 : forall c s, Z.of_nat (depth c) < 2 ^ 32 -> reach c (fun p => no_verify p /\ no_sync_short p) s -> issues s = u64 (sum sub (tr s)).
Proof.
  intros c s D R. apply (reach_J c J4 (fun _ => True) (fun p => no_verify p /\ no_sync_short p)); auto.
  - unfold J4. intros a b [C1 C2 C3 C4 C5 C6] T. rewrite C1, C5, T. auto.
  - intros e x _. apply one_J4.
  - intros. apply Forall_any.
  - intros. apply Forall_forall. intros. apply Forall_any.
  - intros lim req prep x (N & _) (V & J). unfold J4 in *. eapply wl_mono; [ apply get_cnt | ].
    intros r s' (C1 & C2 & C3 & C4 & C5 & C6 & C7 & C8 & C9). split; [ | congruence ]. apply C9; [ exact N | exact V ].
  - intros i a x (_ & H) F. apply submit_J4; assumption.
  - split; reflexivity.
Qed.
