(** C39: sequential zones are written only at their write pointer, and the limit
    on zones being written holds. *)
From Coq Require Import ZArith List Lia Bool Arith.
From Verif Require Import CBase ZbdModel ZbdSpec ZbdProofs.
Import ListNotations.
Open Scope Z_scope.

(** ** The device of the specification is deterministic *)

Lemma zone_unique c i j off : cfg_ok c ->
  geo_start c i <= off < geo_start c (S i) -> geo_start c j <= off < geo_start c (S j) -> i = j.
Proof.
  intros OK A B. pose proof (ok_zsz _ OK). unfold geo_start in *.
  destruct (Nat.lt_trichotomy i j) as [H0|[H0|H0]]; auto; exfalso; nia.
Qed.

Lemma dstep_det c x a b : cfg_ok c -> (forall i, a i = b i) -> forall a' b',
  dstep c a x a' -> dstep c b x b' -> forall i, a' i = b' i.
Proof.
  intros OK E a' b' A B k.
  assert (PUT : forall i v, dput a a' i v -> dput b b' i v -> a' k = b' k).
  { intros i v [P1 P2] [Q1 Q2]. destruct (Nat.eq_dec k i) as [->|N]; [congruence|].
    rewrite P2, Q2 by auto. auto. }
  inversion A; subst; inversion B; subst; eauto.
  - match goal with X : geo_start c ?i <= _ < _, Y : geo_start c ?j <= _ < _ |- _ =>
      pose proof (zone_unique c i j _ OK X Y); subst j end. eauto.
  - match goal with X : forall i, _ -> _ -> _ \/ _, I : (?i < nr c)%nat |- _ =>
      destruct (X i) as [Y|Y]; auto; exfalso; lia end.
  - match goal with X : forall i, _ -> _ -> _ \/ _, I : (?i < nr c)%nat |- _ =>
      destruct (X i) as [Y|Y]; auto; exfalso; lia end.
  - congruence.
Qed.

Lemma dexec_det c l : cfg_ok c -> forall d a b, dexec c d l a -> dexec c d l b -> forall i, a i = b i.
Proof.
  intros OK. induction l as [|x l IH]; intros d a b A B.
  - inversion A; inversion B; subst; auto.
  - inversion A; inversion B; subst. eapply dstep_det; [exact OK| |eauto|eauto]. eauto.
Qed.

Lemma dexec_app c l2 : forall d l1 d2, dexec c d (l2 ++ l1) d2 -> exists d1, dexec c d l1 d1.
Proof.
  induction l2 as [|x l2 IH]; simpl; intros d l1 d2 H; eauto.
  inversion H; subst. eauto.
Qed.

(** ** The property *)

(** Whatever was asked for and however the writes were delivered, the device has
    accepted every command. *)
Theorem C39_accepted : forall c s0 d s,
  cfg_ok c -> start_ok c s0 d -> reach c s0 s -> exists d', dexec c d (tr s) d'.
Proof.
  intros c s0 d s OK SO R. destruct (reach_J c s0 d s OK SO R) as (d' & I).
  exists d'. apply (v_exec _ _ _ _ _ _ I).
Qed.

(** Every write into a sequential zone starts at the write pointer that the
    commands before it have left and ends within the capacity. *)
Theorem C39_at_write_pointer : forall c s0 d s l2 l1 off len i d1,
  cfg_ok c -> start_ok c s0 d -> reach c s0 s -> tr s = l2 ++ CWrite off len :: l1 ->
  (i < nr c)%nat -> gseq c i = true -> geo_start c i <= off < geo_start c (S i) -> 0 < len ->
  dexec c d l1 d1 ->
  off = d_wp (d1 i) /\ off + len <= geo_start c i + gcap c i.
Proof.
  intros c s0 d s l2 l1 off len i d1 OK SO R T N G B P E1.
  destruct (C39_accepted c s0 d s OK SO R) as (d' & E). rewrite T in E.
  destruct (dexec_app _ _ _ _ _ E) as (d2 & E2). inversion E2 as [|? dm ? ? ? X1 X2]; subst.
  pose proof (dexec_det c l1 OK _ _ _ E1 X1) as DE.
  inversion X2; subst.
  - assert (i = i0) by (eapply zone_unique; eauto). subst i0. rewrite DE. auto.
  - match goal with X : forall i, _ -> _ -> _ \/ _ |- _ => destruct (X i N G) as [Y|Y]; lia end.
Qed.

(** A write that starts outside the sequential zones touches none of them. *)
Theorem C39_conventional : forall c s0 d s l2 l1 off len,
  cfg_ok c -> start_ok c s0 d -> reach c s0 s -> tr s = l2 ++ CWrite off len :: l1 ->
  (forall i, (i < nr c)%nat -> gseq c i = true -> off < geo_start c i \/ geo_start c (S i) <= off) ->
  forall i, (i < nr c)%nat -> gseq c i = true -> off + len <= geo_start c i \/ geo_start c (S i) <= off.
Proof.
  intros c s0 d s l2 l1 off len OK SO R T B.
  destruct (C39_accepted c s0 d s OK SO R) as (d' & E). rewrite T in E.
  destruct (dexec_app _ _ _ _ _ E) as (d2 & E2). inversion E2 as [|? dm ? ? ? X1 X2]; subst.
  inversion X2; subst; auto.
  match goal with N : (?i < nr c)%nat, G : gseq c ?i = true |- _ => destruct (B i N G); lia end.
Qed.

(** After every command at most [maxw] zones are open on the device. *)
Theorem C39_limit : forall c s0 d s l2 x l1 d1,
  cfg_ok c -> start_ok c s0 d -> reach c s0 s -> tr s = l2 ++ x :: l1 -> maxw c <> O ->
  dexec c d (x :: l1) d1 -> (open_count c d1 <= maxw c)%nat.
Proof.
  intros c s0 d s l2 x l1 d1 OK SO R T M0 E1.
  destruct (C39_accepted c s0 d s OK SO R) as (d' & E). rewrite T in E.
  destruct (dexec_app _ _ _ _ _ E) as (d2 & E2).
  pose proof (dexec_det c _ OK _ _ _ E1 E2) as DE.
  inversion E2 as [|? dm ? ? ? X1 X2]; subst.
  assert (L : limit_ok c d2) by (inversion X2; auto).
  destruct L as [L|L]; [contradiction|].
  unfold open_count in *. rewrite (filter_ext _ (fun i => d_open (d2 i))); auto.
  intros i. now rewrite DE.
Qed.

(** fio's own table: no zone twice, never more than the limit, and every zone
    open on the device is in it. *)
Theorem C39_tracking : forall c s0 d s d1,
  cfg_ok c -> start_ok c s0 d -> reach c s0 s -> dexec c d (tr s) d1 ->
  NoDup (arr s) /\ (length (arr s) <= maxw c)%nat /\ jn s (job c) = Z.of_nat (length (arr s)) /\
  (maxw c <> O -> forall i, (i < nr c)%nat -> d_open (d1 i) = true -> In i (arr s)).
Proof.
  intros c s0 d s d1 OK SO R E. destruct (reach_J c s0 d s OK SO R) as (d' & I).
  pose proof (dexec_det c _ OK _ _ _ E (v_exec _ _ _ _ _ _ I)) as DE.
  destruct I as [A1 A2 A3 A4 A5 A6 A7 A8 A9 A10 A11 A12 A13 A14 A15 A16]. rewrite app_nil_r in *.
  split; [auto|split; [auto|split; [auto|]]]. intros M0 i N Ho. rewrite DE in Ho.
  now apply A11.
Qed.

(** fio's write pointer is the device's plus the writes still on their way. *)
Theorem C39_pointer : forall c s0 d s d1 i,
  cfg_ok c -> start_ok c s0 d -> reach c s0 s -> dexec c d (tr s) d1 ->
  (i < nr c)%nat -> gseq c i = true ->
  (forall x, In x (infl s) -> zidx c (i_off x) = i -> i_sent x = true) -> wp s i = d_wp (d1 i).
Proof.
  intros c s0 d s d1 i OK SO R E N G S. destruct (reach_J c s0 d s OK SO R) as (d' & I).
  rewrite (dexec_det c _ OK _ _ _ E (v_exec _ _ _ _ _ _ I)).
  symmetry. eapply (chain_sent c i (infl s)); [exact S|]. apply (v_chain _ _ _ _ _ _ I); auto.
Qed.

(** No operation trips an assertion, unlocks a zone that is not locked or
    searches forever. *)
Theorem C39_no_abort : forall c s0 d s p,
  cfg_ok c -> start_ok c s0 d -> reach c s0 s -> op_ok c s p ->
  exists v s', step c p s = Ret v s' /\ reach c s0 s'.
Proof.
  intros c s0 d s p OK SO R OP.
  pose proof (step_spec c d OK p s (fun v s' => True) (reach_J _ _ _ _ OK SO R) OP (fun _ _ _ => I)) as W.
  unfold wpre in W. destruct (step c p s) as [v s'| |] eqn:E; try contradiction.
  exists v, s'. split; auto. econstructor; eauto.
Qed.

(** A zone is locked as often as writes to it are in flight that will unlock it;
    with nothing in flight every zone is unlocked. *)
Theorem C39_locks : forall c s0 d s i,
  cfg_ok c -> start_ok c s0 d -> reach c s0 s ->
  hold s i = length (filter (fun x => Nat.eqb (zidx c (i_off x)) i && i_put x) (infl s)).
Proof.
  intros c s0 d s i OK SO R. destruct (reach_J c s0 d s OK SO R) as (d' & I).
  rewrite (v_hold _ _ _ _ _ _ I). unfold holders, cnt. simpl. lia.
Qed.

(** An accepted read of a sequential zone lies between the start and the write
    pointer of one online zone and changes nothing. *)
Theorem C39_read : forall c s0 d s off len z o n s',
  cfg_ok c -> start_ok c s0 d -> reach c s0 s -> op_ok c s (ORead off len) ->
  step c (ORead off len) s = Ret (VSeq z o n) s' ->
  (zmin c <= z < zmax c)%nat /\ gseq c z = true /\ goff c z = false /\
  geo_start c z <= o /\ 0 < n <= len /\ o + n <= wp s z /\
  wp s' = wp s /\ arr s' = arr s /\ infl s' = infl s /\ tr s' = tr s.
Proof.
  intros c s0 d s off len z o n s' OK SO R [V L] E. pose proof (reach_J c s0 d s OK SO R) as JJ.
  assert (W : wpre (step c (ORead off len)) (fun v s' => match v with VSeq z o n =>
      (zmin c <= z < zmax c)%nat /\ gseq c z = true /\ goff c z = false /\
      geo_start c z <= o /\ 0 < n <= len /\ o + n <= wp s z /\ hsame s s' | _ => True end) s).
  { cbn [step]. apply wp_bnd. apply (adjust_read_spec c d OK); auto.
    intros v s1 H1 W. destruct v as [z1 o1 n1|o1 n1| |]; try (apply wp_ret; exact I).
    destruct W as (W1 & W2 & W3 & W4 & W5 & W6 & W7). apply wp_bnd.
    apply (unlock_spec c d z1 [] [] s1); auto. intros s2 I2 E2. apply wp_ret.
    split; [exact W2|split; [exact W3|split; [exact W4|split; [exact W5|split; [exact W6|split; [exact W7|]]]]]].
    eapply hsame_trans; [exact H1|apply hsame_of; exact E2]. }
  unfold wpre in W. rewrite E in W. destruct W as (W1 & W2 & W3 & W4 & W5 & W6 & (h & ->)).
  do 6 (split; [assumption|]). repeat split.
Qed.

(** ** Setup *)

Record tracked (c : cfg) (s : st) : Prop := MkT {
  t_nodup : NoDup (arr s);
  t_wr : forall i, wr s i = true <-> In i (arr s);
  t_in : forall i, In i (arr s) -> (i < nr c)%nat /\ gseq c i = true /\ goff c i = false;
  t_num : (length (arr s) <= maxw c)%nat;
  t_job : jn s (job c) = Z.of_nat (length (arr s)) }.

Lemma nodup_snoc {A} (l : list A) x : NoDup l -> ~ In x l -> NoDup (l ++ [x]).
Proof.
  intros N H. apply NoDup_rev in N. rewrite <- (rev_involutive (l ++ [x])). apply NoDup_rev.
  rewrite rev_app_distr. simpl. constructor; auto. now rewrite <- in_rev.
Qed.

Lemma get0_tracked c i s s' : cfg_ok c -> tracked c s -> (i < nr c)%nat -> gseq c i = true ->
  write_zone_get0 c i s = Ret true s' ->
  tracked c s' /\ s' = set_arr (wr s') (arr s') (jn s') s /\ incl (arr s) (arr s') /\ (maxw c <> O -> In i (arr s')).
Proof.
  intros OK T N G E. unfold write_zone_get0, bnd, gets, ret, modi, check in E.
  destruct (goff c i) eqn:O; [discriminate|]. destruct (vfy c && _); [discriminate|].
  destruct (Nat.eqb_spec (maxw c) 0) as [M0|M0].
  { injection E as <-. split; [auto|split; [now destruct s|split; [apply incl_refl|congruence]]]. }
  destruct (wr s i) eqn:W.
  { assert (s' = s) by congruence. subst. split; [auto|split; [now destruct s|split; [apply incl_refl|]]].
    intros _. now apply (t_wr _ _ T). }
  destruct (_ && _); [discriminate|]. destruct (Nat.leb_spec (maxw c) (length (arr s))); [discriminate|].
  destruct (_ <? _)%nat; [|discriminate]. injection E as <-. simpl.
  assert (NI : ~ In i (arr s)) by (rewrite <- (t_wr _ _ T); congruence).
  split; [|split; [reflexivity|split; [intros x; rewrite in_app_iff; auto|intros _; apply in_or_app; right; now left]]].
  destruct T as [T1 T2 T3 T4 T5]. constructor; simpl.
  - now apply nodup_snoc.
  - intros k. rewrite in_app_iff. simpl. unfold fset. destruct (Nat.eqb_spec k i) as [->|NE]; [tauto|].
    rewrite T2. split; auto. intros [X|[X|[]]]; auto. congruence.
  - intros k. rewrite in_app_iff. simpl. intros [X|[<-|[]]]; auto.
  - rewrite app_length. simpl. lia.
  - rewrite fset_same, T5, app_length. unfold u32. simpl. pose proof (ok_maxw _ OK). rewrite Z.mod_small; lia.
Qed.

Lemma setup_loop_tracked c track : cfg_ok c ->
  (forall i, (zmin c <= i < zmax c)%nat -> track i = true -> gseq c i = true) ->
  forall n i s s', (zmin c <= i)%nat -> (i + n <= zmax c)%nat -> tracked c s -> setup_loop c track n i s = Ret true s' ->
  tracked c s' /\ s' = set_arr (wr s') (arr s') (jn s') s /\ incl (arr s) (arr s') /\
  (maxw c <> O -> forall k, (i <= k < i + n)%nat -> track k = true -> In k (arr s')).
Proof.
  intros OK HT. induction n as [|n IH]; intros i s s' A B T E; simpl in E.
  { injection E as <-. split; [auto|split; [now destruct s|split; [apply incl_refl|intros; lia]]]. }
  pose proof (ok_range _ OK) as RG.
  destruct (track i) eqn:TI.
  - unfold bnd in E. destruct (write_zone_get0 c i s) as [[|] s1| |] eqn:G; try discriminate.
    destruct (get0_tracked c i s s1 OK T ltac:(lia) (HT i ltac:(lia) TI) G) as (T1 & E1 & I1 & N1).
    destruct (IH (S i) s1 s' ltac:(lia) ltac:(lia) T1 E) as (T2 & E2 & I2 & N2).
    split; [auto|split; [rewrite E2, E1; reflexivity|split; [eapply incl_tran; eauto|]]].
    intros M0 k Hk Tk. destruct (Nat.eq_dec k i) as [->|NE]; [apply I2, N1; auto|apply N2; auto; lia].
  - destruct (IH (S i) s s' ltac:(lia) ltac:(lia) T E) as (T2 & E2 & I2 & N2).
    split; [auto|split; [auto|split; [auto|]]].
    intros M0 k Hk Tk. destruct (Nat.eq_dec k i) as [->|NE]; [congruence|apply N2; auto; lia].
Qed.

(** Setup that succeeds leaves every zone the device reports as open in the table,
    so that the theorems above apply, provided all of them lie in the job's
    range. *)
Theorem C39_setup : forall c track s d s',
  cfg_ok c ->
  (forall i, (i < nr c)%nat -> gseq c i = true ->
     wp s i = d_wp (d i) /\ geo_start c i <= wp s i <= geo_start c (S i)) ->
  (forall i, (i < nr c)%nat -> gseq c i = true -> d_open (d i) = true ->
     geo_start c i < d_wp (d i) < geo_start c i + gcap c i) ->
  arr s = [] -> (forall i, wr s i = false) -> jn s (job c) = 0 ->
  infl s = [] -> (forall i, hold s i = O) -> tr s = [] ->
  (forall i, (zmin c <= i < zmax c)%nat -> track i = true -> gseq c i = true) ->
  (forall i, (i < nr c)%nat -> d_open (d i) = true -> (zmin c <= i < zmax c)%nat /\ track i = true) ->
  setup c track s = Ret true s' -> start_ok c s' d.
Proof.
  intros c track s d s' OK W C A Wr Jn F H T HT HO E.
  assert (T0 : tracked c s).
  { constructor; rewrite ?A; simpl.
    - constructor.
    - intros i. rewrite Wr. split; [discriminate|contradiction].
    - contradiction.
    - lia.
    - exact Jn. }
  pose proof (ok_range _ OK) as RG.
  destruct (setup_loop_tracked c track OK HT (zmax c - zmin c) (zmin c) s s' ltac:(lia) ltac:(lia) T0 E) as (T1 & E1 & _ & N1).
  destruct T1 as [T1 T2 T3 T4 T5].
  constructor; auto.
  - rewrite E1. auto.
  - intros M0 i N O. destruct (HO i N O). apply N1; auto. lia.
  - rewrite E1. auto.
Qed.

(** ** A concrete case *)

(** Zone 0 is conventional, zones 1 to 4 are sequential with a capacity of three
    blocks; at most two zones may be open. *)
Definition ex_c : cfg := MkCfg 16384 5 0 5 4096 4096 2 0 0 false false false
  (fun _ => 12288) (fun i => match i with O => false | S _ => (i <? 5)%nat end) (fun _ => false).
Definition o0 : oracle := MkO [] O false true false.
Definition blank (c : cfg) : st :=
  MkSt (start c) (fun _ => false) (fun _ => false) (fun _ => O) [] (fun _ => 0) [] o0 [].
Definition fresh (c : cfg) : dev := fun i => MkD (geo_start c i) false.

Example ex_cfg_ok : cfg_ok ex_c.
Proof.
  constructor; simpl; try lia; try reflexivity.
Qed.
Example ex_start_ok : start_ok ex_c (blank ex_c) (fresh ex_c).
Proof.
  constructor; simpl; try discriminate.
  - intros i _ _. split; [reflexivity|]. unfold start, geo_start. simpl zsz. lia.
  - split; [constructor|]. intros i. split; [discriminate|contradiction].
  - contradiction.
  - lia.
  - reflexivity.
  - auto.
Qed.

Definition ex_ops : list op :=
  [OWrite 16384 8192 SQueued o0; OWrite 24576 8192 SQueued o0; OWrite 33000 8192 SCompleted o0;
   OSend 1; OWrite 49152 4096 SQueued o0; OComplete 1; OWrite 0 8192 SQueued o0;
   OWrite 53248 8192 SBusy o0; ORead 16384 8192; OComplete 0; OComplete 0; OComplete 0;
   OTrim 16384 o0; OWrite 16384 4096 SQueued o0].

(** The second write is cut at the capacity; the fifth, aimed at a third zone,
    goes to an open one; the eighth gets a new zone once zone 1 is full. *)
Example ex_run : exists s, run ex_c ex_ops (blank ex_c) = Ret
    [VSeq 1 16384 8192; VSeq 1 24576 4096; VSeq 2 32768 8192; VVerify; VSeq 2 40960 4096; VVerify;
     VConv 0 8192; VSeq 3 49152 8192; VSeq 1 16384 8192; VVerify; VVerify; VVerify;
     VSeq 1 16384 0; VSeq 1 16384 4096] s
  /\ tr s = [CReset 1; CWrite 49152 8192; CWrite 40960 4096; CWrite 0 8192; CWrite 24576 4096;
             CWrite 16384 8192; CWrite 32768 8192]
  /\ arr s = [3%nat; 1%nat].
Proof. eexists. vm_compute. repeat split. Qed.

Lemma run_reach c s0 l : forall s vs s', reach c s0 s ->
  (forall l1 p l2 t us, l = l1 ++ p :: l2 -> run c l1 s = Ret us t -> op_ok c t p) ->
  run c l s = Ret vs s' -> reach c s0 s'.
Proof.
  induction l as [|p l IH]; simpl; intros s vs s' R H E.
  - injection E as <- <-. auto.
  - unfold bnd in E. destruct (step c p s) as [v s1| |] eqn:E1; try discriminate.
    destruct (run c l s1) as [ws s2| |] eqn:E2; try discriminate. injection E as <- <-.
    eapply (IH s1 ws s2); auto.
    + econstructor; [exact R| |exact E1]. apply (H [] p l s []); auto.
    + intros l1 q l2 t us Hl Hr. apply (H (p :: l1) q l2 t (v :: us)); [now rewrite Hl|].
      simpl. unfold bnd. rewrite E1, Hr. reflexivity.
Qed.

(** The case satisfies the hypotheses of the theorems. *)
Example ex_reach : exists s, reach ex_c (blank ex_c) s /\
  tr s = [CReset 1; CWrite 49152 8192; CWrite 40960 4096; CWrite 0 8192; CWrite 24576 4096;
          CWrite 16384 8192; CWrite 32768 8192].
Proof.
  destruct ex_run as (s & E & T & _). exists s. split; auto.
  eapply (run_reach ex_c (blank ex_c) ex_ops); [constructor| |exact E].
  intros l1 p l2 t us Hl Hr.
  do 14 (destruct l1 as [|? l1];
    [injection Hl as <- <-; vm_compute in Hr; injection Hr as <- <-;
     try (simpl; repeat split; auto; try reflexivity; try lia; intros; discriminate)
    |injection Hl as <- Hl]).
  clear - Hl. destruct l1; discriminate Hl.
Qed.

(** ** Where the code falls short *)

(** A write to a conventional zone longer than a zone reaches a sequential zone
    behind the next one: only the next zone is looked at (zbd.c:2120). *)
Definition c_long : cfg := MkCfg 16384 3 0 3 4096 4096 0 0 0 false false false
  (fun _ => 12288) (fun i => Nat.eqb i 2) (fun _ => false).
Theorem C39_long_conventional_refuted : exists v s,
  cfg_ok c_long /\ start_ok c_long (blank c_long) (fresh c_long) /\ valid c_long 0 = true /\
  step c_long (OWrite 0 49152 SCompleted o0) (blank c_long) = Ret v s /\
  ~ exists d', dexec c_long (fresh c_long) (tr s) d'.
Proof.
  do 2 eexists. split; [constructor; simpl; try lia; try reflexivity|].
  split; [|split; [reflexivity|split; [vm_compute; reflexivity|]]].
  - constructor; simpl; try discriminate; auto.
    + intros i _ _. split; [reflexivity|]. unfold start, geo_start. simpl zsz. lia.
    + split; [constructor|]. intros i. split; [discriminate|contradiction].
    + contradiction.
  - intros (d' & E). inversion E as [|? dm ? ? ? X1 X2]; subst. inversion X2; subst.
    + unfold geo_start in *. simpl in *. destruct i as [|[|[|i]]]; simpl in *; try discriminate; lia.
    + match goal with X : forall i, _ -> _ -> _ \/ _ |- _ => destruct (X 2%nat) as [Y|Y] end; try (simpl; lia); try reflexivity;
      vm_compute in Y; destruct Y; reflexivity.
Qed.

(** A trim while a write to the zone is in flight resets the zone under it: the
    next write starts at the beginning again, where the first one has moved the
    pointer on (zbd.c:353-366 without [io_u_quiesce]). *)
Definition c_seq (mw : nat) : cfg := MkCfg 16384 3 0 3 4096 4096 mw 0 0 false false false
  (fun _ => 12288) (fun i => (i <? 3)%nat) (fun _ => false).
Theorem C39_trim_in_flight_refuted : exists vs s,
  run (c_seq 1) [OWrite 0 4096 SQueued o0; OTrim 0 o0; OWrite 0 4096 SQueued o0; OSend 0] (blank (c_seq 1)) = Ret vs s /\
  ~ exists d', dexec (c_seq 1) (fresh (c_seq 1)) (tr s) d'.
Proof.
  do 2 eexists. split; [vm_compute; reflexivity|]. intros (d' & E).
  inversion E as [|? d1 ? ? ? X1 X2]; subst. inversion X1 as [|? d2 ? ? ? Y1 Y2]; subst.
  assert (Z0 : forall i, (i < nr (c_seq 1))%nat -> geo_start (c_seq 1) i <= 0 < geo_start (c_seq 1) (S i) -> i = O).
  { intros i _ H. unfold geo_start in H. simpl zsz in H. lia. }
  assert (NC : forall P : Prop, (forall i, (i < nr (c_seq 1))%nat -> gseq (c_seq 1) i = true ->
     0 + 4096 <= geo_start (c_seq 1) i \/ geo_start (c_seq 1) (S i) <= 0) -> P).
  { intros P H. destruct (H O) as [H0|H0]; try (simpl; lia); try reflexivity; vm_compute in H0; destruct H0; reflexivity. }
  inversion X2; subst; [|eapply NC; eauto]. inversion Y2; subst; [|eapply NC; eauto].
  assert (i = O) by auto. assert (i0 = O) by auto. subst.
  match goal with P : dput d2 d1 _ _, Q : 0 = d_wp (d1 _) |- _ => destruct P as [P _]; rewrite P in Q; discriminate Q end.
Qed.

(** When the engine answers that it is busy, the write that fills a zone leaves
    the zone in the table for good, since nothing is called when it completes
    (zbd.c:1907-1929); with the limit reached the job ends early. *)
Theorem C39_busy_leaks_slot_refuted : exists vs s ws t,
  run (c_seq 1) [OWrite 0 12288 SBusy o0; OComplete 0; OWrite 16384 4096 SQueued o0] (blank (c_seq 1)) = Ret vs s /\
  run (c_seq 1) [OWrite 0 12288 SQueued o0; OComplete 0; OWrite 16384 4096 SQueued o0] (blank (c_seq 1)) = Ret ws t /\
  infl s = [] /\ arr s = [0%nat] /\ wp s O = geo_start (c_seq 1) O + gcap (c_seq 1) O /\
  nth 2 vs VVerify = VEof /\ nth 2 ws VVerify = VSeq 1 16384 4096.
Proof. do 4 eexists. split; [vm_compute; reflexivity|]. split; [vm_compute; reflexivity|]. vm_compute. repeat split. Qed.

(** The counter of zones per job is decreased for the job that removes a zone
    (zbd.c:338), not for the one that added it (zbd.c:605): it wraps, and the job
    has reached any limit of its own. *)
Theorem C39_job_counter_refuted : exists v s',
  let s := set_arr (fun i => Nat.eqb i 0) [0%nat] (fun j => if Nat.eqb j 1 then 1 else 0) (blank (c_seq 1)) in
  step (c_seq 1) (OWrite 0 12288 SCompleted o0) s = Ret v s' /\
  arr s' = [] /\ jn s' 0%nat = 2 ^ 32 - 1 /\ jn s' 1%nat = 1.
Proof. do 2 eexists. split; [vm_compute; reflexivity|]. vm_compute. repeat split. Qed.

(** A random trim that finds an empty zone looks for another one and may find a
    conventional one, which the assertion at zbd.c:2363 forbids. *)
Definition c_trim : cfg := MkCfg 16384 3 0 3 4096 4096 0 0 0 false true false
  (fun _ => 12288) (fun i => Nat.eqb i 0) (fun _ => false).
Theorem C39_trim_assert_refuted :
  step c_trim (OTrim 0 o0) (set_wp (fun i => start c_trim (if Nat.eqb i 0 then i else S i)) (blank c_trim)) = Bug.
Proof. vm_compute. reflexivity. Qed.

(** Finishing a zone puts fio's write pointer at the end of the zone
    (zbd.c:400), so a read between the capacity and the end is accepted. *)
Definition c_fin : cfg := MkCfg 16384 3 0 3 8192 4096 0 0 0 false false false
  (fun _ => 12288) (fun i => (i <? 3)%nat) (fun _ => false).
Theorem C39_read_beyond_capacity_refuted : exists vs s,
  run c_fin [OWrite 0 8192 SCompleted o0; OWrite 8192 8192 SCompleted o0; ORead 12288 4096] (blank c_fin) = Ret vs s /\
  nth 2 vs VVerify = VSeq 0 12288 4096 /\ geo_start c_fin 0 + gcap c_fin 0 = 12288.
Proof. do 2 eexists. split; [vm_compute; reflexivity|]. vm_compute. repeat split. Qed.

(** With an empty table the search starts at whatever [write_zones[0]] held last
    (zbd.c:1561); if that is a conventional zone the job ends although a
    zone can be written. *)
Definition c_stale : cfg := MkCfg 16384 3 0 3 4096 4096 1 0 0 false false true
  (fun _ => 12288) (fun i => Nat.eqb i 0 || Nat.eqb i 2) (fun i => Nat.eqb i 0).
Theorem C39_stale_start_refuted : exists s s',
  step c_stale (OWrite 0 4096 SCompleted (MkO [] 1 false true false)) (blank c_stale) = Ret VEof s /\
  step c_stale (OWrite 0 4096 SCompleted (MkO [] 2 false true false)) (blank c_stale) = Ret (VSeq 2 32768 4096) s'.
Proof. do 2 eexists. split; vm_compute; reflexivity. Qed.

(** A write at the end of a conventional zone in front of a sequential one may be
    cut to nothing (zbd.c:2134-2140). *)
Definition c_cut : cfg := MkCfg 4096 2 0 2 4096 4096 0 0 0 false false false
  (fun _ => 4096) (fun i => Nat.eqb i 1) (fun _ => false).
Theorem C39_empty_write_refuted : exists s,
  step c_cut (OWrite 1024 4096 SCompleted o0) (blank c_cut) = Ret (VConv 3072 0) s.
Proof. eexists. vm_compute. reflexivity. Qed.

(** Zones open outside the job's range are not counted (zbd.c:1354-1371): the
    device has two zones open where one is allowed. *)
Definition c_out : cfg := MkCfg 16384 3 1 3 4096 4096 1 0 0 false false false
  (fun _ => 12288) (fun i => (i <? 3)%nat) (fun _ => false).
Definition d_out : dev := fset (fresh c_out) 0%nat (MkD 4096 true).
Theorem C39_outside_range_refuted : exists v s,
  let s0 := set_wp (fset (start c_out) 0%nat 4096) (blank c_out) in
  setup c_out (fun i => d_open (d_out i)) s0 = Ret true s0 /\
  step c_out (OWrite 16384 4096 SCompleted o0) s0 = Ret v s /\ tr s = [CWrite 16384 4096] /\
  open_count c_out (fset d_out 1%nat (MkD (16384 + 4096) true)) = 2%nat /\
  ~ exists d', dexec c_out d_out (tr s) d'.
Proof.
  do 2 eexists. split; [vm_compute; reflexivity|]. split; [vm_compute; reflexivity|].
  split; [vm_compute; reflexivity|]. split; [vm_compute; reflexivity|].
  intros (d' & E). inversion E as [|? dm ? ? ? X1 X2]; subst. inversion X1; subst. inversion X2; subst.
  - assert (i = 1%nat) by (unfold geo_start in *; simpl zsz in *; lia). subst i.
    match goal with P : dput _ _ _ _ |- _ => destruct P as [P1 P2] end.
    match goal with L : limit_ok _ _ |- _ => destruct L as [LL|LL]; [discriminate LL|] end.
    unfold open_count in LL. simpl in LL. rewrite P1 in LL. rewrite (P2 0%nat) in LL by discriminate.
    rewrite (P2 2%nat) in LL by discriminate. vm_compute in LL. lia.
  - match goal with X : forall i, _ -> _ -> _ \/ _ |- _ => destruct (X 1%nat) as [Y|Y] end; try (simpl; lia); try reflexivity;
    vm_compute in Y; destruct Y; reflexivity.
Qed.

Print Assumptions C39_at_write_pointer.
Print Assumptions C39_limit.
Print Assumptions C39_no_abort.
Print Assumptions C39_read.
Print Assumptions C39_setup.
Print Assumptions C39_outside_range_refuted.
