(** Refinement of the ring to the abstract queue. *)
From Coq Require Import ZArith List Lia Bool.
From Verif Require Import CBase Mem FifoModel FifoSpec.
Import ListNotations.
Open Scope Z_scope.

Definition used (f : fifo) : Z := (fin f - fout f) mod 2 ^ 32.
Definition cell (f : fifo) (x : Z) : Z := nth (Z.to_nat (x mod size f)) (buffer f) 0.
Definition abs (f : fifo) : list Z :=
  map (fun i => cell f (fout f + Z.of_nat i)) (seq 0 (Z.to_nat (used f))).

Definition inv (f : fifo) : Prop :=
  (exists k, 0 <= k <= 31 /\ size f = 2 ^ k) /\ zlen (buffer f) = size f /\
  0 <= fin f < 2 ^ 32 /\ 0 <= fout f < 2 ^ 32 /\ used f <= size f.

Lemma used_range f : 0 <= used f < 2 ^ 32.
Proof. apply Z.mod_pos_bound. lia. Qed.
Lemma abs_len f : zlen (abs f) = used f.
Proof. unfold zlen, abs. rewrite map_length, seq_length. pose proof (used_range f). lia. Qed.

Lemma size_facts f : inv f -> 1 <= size f <= 2 ^ 31 /\ (size f | 2 ^ 32).
Proof.
  intros ((k & Hk & E) & _). rewrite E. split; [split|].
  - pose proof (Z.pow_pos_nonneg 2 k). lia.
  - apply Z.pow_le_mono_r; lia.
  - exists (2 ^ (32 - k)). rewrite <- Z.pow_add_r by lia. f_equal. lia.
Qed.

Lemma mask_ok f x : inv f -> 0 <= x -> mask f x = x mod size f.
Proof.
  intros H Hx. pose proof (size_facts f H) as (Hs & _). destruct H as ((k & Hk & E) & _).
  unfold mask, u32. rewrite Z.mod_small by lia. rewrite E.
  replace (2 ^ k - 1) with (Z.ones k) by (rewrite Z.ones_equiv; lia). apply Z.land_ones. lia.
Qed.

Lemma mod_2_32 f x : inv f -> (x mod 2 ^ 32) mod size f = x mod size f.
Proof.
  intros H. pose proof (size_facts f H) as (Hs & [q Hq]).
  rewrite Hq. rewrite (Z.mul_comm q). rewrite Z.rem_mul_r by nia.
  rewrite Z.add_mod, (Z.mul_comm (size f)), Z.mod_mul, Z.add_0_r by lia. rewrite !Z.mod_mod by lia. auto.
Qed.

Lemma room_ok f : inv f -> fifo_room f = size f - used f.
Proof.
  intros H. pose proof (size_facts f H) as (Hs & _). destruct H as (_ & _ & Hi & Ho & Hu).
  unfold fifo_room, u32. pose proof (used_range f). unfold used in *.
  replace (size f - fin f + fout f) with (size f - (fin f - fout f)) by ring.
  rewrite Zminus_mod, (Z.mod_small (size f)) by lia. apply Z.mod_small. lia.
Qed.

(** Splitting a ring index. *)
Lemma wrap_mod s a i : 0 < s -> 0 <= i < s ->
  (a + i) mod s = if a mod s + i <? s then a mod s + i else a mod s + i - s.
Proof.
  intros Hs Hi. rewrite <- Zplus_mod_idemp_l.
  pose proof (Z.mod_pos_bound a s Hs). destruct (Z.ltb_spec (a mod s + i) s).
  - apply Z.mod_small. lia.
  - symmetry. apply Z.mod_unique with 1; lia.
Qed.

Lemma nth_app_if {A} (l1 l2 : list A) d i :
  nth i (l1 ++ l2) d = if (i <? length l1)%nat then nth i l1 d else nth (i - length l1) l2 d.
Proof.
  destruct (Nat.ltb_spec i (length l1)); [apply app_nth1; auto|apply app_nth2; lia].
Qed.

Lemma put_ok f d : inv f -> zlen d < 2 ^ 32 ->
  exists f', fifo_put f d = Some (f', Z.min (zlen d) (size f - used f)) /\ inv f' /\
    size f' = size f /\
    abs f' = abs f ++ firstn (Z.to_nat (Z.min (zlen d) (size f - used f))) d.
Proof.
  intros H Hd. pose proof (size_facts f H) as (Hs & Hdiv). pose proof (room_ok f H) as HR.
  pose proof H as (Hk & Hb & Hi & Ho & Hu). pose proof (used_range f) as Hur.
  pose proof (zlen_nonneg d) as Hd0.
  unfold fifo_put. cbv zeta. rewrite HR. set (len := Z.min (zlen d) (size f - used f)).
  rewrite mask_ok by (auto; lia).
  pose proof (Z.mod_pos_bound (fin f) (size f) ltac:(lia)) as HM.
  assert (HU : u32 (size f - fin f mod size f) = size f - fin f mod size f)
    by (unfold u32; apply Z.mod_small; lia).
  rewrite HU. set (l := Z.min len (size f - fin f mod size f)).
  assert (Hlen : 0 <= len <= zlen d) by lia. assert (Hl : 0 <= l <= len) by lia.
  assert (L1 : length (firstn (Z.to_nat l) d) = Z.to_nat l)
    by (rewrite firstn_length_le; auto; unfold zlen in *; lia).
  assert (L2 : length (firstn (Z.to_nat (len - l)) (skipn (Z.to_nat l) d)) = Z.to_nat (len - l))
    by (rewrite firstn_length_le; auto; rewrite skipn_length; unfold zlen in *; lia).
  destruct (blit_some (buffer f) (Z.to_nat (fin f mod size f)) (firstn (Z.to_nat l) d)) as [b1 E1].
  { rewrite L1. unfold zlen in Hb. lia. }
  rewrite E1. pose proof (blit_length _ _ _ _ E1) as LB1.
  destruct (blit_some b1 0 (firstn (Z.to_nat (len - l)) (skipn (Z.to_nat l) d))) as [b2 E2].
  { rewrite L2, LB1. unfold zlen in Hb. lia. }
  rewrite E2. pose proof (blit_length _ _ _ _ E2) as LB2.
  set (f' := mkFifo b2 (size f) (u32 (fin f + len)) (fout f)).
  exists f'. split; [auto|].
  assert (U' : used f' = used f + len).
  { unfold used, f'. cbn [fin fout]. unfold u32. rewrite Zminus_mod_idemp_l.
    replace (fin f + len - fout f) with ((fin f - fout f) + len) by ring.
    rewrite <- Zplus_mod_idemp_l. fold (used f). apply Z.mod_small. lia. }
  split; [|split; [reflexivity|]].
  - unfold inv, f'. cbn [size buffer fin fout]. split; [auto|]. split; [unfold zlen in *; lia|].
    split; [unfold u32; apply Z.mod_pos_bound; lia|]. split; [auto|].
    fold f'. rewrite U'. lia.
  - assert (BE : forall x, nth x b2 0 =
       if ((0 <=? x) && (x <? Z.to_nat (len - l)))%nat then nth (Z.to_nat l + x) d 0
       else if ((Z.to_nat (fin f mod size f) <=? x) && (x <? Z.to_nat (fin f mod size f) + Z.to_nat l))%nat
            then nth (x - Z.to_nat (fin f mod size f)) d 0 else nth x (buffer f) 0).
    { intros x. rewrite (blit_nth _ _ _ _ _ _ E2), (blit_nth _ _ _ _ _ _ E1), L1, L2.
      rewrite Nat.add_0_l, Nat.sub_0_r.
      destruct (Nat.ltb_spec x (Z.to_nat (len - l))); cbn [andb Nat.leb].
      - rewrite nth_firstn by lia. apply nth_skipn.
      - destruct (Nat.leb_spec (Z.to_nat (fin f mod size f)) x); cbn [andb]; auto.
        destruct (Nat.ltb_spec x (Z.to_nat (fin f mod size f) + Z.to_nat l)); auto.
        apply nth_firstn. lia. }
    assert (LA : length (abs f) = Z.to_nat (used f)) by (unfold abs; rewrite map_length, seq_length; auto).
    apply (list_ext 0).
    + rewrite app_length, firstn_length_le by (unfold zlen in *; lia).
      rewrite LA. unfold abs. rewrite map_length, seq_length, U'. lia.
    + intros i Hi2. assert (Hi3 : Z.of_nat i < used f + len).
      { unfold abs in Hi2. rewrite map_length, seq_length, U' in Hi2. lia. }
      unfold abs at 1. rewrite map_seq_nth by (rewrite U'; lia).
      unfold cell. change (size f') with (size f). change (fout f') with (fout f).
      change (buffer f') with b2. rewrite BE, nth_app_if, LA.
      assert (HF : fin f mod size f = (fout f + used f) mod size f).
      { unfold used. rewrite <- Zplus_mod_idemp_r, mod_2_32, Zplus_mod_idemp_r by auto. f_equal. ring. }
      pose proof (Z.mod_pos_bound (fout f) (size f) ltac:(lia)) as HMo.
      rewrite (wrap_mod (size f) (fout f) (Z.of_nat i)) by lia.
      assert (HF2 : fin f mod size f =
        if used f =? size f then fout f mod size f else
        if fout f mod size f + used f <? size f then fout f mod size f + used f
        else fout f mod size f + used f - size f).
      { rewrite HF. destruct (Z.eqb_spec (used f) (size f)) as [E|E].
        - rewrite E. rewrite <- (Z.mul_1_l (size f)) at 1. apply Z.mod_add. lia.
        - apply wrap_mod; lia. }
      assert (RHS : (if (i <? Z.to_nat (used f))%nat then nth i (abs f) 0
                     else nth (i - Z.to_nat (used f)) (firstn (Z.to_nat len) d) 0) =
                    (if Z.of_nat i <? used f
                     then nth (Z.to_nat (if fout f mod size f + Z.of_nat i <? size f
                                         then fout f mod size f + Z.of_nat i
                                         else fout f mod size f + Z.of_nat i - size f)) (buffer f) 0
                     else nth (i - Z.to_nat (used f)) d 0)).
      { destruct (Nat.ltb_spec i (Z.to_nat (used f))), (Z.ltb_spec (Z.of_nat i) (used f)); try lia.
        - unfold abs. rewrite map_seq_nth by lia. unfold cell. rewrite wrap_mod by lia. auto.
        - apply nth_firstn. lia. }
      rewrite RHS. clear RHS BE E1 E2 LB1 LB2 U' HR HF LA Hi2 L1 L2 HU.
      set (fm := fin f mod size f) in *. set (om := fout f mod size f) in *.
      clearbody fm om. set (u := used f) in *. set (s := size f) in *. clearbody u s.
      assert (HI : 0 <= Z.of_nat i) by lia. set (zi := Z.of_nat i) in *.
      assert (Ezi : i = Z.to_nat zi) by (unfold zi; lia). clearbody zi. subst i.
      cbn [Nat.leb andb].
      destruct (Z.eqb_spec u s); destruct (Z.ltb_spec (om + zi) s); destruct (Z.ltb_spec zi u);
        destruct (Z.ltb_spec (om + u) s);
        repeat match goal with
        | |- context [(?a <? ?b)%nat] => destruct (Nat.ltb_spec a b); cbn [andb]
        | |- context [(?a <=? ?b)%nat] => destruct (Nat.leb_spec a b); cbn [andb]
        end; try (exfalso; lia); try reflexivity; try (f_equal; lia).
Qed.

Lemma get_common f n : inv f -> 0 <= n < 2 ^ 32 ->
  let len := Z.min n (used f) in
  let out' := u32 (fout f + len) in
  let f' := if fin f =? out' then mkFifo (buffer f) (size f) 0 0
            else mkFifo (buffer f) (size f) (fin f) out' in
  inv f' /\ size f' = size f /\ abs f' = skipn (Z.to_nat len) (abs f).
Proof.
  intros H Hn. cbv zeta. pose proof (size_facts f H) as (Hs & Hdiv).
  pose proof H as (Hk & Hb & Hi & Ho & Hu). pose proof (used_range f) as Hur.
  set (len := Z.min n (used f)).
  assert (Hin : fin f = u32 (fout f + used f)).
  { unfold used, u32. rewrite Zplus_mod_idemp_r. rewrite <- (Z.mod_small (fin f) (2 ^ 32)) at 1 by lia.
    f_equal. ring. }
  assert (LA : length (abs f) = Z.to_nat (used f)) by (unfold abs; rewrite map_length, seq_length; auto).
  destruct (Z.eqb_spec (fin f) (u32 (fout f + len))) as [E|E].
  - assert (EL : len = used f).
    { rewrite Hin in E. unfold u32 in E.
      assert (D : (used f - len) mod 2 ^ 32 = 0).
      { replace (used f - len) with (fout f + used f - (fout f + len)) by ring.
        rewrite Zminus_mod, E, Z.sub_diag. reflexivity. }
      rewrite Z.mod_small in D by lia. lia. }
    split; [|split; [reflexivity|]].
    + unfold inv. cbn [size buffer fin fout]. split; [auto|]. split; [auto|]. split; [lia|]. split; [lia|].
      unfold used. cbn [fin fout]. change ((0 - 0) mod 2 ^ 32) with 0. lia.
    + rewrite skipn_all2 by lia. reflexivity.
  - set (f' := mkFifo (buffer f) (size f) (fin f) (u32 (fout f + len))).
    assert (U' : used f' = used f - len).
    { unfold f', used. cbn [fin fout]. unfold u32. rewrite Zminus_mod_idemp_r.
      replace (fin f - (fout f + len)) with ((fin f - fout f) - len) by ring.
      rewrite <- Zminus_mod_idemp_l. fold (used f). apply Z.mod_small. lia. }
    split; [|split; [reflexivity|]].
    + unfold inv. cbn [size buffer fin fout]. split; [auto|]. split; [auto|]. split; [auto|].
      split; [unfold u32; apply Z.mod_pos_bound; lia|]. rewrite U'. cbn [f' size]. lia.
    + apply (list_ext 0).
      * rewrite skipn_length, LA. unfold abs. rewrite map_length, seq_length, U'. lia.
      * intros i Hi2. unfold abs in Hi2. rewrite map_length, seq_length, U' in Hi2.
        rewrite nth_skipn. unfold abs. rewrite !map_seq_nth by lia. unfold cell.
        cbn [f' fout size buffer]. f_equal. f_equal.
        rewrite <- Zplus_mod_idemp_l. unfold u32. rewrite mod_2_32 by auto. rewrite Zplus_mod_idemp_l.
        f_equal. lia.
Qed.

Lemma get_data f n : inv f -> 0 <= n < 2 ^ 32 ->
  exists d1 d2, let len := Z.min n (used f) in
    let l := Z.min len (u32 (size f - mask f (fout f))) in
    slice (buffer f) (Z.to_nat (mask f (fout f))) (Z.to_nat l) = Some d1 /\
    slice (buffer f) 0 (Z.to_nat (len - l)) = Some d2 /\
    d1 ++ d2 = firstn (Z.to_nat len) (abs f).
Proof.
  intros H Hn. pose proof (size_facts f H) as (Hs & Hdiv).
  pose proof H as (Hk & Hb & Hi & Ho & Hu). pose proof (used_range f) as Hur.
  rewrite mask_ok by (auto; lia).
  pose proof (Z.mod_pos_bound (fout f) (size f) ltac:(lia)) as HM.
  assert (HU : u32 (size f - fout f mod size f) = size f - fout f mod size f)
    by (unfold u32; apply Z.mod_small; lia).
  rewrite HU. cbv zeta. set (len := Z.min n (used f)).
  set (l := Z.min len (size f - fout f mod size f)).
  unfold zlen in Hb.
  assert (E1 := slice_some (buffer f) (Z.to_nat (fout f mod size f)) (Z.to_nat l) ltac:(lia)).
  assert (E2 := slice_some (buffer f) 0 (Z.to_nat (len - l)) ltac:(lia)).
  eexists. eexists. split; [exact E1|]. split; [exact E2|].
  pose proof (slice_length _ _ _ _ E1) as L1. pose proof (slice_length _ _ _ _ E2) as L2.
  assert (LA : length (abs f) = Z.to_nat (used f)) by (unfold abs; rewrite map_length, seq_length; auto).
  set (d1 := firstn (Z.to_nat l) _) in *. set (d2 := firstn (Z.to_nat (len - l)) _) in *.
  apply (list_ext 0).
  - rewrite app_length, firstn_length_le, L1, L2 by lia. lia.
  - intros i Hi2. rewrite app_length, L1, L2 in Hi2.
    rewrite nth_firstn by lia. rewrite nth_app_if, L1.
    unfold abs. rewrite map_seq_nth by lia. unfold cell. rewrite wrap_mod by lia.
    destruct (Nat.ltb_spec i (Z.to_nat l)).
    + rewrite (slice_nth _ _ _ _ 0 _ E1) by auto.
      destruct (Z.ltb_spec (fout f mod size f + Z.of_nat i) (size f)); [|exfalso; lia]. f_equal. lia.
    + rewrite (slice_nth _ _ _ _ 0 _ E2) by lia.
      destruct (Z.ltb_spec (fout f mod size f + Z.of_nat i) (size f)); [exfalso; lia|]. f_equal. lia.
Qed.

Lemma step_ok f o : inv f -> op_ok o ->
  exists f', f_step f o = Some (f', snd (q_step (size f) (abs f) o)) /\ inv f' /\ size f' = size f /\
    abs f' = fst (q_step (size f) (abs f) o).
Proof.
  intros H Ho. destruct o as [d|n|n]; cbn [op_ok f_step q_step fst snd] in *; rewrite ?abs_len.
  - destruct (put_ok f d H Ho) as (f' & E & I & S & A). rewrite E. exists f'. auto.
  - destruct (get_common f n H Ho) as (I & S & A). cbv zeta in *.
    destruct (get_data f n H Ho) as (d1 & d2 & E1 & E2 & ED). cbv zeta in *.
    unfold fifo_get. cbv zeta. change (u32 (fin f - fout f)) with (used f).
    rewrite E1, E2.
    assert (EL : Z.min n (used f) =? zlen (d1 ++ d2) = true).
    { apply Z.eqb_eq. rewrite ED. unfold zlen. rewrite firstn_length_le; [pose proof (used_range f); lia|].
      unfold abs. rewrite map_length, seq_length. pose proof (used_range f); lia. }
    rewrite EL, ED. eexists. split; [reflexivity|]. auto.
  - destruct (get_common f n H Ho) as (I & S & A). cbv zeta in *.
    unfold fifo_get. cbv zeta. change (u32 (fin f - fout f)) with (used f).
    eexists. split; [reflexivity|]. auto.
Qed.

Theorem run_ok os : forall f, inv f -> Forall op_ok os ->
  exists f', f_run f os = Some (f', snd (q_run (size f) (abs f) os)) /\ inv f' /\ size f' = size f /\
    abs f' = fst (q_run (size f) (abs f) os).
Proof.
  induction os as [|o os IH]; intros f H HO.
  - exists f. simpl. auto.
  - inversion HO as [|? ? O1 O2]; subst. destruct (step_ok f o H O1) as (f1 & E & I & S & A).
    destruct (IH f1 I O2) as (f2 & E2 & I2 & S2 & A2). cbn [f_run q_run]. rewrite E, E2.
    rewrite S, A in *. destruct (q_step (size f) (abs f) o) as [q1 r]. cbn [fst snd] in *.
    destruct (q_run (size f) q1 os) as [q2 rs]. cbn [fst snd] in *. exists f2. auto.
Qed.

Lemma alloc_inv k junk : 0 <= k <= 31 -> zlen junk = 2 ^ k -> inv (fifo_alloc (2 ^ k) junk).
Proof.
  intros Hk HJ. unfold inv, fifo_alloc. cbn [size buffer fin fout]. split; [exists k; auto|].
  split; [auto|]. split; [lia|]. split; [lia|]. unfold used. cbn [fin fout].
  change ((0 - 0) mod 2 ^ 32) with 0. pose proof (Z.pow_pos_nonneg 2 k). lia.
Qed.

Lemma alloc_abs sz junk : abs (fifo_alloc sz junk) = [].
Proof. reflexivity. Qed.

(** History form: nothing lost, nothing duplicated, order kept. *)
Lemma q_history cap os : forall q, Forall no_drop os -> 
  q ++ accepted os (snd (q_run cap q os)) = delivered (snd (q_run cap q os)) ++ fst (q_run cap q os).
Proof.
  induction os as [|o os IH]; intros q HN; [simpl; rewrite app_nil_r; auto|].
  inversion HN as [|? ? N1 N2]; subst. cbn [q_run].
  destruct o as [d|n|n]; [| |contradiction]; cbn [q_step].
  - specialize (IH (q ++ firstn (Z.to_nat (Z.min (zlen d) (cap - zlen q))) d) N2).
    destruct (q_run cap _ os) as [q2 rs]. cbn [fst snd accepted delivered] in *.
    rewrite <- IH, app_assoc. auto.
  - specialize (IH (skipn (Z.to_nat (Z.min n (zlen q))) q) N2).
    destruct (q_run cap _ os) as [q2 rs]. cbn [fst snd accepted delivered] in *.
    rewrite <- app_assoc, <- IH, app_assoc, firstn_skipn. auto.
Qed.
