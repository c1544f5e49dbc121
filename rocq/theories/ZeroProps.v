(** C41: the zero check accepts exactly all-zero buffers and reports the first non-zero byte. *)
From Coq Require Import ZArith List Lia Bool.
From Verif Require Import CBase ZeroModel.
Import ListNotations.
Open Scope Z_scope.

Definition zero_upto (data : list Z) (n : Z) : Prop := forall i, 0 <= i < n -> nth (Z.to_nat i) data 0 = 0.

Lemma head_loop_ok data : forall n p len, 0 <= p -> 0 <= len -> p + len <= zlen data -> zero_upto data p ->
  head_loop n data p len = Some (inl 1) /\ zero_upto data (p + len) /\ len < Z.of_nat n \/
  head_loop n data p len = Some (inl 0) /\ ~ zero_upto data (p + len) \/
  head_loop n data p len = Some (inr (p + Z.of_nat n, len - Z.of_nat n)) /\ zero_upto data (p + Z.of_nat n) /\ Z.of_nat n <= len.
Proof.
  induction n as [|n IH]; intros p len P L B Zp; cbn [head_loop].
  - right. right. replace (p + Z.of_nat 0) with p by lia. replace (len - Z.of_nat 0) with len by lia. repeat split; auto; lia.
  - destruct (Z.eqb_spec len 0) as [->|NL].
    + left. rewrite Z.add_0_r. repeat split; auto; lia.
    + rewrite (znth_nth data p 0) by lia. destruct (Z.eqb_spec (nth (Z.to_nat p) data 0) 0) as [E|E]; cbn [negb].
      * assert (Z1 : zero_upto data (p + 1)). { intros i Hi. destruct (Z.eq_dec i p); [subst; auto|apply Zp; lia]. }
        specialize (IH (p + 1) (len - 1) ltac:(lia) ltac:(lia) ltac:(lia) Z1).
        replace (p + 1 + (len - 1)) with (p + len) in IH by lia.
        replace (p + 1 + Z.of_nat n) with (p + Z.of_nat (S n)) in IH by lia. replace (len - 1 - Z.of_nat n) with (len - Z.of_nat (S n)) in IH by lia.
        destruct IH as [(A & C & D)|[(A & C)|(A & C & D)]]; [left|right; left|right; right]; repeat split; auto; lia.
      * right. left. split; auto. intros H. apply E, H. lia.
Qed.

Lemma memeq_ok data : forall n i j, 0 <= i -> 0 <= j -> i + Z.of_nat n <= zlen data -> j + Z.of_nat n <= zlen data ->
  exists b, memeq n data i j = Some b /\ (b = true <-> forall k, 0 <= k < Z.of_nat n -> nth (Z.to_nat (i + k)) data 0 = nth (Z.to_nat (j + k)) data 0).
Proof.
  induction n as [|n IH]; intros i j I J BI BJ; cbn [memeq].
  - exists true. split; auto. split; auto. intros _ k K. lia.
  - rewrite (znth_nth data i 0), (znth_nth data j 0) by lia. destruct (Z.eqb_spec (nth (Z.to_nat i) data 0) (nth (Z.to_nat j) data 0)) as [E|E].
    + destruct (IH (i + 1) (j + 1) ltac:(lia) ltac:(lia) ltac:(lia) ltac:(lia)) as (b & -> & HB). exists b. split; auto. rewrite HB. split; intros H k K.
      * destruct (Z.eq_dec k 0) as [->|]; [rewrite !Z.add_0_r; auto|]. specialize (H (k - 1) ltac:(lia)).
        replace (i + 1 + (k - 1)) with (i + k) in H by lia. replace (j + 1 + (k - 1)) with (j + k) in H by lia. auto.
      * specialize (H (k + 1) ltac:(lia)). replace (i + (k + 1)) with (i + 1 + k) in H by lia. replace (j + (k + 1)) with (j + 1 + k) in H by lia. auto.
    + exists false. split; auto. split; [discriminate|]. intros H. exfalso. apply E. specialize (H 0 ltac:(lia)). rewrite !Z.add_0_r in H. auto.
Qed.

(** Comparing a buffer with itself shifted by 16 spreads the zeros of the first 16 bytes. *)
Lemma spread data s n : 0 < s <= n -> zero_upto data s -> (forall k, 0 <= k < n - s -> nth (Z.to_nat (0 + k)) data 0 = nth (Z.to_nat (s + k)) data 0) -> zero_upto data n.
Proof.
  intros S Z0 H i Hi0. assert (G : 0 <= i) by lia. revert Hi0. revert i G. apply (Z_lt_induction (fun i => 0 <= i < n -> nth (Z.to_nat i) data 0 = 0)). intros i IH Hi.
  destruct (Z_lt_le_dec i s); [apply Z0; lia|]. specialize (H (i - s) ltac:(lia)). replace (s + (i - s)) with i in H by lia. rewrite <- H.
  apply IH; lia.
Qed.

Theorem C41_fast data len : 0 <= len <= zlen data ->
  exists r, mem_is_zero data len = Some r /\ (r = 1 \/ r = 0) /\ (r = 1 <-> zero_upto data len).
Proof.
  intros L. unfold mem_is_zero. assert (Z0 : zero_upto data 0) by (intros i Hi; lia).
  destruct (head_loop_ok data 16 0 len ltac:(lia) ltac:(lia) ltac:(lia) Z0) as [(-> & A & _)|[(-> & A)|(-> & A & B)]].
  - exists 1. split; auto. split; auto. split; auto.
  - exists 0. split; auto. split; auto. split; [discriminate|]. intros; contradiction.
  - cbn [Z.of_nat Pos.of_succ_nat Pos.succ Z.add] in *. destruct (memeq_ok data (Z.to_nat (len - 16)) 0 16 ltac:(lia) ltac:(lia) ltac:(lia) ltac:(lia)) as (b & -> & HB).
    rewrite Z2Nat.id in HB by lia. exists (if b then 1 else 0). split; auto. split; [destruct b; auto|]. destruct b.
    + split; auto. intros _. apply (spread data 16); auto; [lia|]. apply HB. auto.
    + split; [discriminate|]. intros H. exfalso. enough (false = true) by discriminate. apply HB. intros k K. rewrite !H by lia. auto.
Qed.
Print Assumptions C41_fast.

Lemma slow_ok data : forall fuel p len off, 0 <= p -> 0 <= len -> p + len <= zlen data -> (Z.to_nat len <= fuel)%nat ->
  exists k, 0 <= k <= len /\ (forall i, 0 <= i < k -> nth (Z.to_nat (p + i)) data 0 = 0) /\
    (k < len -> nth (Z.to_nat (p + k)) data 0 <> 0) /\ slow_loop fuel data p len off = Some (if k =? len then 1 else 0, off + k).
Proof.
  induction fuel as [|fuel IH]; intros p len off P L B F; cbn [slow_loop].
  - assert (len = 0) by lia. subst. exists 0. rewrite !Z.add_0_r. split; [lia|]. split; [intros; lia|]. split; [lia|reflexivity].
  - destruct (Z.eqb_spec len 0) as [->|NL].
    + exists 0. rewrite !Z.add_0_r. split; [lia|]. split; [intros; lia|]. split; [lia|reflexivity].
    + rewrite (znth_nth data p 0) by lia. destruct (Z.eqb_spec (nth (Z.to_nat p) data 0) 0) as [E|E]; cbn [negb].
      * destruct (IH (p + 1) (len - 1) (off + 1) ltac:(lia) ltac:(lia) ltac:(lia) ltac:(lia)) as (k & K & A & C & ->).
        exists (k + 1). split; [lia|]. split; [|split].
        -- intros i Hi. destruct (Z.eq_dec i 0) as [->|]; [rewrite Z.add_0_r; auto|]. specialize (A (i - 1) ltac:(lia)). replace (p + 1 + (i - 1)) with (p + i) in A by lia. auto.
        -- intros Hk. specialize (C ltac:(lia)). replace (p + (k + 1)) with (p + 1 + k) by lia. auto.
        -- f_equal. f_equal; [|lia]. destruct (Z.eqb_spec k (len - 1)), (Z.eqb_spec (k + 1) len); auto; lia.
      * exists 0. rewrite !Z.add_0_r. split; [lia|]. split; [intros; lia|]. split; [auto|]. destruct (Z.eqb_spec 0 len); [lia|auto].
Qed.

(** The slow variant gives the same answer and the position of the first non-zero byte. *)
Theorem C41_slow data len : 0 <= len <= zlen data ->
  exists k, 0 <= k <= len /\ zero_upto data k /\ (k < len -> nth (Z.to_nat k) data 0 <> 0) /\
    mem_is_zero_slow data len = Some (if k =? len then 1 else 0, k).
Proof.
  intros L. destruct (slow_ok data (Z.to_nat len) 0 len 0) as (k & K & A & C & D); try lia.
  exists k. repeat split; auto; lia.
Qed.
Print Assumptions C41_slow.

(** Verification of a zeroed range: success exactly when every byte is zero; else EILSEQ and the first non-zero offset. *)
Theorem C41_verify_zero data len : 0 <= len <= zlen data ->
  (zero_upto data len /\ verify_zero data len = Some (0, None)) \/
  (exists k, 0 <= k < len /\ zero_upto data k /\ nth (Z.to_nat k) data 0 <> 0 /\ verify_zero data len = Some (EILSEQ, Some k)).
Proof.
  intros L. unfold verify_zero. destruct (C41_fast data len L) as (r & -> & R & HR). destruct R as [->| ->].
  - left. split; [apply HR; auto|reflexivity].
  - right. cbn. destruct (C41_slow data len L) as (k & K & A & C & ->). exists k.
    assert (k <> len) by (intros ->; enough (0 = 1) by discriminate; apply HR; auto). split; [lia|]. split; [auto|]. split; [apply C; lia|auto].
Qed.
Print Assumptions C41_verify_zero.

Theorem C41_trimmed tz data len : 0 <= len <= zlen data ->
  exists r, verify_trimmed tz data len = Some r /\ (fst r = 0 <-> tz = false \/ zero_upto data len).
Proof.
  intros L. unfold verify_trimmed. destruct tz; cbn [negb].
  - destruct (C41_verify_zero data len L) as [(A & ->)|(k & K & A & B & ->)]; eexists; (split; [reflexivity|]); cbn.
    + split; auto.
    + split; [discriminate|]. intros [H|H]; [discriminate|]. exfalso. apply B, H. lia.
  - eexists. split; [reflexivity|]. cbn. split; auto.
Qed.
Print Assumptions C41_trimmed.

Example C41_ex1 : verify_zero (repeat 0 40 ++ [3]) 41 = Some (EILSEQ, Some 40).
Proof. vm_compute. reflexivity. Qed.
Example C41_ex2 : verify_zero (repeat 0 40 ++ [3]) 40 = Some (0, None).
Proof. vm_compute. reflexivity. Qed.
