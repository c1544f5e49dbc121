(** C34: flist_sort. *)
From Coq Require Import ZArith List Lia Bool Sorting.Permutation Sorting.Sorted.
From Verif Require Import CBase FlsortModel FlsortSpec FlsortProofs.
Import ListNotations.
Open Scope Z_scope.

(** Whatever the comparison answers, the sort ends, dereferences no NULL, stays inside part[], and leaves a well-formed
    circular list of the same elements; no other node is touched. *)
Theorem C34_any_comparison cmp nx pv h l fuel : holds nx pv h l -> (length l <= fuel)%nat ->
  exists nx' pv' l', flist_sort fuel cmp nx pv h = Some (nx', pv') /\ holds nx' pv' h l' /\ Permutation l l' /\
    forall y, 0 < y -> ~ In y (h :: l) -> nx' y = nx y /\ pv' y = pv y.
Proof.
  intros H F. destruct (sort_ok cmp fuel nx pv h l H F) as (nx' & pv' & l' & E & HO & P & _ & FR). exists nx', pv', l'.
  do 3 (split; [auto|]). intros y Y. apply FR. unfold TMP. lia.
Qed.

(** With a consistent comparison the result is sorted, and elements that compare equal keep their order. *)
Theorem C34_sorted cmp nx pv h l fuel : holds nx pv h l -> order cmp l -> (length l <= fuel)%nat ->
  exists nx' pv' l', flist_sort fuel cmp nx pv h = Some (nx', pv') /\ holds nx' pv' h l' /\ sorted_version cmp l l'.
Proof.
  intros H O F. destruct (sort_ok cmp fuel nx pv h l H F) as (nx' & pv' & l' & E & HO & P & S & _). exists nx', pv', l'.
  do 2 (split; [auto|]). split; auto.
Qed.

(** The sorted order is determined by the input. *)
Lemma sorted_unique cmp U : order cmp U -> forall l1 l2, incl l1 U -> incl l2 U -> Permutation l1 l2 -> StronglySorted (le cmp) l1 -> StronglySorted (le cmp) l2 ->
  (forall x, In x U -> filter (equiv cmp x) l1 = filter (equiv cmp x) l2) -> l1 = l2.
Proof.
  intros O. induction l1 as [|x l1 IH]; intros l2 I1 I2 P S1 S2 F; [apply Permutation_nil in P; auto|].
  destruct l2 as [|y l2]; [apply Permutation_sym, Permutation_nil in P; discriminate|]. destruct O as [TOT TR].
  assert (UX : In x U) by (apply I1; left; auto). assert (UY : In y U) by (apply I2; left; auto).
  inversion S1 as [|? ? S1' F1]; inversion S2 as [|? ? S2' F2]; subst. rewrite Forall_forall in F1, F2. unfold le in F1, F2.
  assert (XX : cmp x x <= 0) by (destruct (TOT x x); auto).
  assert (YY : cmp y y <= 0) by (destruct (TOT y y); auto).
  assert (XY : cmp x y <= 0). { assert (J : In y (x :: l1)) by (apply (Permutation_in _ (Permutation_sym P)); left; auto). destruct J as [->|J]; auto. }
  assert (YX : cmp y x <= 0). { assert (J : In x (y :: l2)) by (apply (Permutation_in _ P); left; auto). destruct J as [->|J]; auto. }
  assert (EXY : x = y).
  { pose proof (F x UX) as FX. cbn [filter] in FX. rewrite (proj2 (equiv_ok cmp x x)), (proj2 (equiv_ok cmp x y)) in FX by auto. congruence. }
  subst y. f_equal. apply IH; auto.
  - intros z Hz. apply I1. right. auto.
  - intros z Hz. apply I2. right. auto.
  - apply Permutation_cons_inv in P. auto.
  - intros z UZ. pose proof (F z UZ) as FX. cbn [filter] in FX. destruct (equiv cmp z x); congruence.
Qed.
Theorem C34_unique cmp l l1 l2 : order cmp l -> sorted_version cmp l l1 -> sorted_version cmp l l2 -> l1 = l2.
Proof.
  intros O (P1 & S1 & F1) (P2 & S2 & F2). apply (sorted_unique cmp l); auto.
  - intros z Hz. apply (Permutation_in _ (Permutation_sym P1)). auto.
  - intros z Hz. apply (Permutation_in _ (Permutation_sym P2)). auto.
  - rewrite <- P1. auto.
  - intros x I. rewrite F1, F2; auto.
Qed.

(** ** Its user: the processes of btrace2fio, busiest first *)
Theorem C34_btrace_order ios nx pv h l fuel : holds nx pv h l -> (length l <= fuel)%nat ->
  (forall x, In x l -> 0 <= ios x < 2 ^ 31) ->
  exists nx' pv' l', flist_sort fuel (entry_cmp ios) nx pv h = Some (nx', pv') /\ holds nx' pv' h l' /\ Permutation l l' /\
    StronglySorted (fun x y => ios y <= ios x) l'.
Proof.
  intros H F R.
  assert (E : forall x y, In x l -> In y l -> entry_cmp ios x y = ios y - ios x).
  { intros x y X Y. specialize (R x X) as RX. specialize (R y Y) as RY. unfold entry_cmp, s32.
    destruct (Z_lt_ge_dec (ios y - ios x) 0).
    - replace ((ios y - ios x) mod 2 ^ 32) with (ios y - ios x + 2 ^ 32). { destruct (Z.ltb_spec (ios y - ios x + 2 ^ 32) (2 ^ 31)); lia. }
      symmetry. rewrite <- (Z.mod_add _ 1) by lia. rewrite Z.mul_1_l. apply Z.mod_small. lia.
    - rewrite Z.mod_small by lia. destruct (Z.ltb_spec (ios y - ios x) (2 ^ 31)); lia. }
  assert (O : order (entry_cmp ios) l).
  { split; [intros x y X Y; rewrite !E by auto; lia|]. intros x y z X Y Z. rewrite !E by auto. lia. }
  destruct (C34_sorted (entry_cmp ios) nx pv h l fuel H O F) as (nx' & pv' & l' & A & B & P & S & _). exists nx', pv', l'.
  do 3 (split; [auto|]).
  assert (IN : incl l' l) by (intros z Hz; apply (Permutation_in _ (Permutation_sym P)); auto). clear - S IN E.
  induction S as [|x l' S IH FA]; constructor; [apply IH; intros z Hz; apply IN; right; auto|].
  rewrite Forall_forall in *. intros y Y. specialize (FA y Y). cbn in FA. rewrite E in FA; [lia|apply IN; left; auto|apply IN; right; auto].
Qed.

(** A list of three nodes. *)
Definition nx3 : Z -> Z := fun x => if x =? 100 then 1 else if x =? 1 then 2 else if x =? 2 then 3 else 100.
Definition pv3 : Z -> Z := fun x => if x =? 100 then 3 else if x =? 3 then 2 else if x =? 2 then 1 else 100.
Lemma holds3 : holds nx3 pv3 100 [1; 2; 3].
Proof.
  split; [cbn; tauto|]. split; [|repeat constructor; lia]. repeat (constructor; [cbn; intuition lia|]). constructor.
Qed.
Fixpoint walk (n : nat) (nx : Z -> Z) (h x : Z) : list Z := match n with O => [] | S n => if nx x =? h then [] else nx x :: walk n nx h (nx x) end.
Example C34_ex : option_map (fun r => walk 9 (fst r) 100 100) (flist_sort 10 (fun a b => a mod 2 - b mod 2) nx3 pv3 100) = Some [2; 1; 3].
Proof. vm_compute. reflexivity. Qed.

(** The counts are 64 bits wide but the comparison returns an int: a process with 2^31 requests or more can be sorted after
    one with a single request. *)
Theorem C34_btrace_truncation_refuted : exists ios nx pv h l nx' pv' x y,
  holds nx pv h l /\ (forall z, 0 <= ios z < 2 ^ 64) /\ flist_sort 10 (entry_cmp ios) nx pv h = Some (nx', pv') /\
  holds nx' pv' h [x; y] /\ ios x = 1 /\ ios y = 2 ^ 32.
Proof.
  set (nx := fun x => if x =? 100 then 1 else if x =? 1 then 2 else 100). set (pv := fun x => if x =? 100 then 2 else if x =? 2 then 1 else 100).
  set (ios := fun x => if x =? 2 then 2 ^ 32 else 1).
  destruct (flist_sort 10 (entry_cmp ios) nx pv 100) as [[nx' pv']|] eqn:E; [|vm_compute in E; discriminate].
  exists ios, nx, pv, 100, [1; 2], nx', pv', 1, 2.
  assert (ND : NoDup [100; 1; 2]) by (repeat (constructor; [cbn; intuition lia|]); constructor).
  split. { split; [cbn; tauto|]. split; [auto|repeat constructor; lia]. }
  split. { intros z. unfold ios. destruct (z =? 2); lia. }
  split; [auto|]. split; [|split; reflexivity]. split; [|split; [auto|repeat constructor; lia]].
  vm_compute in E. injection E as <- <-. vm_compute. tauto.
Qed.

Print Assumptions C34_any_comparison. Print Assumptions C34_sorted. Print Assumptions C34_unique. Print Assumptions C34_btrace_order. Print Assumptions C34_btrace_truncation_refuted.
