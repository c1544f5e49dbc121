(** C35: the balanced search tree keeps its contents in order, through any sequence of insertions and removals. *)
From Coq Require Import ZArith List Lia Bool.
From Verif Require Import CBase RbModel RbSpec RbProofs.
Import ListNotations.
Open Scope Z_scope.

(** Insertion by a descent: the new node lands at the place of the list the comparisons describe, nothing else moves,
    the heap forms a balanced tree again, and the loops need no more rounds than the tree is high. *)
Theorem C35_insert fuel go x s t : holds s t -> balanced t -> x <> 0 -> ~ In x (inorder t) -> (height t < fuel)%nat ->
  exists s' t' l1 l2, rb_insert fuel go x s = Some s' /\ holds s' t' /\ balanced t' /\ inorder t = l1 ++ l2 /\ inorder t' = l1 ++ x :: l2 /\
    (forall a b, inorder t = a ++ b -> (forall y, In y a -> go y = false) -> (forall y, In y b -> go y = true) -> l1 = a /\ l2 = b).
Proof.
  intros H B X0 NI F. apply rep_holds in H. destruct (rb_insert_ok fuel go x s t H B X0 NI F) as (s' & t' & l1 & l2 & E1 & R1 & B1 & I1 & I2 & G).
  exists s', t', l1, l2. apply rep_holds in R1. auto 10.
Qed.
Print Assumptions C35_insert.

(** Removal of any node of the tree: the others stay, in the same order. *)
Theorem C35_erase fuel x s t : holds s t -> balanced t -> In x (inorder t) -> (height t < fuel)%nat ->
  exists s' t' l1 l2, erase fuel x s = Some s' /\ holds s' t' /\ balanced t' /\ inorder t = l1 ++ x :: l2 /\ inorder t' = l1 ++ l2.
Proof.
  intros H B HI F. apply rep_holds in H. destruct (erase_list fuel s t x H B HI F) as (s' & t' & l1 & l2 & E1 & R1 & B1 & I1 & I2).
  exists s', t', l1, l2. apply rep_holds in R1. auto 10.
Qed.
Print Assumptions C35_erase.

(** rb_first and rb_next enumerate the nodes in order, each once. *)
Theorem C35_first fuel s t : holds s t -> (height t <= fuel)%nat -> rb_first fuel s = Some (hd 0 (inorder t)).
Proof. intros H. apply rep_holds in H. apply first_ok. auto. Qed.
Print Assumptions C35_first.
Theorem C35_next fuel s t l1 x l2 : holds s t -> inorder t = l1 ++ x :: l2 -> (height t <= fuel)%nat -> rb_next fuel x s = Some (hd 0 l2).
Proof. intros H. apply rep_holds in H. apply next_list. auto. Qed.
Print Assumptions C35_next.
Theorem C35_enumerate fuel steps s t : holds s t -> (height t <= fuel)%nat -> (length (inorder t) <= steps)%nat ->
  exists n, rb_first fuel s = Some n /\ iter steps fuel n s = Some (inorder t).
Proof.
  intros H F HS. exists (hd 0 (inorder t)). split; [eapply C35_first; eauto|]. apply rep_holds in H. apply (iter_ok fuel s t H F []); auto.
Qed.
Print Assumptions C35_enumerate.

(** The tree is never higher than twice the logarithm of its size. *)
Theorem C35_height t : balanced t -> (height t <= 2 * Nat.log2 (S (length (inorder t))))%nat.
Proof. apply balanced_height. Qed.
Print Assumptions C35_height.

(** Any sequence of operations from the empty tree, whatever the heap contained: the code never follows a NULL pointer,
    each loop runs a logarithmic number of rounds, and enumeration gives the sorted list of what was inserted and not removed. *)
Theorem C35_sequence key ops h fuel : legal key [] ops -> (2 * Nat.log2 (S (length ops)) < fuel)%nat ->
  exists s' t', run fuel key ops (mkS h 0) = Some s' /\ holds s' t' /\ balanced t' /\
    inorder t' = fold_left (apply_op key) ops [] /\ sorted key (inorder t').
Proof.
  intros LG F. destruct (run_ok fuel key ops (mkS h 0) E) as (s' & t' & E1 & R1 & B1 & I1 & S1); auto.
  - apply rep_holds. unfold holds. cbn. auto using NoDup_nil.
  - split; [exact I|]. exists O. constructor.
  - exact I.
  - exists s', t'. apply rep_holds in R1. auto.
Qed.
Print Assumptions C35_sequence.

(** The specification list means what it should: inserting adds exactly the element, keeps the list sorted. *)
Theorem C35_spec_insert key x l : sorted key l -> sorted key (insert_by key x l) /\ (forall y, In y (insert_by key x l) <-> y = x \/ In y l).
Proof.
  intros S. destruct (insert_by_split key x l S) as (a & b & -> & E0 & _ & _ & S1). split; auto.
  intros y. rewrite E0, !in_app_iff. cbn [In]. intuition congruence.
Qed.

(** A case: fifteen insertions and four removals, with a heap full of rubbish. *)
Example C35_case :
  let ops := map Ins [50; 20; 80; 10; 30; 70; 90; 25; 35; 33; 37; 60; 75; 5; 1] ++ map Del [50; 80; 10; 33] in
  legal (fun z => z) [] ops /\
  (do s <- run 10 (fun z => z) ops (mkS (fun _ => mkN 7 false 7 7) 0); do n <- rb_first 10 s; iter 20 10 n s) =
    Some [1; 5; 20; 25; 30; 35; 37; 60; 70; 75; 90].
Proof.
  split; [|vm_compute; reflexivity].
  vm_compute. repeat match goal with |- _ /\ _ => split | |- True => exact I | |- _ -> False => intros HH end.
  all: repeat match goal with HH : _ \/ _ |- _ => destruct HH as [HH|HH] end; try discriminate; try contradiction.
  all: repeat (first [left; reflexivity | right]).
Qed.
