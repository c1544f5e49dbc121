(** The components of the generators and the computations about their matrices. *)
From Coq Require Import ZArith List Lia Bool.
From Verif Require Import CBase LfsrCerts RandModel RandAlgebra.
Import ListNotations.
Open Scope Z_scope.

(** ** The eight components *)
Definition factors (k : nat) : list Z := nth (k - 3) mersenne_factors [].
Definition period (k : nat) : positive := Z.to_pos (2 ^ Z.of_nat k - 1).

Lemma k1 : check c1 1 31 (period 31) (factors 31) = true. Proof. vm_compute. reflexivity. Qed.
Lemma k2 : check c2 3 29 (period 29) (factors 29) = true. Proof. vm_compute. reflexivity. Qed.
Lemma k3 : check c3 4 28 (period 28) (factors 28) = true. Proof. vm_compute. reflexivity. Qed.
Lemma e1 : check d1 1 63 (period 63) (factors 63) = true. Proof. vm_compute. reflexivity. Qed.
Lemma e2 : check d2 9 55 (period 55) (factors 55) = true. Proof. vm_compute. reflexivity. Qed.
Lemma e3 : check d3 12 52 (period 52) (factors 52) = true. Proof. vm_compute. reflexivity. Qed.
Lemma e4 : check d4 17 47 (period 47) (factors 47) = true. Proof. vm_compute. reflexivity. Qed.
Lemma e5 : check d5 23 41 (period 41) (factors 41) = true. Proof. vm_compute. reflexivity. Qed.
