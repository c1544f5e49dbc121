(** What HOWTO.rst:2729-2780 says about data placement, for C55. *)
From Coq Require Import ZArith List String.
From Verif Require Import UnitsSpec ZdSpec.
Import ListNotations.
Open Scope Z_scope.

(** A decimal number without leading zeros. *)
Definition plain (ds : list Z) (n : Z) : Prop := digits ds n /\ (ds = codes "0" \/ exists c t, ds = c :: t /\ c <> 48).
(** A value or a range, and its first and last. *)
Inductive ranged : list Z -> Z * Z -> Prop :=
| Rone a A : plain a A -> ranged a (A, A)
| Rtwo a A b B : plain a A -> plain b B -> ranged (a ++ codes "-" ++ b) (A, B).
(** The identifiers of a range. *)
Definition ids_of (r : Z * Z) : list Z := map (fun j => fst r + Z.of_nat j) (List.seq 0 (Z.to_nat (snd r - fst r + 1))).
Definition good (r : Z * Z) : Prop := fst r <= snd r <= 65535.
(** How many of the first I/Os are writes. *)
Definition writes (ios : list (bool * Z * Z)) : nat := List.length (filter (fun io => fst (fst io)) ios).
