(** What HOWTO.rst:1596-1642 says about the zoned and sequence distributions, for C54. *)
From Coq Require Import ZArith List String.
From Verif Require Import UnitsSpec.
Import ListNotations.
Open Scope Z_scope.

(** The value is a list of access/size, separated by colons. *)
Definition item (a b : list Z) : list Z := a ++ codes "/" ++ b.
Fixpoint join (sep : string) (l : list (list Z)) : list Z :=
  match l with [] => [] | [x] => x | x :: l' => x ++ codes sep ++ join sep l' end.

Fixpoint sum (l : list Z) : Z := match l with [] => 0 | x :: l' => x + sum l' end.
(** A zone: its percentage of the accesses, and its size. The [i]-th zone starts where the earlier ones end, and of 100 equally likely
    numbers 1, 2, ... it has the next ones. *)
Definition before (l : list (Z * Z)) (i : nat) : Z * Z := (sum (map fst (firstn i l)), sum (map snd (firstn i l))).
(** The [v]-th of 100 numbers stands for the zone [i] of size [b] that starts at [s]. *)
Definition chosen (l : list (Z * Z)) (v : Z) (i : nat) (s b : Z) : Prop :=
  exists a, nth_error l i = Some (a, b) /\ s = snd (before l i) /\ fst (before l i) < v <= fst (before l i) + a.

(** A zone whose size may be left out, and how it is written. *)
Inductive written : list Z -> Z * option Z -> Prop :=
| Wboth a A b B : digits a A -> digits b B -> written (item a b) (A, Some B)
| Wblank a A : digits a A -> written (item a []) (A, None)
| Walone a A : digits a A -> written a (A, None).
Definition given (l : list (Z * option Z)) : Z := sum (map (fun z => match snd z with Some b => b | None => 0 end) l).
Definition left_out (l : list (Z * option Z)) : Z := sum (map (fun z => match snd z with Some _ => 0 | None => 1 end) l).
(** What is left is divided evenly. *)
Definition filled (l : list (Z * option Z)) : list (Z * Z) :=
  map (fun z => (fst z, match snd z with Some b => b | None => (100 - given l) / left_out l end)) l.
(** Percentages that make sense. *)
Definition sensible (l : list (Z * option Z)) : Prop :=
  l <> [] /\ (List.length l <= 256)%nat /\ sum (map fst l) = 100 /\ Forall (fun z => match snd z with Some b => 1 <= b <= 100 | None => True end) l /\
  given l <= 100 /\ (left_out l = 0 \/ (2 <= List.length l)%nat).
(** A zone of a number of bytes: digits and a size suffix. *)
Definition written_abs (kb : Z) (t : list Z) (z : Z * Z) : Prop :=
  exists a d n w m u, t = item a (d ++ u) /\ digits a (fst z) /\ digits d n /\ size_suffix kb w m /\ not_iec_short w /\ spells (codes w) u /\ snd z = n * m /\ snd z < 2 ^ 63.
