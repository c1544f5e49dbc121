(** How a reader understands a number with a unit, for C53. *)
From Coq Require Import ZArith List String.
From Verif Require Import UnitsSpec N2sModel.
Import ListNotations.
Open Scope Z_scope.

(** The prefixes of the International System and of IEC 60027-2. *)
Definition si_or_iec (iec : bool) : Z := if iec then 2 ^ 10 else 10 ^ 3.
Inductive prefix_name (iec : bool) : Z -> string -> Prop :=
| P0 : prefix_name iec 0 ""
| P1 : prefix_name iec 1 (if iec then "Ki" else "k")
| P2 : prefix_name iec 2 (if iec then "Mi" else "M")
| P3 : prefix_name iec 3 (if iec then "Gi" else "G")
| P4 : prefix_name iec 4 (if iec then "Ti" else "T")
| P5 : prefix_name iec 5 (if iec then "Pi" else "P")
| P6 : prefix_name iec 6 (if iec then "Ei" else "E").

(** [s] is a number of [v] / 10^[d] written with [d] decimals in [w] characters, and a unit of prefix number [k]. *)
Definition means (s : list Z) (iec : bool) (unit : string) (v d k w : Z) : Prop :=
  exists p a A, prefix_name iec k p /\ digits a A /\
    ((d = 0 /\ v = A /\ s = a ++ codes p ++ codes unit /\ w = Z.of_nat (List.length a)) \/
     (exists b B, 0 < d /\ digits b B /\ Z.of_nat (List.length b) = d /\ v = A * 10 ^ d + B /\ s = a ++ codes "." ++ b ++ codes p ++ codes unit /\
       w = Z.of_nat (List.length a) + 1 + d)).

(** |x - y| is at most half of [u], or less than [e] more. *)
Definition half_of (x y u : Z) : Prop := 2 * Z.abs (x - y) <= u.
Definition near_half_of (x y u e : Z) : Prop := 2 * Z.abs (x - y) < u + 2 * e.

(** The units of the model's enumeration; a number of bytes is shown in bits by multiplying by 8. *)
Definition unit_name (u : unit_t) : string := match u with None_ => "" | Persec => "/s" | Byte => "B" | Bit => "bit" | Bytepersec => "B/s" | Bitpersec => "bit/s" end.
Definition factor (u : unit_t) : Z := match u with Bit | Bitpersec => 8 | _ => 1 end.

(** The number [num] of units of the [j]-th power of a thousand is shown as [v] / 10^[d] of the [k]-th power: exactly if it has at
    most [ml] digits; otherwise in a larger unit with an error of at most half of the last digit shown, to which a decimal adds less
    than one unit of the next smaller prefix; with at least [ml] - 1 significant digits; in [ml] characters, or in one more for a
    power of ten. *)
Definition rounded (num ml j : Z) (p : bool) (u : unit_t) (v d k w : Z) : Prop :=
  let n := num * factor u in let t := si_or_iec p in
  j <= k <= 6 /\ 0 <= d <= 2 /\
  (k = j <-> n < 10 ^ ml) /\ (k = j -> d = 0 /\ v = n) /\
  (d = 0 -> half_of (v * t ^ k) (n * t ^ j) (t ^ k)) /\
  (0 < d -> near_half_of (v * t ^ k) (n * t ^ j * 10 ^ d) (t ^ k) (10 ^ d * t ^ (k - 1))) /\
  (3 <= ml -> j < k -> 10 ^ (ml - 2) <= v) /\
  (w <= ml \/ w = ml + 1 /\ exists e, v = 10 ^ e).


(** As [means], with two decimals and a space. *)
Definition means_spaced (s : list Z) (v k : Z) : Prop :=
  exists p a A b B, prefix_name true k p /\ digits a A /\ digits b B /\ List.length b = 2%nat /\ v = A * 100 + B /\
    s = a ++ codes "." ++ b ++ codes " " ++ codes p ++ codes "B".
