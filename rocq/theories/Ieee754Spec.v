(** IEEE 754 binary64: the normal numbers and their interchange format. *)
From Coq Require Import ZArith.
From Verif Require Import Ieee754Model.
Open Scope Z_scope.

(** A normal double: 53 significant bits, exponent field 1 to 2046. *)
Definition normal (m e : Z) : Prop := 2 ^ 52 <= m < 2 ^ 53 /\ - 1074 <= e <= 971.
(** Sign bit, biased exponent of the leading bit, fraction. *)
Definition binary64 (s : bool) (m e : Z) : Z := (if s then 2 ^ 63 else 0) + (e + 52 + 1023) * 2 ^ 52 + (m - 2 ^ 52).
(** Equal values: the number m * 2^e. *)
Definition same (x y : fl) : Prop :=
  match x, y with
  | FZero _, FZero _ => True
  | FNum s m e, FNum s' m' e' => s = s' /\ (if Z.leb e e' then m = m' * 2 ^ (e' - e) else m' = m * 2 ^ (e - e'))
  | FInf s, FInf s' => s = s'
  | _, _ => False
  end.
