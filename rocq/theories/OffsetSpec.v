(** Vocabulary for C29, independent of the model's helpers. *)
From Coq Require Import ZArith List.
Import ListNotations.
Open Scope Z_scope.

(** An I/O stays inside the region of [size] bytes at [base]. *)
Definition inside (base size off len : Z) : Prop := 1 <= len /\ base <= off /\ off + len <= base + size.
(** An I/O starts inside the region. *)
Definition starts_inside (base size off len : Z) : Prop := 1 <= len /\ base <= off < base + size.
(** Offset and length are whole multiples of the unit [g], counted from [base]. *)
Definition on_grid (g base off len : Z) : Prop := (g | off - base) /\ (g | len).
(** The number of earlier requests in the same direction. *)
Fixpoint count {A} (same : A -> A -> bool) (x : A) (l : list A) : Z := match l with [] => 0 | y :: l => (if same x y then 1 else 0) + count same x l end.
