(** Specification of time values: a normalised timestamp denotes a number of units since the epoch. *)
From Coq Require Import ZArith.
From Verif Require Import CBase TimeModel.
Open Scope Z_scope.

(** Normalised, with seconds within 292 years of the epoch (so that nanoseconds fit 64 bits). *)
Definition norm (unit : Z) (t : ts) : Prop := 0 <= sec t <= 9223372035 /\ 0 <= sub t < unit.
(** Instants in nanoseconds (timespec) or microseconds (timeval). *)
Definition inst (unit : Z) (t : ts) : Z := sec t * unit + sub t.
Notation NS := 1000000000 (only parsing).
Notation US := 1000000 (only parsing).
