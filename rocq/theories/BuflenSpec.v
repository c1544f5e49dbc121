(** What an I/O size is allowed to be. *)
From Coq Require Import ZArith List Bool.
From Verif Require Import CBase.
Import ListNotations.
Open Scope Z_scope.

(** The cumulative percentage up to and including entry [i]. *)
Fixpoint cum (es : list (Z * Z)) (i : nat) : Z := match es with [] => 0 | (_, p) :: r => p + match i with O => 0 | S i => cum r i end end.
(** Entry [i] may be used by a draw [r] of [2^bits] values: it has a share, the draw is below its cumulative share (of shares of
    [q] + 1 draws per percent) and its size fits. *)
Definition takes (es : list (Z * Z)) (fits : Z -> bool) (q r : Z) (i : nat) (bs : Z) : Prop :=
  exists p, nth_error es i = Some (bs, p) /\ p <> 0 /\ r < cum es i * (q + 1) /\ fits bs = true.
(** The rule of a size split: the first entry the draw may use; when there is none, the last entry with a share. *)
Definition split_rule (es : list (Z * Z)) (fits : Z -> bool) (q r bs : Z) : Prop :=
  (exists i, takes es fits q r i bs /\ forall j b, (j < i)%nat -> ~ takes es fits q r j b) \/
  ((forall j b, ~ takes es fits q r j b) /\ exists i p, nth_error es i = Some (bs, p) /\ p <> 0 /\ forall j b p', (i < j)%nat -> nth_error es j = Some (b, p') -> p' = 0).
