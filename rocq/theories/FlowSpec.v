(** What flow control is to do. *)
From Coq Require Import ZArith List Lia Bool.
From Verif Require Import CBase FloatZ FlowModel.
Import ListNotations.
Open Scope Z_scope.

Definition sum (f : job -> Z) (l : list job) : Z := fold_right (fun j a => f j + a) 0 l.

(** I/Os that were let through but are not counted by the job yet. *)
Definition pending (j : job) : Z := match at_ j with Half => 1 | _ => 0 end.

(** The counters add up. *)
Definition adds_up (g : group) : Prop :=
  counter g = 1 + sum count (jobs g) + sum pending (jobs g) /\ total g = sum weight (jobs g) /\
  Forall (fun j => 1 <= weight j /\ 0 <= count j) (jobs g).

(** The members of the group do not change. *)
Definition goes (a : action) : Prop := match a with Go _ => True | _ => False end.

(** A job is not ahead of its share by more than one I/O, up to a relative error of 2^-50. *)
Definition not_ahead (g : group) (j : job) : Prop :=
  2 ^ 50 * (count j * total g) <= (2 ^ 50 + 1) * (weight j * counter g) + 2 ^ 50 * total g.
