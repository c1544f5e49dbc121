(** Sizes of files, for C57. *)
From Coq Require Import ZArith List.
From Verif Require Import ZdModel FszModel.
Import ListNotations.
Open Scope Z_scope.

Fixpoint total (l : list Z) : Z := match l with [] => 0 | x :: l' => x + total l' end.
(** Random numbers: 32 bits, or 64 bits below the ones that are rounded up to 2^64. *)
Definition usual_draw (g : draw) : Prop := match g with Taus false r => 0 <= r < 2 ^ 32 | Taus true r => 0 <= r < 2 ^ 64 - 2 ^ 10 | Lfsr _ => False end.
(** size= and io_size= are not percentages. *)
Definition plain_percent (o : fopts) : Prop := (size_percent o = 0 \/ size_percent o = 100) /\ (io_size_percent o = 0 \/ io_size_percent o = 100).
