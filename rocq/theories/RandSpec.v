(** What is asked of the generators. *)
From Coq Require Import ZArith List Lia Bool.
From Verif Require Import CBase Orbit RandModel.
Import ListNotations.
Open Scope Z_scope.

(** The documented minimum of the components of the small generator
    (lib/rand.c:32-33: s1 > 1, s2 > 7, s3 > 15); for the large one it is what its
    masks leave. *)
Definition ok32 (t : taus88) : Prop :=
  1 < a1 t < 2 ^ 32 /\ 7 < a2 t < 2 ^ 32 /\ 15 < a3 t < 2 ^ 32.
Definition ok64 (t : taus258) : Prop :=
  1 < b1 t < 2 ^ 64 /\ 511 < b2 t < 2 ^ 64 /\ 4095 < b3 t < 2 ^ 64 /\ 131071 < b4 t < 2 ^ 64 /\ 8388607 < b5 t < 2 ^ 64.

(** The sequence of outputs from a state. *)
Definition next32 (t : taus88) : taus88 := fst (rand32 t).
Definition next64 (t : taus258) : taus258 := fst (rand64 t).
Definition out32 (t : taus88) (n : Z) : Z := snd (rand32 (iterz n next32 t)).
Definition out64 (t : taus258) (n : Z) : Z := snd (rand64 (iterz n next64 t)).

(** The sequence repeats after [d] exactly if [d] is a multiple of [P]. *)
Definition exact_period (f : Z -> Z) (P : Z) : Prop :=
  forall d, 0 <= d -> ((forall n, 0 <= n -> f (n + d) = f n) <-> (P | d)).

Definition N31 : Z := 2 ^ 31 - 1.
Definition N29 : Z := 2 ^ 29 - 1.
Definition N28 : Z := 2 ^ 28 - 1.
Definition N63 : Z := 2 ^ 63 - 1.
Definition N55 : Z := 2 ^ 55 - 1.
Definition N52 : Z := 2 ^ 52 - 1.
Definition N47 : Z := 2 ^ 47 - 1.
Definition N41 : Z := 2 ^ 41 - 1.
