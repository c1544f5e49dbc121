(** Specification for random I/O with a map: permutations of the blocks of a region. *)
From Coq Require Import ZArith List Permutation.
From Verif Require Import RandMapModel.
Import ListNotations.
Open Scope Z_scope.

(** All I/Os of the region: [n] blocks of [bs] bytes starting at byte [off]. *)
Definition all_ios (off bs : Z) (n : nat) : list filled :=
  map (fun i => Issued (off + Z.of_nat i * bs) bs) (seq 0 n).

(** A run is a sequence of complete passes, each a permutation of the whole region. *)
Inductive passes (off bs : Z) (n : nat) : nat -> list filled -> Prop :=
| passes_0 : passes off bs n 0 []
| passes_S k p rest : Permutation p (all_ios off bs n) -> passes off bs n k rest ->
    passes off bs n (S k) (p ++ rest).

(** A draw the generator may return; for the 64-bit generator the top 2^12 values are excluded. *)
Definition good_draw (o : ropts) (r : Z) : Prop :=
  if ro_use64 o then 0 <= r <= 2 ^ 64 - 2 ^ 12 else 0 <= r < 2 ^ 32.

(** A region with at least one whole block, inside the file, whose sizes fit in 63 bits. *)
Definition good_file (o : ropts) (f : rfile) : Prop :=
  0 < ro_bs o /\ 0 <= rf_offset f /\ 0 < rf_io_size f / ro_bs o /\ rf_io_size f / ro_bs o <= 2 ^ 53 /\
  rf_offset f + rf_io_size f <= rf_real_size f /\ rf_real_size f < 2 ^ 63 /\ ro_bs o < 2 ^ 63.

Definition good_pair (o : ropts) (r : Z * Z) : Prop := good_draw o (fst r) /\ good_draw o (snd r).
