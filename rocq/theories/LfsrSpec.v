(** Specification of the shift-register generator: what a caller observes. *)
From Coq Require Import ZArith List Permutation.
From Verif Require Import CBase LfsrModel.
Import ListNotations.
Open Scope Z_scope.

(** [k] successive calls of lfsr_next, each of which must deliver a value. *)
Fixpoint draws (k : nat) (fl : lfsr) : option (lfsr * list Z) :=
  match k with
  | O => Some (fl, [])
  | S k' =>
      match lfsr_next fl with
      | Some (fl1, Some v) =>
          match draws k' fl1 with Some (fl2, vs) => Some (fl2, v :: vs) | None => None end
      | _ => None
      end
  end.

(** The integers 0 .. n-1. *)
Definition below (n : Z) : list Z := map Z.of_nat (seq 0 (Z.to_nat n)).

(** The next call reports that the sequence is over. *)
Definition ended (fl : lfsr) : Prop := exists fl', lfsr_next fl = Some (fl', None).

(** The number of state bits used for [nums] values: the least w >= 3 with nums < 2^w. *)
Definition is_width (nums w : Z) : Prop :=
  3 <= w <= 63 /\ nums < 2 ^ w /\ (w = 3 \/ 2 ^ (w - 1) <= nums).

(** Consecutive passes over the range: draw [n] values, reset with the seed, draw again, ... *)
Fixpoint all_passes (k : nat) (n seed : Z) (fl : lfsr) : option (list (list Z)) :=
  match k with
  | O => Some []
  | S k' =>
      match draws (Z.to_nat n) fl with
      | Some (fl1, vs) =>
          match all_passes k' n seed (fst (lfsr_reset fl1 seed)) with
          | Some r => Some (vs :: r)
          | None => None
          end
      | None => None
      end
  end.
