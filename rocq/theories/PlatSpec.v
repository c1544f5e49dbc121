(** Specification of the latency histogram: exact counting statements over the list of samples. *)
From Coq Require Import ZArith List Bool.
From Verif Require Import CBase PlatModel.
Import ListNotations.
Open Scope Z_scope.

(** Number of samples at or below [z]. *)
Definition count_le (xs : list Z) (z : Z) : Z := zlen (filter (fun y => y <=? z) xs).

(** [x] is the (nearest-rank) percentile [p] of the samples: a sample such that at least p percent of
    the samples are at or below it, while no smaller sample has that property. *)
Definition is_percentile (p : pct) (xs : list Z) (x : Z) : Prop :=
  In x xs /\
  pnum p * zlen xs <= 100 * pden p * count_le xs x /\
  forall z, In z xs -> z < x -> 100 * pden p * count_le xs z < pnum p * zlen xs.

(** Legal percentiles: above 0, at most 100. *)
Definition pct_ok (p : pct) : Prop := 0 < pden p /\ 0 < pnum p <= 100 * pden p.

(** Sorted and a rearrangement. *)
Fixpoint sorted (l : list pct) : Prop :=
  match l with
  | p :: (q :: _) as r => pnum p * pden q <= pnum q * pden p /\ sorted r
  | _ => True
  end.
