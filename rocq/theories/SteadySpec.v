(** The last window of measurements, the least squares line through it and the deviation from its mean. *)
From Coq Require Import ZArith List QArith.
From Verif Require Import SteadyModel.
Import ListNotations.
Open Scope Z_scope.

(** The last [n] elements. *)
Definition last_n {A} (n : nat) (l : list A) : list A := skipn (length l - n) l.
Fixpoint total (l : list Z) : Z := match l with [] => 0 | y :: r => y + total r end.
(** The sum of position times value, positions from [i]. *)
Fixpoint weighted (i : Z) (l : list Z) : Z := match l with [] => 0 | y :: r => i * y + weighted (i + 1) r end.

Open Scope Q_scope.
(** The squared error of the line a + b x for the values at positions i, i + 1, ... *)
Fixpoint sse (a b i : Q) (l : list Z) : Q :=
  match l with [] => 0 | y :: r => (inject_Z y - (a + b * i)) * (inject_Z y - (a + b * i)) + sse a b (i + 1) r end.
(** [b] is the slope of a line that fits best. *)
Definition fit_slope (l : list Z) (b : Q) : Prop := exists a, forall a' b', sse a b 0 l <= sse a' b' 0 l.

(** [m] is the mean: the deviations from it cancel. *)
Definition is_mean (l : list Z) (m : Q) : Prop := m * inject_Z (Z.of_nat (length l)) == inject_Z (total l).
Definition dist (a b : Q) : Q := if Qlt_le_dec a b then b - a else a - b.
(** [d] is the largest distance of a value from [m]. *)
Definition is_max_dev (l : list Z) (m d : Q) : Prop :=
  (forall y, In y l -> dist (inject_Z y) m <= d) /\ exists y, In y l /\ dist (inject_Z y) m == d.
Close Scope Q_scope.

(** What a check may report for the window [w]: the absolute slope of the best line, which is unique, or that slope in percent
    of the mean; the largest deviation from the mean, or that deviation in percent of the mean. The slope percentage uses
    the mean rounded down. *)
Definition slope_reads (pct : bool) (w : list Z) (k : crit) : Prop :=
  exists b, fit_slope w b /\ (forall b', fit_slope w b' -> (b' == b)%Q) /\
    let mean := total w / Z.of_nat (length w) in
    if pct then (mean = 0 -> k = Undefined) /\ (mean <> 0 -> exists q, k = Crit q /\ (q * inject_Z mean == 100 * dist b 0)%Q)
    else exists q, k = Crit q /\ (q == dist b 0)%Q.
Definition dev_reads (pct : bool) (w : list Z) (k : crit) : Prop :=
  exists m d, is_mean w m /\ is_max_dev w m d /\
    if pct then ((m == 0)%Q -> k = Undefined) /\ (~ (m == 0)%Q -> exists q, k = Crit q /\ (q * m == 100 * d)%Q)
    else exists q, k = Crit q /\ (q == d)%Q.

