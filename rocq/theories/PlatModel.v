(** Model of the latency histogram of stat.c: bucket index, bucket value, percentiles. *)
From Coq Require Import ZArith List Bool.
From Verif Require Import CBase.
Import ListNotations.
Open Scope Z_scope.

(** stat.h:32-35 *)
Definition PLAT_BITS : Z := 6.
Definition PLAT_VAL : Z := 64.
Definition PLAT_NR : Z := 29 * 64.

(** stat.c:79-82: index of the most significant bit, 0 for 0 (64 - clz - 1). *)
Definition msb (v : Z) : Z := if v =? 0 then 0 else Z.log2 v.

(** stat.c:74-108 [plat_val_to_idx]; [v] is an unsigned 64-bit value. *)
Definition plat_val_to_idx (v : Z) : Z :=
  if msb v <=? PLAT_BITS then v
  else
    let error_bits := msb v - PLAT_BITS in
    let base := Z.shiftl (error_bits + 1) PLAT_BITS in
    let offset := Z.land (PLAT_VAL - 1) (Z.shiftr v error_bits) in
    if base + offset <? PLAT_NR - 1 then base + offset else PLAT_NR - 1.

(** stat.c:114-136 [plat_idx_to_val]; [None] is the failed assert.  The C code computes
    base + ((k + 0.5) * (1 << error_bits)) in double; all values involved are integers below 2^53
    (error_bits >= 1 here), so the computation is exact and is written with integers. *)
Definition plat_idx_to_val (idx : Z) : option Z :=
  if idx <? PLAT_NR then
    if idx <? Z.shiftl PLAT_VAL 1 then Some idx
    else
      let error_bits := Z.shiftr idx PLAT_BITS - 1 in
      let base := Z.shiftl 1 (error_bits + PLAT_BITS) in
      let k := idx mod PLAT_VAL in
      Some (base + (2 * k + 1) * 2 ^ error_bits / 2)
  else None.

(** stat.c:3348-3356 and 3358-3382: one more sample in its bucket. *)
Definition add_sample (plat : list Z) (nsec : Z) : option (list Z) :=
  let idx := plat_val_to_idx nsec in
  do c <- znth plat idx;
  zupd plat idx (u64 (c + 1)).
Fixpoint add_samples (plat : list Z) (xs : list Z) : option (list Z) :=
  match xs with [] => Some plat | x :: xs' => do p <- add_sample plat x; add_samples p xs' end.

(** A percentile: the rational [pnum / pden] (a double is a rational). *)
Record pct := mkPct { pnum : Z; pden : Z }.

(** stat.c:188: sum >= plist[j] / 100.0 * nr.  The C test is in long double; the model uses exact
    rational arithmetic (rounding is not modelled). *)
Definition meets (sum nr : Z) (p : pct) : bool := pnum p * nr <=? sum * 100 * pden p.

(** stat.c:188-202, the inner loop at bucket [i]: the percentiles not yet found, the values found (last
    first), *minv, *maxv; the flag is is_last.  [None]: a failed assert (percentile above 100). *)
Fixpoint inner (ps : list pct) (sum nr i : Z) (acc : list Z) (minv maxv : Z)
  : option (list pct * list Z * Z * Z * bool) :=
  match ps with
  | [] => Some ([], acc, minv, maxv, true)
  | p :: ps' =>
      if meets sum nr p then
        if pnum p <=? 100 * pden p then
          do v <- plat_idx_to_val i;
          let minv' := if v <? minv then v else minv in
          let maxv' := if maxv <? v then v else maxv in
          match ps' with
          | [] => Some ([], v :: acc, minv', maxv', true)
          | _ => inner ps' sum nr i (v :: acc) minv' maxv'
          end
        else None
      else Some (ps, acc, minv, maxv, false)
  end.

(** stat.c:185-203, the loop over the buckets. *)
Fixpoint outer (plat : list Z) (ps : list pct) (sum nr i : Z) (acc : list Z) (minv maxv : Z)
  : option (list Z * Z * Z * bool) :=
  match plat with
  | [] => Some (rev acc, minv, maxv, false)
  | c :: plat' =>
      let sum' := u64 (sum + c) in
      do (ps', acc', minv', maxv', is_last) <- inner ps sum' nr i acc minv maxv;
      if is_last : bool then Some (rev acc', minv', maxv', true)
      else outer plat' ps' sum' nr (i + 1) acc' minv' maxv'
  end.

(** Sorting by value (stat.c:175-176 qsort with double_cmp): insertion sort stands for qsort. *)
Definition pct_le (a b : pct) : bool := pnum a * pden b <=? pnum b * pden a.
Fixpoint insert (p : pct) (l : list pct) : list pct :=
  match l with
  | [] => [p]
  | q :: l' => if pct_le p q then p :: l else q :: insert p l'
  end.
Definition sort_pcts (l : list pct) : list pct := fold_right insert [] l.

(** stat.c:163-165: the list ends at the first zero entry or after 20 entries. *)
Fixpoint cut_zero (n : nat) (l : list pct) : list pct :=
  match n, l with
  | S n', p :: l' => if pnum p =? 0 then [] else p :: cut_zero n' l'
  | _, _ => []
  end.

(** stat.c:151-210 [calc_clat_percentiles]: sorted list, values, *minv, *maxv, and whether every
    percentile was found.  malloc is assumed to succeed. *)
Definition calc_clat_percentiles (plat : list Z) (nr : Z) (plist : list pct)
  : option (list pct * list Z * Z * Z * bool) :=
  let ps := sort_pcts (cut_zero 20 plist) in
  match ps with
  | [] => Some ([], [], ones64, 0, true)
  | _ => do (vals, minv, maxv, ok) <- outer plat ps 0 nr 0 [] ones64 0;
         Some (ps, vals, minv, maxv, ok)
  end.
