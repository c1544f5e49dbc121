(** Specification of the running statistics: textbook definitions over the list of samples. *)
From Coq Require Import ZArith List Bool QArith Qcanon.
From Verif Require Import CBase IoStatModel.
Import ListNotations.
Open Scope Z_scope.

(** Sum of a list of rationals. *)
Definition sumq (l : list Qc) : Qc := fold_right Qcplus (qz 0) l.

(** Arithmetic mean and sum of squared deviations from it. *)
Definition avg (xs : list Z) : Qc := (sumq (map qz xs) / qz (zlen xs))%Qc.
Definition sqdev (xs : list Z) : Qc := sumq (map (fun x => ((qz x - avg xs) * (qz x - avg xs))%Qc) xs).

(** [m] is the least (greatest) element of [xs]. *)
Definition least (xs : list Z) (m : Z) : Prop := In m xs /\ forall x, In x xs -> m <= x.
Definition greatest (xs : list Z) (m : Z) : Prop := In m xs /\ forall x, In x xs -> x <= m.

(** [st] is the statistic of the samples [xs]. *)
Definition is_stat_of (xs : list Z) (st : io_stat) : Prop :=
  match xs with
  | [] => st = reset_io_stat
  | _ => samples st = zlen xs /\ least xs (min_val st) /\ greatest xs (max_val st) /\
         mean st = avg xs /\ S st = sqdev xs
  end.

Definition u64_ok (x : Z) : Prop := 0 <= x < 2 ^ 64.

(** Jobs report one after the other into a group, groups into a total: any tree of merges. *)
Inductive merges := Job (xs : list Z) | Merge (l r : merges).
Fixpoint pooled (t : merges) : list Z :=
  match t with Job xs => xs | Merge l r => pooled l ++ pooled r end.
Fixpoint run_merges (t : merges) : io_stat :=
  match t with
  | Job xs => fold_left add_stat_sample xs reset_io_stat
  | Merge l r => sum_stat (run_merges l) (run_merges r) false
  end.

(** Averaged log: feeding (elapsed, value) samples in order. *)
Definition run_log (avg_msec : Z) (il : bool) (lm : log_max_t) (l : iolog) (ss : list (Z * Z)) : iolog :=
  fold_left (fun l s => add_log_sample avg_msec il lm l (fst s) (snd s)) ss l.

Definition log0 : iolog := mkLog reset_io_stat 0 [].

(** Integer nearest to a non-negative rational, halves rounded up. *)
Definition nearest (q : Qc) (n : Z) : Prop :=
  ((qz n - Q2Qc (1 # 2) <= q)%Qc /\ (q < qz n + Q2Qc (1 # 2))%Qc).

(** The log entry [e], written at some time, describes the group of samples [g]. *)
Definition describes (lm : log_max_t) (g : list (Z * Z)) (e : Z * Z * Z) : Prop :=
  let vs := map snd g in
  let '(_, v0, v1) := e in
  g <> [] /\
  match lm with
  | LogAvg => nearest (avg vs) v0 /\ v1 = 0
  | LogMax => greatest vs v0 /\ v1 = 0
  | LogBoth => nearest (avg vs) v0 /\ greatest vs v1
  end.
