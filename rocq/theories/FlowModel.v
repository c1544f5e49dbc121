(** Model of flow control between jobs: [flow.c].

    Simplifications:
    - one group of jobs (one [flow_id]); groups do not share anything;
    - counters are below 2^53, so that they are exact as doubles, and the total weight is below
      2^32, so that it does not wrap;
    - [flow_put] subtracts counter and weight in one step (both are done under the lock);
    - [flow_get] and the addition of the weight in [flow_init_job] are one step (jobs join before
      they run, init.c);
    - sleeping and waiting for I/Os of a stalled job are left out. *)
From Coq Require Import ZArith List Lia Bool.
From Verif Require Import CBase FloatZ.
Import ListNotations.
Open Scope Z_scope.

(** How far a job is in [flow_threshold_exceeded]; the loads, the comparison and the additions of
    different jobs interleave. *)
Inductive pc :=
| Idle                    (** outside *)
| Loaded (f : Z)          (** flow.c:25-26: has read [flow_counter] *)
| Passed                  (** flow.c:36: the comparison was in its favour *)
| Half.                   (** flow.c:51: has added to the counter of the group *)

Record job := Job { weight : Z; count : Z; at_ : pc }.

(** flow.c:6-12 [struct fio_flow], with the jobs that refer to it. *)
Record group := Group { counter : Z; total : Z; jobs : list job }.

(** The quotient of positive integers below 2^64 as a double, in units of 2^-201: it has more than
    54 significant bits before it is rounded, the last one stands for the rest. *)
Definition fdiv (a b : Z) : Z :=
  let x := a * 2 ^ 200 in
  rne53 (2 * (x / b) + (if x mod b =? 0 then 0 else 1)).

(** flow.c:25-28, 36: the job has to wait. *)
Definition stalls (c f w t : Z) : bool := fdiv w t <? fdiv c f.

Fixpoint upd (l : list job) (i : nat) (j : job) : list job :=
  match l, i with
  | [], _ => []
  | _ :: l', O => j :: l'
  | x :: l', S i' => x :: upd l' i' j
  end.

Fixpoint del (l : list job) (i : nat) : list job :=
  match l, i with
  | [], _ => []
  | _ :: l', O => l'
  | x :: l', S i' => x :: del l' i'
  end.

Inductive action :=
| Go (i : nat)            (** job [i] takes its next step *)
| Join (w : Z)            (** flow.c:115-122 [flow_init_job] *)
| Leave (i : nat).        (** flow.c:124-130 [flow_exit_job] *)

(** flow.c:17-55 [flow_threshold_exceeded], 57-113 [flow_get], [flow_put]. *)
Definition step (g : group) (a : action) : option group :=
  match a with
  | Go i =>
    match nth_error (jobs g) i with
    | None => None
    | Some j =>
      match at_ j with
      | Idle => Some (Group (counter g) (total g) (upd (jobs g) i (Job (weight j) (count j) (Loaded (counter g)))))
      | Loaded f =>
        let p := if stalls (count j) f (weight j) (total g) then Idle else Passed in
        Some (Group (counter g) (total g) (upd (jobs g) i (Job (weight j) (count j) p)))
      | Passed => Some (Group (counter g + 1) (total g) (upd (jobs g) i (Job (weight j) (count j) Half)))
      | Half => Some (Group (counter g) (total g) (upd (jobs g) i (Job (weight j) (count j + 1) Idle)))
      end
    end
  | Join w => if w <=? 0 then None else Some (Group (counter g) (total g + w) (jobs g ++ [Job w 0 Idle]))
  | Leave i =>
    match nth_error (jobs g) i with
    | Some (Job w c Idle) => Some (Group (counter g - c) (total g - w) (del (jobs g) i))
    | _ => None
    end
  end.

Fixpoint run (g : group) (l : list action) : option group :=
  match l with
  | [] => Some g
  | a :: l' => match step g a with Some g' => run g' l' | None => None end
  end.

(** flow.c:75-88: a new group. *)
Definition fresh : group := Group 1 0 [].
