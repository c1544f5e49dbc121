(** Executions of the main process and the jobs, for C56. *)
From Coq Require Import ZArith List.
From Verif Require Import JobsModel.
Import ListNotations.
Open Scope Z_scope.

(** One step of an execution: the main process, which may create a job, or an event. *)
Inductive step : state -> option nat -> state -> Prop :=
| Main s s' c : sched s = Some (s', c) -> step s c s'
| Event s s' e : happens s e = Some s' -> step s None s'.
(** An execution from the start and the jobs that it creates, the last one first. *)
Inductive run (os : list (opts * bool)) : state -> list nat -> Prop :=
| Rinit : run os (init os) []
| Rstep s s' c l : run os s l -> step s c s' -> run os s' (match c with Some i => i :: l | None => l end).
(** A job that has been created and not reaped. *)
Definition active (j : job) : Prop := st j <> NotCreated /\ st j <> Reaped.
