(** Thinking, for C58. *)
From Coq Require Import ZArith List.
From Verif Require Import ThinkModel.
Import ListNotations.
Open Scope Z_scope.

(** Options as they are after fixup_options (init.c:802-805). *)
Definition opts_ok (o : topts) : Prop := 0 < thinktime o < 2 ^ 31 /\ 0 <= spin o <= thinktime o /\ 0 < blocks o < 2 ^ 32 /\ 0 <= iotime o < 2 ^ 32 /\ 0 <= timeout o < 2 ^ 63.
(** How many of the calls waited. *)
Fixpoint waits (l : list (option wait)) : Z := match l with [] => 0 | Some _ :: l' => 1 + waits l' | None :: l' => waits l' end.
(** The blocks are counted up from [b], at most [d] between two calls. *)
Fixpoint counts_up (d b : Z) (l : list seen) : Prop := match l with [] => True | e :: l' => b <= cnt e <= b + d /\ cnt e < 2 ^ 62 /\ counts_up d (cnt e) l' end.
Definition end_count (b : Z) (l : list seen) : Z := match rev l with [] => b | e :: _ => cnt e end.
(** Microseconds of a request. *)
Definition micro (r : Z * Z) : Z := fst r * 1000000 + snd r / 1000.
