(** What the merging of traces is to do. *)
From Coq Require Import ZArith List Lia Bool Sorted.
From Verif Require Import CBase MergeModel.
Import ListNotations.
Open Scope Z_scope.

(** A list made of the elements of others, each of which keeps its order. *)
Inductive interleave {A} : list (list A) -> list A -> Prop :=
| I_nil ls : Forall (fun l => l = []) ls -> interleave ls []
| I_cons ls1 x l ls2 out : interleave (ls1 ++ l :: ls2) out -> interleave (ls1 ++ (x :: l) :: ls2) (x :: out).

(** What a trace contributes: the records to replay, with their times in percent. *)
Definition contribution (s : Z) (f : list rec) : list rec :=
  map (fun r => Rec true (time r * s / 100) 0 (body r)) (filter useful f).

Definition earlier (a b : rec) : Prop := time a <= time b.
Definition in_time (l : list rec) : Prop := StronglySorted earlier l.

(** Times do not wrap. *)
Definition fits (s : Z) (r : rec) : Prop := 0 <= time r /\ time r * s < 2 ^ 64.
