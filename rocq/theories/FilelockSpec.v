(** Vocabulary for C38. *)
From Coq Require Import ZArith List Bool.
From Verif Require Import FilelockModel.
Import ListNotations.
Open Scope Z_scope.

(** Job [i] holds the lock of the file name [n]: its lock call has returned and it has not called unlock. *)
Definition holds (s : st) (i : nat) (n : Z) : Prop := exists j, nth_error (jobs s) i = Some j /\ In n (held j).
(** Job [i] has been given the lock structure [ff] and is about to wait for it, waits for it, or is about to give it up. *)
Definition uses (s : st) (i : nat) (ff : nat) : Prop :=
  exists p hl, nth_error (jobs s) i = Some (mkJob p hl) /\
    match p with PWait _ f _ | PTry _ f | PTryMain _ f | PTryIn _ f | PUnlB _ f _ | PUnlC _ f _ => f = ff | _ => False end.
(** A call of unlock has not finished. *)
Definition unlocking (s : st) (i : nat) (n : Z) : Prop :=
  exists p hl, nth_error (jobs s) i = Some (mkJob p hl) /\ match p with PUnlock m | PUnlockIn m | PUnlB m _ _ | PUnlC m _ _ => m = n | _ => False end.
Definition waiting (s : st) (i : nat) (n : Z) (ff : nat) : Prop := exists t hl, nth_error (jobs s) i = Some (mkJob (PWait n ff t) hl).
Definition quiet (s : st) : Prop := Forall (fun j => j = mkJob PIdle []) (jobs s).
