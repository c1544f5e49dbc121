(** Specification of the I/O unit containers: a bounded stack and a queue. *)
From Coq Require Import ZArith List.
From Verif Require Import CBase IouqModel.
Import ListNotations.
Open Scope Z_scope.

Inductive iop := Push (x : Z) | Pop.

(** Bounded stack: a push beyond the bound is an error, a pop of an empty stack yields nothing. *)
Fixpoint stack_run (cap : Z) (s : list Z) (os : list iop) : option (list Z * list slot) :=
  match os with
  | [] => Some (s, [])
  | Push x :: os' => if zlen s <? cap then stack_run cap (x :: s) os' else None
  | Pop :: os' =>
      match s with
      | [] => match stack_run cap [] os' with Some (s', r) => Some (s', None :: r) | None => None end
      | x :: t => match stack_run cap t os' with Some (s', r) => Some (s', Some x :: r) | None => None end
      end
  end.

(** Bounded queue. *)
Fixpoint queue_run (cap : Z) (s : list Z) (os : list iop) : option (list Z * list slot) :=
  match os with
  | [] => Some (s, [])
  | Push x :: os' => if zlen s <? cap then queue_run cap (s ++ [x]) os' else None
  | Pop :: os' =>
      match s with
      | [] => match queue_run cap [] os' with Some (s', r) => Some (s', None :: r) | None => None end
      | x :: t => match queue_run cap t os' with Some (s', r) => Some (s', Some x :: r) | None => None end
      end
  end.

(** The same calls on the implementation; the list collects what the pops return. *)
Fixpoint q_run (q : queue) (os : list iop) : option (queue * list slot) :=
  match os with
  | [] => Some (q, [])
  | Push x :: os' => match io_u_qpush q x with Some q' => q_run q' os' | None => None end
  | Pop :: os' =>
      match io_u_qpop q with
      | Some (q', y) => match q_run q' os' with Some (q2, r) => Some (q2, y :: r) | None => None end
      | None => None
      end
  end.
Fixpoint r_run (q : ring) (os : list iop) : option (ring * list slot) :=
  match os with
  | [] => Some (q, [])
  | Push x :: os' => match io_u_rpush q x with Some q' => r_run q' os' | None => None end
  | Pop :: os' =>
      match io_u_rpop q with
      | Some (q', y) => match r_run q' os' with Some (q2, r) => Some (q2, y :: r) | None => None end
      | None => None
      end
  end.
