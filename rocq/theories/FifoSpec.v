(** Specification of the byte FIFO: a bounded queue of bytes. *)
From Coq Require Import ZArith List.
From Verif Require Import CBase FifoModel.
Import ListNotations.
Open Scope Z_scope.

Inductive op := Put (d : list Z) | Get (n : Z) | Drop (n : Z).

(** What the caller sees: bytes accepted, or bytes delivered, or a count of bytes discarded. *)
Inductive res := Accepted (n : Z) | Got (d : list Z) | Dropped (n : Z).

(** The abstract queue of capacity [cap]. *)
Definition q_step (cap : Z) (q : list Z) (o : op) : list Z * res :=
  match o with
  | Put d => let k := Z.min (zlen d) (cap - zlen q) in (q ++ firstn (Z.to_nat k) d, Accepted k)
  | Get n => (skipn (Z.to_nat (Z.min n (zlen q))) q, Got (firstn (Z.to_nat (Z.min n (zlen q))) q))
  | Drop n => (skipn (Z.to_nat (Z.min n (zlen q))) q, Dropped (Z.min n (zlen q)))
  end.
Fixpoint q_run (cap : Z) (q : list Z) (os : list op) : list Z * list res :=
  match os with
  | [] => (q, [])
  | o :: os' => let (q1, r) := q_step cap q o in let (q2, rs) := q_run cap q1 os' in (q2, r :: rs)
  end.

(** The same calls on the implementation. *)
Definition f_step (f : fifo) (o : op) : option (fifo * res) :=
  match o with
  | Put d => match fifo_put f d with Some (f', k) => Some (f', Accepted k) | None => None end
  | Get n => match fifo_get f true n with
             | Some (f', d, k) => if k =? zlen d then Some (f', Got d) else None
             | None => None end
  | Drop n => match fifo_get f false n with Some (f', _, k) => Some (f', Dropped k) | None => None end
  end.
Fixpoint f_run (f : fifo) (os : list op) : option (fifo * list res) :=
  match os with
  | [] => Some (f, [])
  | o :: os' =>
      match f_step f o with
      | Some (f1, r) => match f_run f1 os' with Some (f2, rs) => Some (f2, r :: rs) | None => None end
      | None => None
      end
  end.

(** Lengths are C unsigned ints. *)
Definition op_ok (o : op) : Prop :=
  match o with Put d => zlen d < 2 ^ 32 | Get n => 0 <= n < 2 ^ 32 | Drop n => 0 <= n < 2 ^ 32 end.

(** History view: everything accepted, and everything taken out. *)
Fixpoint accepted (os : list op) (rs : list res) : list Z :=
  match os, rs with
  | Put d :: os', Accepted k :: rs' => firstn (Z.to_nat k) d ++ accepted os' rs'
  | _ :: os', _ :: rs' => accepted os' rs'
  | _, _ => []
  end.
Fixpoint delivered (rs : list res) : list Z :=
  match rs with
  | Got d :: rs' => d ++ delivered rs'
  | _ :: rs' => delivered rs'
  | [] => []
  end.
Definition no_drop (o : op) : Prop := match o with Drop _ => False | _ => True end.
