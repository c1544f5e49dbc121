(** Model of io_u_queue.h / io_u_queue.c.  I/O units are non-NULL pointers, modelled as numbers;
    NULL is the Coq [None] inside a slot.  The outer [None] is a failed assert or an access out of
    bounds; allocation is assumed to succeed. *)
From Coq Require Import ZArith List Bool.
From Verif Require Import CBase.
Import ListNotations.
Open Scope Z_scope.

Definition slot := option Z.

(** io_u_queue.h:11-15 [struct io_u_queue]. *)
Record queue := mkQ { q_ios : list slot; q_nr : Z; q_max : Z }.

(** io_u_queue.c:6-19 [io_u_qinit] with calloc'ed slots. *)
Definition io_u_qinit (nr : Z) : queue := mkQ (repeat None (Z.to_nat nr)) 0 nr.

(** io_u_queue.h:17-28 [io_u_qpop]. *)
Definition io_u_qpop (q : queue) : option (queue * slot) :=
  if q_nr q =? 0 then Some (q, None)
  else
    let next := q_nr q - 1 in
    do x <- znth (q_ios q) next;
    do ios <- zupd (q_ios q) next None;
    Some (mkQ ios next (q_max q), x).

(** io_u_queue.h:30-38 [io_u_qpush]. *)
Definition io_u_qpush (q : queue) (x : Z) : option queue :=
  if q_nr q <? q_max q then
    do ios <- zupd (q_ios q) (q_nr q) (Some x);
    Some (mkQ ios (u32 (q_nr q + 1)) (q_max q))
  else None.

(** io_u_queue.h:40-43 [io_u_qempty]. *)
Definition io_u_qempty (q : queue) : bool := q_nr q =? 0.

(** io_u_queue.h:51-56 [struct io_u_ring]. *)
Record ring := mkR { r_head : Z; r_tail : Z; r_max : Z; r_ring : list slot }.

(** io_u_queue.c:33-41: rounding up to a power of two. *)
Definition smear (x : Z) : Z :=
  let x1 := Z.lor x (Z.shiftr x 1) in
  let x2 := Z.lor x1 (Z.shiftr x1 2) in
  let x3 := Z.lor x2 (Z.shiftr x2 4) in
  let x4 := Z.lor x3 (Z.shiftr x3 8) in
  Z.lor x4 (Z.shiftr x4 16).
Definition ring_size (nr : Z) : Z :=
  let m := u32 (nr + 1) in
  if Z.land m (u32 (m - 1)) =? 0 then m else u32 (smear (u32 (m - 1)) + 1).

(** io_u_queue.c:29-49 [io_u_rinit]. *)
Definition io_u_rinit (nr : Z) : ring :=
  mkR 0 0 (ring_size nr) (repeat None (Z.to_nat (ring_size nr))).

(** io_u_queue.h:61-70 [io_u_rpush]; the test compares head + 1 before reduction. *)
Definition io_u_rpush (r : ring) (x : Z) : option ring :=
  if negb (u32 (r_head r + 1) =? r_tail r) then
    do l <- zupd (r_ring r) (r_head r) (Some x);
    Some (mkR (Z.land (u32 (r_head r + 1)) (u32 (r_max r - 1))) (r_tail r) (r_max r) l)
  else None.

(** io_u_queue.h:72-82 [io_u_rpop]. *)
Definition io_u_rpop (r : ring) : option (ring * slot) :=
  if negb (r_head r =? r_tail r) then
    do x <- znth (r_ring r) (r_tail r);
    Some (mkR (r_head r) (Z.land (u32 (r_tail r + 1)) (u32 (r_max r - 1))) (r_max r) (r_ring r), x)
  else Some (r, None).

(** io_u_queue.h:84-87 [io_u_rempty]. *)
Definition io_u_rempty (r : ring) : bool := r_head r =? r_tail r.
