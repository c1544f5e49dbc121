(** Model of fifo.c / fifo.h: a byte FIFO over a power-of-two ring with free-running 32-bit indices.
    malloc is assumed to succeed; [None] is an out-of-bounds copy. *)
From Coq Require Import ZArith List Bool.
From Verif Require Import CBase Mem.
Import ListNotations.
Open Scope Z_scope.

(** fifo.h:24-29 [struct fifo]; the allocated bytes are the list [buffer]. *)
Record fifo := mkFifo { buffer : list Z; size : Z; fin : Z; fout : Z }.

(** fifo.c:29-42 [fifo_alloc]; malloc leaves the bytes unspecified. *)
Definition fifo_alloc (sz : Z) (junk : list Z) : fifo := mkFifo junk sz 0 0.

(** fifo.h:36-44 [fifo_len], [fifo_room]: unsigned 32-bit arithmetic. *)
Definition fifo_len (f : fifo) : Z := u32 (fin f - fout f).
Definition fifo_room (f : fifo) : Z := u32 (size f - fin f + fout f).

(** Index reduction "x & (size - 1)" of fifo.c:57-58, 84-85. *)
Definition mask (f : fifo) (x : Z) : Z := Z.land x (u32 (size f - 1)).

(** fifo.c:50-73 [fifo_put]; [d] is the caller's buffer of [len] bytes. *)
Definition fifo_put (f : fifo) (d : list Z) : option (fifo * Z) :=
  let len := Z.min (zlen d) (fifo_room f) in
  let l := Z.min len (u32 (size f - mask f (fin f))) in
  do b1 <- blit (buffer f) (Z.to_nat (mask f (fin f))) (firstn (Z.to_nat l) d);
  do b2 <- blit b1 0 (firstn (Z.to_nat (len - l)) (skipn (Z.to_nat l) d));
  Some (mkFifo b2 (size f) (u32 (fin f + len)) (fout f), len).

(** fifo.c:75-103 [fifo_get]; the result is the list of bytes copied to the caller's buffer, and
    the return value.  [want] is false for a NULL buffer. *)
Definition fifo_get (f : fifo) (want : bool) (n : Z) : option (fifo * list Z * Z) :=
  let len := Z.min n (u32 (fin f - fout f)) in
  let out' := u32 (fout f + len) in
  let f' := if fin f =? out' then mkFifo (buffer f) (size f) 0 0
            else mkFifo (buffer f) (size f) (fin f) out' in
  if want then
    let l := Z.min len (u32 (size f - mask f (fout f))) in
    do d1 <- slice (buffer f) (Z.to_nat (mask f (fout f))) (Z.to_nat l);
    do d2 <- slice (buffer f) 0 (Z.to_nat (len - l));
    Some (f', d1 ++ d2, len)
  else Some (f', [], len).
