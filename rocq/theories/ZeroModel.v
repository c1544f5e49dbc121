(** Model of the zero check used for trimmed and zeroed ranges. A read outside the buffer is [None]. *)
From Coq Require Import ZArith List Bool.
From Verif Require Import CBase.
Import ListNotations.
Open Scope Z_scope.

(** The loop over the first 16 bytes, verify.c:865-872: Some (inl r) is "return r", Some (inr (p, length)) falls through. *)
Fixpoint head_loop (n : nat) (data : list Z) (p length : Z) : option (Z + Z * Z) :=
  match n with
  | O => Some (inr (p, length))
  | S n =>
      if length =? 0 then Some (inl 1)
      else do b <- znth data p;
           if negb (b =? 0) then Some (inl 0) else head_loop n data (p + 1) (length - 1)
  end.

(** memcmp(data + i, data + j, n) == 0, reading byte by byte and stopping at the first difference. *)
Fixpoint memeq (n : nat) (data : list Z) (i j : Z) : option bool :=
  match n with
  | O => Some true
  | S n => do a <- znth data i; do b <- znth data j; if a =? b then memeq n data (i + 1) (j + 1) else Some false
  end.

(** mem_is_zero, verify.c:859-876. *)
Definition mem_is_zero (data : list Z) (length : Z) : option Z :=
  do r <- head_loop 16 data 0 length;
  match r with
  | inl r => Some r
  | inr (p, length) => do e <- memeq (Z.to_nat length) data 0 p; Some (if e then 1 else 0)
  end.

(** mem_is_zero_slow, verify.c:878-892: the result and *offset. *)
Fixpoint slow_loop (fuel : nat) (data : list Z) (p length offset : Z) : option (Z * Z) :=
  if length =? 0 then Some (1, offset)
  else match fuel with
       | O => None
       | S fuel => do b <- znth data p;
                   if negb (b =? 0) then Some (0, offset) else slow_loop fuel data (p + 1) (length - 1) (offset + 1)
       end.
Definition mem_is_zero_slow (data : list Z) (length : Z) : option (Z * Z) := slow_loop (Z.to_nat length) data 0 length 0.

(** verify_zero, verify.c:894-908: the return value and the block offset logged. *)
Definition EILSEQ := 84.
Definition verify_zero (data : list Z) (length : Z) : option (Z * option Z) :=
  do r <- mem_is_zero data length;
  if negb (r =? 0) then Some (0, None)
  else do q <- mem_is_zero_slow data length; Some (EILSEQ, Some (snd q)).

(** verify_trimmed_io_u, verify.c:910-916; [trim_zero] is the option trim_verify_zero. *)
Definition verify_trimmed (trim_zero : bool) (data : list Z) (length : Z) : option (Z * option Z) :=
  if negb trim_zero then Some (0, None) else verify_zero data length.
