(** What write buffers are to contain. *)
From Coq Require Import ZArith List Lia Bool Arith.
From Verif Require Import CBase RandModel PatternModel PatternSpec FillModel.
Import ListNotations.
Open Scope Z_scope.

(** The word at index [i] of a random buffer of [len] bytes: whole rounds of the [B] buckets, then
    the first bucket alone. *)
Definition word (B len : nat) (seed : Z) (i : nat) : Z :=
  let n := (len / 8 / B)%nat in
  if (i <? n * B)%nat then (seed * nth (i mod B) primes 0 * golden ^ Z.of_nat (i / B)) mod 2 ^ 64
  else (seed * golden ^ Z.of_nat (n + (i - n * B))) mod 2 ^ 64.

(** A piece of [n] bytes: random data, then the share that compresses. *)
Definition piece (c : cfg) (x : Z) (n : nat) : list Z :=
  let r := (n * (100 - cperc c) / 100)%nat in
  fill_random (buckets c) r x ++ soft (pattern c) (n - r).

(** The size of the pieces of a buffer, and their number. *)
Definition quantum (c : cfg) (minw : nat) : nat := min_not_zero minw (cchunk c).
Definition pieces (q len : nat) : nat := ((len + q - 1) / q)%nat.

(** A buffer made from the generator [f], each piece with a new seed, or all with the same
    ([fresh] = 0). *)
Fixpoint page_loop (fuel fresh : nat) (c : cfg) (f : frand) (q len : nat) : list Z :=
  match fuel with
  | O => []
  | S fuel' =>
    if (len <=? q)%nat then piece c (fst (next_seed f)) len
    else piece c (fst (next_seed f)) q ++ page_loop fuel' fresh c (advance fresh f) q (len - q)
  end.

Definition page (fresh : nat) (c : cfg) (f : frand) (q len : nat) : list Z := page_loop (S len) fresh c f q len.

(** The unique buffer number [k] of a job that starts with the generator [f]. *)
Definition unique (c : cfg) (f : frand) (minw len k : nat) : list Z :=
  page 1 c (advance (k * pieces (quantum c minw) len) f) (quantum c minw) len.

(** The number of buffers that were drawn to be unique. *)
Definition fresh_count (c : cfg) (vs : list (nat * nat)) : nat :=
  length (filter (fun x => negb (fst x <=? dperc c)%nat) vs).

(** The unique buffer that buffer [x] after the buffers [vs] is to be equal to. *)
Definition twin (c : cfg) (vs : list (nat * nat)) (x : nat * nat) : nat :=
  if (fst x <=? dperc c)%nat then
    match dmode c with Repeat => fresh_count c vs | WorkingSet => snd x end
  else fresh_count c vs.
