(** Specification of pattern fill and compare, independent of the doubling copies. *)
From Coq Require Import ZArith List Bool.
From Verif Require Import CBase PatternModel.
Import ListNotations.
Open Scope Z_scope.

(** Byte [i] of the infinite repetition of [pat]. *)
Definition cyc (pat : list Z) (i : nat) : Z := nth (i mod length pat) pat 0.

(** Byte [k] (from the least significant) of [v]. *)
Definition byte_of (v : Z) (k : nat) : Z := (v / 2 ^ (8 * Z.of_nat k)) mod 256.

(** Byte [k] of the pattern for a block at [offset]: inside a "%o" field (an 8-byte field starting at
    one of the positions [fields]) it is a byte of the offset, elsewhere the configured byte. *)
Fixpoint field_at (fields : list nat) (k : nat) : option nat :=
  match fields with
  | [] => None
  | f :: fs => if ((f <=? k) && (k <? f + 8))%nat then Some (k - f)%nat else field_at fs k
  end.
Definition pat_byte (pat : list Z) (fields : list nat) (offset : Z) (k : nat) : Z :=
  match field_at fields k with
  | Some b => byte_of offset b
  | None => nth k pat 0
  end.

(** Byte [j] of a block written at [offset]: the block is cut in pieces of [interval] bytes (one piece
    if [interval] is 0); each piece repeats the pattern, whose offset fields hold the offset of the
    piece. *)
Definition piece_start (interval j : nat) : nat :=
  if (interval =? 0)%nat then 0%nat else (j / interval * interval)%nat.
Definition block_byte (pat : list Z) (fields : list nat) (interval : nat) (offset : Z) (j : nat) : Z :=
  let s := piece_start interval j in
  pat_byte pat fields (offset + Z.of_nat s) ((j - s) mod length pat)%nat.

(** Fields as the pattern parser lays them out: in order, disjoint, inside the pattern. *)
Fixpoint fields_ok (from : nat) (fields : list nat) (plen : nat) : Prop :=
  match fields with
  | [] => True
  | f :: fs => (from <= f)%nat /\ (f + 8 <= plen)%nat /\ fields_ok (f + 8) fs plen
  end.

(** The format table the parser produces for these fields (descriptor %o, 8 bytes). *)
Definition fmts_of (fields : list nat) : list pfmt := map (fun f => mkFmt (Z.of_nat f) 8) fields.
