(** Specification of the pattern grammar: a pattern text is a sequence of items, and the pattern is the
    concatenation of the bytes each item stands for. *)
From Coq Require Import ZArith List Bool.
From Verif Require Import CBase PatternSpec PatParseModel.
Import ListNotations.
Open Scope Z_scope.

Inductive item :=
| IStr (s : list Z)                 (* "abc"      *)
| IHex (upper : bool) (ds : list Z) (* 0xa1b2c    *)
| IDec (neg : bool) (ds : list Z)   (* 66, -1024  *)
| IOff                              (* %o         *)
| IFile (name content : list Z).    (* 'file', holding [content] *)

Definition text (it : item) : list Z :=
  match it with
  | IStr s => [DQ] ++ s ++ [DQ]
  | IHex up ds => [c0; if up then 88 else 120] ++ ds
  | IDec neg ds => (if neg then [45] else []) ++ ds
  | IOff => [PC; 111]
  | IFile name _ => [SQ] ++ name ++ [SQ]
  end.
Definition texts (its : list item) : list Z := concat (map text its).

(** Value of a decimal item. *)
Definition dec_value (neg : bool) (ds : list Z) : Z := if neg then - dec_val ds else dec_val ds.

(** A decimal stands for its 32-bit two's complement value, little-endian, in as few bytes as needed
    (one byte for zero). *)
Definition dec_bytes (v : Z) : list Z :=
  let w := v mod 2 ^ 32 in
  let n := if w <? 2 ^ 8 then 1%nat else if w <? 2 ^ 16 then 2%nat else if w <? 2 ^ 24 then 3%nat else 4%nat in
  map (byte_of w) (seq 0 n).

(** A hexadecimal number stands for its digits, two per byte, in reading order; with an odd number of
    digits the first byte has one digit. *)
Fixpoint pairs (ds : list Z) : list Z :=
  match ds with a :: b :: r => (hex_val a * 16 + hex_val b) :: pairs r | _ => [] end.
Definition hex_bytes (ds : list Z) : list Z :=
  if Nat.odd (length ds) then match ds with a :: r => hex_val a :: pairs r | [] => [] end else pairs ds.

Definition bytes (it : item) : list Z :=
  match it with
  | IStr s => s
  | IHex _ ds => hex_bytes ds
  | IDec neg ds => dec_bytes (dec_value neg ds)
  | IOff => repeat 0 8
  | IFile _ content => content
  end.
Definition all_bytes (its : list item) : list Z := concat (map bytes its).

(** Legal items. *)
Definition item_ok (files : list Z -> option (list Z)) (it : item) : Prop :=
  match it with
  | IStr s => s <> [] /\ ~ In DQ s
  | IHex _ ds => ds <> [] /\ Forall (fun c => is_hex c = true) ds
  | IDec neg ds => ds <> [] /\ Forall (fun c => is_digit c = true) ds /\
                   - 2 ^ 31 <= dec_value neg ds < 2 ^ 31
  | IOff => True
  | IFile name content => ~ In SQ name /\ files name = Some content /\ content <> []
  end.

(** Two consecutive items that can be told apart: an unsigned decimal may not follow a number. *)
Definition is_number (it : item) : Prop := match it with IHex _ _ | IDec _ _ => True | _ => False end.
Fixpoint separable (its : list item) : Prop :=
  match its with
  | a :: (b :: _) as r =>
      (is_number a -> match b with IDec false _ => False | _ => True end) /\ separable r
  | _ => True
  end.

(** [pos] is the position of the first "0x" or "0X" of [s]. *)
Definition first_0x (s : list Z) (pos : nat) : Prop :=
  (exists x, is_x x = true /\ nth_error s pos = Some c0 /\ nth_error s (S pos) = Some x) /\
  forall q, (q < pos)%nat ->
    ~ (exists x, is_x x = true /\ nth_error s q = Some c0 /\ nth_error s (S q) = Some x).

(** The restriction the implementation needs: the first "0x" in the text that starts with a decimal
    item is fewer than 24 characters away. *)
Fixpoint near (its : list item) : Prop :=
  match its with
  | [] => True
  | it :: r => match it with
               | IDec _ _ => forall pos, first_0x (texts its) pos -> (pos < 24)%nat
               | _ => True
               end /\ near r
  end.

(** Positions of the %o fields, given the number of bytes before. *)
Fixpoint off_fields (from : nat) (its : list item) : list nat :=
  match its with
  | [] => []
  | it :: r => (match it with IOff => [from] | _ => [] end) ++ off_fields (from + length (bytes it)) r
  end.
