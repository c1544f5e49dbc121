(** Model of the printing of numbers in reports: lib/num2str.c. A string is the list of its character codes.

    Simplifications:
    - [maxlen] is positive, and [asprintf] finds memory;
    - the conversion f of printf rounds the exact value of the double, ties to even (glibc). *)
From Coq Require Import ZArith List Bool String.
From Verif Require Import CBase CStr FloatZ UnitsModel.
Import ListNotations.
Open Scope Z_scope.

(** lib/num2str.h:6-13 [enum n2s_unit]. *)
Inductive unit_t := None_ | Persec | Byte | Bit | Bytepersec | Bitpersec.

(** lib/num2str.c:11, 51 [iecstr, sistr]. *)
Definition iecstr : list (list Z) := map chars [""; "Ki"; "Mi"; "Gi"; "Ti"; "Pi"; "Ei"]%string.
Definition sistr : list (list Z) := map chars [""; "k"; "M"; "G"; "T"; "P"; "E"]%string.
Definition nr_prefixes : Z := 7.
Definition prefix (pow2 : bool) (i : Z) : list Z := nth (Z.to_nat i) (if pow2 then iecstr else sistr) [].
(** lib/num2str.c:53-60 [unitstr]. *)
Definition unitstr (u : unit_t) : list Z :=
  chars match u with None_ => "" | Persec => "/s" | Byte => "B" | Bit => "bit" | Bytepersec => "B/s" | Bitpersec => "bit/s" end.
(** lib/num2str.c:61. *)
Definition thousand (pow2 : bool) : Z := if pow2 then 1024 else 1000.

(** lib/num2str.c:75-76; [base] is an int, so [fuel] 32 is enough. *)
Fixpoint base_loop (fuel : nat) (base t i : Z) : Z :=
  match fuel with
  | O => i
  | S f => if base <=? 1 then i else base_loop f (base / t) t (i + 1)
  end.

(** lib/num2str.c:78-93. *)
Definition in_units (u : unit_t) (num : Z) : Z := match u with Bit | Bitpersec => u64 (num * 8) | _ => num end.

Definition strlen (s : list Z) : Z := Z.of_nat (List.length s).

(** lib/num2str.c:98-108: the quotient, the last remainder ([None] is -1U) and [post_index]. *)
Fixpoint div_loop (fuel : nat) (t maxlen num : Z) (modulo : option Z) (i : Z) : Z * option Z * Z :=
  match fuel with
  | O => (num, modulo, i)
  | S f =>
    if nr_prefixes <=? i then (num, modulo, i)
    else if strlen (dec num) <=? maxlen then (num, modulo, i)
    else div_loop f t maxlen (num / t) (Some (num mod t)) (i + 1)
  end.

(** The nearest integer to [a] / [b], ties to even. *)
Definition rhe (a b : Z) : Z :=
  let q := a / b in let r := 2 * (a mod b) in
  if r <? b then q else if (r =? b) && Z.even q then q else q + 1.
(** [d] decimal digits, with leading zeros. *)
Fixpoint padded (d : nat) (n : Z) : list Z := match d with O => [] | S d' => padded d' (n / 10) ++ [48 + n mod 10] end.
(** The conversion .*f of C11 7.21.6.1 of [q] / 2^[e]. *)
Definition fixed (d : nat) (q e : Z) : list Z :=
  let r := rhe (q * 10 ^ Z.of_nat d) (2 ^ e) in
  dec (r / 10 ^ Z.of_nat d) ++ [46] ++ padded d (r mod 10 ^ Z.of_nat d).
(** The quotient of integers below 2^64 as a double, in units of 2^-201: it has more than 54 significant bits before it is rounded,
    the last one stands for the rest. *)
Definition fdiv (a b : Z) : Z :=
  let x := a * 2 ^ 200 in rne53 (2 * (x / b) + (if x mod b =? 0 then 0 else 1)).

(** lib/num2str.c:49-150 [num2str]. *)
Definition num2str (num maxlen base : Z) (pow2 : bool) (u : unit_t) : list Z :=
  let t := thousand pow2 in
  let '(n, modulo, i) := div_loop 8 t maxlen (in_units u num) None (base_loop 32 base t 0) in
  let i := if nr_prefixes <=? i then 0 else i in
  let done n := dec n ++ prefix pow2 i ++ unitstr u in
  match modulo with
  | None => done n
  | Some m =>
    let room := maxlen - strlen (dec n) in
    if room <=? 1 then done (if t / 2 <=? m then n + 1 else n)
    else
      let tmp := fixed (Z.to_nat (room - 1)) (fdiv m t) 201 in
      let n := if hd 0 tmp =? 49 then n + 1 else n in
      dec n ++ [46] ++ skipn 2 tmp ++ prefix pow2 i ++ unitstr u
  end.

(** lib/num2str.c:30-33: [b] is the number as a double, which dividing by 1024 changes only in its exponent. *)
Fixpoint unit_loop (fuel : nat) (b u : Z) : Z :=
  match fuel with
  | O => u
  | S f => if (1024 * 1024 ^ u <=? b) && (u <? nr_prefixes - 1) then unit_loop f b (u + 1) else u
  end.
(** lib/num2str.c:23-38 [bytes2str_simple], with a buffer that is large enough. *)
Definition bytes2str_simple (bytes : Z) : list Z :=
  let b := rne53 bytes in
  let u := unit_loop 8 b 0 in
  fixed 2 b (10 * u) ++ [32] ++ prefix true u ++ chars "B".
