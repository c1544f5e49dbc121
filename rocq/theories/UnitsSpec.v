(** What HOWTO.rst:504-590 says about numbers with units, for C40. *)
From Coq Require Import ZArith List String Ascii.
Import ListNotations.
Open Scope Z_scope.

Definition code (c : ascii) : Z := Z.of_nat (nat_of_ascii c).
Fixpoint codes (s : string) : list Z := match s with EmptyString => [] | String c s => code c :: codes s end.
(** Letter case does not count: [s] spells [w], a word of small letters. *)
Definition spells (w s : list Z) : Prop := Forall2 (fun a b => b = a \/ (97 <= a <= 122 /\ b = a - 32)) w s.
(** A number: an optional sign and decimal digits, and its value. *)
Inductive number : list Z -> Z -> Prop :=
| Nplain ds n : digits ds n -> number ds n
| Nplus ds n : digits ds n -> number (43 :: ds) n
| Nminus ds n : digits ds n -> number (45 :: ds) (- n)
with digits : list Z -> Z -> Prop :=
| D1 d : 0 <= d <= 9 -> digits [48 + d] d
| DN ds n d : digits ds n -> 0 <= d <= 9 -> digits (ds ++ [48 + d]) (10 * n + d).

(** Size suffixes, in powers of a thousand (si) or of 1024 (iec) with kb_base=1000. *)
Inductive prefix := K | M | G | T | P.
Definition exponent (p : prefix) : Z := match p with K => 1 | M => 2 | G => 3 | T => 4 | P => 5 end.
Definition letter (p : prefix) : string := match p with K => "k" | M => "m" | G => "g" | T => "t" | P => "p" end.
(** kb_base=1000 gives the units their standard meaning, kb_base=1024 the opposite one. *)
Definition si (kb_base : Z) : Z := kb_base.
Definition iec (kb_base : Z) : Z := if kb_base =? 1000 then 1024 else 1000.
(** The documented size suffixes. *)
Inductive size_suffix (kb_base : Z) : string -> Z -> Prop :=
| Snone : size_suffix kb_base "" 1
| Sb : size_suffix kb_base "b" 1
| Ssi p : size_suffix kb_base (letter p) (si kb_base ^ exponent p)
| Ssib p : size_suffix kb_base (letter p ++ "b") (si kb_base ^ exponent p)
| Siec p : size_suffix kb_base (letter p ++ "i") (iec kb_base ^ exponent p)
| Siecb p : size_suffix kb_base (letter p ++ "ib") (iec kb_base ^ exponent p).
(** The documented time suffixes, in microseconds. *)
Inductive time_suffix (seconds : bool) : string -> Z -> Prop :=
| Tnone : time_suffix seconds "" (if seconds then 1000000 else 1)
| Td : time_suffix seconds "d" (86400 * 1000000)
| Th : time_suffix seconds "h" (3600 * 1000000)
| Tm : time_suffix seconds "m" (60 * 1000000)
| Ts : time_suffix seconds "s" 1000000
| Tsec : time_suffix seconds "sec" 1000000
| Tms : time_suffix seconds "ms" 1000
| Tmsec : time_suffix seconds "msec" 1000
| Tus : time_suffix seconds "us" 1
| Tusec : time_suffix seconds "usec" 1.
(** The two kinds of suffix that the code does not implement. *)
Definition not_iec_short (w : string) : Prop := forall p, w <> (letter p ++ "i")%string.
(** The results are long long. *)
Definition fits (v : Z) : Prop := - 2 ^ 63 <= v < 2 ^ 63.
(** A hexadecimal number: an optional sign, 0x or 0X, and digits. *)
Definition hexval (c d : Z) : Prop := (0 <= d <= 9 /\ c = 48 + d) \/ (10 <= d <= 15 /\ (c = 87 + d \/ c = 55 + d)).
Inductive hexdigits : list Z -> Z -> Prop :=
| H1 c d : hexval c d -> hexdigits [c] d
| HN ds n c d : hexdigits ds n -> hexval c d -> hexdigits (ds ++ [c]) (16 * n + d).
Inductive hexnumber : list Z -> Z -> Prop :=
| Hplain x ds n : (x = 120 \/ x = 88) -> hexdigits ds n -> hexnumber (48 :: x :: ds) n
| Hplus x ds n : (x = 120 \/ x = 88) -> hexdigits ds n -> hexnumber (43 :: 48 :: x :: ds) n
| Hminus x ds n : (x = 120 \/ x = 88) -> hexdigits ds n -> hexnumber (45 :: 48 :: x :: ds) (- n).
(** What may follow a size: nothing, or one of the separators of ranges and lists and then anything without the letter x. *)
Definition follows (t : list Z) : Prop := t = [] \/ exists c r, t = c :: r /\ In c [58; 45; 44; 47] /\ ~ In 120 r /\ ~ In 88 r.
