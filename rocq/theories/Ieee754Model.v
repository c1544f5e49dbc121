(** Model of lib/ieee754.c: the 64-bit encoding of doubles used on the wire and in saved states, called with bits = 64 and expbits = 11
    (lib/ieee754.h:9-10). A number is a sign and m * 2^e with m > 0. [p] is the precision of long double in bits (53, 64 or 113) and
    [q] the precision in which the float expression of line 42 is evaluated (24 with FLT_EVAL_METHOD 0, 53 with 1, [p] with 2); every operation
    rounds to nearest even. The exponent range of long double is not modelled: the values stay between 1 and the encoded double. *)
From Coq Require Import ZArith Bool.
From Verif Require Import CBase.
Open Scope Z_scope.

Inductive fl := FZero (s : bool) | FNum (s : bool) (m e : Z) | FInf (s : bool) | FNan.
(** [Loop]: the fuel of a loop ran out. [UB]: conversion of a NaN to an integer, or left shift of a negative number. *)
Inductive outcome := Word (w : Z) | UB | Loop.

(** Rounding of m * 2^e, m >= 0, to [p] bits. *)
Definition nbits (m : Z) : Z := if m =? 0 then 0 else Z.log2 m + 1.
Definition rnd (p : Z) (x : Z * Z) : Z * Z :=
  let '(m, e) := x in
  let k := nbits m - p in
  if k <=? 0 then (m, e)
  else let d := m / 2 ^ k in let r := m mod 2 ^ k in
       let up := (2 ^ k <? 2 * r) || ((2 * r =? 2 ^ k) && Z.odd d) in
       (if up then d + 1 else d, e + k).
(** fnorm >= 2.0 and fnorm < 1.0. *)
Definition ge2 (m e : Z) : bool := if 0 <=? e then 2 <=? m * 2 ^ e else 2 * 2 ^ (- e) <=? m.
Definition lt1 (m e : Z) : bool := if 0 <=? e then m * 2 ^ e <? 1 else m <? 2 ^ (- e).
(** while (fnorm >= 2.0), lib/ieee754.c:31-34; while (fnorm < 1.0), lib/ieee754.c:35-38. Halving and doubling are exact. *)
Fixpoint down (fuel : nat) (m e shift : Z) : option (Z * Z) :=
  match fuel with O => None | S f => if ge2 m e then down f m (e - 1) (shift + 1) else Some (e, shift) end.
Fixpoint up (fuel : nat) (m e shift : Z) : option (Z * Z) :=
  match fuel with O => None | S f => if lt1 m e then up f m (e + 1) (shift - 1) else Some (e, shift) end.
(** The same loops for an infinity, which halving does not change. *)
Fixpoint down_inf (fuel : nat) : outcome := match fuel with O => Loop | S f => down_inf f end.
(** fnorm - 1.0 for fnorm in [1, 2): e < 0. *)
Definition sub1 (p : Z) (x : Z * Z) : Z * Z := let '(m, e) := x in rnd p (if e <? 0 then (m - 2 ^ (- e), e) else (m * 2 ^ e - 1, 0)).
Definition mul (p : Z) (x y : Z * Z) : Z * Z := rnd p (fst x * fst y, snd x + snd y).
(** (1LL << 52) + 0.5f. *)
Definition factor (q : Z) : Z * Z := rnd q (2 ^ 53 + 1, - 1).
(** Conversion to long long, towards zero. *)
Definition trunc (x : Z * Z) : Z := let '(m, e) := x in if 0 <=? e then m * 2 ^ e else m / 2 ^ (- e).

(** pack754, lib/ieee754.c:10-49. *)
Definition pack (p q : Z) (fuel : nat) (x : fl) : outcome :=
  match x with
  | FZero _ => Word 0
  | FNan => UB
  | FInf _ => down_inf fuel
  | FNum s m e =>
      match down fuel m e 0 with
      | None => Loop
      | Some (e1, sh1) =>
          match up fuel m e1 sh1 with
          | None => Loop
          | Some (e2, sh2) =>
              let sig := trunc (mul p (sub1 p (m, e2)) (factor q)) in
              let ex := sh2 + (2 ^ 10 - 1) in
              if ex <? 0 then UB else Word (Z.lor (Z.lor (if s then 2 ^ 63 else 0) (u64 (ex * 2 ^ 52))) sig)
          end
      end
  end.

(** The loops of unpack754, lib/ieee754.c:67-76: the exponent moves by one at a time. *)
Fixpoint scale (fuel : nat) (e shift : Z) : option Z :=
  match fuel with
  | O => None
  | S f => if 0 <? shift then scale f (e + 1) (shift - 1) else if shift <? 0 then scale f (e - 1) (shift + 1) else Some e
  end.
Definition to_s64 (z : Z) : Z := let w := u64 z in if w <? 2 ^ 63 then w else w - 2 ^ 64.
(** unpack754, lib/ieee754.c:51-82, and the conversion of the result to double (53 bits). [None] is the fuel. *)
Definition unpack (p : Z) (fuel : nat) (i : Z) : option fl :=
  if i =? 0 then Some (FZero false)
  else
    let f := Z.land i (2 ^ 52 - 1) in
    let '(m, e) := rnd p (f + 2 ^ 52, - 52) in
    let shift := to_s64 (u64 (Z.land (Z.shiftr i 52) (2 ^ 11 - 1) - (2 ^ 10 - 1))) in
    match scale fuel e shift with
    | None => None
    | Some e' => let '(m', e'') := rnd 53 (m, e') in Some (FNum (Z.testbit i 63) m' e'')
    end.
