(** Model of the random number generators of [lib/rand.h] and [lib/rand.c]. *)
From Coq Require Import ZArith List Lia Bool.
From Verif Require Import CBase FloatZ.
Import ListNotations.
Open Scope Z_scope.

(** lib/rand.h:67 [TAUSWORTHE(s,a,b,c,d)] as used at 69-71: [s] is 32 bits wide,
    [c] is [unsigned long], so the left half is computed in 64 bits and cut to 32
    by the assignment. *)
Definition taus32 (a b c d s : Z) : Z :=
  u32 (Z.lxor (u64 (Z.shiftl (Z.land s c) d)) (Z.shiftr (Z.lxor (u32 (Z.shiftl s a)) s) b)).

(** lib/rand.h:69-71, the three assignments. *)
Definition c1 : Z -> Z := taus32 13 19 4294967294 12.
Definition c2 : Z -> Z := taus32 2 25 4294967288 4.
Definition c3 : Z -> Z := taus32 3 11 4294967280 17.

Record taus88 := T88 { a1 : Z; a2 : Z; a3 : Z }.

(** lib/rand.h:65-74 [__rand32]. *)
Definition rand32 (t : taus88) : taus88 * Z :=
  let s1 := c1 (a1 t) in
  let s2 := c2 (a2 t) in
  let s3 := c3 (a3 t) in
  (T88 s1 s2 s3, Z.lxor (Z.lxor s1 s2) s3).

(** lib/rand.h:80-81 and the like. *)
Definition taus64 (a b c d s : Z) : Z :=
  let xval := Z.shiftr (Z.lxor (u64 (Z.shiftl s a)) s) b in
  Z.lxor (u64 (Z.shiftl (Z.land s c) d)) xval.

(** lib/rand.h:80-93, the five assignments. *)
Definition d1 : Z -> Z := taus64 1 53 18446744073709551614 10.
Definition d2 : Z -> Z := taus64 24 50 18446744073709551104 5.
Definition d3 : Z -> Z := taus64 3 23 18446744073709547520 29.
Definition d4 : Z -> Z := taus64 5 24 18446744073709420544 23.
Definition d5 : Z -> Z := taus64 3 33 18446744073701163008 8.

Record taus258 := T258 { b1 : Z; b2 : Z; b3 : Z; b4 : Z; b5 : Z }.

(** lib/rand.h:76-96 [__rand64]. *)
Definition rand64 (t : taus258) : taus258 * Z :=
  let s1 := d1 (b1 t) in
  let s2 := d2 (b2 t) in
  let s3 := d3 (b3 t) in
  let s4 := d4 (b4 t) in
  let s5 := d5 (b5 t) in
  (T258 s1 s2 s3 s4 s5, Z.lxor (Z.lxor (Z.lxor (Z.lxor s1 s2) s3) s4) s5).

(** lib/rand.c:43-46 [__seed]; the callers' sums stay below 2^32 and 2^64. *)
Definition seedm (x m : Z) : Z := if x <? m then x + m else x.

(** lib/rand.c:52 [LCG], 66 [LCG64]; [(2^31) + (2^17) + (2^7)] at 54 and 68 are
    exclusive ors in C: 29 + 19 + 5. *)
Definition lcg (x seed : Z) : Z := Z.lxor (u32 (x * 69069)) seed.
Definition lcg64 (x seed : Z) : Z := Z.lxor (u64 (x * 6906969069)) seed.
Definition start : Z := Z.lxor 2 31 + Z.lxor 2 17 + Z.lxor 2 7.

(** lib/rand.c:48-60 [__init_rand32]. *)
Definition seeds32 (seed : Z) : taus88 :=
  let s1 := seedm (lcg start seed) 1 in
  let s2 := seedm (lcg s1 seed) 7 in
  let s3 := seedm (lcg s2 seed) 15 in
  T88 s1 s2 s3.
Definition init32 (seed : Z) : taus88 := Nat.iter 6 (fun t => fst (rand32 t)) (seeds32 seed).

(** lib/rand.c:62-76 [__init_rand64]. *)
Definition seeds64 (seed : Z) : taus258 :=
  let s1 := seedm (lcg64 start seed) 1 in
  let s2 := seedm (lcg64 s1 seed) 7 in
  let s3 := seedm (lcg64 s2 seed) 15 in
  let s4 := seedm (lcg64 s3 seed) 33 in
  let s5 := seedm (lcg64 s4 seed) 49 in
  T258 s1 s2 s3 s4 s5.
Definition init64 (seed : Z) : taus258 := Nat.iter 6 (fun t => fst (rand64 t)) (seeds64 seed).

(** lib/rand.h:119-128 [rand32_upto], given the number drawn.  The product of the
    two doubles is rounded once: [r / 2^32] is exact.  The conversion to [int] is
    undefined ([None]) from 2^31 on (C11 6.3.1.4p1). *)
Definition upto32 (r end_ : Z) : option Z :=
  let e := u32 (end_ + 1) in
  let v := rne53 (e * r) / 2 ^ 32 in
  if v <? 2 ^ 31 then Some v else None.

(** lib/rand.h:130-139 [rand64_upto]: both operands are rounded, then the product.
    The product of two integers of 53 bits is scaled by the power of two. *)
Definition upto64 (r end_ : Z) : option Z :=
  let e := u64 (end_ + 1) in
  let v := rne53 (rne53 e * rne53 r) / 2 ^ 64 in
  if v <? 2 ^ 64 then Some v else None.

(** lib/rand.h:144-151 [rand_between]; the argument of [rand32_upto] is 32 bits. *)
Definition between (use64 : bool) (r start_ end_ : Z) : option Z :=
  if use64 then do v <- upto64 r (u64 (end_ - start_)); Some (u64 (start_ + v))
  else do v <- upto32 r (u32 (end_ - start_)); Some (u64 (start_ + v)).

(** lib/rand.h:106-117 [__rand_0_1], as a numerator over 2^32 or 2^64: [val + 1.0]
    is rounded. *)
Definition zero_one (r : Z) : Z := rne53 (rne53 r + 1).
