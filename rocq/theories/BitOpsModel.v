(** Model of the bit helpers lib/ffz.h, lib/fls.h, lib/pow2.h, lib/roundup.h. *)
From Coq Require Import ZArith List Bool.
From Verif Require Import CBase.
Open Scope Z_scope.

(** lib/ffz.h:6-35 [ffs64], one stage: "if (!(word & ones)) { word >>= k; r += k; }".
    The six stages of the C function differ only in [k]. *)
Definition ffs_stage (k : Z) (wr : Z * Z) : Z * Z :=
  let (word, r) := wr in
  if Z.land word (Z.ones k) =? 0 then (Z.shiftr word k, r + k) else (word, r).

(** lib/ffz.h:6-35 [ffs64].  The last stage of the C code does not shift [word], which is dead
    after it. *)
Definition ffs64 (word : Z) : Z :=
  snd (ffs_stage 1 (ffs_stage 2 (ffs_stage 4 (ffs_stage 8 (ffs_stage 16 (ffs_stage 32 (word, 0))))))).

(** lib/ffz.h:39-42 [ffz] and 48-51 [ffz64] (generic version; the x86-64 version uses the bsf
    instruction, arch/arch-x86_64.h:24-28, which returns the lowest set bit of the complement). *)
Definition ffz64 (bitmask : Z) : Z := ffs64 (not64 bitmask).

(** lib/fls.h:12-37 [__fls], one stage: "if (!(x & top k bits of 32)) { x <<= k; r -= k; }". *)
Definition fls_stage (k : Z) (xr : Z * Z) : Z * Z :=
  let (x, r) := xr in
  if Z.land x (Z.shiftl (Z.ones k) (32 - k)) =? 0 then (u32 (Z.shiftl x k), r - k) else (x, r).

(** lib/fls.h:12-37 [__fls]; [x] is taken as its 32-bit pattern. *)
Definition fls32 (x : Z) : Z :=
  if x =? 0 then 0
  else snd (fls_stage 1 (fls_stage 2 (fls_stage 4 (fls_stage 8 (fls_stage 16 (x, 32)))))).

(** lib/pow2.h:7-10 [is_power_of_2]. *)
Definition is_power_of_2 (val : Z) : bool :=
  negb (val =? 0) && (Z.land val (u64 (val - 1)) =? 0).

(** lib/roundup.h:6-9 [roundup_pow2]: 1UL << __fls(depth - 1), converted to unsigned (32 bits). *)
Definition roundup_pow2 (depth : Z) : Z := u32 (Z.shiftl 1 (fls32 (u32 (depth - 1)))).
