(** What users of the shared-memory allocator rely on, in terms of addresses only. *)
From Coq Require Import ZArith List Bool.
From Verif Require Import CBase SmallocModel.
Import ListNotations.
Open Scope Z_scope.

(** 32-byte blocks taken by a request: 16 bytes of header, the payload, 4 bytes of red zone. *)
Definition blocks_of (size : Z) : Z := (size + 20 + 31) / 32.

(** A live allocation: pointer handed out and requested size.  It owns the bytes
    [lo a, hi a). *)
Definition lo (a : Z * Z) : Z := fst a - 16.
Definition hi (a : Z * Z) : Z := fst a - 16 + 32 * blocks_of (snd a).
Definition covers (a : Z * Z) (addr : Z) : bool := (lo a <=? addr) && (addr <? hi a).
Definition apart (a b : Z * Z) : Prop := hi a <= lo b \/ hi b <= lo a.

(** Address range managed by a pool. *)
Definition pool_end (p : pool) : Z := base p + 1024 * zlen (bitmap p).

(** Pools as set up by add_pool: nothing allocated, page-aligned (at least 16), not overlapping, and
    smaller than 4 GiB. *)
Definition fresh_pool (p : pool) : Prop :=
  0 < base p /\ base p mod 16 = 0 /\ 0 < zlen (bitmap p) < 2 ^ 22 /\
  bitmap p = repeat 0 (length (bitmap p)) /\ free_blocks p = 32 * zlen (bitmap p) /\ next_non_full p = 0%nat.
Definition fresh_pools (ps : list pool) : Prop :=
  ps <> [] /\ Forall fresh_pool ps /\ ForallOrdPairs (fun p q => pool_end p <= base q \/ pool_end q <= base p) ps.

(** Values a machine may produce for ffz of an all-ones word. *)
Definition any_ffz (zo : nat -> nat -> Z -> Z) : Prop := forall k i l, 0 <= zo k i l < 2 ^ 31.

Definition store (m : mem) (a v : Z) : mem := fun x => if x =? a then v else m x.

(** All histories: allocations (granted or refused), frees of live pointers, and writes of users into
    their own allocations or anywhere outside the pools.  [L]: live allocations. *)
Inductive reach (ps : list pool) : st -> list (Z * Z) -> Prop :=
| R_init m : reach ps (mkSt ps m 0) []
| R_alloc s L size zo s' ptr : reach ps s L -> 0 <= size < 2 ^ 64 -> any_ffz zo ->
    smalloc s size zo = Some (s', Some ptr) -> reach ps s' ((ptr, size) :: L)
| R_refuse s L size zo s' : reach ps s L -> 0 <= size < 2 ^ 64 -> any_ffz zo ->
    smalloc s size zo = Some (s', None) -> reach ps s' L
| R_free s L1 ptr size L2 s' : reach ps s (L1 ++ (ptr, size) :: L2) ->
    sfree s ptr = Some s' -> reach ps s' (L1 ++ L2)
| R_write s L ptr size x v : reach ps s L -> In (ptr, size) L -> ptr <= x < ptr + size -> 0 <= v < 256 ->
    reach ps (mkSt (pools s) (store (memory s) x v) (last_pool s)) L
| R_foreign s L x v : reach ps s L -> (forall p, In p ps -> x < base p \/ pool_end p <= x) ->
    reach ps (mkSt (pools s) (store (memory s) x v) (last_pool s)) L.

(** Number of blocks of pool [p] that no live allocation covers. *)
Definition uncovered (L : list (Z * Z)) (p : pool) : Z :=
  zlen (filter (fun x => negb (existsb (fun a => covers a (base p + 32 * Z.of_nat x)) L))
               (seq 0 (32 * length (bitmap p)))).
