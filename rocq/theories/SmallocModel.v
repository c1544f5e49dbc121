(** Model of the shared-memory allocator smalloc.c (with SMALLOC_REDZONE, as compiled).

    Memory is a function from byte addresses to bytes.  Each pool has the address [base] of its block
    area (pool->map); block b of the pool occupies [base + 32 b, base + 32 b + 32).  The bitmap words are
    kept in the record (in C they live right behind the block area).  Locks are not modelled: each
    function runs under the pool's semaphore.

    The result of ffz() on an all-ones word is undefined (bsf with a zero operand on x86-64; 63 in the
    generic version).  smalloc.c can make such a call (see SmallocProps), so the value is an oracle
    [zo i last]; shift counts beyond 31 are taken modulo 32, as the x86 and ARM instructions do. *)
From Coq Require Import ZArith List Bool.
From Verif Require Import CBase BitOpsModel.
Import ListNotations.
Open Scope Z_scope.

Definition BPB : Z := 32.          (* smalloc.c:17 *)
Definition BPI : Z := 32.          (* smalloc.c:18 *)
Definition BPL : Z := BPB * BPI.   (* smalloc.c:19 *)
Definition INITIAL_SIZE : Z := 16 * 1024 * 1024.   (* smalloc.c:21 *)
Definition ones32 : Z := 2 ^ 32 - 1.
Definition PRE_RED : Z := 3735928559.   (* 0xdeadbeef, smalloc.c:26 *)
Definition POST_RED : Z := 1520786085.  (* 0x5aa55aa5, smalloc.c:27 *)
Definition HDR : Z := 16.               (* sizeof(struct block_hdr), smalloc.c:44-49 on LP64 *)

(** smalloc.c:34-42 *)
Record pool := mkPool { base : Z; bitmap : list Z; free_blocks : Z; next_non_full : nat }.
Definition mem := Z -> Z.

(** ** Bitmap *)

(** smalloc.c:68-71 [size_to_blocks]. *)
Definition size_to_blocks (size : Z) : Z := (size + BPB - 1) / BPB.

(** smalloc.c:109-126: the callbacks: new word and return value; [None] is a failed assert. *)
Definition mask_cmp (w m : Z) : option (bool * Z) := Some (Z.land w m =? 0, w).
Definition mask_clear (w m : Z) : option (bool * Z) :=
  if Z.land w m =? m then Some (true, Z.land w (Z.lxor m ones32)) else None.
Definition mask_set (w m : Z) : option (bool * Z) :=
  if Z.land w m =? 0 then Some (true, Z.lor w m) else None.

(** smalloc.c:73-107 [blocks_iter].  unsigned arithmetic wraps: nr_blocks is 64-bit, this_blocks and idx
    are 32-bit.  [fuel]: at most one turn per bitmap word. *)
Fixpoint blocks_iter (f : Z -> Z -> option (bool * Z)) (fuel : nat) (bm : list Z) (i : nat) (idx nr : Z)
  : option (bool * list Z) :=
  if nr =? 0 then Some (true, bm) else
  match nth_error bm i with
  | None => Some (false, bm)
  | Some w =>
      match fuel with
      | O => None
      | S fuel' =>
          let this0 := u32 nr in
          let this := if BPI <? u32 (this0 + idx) then u32 (BPI - idx) else this0 in
          let idx' := if BPI <? u32 (this0 + idx) then u32 (BPI - u32 (BPI - idx)) else idx in
          let mask := if this =? BPI then ones32
                      else u32 (Z.shiftl (u32 (Z.shiftl 1 (this mod 32)) - 1) (idx' mod 32)) in
          do (r, w') <- f w mask;
          let bm' := upd bm i w' in
          if r : bool then blocks_iter f fuel' bm' (S i) 0 (u64 (nr - this)) else Some (false, bm')
      end
  end.

(** smalloc.c:128-144 *)
Definition blocks_free (bm : list Z) (i : nat) (idx nr : Z) : option bool :=
  do (r, _) <- blocks_iter mask_cmp (length bm) bm i idx nr; Some r.
Definition set_blocks (bm : list Z) (i : nat) (idx nr : Z) : option (list Z) :=
  do (_, bm') <- blocks_iter mask_set (length bm) bm i idx nr; Some bm'.
Definition clear_blocks (bm : list Z) (i : nat) (idx nr : Z) : option (list Z) :=
  do (_, bm') <- blocks_iter mask_clear (length bm) bm i idx nr; Some bm'.

(** Conversion of an unsigned int to int (the parameter of find_next_zero). *)
Definition to_s32 (w : Z) : Z := if w <? 2 ^ 31 then w else w - 2 ^ 32.

(** smalloc.c:146-151 [find_next_zero]; the int is shifted arithmetically and then converted to
    unsigned long for ffz.  [ub] is what ffz returns for an all-ones argument. *)
Definition find_next_zero (word start ub : Z) : option Z :=
  if word =? ones32 then None
  else
    let w := Z.shiftr (to_s32 word) start in
    Some (if w =? -1 then ub + start else ffz64 (u64 w) + start).

(** smalloc.c:357-374 [find_best_index]; [None]: failed assert or out-of-bounds read. *)
Fixpoint first_nonfull (bm : list Z) (j : nat) : option nat :=
  match bm with
  | [] => None
  | w :: bm' => if w =? ones32 then first_nonfull bm' (S j) else Some j
  end.
Fixpoint find_best_from (fuel : nat) (bm : list Z) (i : nat) : option nat :=
  match fuel with
  | O => None
  | S f =>
      match nth_error bm i with
      | None => None
      | Some w =>
          if w =? ones32 then
            if (S i =? length bm)%nat then
              match first_nonfull bm 0 with Some j => Some j | None => find_best_from f bm (S i) end
            else find_best_from f bm (S i)
          else Some i
      end
  end.
Definition find_best_index (p : pool) : option nat :=
  if free_blocks p =? 0 then None
  else find_best_from (S (length (bitmap p))) (bitmap p) (next_non_full p).

(** smalloc.c:395-421, the search loop of [__smalloc_pool]: word and bit of the free run, or [None] when
    the pool is exhausted.  [fuel]: 32 i + last_idx grows in every turn. *)
Fixpoint search (fuel : nat) (bm : list Z) (zo : nat -> Z -> Z) (i : nat) (last_idx nr : Z)
  : option (option (nat * Z)) :=
  match fuel with
  | O => None
  | S f =>
      match nth_error bm i with
      | None => Some None
      | Some w =>
          if w =? ones32 then search f bm zo (S i) 0 nr
          else
            do idx <- find_next_zero w last_idx (zo i last_idx);
            do fr <- blocks_free bm i idx nr;
            if fr : bool then Some (Some (i, idx))
            else
              let idx' := u32 (idx + nr) in
              if idx' <? BPI then search f bm zo i idx' nr
              else search f bm zo (i + Z.to_nat (idx' / BPI)) 0 nr
      end
  end.

(** smalloc.c:376-430 [__smalloc_pool]: new pool and the offset of the first block, if any. *)
Definition smalloc_pool0 (p : pool) (size : Z) (zo : nat -> Z -> Z) : option (pool * option Z) :=
  let nr := size_to_blocks size in
  if free_blocks p <? nr then Some (p, None)
  else
    do best <- find_best_index p;
    let p1 := mkPool (base p) (bitmap p) (free_blocks p) best in
    do r <- search (S (32 * length (bitmap p))) (bitmap p) zo best 0 nr;
    match r with
    | None => Some (p1, None)
    | Some (i, idx) =>
        do bm' <- set_blocks (bitmap p) i idx nr;
        let offset := u32 (Z.of_nat i * BPL + idx * BPB) in
        Some (mkPool (base p) bm' (free_blocks p - nr) best, Some offset)
    end.

(** ** Memory accesses (little-endian) *)
Fixpoint wr (n : nat) (m : mem) (a v : Z) : mem :=
  match n with
  | O => m
  | S n' => wr n' (fun x => if x =? a then v mod 256 else m x) (a + 1) (v / 256)
  end.
Fixpoint rd (n : nat) (m : mem) (a : Z) : Z :=
  match n with O => 0 | S n' => m a + 256 * rd n' m (a + 1) end.
Definition zero_fill (m : mem) (a n : Z) : mem := fun x => if (a <=? x) && (x <? a + n) then 0 else m x.

(** smalloc.c:261-269 [postred_ptr]; PTR_ALIGN rounds up to a multiple of 4 (fio.h:784-785). *)
Definition postred_ptr (hdr size : Z) : Z := 4 * ((hdr + size - 4 + 3) / 4).

(** smalloc.c:432-446 [size_to_alloc_size]. *)
Definition size_to_alloc_size (size : Z) : Z := 4 * ((size + HDR + 4 + 3) / 4).

(** smalloc.c:448-465 [smalloc_pool] with fill_redzone (271-277). *)
Definition smalloc_pool (p : pool) (m : mem) (size : Z) (zo : nat -> Z -> Z)
  : option (pool * mem * option Z) :=
  let asz := size_to_alloc_size size in
  do (p', r) <- smalloc_pool0 p asz zo;
  match r with
  | None => Some (p', m, None)
  | Some off =>
      let hdr := base p + off in
      let m1 := wr 8 m hdr asz in
      let m2 := wr 4 m1 (hdr + 8) PRE_RED in
      let m3 := wr 4 m2 (postred_ptr hdr asz) POST_RED in
      let ptr := hdr + HDR in
      Some (p', zero_fill m3 ptr size, Some ptr)
  end.

(** smalloc.c:61-66 [ptr_valid]. *)
Definition ptr_valid (p : pool) (ptr : Z) : bool :=
  let pool_size := u32 (zlen (bitmap p) * BPL) in
  (base p <=? ptr) && (ptr <? base p + pool_size).

(** smalloc.c:306-332 [sfree_pool] with sfree_check_redzone (279-295); [None] is a failed assert. *)
Definition sfree_pool (p : pool) (m : mem) (uptr : Z) : option pool :=
  let ptr := uptr - HDR in
  if ptr_valid p ptr then
    let size := rd 8 m ptr in
    if (rd 4 m (ptr + 8) =? PRE_RED) && (rd 4 m (postred_ptr ptr size) =? POST_RED) then
      let offset := ptr - base p in
      let i := Z.to_nat (offset / BPL) in
      let idx := (offset mod BPL) / BPB in
      do bm' <- clear_blocks (bitmap p) i idx (size_to_blocks size);
      Some (mkPool (base p) bm' (free_blocks p + size_to_blocks size)
                   (if (i <? next_non_full p)%nat then i else next_non_full p))
    else None
  else None.

(** ** The allocator over all pools *)
Record st := mkSt { pools : list pool; memory : mem; last_pool : nat }.

(** smalloc.c:544-551: pools i, i+1, ..., i+n-1 in turn. *)
Fixpoint try_pools (n : nat) (s : st) (i : nat) (size : Z) (zo : nat -> nat -> Z -> Z)
  : option (st * option (nat * Z)) :=
  match n with
  | O => Some (s, None)
  | S n' =>
      do p <- nth_error (pools s) i;
      do (p', m', r) <- smalloc_pool p (memory s) size (zo i);
      let s' := mkSt (upd (pools s) i p') m' (last_pool s) in
      match r with
      | Some ptr => Some (s', Some (i, ptr))
      | None => try_pools n' s' (S i) size zo
      end
  end.

(** smalloc.c:533-565 [smalloc].  The diagnostics printed on failure (smalloc_debug) are omitted: they
    retry the pools that just failed. *)
Definition smalloc (s : st) (size : Z) (zo : nat -> nat -> Z -> Z) : option (st * option Z) :=
  if 2 ^ 32 <=? size then Some (s, None)
  else
    do (s1, r1) <- try_pools (length (pools s) - last_pool s) s (last_pool s) size zo;
    match r1 with
    | Some (i, ptr) => Some (mkSt (pools s1) (memory s1) i, Some ptr)
    | None =>
        match last_pool s1 with
        | O => Some (s1, None)
        | lp =>
            do (s2, r2) <- try_pools lp (mkSt (pools s1) (memory s1) 0) 0 size zo;
            match r2 with
            | Some (i, ptr) => Some (mkSt (pools s2) (memory s2) i, Some ptr)
            | None => Some (s2, None)
            end
        end
    end.

(** smalloc.c:334-355 [sfree]: the first pool containing the pointer; a foreign pointer is reported and
    ignored. *)
Fixpoint find_pool (ps : list pool) (ptr : Z) (i : nat) : option nat :=
  match ps with
  | [] => None
  | p :: ps' => if ptr_valid p ptr then Some i else find_pool ps' ptr (S i)
  end.
Definition sfree (s : st) (ptr : Z) : option st :=
  if ptr =? 0 then Some s
  else match find_pool (pools s) ptr 0 with
       | None => Some s
       | Some i =>
           do p <- nth_error (pools s) i;
           do p' <- sfree_pool p (memory s) ptr;
           Some (mkSt (upd (pools s) i p') (memory s) (last_pool s))
       end.

(** smalloc.c:153-204 [add_pool]: number of bitmap words and mmap size for a requested pool size;
    SMALLOC_BPL is a size_t, so the rounding is done in 64 bits and truncated. *)
Definition pool_layout (alloc_size : Z) : Z * Z :=
  let a1 := u32 (u32 (alloc_size + 4) + HDR) in
  let a2 := if a1 <? INITIAL_SIZE then INITIAL_SIZE else a1 in
  let a3 := u32 (BPL * ((a2 + BPL - 1) / BPL)) in
  let bitmap_blocks := a3 / BPL in
  (bitmap_blocks, u32 (a3 + bitmap_blocks * 4)).
Definition new_pool (b : Z) (alloc_size : Z) : pool :=
  let n := fst (pool_layout alloc_size) in
  mkPool b (repeat 0 (Z.to_nat n)) (n * BPI) 0.
