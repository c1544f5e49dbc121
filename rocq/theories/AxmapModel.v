(** Model of lib/axmap.c: the bitmap of bitmaps used as fio's random map.
    64-bit build (UNIT_SHIFT = 6, lib/axmap.c:27-28).  [None] means undefined behaviour
    (out-of-bounds array access) or a failed assert.  malloc failure is not modelled. *)
From Coq Require Import ZArith List Bool.
From Verif Require Import CBase BitOpsModel.
Import ListNotations.
Open Scope Z_scope.

(** lib/axmap.c:38-58 [bit_masks], transcribed. *)
Definition bit_masks : list Z :=
  [
   0x0000000000000000; 0x0000000000000001; 0x0000000000000003; 0x0000000000000007;
   0x000000000000000f; 0x000000000000001f; 0x000000000000003f; 0x000000000000007f;
   0x00000000000000ff; 0x00000000000001ff; 0x00000000000003ff; 0x00000000000007ff;
   0x0000000000000fff; 0x0000000000001fff; 0x0000000000003fff; 0x0000000000007fff;
   0x000000000000ffff; 0x000000000001ffff; 0x000000000003ffff; 0x000000000007ffff;
   0x00000000000fffff; 0x00000000001fffff; 0x00000000003fffff; 0x00000000007fffff;
   0x0000000000ffffff; 0x0000000001ffffff; 0x0000000003ffffff; 0x0000000007ffffff;
   0x000000000fffffff; 0x000000001fffffff; 0x000000003fffffff; 0x000000007fffffff;
   0x00000000ffffffff; 0x00000001ffffffff; 0x00000003ffffffff; 0x00000007ffffffff;
   0x0000000fffffffff; 0x0000001fffffffff; 0x0000003fffffffff; 0x0000007fffffffff;
   0x000000ffffffffff; 0x000001ffffffffff; 0x000003ffffffffff; 0x000007ffffffffff;
   0x00000fffffffffff; 0x00001fffffffffff; 0x00003fffffffffff; 0x00007fffffffffff;
   0x0000ffffffffffff; 0x0001ffffffffffff; 0x0003ffffffffffff; 0x0007ffffffffffff;
   0x000fffffffffffff; 0x001fffffffffffff; 0x003fffffffffffff; 0x007fffffffffffff;
   0x00ffffffffffffff; 0x01ffffffffffffff; 0x03ffffffffffffff; 0x07ffffffffffffff;
   0x0fffffffffffffff; 0x1fffffffffffffff; 0x3fffffffffffffff; 0x7fffffffffffffff;
   0xffffffffffffffff
  ].

(** lib/axmap.c:67-71, 80-84 [struct axmap_level], [struct axmap].  A level is its [map] array;
    [map_size] is the array length and [level] the position in the list, [nr_levels] the length of
    the list. *)
Record axmap := mkAxmap { ax_nr_bits : Z; ax_levels : list (list Z) }.

(** lib/axmap.c:87-96 [axmap_reset]. *)
Definition axmap_reset (ax : axmap) : axmap :=
  mkAxmap (ax_nr_bits ax) (map (fun m => repeat 0 (length m)) (ax_levels ax)).

(** lib/axmap.c:122-127 level count; [i] is a 32-bit unsigned.  The fuel is never exhausted: [i]
    starts below 2^32 and is divided by 64 in each turn. *)
Fixpoint count_levels (fuel : nat) (i : Z) : nat :=
  match fuel with
  | O => O
  | S f => if i >? 1 then S (count_levels f (Z.shiftr (u32 (i + 64 - 1)) 6)) else O
  end.

(** lib/axmap.c:135-147 level allocation; [nr_bits] is a 64-bit unsigned. *)
Fixpoint alloc_levels (levels : nat) (nr_bits : Z) : list (list Z) :=
  match levels with
  | O => []
  | S l => let nr := Z.shiftr (u64 (nr_bits + 64 - 1)) 6 in
           repeat 0 (Z.to_nat nr) :: alloc_levels l nr
  end.

(** lib/axmap.c:113-160 [axmap_new]. *)
Definition axmap_new (nr_bits : Z) : axmap :=
  let i := u32 (Z.shiftr (u64 (nr_bits + 64 - 1)) 6) in
  axmap_reset (mkAxmap nr_bits (alloc_levels (S (count_levels 8 i)) nr_bits)).

(** lib/axmap.c:213-216 [struct axmap_set_data]. *)
Record set_data := mkSD { sd_nr_bits : Z; sd_set_bits : Z }.

(** lib/axmap.c:223-261 [axmap_set_fn].  Result: new map array, new data, returned bool. *)
Definition axmap_set_fn (level : nat) (map : list Z) (offset bit : Z) (d : set_data)
  : option (list Z * set_data * bool) :=
  let nr_bits := Z.min (sd_nr_bits d) (u32 (64 - bit)) in
  do bm <- znth bit_masks nr_bits;
  let mask := u64 (Z.shiftl bm bit) in
  do w <- znth map offset;
  let overlap := Z.land w mask in
  if overlap =? mask then Some (map, mkSD (sd_nr_bits d) 0, true)
  else
    do r <- (if overlap =? 0 then Some (Some (nr_bits, mask))
             else
               let nb := u32 (ffz64 (not64 overlap) - bit) in
               if nb =? 0 then Some None
               else do bm' <- znth bit_masks nb; Some (Some (nb, u64 (Z.shiftl bm' bit))));
    match r with
    | None => Some (map, d, true)
    | Some (nr_bits', mask') =>
        if (mask' =? 0) || negb (Z.land w mask' =? 0) then None
        else
          let w' := Z.lor w mask' in
          do map' <- zupd map offset w';
          Some (map',
                mkSD 1 (match level with O => nr_bits' | S _ => sd_set_bits d end),
                negb (w' =? ones64))
    end.

(** lib/axmap.c:167-189 [axmap_handler] with func = axmap_set_fn. *)
Fixpoint axmap_handler_set (lvl : nat) (levels : list (list Z)) (index : Z) (d : set_data)
  : option (list (list Z) * set_data) :=
  match levels with
  | [] => Some ([], d)
  | al :: rest =>
      let offset := Z.shiftr index 6 in
      let bit := Z.land index 63 in
      do (al', d', stop) <- axmap_set_fn lvl al offset bit d;
      if (stop : bool) then Some (al' :: rest, d')
      else
        let index' := if index =? 0 then index else Z.shiftr index 6 in
        do (rest', d'') <- axmap_handler_set (S lvl) rest index' d';
        Some (al' :: rest', d'')
  end.

(** lib/axmap.c:271-284 [__axmap_set].  The clamped local [nr_bits] is computed and asserted on but,
    as in the C code, not passed on. *)
Definition axmap_set_raw (ax : axmap) (bit_nr : Z) (d : set_data) : option (axmap * set_data) :=
  if bit_nr >? ax_nr_bits ax then Some (ax, d)
  else
    let nr_bits :=
      if u64 (bit_nr + sd_nr_bits d) >? ax_nr_bits ax
      then u32 (u64 (ax_nr_bits ax - bit_nr)) else sd_nr_bits d in
    if nr_bits >? 64 then None
    else
      do (lv, d') <- axmap_handler_set 0 (ax_levels ax) bit_nr d;
      Some (mkAxmap (ax_nr_bits ax) lv, d').

(** lib/axmap.c:286-291 [axmap_set]. *)
Definition axmap_set (ax : axmap) (bit_nr : Z) : option axmap :=
  do (ax', _) <- axmap_set_raw ax bit_nr (mkSD 1 0); Some ax'.

(** lib/axmap.c:299-323 [axmap_set_nr].  [None] on fuel exhaustion; the fuel given by
    [axmap_set_nr] bounds the number of turns because [nr_bits] decreases in each one. *)
Fixpoint axmap_set_nr_loop (fuel : nat) (ax : axmap) (bit_nr nr_bits set_bits : Z)
  : option (axmap * Z) :=
  match fuel with
  | O => None
  | S f =>
      let max_bits := u32 (64 - Z.land bit_nr 63) in
      let this_set := if nr_bits >? max_bits then max_bits else nr_bits in
      do (ax', d) <- axmap_set_raw ax bit_nr (mkSD this_set 0);
      let set_bits' := u32 (set_bits + sd_set_bits d) in
      if negb (sd_set_bits d =? this_set) then Some (ax', set_bits')
      else
        let nr_bits' := u32 (nr_bits - sd_set_bits d) in
        let bit_nr' := u64 (bit_nr + sd_set_bits d) in
        if nr_bits' =? 0 then Some (ax', set_bits')
        else axmap_set_nr_loop f ax' bit_nr' nr_bits' set_bits'
  end.

Definition axmap_set_nr (ax : axmap) (bit_nr nr_bits : Z) : option (axmap * Z) :=
  axmap_set_nr_loop (S (Z.to_nat nr_bits)) ax bit_nr nr_bits 0.

(** lib/axmap.c:196-211 [axmap_handler_topdown] with func = axmap_isset_fn (325-329).
    [n] counts the levels still to visit; the one visited is [n - 1]. *)
Fixpoint isset_topdown (n : nat) (levels : list (list Z)) (bit_nr : Z) : option bool :=
  match n with
  | O => Some false
  | S i =>
      let index := Z.shiftr bit_nr (6 * Z.of_nat i) in
      let offset := Z.shiftr index 6 in
      let bit := Z.land index 63 in
      do al <- nth_error levels i;
      do w <- znth al offset;
      if negb (Z.land w (Z.shiftl 1 bit) =? 0) then Some true
      else isset_topdown i levels bit_nr
  end.

(** lib/axmap.c:331-337 [axmap_isset]. *)
Definition axmap_isset (ax : axmap) (bit_nr : Z) : option bool :=
  if bit_nr <=? ax_nr_bits ax
  then isset_topdown (length (ax_levels ax)) (ax_levels ax) bit_nr
  else Some false.

(** lib/axmap.c:388-392: the inner "for (offset++; ...)" loop over the remaining words. *)
Fixpoint scan_free (ws : list Z) (offset : Z) : option (Z * Z) :=
  match ws with
  | [] => None
  | w :: ws' =>
      let temp := not64 w in
      if temp =? 0 then scan_free ws' (offset + 1) else Some (offset, temp)
  end.

(** lib/axmap.c:352-400: the level loop of [axmap_find_first_free].
    [Some None] is the early "return -1ULL". *)
Fixpoint fff_loop (n : nat) (levels : list (list Z)) (bit_nr index : Z) : option (option Z) :=
  match n with
  | O => Some (Some index)
  | S i =>
      do al <- nth_error levels i;
      let index1 := u64 (Z.shiftl index 6) in
      let base_index := Z.shiftr bit_nr (6 * Z.of_nat i) in
      let index2 := if index1 <? base_index then base_index else index1 in
      let offset := Z.shiftr index2 6 in
      let bit := Z.land index2 63 in
      if offset >=? zlen al then Some None
      else
        do bm <- znth bit_masks bit;
        do w <- znth al offset;
        let temp := Z.land (not64 bm) (not64 w) in
        let found :=
          if negb (temp =? 0) then Some (offset, temp)
          else scan_free (skipn (Z.to_nat (offset + 1)) al) (offset + 1) in
        match found with
        | None => Some None
        | Some (offset', temp') =>
            fff_loop i levels bit_nr (u64 (Z.shiftl offset' 6 + ffz64 (not64 temp')))
        end
  end.

(** lib/axmap.c:343-407 [axmap_find_first_free]. *)
Definition axmap_find_first_free (ax : axmap) (bit_nr : Z) : option Z :=
  do r <- fff_loop (length (ax_levels ax)) (ax_levels ax) bit_nr 0;
  match r with
  | None => Some ones64
  | Some index => if index >=? ax_nr_bits ax then Some ones64 else Some index
  end.

(** lib/axmap.c:413-454 [axmap_next_free]. *)
Definition axmap_next_free (ax : axmap) (bit_nr : Z) : option Z :=
  let next_bit0 := u64 (bit_nr + 1) in
  if bit_nr >=? ax_nr_bits ax then Some ones64
  else
    let next_bit := if next_bit0 =? ax_nr_bits ax then 0 else next_bit0 in
    let offset := Z.shiftr next_bit 6 in
    let bit := Z.land next_bit 63 in
    do bm <- znth bit_masks bit;
    do l0 <- nth_error (ax_levels ax) 0;
    do w <- znth l0 offset;
    let temp := Z.land (not64 bm) (not64 w) in
    do ret <- (if negb (temp =? 0) then
                 let r := u64 (Z.shiftl offset 6 + ffz64 (not64 temp)) in
                 Some (if r >=? ax_nr_bits ax then ones64 else r)
               else axmap_find_first_free ax next_bit);
    if (ret =? ones64) && negb (next_bit =? 0) then axmap_find_first_free ax 0 else Some ret.
