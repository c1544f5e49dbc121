(** Model of the choice of an I/O size: io_u.c:606-680 (io_u_fits, get_next_buflen), lib/pow2.h and the percentages of
    options.c:136-207 (bssplit_ddir). The random generator is a list of draws. Doubles follow FloatZ. *)
From Coq Require Import ZArith List Bool.
From Verif Require Import CBase FloatZ.
Import ListNotations.
Open Scope Z_scope.

(** The options of one direction: min_bs, max_bs, bssplit entries (bs, perc), bs_unaligned, and whether bsrange_state is the
    64-bit generator. *)
Record bopts := mkB { b_min : Z; b_max : Z; b_split : list (Z * Z); b_unaligned : bool; b_64 : bool }.

(** lib/pow2.h:7-10 *)
Definition is_power_of_2 (v : Z) : bool := negb (v =? 0) && (Z.land v (v - 1) =? 0).
(** rand_max, lib/rand.h:29-35, and the largest value plus one as a power. *)
Definition rand_bits (o : bopts) : Z := if b_64 o then 64 else 32.
Definition rand_max (o : bopts) : Z := 2 ^ rand_bits o - 1.
(** "minbs + (unsigned long long) ((double) maxbs * (r / (frand_max + 1.0)))", io_u.c:654-656. The sum stays below 2^64 because
    both sizes are far below. *)
Definition draw_range (o : bopts) (r : Z) : Z := b_min o + rne53 (rne53 (b_max o) * rne53 r) / 2 ^ rand_bits o.
(** The loop over the split entries, io_u.c:658-671; [perc] is the running sum and [len] the last size looked at. *)
Fixpoint split_loop (o : bopts) (fits : Z -> bool) (r perc len : Z) (es : list (Z * Z)) : Z :=
  match es with
  | [] => len
  | (bs, p) :: es =>
      if p =? 0 then split_loop o fits r perc len es
      else let perc := perc + p in
           if (r / perc <=? rand_max o / 100) && fits bs then bs else split_loop o fits r perc bs es
  end.
(** io_u.c:674-680: alignment and clamp. *)
Definition align_len (o : bopts) (len : Z) : Z :=
  let len := if negb (b_unaligned o) then (if is_power_of_2 (b_min o) then Z.ldiff len (b_min o - 1) else len - len mod b_min o) else len in
  if len >? b_max o then b_max o else len.
(** One turn of the do loop. *)
Definition one_len (o : bopts) (fits : Z -> bool) (r : Z) : Z :=
  align_len o (match b_split o with [] => draw_range o r | es => split_loop o fits r 0 0 es end).
(** The loop, io_u.c:649-681; [None]: all the draws given were rejected. *)
Fixpoint len_loop (o : bopts) (fits : Z -> bool) (rs : list Z) : option Z :=
  match rs with
  | [] => None
  | r :: rs => let len := one_len o fits r in if fits len then Some len else len_loop o fits rs
  end.
(** io_u_fits, io_u.c:606-612; [limit] is io_size + get_start_offset. *)
Definition io_u_fits (offset limit len : Z) : bool := u64 (offset + len) <=? limit.
(** get_next_buflen, io_u.c:614-683, after the direction has been selected (not the writes of randtrimwrite); 0 is the failure. *)
Definition get_next_buflen (o : bopts) (offset limit : Z) (rs : list Z) : option Z :=
  if b_min o =? b_max o then Some (b_min o)
  else if negb (io_u_fits offset limit (b_min o)) then Some 0
  else len_loop o (io_u_fits offset limit) rs.

(** bssplit_ddir, options.c:136-207, on the parsed entries; [None] as percentage is the "-1U" of split_parse_ddir (absent or 0). *)
Definition given (e : Z * option Z) : Z := match snd e with Some p => p | None => 0 end.
Definition missing (e : Z * option Z) : Z := match snd e with Some _ => 0 | None => 1 end.
Fixpoint sum {A} (f : A -> Z) (l : list A) : Z := match l with [] => 0 | x :: l => f x + sum f l end.
(** options.c:169-196; [None] is the error return. *)
Definition split_percs (es : list (Z * option Z)) : option (list (Z * Z)) :=
  let perc := u32 (sum given es) in
  let miss := sum missing es in
  if (perc >? 100) && (miss >? 1) then None else
  let perc := if (miss =? 1) && (zlen es =? 1) then 100 else perc in
  Some (map (fun e => (fst e, match snd e with Some p => p | None => u32 (100 - perc) / miss end)) es).
(** qsort with bs_cmp, options.c:69-75, as an insertion sort on the difference converted to int. *)
Definition s32 (x : Z) : Z := let y := u32 x in if y <? 2 ^ 31 then y else y - 2 ^ 32.
Definition bs_cmp (a b : Z * Z) : Z := s32 (s32 (snd a) - s32 (snd b)).
Fixpoint insert (e : Z * Z) (l : list (Z * Z)) : list (Z * Z) := match l with [] => [e] | x :: r => if bs_cmp e x <=? 0 then e :: l else x :: insert e r end.
Fixpoint sort (l : list (Z * Z)) : list (Z * Z) := match l with [] => [] | x :: r => insert x (sort r) end.
Definition list_min (l : list Z) : Z := fold_right Z.min (2 ^ 64 - 1) l.
Definition list_max (l : list Z) : Z := fold_right Z.max 0 l.
(** The options it leaves behind. *)
Definition bssplit_ddir (es : list (Z * option Z)) (unaligned u64r : bool) : option bopts :=
  do l <- split_percs es; Some (mkB (list_min (map fst es)) (list_max (map fst es)) (sort l) unaligned u64r).
