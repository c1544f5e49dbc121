(** Model of the bloom filter and of the list of file names that are already laid out. [None] is a division by zero
    or an access outside the map. The five hash functions are a parameter [hs]; each result is a 32-bit number.
    Allocation failure is not modelled. *)
From Coq Require Import ZArith List Bool.
From Verif Require Import CBase.
Import ListNotations.
Open Scope Z_scope.

(** struct bloom, lib/bloom.c:10-14. *)
Record bloom := mkB { nentries : Z; map_ : list Z }.

(** bloom_new, lib/bloom.c:62-80. *)
Definition bloom_new (entries : Z) : bloom := mkB entries (repeat 0 (Z.to_nat (u64 (entries + 32 - 1) / 32))).

(** The loop lib/bloom.c:96-99. *)
Fixpoint hash_all (n : Z) (hs : list (list Z -> Z)) (data : list Z) : option (list Z) :=
  match hs with
  | [] => Some []
  | h :: hs => if n =? 0 then None else do l <- hash_all n hs data; Some (h data mod n :: l)
  end.

(** The loop lib/bloom.c:101-112: the map and was_set. *)
Fixpoint check (set : bool) (hash : list Z) (m : list Z) (was_set : Z) : option (list Z * Z) :=
  match hash with
  | [] => Some (m, was_set)
  | h :: hash =>
      let index := h / 32 in
      let bit := Z.land h 31 in
      do w <- znth m index;
      if negb (Z.land w (u32 (Z.shiftl 1 bit)) =? 0) then check set hash m (was_set + 1)
      else if set then do m <- zupd m index (Z.lor w (u32 (Z.shiftl 1 bit))); check set hash m was_set
      else Some (m, was_set)
  end.

(** __bloom_check, lib/bloom.c:88-115; bloom_set and bloom_string (lib/bloom.c:117-126) call it with [set]. *)
Definition bloom_check (hs : list (list Z -> Z)) (b : bloom) (data : list Z) (set : bool) : option (bloom * bool) :=
  do hash <- hash_all (nentries b) hs data;
  do r <- check set hash (map_ b) 0;
  Some (mkB (nentries b) (fst r), snd r =? Z.of_nat (length hs)).

(** file_bloom and filename_list; BLOOM_SIZE, filehash.c:14 and 136. *)
Record names := mkN { fb : bloom; flist : list (list Z) }.
Definition names_init : names := mkN (bloom_new (16 * 1024 * 1024)) [].
Definition streq (a b : list Z) : bool := if list_eq_dec Z.eq_dec a b then true else false.

(** __is_already_allocated, filesetup.c:1746-1766. *)
Definition is_alloc_ (hs : list (list Z -> Z)) (s : names) (f : list Z) (set : bool) : option (names * bool) :=
  do r <- bloom_check hs (fb s) f set;
  let s := mkN (fst r) (flist s) in
  if negb (snd r) then Some (s, false) else Some (s, existsb (fun g => streq g f) (flist s)).

(** is_already_allocated, filesetup.c:1768-1777. *)
Definition is_already_allocated hs s f := is_alloc_ hs s f false.
(** set_already_allocated, filesetup.c:1779-1799. *)
Definition set_already_allocated hs s f : option names :=
  do r <- is_alloc_ hs s f true;
  let (s, b) := r in
  Some (if b then s else mkN (fb s) (flist s ++ [f])).
