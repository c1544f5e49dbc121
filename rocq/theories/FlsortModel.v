(** Model of flist_sort on the next and prev pointers of the list nodes. A node is its address, NULL is 0, and the local
    variable "head" of merge() has the address -1. [cmp a b] is the result of the comparison callback, a pure function of
    the two nodes. A dereference of NULL, an index outside part[] and a loop that does not end are [None]. *)
From Coq Require Import ZArith List Bool.
From Verif Require Import CBase.
Import ListNotations.
Open Scope Z_scope.

Definition fupd {A} (f : Z -> A) (x : Z) (v : A) : Z -> A := fun i => if i =? x then v else f i.
Definition TMP := -1.

(** The loop of merge and "tail->next = a ?: b", lib/flist_sort.c:20-31. *)
Fixpoint merge_loop (fuel : nat) (cmp : Z -> Z -> Z) (nx : Z -> Z) (a b tail : Z) : option (Z -> Z) :=
  if negb (a =? 0) && negb (b =? 0)
  then match fuel with
       | O => None
       | S fuel =>
           if cmp a b <=? 0
           then let nx := fupd nx tail a in merge_loop fuel cmp nx (nx a) b (nx tail)
           else let nx := fupd nx tail b in merge_loop fuel cmp nx a (nx b) (nx tail)
       end
  else Some (fupd nx tail (if negb (a =? 0) then a else b)).

(** merge, lib/flist_sort.c:13-33. *)
Definition merge (fuel : nat) (cmp : Z -> Z -> Z) (nx : Z -> Z) (a b : Z) : option ((Z -> Z) * Z) :=
  do nx <- merge_loop fuel cmp nx a b TMP; Some (nx, nx TMP).

(** merge_and_restore_back_links, lib/flist_sort.c:42-81: the first loop, ... *)
Fixpoint restore_loop (fuel : nat) (cmp : Z -> Z -> Z) (nx pv : Z -> Z) (a b tail : Z) : option ((Z -> Z) * (Z -> Z) * Z) :=
  if negb (a =? 0) && negb (b =? 0)
  then match fuel with
       | O => None
       | S fuel =>
           if cmp a b <=? 0
           then let nx := fupd nx tail a in let pv := fupd pv a tail in restore_loop fuel cmp nx pv (nx a) b (nx tail)
           else let nx := fupd nx tail b in let pv := fupd pv b tail in restore_loop fuel cmp nx pv a (nx b) (nx tail)
       end
  else Some (fupd nx tail (if negb (a =? 0) then a else b), pv, tail).
(** ... the second loop (lines 66-77) ... *)
Fixpoint back_loop (fuel : nat) (nx pv : Z -> Z) (tail : Z) : option ((Z -> Z) * Z) :=
  match fuel with
  | O => None
  | S fuel =>
      if nx tail =? 0 then None
      else let pv := fupd pv (nx tail) tail in
           let tail := nx tail in
           if nx tail =? 0 then Some (pv, tail) else back_loop fuel nx pv tail
  end.
(** ... and the end, lines 79-80. *)
Definition merge_and_restore (fuel : nat) (cmp : Z -> Z -> Z) (nx pv : Z -> Z) (head a b : Z) : option ((Z -> Z) * (Z -> Z)) :=
  do r <- restore_loop fuel cmp nx pv a b head;
  let '(nx, pv, tail) := r in
  do q <- back_loop fuel nx pv tail;
  let (pv, tail) := (q : (Z -> Z) * Z) in
  Some (fupd nx tail head, fupd pv head tail).

Definition MAX_BITS := 20.

(** for (lev = 0; part[lev]; lev++), lib/flist_sort.c:119-122; [n] counts down from the size of part[]. *)
Fixpoint carry (n : nat) (fuel : nat) (cmp : Z -> Z -> Z) (nx : Z -> Z) (part : list Z) (lev cur : Z) : option ((Z -> Z) * list Z * Z * Z) :=
  do p <- znth part lev;
  if p =? 0 then Some (nx, part, lev, cur)
  else match n with
       | O => None
       | S n =>
           do r <- merge fuel cmp nx p cur;
           do part <- zupd part lev 0;
           carry n fuel cmp (fst r) part (lev + 1) (snd r)
       end.

(** The body of while (list), lib/flist_sort.c:115-132, without the message. *)
Definition add_one (fuel : nat) (cmp : Z -> Z -> Z) (nx : Z -> Z) (part : list Z) (max_lev cur : Z) : option ((Z -> Z) * list Z * Z) :=
  let nx := fupd nx cur 0 in
  do r <- carry 21 fuel cmp nx part 0 cur;
  let '(nx, part, lev, cur) := r in
  let '(lev, max_lev) := if lev >? max_lev then (let lev := if lev >=? MAX_BITS then lev - 1 else lev in (lev, lev)) else (lev, max_lev) in
  do part <- zupd part lev cur;
  Some (nx, part, max_lev).
Fixpoint main_loop (steps fuel : nat) (cmp : Z -> Z -> Z) (nx : Z -> Z) (part : list Z) (max_lev list_ : Z) : option ((Z -> Z) * list Z * Z) :=
  if list_ =? 0 then Some (nx, part, max_lev)
  else match steps with
       | O => None
       | S steps =>
           do r <- add_one fuel cmp nx part max_lev list_;
           let '(nx', part, max_lev) := r in
           main_loop steps fuel cmp nx' part max_lev (nx list_)
       end.

(** lib/flist_sort.c:134-136; [n] is max_lev - lev. *)
Fixpoint final_loop (n : nat) (fuel : nat) (cmp : Z -> Z -> Z) (nx : Z -> Z) (part : list Z) (lev list_ : Z) : option ((Z -> Z) * Z) :=
  match n with
  | O => Some (nx, list_)
  | S n =>
      do p <- znth part lev;
      do r <- (if negb (p =? 0) then merge fuel cmp nx p list_ else Some (nx, list_));
      final_loop n fuel cmp (fst r) part (lev + 1) (snd r)
  end.

(** flist_sort, lib/flist_sort.c:96-139. *)
Definition flist_sort (fuel : nat) (cmp : Z -> Z -> Z) (nx pv : Z -> Z) (head : Z) : option ((Z -> Z) * (Z -> Z)) :=
  if nx head =? head then Some (nx, pv)
  else
    let part := repeat 0 21 in
    let nx := fupd nx (pv head) 0 in
    do r <- main_loop fuel fuel cmp nx part 0 (nx head);
    let '(nx, part, max_lev) := r in
    do q <- final_loop (Z.to_nat max_lev) fuel cmp nx part 0 0;
    do p <- znth part max_lev;
    merge_and_restore fuel cmp (fst q) pv head p (snd q).

(** entry_cmp, t/btrace2fio.c:843-849: the difference of two unsigned longs returned as an int; [ios x] is the number of
    requests of the process at x. *)
Definition s32 (z : Z) : Z := let w := z mod 2 ^ 32 in if w <? 2 ^ 31 then w else w - 2 ^ 32.
Definition entry_cmp (ios : Z -> Z) (a b : Z) : Z := s32 (ios b - ios a).
