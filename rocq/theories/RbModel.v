(** Model of lib/rbtree.c on a heap of nodes. Pointers are integers, 0 is NULL; dereferencing NULL and loops that
    do not terminate are [None]. The packed word rb_parent_color is modelled by its two parts (pointers are
    4-byte aligned, so the parts do not interfere). *)
From Coq Require Import ZArith List Bool.
From Verif Require Import CBase.
Import ListNotations.
Open Scope Z_scope.

(** struct fio_rb_node, lib/rbtree.h:100-107; [blk] is RB_BLACK. *)
Record rbn := mkN { par : Z; blk : bool; lft : Z; rgt : Z }.

(** The heap and rb_root.rb_node, lib/rbtree.h:110-113. *)
Record rbs := mkS { nd : Z -> rbn; top : Z }.

Definition get (s : rbs) (p : Z) : option rbn := if p =? 0 then None else Some (nd s p).
Definition upd (h : Z -> rbn) (p : Z) (n : rbn) : Z -> rbn := fun i => if i =? p then n else h i.
Definition put (s : rbs) (p : Z) (f : rbn -> rbn) : option rbs :=
  if p =? 0 then None else Some (mkS (upd (nd s) p (f (nd s p))) (top s)).

(** rb_set_parent, rb_set_red, rb_set_black, rb_set_color, lib/rbtree.h:119-131, and the child assignments. *)
Definition set_par (q : Z) (n : rbn) := mkN q (blk n) (lft n) (rgt n).
Definition set_blk (b : bool) (n : rbn) := mkN (par n) b (lft n) (rgt n).
Definition set_lft (q : Z) (n : rbn) := mkN (par n) (blk n) q (rgt n).
Definition set_rgt (q : Z) (n : rbn) := mkN (par n) (blk n) (lft n) q.
Definition set_top (q : Z) (s : rbs) := mkS (nd s) q.

(** __rb_rotate_left, lib/rbtree.c:25-46. *)
Definition rotate_left (node : Z) (s : rbs) : option rbs :=
  do n <- get s node;
  let right := rgt n in
  let parent := par n in
  do r <- get s right;
  do s <- put s node (set_rgt (lft r));
  do s <- (if lft r =? 0 then Some s else put s (lft r) (set_par node));
  do s <- put s right (set_lft node);
  do s <- put s right (set_par parent);
  do s <- (if parent =? 0 then Some (set_top right s)
           else do p <- get s parent;
                if node =? lft p then put s parent (set_lft right) else put s parent (set_rgt right));
  put s node (set_par right).

(** __rb_rotate_right, lib/rbtree.c:48-69. *)
Definition rotate_right (node : Z) (s : rbs) : option rbs :=
  do n <- get s node;
  let left := lft n in
  let parent := par n in
  do l <- get s left;
  do s <- put s node (set_lft (rgt l));
  do s <- (if rgt l =? 0 then Some s else put s (rgt l) (set_par node));
  do s <- put s left (set_rgt node);
  do s <- put s left (set_par parent);
  do s <- (if parent =? 0 then Some (set_top left s)
           else do p <- get s parent;
                if node =? rgt p then put s parent (set_rgt left) else put s parent (set_lft left));
  put s node (set_par left).

(** x && rb_is_red(x) *)
Definition is_red (s : rbs) (p : Z) : option bool := if p =? 0 then Some false else do n <- get s p; Some (negb (blk n)).

(** rb_insert_color, lib/rbtree.c:71-134. *)
Fixpoint insert_color (fuel : nat) (node : Z) (s : rbs) : option rbs :=
  match fuel with
  | O => None
  | S fuel =>
      do n <- get s node;
      let parent := par n in
      do pr <- is_red s parent;
      if negb pr then put s (top s) (set_blk true)
      else
        do p <- get s parent;
        let gparent := par p in
        do g <- get s gparent;
        if parent =? lft g then
          let uncle := rgt g in
          do ur <- is_red s uncle;
          if ur then
            do s <- put s uncle (set_blk true);
            do s <- put s parent (set_blk true);
            do s <- put s gparent (set_blk false);
            insert_color fuel gparent s
          else
            do r <- (if rgt p =? node
                     then do s <- rotate_left parent s; Some (parent, node, s)
                     else Some (node, parent, s));
            let '(node, parent, s) := r in
            do s <- put s parent (set_blk true);
            do s <- put s gparent (set_blk false);
            do s <- rotate_right gparent s;
            insert_color fuel node s
        else
          let uncle := lft g in
          do ur <- is_red s uncle;
          if ur then
            do s <- put s uncle (set_blk true);
            do s <- put s parent (set_blk true);
            do s <- put s gparent (set_blk false);
            insert_color fuel gparent s
          else
            do r <- (if lft p =? node
                     then do s <- rotate_right parent s; Some (parent, node, s)
                     else Some (node, parent, s));
            let '(node, parent, s) := r in
            do s <- put s parent (set_blk true);
            do s <- put s gparent (set_blk false);
            do s <- rotate_left gparent s;
            insert_color fuel node s
  end.

(** Where rb_link points: the root, or a child of a node. *)
Inductive link := LTop | LLeft | LRight.

(** rb_link_node, lib/rbtree.h:146-154. *)
Definition link_node (node parent : Z) (l : link) (s : rbs) : option rbs :=
  do s <- put s node (fun _ => mkN parent false 0 0);
  match l with
  | LTop => Some (set_top node s)
  | LLeft => put s parent (set_lft node)
  | LRight => put s parent (set_rgt node)
  end.

(** !x || rb_is_black(x) *)
Definition is_blk (s : rbs) (p : Z) : option bool := if p =? 0 then Some true else do n <- get s p; Some (blk n).

(** The end of __rb_erase_color, lib/rbtree.c:219-220. *)
Definition blacken (node : Z) (s : rbs) : option rbs := if node =? 0 then Some s else put s node (set_blk true).

(** __rb_erase_color, lib/rbtree.c:136-221. *)
Fixpoint erase_color (fuel : nat) (node parent : Z) (s : rbs) : option rbs :=
  match fuel with
  | O => None
  | S fuel =>
      do nb <- is_blk s node;
      if nb && negb (node =? top s) then
        do p <- get s parent;
        if lft p =? node then
          let other := rgt p in
          do o <- get s other;
          do so <- (if negb (blk o)
                    then do s <- put s other (set_blk true);
                         do s <- put s parent (set_blk false);
                         do s <- rotate_left parent s;
                         do p <- get s parent; Some (s, rgt p)
                    else Some (s, other));
          let '(s, other) := so in
          do o <- get s other;
          do lb <- is_blk s (lft o);
          do rb <- is_blk s (rgt o);
          if lb && rb then
            do s <- put s other (set_blk false);
            do p <- get s parent;
            erase_color fuel parent (par p) s
          else
            do so <- (if rb
                      then do s <- (if lft o =? 0 then Some s else put s (lft o) (set_blk true));
                           do s <- put s other (set_blk false);
                           do s <- rotate_right other s;
                           do p <- get s parent; Some (s, rgt p)
                      else Some (s, other));
            let '(s, other) := so in
            do p <- get s parent;
            do s <- put s other (set_blk (blk p));
            do s <- put s parent (set_blk true);
            do o <- get s other;
            do s <- (if rgt o =? 0 then Some s else put s (rgt o) (set_blk true));
            do s <- rotate_left parent s;
            blacken (top s) s
        else
          let other := lft p in
          do o <- get s other;
          do so <- (if negb (blk o)
                    then do s <- put s other (set_blk true);
                         do s <- put s parent (set_blk false);
                         do s <- rotate_right parent s;
                         do p <- get s parent; Some (s, lft p)
                    else Some (s, other));
          let '(s, other) := so in
          do o <- get s other;
          do lb <- is_blk s (lft o);
          do rb <- is_blk s (rgt o);
          if lb && rb then
            do s <- put s other (set_blk false);
            do p <- get s parent;
            erase_color fuel parent (par p) s
          else
            do so <- (if lb
                      then do s <- (if rgt o =? 0 then Some s else put s (rgt o) (set_blk true));
                           do s <- put s other (set_blk false);
                           do s <- rotate_left other s;
                           do p <- get s parent; Some (s, lft p)
                      else Some (s, other));
            let '(s, other) := so in
            do p <- get s parent;
            do s <- put s other (set_blk (blk p));
            do s <- put s parent (set_blk true);
            do o <- get s other;
            do s <- (if lft o =? 0 then Some s else put s (lft o) (set_blk true));
            do s <- rotate_right parent s;
            blacken (top s) s
      else blacken node s
  end.

(** while ((left = node->rb_left) != NULL) node = left, lib/rbtree.c:237-238, 300-301 and 318-319. *)
Fixpoint leftmost (fuel : nat) (node : Z) (s : rbs) : option Z :=
  match fuel with
  | O => None
  | S fuel => do n <- get s node; if lft n =? 0 then Some node else leftmost fuel (lft n) s
  end.

(** The child pointer of [parent] (or the root) that was [node] becomes [new], lib/rbtree.c:255-262 and 275-283. *)
Definition replace_child (parent node new : Z) (s : rbs) : option rbs :=
  if parent =? 0 then Some (set_top new s)
  else do p <- get s parent;
       if lft p =? node then put s parent (set_lft new) else put s parent (set_rgt new).

(** The successor takes the place of the erased node, lib/rbtree.c:251-266. *)
Definition takeover (old node : Z) (s : rbs) : option rbs :=
  do o <- get s old;
  do s <- put s node (fun x => mkN (par o) (blk o) (lft x) (rgt x));
  do s <- put s node (set_rgt (rgt o));
  do s <- put s node (set_lft (lft o));
  do s <- replace_child (par o) old node s;
  do s <- put s (lft o) (set_par node);
  if rgt o =? 0 then Some s else put s (rgt o) (set_par node).

(** rb_erase, lib/rbtree.c:223-288. *)
Definition erase (fuel : nat) (node : Z) (s : rbs) : option rbs :=
  do n <- get s node;
  if (lft n =? 0) || (rgt n =? 0) then
    let child := if lft n =? 0 then rgt n else lft n in
    let parent := par n in
    do s <- (if child =? 0 then Some s else put s child (set_par parent));
    do s <- replace_child parent node child s;
    if blk n then erase_color fuel child parent s else Some s
  else
    let old := node in
    do node <- leftmost fuel (rgt n) s;
    do m <- get s node;
    let child := rgt m in
    let parent := par m in
    do s <- (if child =? 0 then Some s else put s child (set_par parent));
    do ps <- (if parent =? old then do s <- put s parent (set_rgt child); Some (node, s)
              else do s <- put s parent (set_lft child); Some (parent, s));
    let '(parent, s) := ps in
    do s <- takeover old node s;
    if blk m then erase_color fuel child parent s else Some s.

(** rb_first, lib/rbtree.c:293-303. *)
Definition rb_first (fuel : nat) (s : rbs) : option Z :=
  if top s =? 0 then Some 0 else leftmost fuel (top s) s.

(** while ((parent = rb_parent(node)) && node == parent->rb_right) node = parent, lib/rbtree.c:330-331. *)
Fixpoint climb (fuel : nat) (node : Z) (s : rbs) : option Z :=
  match fuel with
  | O => None
  | S fuel =>
      do n <- get s node;
      if par n =? 0 then Some 0
      else do p <- get s (par n);
           if node =? rgt p then climb fuel (par n) s else Some (par n)
  end.

(** rb_next, lib/rbtree.c:305-334. *)
Definition rb_next (fuel : nat) (node : Z) (s : rbs) : option Z :=
  do n <- get s node;
  if par n =? node then Some 0
  else if negb (rgt n =? 0) then leftmost fuel (rgt n) s
  else climb fuel node s.

(** The descent every caller makes before rb_link_node, as in the comment lib/rbtree.h:53-77, iolog.c:325-365 and t/dedupe.c:240-268:
    [go y] says to go left at [y]. *)
Fixpoint slot (fuel : nat) (go : Z -> bool) (cur parent : Z) (l : link) (s : rbs) : option (Z * link) :=
  match fuel with
  | O => None
  | S fuel =>
      if cur =? 0 then Some (parent, l)
      else do n <- get s cur;
           if go cur then slot fuel go (lft n) cur LLeft s else slot fuel go (rgt n) cur LRight s
  end.
Definition rb_insert (fuel : nat) (go : Z -> bool) (x : Z) (s : rbs) : option rbs :=
  do pl <- slot fuel go (top s) 0 LTop s;
  do s <- link_node x (fst pl) (snd pl) s;
  insert_color fuel x s.

(** Iteration over all nodes, from rb_first by rb_next until NULL, t/dedupe.c:614-629. *)
Fixpoint iter (steps fuel : nat) (n : Z) (s : rbs) : option (list Z) :=
  if n =? 0 then Some []
  else match steps with
       | O => None
       | S steps => do m <- rb_next fuel n s; do l <- iter steps fuel m s; Some (n :: l)
       end.
