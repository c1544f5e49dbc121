(** What a search tree is: its shape, its contents in order, and the red-black balance. *)
From Coq Require Import ZArith List.
From Verif Require Import CBase RbModel.
Import ListNotations.
Open Scope Z_scope.

(** A tree of node addresses; [true] is black. *)
Inductive tree := E | N (c : bool) (l : tree) (x : Z) (r : tree).
Definition rootp (t : tree) : Z := match t with E => 0 | N _ _ x _ => x end.
Fixpoint inorder (t : tree) : list Z := match t with E => [] | N _ l x r => inorder l ++ x :: inorder r end.
Fixpoint height (t : tree) : nat := match t with E => O | N _ l _ r => S (Nat.max (height l) (height r)) end.

(** The nodes of the heap form the tree, with parent pointer [p] at the top. *)
Fixpoint tr (h : Z -> rbn) (p : Z) (t : tree) : Prop :=
  match t with
  | E => True
  | N c l x r => x <> 0 /\ h x = mkN p c (rootp l) (rootp r) /\ tr h x l /\ tr h x r
  end.
Definition holds (s : rbs) (t : tree) : Prop := tr (nd s) 0 t /\ top s = rootp t /\ NoDup (inorder t).

(** No red node has a red child, and every path has [n] black nodes. *)
Definition blackish (t : tree) : Prop := match t with N false _ _ _ => False | _ => True end.
Inductive rbt : tree -> nat -> Prop :=
| rb_E : rbt E O
| rb_R l x r n : rbt l n -> rbt r n -> blackish l -> blackish r -> rbt (N false l x r) n
| rb_B l x r n : rbt l n -> rbt r n -> rbt (N true l x r) (S n).
Definition balanced (t : tree) : Prop := blackish t /\ exists n, rbt t n.

(** What the callers mean by their operations: a list sorted by a key, new elements after equal ones. *)
Fixpoint insert_by (key : Z -> Z) (x : Z) (l : list Z) : list Z :=
  match l with
  | [] => [x]
  | y :: l' => if key x <? key y then x :: l else y :: insert_by key x l'
  end.
Inductive op := Ins (x : Z) | Del (x : Z).
Definition apply_op (key : Z -> Z) (l : list Z) (o : op) : list Z :=
  match o with Ins x => insert_by key x l | Del x => remove Z.eq_dec x l end.
(** Insert only nodes that are not in the tree, erase only nodes that are. *)
Fixpoint legal (key : Z -> Z) (l : list Z) (ops : list op) : Prop :=
  match ops with
  | [] => True
  | o :: ops => match o with Ins x => x <> 0 /\ ~ In x l | Del x => In x l end /\ legal key (apply_op key l o) ops
  end.

Fixpoint sorted (key : Z -> Z) (l : list Z) : Prop :=
  match l with [] => True | x :: l => (forall y, In y l -> key x <= key y) /\ sorted key l end.

(** The same operations done by the code. *)
Definition run_op (fuel : nat) (key : Z -> Z) (o : op) (s : rbs) : option rbs :=
  match o with Ins x => rb_insert fuel (fun y => key x <? key y) x s | Del x => erase fuel x s end.
Fixpoint run (fuel : nat) (key : Z -> Z) (ops : list op) (s : rbs) : option rbs :=
  match ops with [] => Some s | o :: ops => do s <- run_op fuel key o s; run fuel key ops s end.
