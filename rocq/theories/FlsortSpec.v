(** What sorting a linked list should do. *)
From Coq Require Import ZArith List Bool Sorting.Permutation Sorting.Sorted.
Import ListNotations.
Open Scope Z_scope.

(** The circular doubly linked list with head [h] holds exactly [l], in this order. *)
Fixpoint links (nx pv : Z -> Z) (h x : Z) (l : list Z) : Prop :=
  match l with
  | [] => nx x = h /\ pv h = x
  | y :: l => nx x = y /\ pv y = x /\ links nx pv h y l
  end.
Definition holds (nx pv : Z -> Z) (h : Z) (l : list Z) : Prop := links nx pv h h l /\ NoDup (h :: l) /\ Forall (fun x => 0 < x) (h :: l).

(** The comparison is a consistent weak order on the elements. *)
Definition order (cmp : Z -> Z -> Z) (l : list Z) : Prop :=
  (forall x y, In x l -> In y l -> cmp x y <= 0 \/ cmp y x <= 0) /\
  (forall x y z, In x l -> In y l -> In z l -> cmp x y <= 0 -> cmp y z <= 0 -> cmp x z <= 0).
Definition equiv (cmp : Z -> Z -> Z) (x y : Z) : bool := (cmp x y <=? 0) && (cmp y x <=? 0).
(** [l'] is [l] sorted; elements that compare equal keep their order. *)
Definition sorted_version (cmp : Z -> Z -> Z) (l l' : list Z) : Prop :=
  Permutation l l' /\ StronglySorted (fun x y => cmp x y <= 0) l' /\
  (forall x, In x l -> filter (equiv cmp x) l' = filter (equiv cmp x) l).
