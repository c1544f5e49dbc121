(** Specification of a block map: a set of block numbers, independent of the bitmap tree. *)
From Coq Require Import ZArith List Bool.
Import ListNotations.
Open Scope Z_scope.

(** A set of blocks. *)
Definition bset := Z -> bool.
Definition empty_set : bset := fun _ => false.

(** Length of the longest prefix of the run [b, b+k) that contains no marked block. *)
Fixpoint free_prefix (s : bset) (b : Z) (k : nat) : nat :=
  match k with
  | O => O
  | S k' => if s b then O else S (free_prefix s (b + 1) k')
  end.

Definition add_range (s : bset) (b m : Z) : bset :=
  fun x => ((b <=? x) && (x <? b + m)) || s x.

(** What a user can ask a map to do. *)
Inductive op :=
| Mark (b : Z)             (* mark one block *)
| MarkRun (b k : Z)        (* mark a run of k blocks starting at b *)
| Reset.

(** The intended effect of one operation: the new set and the number reported, if any. *)
Definition spec_step (s : bset) (o : op) : bset * option Z :=
  match o with
  | Mark b => (add_range s b 1, None)
  | MarkRun b k =>
      let m := Z.of_nat (free_prefix s b (Z.to_nat k)) in (add_range s b m, Some m)
  | Reset => (empty_set, None)
  end.

Fixpoint spec_run (s : bset) (ops : list op) : bset * list (option Z) :=
  match ops with
  | [] => (s, [])
  | o :: rest =>
      let (s1, r) := spec_step s o in
      let (s2, rs) := spec_run s1 rest in (s2, r :: rs)
  end.

(** Requests that stay inside a map of [n] blocks. *)
Definition in_map (n : Z) (o : op) : Prop :=
  match o with
  | Mark b => 0 <= b < n
  | MarkRun b k => 0 <= b < n /\ 0 <= k < 2 ^ 32 /\ b + k <= n
  | Reset => True
  end.

(** Cyclic distance from block [a] forward to block [b] in a map of [n] blocks. *)
Definition cyc_dist (n a b : Z) : Z := (b - a) mod n.
