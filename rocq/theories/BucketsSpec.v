(** The documented meaning of the distributions (HOWTO.rst, "lat", "IO depths", "IO submit") and counting. *)
From Coq Require Import ZArith List Bool QArith.
Import ListNotations.
Open Scope Z_scope.

(** The printed labels of the latency entries: an entry covers the values below its label and not below the previous one. *)
Definition labels : list Z := [2; 4; 10; 20; 50; 100; 250; 500; 750; 1000].
Definition msec_labels : list Z := labels ++ [2000].
(** Entry [i] of a table with these labels contains [x]; the entry after the last label is open. *)
Definition in_entry (ls : list Z) (i : nat) (x : Z) : Prop :=
  (i <= length ls)%nat /\ (forall j l, (j < i)%nat -> nth_error ls j = Some l -> l <= x) /\ (forall l, nth_error ls i = Some l -> x < l).
(** The three tables: nanoseconds below 1000, microseconds below 1000, milliseconds. *)
Inductive table := Tn | Tu | Tm.
Definition lat_entry (t : table) (i : nat) (ns : Z) : Prop :=
  match t with
  | Tn => 0 <= ns < 1000 /\ in_entry labels i ns
  | Tu => 1000 <= ns < 1000000 /\ in_entry labels i (ns / 1000)
  | Tm => 1000000 <= ns /\ in_entry msec_labels i (ns / 1000000)
  end.
(** Depths: 1, 2, 4, ...: each entry covers depths from that value up to those lower than the next entry. *)
Definition depth_labels : list Z := [1; 2; 4; 8; 16; 32; 64].
Definition in_depth (i : nat) (d : Z) : Prop :=
  (exists l, nth_error depth_labels i = Some l /\ l <= d) /\ forall l, nth_error depth_labels (S i) = Some l -> d < l.
(** Submissions: 0, 4, 8, ...: each entry denotes that amount and below, until the previous entry; the last one is open. *)
Definition submit_labels : list Z := [0; 4; 8; 16; 32; 64].
Definition in_submit (i : nat) (n : Z) : Prop :=
  (i <= length submit_labels)%nat /\ (forall l, nth_error submit_labels i = Some l -> n <= l) /\ forall j l, i = S j -> nth_error submit_labels j = Some l -> l < n.

Fixpoint total (l : list Z) : Z := match l with [] => 0 | v :: r => v + total r end.
Fixpoint qtotal (l : list Q) : Q := match l with [] => 0 | v :: r => v + qtotal r end.
(** [l'] is [l] with [n] added at [i]. *)
Definition added (l l' : list Z) (i : nat) (n : Z) : Prop :=
  length l' = length l /\ (i < length l)%nat /\ nth i l' 0 = nth i l 0 + n /\ forall j, j <> i -> nth j l' 0 = nth j l 0.
(** [n] elements of the list satisfy [P]. *)
Inductive counted {A} (P : A -> Prop) : list A -> Z -> Prop :=
| cnt_nil : counted P [] 0
| cnt_yes x l n : P x -> counted P l n -> counted P (x :: l) (n + 1)
| cnt_no x l n : ~ P x -> counted P l n -> counted P (x :: l) n.
