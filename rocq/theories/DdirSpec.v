(** Vocabulary for C31: when a flush is due, and counting, without the model's helpers. *)
From Coq Require Import ZArith List.
From Verif Require Import DdirModel.
Import ListNotations.
Open Scope Z_scope.

(** The number of writes and reads among the issued requests. *)
Fixpoint writes (l : list ddir) : Z := match l with [] => 0 | Wr :: l => 1 + writes l | _ :: l => writes l end.
Fixpoint reads (l : list ddir) : Z := match l with [] => 0 | Rd :: l => 1 + reads l | _ :: l => reads l end.
(** The flush that must follow the [w]-th write: the first of fsync, fdatasync and sync_file_range whose period divides [w]. *)
Definition flush_after (fsync fdatasync sfr w : Z) (d : ddir) : Prop :=
  let every n := n <> 0 /\ (n | w) in
  (d = Sync /\ every fsync) \/ (d = Dsync /\ ~ every fsync /\ every fdatasync) \/ (d = Sfr /\ ~ every fsync /\ ~ every fdatasync /\ every sfr).
Definition a_flush (d : ddir) : Prop := d = Sync \/ d = Dsync \/ d = Sfr.
