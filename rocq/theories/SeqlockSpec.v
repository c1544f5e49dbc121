(** Vocabulary for C37. *)
From Coq Require Import ZArith List.
From Verif Require Import SeqlockModel.
Import ListNotations.
Open Scope Z_scope.

(** The value of the latest finished update. *)
Definition latest (s : sys) : list Z := hd [] (completed s).
(** Reader [k] leaves its loop with the snapshot [ws] in the step from [s] to [t]. *)
Definition accepts (s t : sys) (k : nat) (ws : list Z) : Prop := (exists seq w, m_r s k = RReading seq w) /\ m_r t k = RDone ws.
(** Reader [k] entered the loop in the step from [a] to [b]. *)
Definition enters (a b : sys) (k : nat) : Prop := m_r a k = RIdle /\ exists seq, m_r b k = RReading seq [].
(** A run during which reader [k] stays in the same round of its loop. *)
Inductive within (ordered : bool) (k : nat) : sys -> sys -> Prop :=
| In0 s : within ordered k s s
| InN a b c : within ordered k a b -> step ordered b c -> (exists seq ws, m_r c k = RReading seq ws) -> within ordered k a c.
