(** Vocabulary for C32. *)
From Coq Require Import ZArith List Bool.
From Verif Require Import IologModel.
Import ListNotations.
Open Scope Z_scope.

(** The I/Os among the logged events: file, direction, offset and length. *)
Fixpoint ios (es : list event) : list (list Z * ddir * Z * Z) :=
  match es with [] => [] | EIo _ n d off len :: es => (n, d, off, len) :: ios es | EFile _ _ _ :: es => ios es end.
(** White space of the C locale. *)
Definition blank (c : Z) : Prop := c = 32 \/ 9 <= c <= 13.
(** A file name that survives: between 1 and 256 characters, none of them white space. *)
Definition good_name (n : list Z) : Prop := n <> [] /\ (length n <= 256)%nat /\ Forall (fun c => ~ blank c) n.
(** The directions that the reader knows. *)
Definition known (d : ddir) : Prop := d = DRead \/ d = DWrite \/ d = DTrim \/ d = DSync \/ d = DDatasync.
Definition good_event (names : list (list Z)) (e : event) : Prop :=
  match e with
  | EIo t n d off len => 0 <= t < 2 ^ 64 /\ In n names /\ known d /\ 0 <= off < 2 ^ 64 /\ 0 <= len < 2 ^ 32
  | EFile t n a => 0 <= t < 2 ^ 64 /\ In n names /\ a <> FAdd
  end.
(** A replay with the default options: nothing skipped, scaled, aligned or redirected, and no directory. *)
Definition default (o : ropts) : Prop :=
  o_redirect o = None /\ (forall d, o_skip o d = false) /\ o_scale o = 0 /\ o_align o = 0 /\ o_readonly o = false /\ o_directory o = [].
Definition transfers (es : list event) : Prop := exists t n d off len, In (EIo t n d off len) es /\ (d = DRead \/ d = DWrite \/ d = DTrim).
Definition time (e : event) : Z := match e with EIo t _ _ _ _ => t | EFile t _ _ => t end.
(** The pauses between events that started at [t0]. *)
Fixpoint pauses (t0 : Z) (es : list event) : list Z := match es with [] => [] | e :: es => (if t0 =? 0 then 0 else time e - t0) :: pauses (time e) es end.
Fixpoint ordered (t0 : Z) (es : list event) : Prop := match es with [] => True | e :: es => t0 <= time e /\ ordered (time e) es end.
