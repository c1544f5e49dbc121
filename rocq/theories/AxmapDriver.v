(** A client of the map API: runs a list of requests through the modelled functions. *)
From Coq Require Import ZArith List Bool.
From Verif Require Import CBase AxmapModel AxmapSpec.
Import ListNotations.
Open Scope Z_scope.

(** One call of axmap_set (lib/axmap.c:286), axmap_set_nr (299) or axmap_reset (87). *)
Definition call (ax : axmap) (o : op) : option (axmap * option Z) :=
  match o with
  | Mark b => do ax' <- axmap_set ax b; Some (ax', None)
  | MarkRun b k => do (ax', m) <- axmap_set_nr ax b k; Some (ax', Some m)
  | Reset => Some (axmap_reset ax, None)
  end.

Fixpoint calls (ax : axmap) (ops : list op) : option (axmap * list (option Z)) :=
  match ops with
  | [] => Some (ax, [])
  | o :: rest =>
      do (ax1, r) <- call ax o;
      do (ax2, rs) <- calls ax1 rest;
      Some (ax2, r :: rs)
  end.
