(** Vocabulary for C36. *)
From Coq Require Import ZArith List Bool Arith.
From Verif Require Import WorkqModel.
Import ListNotations.

(** The items of one worker, in the order of the history. *)
Fixpoint of_worker (w : nat) (h : list (nat * Z)) : list Z :=
  match h with [] => [] | (v, x) :: h => if (v =? w)%nat then x :: of_worker w h else of_worker w h end.
(** What was given to a worker and is not finished. *)
Definition pending (s : st) (w : nat) : list Z :=
  match nth_error (ws s) w with
  | None => []
  | Some k => (match wpc_ k with WRun x => [x] | _ => [] end) ++ loc k ++ wl k
  end.
Definition all_handled (s : st) : Prop := forall w, of_worker w (handled s) = of_worker w (given s).
(** The flushing thread is inside workqueue_flush. *)
Definition flushing (m : mpc) : Prop := match m with MWant | MCheck _ | MSleep | MWait | MAwake => True | _ => False end.
(** The best worker: an idle one if there is one, and otherwise one whose last item is oldest. *)
Definition good_choice (vs : list view) (w : nat) : Prop :=
  exists v, nth_error vs w = Some v /\
    (v_idle v = true \/ forall i v', nth_error vs i = Some v' -> v_idle v' = false /\ (v_seq v <= v_seq v')%Z).
(** A call of the caller is under way. *)
Definition in_call (m : mpc) : Prop := match m with MIdle | MEnd => False | _ => True end.
(** A condition variable that returns without having been signalled. *)
Definition spurious (s s' : st) : Prop :=
  (mpc_ s = MWait /\ s' = setm s MAwake) \/
  exists w k, nth_error (ws s) w = Some k /\ wpc_ k = WWait /\ s' = setw s w (mkW WAwake (wl k) (loc k) (idle k) (ext k)).
(** [n] steps, none of them spurious, all of them during a call. *)
Inductive chain : nat -> st -> st -> Prop :=
| CNil s : chain 0 s s
| CStep n s s1 s' : in_call (mpc_ s) -> step s s1 -> ~ spurious s s1 -> chain n s1 s' -> chain (S n) s s'.
