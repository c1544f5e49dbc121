(** What the job may expect of an I/O and what the engine promises. *)
From Coq Require Import ZArith List Lia Bool Arith.
From Verif Require Import LifeModel.
Import ListNotations.
Open Scope Z_scope.

(** An I/O of [len] bytes at [o], of which [d] have been moved; [sub] tells whether
    the engine has it. *)
Inductive phase := Idle | Active (o len d : Z) (sub : bool).

(** The life of the slots: an I/O starts in an idle slot; what is left of it is
    submitted, never twice at a time; its bytes are moved in order and without a
    gap, between matching places of the file and the buffer; and it ends once,
    well only when all of it has been moved or the end of the file (of [size]
    bytes) is reached. *)
Inductive life (size : Z) : list ev -> (nat -> phase) -> Prop :=
| LNil : life size [] (fun _ => Idle)
| LGet : forall l f g i o n, life size l f -> f i = Idle -> 0 < n ->
    g i = Active o n 0 false -> (forall j, j <> i -> g j = f j) -> life size (TGet i o n :: l) g
| LSub : forall l f g i o n d, life size l f -> f i = Active o n d false -> d < n ->
    g i = Active o n d true -> (forall j, j <> i -> g j = f j) -> life size (TSub i (n - d) :: l) g
| LMove : forall l f g i o n d k, life size l f -> f i = Active o n d true -> 0 < k -> d + k <= n ->
    g i = Active o n (d + k) false -> (forall j, j <> i -> g j = f j) -> life size (TMove i (o + d) d k :: l) g
| LFin : forall l f g i o n d b, life size l f -> f i = Active o n d b -> (d = n \/ size <= o + d) ->
    g i = Idle -> (forall j, j <> i -> g j = f j) -> life size (TFin i :: l) g
| LErr : forall l f g i o n d b, life size l f -> f i = Active o n d b ->
    g i = Idle -> (forall j, j <> i -> g j = f j) -> life size (TErr i :: l) g.

(** What the engine promises when it delivers events: they are of different
    io_us that it holds, it moved no more than it was asked to, it does not
    report success for nothing before the end of the file, and it delivers no
    more events than it was asked for. *)
Definition event_ok (size : Z) (s : st) (e : event) : Prop :=
  let '(i, err, resid) := e in
  In i (eng s) /\ 0 <= resid <= xl s i /\ (err = false -> resid < xl s i \/ size <= off s i).
Definition ids (l : list event) : list nat := map (fun e => fst (fst e)) l.
Definition reap_ok (c : cfg) (min : Z) (s : st) (l : list event) : Prop :=
  NoDup (ids l) /\ Z.of_nat (length l) <= want_max c min s /\ Forall (event_ok (fsize c) s) l.

(** The same for every round of a quiesce, in which the engine waits for an event
    if it is asked for one. *)
Fixpoint rounds_ok (c : cfg) (s : st) (bs : list (list event)) : Prop :=
  match bs with
  | [] => True
  | l :: bs' => inf s <> 0 ->
      reap_ok c 1 s l /\ (0 < want_min 1 s -> l <> []) /\
      match queued_complete c l s with Ret _ s' => rounds_ok c s' bs' | _ => True end
  end.

(** What the steps may be: an io_u is submitted before the next one is taken, and
    the engine keeps its promises. *)
Definition op_ok (c : cfg) (s : st) (p : op) : Prop :=
  match p with
  | OGet _ req _ => held s = None /\ match req with Some (_, n, _) => 0 <= n | None => True end
  | OSubmit a => match a, held s with ADone _ resid, Some i => 0 <= resid <= xl s i | _, _ => True end
  | OCommit => True
  | OReap min l => 0 <= min /\ reap_ok c min s l
  | OQuiesce bs => rounds_ok c (if negb (qd s =? 0) || negb (cd s =? 0) then
        match td_io_commit s with Ret _ s' => s' | _ => s end else s) bs
  end.

Definition cfg_ok (c : cfg) : Prop := Z.of_nat (depth c) < 2 ^ 32 /\ 0 <= cmax c.

(** The executions in which all steps satisfy [P]. *)
Inductive reach (c : cfg) (P : op -> Prop) : st -> Prop :=
| RInit : reach c P (init c)
| RStep : forall s p s', reach c P s -> op_ok c s p -> P p -> step c p s = Ret tt s' -> reach c P s'.
Definition any (p : op) : Prop := True.

(** Steps without I/Os of the verify list, without short transfers that a
    submission reports, and without short transfers at all. *)
Definition no_verify (p : op) : Prop :=
  match p with OGet _ (Some (_, _, v)) _ => v = false | _ => True end.
Definition no_sync_short (p : op) : Prop :=
  match p with OSubmit (ADone err resid) => err = false -> resid = 0 | _ => True end.
Definition whole (e : event) : Prop := snd (fst e) = false -> snd e = 0.
Definition no_short (p : op) : Prop :=
  no_sync_short p /\
  match p with
  | OReap _ l => Forall whole l
  | OQuiesce bs => Forall (Forall whole) bs
  | _ => True
  end.

Fixpoint sum (f : ev -> Z) (l : list ev) : Z :=
  match l with [] => 0 | e :: l' => f e + sum f l' end.
Definition moved (e : ev) : Z := match e with TMove _ _ _ n => n | _ => 0 end.
Definition asked (e : ev) : Z := match e with TSub _ n => n | _ => 0 end.
Definition fin (e : ev) : Z := match e with TFin _ => 1 | _ => 0 end.
Definition sub (e : ev) : Z := match e with TSub _ _ => 1 | _ => 0 end.
