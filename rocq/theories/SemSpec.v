(** An atomic counting semaphore. *)
From Coq Require Import ZArith List Lia Bool Arith.
From Verif Require Import SemModel.
Import ListNotations.
Open Scope Z_scope.

(** What an operation that succeeds ([r]) or fails does to the value. *)
Definition effect (o : opn) (r : bool) (v v' : Z) : Prop :=
  match o, r with
  | Up, true => v' = v + 1
  | Up, false => False
  | Down, false => False
  | Try, false => v = 0 /\ v' = v
  | Timed _, false => v' = v
  | _, true => 0 < v /\ v' = v - 1
  end.

(** Every thread calls, takes effect once, and returns what took effect. *)
Inductive phase := Out | In (o : opn) | Did (o : opn) (r : bool).

Inductive legal (v0 : Z) : list ev -> Z -> (nat -> phase) -> Prop :=
| LNil : legal v0 [] v0 (fun _ => Out)
| LCall : forall l v f g i o, legal v0 l v f -> f i = Out -> g i = In o -> (forall j, j <> i -> g j = f j) ->
    legal v0 (Call i o :: l) v g
| LEff : forall l v v' f g i o r, legal v0 l v f -> f i = In o -> effect o r v v' -> g i = Did o r ->
    (forall j, j <> i -> g j = f j) -> legal v0 (Eff i o r :: l) v' g
| LRet : forall l v f g i o r, legal v0 l v f -> f i = Did o r -> g i = Out -> (forall j, j <> i -> g j = f j) ->
    legal v0 (Ret i o r :: l) v g.

Inductive reach (c : cfg) (P : st -> Prop) : st -> Prop :=
| RInit : P (init c) -> reach c P (init c)
| RStep : forall s s', reach c P s -> step c s s' -> P s' -> reach c P s'.
Definition any (s : st) : Prop := True.

(** Nothing goes on: every thread is outside or asleep. *)
Definition quiet (c : cfg) (s : st) : Prop :=
  forall i, (i < threads c)%nat -> pc s i = PIdle \/ asleep (pc s i) = true.

(** Use as a lock, or by one waiter at a time. *)
Definition in_down (p : pcs) : bool :=
  match p with
  | PIdle | PTry | PUp1 | PUp2 _ | PUp3 _ => false
  | PLock Try | PLock Up | PTake Try | PTake Up | PUnlock Try _ | PUnlock Up _ => false
  | _ => true
  end.
Definition well_used (c : cfg) (s : st) : Prop :=
  value s <= 1 \/
  forall i j, (i < threads c)%nat -> (j < threads c)%nat -> in_down (pc s i) = true -> in_down (pc s j) = true -> i = j.

(** The steps of threads that are awake, with the signals they send. *)
Inductive own (c : cfg) (s : st) : st -> Prop :=
| OOwn : forall i s', (i < threads c)%nat -> awake c i s = Some s' -> own c s s'
| OSignal : forall i j o, (i < threads c)%nat -> pc s i = PUp3 true -> (j < threads c)%nat -> pc s j = PSleep o ->
    own c s (s_pc i (PUnlock Up true) (s_pc j (PWoken o false) s))
| ONobody : forall i, (i < threads c)%nat -> pc s i = PUp3 true -> (forall j, (j < threads c)%nat -> asleep (pc s j) = false) ->
    own c s (s_pc i (PUnlock Up true) s).
Inductive owns (c : cfg) : nat -> st -> st -> Prop :=
| O0 : forall s, owns c 0 s s
| O1 : forall n s s' s'', own c s s' -> owns c n s' s'' -> owns c (S n) s s''.
