(** Model of the work queue, workqueue.c, as a transition system. One thread (the caller serializes the calls, workqueue.c:83-85, 98-100)
    enqueues, flushes and finally exits; every worker runs worker_thread; steps interleave freely. A section of code under sw->lock is
    one step, because the list and the flags are only written there, and a worker's last write before it drops the lock is the flag that
    the flushing thread reads without the lock. wq->flush_lock is explicit: it is held exactly while the flushing thread is in its loop.
    Condition variables may wake up spuriously. Items are numbers. *)
From Coq Require Import ZArith List Bool Arith.
From Verif Require Import CBase.
Import ListNotations.
Open Scope Z_scope.

(** ** The choice of a worker *)
(** What get_submit_worker looks at: SW_F_IDLE and seq of each worker. *)
Record view := mkView { v_idle : bool; v_seq : Z }.
(** __get_submit_worker, workqueue.c:23-40: [fuel] workers from [i] on. *)
Fixpoint scan (vs : list view) (i fuel : nat) (best : option nat) : option nat * option nat :=
  match fuel with
  | O => (None, best)
  | S fuel => match nth_error vs i with
    | None => (None, best)
    | Some v => if v_idle v then (Some i, best) else
        let best' := match best with
                     | None => Some i
                     | Some b => match nth_error vs b with Some vb => if v_seq v <? v_seq vb then Some i else Some b | None => Some b end
                     end in
        scan vs (S i) fuel best'
    end
  end.
(** get_submit_worker, workqueue.c:42-66: the worker and the new wq->next_free_worker. *)
Definition get_submit_worker (vs : list view) (next : nat) : option (nat * nat) :=
  if (next <? length vs)%nat then
    let (r, best) := scan vs next (length vs - next) None in
    let (r, best) := match r with Some _ => (r, best) | None => if (next =? 0)%nat then (r, best) else scan vs 0 next best end in
    match (match r with Some _ => r | None => best end) with
    | None => None
    | Some w => Some (w, if (w =? next)%nat then (if (w + 1 <? length vs)%nat then w + 1 else 0)%nat else next)
    end
  else None.

(** ** The threads *)
Inductive wpc :=
| WTop        (* about to lock sw->lock at the top of the loop, workqueue.c:162, 206 *)
| WSlept      (* about to lock it again after pre_sleep, 172 *)
| WSig        (* SW_F_IDLE set, about to lock wq->flush_lock, 187 *)
| WThird      (* about to lock sw->lock, 191 *)
| WWait       (* in pthread_cond_wait(&sw->cond), 198 *)
| WAwake      (* woken up, about to get sw->lock back *)
| WHandle     (* in handle_list, 203 *)
| WRun (x : Z) (* in wq->ops.fn for x *)
| WDone.
Record wk := mkW { wpc_ : wpc; wl : list Z (* work_list *); loc : list Z (* local_list *); idle : bool (* SW_F_IDLE *); ext : bool (* SW_F_EXIT *) }.
Inductive mpc :=
| MIdle
| MWant          (* workqueue_flush, about to lock flush_lock, 88 *)
| MCheck (i : nat) (* all_sw_idle at worker i *)
| MSleep         (* a worker was busy, about to wait, still holding flush_lock *)
| MWait          (* in pthread_cond_wait(&wq->flush_cond), 92 *)
| MAwake
| MExit (i : nat)  (* workqueue_exit, first loop, 243-251 *)
| MJoin (i : nat)  (* pthread_join of worker i *)
| MEnd.
(** [given] and [handled] are histories: what was given to which worker, and what each worker has finished handling. *)
Record st := mkSt { mpc_ : mpc; wake : bool; nxt : nat; ws : list wk; given : list (nat * Z); handled : list (nat * Z) }.

Definition signal (p : wpc) : wpc := match p with WWait => WAwake | _ => p end.
Definition setm (s : st) (m : mpc) : st := mkSt m (wake s) (nxt s) (ws s) (given s) (handled s).
Definition setw (s : st) (w : nat) (k : wk) : st := mkSt (mpc_ s) (wake s) (nxt s) (upd (ws s) w k) (given s) (handled s).
Definition succw (s : st) (w : nat) : nat := if (w + 1 <? length (ws s))%nat then (w + 1)%nat else 0%nat.

Inductive step (s : st) : st -> Prop :=
(** workqueue_enqueue, 101-115. The flags and sequence numbers are read without a lock: any worker may be chosen. *)
| Enqueue w x k nx : mpc_ s = MIdle -> nth_error (ws s) w = Some k -> nx = nxt s \/ nx = succw s w ->
    step s (mkSt MIdle (wake s) nx (upd (ws s) w (mkW (signal (wpc_ k)) (wl k ++ [x]) (loc k) false (ext k))) (given s ++ [(w, x)]) (handled s))
(** workqueue_flush, 86-96. *)
| Flush : mpc_ s = MIdle -> step s (setm s MWant)
| FlushLock : mpc_ s = MWant -> step s (mkSt (MCheck 0) true (nxt s) (ws s) (given s) (handled s))
| FlushNext i k : mpc_ s = MCheck i -> nth_error (ws s) i = Some k -> idle k = true -> step s (setm s (MCheck (S i)))
| FlushBusy i k : mpc_ s = MCheck i -> nth_error (ws s) i = Some k -> idle k = false -> step s (setm s MSleep)
| FlushWait : mpc_ s = MSleep -> step s (setm s MWait)
| FlushDone i : mpc_ s = MCheck i -> i = length (ws s) -> step s (mkSt MIdle false (nxt s) (ws s) (given s) (handled s))
| FlushSpurious : mpc_ s = MWait -> step s (setm s MAwake)
| FlushAgain : mpc_ s = MAwake -> step s (setm s (MCheck 0))
(** workqueue_exit, 234-272. *)
| Exit : mpc_ s = MIdle -> step s (setm s (MExit 0))
| ExitOne i k : mpc_ s = MExit i -> nth_error (ws s) i = Some k ->
    step s (mkSt (MExit (S i)) (wake s) (nxt s) (upd (ws s) i (mkW (signal (wpc_ k)) (wl k) (loc k) (idle k) true)) (given s) (handled s))
| ExitAll i : mpc_ s = MExit i -> i = length (ws s) -> step s (setm s (MJoin 0))
| JoinOne i k : mpc_ s = MJoin i -> nth_error (ws s) i = Some k -> wpc_ k = WDone -> step s (setm s (MJoin (S i)))
| JoinAll i : mpc_ s = MJoin i -> i = length (ws s) -> step s (setm s MEnd)
(** worker_thread, 163-207. The first test. *)
| TopExit w k : nth_error (ws s) w = Some k -> wpc_ k = WTop -> wl k = [] -> ext k = true -> step s (setw s w (mkW WDone (wl k) (loc k) (idle k) (ext k)))
| TopSleep w k : nth_error (ws s) w = Some k -> wpc_ k = WTop -> wl k = [] -> ext k = false -> step s (setw s w (mkW WSlept (wl k) (loc k) (idle k) (ext k)))
(** The second test, directly after the first or after pre_sleep. *)
| SecExit w k : nth_error (ws s) w = Some k -> wpc_ k = WSlept -> wl k = [] -> ext k = true -> step s (setw s w (mkW WDone (wl k) (loc k) (idle k) (ext k)))
| SecIdle w k : nth_error (ws s) w = Some k -> wpc_ k = WTop \/ wpc_ k = WSlept -> wl k = [] -> ext k = false -> idle k = false ->
    step s (mkSt (mpc_ s) (wake s) w (upd (ws s) w (mkW WSig (wl k) (loc k) true (ext k))) (given s) (handled s))
| SecWait w k : nth_error (ws s) w = Some k -> wpc_ k = WTop \/ wpc_ k = WSlept -> wl k = [] -> ext k = false -> idle k = true ->
    step s (setw s w (mkW WWait (wl k) (loc k) (idle k) (ext k)))
| SecTake w k : nth_error (ws s) w = Some k -> wpc_ k = WTop \/ wpc_ k = WSlept -> wl k <> [] -> step s (setw s w (mkW WHandle [] (loc k ++ wl k) (idle k) (ext k)))
(** 187-190, under wq->flush_lock. *)
| Signal w k : nth_error (ws s) w = Some k -> wpc_ k = WSig -> (forall i, mpc_ s <> MCheck i) -> mpc_ s <> MSleep ->
    step s (mkSt (if wake s then match mpc_ s with MWait => MAwake | m => m end else mpc_ s) (wake s) (nxt s)
                 (upd (ws s) w (mkW WThird (wl k) (loc k) (idle k) (ext k))) (given s) (handled s))
(** The third test, 194-201. *)
| ThirdExit w k : nth_error (ws s) w = Some k -> wpc_ k = WThird -> wl k = [] -> ext k = true -> step s (setw s w (mkW WDone (wl k) (loc k) (idle k) (ext k)))
| ThirdWait w k : nth_error (ws s) w = Some k -> wpc_ k = WThird -> wl k = [] -> ext k = false -> step s (setw s w (mkW WWait (wl k) (loc k) (idle k) (ext k)))
| ThirdTake w k : nth_error (ws s) w = Some k -> wpc_ k = WThird -> wl k <> [] -> step s (setw s w (mkW WHandle [] (loc k ++ wl k) (idle k) (ext k)))
| Spurious w k : nth_error (ws s) w = Some k -> wpc_ k = WWait -> step s (setw s w (mkW WAwake (wl k) (loc k) (idle k) (ext k)))
| Awake w k : nth_error (ws s) w = Some k -> wpc_ k = WAwake -> step s (setw s w (mkW WHandle (wl k) (loc k) (idle k) (ext k)))
(** handle_list, 117-127. *)
| Pop w k x l : nth_error (ws s) w = Some k -> wpc_ k = WHandle -> loc k = x :: l -> step s (setw s w (mkW (WRun x) (wl k) l (idle k) (ext k)))
| Ran w k x : nth_error (ws s) w = Some k -> wpc_ k = WRun x ->
    step s (mkSt (mpc_ s) (wake s) (nxt s) (upd (ws s) w (mkW WHandle (wl k) (loc k) (idle k) (ext k))) (given s) (handled s ++ [(w, x)]))
| Loop w k : nth_error (ws s) w = Some k -> wpc_ k = WHandle -> loc k = [] -> step s (setw s w (mkW WTop (wl k) (loc k) (idle k) (ext k))).

(** workqueue_init, 308-378, once all workers run: start_worker may have set SW_F_IDLE before or after the worker did. *)
Definition started (s : st) : Prop :=
  mpc_ s = MIdle /\ wake s = false /\ (nxt s < length (ws s))%nat /\ given s = [] /\ handled s = [] /\
  Forall (fun k => exists b, k = mkW WTop [] [] b false) (ws s).
Inductive reach : st -> Prop :=
| RInit s : started s -> reach s
| RStep s s' : reach s -> step s s' -> reach s'.
