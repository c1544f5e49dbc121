(** Model of the file locks, filelock.c, as a transition system: any number of jobs call fio_lock_file, fio_trylock_file and
    fio_unlock_file in any order and their steps interleave. The semaphores of fio_sem.c are atomic counters. Lists and reference counts
    are only touched while fld->lock is held, so such a section is one step; every operation on a semaphore is a step of its own. A job
    unlocks only what it holds. *)
From Coq Require Import ZArith List Bool Arith.
From Verif Require Import CBase.
Import ListNotations.
Open Scope Z_scope.

Section Filelock.
(** jhash of a file name (names are numbers here); collisions are possible. *)
Variable hash : Z -> Z.
(** MAX_FILELOCKS, filelock.c:25. *)
Variable MAX : nat.

Inductive pc :=
| PIdle
| PLock (n : Z) (try : bool)          (* before fio_sem_down(&fld->lock), line 175 *)
| PLockIn (n : Z) (try : bool)        (* holding it *)
| PSleep (n : Z)                      (* usleep in get_filelock, line 62 *)
| PRetryIn (n : Z)                    (* holding it again, line 63 *)
| PWait (n : Z) (ff : nat) (try : bool) (* before fio_sem_down(&ff->lock), lines 187, 208 *)
| PTry (n : Z) (ff : nat)             (* before fio_sem_down_trylock, line 191 *)
| PTryMain (n : Z) (ff : nat)         (* before fio_sem_down(&fld->lock), line 194 *)
| PTryIn (n : Z) (ff : nat)
| PUnlock (n : Z)                     (* before fio_sem_down(&fld->lock), line 232 *)
| PUnlockIn (n : Z)
| PUnlB (n : Z) (ff : nat) (r : Z)    (* before fio_sem_up(&ff->lock), line 237 *)
| PUnlC (n : Z) (ff : nat) (r : Z).   (* before line 238 *)
(** A job: where it is, and the names whose lock calls have returned and that it has not begun to unlock. *)
Record job := mkJob { at_ : pc; held : list Z }.
(** struct filelock_data and the locks: the used list, the free list, and per lock its hash, semaphore and reference count. *)
Record st := mkSt { main : Z; used : list nat; free : list nat; fh : nat -> Z; sem : nat -> Z; refs : nat -> Z; jobs : list job }.

Definition set {A} (f : nat -> A) (k : nat) (v : A) : nat -> A := fun x => if (x =? k)%nat then v else f x.
(** fio_hash_find, filelock.c:119-131. *)
Definition find (s : st) (h : Z) : option nat := List.find (fun ff => fh s ff =? h) (used s).
Definition put (s : st) (i : nat) (m : Z) (j : job) : st := mkSt m (used s) (free s) (fh s) (sem s) (refs s) (upd (jobs s) i j).
(** ff->references++ and fio_sem_up(&fld->lock), lines 177-179. *)
Definition take (s : st) (i : nat) (n : Z) (ff : nat) (try : bool) (hl : list Z) : st :=
  mkSt (main s + 1) (used s) (free s) (fh s) (sem s) (set (refs s) ff (u32 (refs s ff + 1))) (upd (jobs s) i (mkJob (if try then PTry n ff else PWait n ff false) hl)).
(** A lock from the free list for a new hash, lines 160-162, and the same. *)
Definition fresh (s : st) (i : nat) (n : Z) (ff : nat) (fs : list nat) (try : bool) (hl : list Z) : st :=
  mkSt (main s + 1) (ff :: used s) fs (set (fh s) ff (hash n)) (sem s) (set (refs s) ff 1) (upd (jobs s) i (mkJob (if try then PTry n ff else PWait n ff false) hl)).

Inductive step (s : st) : st -> Prop :=
| CallLock i n try hl : nth_error (jobs s) i = Some (mkJob PIdle hl) -> step s (put s i (main s) (mkJob (PLock n try) hl))
| CallUnlock i n a b : nth_error (jobs s) i = Some (mkJob PIdle (a ++ n :: b)) -> step s (put s i (main s) (mkJob (PUnlock n) (a ++ b)))
(** fio_sem_down(&fld->lock) *)
| DownLock i n try hl : nth_error (jobs s) i = Some (mkJob (PLock n try) hl) -> 0 < main s -> step s (put s i (main s - 1) (mkJob (PLockIn n try) hl))
| DownRetry i n hl : nth_error (jobs s) i = Some (mkJob (PSleep n) hl) -> 0 < main s -> step s (put s i (main s - 1) (mkJob (PRetryIn n) hl))
| DownTry i n ff hl : nth_error (jobs s) i = Some (mkJob (PTryMain n ff) hl) -> 0 < main s -> step s (put s i (main s - 1) (mkJob (PTryIn n ff) hl))
| DownUnlock i n hl : nth_error (jobs s) i = Some (mkJob (PUnlock n) hl) -> 0 < main s -> step s (put s i (main s - 1) (mkJob (PUnlockIn n) hl))
(** fio_hash_get, filelock.c:133-166, with get_filelock, 52-68. *)
| Found i n try hl ff : nth_error (jobs s) i = Some (mkJob (PLockIn n try) hl) -> find s (hash n) = Some ff -> step s (take s i n ff try hl)
| New i n try hl ff fs : nth_error (jobs s) i = Some (mkJob (PLockIn n try) hl) -> find s (hash n) = None -> free s = ff :: fs -> step s (fresh s i n ff fs try hl)
| NoneTry i n hl : nth_error (jobs s) i = Some (mkJob (PLockIn n true) hl) -> find s (hash n) = None -> free s = [] -> step s (put s i (main s + 1) (mkJob PIdle hl))
| NoneSleep i n hl : nth_error (jobs s) i = Some (mkJob (PLockIn n false) hl) -> find s (hash n) = None -> free s = [] -> step s (put s i (main s + 1) (mkJob (PSleep n) hl))
| RetryNone i n hl : nth_error (jobs s) i = Some (mkJob (PRetryIn n) hl) -> free s = [] -> step s (put s i (main s + 1) (mkJob (PSleep n) hl))
| RetryFound i n hl ff f0 fs : nth_error (jobs s) i = Some (mkJob (PRetryIn n) hl) -> free s = f0 :: fs -> find s (hash n) = Some ff -> step s (take s i n ff false hl)
| RetryNew i n hl ff fs : nth_error (jobs s) i = Some (mkJob (PRetryIn n) hl) -> free s = ff :: fs -> find s (hash n) = None -> step s (fresh s i n ff fs false hl)
(** fio_sem_down(&ff->lock), fio_sem_down_trylock(&ff->lock) *)
| Granted i n ff try hl : nth_error (jobs s) i = Some (mkJob (PWait n ff try) hl) -> 0 < sem s ff ->
    step s (mkSt (main s) (used s) (free s) (fh s) (set (sem s) ff (sem s ff - 1)) (refs s) (upd (jobs s) i (mkJob PIdle (n :: hl))))
| TryGranted i n ff hl : nth_error (jobs s) i = Some (mkJob (PTry n ff) hl) -> 0 < sem s ff ->
    step s (mkSt (main s) (used s) (free s) (fh s) (set (sem s) ff (sem s ff - 1)) (refs s) (upd (jobs s) i (mkJob PIdle (n :: hl))))
| TryBusy i n ff hl : nth_error (jobs s) i = Some (mkJob (PTry n ff) hl) -> sem s ff <= 0 -> step s (put s i (main s) (mkJob (PTryMain n ff) hl))
(** filelock.c:200-205. *)
| TryFails i n ff hl : nth_error (jobs s) i = Some (mkJob (PTryIn n ff) hl) -> refs s ff <> 1 ->
    step s (mkSt (main s + 1) (used s) (free s) (fh s) (sem s) (set (refs s) ff (u32 (refs s ff - 1))) (upd (jobs s) i (mkJob PIdle hl)))
| TryAlone i n ff hl : nth_error (jobs s) i = Some (mkJob (PTryIn n ff) hl) -> refs s ff = 1 -> step s (put s i (main s + 1) (mkJob (PWait n ff true) hl))
(** fio_unlock_file, filelock.c:225-246. *)
| UnlockA i n ff hl : nth_error (jobs s) i = Some (mkJob (PUnlockIn n) hl) -> find s (hash n) = Some ff ->
    step s (mkSt (main s) (used s) (free s) (fh s) (sem s) (set (refs s) ff (u32 (refs s ff - 1))) (upd (jobs s) i (mkJob (PUnlB n ff (u32 (refs s ff - 1))) hl)))
| UnlockNone i n hl : nth_error (jobs s) i = Some (mkJob (PUnlockIn n) hl) -> find s (hash n) = None -> step s (put s i (main s + 1) (mkJob PIdle hl))
| UnlockB i n ff r hl : nth_error (jobs s) i = Some (mkJob (PUnlB n ff r) hl) ->
    step s (mkSt (main s) (used s) (free s) (fh s) (set (sem s) ff (sem s ff + 1)) (refs s) (upd (jobs s) i (mkJob (PUnlC n ff r) hl)))
| UnlockC i n ff r hl : nth_error (jobs s) i = Some (mkJob (PUnlC n ff r) hl) -> r <> 0 -> step s (put s i (main s + 1) (mkJob PIdle hl))
| UnlockFree i n ff hl : nth_error (jobs s) i = Some (mkJob (PUnlC n ff 0) hl) ->
    step s (mkSt (main s + 1) (List.remove Nat.eq_dec ff (used s)) (ff :: free s) (fh s) (sem s) (refs s) (upd (jobs s) i (mkJob PIdle hl))).

(** fio_filelock_init, filelock.c:70-97: every lock free, every semaphore at 1; and [k] jobs that hold nothing. *)
Definition init (k : nat) (fh0 : nat -> Z) (refs0 : nat -> Z) : st := mkSt 1 [] (seq 0 MAX) fh0 (fun _ => 1) refs0 (repeat (mkJob PIdle []) k).
Inductive reach (k : nat) : st -> Prop :=
| RInit fh0 refs0 : reach k (init k fh0 refs0)
| RStep s s' : reach k s -> step s s' -> reach k s'.
End Filelock.
