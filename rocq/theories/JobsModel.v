(** Model of the starting and reaping of jobs: backend.c:2399-2510 [reap_threads], 2625-2647 [waitee_running], 2652-2935 [run_threads].
    The main process is a function of the state, one round of its loops at a time; the jobs do their steps at any time in between.

    Simplifications:
    - threads and processes can be created, are not waited for one by one (startup_sem), and set themselves up (thread_main, backend.c:1925-2005) without dying or a timeout;
    - of the run states those from TD_RAMP to TD_FINISHING are one, [Running];
    - a job that is stuck for five minutes after it was told to end is not forced to (backend.c:2468-2481);
    - [waits] are the jobs with the name given in wait_for and another name than the job's;
    - nr_started and nr_running do not wrap: C56_counts. *)
From Coq Require Import ZArith List Bool.
From Verif Require Import CBase.
Import ListNotations.
Open Scope Z_scope.

(** fio.h:721-736. *)
Inductive runstate := NotCreated | Created | Initialized | Running | Exited | Reaped.
(** The options start_delay, stonewall and wait_for of a job, and its state. *)
Record opts := Opts { start_delay : Z; stonewall : bool; waits : list nat }.
Record job := Job { o : opts; st : runstate; terminate : bool }.
(** Where the main process is: the rounds of the loops of lines 2755, 2858, 2895, 2911 and 2917. *)
Inductive place := Scan (i : nat) | Wait | Start (i : nat) | Reap (i : nat) | Final (i : nat) | Done.
Record state := State { jobs : list job; pc : place; todo : Z; nr_started : Z; nr_running : Z; now : Z }.

Fixpoint upd {A} (l : list A) (i : nat) (x : A) : list A :=
  match l, i with [], _ => [] | _ :: l', O => x :: l' | y :: l', S i' => y :: upd l' i' x end.
Definition set_st (j : job) (s : runstate) : job := Job (o j) s (terminate j).

(** backend.c:2625-2647. *)
Definition before_exit (s : runstate) : bool := match s with Exited | Reaped => false | _ => true end.
Definition waitee_running (js : list job) (ws : list nat) : bool :=
  existsb (fun w => match nth_error js w with Some j => before_exit (st j) | None => false end) ws.

Definition at_pc (s : state) (p : place) : state := State (jobs s) p (todo s) (nr_started s) (nr_running s) (now s).
(** backend.c:2917. *)
Definition finish (running : Z) : place := if running =? 0 then Done else Final 0.
(** One round of the main process, and the job it creates; [None]: it waits, or is done. *)
Definition sched (s : state) : option (state * option nat) :=
  match pc s with
  | Scan i =>
    match nth_error (jobs s) i with
    | None => Some (at_pc s Wait, None)
    | Some j =>
      match st j with
      | NotCreated =>
        if terminate j then Some (State (jobs s) (Scan (S i)) (u32 (todo s - 1)) (nr_started s) (nr_running s) (now s), None)
        else if now s <? start_delay (o j) then Some (at_pc s (Scan (S i)), None)
        else if stonewall (o j) && (negb (nr_started s =? 0) || negb (nr_running s =? 0)) then Some (at_pc s Wait, None)
        else if waitee_running (jobs s) (waits (o j)) then Some (at_pc s (Scan (S i)), None)
        else Some (State (upd (jobs s) i (set_st j Created)) (Scan (S i)) (todo s) (nr_started s + 1) (nr_running s) (now s), Some i)
      | _ => Some (at_pc s (Scan (S i)), None)
      end
    end
  | Wait => if existsb (fun j => match st j with Created => true | _ => false end) (jobs s) then None else Some (at_pc s (Start 0), None)
  | Start i =>
    match nth_error (jobs s) i with
    | None => Some (at_pc s (Reap 0), None)
    | Some j =>
      match st j with
      | Initialized => Some (State (upd (jobs s) i (set_st j Running)) (Start (S i)) (u32 (todo s - 1)) (nr_started s - 1) (nr_running s + 1) (now s), None)
      | _ => Some (at_pc s (Start (S i)), None)
      end
    end
  | Reap i =>
    match nth_error (jobs s) i with
    | None => Some (at_pc s (if todo s =? 0 then finish (nr_running s) else Scan 0), None)
    | Some j =>
      match st j with
      | Exited => Some (State (upd (jobs s) i (set_st j Reaped)) (Reap (S i)) (todo s) (nr_started s) (nr_running s - 1) (now s), None)
      | _ => Some (at_pc s (Reap (S i)), None)
      end
    end
  | Final i =>
    match nth_error (jobs s) i with
    | None => Some (at_pc s (finish (nr_running s)), None)
    | Some j =>
      match st j with
      | Exited => Some (State (upd (jobs s) i (set_st j Reaped)) (Final (S i)) (todo s) (nr_started s) (nr_running s - 1) (now s), None)
      | _ => Some (at_pc s (Final (S i)), None)
      end
    end
  | Done => None
  end.

(** What happens meanwhile: a job has set itself up (backend.c:2001) or ends, somebody terminates one (libfio.c:265-302), time passes. *)
Inductive event := Ready (i : nat) | Ends (i : nat) | Terminate (i : nat) | Tick (d : Z).
Definition happens (s : state) (e : event) : option state :=
  let put (js : list job) := State js (pc s) (todo s) (nr_started s) (nr_running s) (now s) in
  match e with
  | Ready i => do j <- nth_error (jobs s) i; match st j with Created => Some (put (upd (jobs s) i (set_st j Initialized))) | _ => None end
  | Ends i => do j <- nth_error (jobs s) i; match st j with Running => Some (put (upd (jobs s) i (set_st j Exited))) | _ => None end
  | Terminate i => do j <- nth_error (jobs s) i; Some (put (upd (jobs s) i (Job (o j) (st j) true)))
  | Tick d => if d <? 0 then None else Some (State (jobs s) (pc s) (todo s) (nr_started s) (nr_running s) (now s + d))
  end.
(** backend.c:2700-2740: jobs whose files cannot be set up are reaped at once. *)
Definition init (os : list (opts * bool)) : state :=
  let n := Z.of_nat (List.length (filter (fun x => snd x) os)) in
  State (map (fun x : opts * bool => Job (fst x) (if snd x then NotCreated else Reaped) false) os) (if n =? 0 then finish 0 else Scan 0) n 0 0 0.
