(** Model of the semaphores of [fio_sem.c].

    Threads are interleaved statement by statement.  The mutex and the condition
    variable are those of POSIX: waiting releases the mutex and falls asleep at
    once; a signal wakes any one sleeper, if there is one; sleepers also wake up
    for no reason; a woken thread takes the mutex again before it goes on.

    Simplifications:
    - [value] and [waiters] are unbounded integers (they are [int]);
    - initialisation, removal and the magic number are left out;
    - times are in nanoseconds. *)
From Coq Require Import ZArith List Lia Bool Arith.
Import ListNotations.
Open Scope Z_scope.

(** The operations; [Timed] has the time in milliseconds. *)
Inductive opn := Down | Timed (ms : Z) | Try | Up.

(** Where a thread is. *)
Inductive pcs :=
| PIdle
| PLock (o : opn)              (** at [pthread_mutex_lock] *)
| PEnter (ms : Z)              (** fio_sem.c:111 [sem->waiters++] of the timed down *)
| PTest (o : opn)              (** 112, 155 the loop condition, without an error so far *)
| PInc                         (** 156 [sem->waiters++] *)
| PWait (o : opn)              (** 117, 157 the call of the wait *)
| PSleep (o : opn)             (** asleep in it *)
| PWoken (o : opn) (t : bool)  (** awake, takes the mutex; [t]: because of the time *)
| PDec                         (** 158 [sem->waiters--] *)
| PRet (ms : Z) (t : bool)     (** 118-119 the check of a timeout *)
| PLeave (ms : Z) (r : bool)   (** 121 [sem->waiters--], then 123; [r]: timed out *)
| PTry                         (** 140 the test of the trylock *)
| PTake (o : opn)              (** 124, 141, 161 [sem->value--] *)
| PUp1                         (** 172-173 whether to wake *)
| PUp2 (w : bool)              (** 174 [sem->value++] *)
| PUp3 (w : bool)              (** 176-177 the signal *)
| PUnlock (o : opn) (r : bool). (** at [pthread_mutex_unlock], will return [r]: success *)

(** Calls, the instants at which operations take effect, and returns. *)
Inductive ev := Call (i : nat) (o : opn) | Eff (i : nat) (o : opn) (r : bool) | Ret (i : nat) (o : opn) (r : bool).

(** [mono] and [real] are the clocks; [base i] is what thread [i] read at the
    start of its timed down. *)
Record st := MkSt { value : Z; waiters : Z; lck : option nat; pc : nat -> pcs;
  mono : Z; real : Z; base : nat -> Z; tr : list ev }.

(** [threads] is their number, [v0] the initial value; [honest] says that the
    timed wait does not time out early; [same] that both clocks are
    [CLOCK_REALTIME] (fio_sem.c:94-98 without
    [CONFIG_PTHREAD_CONDATTR_SETCLOCK]). *)
Record cfg := MkCfg { threads : nat; v0 : Z; honest : bool; same : bool }.

Definition up {A} (f : nat -> A) (i : nat) (v : A) : nat -> A := fun j => if Nat.eqb j i then v else f j.

Definition s_pc i p s := MkSt (value s) (waiters s) (lck s) (up (pc s) i p) (mono s) (real s) (base s) (tr s).
Definition s_val v s := MkSt v (waiters s) (lck s) (pc s) (mono s) (real s) (base s) (tr s).
Definition s_wai v s := MkSt (value s) v (lck s) (pc s) (mono s) (real s) (base s) (tr s).
Definition s_lck v s := MkSt (value s) (waiters s) v (pc s) (mono s) (real s) (base s) (tr s).
Definition s_clk m r s := MkSt (value s) (waiters s) (lck s) (pc s) m r (base s) (tr s).
Definition s_base i s := MkSt (value s) (waiters s) (lck s) (pc s) (mono s) (real s) (up (base s) i (mono s)) (tr s).
Definition log e s := MkSt (value s) (waiters s) (lck s) (pc s) (mono s) (real s) (base s) (e :: tr s).

(** [mtime_since] (gettime.c, C15) and [sem_timed_out] (fio_sem.c:74-84); the
    time of day comes in microseconds. *)
Definition msecs_since (a b : Z) : Z := if b <? a then 0 else (b - a) / 1000000.
Definition now (c : cfg) (s : st) : Z := (if same c then mono s else real s) / 1000 * 1000.
Definition timed_out (c : cfg) (i : nat) (ms : Z) (s : st) : bool := ms <=? msecs_since (base s i) (now c s).

(** The statements of thread [i] that it executes by itself. *)
Definition after_lock (o : opn) : pcs :=
  match o with Down => PTest Down | Timed ms => PEnter ms | Try => PTry | Up => PUp1 end.

Definition awake (c : cfg) (i : nat) (s : st) : option st :=
  match pc s i with
  | PLock o => match lck s with
      None => Some (s_pc i (after_lock o) (s_lck (Some i) s)) | Some _ => None end
  | PEnter ms => Some (s_pc i (PTest (Timed ms)) (s_wai (waiters s + 1) s))
  | PTest (Timed ms) => Some (s_pc i (if value s =? 0 then PWait (Timed ms) else PLeave ms false) s)
  | PTest o => Some (s_pc i (if value s =? 0 then PInc else PTake o) s)
  | PInc => Some (s_pc i (PWait Down) (s_wai (waiters s + 1) s))
  | PWait o => Some (s_pc i (PSleep o) (s_lck None s))
  | PWoken o t => match lck s with
      | None => Some (s_pc i (match o with Timed ms => PRet ms t | _ => PDec end) (s_lck (Some i) s))
      | Some _ => None end
  | PDec => Some (s_pc i (PTest Down) (s_wai (waiters s - 1) s))
  | PRet ms t => Some (s_pc i (if t && timed_out c i ms s then PLeave ms true else PTest (Timed ms)) s)
  | PLeave ms r =>
      let s' := s_wai (waiters s - 1) s in
      Some (if r then s_pc i (PUnlock (Timed ms) false) (log (Eff i (Timed ms) false) s')
            else s_pc i (PTake (Timed ms)) s')
  | PTry => Some (if value s =? 0 then s_pc i (PUnlock Try false) (log (Eff i Try false) s)
                  else s_pc i (PTake Try) s)
  | PTake o => Some (s_pc i (PUnlock o true) (log (Eff i o true) (s_val (value s - 1) s)))
  | PUp1 => Some (s_pc i (PUp2 ((value s =? 0) && negb (waiters s =? 0))) s)
  | PUp2 w => Some (s_pc i (PUp3 w) (log (Eff i Up true) (s_val (value s + 1) s)))
  | PUp3 false => Some (s_pc i (PUnlock Up true) s)
  | PUnlock o r => Some (s_pc i PIdle (log (Ret i o r) (s_lck None s)))
  | _ => None
  end.

Definition asleep (p : pcs) : bool := match p with PSleep _ => true | _ => false end.

(** All steps: calls; a thread's own statements; the signal; spurious wake-ups;
    timeouts; the clocks. *)
Inductive step (c : cfg) (s : st) : st -> Prop :=
| SCall : forall i o, (i < threads c)%nat -> pc s i = PIdle -> (match o with Timed ms => 0 <= ms < 2 ^ 32 | _ => True end) ->
    step c s (s_pc i (PLock o) (s_base i (log (Call i o) s)))
| SOwn : forall i s', (i < threads c)%nat -> awake c i s = Some s' -> step c s s'
| SSignal : forall i j o, (i < threads c)%nat -> pc s i = PUp3 true -> (j < threads c)%nat -> pc s j = PSleep o ->
    step c s (s_pc i (PUnlock Up true) (s_pc j (PWoken o false) s))
| SNobody : forall i, (i < threads c)%nat -> pc s i = PUp3 true -> (forall j, (j < threads c)%nat -> asleep (pc s j) = false) ->
    step c s (s_pc i (PUnlock Up true) s)
| SSpurious : forall i o, (i < threads c)%nat -> pc s i = PSleep o -> step c s (s_pc i (PWoken o false) s)
| STimeout : forall i ms, (i < threads c)%nat -> pc s i = PSleep (Timed ms) ->
    (honest c = true -> base s i + ms * 1000000 <= mono s) ->
    step c s (s_pc i (PWoken (Timed ms) true) s)
| SClock : forall m r, mono s <= m -> step c s (s_clk m r s).

Definition init (c : cfg) : st := MkSt (v0 c) 0 None (fun _ => PIdle) 0 0 (fun _ => 0) [].

(** The deadline of the timed down (fio_sem.c:100-107), as seconds and
    nanoseconds. *)
Definition deadline (sec nsec ms : Z) : Z * Z :=
  let s := sec + ms / 1000 in
  let n := nsec + (ms * 1000000) mod 1000000000 in
  if 1000000000 <=? n then (s + 1, n - 1000000000) else (s, n).
