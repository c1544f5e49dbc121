(** Model of the life of an io_u: [io_u.c], [ioengines.c], [backend.c].

    Simplifications:
    - one job, I/O submitted by the job's own thread ([io_submit_mode=inline],
      [verify_async=0]), so no lock and no condition variable matters and
      [td->parent] is null;
    - all I/O goes in one data direction; sync requests are left out;
    - the file of an I/O is open; choosing file, offset and length is an input;
    - byte totals are unbounded integers;
    - statistics, logs, verification, zones, rates and time are left out;
    - [td->error] does not stop anything: the executions below include those in
      which the job goes on, of which stopping early takes a part. *)
From Coq Require Import ZArith List Lia Bool Arith.
From Verif Require Import CBase.
Import ListNotations.
Open Scope Z_scope.

(** [depth] is [o.iodepth], [batch] is [o.iodepth_batch], [cmax] is
    [o.iodepth_batch_complete_max], [fsize] is [f->real_file_size]. *)
Record cfg := MkCfg { depth : nat; batch : Z; cmax : Z; fsize : Z }.

(** What happens to an I/O, as seen from outside: slot [i] starts an I/O; the
    engine accepts a submission of [n] bytes; the engine moves [n] bytes between offset [off] and position [buf] of the
    buffer; the I/O ends well, or is given up. *)
Inductive ev :=
| TGet (i : nat) (off len : Z)
| TSub (i : nat) (n : Z)
| TMove (i : nat) (off buf n : Z)
| TFin (i : nat)
| TErr (i : nat).

(** Flags of every io_u: [ff] is [IO_U_F_FREE], [fl] is [IO_U_F_FLIGHT], [fc] is
    [IO_U_F_IN_CUR_DEPTH], [fv] is [IO_U_F_VER_LIST]; [fo] tells whether
    [io_u->file] is set.  [off] is [io_u->offset], [xb] is
    [xfer_buf - buf], [xl] is [xfer_buflen].  [fr] is [td->io_u_freelist] (top
    first), [rq] is [td->io_u_requeues] (oldest first): the refinement of both is
    C07.  [eng] are the io_us the engine holds, [held] the one the job is working
    on.  [cd] is [td->cur_depth], [qd] is [td->io_u_queued], [inf] is
    [td->io_u_in_flight].  [issues], [ibytes], [blocks] and [bytes] are
    [td->io_issues], [td->io_issue_bytes], [td->io_blocks], [td->io_bytes]. *)
Record st := MkSt {
  ff : nat -> bool; fl : nat -> bool; fc : nat -> bool; fv : nat -> bool; fo : nat -> bool;
  off : nat -> Z; xb : nat -> Z; xl : nat -> Z;
  fr : list nat; rq : list nat; eng : list nat; held : option nat;
  cd : Z; qd : Z; inf : Z;
  issues : Z; ibytes : Z; blocks : Z; bytes : Z; tr : list ev }.

Definition up {A} (f : nat -> A) (i : nat) (v : A) : nat -> A := fun j => if Nat.eqb j i then v else f j.

Definition s_ff v s := MkSt v (fl s) (fc s) (fv s) (fo s) (off s) (xb s) (xl s) (fr s) (rq s) (eng s) (held s) (cd s) (qd s) (inf s) (issues s) (ibytes s) (blocks s) (bytes s) (tr s).
Definition s_fl v s := MkSt (ff s) v (fc s) (fv s) (fo s) (off s) (xb s) (xl s) (fr s) (rq s) (eng s) (held s) (cd s) (qd s) (inf s) (issues s) (ibytes s) (blocks s) (bytes s) (tr s).
Definition s_fc v s := MkSt (ff s) (fl s) v (fv s) (fo s) (off s) (xb s) (xl s) (fr s) (rq s) (eng s) (held s) (cd s) (qd s) (inf s) (issues s) (ibytes s) (blocks s) (bytes s) (tr s).
Definition s_fv v s := MkSt (ff s) (fl s) (fc s) v (fo s) (off s) (xb s) (xl s) (fr s) (rq s) (eng s) (held s) (cd s) (qd s) (inf s) (issues s) (ibytes s) (blocks s) (bytes s) (tr s).
Definition s_fo v s := MkSt (ff s) (fl s) (fc s) (fv s) v (off s) (xb s) (xl s) (fr s) (rq s) (eng s) (held s) (cd s) (qd s) (inf s) (issues s) (ibytes s) (blocks s) (bytes s) (tr s).
Definition s_data o b l s := MkSt (ff s) (fl s) (fc s) (fv s) (fo s) o b l (fr s) (rq s) (eng s) (held s) (cd s) (qd s) (inf s) (issues s) (ibytes s) (blocks s) (bytes s) (tr s).
Definition s_fr v s := MkSt (ff s) (fl s) (fc s) (fv s) (fo s) (off s) (xb s) (xl s) v (rq s) (eng s) (held s) (cd s) (qd s) (inf s) (issues s) (ibytes s) (blocks s) (bytes s) (tr s).
Definition s_rq v s := MkSt (ff s) (fl s) (fc s) (fv s) (fo s) (off s) (xb s) (xl s) (fr s) v (eng s) (held s) (cd s) (qd s) (inf s) (issues s) (ibytes s) (blocks s) (bytes s) (tr s).
Definition s_eng v s := MkSt (ff s) (fl s) (fc s) (fv s) (fo s) (off s) (xb s) (xl s) (fr s) (rq s) v (held s) (cd s) (qd s) (inf s) (issues s) (ibytes s) (blocks s) (bytes s) (tr s).
Definition s_held v s := MkSt (ff s) (fl s) (fc s) (fv s) (fo s) (off s) (xb s) (xl s) (fr s) (rq s) (eng s) v (cd s) (qd s) (inf s) (issues s) (ibytes s) (blocks s) (bytes s) (tr s).
Definition s_cd v s := MkSt (ff s) (fl s) (fc s) (fv s) (fo s) (off s) (xb s) (xl s) (fr s) (rq s) (eng s) (held s) v (qd s) (inf s) (issues s) (ibytes s) (blocks s) (bytes s) (tr s).
Definition s_q q f s := MkSt (ff s) (fl s) (fc s) (fv s) (fo s) (off s) (xb s) (xl s) (fr s) (rq s) (eng s) (held s) (cd s) q f (issues s) (ibytes s) (blocks s) (bytes s) (tr s).
Definition s_iss v w s := MkSt (ff s) (fl s) (fc s) (fv s) (fo s) (off s) (xb s) (xl s) (fr s) (rq s) (eng s) (held s) (cd s) (qd s) (inf s) v w (blocks s) (bytes s) (tr s).
Definition s_blk v w s := MkSt (ff s) (fl s) (fc s) (fv s) (fo s) (off s) (xb s) (xl s) (fr s) (rq s) (eng s) (held s) (cd s) (qd s) (inf s) (issues s) (ibytes s) v w (tr s).
Definition log e s := MkSt (ff s) (fl s) (fc s) (fv s) (fo s) (off s) (xb s) (xl s) (fr s) (rq s) (eng s) (held s) (cd s) (qd s) (inf s) (issues s) (ibytes s) (blocks s) (bytes s) (e :: tr s).

(** [Bug] is a failed assertion or the use of a null pointer; [More] is a loop
    for which the engine has not delivered enough events yet. *)
Inductive out (A : Type) : Type := Ret (a : A) (s : st) | Bug | More.
Arguments Ret {A}. Arguments Bug {A}. Arguments More {A}.
Definition M (A : Type) := st -> out A.
Definition ret {A} (a : A) : M A := fun s => Ret a s.
Definition bnd {A B} (m : M A) (k : A -> M B) : M B :=
  fun s => match m s with Ret a s' => k a s' | Bug => Bug | More => More end.
Definition gets {A} (f : st -> A) : M A := fun s => Ret (f s) s.
Definition modi (f : st -> st) : M unit := fun s => Ret tt (f s).
Definition check (b : bool) : M unit := fun s => if b then Ret tt s else Bug.
Notation "x <- e ;; k" := (bnd e (fun x => k)) (at level 100, e at next level, right associativity).
Notation "e ;;; k" := (bnd e (fun _ => k)) (at level 100, right associativity).

(** [put_io_u] (io_u.c:901-928); a full freelist is the assertion of
    [io_u_qpush] (io_u_queue.h:29-36). *)
Definition put_io_u (c : cfg) (i : nat) : M unit :=
  modi (fun s => s_ff (up (ff s) i true) (s_fo (up (fo s) i false) s)) ;;;
  modi (fun s => if fc s i then s_cd (u32 (cd s - 1)) s else s) ;;;
  l <- gets fr ;;
  check (length l <? depth c)%nat ;;;
  modi (s_fr (i :: l)).

(** [clear_io_u] (io_u.c:930-941). *)
Definition clear_io_u (c : cfg) (i : nat) : M unit :=
  modi (fun s => s_fl (up (fl s) i false) s) ;;;
  put_io_u c i.

(** [requeue_io_u] (io_u.c:943-974); the assertion is that of [io_u_rpush]
    (io_u_queue.h:61-70), whose ring has room for [depth] entries. *)
Definition requeue_io_u (c : cfg) (i : nat) : M unit :=
  modi (fun s => s_ff (up (ff s) i true) s) ;;;
  modi (fun s => if fl s i then s_iss (u64 (issues s - 1)) (ibytes s) s else s) ;;;
  modi (fun s => s_fl (up (fl s) i false) s) ;;;
  modi (fun s => if fc s i then s_cd (u32 (cd s - 1)) s else s) ;;;
  l <- gets rq ;;
  check (length l <? depth c)%nat ;;;
  modi (s_rq (l ++ [i])).

(** [queue_full] (io_u.c:1745-1755); [lim] is [td->latency_qd] when a latency
    target is set. *)
Definition queue_full (lim : option Z) (s : st) : bool :=
  match fr s with
  | [] => true
  | _ => match lim with None => false | Some q => q <=? cd s end
  end.

(** [__get_io_u] (io_u.c:1757-1814). *)
Definition get_io_u0 (lim : option Z) : M (option nat) :=
  r <- gets rq ;;
  p <- match r with
       | i :: r' => modi (s_rq r') ;;; ret (Some i)
       | [] =>
           b <- gets (queue_full lim) ;;
           if b then ret None
           else
             l <- gets fr ;;
             match l with
             | [] => fun _ => Bug
             | i :: l' => modi (fun s => s_fr l' (s_fo (up (fo s) i false) s)) ;;; ret (Some i)
             end
       end ;;
  match p with
  | None => ret None
  | Some i =>
      b <- gets (fun s => ff s i) ;;
      check b ;;;
      modi (fun s => s_ff (up (ff s) i false) (s_fv (up (fv s) i false) s)) ;;;
      modi (fun s => s_cd (u32 (cd s + 1)) (s_fc (up (fc s) i true) s)) ;;;
      ret (Some i)
  end.

(** [get_io_u] (io_u.c:1924-2022).  [req] is the choice of offset and length, or
    a failure to find one, with the flag for an I/O of the verify list; [prep]
    tells whether [td_io_prep] succeeds. *)
Definition get_io_u (c : cfg) (lim : option Z) (req : option (Z * Z * bool)) (prep : bool) : M (option nat) :=
  p <- get_io_u0 lim ;;
  match p with
  | None => ret None
  | Some i =>
      again <- gets (fun s => fo s i) ;;
      if again then
        if prep then ret (Some i) else modi (log (TErr i)) ;;; put_io_u c i ;;; ret None
      else
        match req with
        | None => put_io_u c i ;;; ret None
        | Some (o, n, v) =>
            if n =? 0 then put_io_u c i ;;; ret None
            else
              modi (fun s => s_fo (up (fo s) i true) (s_fv (up (fv s) i v)
                     (s_data (up (off s) i o) (up (xb s) i 0) (up (xl s) i n) (log (TGet i o n) s)))) ;;;
              if prep then ret (Some i) else modi (log (TErr i)) ;;; put_io_u c i ;;; ret None
        end
  end.

(** [td_io_commit] (ioengines.c:505-527). *)
Definition td_io_commit : M unit :=
  modi (fun s => if (cd s =? 0) || (qd s =? 0) then s else s_q 0 (u32 (inf s + qd s)) s).

(** What the engine answers to a submission: the I/O is done, with an error or
    with [resid] bytes missing; it is queued; the engine is busy; or
    [io_u_submit] finds that the I/O overlaps another one (backend.c:604-615). *)
Inductive answer := ADone (err : bool) (resid : Z) | AQueued | ABusy | AOverlap.

(** The bytes of a submission that the engine has moved. *)
Definition log_move (i : nat) (err : bool) (resid : Z) : M unit :=
  modi (fun s => if err || (xl s i - resid =? 0) then s
                 else log (TMove i (off s i) (xb s i) (xl s i - resid)) s).

(** [td_io_queue] (ioengines.c:334-483). *)
Definition td_io_queue (c : cfg) (i : nat) (a : answer) : M unit :=
  b <- gets (fun s => fl s i) ;;
  check (negb b) ;;;
  modi (fun s => s_fl (up (fl s) i true) s) ;;;
  o <- gets (fun s => fo s i) ;;
  check o ;;;
  modi (fun s => if fv s i then s else s_iss (u64 (issues s + 1)) (ibytes s + xl s i) s) ;;;
  match a with
  | ADone err resid =>
      modi (fun s => log (TSub i (xl s i)) s) ;;;
      log_move i err resid
  | AQueued =>
      modi (fun s => log (TSub i (xl s i)) s) ;;;
      modi (fun s => s_eng (eng s ++ [i]) (s_q (u32 (qd s + 1)) (inf s) s)) ;;;
      b <- gets (fun s => batch c <=? qd s) ;;
      if b then td_io_commit else ret tt
  | _ =>
      modi (fun s => s_iss (u64 (issues s - 1)) (ibytes s - xl s i) s) ;;;
      modi (fun s => s_fl (up (fl s) i false) s)
  end.

(** [io_completed] (io_u.c:2158-2310); [true] means the io_u is still the
    caller's. *)
Definition io_completed (c : cfg) (i : nat) (err : bool) (resid : Z) : M bool :=
  b <- gets (fun s => fl s i) ;;
  check b ;;;
  modi (fun s => s_fl (up (fl s) i false) s) ;;;
  if err then modi (log (TErr i)) ;;; ret true
  else
    n <- gets (fun s => xl s i - resid) ;;
    let fin := modi (fun s => log (TFin i) (s_blk (blocks s + 1) (bytes s + n) s)) ;;; ret true in
    if negb (n =? 0) && negb (resid =? 0) then
      modi (fun s => s_data (up (off s) i (off s i + n)) (up (xb s) i (xb s i + n)) (up (xl s) i resid) s) ;;;
      o <- gets (fun s => off s i) ;;
      if o <? fsize c then requeue_io_u c i ;;; ret false
      else fin
    else fin.

(** [io_u_sync_complete] (io_u.c:2361-2379). *)
Definition sync_complete (c : cfg) (i : nat) (resid : Z) : M unit :=
  mine <- io_completed c i false resid ;;
  if mine then put_io_u c i else ret tt.

(** [io_queue_event] (backend.c:452-543); the case of a
    negative status, which no engine returns, is left out. *)
Definition io_queue_event (c : cfg) (i : nat) (a : answer) : M unit :=
  match a with
  | ADone err resid =>
      if err then modi (log (TErr i)) ;;; clear_io_u c i
      else if negb (resid =? 0) then
        n <- gets (fun s => xl s i - resid) ;;
        if n =? 0 then modi (log (TErr i)) ;;; clear_io_u c i
        else
          modi (fun s => s_data (up (off s) i (off s i + n)) (up (xb s) i (xb s i + n)) (up (xl s) i resid) s) ;;;
          o <- gets (fun s => off s i) ;;
          if o =? fsize c then sync_complete c i resid else requeue_io_u c i
      else sync_complete c i 0
  | AQueued => ret tt
  | _ => requeue_io_u c i ;;; td_io_commit
  end.

(** [io_u_submit] and [io_queue_event] as in [do_io] (backend.c:1343-1349). *)
Definition submit (c : cfg) (i : nat) (a : answer) : M unit :=
  match a with
  | AOverlap => ret tt
  | _ => td_io_queue c i a
  end ;;;
  io_queue_event c i a.

(** An event: the io_u, whether it failed, and the bytes missing. *)
Definition event := (nat * bool * Z)%type.

Fixpoint take_out (l : list nat) (x : nat) : list nat :=
  match l with
  | [] => []
  | y :: l' => if Nat.eqb x y then l' else y :: take_out l' x
  end.

(** [ios_completed] (io_u.c:2327-2341); the bytes that an I/O moved are logged when
    it is handed over. *)
Fixpoint ios_completed (c : cfg) (l : list event) : M unit :=
  match l with
  | [] => ret tt
  | (i, err, resid) :: l' =>
      log_move i err resid ;;;
      mine <- io_completed c i err resid ;;
      (if mine then put_io_u c i else ret tt) ;;;
      ios_completed c l'
  end.

(** The number of events asked for: [io_u_queued_complete] (io_u.c:2384-2416)
    and [td_io_getevents] (ioengines.c:291-332). *)
Definition want_min (min : Z) (s : st) : Z := if min =? 0 then 0 else if cd s <? min then cd s else min.
Definition want_max (c : cfg) (min : Z) (s : st) : Z :=
  let m := if cd s <? cmax c then cd s else cmax c in
  if m <? want_min min s then want_min min s else m.

(** [io_u_queued_complete] when [getevents] delivers [l]. *)
Definition queued_complete (c : cfg) (l : list event) : M unit :=
  modi (fun s => s_q (qd s) (u32 (inf s - Z.of_nat (length l)))
     (s_eng (fold_left take_out (map (fun e => fst (fst e)) l) (eng s)) s)) ;;;
  ios_completed c l.

(** [io_u_quiesce] (io_u.c:708-739), with the events of each round. *)
Fixpoint quiesce_loop (c : cfg) (bs : list (list event)) : M unit :=
  n <- gets inf ;;
  if n =? 0 then ret tt
  else match bs with
       | [] => fun _ => More
       | l :: bs' => queued_complete c l ;;; quiesce_loop c bs'
       end.
Definition quiesce (c : cfg) (bs : list (list event)) : M unit :=
  b <- gets (fun s => negb (qd s =? 0) || negb (cd s =? 0)) ;;
  (if b then td_io_commit else ret tt) ;;;
  quiesce_loop c bs.

(** The steps of [do_io] (backend.c:1130-1380): get an io_u, submit it, commit,
    reap, quiesce. *)
Inductive op :=
| OGet (lim : option Z) (req : option (Z * Z * bool)) (prep : bool)
| OSubmit (a : answer)
| OCommit
| OReap (min : Z) (l : list event)
| OQuiesce (bs : list (list event)).

Definition step (c : cfg) (p : op) : M unit :=
  match p with
  | OGet lim req prep =>
      r <- get_io_u c lim req prep ;;
      modi (s_held r)
  | OSubmit a =>
      h <- gets held ;;
      match h with
      | None => ret tt
      | Some i => submit c i a ;;; modi (s_held None)
      end
  | OCommit => td_io_commit
  | OReap _ l => queued_complete c l
  | OQuiesce bs => quiesce c bs
  end.

(** The beginning: all io_us are free (backend.c:init_io_u). *)
Definition init (c : cfg) : st :=
  MkSt (fun _ => true) (fun _ => false) (fun _ => false) (fun _ => false) (fun _ => false)
    (fun _ => 0) (fun _ => 0) (fun _ => 0) (seq 0 (depth c)) [] [] None 0 0 0 0 0 0 0 [].
