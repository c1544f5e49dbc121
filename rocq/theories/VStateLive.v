(** Model of the in-flight tracking of backend.c and of a state saved by another thread while the job runs. Each step is one
    atomic access to shared memory, so that reads of the saving thread fall between any two of them (sequential consistency).
    The checks that abort the program are [None]. *)
From Coq Require Import ZArith List Bool.
From Verif Require Import CBase Mem VStateModel VStateSpec.
Import ListNotations.
Open Scope Z_scope.

(** Where the job thread is: between two stores of log_inflight (backend.c:1041 and 1045), or between invalidate_inflight and the
    recording of the failure in io_completed (io_u.c:2169 and 2194). *)
Inductive pc := Idle | Issuing (n idx : Z) | Failing (n : Z).

(** Shared memory: td->inflight_numberio, td->next_inflight_numberio_idx, td->inflight_issued, td->safe_inflight_issued,
    td->failed_numberio; private: the I/O units of writes (numberio, inflight_idx) and of flushes (identity, numberio); [l_fsync] is
    verify_policy=fsynced. [l_hist] records what happened, for the specification only. *)
Record live := mkLive { l_slots : list Z; l_next : Z; l_issued : Z; l_safe : Z; l_failed : list Z; l_pc : pc;
  l_units : list (Z * Z); l_flush : list (nat * Z); l_nflush : nat; l_hist : list hev }.
Definition live0 (iodepth : nat) : live := mkLive (repeat INVALID_NUMBERIO iodepth) 0 0 0 [] Idle [] [] 0 [].

(** The search for a free slot, log_inflight, backend.c:1034-1051: its index. *)
Fixpoint find_slot (fuel : nat) (l : list Z) (idx : Z) : option Z :=
  match fuel with
  | O => None
  | S f => do x <- znth l idx; if x =? INVALID_NUMBERIO then Some idx else find_slot f l ((idx + 1) mod zlen l)
  end.

(** A step of the job. *)
Inductive jstep :=
  | Issue1            (* log_inflight up to the store of the slot, backend.c:1021-1043 *)
  | Issue2            (* the store of inflight_issued, backend.c:1045; the write is submitted after it *)
  | Complete (k : nat)  (* a write is reported done: invalidate_inflight from io_completed *)
  | Fail1 (k : nat)     (* a write is reported failed: invalidate_inflight, io_u.c:2169 *)
  | Fail2             (* and its number recorded, io_u.c:2183-2194 *)
  | FailSync (k : nat)  (* an engine completes a write with an error in its queue call: backend.c:458-461 *)
  | Fsubmit           (* on_fsync_submitted, backend.c:1118-1127 *)
  | Fdone (k : nat).    (* on_fsync_completed, backend.c:1135-1145 *)

Fixpoint remove_nth {A} (k : nat) (l : list A) : list A :=
  match k, l with _, [] => [] | O, _ :: r => r | S k, x :: r => x :: remove_nth k r end.

(** invalidate_inflight, backend.c:1061-1084: the slots after it; [None] is an abort. *)
Definition invalidate (slots : list Z) (n idx : Z) : option (list Z) :=
  do x <- znth slots idx;
  if x =? INVALID_NUMBERIO then None else if negb (x =? n) then None else zupd slots idx INVALID_NUMBERIO.

(** The number of a new write is the number of writes issued so far (backend.c:1253); log_inflight aborts when inflight_issued
    is different, which cannot happen here since both are increased together. A step that is not possible at this point
    leaves the state as it is. *)
Definition jrun (s : live) (e : jstep) : option live :=
  match e, l_pc s with
  | Issue1, Idle =>
      if zlen (l_units s) <? zlen (l_slots s) then
        let n := l_issued s in
        do idx <- find_slot (length (l_slots s)) (l_slots s) (l_next s);
        do sl <- zupd (l_slots s) idx n;
        Some (mkLive sl ((idx + 1) mod zlen (l_slots s)) (l_issued s) (l_safe s) (l_failed s) (Issuing n idx) (l_units s) (l_flush s) (l_nflush s) (l_hist s))
      else Some s
  | Issue2, Issuing n idx =>
      Some (mkLive (l_slots s) (l_next s) (n + 1) (l_safe s) (l_failed s) Idle ((n, idx) :: l_units s) (l_flush s) (l_nflush s) (HIssue n :: l_hist s))
  | Complete k, Idle =>
      match nth_error (l_units s) k with
      | None => Some s
      | Some (n, idx) =>
          do sl <- invalidate (l_slots s) n idx;
          Some (mkLive sl (l_next s) (l_issued s) (l_safe s) (l_failed s) Idle (remove_nth k (l_units s)) (l_flush s) (l_nflush s) (HOk n :: l_hist s))
      end
  | Fail1 k, Idle =>
      match nth_error (l_units s) k with
      | None => Some s
      | Some (n, idx) =>
          do sl <- invalidate (l_slots s) n idx;
          Some (mkLive sl (l_next s) (l_issued s) (l_safe s) (l_failed s) (Failing n) (remove_nth k (l_units s)) (l_flush s) (l_nflush s) (HFail n :: l_hist s))
      end
  | Fail2, Failing n =>
      Some (mkLive (l_slots s) (l_next s) (l_issued s) (l_safe s) (l_failed s ++ [n]) Idle (l_units s) (l_flush s) (l_nflush s) (l_hist s))
  | FailSync k, Idle =>
      match nth_error (l_units s) k with
      | None => Some s
      | Some (n, idx) =>
          do sl <- invalidate (l_slots s) n idx;
          Some (mkLive sl (l_next s) (l_issued s) (l_safe s) (l_failed s) Idle (remove_nth k (l_units s)) (l_flush s) (l_nflush s) (HFail n :: l_hist s))
      end
  | Fsubmit, Idle =>
      Some (mkLive (l_slots s) (l_next s) (l_issued s) (l_safe s) (l_failed s) Idle (l_units s) ((l_nflush s, l_issued s) :: l_flush s) (S (l_nflush s)) (HFsub (l_nflush s) :: l_hist s))
  | Fdone k, Idle =>
      match nth_error (l_flush s) k with
      | None => Some s
      | Some (i, t) =>
          Some (mkLive (l_slots s) (l_next s) (l_issued s) (if l_safe s <? t + 1 then t + 1 else l_safe s) (l_failed s) Idle (l_units s) (remove_nth k (l_flush s)) (l_nflush s) (HFdone i :: l_hist s))
      end
  | _, _ => Some s
  end.
Fixpoint jruns (s : live) (es : list jstep) : option live :=
  match es with [] => Some s | e :: r => do s <- jrun s e; jruns s r end.

(** What the saving thread has read so far: some of the slots, then the limit, then the failed writes (verify.c:1704-1735). *)
Record snap := mkSnap { s_slots : list Z; s_limit : option Z; s_failed : option (list Z) }.
Definition snap0 : snap := mkSnap [] None None.
(** The next read of the saving thread. *)
Definition read1 (fsynced : bool) (s : live) (p : snap) : snap :=
  if zlen (s_slots p) <? zlen (l_slots s) then
    match znth (l_slots s) (zlen (s_slots p)) with Some x => mkSnap (s_slots p ++ [x]) (s_limit p) (s_failed p) | None => p end
  else match s_limit p with
       | None => mkSnap (s_slots p) (Some (if fsynced then if negb (l_safe s =? 0) then l_safe s - 1 else 0 else l_issued s)) (s_failed p)
       | Some _ => match s_failed p with None => mkSnap (s_slots p) (s_limit p) (Some (l_failed s)) | Some _ => p end
       end.

(** The two threads interleaved. *)
Inductive ev := Job (e : jstep) | Read.
Fixpoint both (fsynced : bool) (s : live) (p : snap) (es : list ev) : option (live * snap) :=
  match es with
  | [] => Some (s, p)
  | Job e :: r => do s <- jrun s e; both fsynced s p r
  | Read :: r => both fsynced s (read1 fsynced s p) r
  end.

(** The state a job loads from the snapshot (C23 shows the transport). *)
Definition snap_state (iodepth : Z) (p : snap) : option vstate :=
  match s_limit p, s_failed p with
  | Some lim, Some fl =>
      Some (mkV lim (zlen (s_slots p) + zlen fl) (0, []) (s_slots p ++ fl)
              (qsort (filter (fun n => negb (n =? INVALID_NUMBERIO)) (skipn (Z.to_nat iodepth) (s_slots p ++ fl)))))
  | _, _ => None
  end.
