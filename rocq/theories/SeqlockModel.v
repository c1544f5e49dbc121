(** Model of the sequence lock, lib/seqlock.h:16-51, as used by gettime-thread.c:22-34 (fio_gtod_update) and gettime.h:31-45
    (fio_gettime_offload): one writer, any number of readers, every interleaving of their single loads and stores. The value has any
    number of words. [ordered] says whether the processor makes the writer's stores visible in program order (x86, or a write barrier
    after the first store); without it only the release store of write_seqlock_end waits for the earlier ones. *)
From Coq Require Import ZArith List Bool.
From Verif Require Import CBase.
Import ListNotations.
Open Scope Z_scope.

Inductive store := SSeq (v : Z) | SWord (i : Z) (v : Z).
(** The writer: between two updates, or with stores of write_seqlock_begin and of the value still to become visible. *)
Inductive wstate := WIdle | WBusy (pending : list store) (v : list Z).
(** A reader: outside, or inside the do loop with the sequence it saw first and the words read so far, or finished. *)
Inductive rstate := RIdle | RReading (seq : Z) (ws : list Z) | RDone (ws : list Z).
(** seq and data are memory; [completed] records the finished updates, the last one first, and [begun] counts the updates started. *)
Record sys := mkSys { m_seq : Z; m_data : list Z; m_w : wstate; m_r : nat -> rstate; completed : list (list Z); begun : Z }.
Definition set_r (f : nat -> rstate) (k : nat) (x : rstate) : nat -> rstate := fun j => if Nat.eqb j k then x else f j.
(** seqlock_init, lib/seqlock.h:16-19, with a first value in place. *)
Definition init (v0 : list Z) : sys := mkSys 0 v0 WIdle (fun _ => RIdle) [v0] 0.

Definition apply_store (s : sys) (x : store) (w : wstate) : sys :=
  match x with
  | SSeq v => mkSys v (m_data s) w (m_r s) (completed s) (begun s)
  | SWord i v => mkSys (m_seq s) (upd (m_data s) (Z.to_nat i) v) w (m_r s) (completed s) (begun s)
  end.
(** The stores of an update, in program order: the odd sequence, then the words. *)
Fixpoint words (i : Z) (v : list Z) : list store := match v with [] => [] | x :: v => SWord i x :: words (i + 1) v end.

Inductive step (ordered : bool) : sys -> sys -> Prop :=
| WBegin s v : m_w s = WIdle -> length v = length (m_data s) ->                                (* write_seqlock_begin, lib/seqlock.h:41-44 *)
    step ordered s (mkSys (m_seq s) (m_data s) (WBusy (SSeq (u32 (m_seq s + 1)) :: words 0 v) v) (m_r s) (completed s) (begun s + 1))
| WStore s p x q v : m_w s = WBusy (p ++ x :: q) v -> (ordered = true -> p = []) ->            (* one store becomes visible *)
    step ordered s (apply_store s x (WBusy (p ++ q) v))
| WEnd s v : m_w s = WBusy [] v ->                                                            (* write_seqlock_end, lib/seqlock.h:46-49 *)
    step ordered s (mkSys (u32 (m_seq s + 1)) (m_data s) WIdle (m_r s) (v :: completed s) (begun s))
| RBegin s k : m_r s k = RIdle -> m_seq s mod 2 = 0 ->                                         (* read_seqlock_begin, lib/seqlock.h:21-33 *)
    step ordered s (mkSys (m_seq s) (m_data s) (m_w s) (set_r (m_r s) k (RReading (m_seq s) [])) (completed s) (begun s))
| RSpin s k : m_r s k = RIdle -> m_seq s mod 2 = 1 -> step ordered s s
| RWord s k seq ws x : m_r s k = RReading seq ws -> nth_error (m_data s) (length ws) = Some x ->  (* *ts = fio_ts->ts, word by word *)
    step ordered s (mkSys (m_seq s) (m_data s) (m_w s) (set_r (m_r s) k (RReading seq (ws ++ [x]))) (completed s) (begun s))
| RAccept s k seq ws : m_r s k = RReading seq ws -> length ws = length (m_data s) -> m_seq s = seq -> (* read_seqlock_retry, lib/seqlock.h:35-39 *)
    step ordered s (mkSys (m_seq s) (m_data s) (m_w s) (set_r (m_r s) k (RDone ws)) (completed s) (begun s))
| RRetry s k seq ws : m_r s k = RReading seq ws -> length ws = length (m_data s) -> m_seq s <> seq ->
    step ordered s (mkSys (m_seq s) (m_data s) (m_w s) (set_r (m_r s) k RIdle) (completed s) (begun s))
| RAgain s k ws : m_r s k = RDone ws ->                                                        (* the next call *)
    step ordered s (mkSys (m_seq s) (m_data s) (m_w s) (set_r (m_r s) k RIdle) (completed s) (begun s)).
Inductive steps (ordered : bool) : sys -> sys -> Prop :=
| S0 s : steps ordered s s
| SN a b c : steps ordered a b -> step ordered b c -> steps ordered a c.
