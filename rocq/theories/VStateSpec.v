(** What a saved verify state holds, and the life of a job whose state is saved while it runs. *)
From Coq Require Import ZArith List Bool Sorted Permutation.
From Verif Require Import CBase Mem CStr CrcSpec DigestModel VerifyModel VerifySpec VStateModel.
Import ListNotations.
Open Scope Z_scope.

(** ** Saved states *)

Definition u64s (l : list Z) : Prop := Forall (fun n => 0 <= n < 2 ^ 64) l.
(** The slots of writes in flight; a job without tracking has all zeros. *)
Definition slots (j : job) : list Z := match j_inflight j with Some l => l | None => repeat 0 (Z.to_nat (j_iodepth j)) end.
Definition rand_ok (r : rstate) : Prop :=
  match r with R32 a b c => Forall (fun n => 0 <= n < 2 ^ 32) [a; b; c] | R64 a b c d e => u64s [a; b; c; d; e] end.
(** A job as fio sets it up: at least one file, numbers in the range of their C types, a name without NUL. *)
Definition job_ok (j : job) : Prop :=
  1 <= j_iodepth j /\ zlen (slots j) = j_iodepth j /\ 1 <= j_nr_files j /\ (j_iodepth j + zlen (j_failed j)) * j_nr_files j < 2 ^ 32 /\
  u64s (slots j) /\ u64s (j_failed j) /\ ~ In INVALID_NUMBERIO (j_failed j) /\ 0 <= j_issued j < 2 ^ 64 /\ 0 <= j_safe j < 2 ^ 64 /\
  rand_ok (j_rand j) /\ Forall (fun c => 0 < c < 256) (j_name j).

(** The writes that count: those issued, or under the fsynced policy those issued before a flush that completed (the counter is one higher). *)
Definition counted (j : job) : Z := if j_fsynced j then Z.max 0 (j_safe j - 1) else j_issued j.
(** The generator state as stored. *)
Definition stored_rand (r : rstate) : Z * list Z :=
  match r with R32 a b c => (0, [a; b; c; 0]) | R64 a b c d e => (1, [a; b; c; d; e; 0]) end.

(** A file that is taken for a state: version 7, all bytes announced are there, and their crc32c is the one in the header. *)
Definition acceptable (file : list Z) : Prop :=
  (24 <= length file)%nat /\ number file 0 8 = 7 /\ number file 8 8 <= zlen file - 24 /\
  exists r, number file 16 8 = reflect 32 r /\ is_crc 32 0x1EDC6F41 (2 ^ 32 - 1) (lsb_first (firstn (Z.to_nat (number file 8 8)) (skipn 24 file))) r.
(** It is long enough for the number of entries it says it has. *)
Definition complete (file : list Z) : Prop := 144 <= number file 8 8 /\ 144 + 8 * number file 24 4 <= number file 8 8.

(** The name of the file of the job with number [num]: prefix-name-num-verify.state, slashes in the job name replaced by dots. *)
Definition path (name prefix : list Z) (num : Z) : list Z :=
  prefix ++ [45] ++ map (fun c => if c =? 47 then 46 else c) name ++ [45] ++ dec num ++ suffix.

(** ** The job and the saving of its state, step by step *)

(** Visible history: write [n] issued, completed, failed; flush [k] submitted, completed. *)
Inductive hev := HIssue (n : Z) | HOk (n : Z) | HFail (n : Z) | HFsub (k : nat) | HFdone (k : nat).
(** [a] happened before [b]; the history is newest first. *)
Definition before (h : list hev) (a b : hev) : Prop := exists x y z, h = x ++ b :: y ++ a :: z.
