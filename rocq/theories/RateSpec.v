(** What the rate limits are to achieve, in terms of the events of a run. *)
From Coq Require Import ZArith List Lia Bool.
From Verif Require Import CBase RateModel.
Import ListNotations.
Open Scope Z_scope.

(** ** The outside world *)

(** The clock does not go back, and starts at [t] or later. *)
Fixpoint after (t : Z) (w : list ans) : Prop :=
  match w with
  | [] => True
  | Clock n :: w' => t <= n /\ after n w'
  | _ :: w' => after t w'
  end.

(** A job told to terminate stays so. *)
Fixpoint sticky (b : bool) (w : list ans) : Prop :=
  match w with
  | [] => True
  | Term x :: w' => (b = true -> x = true) /\ sticky x w'
  | _ :: w' => sticky b w'
  end.

(** No sleep is interrupted by a signal. *)
Definition calm (w : list ans) : Prop := ~ In (Nano false) w.

Record fair (w : list ans) : Prop := { fair_clock : after 0 w; fair_term : sticky false w; fair_calm : calm w }.

(** ** Histories, last event first *)

(** The bytes taken in direction [d], and how many I/Os they were. *)
Fixpoint bytes (d : dir) (h : list ev) : Z :=
  match h with
  | [] => 0
  | Iss e len true _ :: h' => (if deq e d then len else 0) + bytes d h'
  | _ :: h' => bytes d h'
  end.

Fixpoint count (d : dir) (h : list ev) : Z :=
  match h with
  | [] => 0
  | Iss e _ true _ :: h' => (if deq e d then 1 else 0) + count d h'
  | _ :: h' => count d h'
  end.

(** The attempts in direction [d], taken or not, and the samples drawn for them. *)
Fixpoint tries (d : dir) (h : list ev) : Z :=
  match h with
  | [] => 0
  | Iss e _ _ _ :: h' => (if deq e d then 1 else 0) + tries d h'
  | _ :: h' => tries d h'
  end.

Fixpoint samples (d : dir) (h : list ev) : Z :=
  match h with
  | [] => 0
  | Iss e _ _ v :: h' => (if deq e d then v else 0) + samples d h'
  | _ :: h' => samples d h'
  end.

(** The pauses in direction [d], and their total time. *)
Fixpoint pauses (d : dir) (h : list ev) : Z :=
  match h with
  | [] => 0
  | Paused e t :: h' => (if deq e d then 1 else 0) + pauses d h'
  | _ :: h' => pauses d h'
  end.

Fixpoint paused (d : dir) (h : list ev) : Z :=
  match h with
  | [] => 0
  | Paused e t :: h' => (if deq e d then t else 0) + paused d h'
  | _ :: h' => paused d h'
  end.

(** The history up to the last attempt in direction [d]. *)
Fixpoint upto (d : dir) (h : list ev) : list ev :=
  match h with
  | [] => []
  | Iss e len ok v :: h' => if deq e d then Iss e len ok v :: h' else upto d h'
  | _ :: h' => upto d h'
  end.

(** The bytes that the rate [b] would have moved in a pause of [t] microseconds, less the block
    with which to go on at once. *)
Definition allowance (b bs t : Z) : Z :=
  if t =? 0 then 0 else b * t / 1000000 - (if bs * 1000000 / b <=? t then bs else 0).

Fixpoint allowed (b bs : Z) (d : dir) (h : list ev) : Z :=
  match h with
  | [] => 0
  | Paused e t :: h' => (if deq e d then allowance b bs t else 0) + allowed b bs d h'
  | _ :: h' => allowed b bs d h'
  end.

(** The bytes taken and, when pauses are not to be caught up, those of the pauses. *)
Definition account (c : cfg) (d : dir) (h : list ev) : Z :=
  bytes d h + (if ign c then allowed (bps c d) (min_bs c d) d h else 0).

(** ** Kinds of limits *)

(** A limit in bytes per second (or in I/Os per second of a fixed size). *)
Definition linear (c : cfg) (d : dir) : Prop :=
  poisson c = false /\ 0 < bps c d /\ 0 <= min_bs c d /\ (rate c d <> 0 \/ bssplit c d = false).

(** A limit in I/Os per second, of sizes given by bssplit. *)
Definition split_limit (c : cfg) (d : dir) : Prop :=
  poisson c = false /\ 0 < bps c d /\ rate c d = 0 /\ bssplit c d = true /\ 0 < bps c d / min_bs c d.

(** The amounts fit in 64 bits: rates up to 18 terabytes a second, any number of bytes below
    2^64, due times below 2^64 microseconds. *)
Record fits (c : cfg) (d : dir) (h : list ev) : Prop := {
  fit_rate : bps c d * 1000000 <= 2 ^ 64;
  fit_bs : min_bs c d * 1000000 < 2 ^ 64;
  fit_account : forall h1 h2, h = h2 ++ h1 ->
    0 <= account c d h1 < 2 ^ 64 /\ account c d h1 * 1000000 / bps c d < 2 ^ 64;
  fit_pause : forall t, In (Paused d t) h -> 0 <= t /\ bps c d * t < 2 ^ 64
}.

(** A bound on the direction let through at the reading [n]: fewer bytes than the rate allows
    up to the end of that microsecond. *)
Definition within (b bytes n : Z) : Prop := bytes * 1000000 < b * (n / 1000 + 1).

(** The reading falls into the very microsecond in which the job is to end. *)
Definition at_end (c : cfg) (n : Z) : Prop := timeout c <> 0 /\ n / 1000 = timeout c.

(** ** The minimum rate *)

(** Samples are in order of time, and what they count does not decrease. *)
Fixpoint rising (t x y : Z) (l : list (Z * Z * Z)) : Prop :=
  match l with
  | [] => True
  | (n, bs, bl) :: l' => t <= n /\ x <= bs /\ y <= bl /\ bs * 1000 < 2 ^ 64 /\ bl * 1000 < 2 ^ 64 /\ rising n bs bl l'
  end.

(** The average between two samples, at least a cycle apart, is below the minimum. *)
Definition too_slow (rate_of : Z * Z * Z -> Z) (m cycle : Z) (a b : Z * Z * Z) : Prop :=
  let ms := (fst (fst b) - fst (fst a)) / 1000000 in
  cycle <= ms /\ 0 < ms /\ (rate_of b - rate_of a) * 1000 < m * ms.

Definition bytes_of (x : Z * Z * Z) : Z := snd (fst x).
Definition blocks_of (x : Z * Z * Z) : Z := snd x.
Definition time_of (x : Z * Z * Z) : Z := fst (fst x).
