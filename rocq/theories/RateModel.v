(** Model of the rate limits: [usec_for_io], [handle_thinktime] and [__check_min_rate]
    of [backend.c], [rate_ddir] of [io_u.c], [usec_spin] and [usec_sleep] of [time.c],
    [__setup_rate] of [init.c].

    What the code learns from outside is a list of answers, consumed in order: clock
    readings, how [nanosleep] ended, and whether the job was told to terminate.

    Simplifications:
    - clock readings are nanoseconds since the epoch of the job; [utime_since_now] and
      [mtime_since] are divisions of their differences (C15);
    - [rate_next_io_time], [last_usec] and the sums with [now] are unbounded integers;
    - the sample of the exponential distribution ([-logf]) is a parameter of each I/O;
    - [io_u_quiesce] only takes time; the reading of the clock for [comp_time] is left out;
    - the directions are read, write and trim; the mixed jobs do not trim (io_ddir.h:59, 703-708 of io_u.c),
      so the [ddir ^ 1] of a trim is never used. *)
From Coq Require Import ZArith List Lia Bool.
From Verif Require Import CBase.
Import ListNotations.
Open Scope Z_scope.

Inductive dir := Rd | Wr | Tr.

Definition deq (a b : dir) : bool :=
  match a, b with Rd, Rd | Wr, Wr | Tr, Tr => true | _, _ => false end.

(** io_u.c:743 [odir = ddir ^ 1]. *)
Definition other (d : dir) : dir := match d with Rd => Wr | Wr => Rd | Tr => Tr end.

(** Assignment to one element of an array indexed by the direction. *)
Definition setd (f : dir -> Z) (d : dir) (v : Z) : dir -> Z := fun e => if deq e d then v else f e.

(** The answers: the clock, [nanosleep] (false: interrupted), [td->terminate]. *)
Inductive ans := Clock (ns : Z) | Nano (ok : bool) | Term (b : bool).

(** The options, thread_options.h, and [rate_bps], fio.h:358. *)
Record cfg := Cfg {
  bps : dir -> Z;           (** [rate_bps] *)
  min_bs : dir -> Z;
  rate : dir -> Z;          (** the option [rate] *)
  bssplit : dir -> bool;    (** [bssplit_nr] is not zero *)
  poisson : bool;           (** [rate_process=poisson] *)
  mixed : bool;             (** [td_rw] *)
  rwmix : dir -> Z;
  timeout : Z;              (** microseconds; zero: none *)
  gran : Z;                 (** [ns_granularity] *)
  ign : bool;               (** [rate_ignore_thinktime] *)
  think : Z;                (** [thinktime] *)
  tspin : Z;                (** [thinktime_spin] *)
  tblocks : Z;              (** [thinktime_blocks] *)
  tblocks_set : bool;       (** whether it was given *)
  tiotime : Z               (** [thinktime_iotime] *)
}.

(** The counters of the job, fio.h:359-364. *)
Record st := St {
  cnt : dir -> Z;           (** [rate_io_issue_bytes] *)
  next : dir -> Z;          (** [rate_next_io_time] *)
  lastu : dir -> Z;         (** [last_usec] *)
  lthink : Z;               (** [last_thinktime], a clock reading *)
  lblocks : Z               (** [last_thinktime_blocks] *)
}.

(** init.c:562-583 [__setup_rate]: the rate in bytes per second, [None]: refused. *)
Definition setup_rate (rate iops bs : Z) : option Z :=
  let b := if rate =? 0 then u64 (iops * bs) else rate in
  if b =? 0 then None else Some b.

(** init.c:578-580, libfio.c:95-97. *)
Definition init_st : st := St (fun _ => 0) (fun _ => 0) (fun _ => 0) 0 0.

(** backend.c:858-902 [usec_for_io]: when the next I/O is due, and [last_usec]; [v] is the
    sample. [None]: a division by zero. *)
Definition usec_for_io (c : cfg) (s : st) (d : dir) (v : Z) : option (Z * (dir -> Z)) :=
  if poisson c then
    let iops := bps c d / min_bs c d in
    if iops =? 0 then None
    else let l := lastu s d + v in Some (l, setd (lastu s) d l)
  else if bps c d =? 0 then Some (0, lastu s)
  else if (rate c d =? 0) && bssplit c d then
    let iops := bps c d / min_bs c d in
    if iops =? 0 then Some (0, lastu s)
    else let l := lastu s d + 1000000 / iops in Some (l, setd (lastu s) d l)
  else
    let secs := cnt s d / bps c d in
    let rem := cnt s d mod bps c d in
    Some (u64 (u64 (rem * 1000000) / bps c d + secs * 1000000), lastu s).

(** time.c:36-46 [usec_spin], after the first reading. *)
Fixpoint spin_loop (start usec : Z) (w : list ans) : option (Z * list ans) :=
  match w with
  | Clock n :: w' => let t := (n - start) / 1000 in if t <? usec then spin_loop start usec w' else Some (t, w')
  | _ => None
  end.

Definition usec_spin (usec : Z) (w : list ans) : option (Z * list ans) :=
  match w with Clock n :: w' => spin_loop n usec w' | _ => None end.

(** time.c:76-89: what [nanosleep] is asked for, seconds and nanoseconds. *)
Definition nano_req (ts : Z) : Z * Z :=
  if ts >=? 1000000 then
    let sec := ts / 1000000 in
    let ts' := ts - 1000000 * sec in
    (if sec >? 1 then 1 else sec, ts' * 1000)
  else (0, ts * 1000).

(** time.c:60-107 [usec_sleep]: the time slept, the requests to [nanosleep]. *)
Fixpoint sleep_loop (fuel : nat) (g usec t : Z) (w : list ans) : option (Z * list (Z * Z) * list ans) :=
  match fuel with
  | O => None
  | S fuel =>
    if usec <? g then
      match usec_spin usec w with Some (x, w') => Some (t + x, [], w') | None => None end
    else
      let q := nano_req (usec - g) in
      match w with
      | Clock tv :: Nano ok :: w1 =>
        if negb ok then Some (t, [q], w1)
        else match w1 with
             | Clock n :: w2 =>
               let ts := (n - tv) / 1000 in
               let t' := t + ts in
               if ts >=? usec then Some (t', [q], w2)
               else match w2 with
                    | Term b :: w3 =>
                      if b then Some (t', [q], w3)
                      else match sleep_loop fuel g (usec - ts) t' w3 with
                           | Some (r, qs, w4) => Some (r, q :: qs, w4)
                           | None => None
                           end
                    | _ => None
                    end
             | _ => None
             end
      | _ => None
      end
  end.

Definition usec_sleep (g usec : Z) (w : list ans) : option (Z * list (Z * Z) * list ans) :=
  sleep_loop (S (length w)) g usec 0 w.

(** io_u.c:758-780: the direction to wait for and how long, when [d] is not yet due. *)
Definition plan (c : cfg) (s : st) (d : dir) (now : Z) : dir * Z :=
  let o := other d in
  if mixed c && negb (rwmix c o =? 0) then
    if next s o <=? now then (o, 0)
    else if next s d <=? next s o then (d, next s d - now)
    else (o, next s o - now)
  else (d, next s d - now).

(** io_u.c:741-801 [rate_ddir]: the direction ([None]: [DDIR_TIMEOUT]), the last reading of
    the clock and how long it meant to sleep ([None]: not at all). *)
Definition rate_ddir (c : cfg) (s : st) (d : dir) (w : list ans)
  : option (option dir * Z * option Z * list ans) :=
  match w with
  | Clock n :: w1 =>
    let now := n / 1000 in
    if next s d <=? now then Some (Some d, n, None, w1)
    else
      let (e, usec) := plan c s d now in
      if usec =? 0 then Some (Some e, n, None, w1)
      else
        let sleep (usec : Z) :=
          match usec_sleep (gran c) usec w1 with
          | Some (_, _, Clock m :: w3) =>
            if negb (timeout c =? 0) && (m / 1000 >? timeout c) then Some (None, m, Some usec, w3)
            else match w3 with
                 | Term b :: w4 => Some ((if b then None else Some e), m, Some usec, w4)
                 | _ => None
                 end
          | _ => None
          end in
        if negb (timeout c =? 0) && (usec + now >? timeout c) then
          if now >? timeout c then Some (None, n, None, w1)
          else sleep (timeout c - now)
        else sleep usec
  | _ => None
  end.

(** ioengines.c:388-406, backend.c:1342-1357: the counting of an I/O of [len] bytes handed to
    the engine ([busy]: it is not taken), and when the next one is due. *)
Definition submit (c : cfg) (s : st) (d : dir) (len : Z) (busy : bool) (v : Z) : option st :=
  let k := u64 (cnt s d + len) in
  let k' := if busy then u64 (k - len) else k in
  let s1 := St (setd (cnt s) d k') (next s) (lastu s) (lthink s) (lblocks s) in
  match usec_for_io c s1 d v with
  | Some (n, l) => Some (St (cnt s1) (setd (next s1) d n) l (lthink s1) (lblocks s1))
  | None => None
  end.

(** backend.c:986-994: the bytes added for a pause of [total]. *)
Definition credit (c : cfg) (d : dir) (total : Z) : Z :=
  let missed := u64 (bps c d * total) / 1000000 in
  let usperop := u64 (min_bs c d * 1000000) / bps c d in
  let over := if usperop <=? total then min_bs c d else u64 ((usperop - total) / usperop * - min_bs c d) in
  u64 (missed - over).

(** backend.c:951-955, 971-975: a pause is cut at the end of the job. *)
Definition cut (c : cfg) (left n : Z) : Z :=
  if timeout c =? 0 then left
  else let r := u64 (timeout c - n / 1000) in if r <? left then r else left.

(** backend.c:925-944: whether to pause, given [b] blocks so far; consumes a reading of the
    clock when [thinktime_iotime] is given. *)
Definition stall (c : cfg) (s : st) (b : Z) (w : list ans) : option (bool * list ans) :=
  let k := b >=? lblocks s + tblocks c in
  if tiotime c =? 0 then Some (k, w)
  else match w with
       | Clock n :: w' =>
         if (n - lthink s) / 1000 >=? tiotime c then Some (true, w')
         else if negb (tblocks_set c) then Some (false, w')
         else Some (k, w')
       | _ => None
       end.

(** backend.c:949-979: the pause itself. *)
Definition pause (c : cfg) (w : list ans) : option (Z * list ans) :=
  let rd (w : list ans) : option (Z * list ans) :=
    if timeout c =? 0 then Some (0, w) else match w with Clock n :: w' => Some (n, w') | _ => None end in
  match rd w with
  | Some (n, w1) =>
    let left := cut c (tspin c) n in
    match (if left =? 0 then Some (0, w1) else usec_spin left w1) with
    | Some (total, w2) =>
      let left := if total <? think c then think c - total else 0 in
      match rd w2 with
      | Some (n, w3) =>
        let left := cut c left n in
        if left =? 0 then Some (total, w3)
        else match usec_sleep (gran c) left w3 with
             | Some (t, _, w4) => Some (total + t, w4)
             | None => None
             end
      | None => None
      end
    | None => None
    end
  | None => None
  end.

(** backend.c:914-1009 [handle_thinktime]: the state and the pause, if there was one. *)
Definition handle_thinktime (c : cfg) (s : st) (d : dir) (b : Z) (w : list ans)
  : option (st * option Z * list ans) :=
  match stall c s b w with
  | Some (false, w1) => Some (s, None, w1)
  | Some (true, w1) =>
    match pause c w1 with
    | Some (total, w2) =>
      let cr := negb (total =? 0) && negb (bps c d =? 0) && ign c in
      let cnt' := if cr then setd (cnt s) d (u64 (cnt s d + credit c d total)) else cnt s in
      let last' := if cr then setd (lastu s) d (lastu s d + total) else lastu s in
      if tiotime c =? 0 then Some (St cnt' (next s) last' (lthink s) b, Some total, w2)
      else match w2 with
           | Clock n :: w3 => Some (St cnt' (next s) last' n b, Some total, w3)
           | _ => None
           end
    | None => None
    end
  | None => None
  end.

(** What the loop [do_io] does, backend.c:1233-1383: an I/O in the direction [rate_ddir] makes
    of [d]; an I/O that did not ask it (requeued, or read to verify); a pause after [b] blocks. *)
Inductive op :=
| OIo (d : dir) (len : Z) (busy : bool) (v : Z)
| OBypass (d : dir) (len : Z) (busy : bool) (v : Z)
| OThink (d : dir) (b : Z).

(** What is seen of it: a direction let through at a reading of the clock, an I/O handed to the
    engine and whether it was taken, a pause. *)
Inductive ev :=
| Rel (d : dir) (ns : Z)
| Iss (d : dir) (len : Z) (ok : bool) (v : Z)
| Paused (d : dir) (total : Z).

(** One step; the flag says whether the job goes on. Events are kept last first. *)
Definition step (c : cfg) (s : st) (h : list ev) (o : op) (w : list ans)
  : option (st * list ev * bool * list ans) :=
  match o with
  | OIo d len busy v =>
    match rate_ddir c s d w with
    | Some (Some e, n, _, w') =>
      match submit c s e len busy v with
      | Some s' => Some (s', Iss e len (negb busy) v :: Rel e n :: h, true, w')
      | None => None
      end
    | Some (None, _, _, w') => Some (s, h, false, w')
    | None => None
    end
  | OBypass d len busy v =>
    match submit c s d len busy v with
    | Some s' => Some (s', Iss d len (negb busy) v :: h, true, w)
    | None => None
    end
  | OThink d b =>
    match handle_thinktime c s d b w with
    | Some (s', Some total, w') => Some (s', Paused d total :: h, true, w')
    | Some (s', None, w') => Some (s', h, true, w')
    | None => None
    end
  end.

Fixpoint run (c : cfg) (s : st) (h : list ev) (os : list op) (w : list ans) : option (st * list ev * list ans) :=
  match os with
  | [] => Some (s, h, w)
  | o :: os' =>
    match step c s h o w with
    | Some (s', h', true, w') => run c s' h' os' w'
    | Some (s', h', false, w') => Some (s', h', w')
    | None => None
    end
  end.

(** ** The minimum rates *)

(** fio.h: the last check. *)
Record chk := Chk { cbytes : Z; cblocks : Z; ctime : Z }.

(** backend.c:159-221 [__check_min_rate] at the reading [now], [start] being that of the
    start: whether it fails, and the last check. *)
Definition check_min (ratemin iopsmin cycle start : Z) (k : chk) (now bytes blocks : Z) : bool * chk :=
  if (ratemin =? 0) && (iopsmin =? 0) then (false, k)
  else if (now - start) / 1000000 <? 2000 then (false, k)
  else
    let k' := Chk bytes blocks now in
    if negb (cbytes k =? 0) || negb (cblocks k =? 0) then
      let spent := (now - ctime k) / 1000000 in
      if (spent <? cycle) || (spent =? 0) then (false, k)
      else if negb (ratemin =? 0) then
        if u64 (u64 (bytes - cbytes k) * 1000) / spent <? ratemin then (true, k) else (false, k')
      else if u64 (u64 (blocks - cblocks k) * 1000) / spent <? iopsmin then (true, k) else (false, k')
    else (false, k').

(** A sequence of checks, one for each reading with its bytes and blocks; stops at a failure. *)
Fixpoint check_all (ratemin iopsmin cycle start : Z) (k : chk) (l : list (Z * Z * Z)) : bool :=
  match l with
  | [] => false
  | (n, by_, bl) :: l' =>
    let (f, k') := check_min ratemin iopsmin cycle start k n by_ bl in
    if f then true else check_all ratemin iopsmin cycle start k' l'
  end.
