(** Model of the zoned-device writes: [zbd.c] and [zbd.h].

    One job runs on the device; its operations are interleaved with the
    deliveries and completions of its own asynchronous writes.

    Simplifications:
    - byte offsets are unbounded integers: the device is smaller than 2^63
      bytes, so no [uint64_t] expression below wraps, and zone numbers fit the
      [uint32_t] of zbd.c:46;
    - zone [i] starts at [i * zone_size]: [parse_zone_info] (zbd.c:978-984) and
      [init_zone_info] (zbd.c:874) reject or create nothing else.  A smaller
      last zone lies outside the range of a job that writes, because
      [zbd_zone_align_file_sizes] (zbd.c:740-757) rounds the range down to a
      multiple of the zone size;
    - the per-zone mutex is recursive (zbd.c:872, 949) and one job runs, so
      [zone_lock] never waits; only the hold count matters.  Unlocking a mutex
      that is not held is [Bug];
    - [recover_zbd_write_error] is off, so [fixing_zone_wp] stays 0
      (zbd.c:1919-1923, 2153-2157 are not reached), and an I/O that fails
      leaves the device unchanged;
    - finishing a zone succeeds (a failure sets [td->error] and ends the job);
    - a [dprint] or a counter for the report is not modelled. *)
From Coq Require Import ZArith List Lia Bool Arith.
From Verif Require Import CBase.
Import ListNotations.
Open Scope Z_scope.

(** ** Static data: options and geometry *)

(** [struct zoned_block_device_info] and [struct fio_zone_info] (zbd.h:32-104),
    the fields that no zone operation changes, with the range of the file
    (zbd.c:1302-1304) and the options used by zbd.c.
    [zsz] is [zone_size], [nr] is [nr_zones], [zmin]/[zmax] are
    [f->min_zone]/[f->max_zone], [minbs]/[rbs] are [min_bs] for writes and
    reads, [maxw] is [max_write_zones], [jmax] is [job_max_open_zones], [job]
    names the running job, [wzr] is [write_zone_remainder], [rnd] is
    [td_random], [vfy] is [verify != VERIFY_NONE]; for every zone [gcap] is
    [capacity], [gseq] is [has_wp] and [goff] is [cond == OFFLINE]. *)
Record cfg := MkCfg {
  zsz : Z; nr : nat; zmin : nat; zmax : nat; minbs : Z; rbs : Z;
  maxw : nat; jmax : Z; job : nat; wzr : bool; rnd : bool; vfy : bool;
  gcap : nat -> Z; gseq : nat -> bool; goff : nat -> bool }.

(** [z->start], and [zbd_zone_end] as [start (S i)] (zbd.c:60-63). *)
Definition start (c : cfg) (i : nat) : Z := Z.of_nat i * zsz c.

(** [zbd_zone_capacity_end] (zbd.c:69-72). *)
Definition capend (c : cfg) (i : nat) : Z := start c i + gcap c i.

(** [f->file_offset] and [f->io_size] after the alignment (zbd.c:740-757). *)
Definition foff (c : cfg) : Z := start c (zmin c).
Definition iosz (c : cfg) : Z := Z.of_nat (zmax c - zmin c) * zsz c.

(** [is_valid_offset] (zbd.c:26-29). *)
Definition valid (c : cfg) (o : Z) : bool := (foff c <=? o) && (o <? foff c + iosz c).

(** [zbd_offset_to_zone_idx] (zbd.c:43-54). *)
Definition zidx (c : cfg) (o : Z) : nat := Nat.min (Z.to_nat (o / zsz c)) (nr c).

(** [ZBD_MAX_WRITE_ZONES] (zbd.h:13). *)
Definition max_write_zones_size : nat := 4096.

(** ** The state *)

(** A write in flight: [io_u->offset], [io_u->buflen], whether [zbd_put_io] is
    still set, and whether the device has executed it. *)
Record io := MkIo { i_off : Z; i_len : Z; i_put : bool; i_sent : bool }.

(** What reaches the device. *)
Inductive cmd :=
| CWrite (off len : Z)
| CReset (i : nat)
| CFinish (i : nat).

(** What one operation cannot determine by itself: the order in which the
    engine completes writes, the stale content of [write_zones[0]], whether
    the reset threshold is reached (zbd.c:2252-2257), whether a reset command
    succeeds, whether [get_next_verify] finds something to verify. *)
Record oracle := MkO { o_pick : list nat; o_stale : nat; o_thr : bool; o_rok : bool; o_ver : bool }.

(** [wp], [wr] ([z->write]), [rst] ([z->reset_zone]) and [hold] (hold count of
    [z->mutex]) for every zone; [arr] is
    [write_zones[0 .. num_write_zones - 1]]; [jn] is [td->num_write_zones] of
    every job; [infl] are the writes in flight; [tr] are the commands the
    device has executed, latest first. *)
Record st := MkSt {
  wp : nat -> Z; wr : nat -> bool; rst : nat -> bool; hold : nat -> nat;
  arr : list nat; jn : nat -> Z; infl : list io; orc : oracle; tr : list cmd }.

Definition fset {A} (f : nat -> A) (i : nat) (v : A) : nat -> A :=
  fun j => if Nat.eqb j i then v else f j.

Definition set_wp v s := MkSt v (wr s) (rst s) (hold s) (arr s) (jn s) (infl s) (orc s) (tr s).
Definition set_rst v s := MkSt (wp s) (wr s) v (hold s) (arr s) (jn s) (infl s) (orc s) (tr s).
Definition set_hold v s := MkSt (wp s) (wr s) (rst s) v (arr s) (jn s) (infl s) (orc s) (tr s).
Definition set_arr w a j s := MkSt (wp s) w (rst s) (hold s) a j (infl s) (orc s) (tr s).
Definition set_infl v s := MkSt (wp s) (wr s) (rst s) (hold s) (arr s) (jn s) v (orc s) (tr s).
Definition set_orc v s := MkSt (wp s) (wr s) (rst s) (hold s) (arr s) (jn s) (infl s) v (tr s).
Definition set_tr v s := MkSt (wp s) (wr s) (rst s) (hold s) (arr s) (jn s) (infl s) (orc s) v.

(** Outcome: a value, a failed assertion or undefined behaviour, or a loop that
    has not ended within the turns the model gives it. *)
Inductive out (A : Type) : Type := Ret (a : A) (s : st) | Bug | More.
Arguments Ret {A}. Arguments Bug {A}. Arguments More {A}.

Definition M (A : Type) := st -> out A.
Definition ret {A} (a : A) : M A := fun s => Ret a s.
Definition bug {A} : M A := fun _ => Bug.
Definition more {A} : M A := fun _ => More.
Definition bnd {A B} (m : M A) (k : A -> M B) : M B :=
  fun s => match m s with Ret a s' => k a s' | Bug => Bug | More => More end.
Definition gets {A} (f : st -> A) : M A := fun s => Ret (f s) s.
Definition modi (f : st -> st) : M unit := fun s => Ret tt (f s).
Definition check (b : bool) : M unit := if b then ret tt else bug.

Notation "x <- e ;; k" := (bnd e (fun x => k)) (at level 100, e at next level, right associativity).
Notation "e ;;; k" := (bnd e (fun _ => k)) (at level 100, right associativity).

(** ** Zone primitives *)

(** [zbd_zone_remainder] (zbd.c:79-85). *)
Definition remain (c : cfg) (s : st) (i : nat) : Z :=
  if capend c i <=? wp s i then 0 else capend c i - wp s i.

(** [zbd_zone_full] (zbd.c:95-104). *)
Definition zone_full (c : cfg) (i : nat) (req : Z) : M bool :=
  if negb (gseq c i) then ret false
  else if wzr c then gets (fun s => remain c s i =? 0)
  else check (req mod 512 =? 0) ;;; gets (fun s => remain c s i <? req).

(** [zone_lock] (zbd.c:106-130), with its two assertions. *)
Definition zone_lock (c : cfg) (i : nat) : M unit :=
  check ((zmin c <=? i)%nat && (i <? zmax c)%nat) ;;;
  check (gseq c i) ;;;
  modi (fun s => set_hold (fset (hold s) i (S (hold s i))) s).

(** [zone_unlock] (zbd.c:132-136). *)
Definition zone_unlock (c : cfg) (i : nat) : M unit :=
  check (gseq c i) ;;;
  h <- gets (fun s => hold s i) ;;
  match h with
  | O => bug
  | S h' => modi (fun s => set_hold (fset (hold s) i h') s)
  end.

Fixpoint remove1 (i : nat) (l : list nat) : list nat :=
  match l with
  | [] => []
  | x :: l' => if Nat.eqb x i then l' else x :: remove1 i l'
  end.

(** [zbd_write_zone_put] (zbd.c:314-340): the first entry that names the zone
    goes, the entries behind it move down. *)
Definition write_zone_put (c : cfg) (i : nat) : M unit :=
  w <- gets (fun s => wr s i) ;;
  if negb w then ret tt else
  a <- gets arr ;;
  if existsb (Nat.eqb i) a then
    modi (fun s => set_arr (fset (wr s) i false) (remove1 i (arr s))
                     (fset (jn s) (job c) (u32 (jn s (job c) - 1))) s)
  else ret tt.

(** [__zbd_write_zone_get] (zbd.c:554-612).  The write at 604 is out of bounds
    when the array is full. *)
Definition write_zone_get0 (c : cfg) (i : nat) : M bool :=
  if goff c i then ret false else
  r <- gets (fun s => remain c s i) ;;
  if vfy c && (r =? 0) then ret false else
  if (maxw c =? 0)%nat then ret true else
  w <- gets (fun s => wr s i) ;;
  if w then ret (negb (r =? 0)) else
  j <- gets (fun s => jn s (job c)) ;;
  if (0 <? jmax c) && (jmax c <=? j) then ret false else
  n <- gets (fun s => length (arr s)) ;;
  if (maxw c <=? n)%nat then ret false else
  check (n <? max_write_zones_size)%nat ;;;
  modi (fun s => set_arr (fset (wr s) i true) (arr s ++ [i])
                   (fset (jn s) (job c) (u32 (jn s (job c) + 1))) s) ;;;
  ret true.

(** [zbd_write_zone_get] (zbd.c:626-639). *)
Definition write_zone_get (c : cfg) (i : nat) : M bool :=
  if vfy c then
    b <- zone_full c i (minbs c) ;;
    if b then ret false else write_zone_get0 c i
  else write_zone_get0 c i.

(** [__zbd_reset_zone] (zbd.c:266-304); [false] is a failure. *)
Definition reset_zone0 (c : cfg) (i : nat) : M bool :=
  w <- gets (fun s => wp s i) ;;
  if w =? start c i then ret true else
  check (valid c (start c (S i) - 1)) ;;;
  ok <- gets (fun s => o_rok (orc s)) ;;
  if negb ok then ret false else
  modi (fun s => set_wp (fset (wp s) i (start c i)) (set_tr (CReset i :: tr s) s)) ;;;
  ret true.

(** [zbd_reset_zone] (zbd.c:353-366). *)
Definition reset_zone (c : cfg) (i : nat) : M bool :=
  ok <- reset_zone0 c i ;;
  if ok then write_zone_put c i ;;; ret true else ret false.

(** [zbd_finish_zone] (zbd.c:376-404). *)
Definition finish_zone (c : cfg) (i : nat) : M unit :=
  modi (fun s => set_wp (fset (wp s) i (start c (S i))) (set_tr (CFinish i :: tr s) s)).

(** ** Completion *)

(** The device executes the writes of zone [i] that it has not executed yet, in
    the order in which they were queued (the kernel keeps the order of the
    writes of a zone). *)
Fixpoint sendall (c : cfg) (i : nat) (l : list io) : list io * list cmd :=
  match l with
  | [] => ([], [])
  | x :: l' =>
      let (r, t) := sendall c i l' in
      if Nat.eqb (zidx c (i_off x)) i && negb (i_sent x)
      then (MkIo (i_off x) (i_len x) (i_put x) true :: r, t ++ [CWrite (i_off x) (i_len x)])
      else (x :: r, t)
  end.

Definition flush (c : cfg) (i : nat) : M unit :=
  modi (fun s => let (r, t) := sendall c i (infl s) in set_infl r (set_tr (t ++ tr s) s)).

(** [zbd_end_zone_io] for a write (zbd.c:1842-1853). *)
Definition end_zone_io (c : cfg) (off len : Z) : M unit :=
  if capend c (zidx c off) <=? off + len then write_zone_put c (zidx c off) else ret tt.

(** [zbd_put_io] for a write (zbd.c:1935-1961). *)
Definition put_io (c : cfg) (off len : Z) : M unit :=
  check (gseq c (zidx c off)) ;;;
  end_zone_io c off len ;;;
  zone_unlock c (zidx c off).

Fixpoint drop (k : nat) (l : list io) : list io :=
  match k, l with
  | _, [] => []
  | O, _ :: l' => l'
  | S k', x :: l' => x :: drop k' l'
  end.

(** The [k]-th write in flight completes: [put_io_u] calls [zbd_put_io_u]
    (io_u.c:905, zbd.h:133-140).  A completed write has been executed, and so
    have the earlier writes of its zone. *)
Definition complete (c : cfg) (k : nat) : M unit :=
  l <- gets infl ;;
  match nth_error l k with
  | None => ret tt
  | Some x =>
      flush c (zidx c (i_off x)) ;;;
      modi (fun s => set_infl (drop k (infl s)) s) ;;;
      if i_put x then put_io c (i_off x) (i_len x) else ret tt
  end.

(** [io_u_quiesce] (io_u.c:708-739): waits until nothing is in flight; the
    oracle gives the order. *)
Fixpoint quiesce_loop (c : cfg) (n : nat) : M unit :=
  match n with
  | O => ret tt
  | S n' =>
      o <- gets orc ;;
      modi (set_orc (MkO (tl (o_pick o)) (o_stale o) (o_thr o) (o_rok o) (o_ver o))) ;;;
      complete c (hd O (o_pick o) mod S n') ;;;
      quiesce_loop c n'
  end.
Definition quiesce (c : cfg) : M unit :=
  l <- gets infl ;; quiesce_loop c (length l).

(** ** [zbd_convert_to_write_zone] *)

(** [pick_random_zone_idx] (zbd.c:1441-1446). *)
Definition pick_idx (c : cfg) (off : Z) (s : st) : nat :=
  Z.to_nat ((off - foff c) * Z.of_nat (length (arr s)) / iosz c).

Definition in_range (c : cfg) (i : nat) : bool := (zmin c <=? i)%nat && (i <? zmax c)%nat.

(** The loop of [zbd_pick_write_zone] (zbd.c:1471-1480). *)
Fixpoint pick_loop (c : cfg) (a : list nat) (n w : nat) : option nat :=
  match n with
  | O => None
  | S n' =>
      let w := if (length a <=? w)%nat then O else w in
      let cur := nth w a O in
      if in_range c cur then Some cur else pick_loop c a n' (S w)
  end.

(** [zbd_pick_write_zone] (zbd.c:1455-1483). *)
Definition pick_write_zone (c : cfg) (off : Z) : M (option nat) :=
  w <- gets (pick_idx c off) ;;
  a <- gets arr ;;
  check ((w =? 0)%nat || (w <? length a)%nat) ;;;
  ret (pick_loop c a (length a) w).

(** The search for the next zone with a write pointer (zbd.c:1542-1546). *)
Fixpoint next_seq (c : cfg) (n i : nat) : M nat :=
  match n with
  | O => more
  | S n' =>
      let j := if (zmax c <=? S i)%nat then zmin c else S i in
      if gseq c j then ret j else next_seq c n' j
  end.

(** Where the [for (;;)] loop (zbd.c:1580-1616) leaves: with no zone (1605), at
    [examine_zone] (1620) or at [choose_other_zone] (1626). *)
Inductive first := FNone | FExamine (z : nat) | FOther (z : nat).

Fixpoint first_loop (c : cfg) (n : nat) (off : Z) (i : nat) : M first :=
  match n with
  | O => more
  | S n' =>
      (if gseq c i then zone_lock c i else ret tt) ;;;
      a <- gets arr ;;
      if gseq c i && negb (goff c i) && (maxw c =? 0)%nat && (jmax c =? 0)
      then ret (FExamine i)
      else if gseq c i && (length a =? 0)%nat then ret (FOther i)
      else
        p <- pick_write_zone c off ;;
        match p with
        | None => (if gseq c i then zone_unlock c i else ret tt) ;;; ret FNone
        | Some j =>
            if Nat.eqb j i then ret (FExamine i)
            else (if gseq c i then zone_unlock c i else ret tt) ;;; first_loop c n' off j
        end
  end.

(** The search for a new zone (zbd.c:1670-1688): whether one was found, and the
    zone the search ended at. *)
Fixpoint scan (c : cfg) (n : nat) (z : nat) : M (bool * nat) :=
  match n with
  | O => ret (false, z)
  | S n' =>
      (if gseq c z then zone_unlock c z else ret tt) ;;;
      let z := if valid c (start c (S z)) then S z else zmin c in
      check (valid c (start c z)) ;;;
      if negb (gseq c z) then scan c n' z
      else
        zone_lock c z ;;;
        w <- gets (fun s => wr s z) ;;
        if w then scan c n' z
        else
          b <- write_zone_get c z ;;
          if b then ret (true, z) else scan c n' z
  end.

(** The search in the write target zones (zbd.c:1695-1722) from entry [i] on. *)
Fixpoint fits (c : cfg) (n : nat) (i : nat) (z : nat) : M (bool * nat) :=
  match n with
  | O => ret (false, z)
  | S n' =>
      a <- gets arr ;;
      match nth_error a i with
      | None => ret (false, z)
      | Some j =>
          if negb (in_range c j) then fits c n' (S i) z
          else
            zone_unlock c z ;;;
            zone_lock c j ;;;
            r <- gets (fun s => remain c s j) ;;
            if (wzr c && (0 <? r)) || (negb (wzr c) && (minbs c <=? r)) then
              b <- write_zone_get c j ;;
              if b then ret (true, j) else fits c n' (S i) j
            else fits c n' (S i) j
      end
  end.

(** From [retry] to the end (zbd.c:1655-1780).  The result is the zone and
    whether the label [out] was taken, which moves [io_u->offset]. *)
Fixpoint retry (c : cfg) (n : nat) (off : Z) (zb z : nat) (should : bool) : M (option (nat * bool)) :=
  match n with
  | O => more
  | S n' =>
      p <- (if rnd c then
              zone_unlock c z ;;; zone_lock c zb ;;;
              b <- write_zone_get c zb ;; ret (b, zb)
            else ret (false, z)) ;;
      if fst p then ret (Some (snd p, false))
      else
        q <- scan c (zmax c - zmin c) (snd p) ;;
        if fst q then ret (Some (snd q, true))
        else
          a <- gets arr ;;
          f <- fits c (length a) O (snd q) ;;
          if fst f then ret (Some (snd f, true))
          else
            let z := snd f in
            busy <- gets (fun s => negb (length (infl s) =? 0)%nat) ;;
            if busy || should then
              zone_unlock c z ;;; quiesce c ;;; zone_lock c z ;;;
              retry c n' off zb z busy
            else
              if rnd c && negb (vfy c) && negb (wzr c) then
                k <- pick_write_zone c off ;;
                match k with
                | Some j =>
                    zone_unlock c z ;;; zone_lock c j ;;; quiesce c ;;;
                    finish_zone c j ;;; ret (Some (j, true))
                | None => zone_unlock c z ;;; ret None
                end
              else zone_unlock c z ;;; ret None
  end.

(** [wait_zone_write] (zbd.c:1632-1638). *)
Definition wait_zone_write (c : cfg) (s : st) : bool :=
  negb (wzr c) &&
  ((length (arr s) =? (zmax c - zmin c))%nat
   || (negb (maxw c =? 0)%nat && (length (arr s) =? maxw c)%nat)
   || (negb (jmax c =? 0) && (jn s (job c) =? jmax c))).

(** The label [out] (zbd.c:1772-1780). *)
Definition conv_out (c : cfg) (off : Z) (z : nat) (moved : bool) : M (option (nat * Z)) :=
  if moved then
    check (gseq c z) ;;; check (negb (goff c z)) ;;; ret (Some (z, start c z))
  else ret (Some (z, off)).

(** After the first attempt has failed (zbd.c:1554-1780). *)
Definition convert_search (c : cfg) (off : Z) (zb : nat) : M (option (nat * Z)) :=
  zone_unlock c zb ;;;
  o <- gets orc ;;
  a <- gets arr ;;
  w <- gets (pick_idx c off) ;;
  let i := if negb (maxw c =? 0)%nat || negb (jmax c =? 0)
           then nth w a (o_stale o) else zidx c off in
  let i := if (i <? zmin c)%nat then zmin c
           else if (zmax c <=? i)%nat then (zmax c - 1)%nat else i in
  f <- first_loop c 3 off i ;;
  let other z :=
    b <- gets (wait_zone_write c) ;;
    (if b then quiesce c else ret tt) ;;;
    r <- retry c 4 off zb z true ;;
    match r with
    | None => ret None
    | Some (z, moved) => conv_out c off z moved
    end in
  match f with
  | FNone => ret None
  | FExamine z =>
      r <- gets (fun s => remain c s z) ;;
      if minbs c <=? r then conv_out c off z true else other z
  | FOther z => other z
  end.

(** [0 < remainder < min_bs] without [write_zone_remainder]
    (zbd.c:1527-1528, 2246-2248). *)
Definition small (c : cfg) (s : st) (i : nat) : bool :=
  negb (wzr c) && (0 <? remain c s i) && (remain c s i <? minbs c).

(** [zbd_convert_to_write_zone] (zbd.c:1509-1781): the zone, held, and the
    offset of the I/O. *)
Definition convert (c : cfg) (off : Z) (zb : nat) : M (option (nat * Z)) :=
  check (valid c off) ;;;
  b <- gets (fun s => small c s zb) ;;
  p <- (if b then
          write_zone_put c zb ;;; quiesce c ;;; finish_zone c zb ;;; zone_unlock c zb ;;;
          if (zmax c <=? S zb)%nat && negb (rnd c) then ret None
          else
            j <- next_seq c (zmax c - zmin c) zb ;;
            zone_lock c j ;;; ret (Some j)
        else ret (Some zb)) ;;
  match p with
  | None => ret None
  | Some zb =>
      b <- write_zone_get c zb ;;
      if b then ret (Some (zb, off)) else convert_search c off zb
  end.

(** ** [zbd_adjust_block] *)

(** The decision: accepted for the write-pointer zone [i], which stays locked,
    accepted for a conventional zone, turned into a verify read, or the end of
    the file. *)
Inductive verdict :=
| VSeq (i : nat) (off len : Z)
| VConv (off len : Z)
| VVerify
| VEof.

(** The loop at label [retry] (zbd.c:2238-2249). *)
Fixpoint adjust_retry (c : cfg) (n : nat) (off : Z) (zb : nat) : M (option nat) :=
  match n with
  | O => more
  | S n' =>
      r <- convert c off zb ;;
      match r with
      | None => ret None
      | Some (z, off) =>
          b <- gets (fun s => small c s z) ;;
          if b then adjust_retry c n' off z else ret (Some z)
      end
  end.

(** Writes to conventional zones (zbd.c:2111-2140). *)
Definition adjust_conv (c : cfg) (zb : nat) (off len : Z) : Z * Z :=
  let next := start c (S zb) in
  if negb (gseq c (S zb)) || (off + len <=? next) then (off, len)
  else if next <? off + minbs c then
    let off := start c zb + next - off in
    (off, Z.min len (next - off) / minbs c * minbs c)
  else (off, (next - off) / minbs c * minbs c).

(** The length of the write (zbd.c:2309-2328); [None] is
    [zone remainder too small]. *)
Definition write_len (c : cfg) (z : nat) (off len : Z) : option Z :=
  let n := Z.min len (capend c z - off) in
  let n := if (wzr c && (minbs c <? n)) || negb (wzr c) then n / minbs c * minbs c else n in
  if n =? len then Some n
  else if wzr c || (minbs c <=? n) then Some n
  else None.

(** Reset if necessary (zbd.c:2251-2292): [None] is a verify read, [Some false]
    the end of the file. *)
Definition maybe_reset (c : cfg) (z : nat) : M (option bool) :=
  o <- gets orc ;;
  (if o_thr o then modi (fun s => set_rst (fset (rst s) z true) s) else ret tt) ;;;
  r <- gets (fun s => rst s z) ;;
  f <- (if r then ret true else zone_full c z (minbs c)) ;;
  if negb f then ret (Some true)
  else if vfy c && o_ver o then ret None
  else
    quiesce c ;;;
    modi (fun s => set_rst (fset (rst s) z false) s) ;;;
    ok <- reset_zone0 c z ;;
    if negb ok then ret (Some false)
    else ret (Some (negb (gcap c z <? minbs c))).

(** [zbd_adjust_block] for a write (zbd.c:2093-2151, 2229-2328, 2362-2387). *)
Definition adjust_write (c : cfg) (off len : Z) : M verdict :=
  check (negb (minbs c =? 0)) ;;; check (valid c off) ;;; check (negb (len =? 0)) ;;;
  let zb := zidx c off in
  if negb (gseq c zb) then let (o, l) := adjust_conv c zb off len in ret (VConv o l)
  else
    zone_lock c zb ;;;
    if zsz c <? len then zone_unlock c zb ;;; ret VEof
    else
      r <- adjust_retry c (2 + (zmax c - zmin c)) off zb ;;
      match r with
      | None => ret VEof
      | Some z =>
          b <- maybe_reset c z ;;
          match b with
          | None => zone_unlock c z ;;; ret VVerify
          | Some false => zone_unlock c z ;;; ret VEof
          | Some true =>
              f <- zone_full c z (minbs c) ;;
              check (negb f) ;;;
              off <- gets (fun s => wp s z) ;;
              if negb (valid c off) then zone_unlock c z ;;; ret VEof
              else
                match write_len c z off len with
                | None => zone_unlock c z ;;; ret VEof
                | Some n =>
                    check (gseq c z) ;;; check (negb (goff c z)) ;;;
                    ret (VSeq z off n)
                end
          end
      end.

(** [zbd_find_zone] (zbd.c:1790-1830) from distance [k] on, at most [n] turns.
    The zones of a found write-pointer zone stay locked. *)
Fixpoint find_zone (c : cfg) (n k : nat) (min : Z) (zb : nat) : M (option nat) :=
  match n with
  | O => ret None
  | S n' =>
      let z1 := (zb + k)%nat in
      let up := (z1 <? zmax c)%nat in
      let down := (zmin c + k <=? zb)%nat in
      let z2 := (zb - k)%nat in
      if negb (up || down) then ret None
      else
        let below :=
          if rnd c && down && negb (goff c z2) then
            (if gseq c z2 then zone_lock c z2 else ret tt) ;;;
            w <- gets (fun s => wp s z2) ;;
            if start c z2 + min <=? w then ret (Some z2)
            else (if gseq c z2 then zone_unlock c z2 else ret tt) ;;;
                 find_zone c n' (S k) min zb
          else find_zone c n' (S k) min zb in
        if up && negb (goff c z1) then
          (if gseq c z1 then zone_lock c z1 else ret tt) ;;;
          w <- gets (fun s => wp s z1) ;;
          if start c z1 + min <=? w then ret (Some z1)
          else (if gseq c z1 then zone_unlock c z1 else ret tt) ;;; below
        else if negb (rnd c) then ret None
        else below
  end.

(** [zbd_adjust_block] for a read outside verification, without
    [read_beyond_wp] (zbd.c:2160-2227). *)
Definition adjust_read (c : cfg) (off len : Z) : M verdict :=
  check (negb (rbs c =? 0)) ;;; check (valid c off) ;;; check (negb (len =? 0)) ;;;
  let zb := zidx c off in
  if negb (gseq c zb) then ret (VConv off len)
  else
    zone_lock c zb ;;;
    w <- gets (fun s => wp s zb) ;;
    let range := if goff c zb then 0 else w - start c zb in
    p <- (if (range <? rbs c) || (negb (rnd c) && (w <? off + rbs c)) then
            zone_unlock c zb ;;; find_zone c (zmax c) 1 (rbs c) zb
          else ret (Some zb)) ;;
    match p with
    | None => ret VEof
    | Some z =>
        w <- gets (fun s => wp s z) ;;
        let range := w - start c z in
        check (rbs c <=? range) ;;;
        let off := if negb (rnd c) && negb (Nat.eqb z zb) then start c z else off in
        let off := if range <=? len then start c z
                   else if rnd c then start c z + (off - start c zb) mod (range - len) / rbs c * rbs c
                   else off in
        if negb (gseq c z) then ret (VConv off len)
        else
          let n := Z.min len (w - off) / rbs c * rbs c in
          let n := if n <? len then n else len in
          check (start c z <=? off) ;;; check (off + n <=? w) ;;;
          ret (VSeq z off n)
    end.

(** [zbd_adjust_block] for a trim (zbd.c:2330-2346), with the assertions at label
    [accept] (zbd.c:2363-2364). *)
Definition adjust_trim (c : cfg) (off : Z) : M verdict :=
  check (valid c off) ;;;
  let zb := zidx c off in
  if negb (gseq c zb) then ret (VConv off 0)
  else
    zone_lock c zb ;;;
    w <- gets (fun s => wp s zb) ;;
    if negb (rnd c) || (start c zb <? w) then
      check (negb (goff c zb)) ;;; ret (VSeq zb off 0)
    else
      zone_unlock c zb ;;;
      r <- find_zone c (zmax c) 1 1 zb ;;
      match r with
      | None => ret VEof
      | Some z => check (gseq c z) ;;; check (negb (goff c z)) ;;; ret (VSeq z (start c z) 0)
      end.

(** ** Submission *)

(** What the engine answers to the submission of a write: completed, queued,
    busy, or an error. *)
Inductive status := SCompleted | SQueued | SBusy | SError.

(** [td_io_queue] with [zbd_queue_io] for a write (ioengines.c:396-397,
    zbd.c:1864-1929).  When the engine is busy the I/O is requeued
    (io_u.c:943-974): it is the next one submitted, unchanged, and neither
    callback is set any more.  So it is in flight without [zbd_put_io]. *)
Definition queue_write (c : cfg) (off len : Z) (q : status) : M unit :=
  let z := zidx c off in
  check (gseq c z) ;;;
  match q with
  | SError => zone_unlock c z
  | _ =>
      modi (fun s => set_wp (fset (wp s) z (Z.min (off + len) (capend c z))) s) ;;;
      match q with
      | SQueued => modi (fun s => set_infl (infl s ++ [MkIo off len true false]) s)
      | SBusy =>
          modi (fun s => set_infl (infl s ++ [MkIo off len false false]) s) ;;;
          zone_unlock c z
      | _ =>
          flush c z ;;;
          modi (fun s => set_tr (CWrite off len :: tr s) s) ;;;
          end_zone_io c off len ;;;
          zone_unlock c z
      end
  end.

(** [zbd_do_io_u_trim] (zbd.c:2409-2430) for a write-pointer zone, then
    [zbd_queue_io] with [FIO_Q_COMPLETED], which unlocks. *)
Definition queue_trim (c : cfg) (z : nat) (off : Z) : M unit :=
  (if off =? start c z then reset_zone c z ;;; ret tt else ret tt) ;;;
  zone_unlock c z.

(** ** Operations *)

Inductive op :=
| OWrite (off len : Z) (q : status) (o : oracle)
| ORead (off len : Z)
| OTrim (off : Z) (o : oracle)
| OSend (i : nat)
| OComplete (k : nat).

(** One operation.  A write to a conventional zone goes to the device and
    changes no zone; the zone of a read is unlocked when the read is done. *)
Definition step (c : cfg) (p : op) : M verdict :=
  match p with
  | OWrite off len q o =>
      modi (set_orc o) ;;;
      v <- adjust_write c off len ;;
      match v with
      | VSeq z off len => queue_write c off len q ;;; ret v
      | VConv off len => modi (fun s => set_tr (CWrite off len :: tr s) s) ;;; ret v
      | _ => ret v
      end
  | ORead off len =>
      v <- adjust_read c off len ;;
      match v with
      | VSeq z _ _ => zone_unlock c z ;;; ret v
      | _ => ret v
      end
  | OTrim off o =>
      modi (set_orc o) ;;;
      v <- adjust_trim c off ;;
      match v with
      | VSeq z off _ => queue_trim c z off ;;; ret v
      | _ => ret v
      end
  | OSend i => flush c i ;;; ret VVerify
  | OComplete k => complete c k ;;; ret VVerify
  end.

(** A sequence of operations, with the verdicts. *)
Fixpoint run (c : cfg) (l : list op) : M (list verdict) :=
  match l with
  | [] => ret []
  | p :: l' => v <- step c p ;; vs <- run c l' ;; ret (v :: vs)
  end.

(** ** Setup *)

(** The loop of [zbd_setup_files] (zbd.c:1354-1371) over the zones [i ..]:
    [track] says whether the condition of the zone is one that must be tracked;
    [false] is the error return. *)
Fixpoint setup_loop (c : cfg) (track : nat -> bool) (n i : nat) : M bool :=
  match n with
  | O => ret true
  | S n' =>
      if track i then
        b <- write_zone_get0 c i ;;
        if b then setup_loop c track n' (S i) else ret false
      else setup_loop c track n' (S i)
  end.
Definition setup (c : cfg) (track : nat -> bool) : M bool :=
  setup_loop c track (zmax c - zmin c) (zmin c).
