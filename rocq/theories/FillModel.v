(** Model of the filling of write buffers: [__fill_random_buf_small], [__fill_random_buf] and
    [__fill_random_buf_percentage] of [lib/rand.c], [get_buf_state], [save_buf_state] and
    [fill_io_buffer] of [io_u.c], [init_dedupe_working_set_seeds] of [dedupe.c].

    Simplifications:
    - what is written to consecutive addresses is a list of bytes, the machine is
      little-endian;
    - [cpy_pattern] yields the repeated pattern, which is proved for C08;
    - lengths are below 2^32 (they are [unsigned int] in [lib/rand.c]);
    - the draws for the deduplication are parameters of each buffer;
    - the rotation of the seeds among jobs ([dedupe_global]) is left out. *)
From Coq Require Import ZArith List Lia Bool Arith.
From Verif Require Import CBase RandModel PatternModel PatternSpec.
Import ListNotations.
Open Scope Z_scope.

(** hash.h:20, 54-57 [__hash_u64]. *)
Definition golden : Z := 7046029254386353131.
Definition hash (x : Z) : Z := u64 (x * golden).

(** lib/rand.c:115-116 [prime]. *)
Definition primes : list Z := [1; 2; 3; 5; 7; 11; 13; 17; 19; 23; 29; 31; 37; 41; 43; 47].

(** lib/rand.c:104-107: [n] words and the seed left over. *)
Fixpoint small_words (n : nat) (seed : Z) : list Z * Z :=
  match n with
  | O => ([], seed)
  | S n' => let (w, s) := small_words n' (hash seed) in (seed :: w, s)
  end.

(** The bytes of words in memory. *)
Definition bytes_of_words (w : list Z) : list Z := flat_map (le_bytes 8) w.

(** lib/rand.c:98-111 [__fill_random_buf_small]. *)
Definition fill_small (len : nat) (seed : Z) : list Z :=
  let (w, s) := small_words (len / 8) seed in
  bytes_of_words w ++ firstn (len mod 8) (le_bytes 8 s).

(** lib/rand.c:134-139: [n] rounds over the buckets, and the buckets left over. *)
Fixpoint rounds (n : nat) (s : list Z) : list Z * list Z :=
  match n with
  | O => ([], s)
  | S n' => let (w, s') := rounds n' (map hash s) in (s ++ w, s')
  end.

(** lib/rand.c:113-142 [__fill_random_buf] with [B] = [CONFIG_SEED_BUCKETS]. *)
Definition fill_random (B len : nat) (seed : Z) : list Z :=
  let rest := (len / 8 / B * B)%nat in
  let s := map (fun p => u64 (seed * p)) (firstn B primes) in
  let (w, s') := rounds (len / 8 / B) s in
  bytes_of_words w ++ fill_small (len - rest * 8) (nth 0 s' 0).

(** The compressible part: the pattern or zeros. *)
Definition soft (pat : list Z) (len : nat) : list Z :=
  if (length pat =? 0)%nat then repeat 0 len else map (cyc pat) (seq 0 len).

(** lib/rand.c:170-199: the loop of [__fill_random_buf_percentage]; [None]: it does not end
    within [fuel] rounds. *)
Fixpoint perc_loop (fuel B : nat) (seed : Z) (perc segment len : nat) (pat : list Z) : option (list Z) :=
  match fuel with
  | O => None
  | S fuel' =>
    if (len =? 0)%nat then Some []
    else
      let this := Nat.min (segment * (100 - perc) / 100) len in
      let r := fill_random B this seed in
      let len1 := (len - this)%nat in
      if (len1 =? 0)%nat then Some r
      else
        let this2 := (segment - this)%nat in
        let this2 := if (len1 <? this2)%nat then len1 else if (len1 - this2 <=? 8)%nat then len1 else this2 in
        match perc_loop fuel' B seed perc segment (len1 - this2) pat with
        | Some l => Some (r ++ soft pat this2 ++ l)
        | None => None
        end
  end.

(** lib/rand.c:153-200 [__fill_random_buf_percentage]. *)
Definition fill_perc (fuel B : nat) (seed : Z) (perc segment len : nat) (pat : list Z) : option (list Z) :=
  if (perc =? 100)%nat then Some (soft pat len)
  else perc_loop fuel B seed perc (Nat.min segment len) len pat.

(** lib/rand.h: [struct frand_state]. *)
Inductive frand := F32 (t : taus88) | F64 (t : taus258).

(** lib/rand.h:98-104 [__rand]. *)
Definition frand_next (f : frand) : Z * frand :=
  match f with
  | F32 t => let (t', r) := rand32 t in (r, F32 t')
  | F64 t => let (t', r) := rand64 t in (r, F64 t')
  end.

(** lib/rand.h:153-161 [__get_next_seed]: the seed and the state after it. *)
Definition next_seed (f : frand) : Z * frand :=
  let (r, f1) := frand_next f in
  let (q, f2) := frand_next f1 in
  (u64 (r * q), f2).

Inductive mode := Repeat | WorkingSet.

(** The options. *)
Record cfg := Cfg {
  buckets : nat;        (** [CONFIG_SEED_BUCKETS] *)
  cperc : nat;          (** [compress_percentage] *)
  cchunk : nat;         (** [compress_chunk] *)
  dperc : nat;          (** [dedupe_percentage] *)
  dmode : mode;
  pattern : list Z      (** [buffer_pattern] *)
}.

(** The state of the job. *)
Record st := St {
  bst : frand;          (** [buf_state] *)
  prev : frand;         (** [buf_state_prev] *)
  wset : list frand     (** [dedupe_working_set_states] *)
}.

(** The generator that [get_buf_state] returns: [buf_state] itself, or [buf_state_ret]. *)
Inductive ref := Main | Ret (f : frand).

(** io_u.c:2434-2469 [get_buf_state]; [v] is the draw from 1 to 100, [i] that of the page.
    [None]: outside of the array. *)
Definition get_buf_state (c : cfg) (s : st) (v i : nat) : option (ref * st) :=
  if (dperc c =? 0)%nat then Some (Main, s)
  else if (dperc c =? 100)%nat then Some (Main, St (bst s) (bst s) (wset s))
  else if (v <=? dperc c)%nat then
    match dmode c with
    | Repeat => Some (Ret (prev s), s)
    | WorkingSet => match nth_error (wset s) i with Some f => Some (Ret f, s) | None => None end
    end
  else Some (Main, s).

(** io_u.c:2471-2477 [save_buf_state]. *)
Definition save_buf_state (c : cfg) (s : st) (r : ref) : st :=
  if (dperc c =? 100)%nat then match r with Main => St (prev s) (prev s) (wset s) | Ret _ => s end
  else match r with Main => St (bst s) (bst s) (wset s) | Ret _ => s end.

(** minmax.h:20-23 [min_not_zero]. *)
Definition min_not_zero (x y : nat) : nat :=
  if (x =? 0)%nat then y else if (y =? 0)%nat then x else Nat.min x y.

(** The seed drawn from the generator, which moves on. *)
Definition draw (s : st) (r : ref) : Z * st * ref :=
  match r with
  | Main => let (x, f) := next_seed (bst s) in (x, St f (prev s) (wset s), Main)
  | Ret f => let (x, f') := next_seed f in (x, s, Ret f')
  end.

(** io_u.c:2493-2517: the loop, once the generator has been chosen. *)
Fixpoint io_loop (fuel : nat) (c : cfg) (s : st) (r : ref) (minw left : nat) : option (list Z * st) :=
  match fuel with
  | O => None
  | S fuel' =>
    let minw := Nat.min minw left in
    let this := min_not_zero minw (cchunk c) in
    let '(x, s1, r1) := draw s r in
    match fill_perc (S this) (buckets c) x (cperc c) this this (pattern c) with
    | None => None
    | Some b =>
      let s2 := save_buf_state c s1 r1 in
      if (left <? this)%nat then None
      else if (left - this =? 0)%nat then Some (b, s2)
      else match io_loop fuel' c s2 r1 minw (left - this) with
           | Some (l, s3) => Some (b ++ l, s3)
           | None => None
           end
    end
  end.

(** io_u.c:2479-2524 [fill_io_buffer], for jobs that compress or deduplicate (2487), or fill with
    random data (2523). *)
Definition fill_io (c : cfg) (s : st) (v i : nat) (minw len : nat) : option (list Z * st) :=
  match get_buf_state c s v i with
  | None => None
  | Some (r, s1) =>
    if (cperc c =? 0)%nat && (dperc c =? 0)%nat then
      let '(x, s2, _) := draw s1 r in Some (fill_random (buckets c) len x, s2)
    else io_loop (S len) c s1 r minw len
  end.

(** A sequence of buffers of the same size; the draws are given. *)
Fixpoint fill_all (c : cfg) (s : st) (minw len : nat) (vs : list (nat * nat)) : option (list (list Z) * st) :=
  match vs with
  | [] => Some ([], s)
  | (v, i) :: vs' =>
    match fill_io c s v i minw len with
    | Some (b, s1) => match fill_all c s1 minw len vs' with Some (l, s2) => Some (b :: l, s2) | None => None end
    | None => None
    end
  end.

(** [n] seeds further. *)
Definition advance (n : nat) (f : frand) : frand := Nat.iter n (fun f => snd (next_seed f)) f.

(** dedupe.c:50-70: the states from the second on. *)
Fixpoint set_loop (n adv : nat) (f : frand) : list frand :=
  match n with
  | O => []
  | S n' => let f' := advance adv f in f' :: set_loop n' adv f'
  end.

(** dedupe.c:22-74 [init_dedupe_working_set_seeds]; [size]: of the job, [perc]: of it in the
    working set. [None]: writes outside of the array. *)
Definition working_set (f : frand) (minbs chunk size perc : nat) : option (list frand) :=
  let adv := (minbs / min_not_zero minbs chunk)%nat in
  let n := (size * perc / 100 / minbs)%nat in
  match n with
  | O => None
  | S n' => Some (f :: set_loop n' adv f)
  end.

(** init.c:1238-1239. *)
Definition init_st (f : frand) (w : list frand) : st := St f f w.
