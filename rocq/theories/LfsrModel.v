(** Model of lib/lfsr.c: pseudo-random permutations by a maximal-length shift register. *)
From Coq Require Import ZArith List Bool.
From Verif Require Import CBase.
Import ListNotations.
Open Scope Z_scope.

(** lib/lfsr.c:13-78 [lfsr_taps]; the zero padding of the rows is dropped. *)
Definition lfsr_taps : list (list Z) :=
  [[]; []; []; [3; 2];
   [4; 3]; [5; 3]; [6; 5]; [7; 6];
   [8; 6; 5; 4]; [9; 5]; [10; 7]; [11; 9];
   [12; 6; 4; 1]; [13; 4; 3; 1]; [14; 5; 3; 1]; [15; 14];
   [16; 15; 13; 4]; [17; 14]; [18; 11]; [19; 6; 2; 1];
   [20; 17]; [21; 19]; [22; 21]; [23; 18];
   [24; 23; 22; 17]; [25; 22]; [26; 6; 2; 1]; [27; 5; 2; 1];
   [28; 25]; [29; 27]; [30; 6; 4; 1]; [31; 28];
   [32; 31; 29; 1]; [33; 20]; [34; 27; 2; 1]; [35; 33];
   [36; 25]; [37; 5; 4; 3; 2; 1]; [38; 6; 5; 1]; [39; 35];
   [40; 38; 21; 19]; [41; 38]; [42; 41; 20; 19]; [43; 42; 38; 37];
   [44; 43; 18; 17]; [45; 44; 42; 41]; [46; 45; 26; 25]; [47; 42];
   [48; 47; 21; 20]; [49; 40]; [50; 49; 24; 23]; [51; 50; 36; 35];
   [52; 49]; [53; 52; 38; 37]; [54; 53; 18; 17]; [55; 31];
   [56; 55; 35; 34]; [57; 50]; [58; 39]; [59; 58; 38; 37];
   [60; 59]; [61; 60; 46; 45]; [62; 61; 6; 5]; [63; 62]].

(** lib/lfsr.h:14-23 [struct fio_lfsr]. *)
Record lfsr := mkLfsr {
  xormask : Z; last_val : Z; cached_bit : Z; max_val : Z; num_vals : Z;
  cycle_length : Z; cached_cycle_length : Z; spin : Z }.

(** lib/lfsr.c:80-82 [__LFSR_NEXT]. *)
Definition lfsr_step (fl : lfsr) (v : Z) : Z :=
  Z.lxor (Z.lor (Z.shiftr v 1) (cached_bit fl))
         (Z.land (u64 (Z.land v 1 - 1)) (xormask fl)).

(** lib/lfsr.c:84-125 [__lfsr_next]: the fall-through switch performs [spin + 1] steps for
    [spin <= 15] and none otherwise. *)
Definition lfsr_steps (fl : lfsr) (sp v : Z) : Z :=
  if sp <=? 15 then Nat.iter (Z.to_nat (sp + 1)) (lfsr_step fl) v else v.

Definition with_val (fl : lfsr) (v cyc : Z) : lfsr :=
  mkLfsr (xormask fl) v (cached_bit fl) (max_val fl) (num_vals fl) cyc
         (cached_cycle_length fl) (spin fl).

(** lib/lfsr.c:147-152, the body of the loop of [lfsr_next]. *)
Definition lfsr_iter (fl : lfsr) : lfsr :=
  if cycle_length fl =? 0 then with_val fl (lfsr_steps fl (spin fl) (last_val fl)) 0
  else if cycle_length fl - 1 =? 0 then
    with_val fl (lfsr_steps fl (spin fl + 1) (last_val fl)) (cached_cycle_length fl)
  else with_val fl (lfsr_steps fl (spin fl) (last_val fl)) (cycle_length fl - 1).

(** The do-while loop, run for at most [p] iterations; [inl] means still running. *)
Fixpoint lfsr_loop (p : positive) (fl : lfsr) : lfsr + lfsr :=
  match p with
  | xH => let fl' := lfsr_iter fl in if last_val fl' >? max_val fl' then inl fl' else inr fl'
  | xO p' => match lfsr_loop p' fl with inl fl' => lfsr_loop p' fl' | r => r end
  | xI p' =>
      let fl' := lfsr_iter fl in
      if last_val fl' >? max_val fl' then
        match lfsr_loop p' fl' with inl fl2 => lfsr_loop p' fl2 | r => r end
      else inr fl'
  end.

Definition bump (fl : lfsr) : lfsr :=
  mkLfsr (xormask fl) (last_val fl) (cached_bit fl) (max_val fl) (u64 (num_vals fl + 1))
         (cycle_length fl) (cached_cycle_length fl) (spin fl).

(** lib/lfsr.c:142-157 [lfsr_next].  The inner [None] is "return 1"; the outer [None] means that the
    loop did not end within 2^64 iterations. *)
Definition lfsr_next (fl : lfsr) : option (lfsr * option Z) :=
  let fl' := bump fl in
  if num_vals fl >? max_val fl then Some (fl', None)
  else match lfsr_loop (2 ^ 64)%positive fl' with
       | inl _ => None
       | inr fl2 => Some (fl2, Some (last_val fl2))
       end.

(** lib/lfsr.c:159-168 [lfsr_create_xormask]. *)
Definition lfsr_create_xormask (taps : list Z) : Z :=
  fold_left (fun m t => Z.lor m (Z.shiftl 1 (t - 1))) taps 0.

(** lib/lfsr.c:170-184 [find_lfsr]. *)
Fixpoint find_lfsr_from (k : nat) (i : Z) (size : Z) : option (list Z) :=
  match k with
  | O => None
  | S k' => if Z.shiftl 1 i >? size then znth lfsr_taps i else find_lfsr_from k' (i + 1) size
  end.
Definition find_lfsr (size : Z) : option (list Z) := find_lfsr_from 61 3 size.

(** lib/lfsr.c:219-224: the search for a cycle in [prepare_spin]. *)
Fixpoint spin_cycle (k : nat) (i x y sp : Z) : Z :=
  match k with
  | O => 0
  | S k' =>
      if u64 (y * i) mod (sp + 1) =? 0 then u64 (u64 (x * i) + u64 (y * i) / (sp + 1))
      else spin_cycle k' (i + 1) x y sp
  end.

(** lib/lfsr.c:205-235 [prepare_spin]; [None] is "return 1". *)
Definition prepare_spin (fl : lfsr) (sp : Z) : option lfsr :=
  let max := u64 (u64 (Z.shiftl (cached_bit fl) 1) - 1) in
  if sp >? 15 then None
  else
    let c := spin_cycle (Z.to_nat sp) 1 (max / (sp + 1)) (max mod (sp + 1)) sp in
    Some (mkLfsr (xormask fl) (last_val fl) (cached_bit fl) (max_val fl) (num_vals fl)
                 (u64 (c + 1)) c sp).

(** lib/lfsr.c:237-249 [lfsr_reset]; the boolean is "return 0". *)
Definition lfsr_reset (fl : lfsr) (seed : Z) : lfsr * bool :=
  let bitmask := u64 (u64 (Z.shiftl (cached_bit fl) 1) - 1) in
  let v := Z.land seed bitmask in
  (mkLfsr (xormask fl) v (cached_bit fl) (max_val fl) 0
          (cycle_length fl) (cached_cycle_length fl) (spin fl), negb (v =? bitmask)).

(** lib/lfsr.c:251-270 [lfsr_init] on a fresh structure; [None] is "return 1". *)
Definition lfsr_init (nums seed sp : Z) : option lfsr :=
  do taps <- find_lfsr nums;
  do t0 <- znth taps 0;
  do fl <- prepare_spin (mkLfsr (lfsr_create_xormask taps) 0 (Z.shiftl 1 (t0 - 1)) (u64 (nums - 1))
                                0 0 0 0) sp;
  let (fl', ok) := lfsr_reset fl seed in
  if (ok : bool) then Some fl' else None.
