(** Properties C01, C02, C03: the random map is a set of blocks. *)
From Coq Require Import ZArith List Lia Bool.
From Verif Require Import CBase AxmapModel AxmapSpec AxmapDriver AxmapProofs.
Import ListNotations.
Open Scope Z_scope.

(** C01.  After any history of marks, ranged marks and resets that stay inside a map of [n] blocks,
    no call goes out of bounds and a membership query on any block answers exactly whether that block
    is in the set described by the history. *)
Theorem C01_membership : forall n ops b,
  0 < n <= 2 ^ 62 -> Forall (in_map n) ops -> 0 <= b < n ->
  exists ax, calls (axmap_new n) ops = Some (ax, snd (spec_run empty_set ops)) /\
    axmap_isset ax b = Some (fst (spec_run empty_set ops) b).
Proof. exact membership_ok. Qed.
Print Assumptions C01_membership.

(** C02.  After any such history, the next-free query from block [b] returns a block that is inside
    the map, is not marked, and has the least cyclic distance from [b + 1] among all unmarked blocks;
    it returns the all-ones sentinel exactly when every block is marked. *)
Theorem C02_next_free : forall n ops b,
  0 < n <= 2 ^ 62 -> Forall (in_map n) ops -> 0 <= b < n ->
  let s := fst (spec_run empty_set ops) in
  exists ax r, calls (axmap_new n) ops = Some (ax, snd (spec_run empty_set ops)) /\
    axmap_next_free ax b = Some r /\
    ((r = 2 ^ 64 - 1 /\ forall x, 0 <= x < n -> s x = true) \/
     (0 <= r < n /\ s r = false /\
      forall x, 0 <= x < n -> s x = false -> cyc_dist n (b + 1) r <= cyc_dist n (b + 1) x)).
Proof. exact next_free_ok. Qed.
Print Assumptions C02_next_free.

(** C03.  A ranged mark of [k] blocks at [b], after any history, reports the length [m] of the longest
    unmarked prefix of the run, marks exactly those [m] blocks, and touches no other block. *)
Theorem C03_mark_run : forall n ops b k q,
  0 < n <= 2 ^ 62 -> Forall (in_map n) ops ->
  0 <= b < n -> 0 <= k < 2 ^ 32 -> b + k <= n -> 0 <= q < n ->
  let s := fst (spec_run empty_set ops) in
  exists ax ax' m,
    calls (axmap_new n) ops = Some (ax, snd (spec_run empty_set ops)) /\
    axmap_set_nr ax b k = Some (ax', m) /\
    0 <= m <= k /\
    (forall x, b <= x < b + m -> s x = false) /\
    (m < k -> s (b + m) = true) /\
    axmap_isset ax' q = Some (((b <=? q) && (q <? b + m)) || s q).
Proof.
  intros n ops b k q Hn HF Hb Hk Hbk Hq s.
  destruct (history_ok n ops ltac:(lia) HF) as (ax & E & W & N & A).
  destruct (axmap_set_nr_ok ax b k W) as (ax' & S1 & S2 & S3 & S4); try lia.
  set (m := Z.of_nat (free_prefix (abs ax) b (Z.to_nat k))) in *.
  exists ax, ax', m. split; [auto|]. split; [auto|].
  assert (Hm : 0 <= m <= k).
  { unfold m. pose proof (free_prefix_le (abs ax) b (Z.to_nat k)). lia. }
  split; [auto|].
  assert (P : forall k b, (forall x, b <= x < b + Z.of_nat (free_prefix (abs ax) b k) -> abs ax x = false) /\
      (Z.of_nat (free_prefix (abs ax) b k) < Z.of_nat k ->
       abs ax (b + Z.of_nat (free_prefix (abs ax) b k)) = true)).
  { clear. induction k; intros b; cbn [free_prefix]; [split; intros; lia|].
    destruct (abs ax b) eqn:Eb; [split; intros; [lia|rewrite Z.add_0_r; auto]|].
    destruct (IHk (b + 1)) as [P1 P2]. split; intros.
    - destruct (Z.eq_dec x b) as [->|]; auto. apply P1. lia.
    - rewrite Nat2Z.inj_succ. replace (b + Z.succ _) with (b + 1 + Z.of_nat (free_prefix (abs ax) (b + 1) k)) by lia.
      apply P2. lia. }
  destruct (P (Z.to_nat k) b) as [P1 P2]. fold m in P1, P2.
  split; [intros x Hx; unfold s; rewrite <- A; auto|].
  split; [intros; unfold s; rewrite <- A; apply P2; lia|].
  rewrite axmap_isset_ok by (auto; lia). rewrite S4. unfold add_range, s. rewrite A. auto.
Qed.
Print Assumptions C03_mark_run.

(** The hypotheses are met by a two-level map with a history that crosses words and has overlaps. *)
Example axmap_nonvacuous :
  let ops := [MarkRun 60 10; Mark 0; MarkRun 0 5; MarkRun 1 80; Reset; MarkRun 0 129] in
  Forall (in_map 130) ops /\
  snd (spec_run empty_set ops) = [Some 10; None; Some 0; Some 59; None; Some 129] /\
  match calls (axmap_new 130) ops with
  | Some (ax, _) => axmap_next_free ax 3 = Some 129
  | None => False
  end.
Proof.
  split; [|split].
  - repeat apply Forall_cons; try apply Forall_nil; unfold in_map; lia.
  - vm_compute. reflexivity.
  - vm_compute. reflexivity.
Qed.

(** Finding.  The bounds of C01 are tight: asking for the block just past the end of a map whose size
    is a multiple of 64 passes the range check and reads outside the map. *)
Theorem C01_isset_at_end_refuted :
  exists n, 0 < n <= 2 ^ 62 /\ axmap_isset (axmap_new n) n = None.
Proof. exists 64. split; [lia|]. vm_compute. reflexivity. Qed.

(** Finding.  A run that sticks out of the map is not clipped: the clamped length is computed and then
    not used, and the call reads or writes outside the map. *)
Theorem C03_overhanging_run_refuted :
  exists n b k, 0 < n <= 2 ^ 62 /\ 0 <= b < n /\ 0 <= k < 2 ^ 32 /\
    axmap_set_nr (axmap_new n) b k = None.
Proof. exists 64, 63, 2. split; [lia|]. split; [lia|]. split; [lia|]. vm_compute. reflexivity. Qed.

(** Same, when the end of the map is inside a word: the map silently reports more blocks than exist. *)
Theorem C03_overhanging_run_count_refuted :
  exists n b k m, 0 < n <= 2 ^ 62 /\ 0 <= b < n /\ 0 <= k < 2 ^ 32 /\
    option_map snd (axmap_set_nr (axmap_new n) b k) = Some m /\ b + m > n.
Proof.
  exists 10, 8, 5, 5. split; [lia|]. split; [lia|]. split; [lia|].
  split; [vm_compute; reflexivity|]. lia.
Qed.
