(** What a zoned block device accepts, independent of fio's bookkeeping. *)
From Coq Require Import ZArith List Lia Bool Arith.
From Verif Require Import ZbdModel.
Import ListNotations.
Open Scope Z_scope.

(** The device: every zone has a write pointer and is open or not. *)
Record dzone := MkD { d_wp : Z; d_open : bool }.
Definition dev := nat -> dzone.

Definition geo_start (g : cfg) (i : nat) : Z := Z.of_nat i * zsz g.

(** The number of open zones. *)
Definition open_count (g : cfg) (d : dev) : nat :=
  length (filter (fun i => d_open (d i)) (seq 0 (nr g))).

(** The limit; 0 is no limit. *)
Definition limit_ok (g : cfg) (d : dev) : Prop :=
  maxw g = O \/ (open_count g d <= maxw g)%nat.

Definition dput (d d' : dev) (i : nat) (z : dzone) : Prop :=
  d' i = z /\ forall j, j <> i -> d' j = d j.

(** One command.  A write to a sequential zone starts at the write pointer and
    ends within the capacity; it opens the zone unless it fills it.  A write
    elsewhere touches no sequential zone.  No command leaves more zones open
    than the limit allows. *)
Inductive dstep (g : cfg) : dev -> cmd -> dev -> Prop :=
| DWrite : forall d d' i off len,
    (i < nr g)%nat -> gseq g i = true ->
    geo_start g i <= off < geo_start g (S i) ->
    off = d_wp (d i) -> 0 < len -> off + len <= geo_start g i + gcap g i ->
    dput d d' i (MkD (off + len) (off + len <? geo_start g i + gcap g i)) ->
    limit_ok g d' -> dstep g d (CWrite off len) d'
| DConv : forall d d' off len,
    (forall i, (i < nr g)%nat -> gseq g i = true ->
       off + len <= geo_start g i \/ geo_start g (S i) <= off) ->
    (forall i, d' i = d i) -> limit_ok g d' -> dstep g d (CWrite off len) d'
| DReset : forall d d' i,
    (i < nr g)%nat -> gseq g i = true ->
    dput d d' i (MkD (geo_start g i) false) -> limit_ok g d' -> dstep g d (CReset i) d'
| DFinish : forall d d' i,
    (i < nr g)%nat -> gseq g i = true ->
    dput d d' i (MkD (geo_start g (S i)) false) -> limit_ok g d' -> dstep g d (CFinish i) d'.

(** The commands in [l], latest first, take the device from [d] to [d']. *)
Inductive dexec (g : cfg) : dev -> list cmd -> dev -> Prop :=
| DNil : forall d, dexec g d [] d
| DCons : forall d d1 d2 x l, dexec g d l d1 -> dstep g d1 x d2 -> dexec g d (x :: l) d2.

(** Options and geometry fio accepts: see zbd.c:740-757 (range), 1062-1067
    (limit), 1341-1344 (no limit per job without a limit), 95-104 (block size a
    multiple of 512). *)
Record cfg_ok (c : cfg) : Prop := MkCfgOk {
  ok_zsz : 0 < zsz c;
  ok_range : (zmin c < zmax c <= nr c)%nat;
  ok_cap : forall i, (i < nr c)%nat -> 0 < gcap c i <= zsz c;
  ok_seq : gseq c (nr c) = false;
  ok_minbs : 0 < minbs c;
  ok_rbs : 0 < rbs c;
  ok_512 : wzr c = false -> minbs c mod 512 = 0;
  ok_maxw : (maxw c <= 4096)%nat;
  ok_jmax : 0 <= jmax c < 2 ^ 32;
  ok_jmaxw : 0 < jmax c -> (0 < maxw c)%nat }.

(** A state in which nothing is in flight and fio's picture of the device is
    right: write pointers agree, open zones are in the array of write zones. *)
Record start_ok (c : cfg) (s : st) (d : dev) : Prop := MkStartOk {
  so_wp : forall i, (i < nr c)%nat -> gseq c i = true ->
            wp s i = d_wp (d i) /\ geo_start c i <= wp s i <= geo_start c (S i);
  so_arr : NoDup (arr s) /\ (forall i, wr s i = true <-> In i (arr s));
  so_in : forall i, In i (arr s) -> (i < nr c)%nat /\ gseq c i = true /\ goff c i = false;
  so_num : (length (arr s) <= maxw c)%nat;
  so_job : jn s (job c) = Z.of_nat (length (arr s));
  so_open : maxw c <> O -> forall i, (i < nr c)%nat -> d_open (d i) = true -> In i (arr s);
  so_closed : forall i, (i < nr c)%nat -> gseq c i = true ->
            d_open (d i) = true -> geo_start c i < d_wp (d i) < geo_start c i + gcap c i;
  so_idle : infl s = [] /\ (forall i, hold s i = O) /\ tr s = [] }.
