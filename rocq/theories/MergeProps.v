(** C52: merging block traces. *)
From Coq Require Import ZArith List Lia Bool Sorted Permutation.
From Verif Require Import CBase MergeModel MergeSpec MergeProofs.
Import ListNotations.
Open Scope Z_scope.

(** The parameters: none given means the default for every file; otherwise one for each. *)
Theorem C52_params vals n def l : params vals n def = Some l -> length l = n /\
  (l = repeat def n \/ (l = count_vals vals /\ Forall (fun v => v <> 0) l)).
Proof.
  unfold params. assert (Z0 : forall v, Forall (fun x => x <> 0) (count_vals v)).
  { induction v as [|x v IH]; cbn; [constructor|]. destruct (Z.eqb_spec x 0); [constructor|constructor; assumption]. }
  specialize (Z0 vals). destruct (count_vals vals) as [|x v] eqn:E.
  - intros [= <-]. split; [apply repeat_length|now left].
  - destruct (Nat.eqb_spec (length (x :: v)) n) as [L|]; [|discriminate]. intros [= <-]. auto.
Qed.

(** Each trace replayed once: the merged trace has exactly the records to replay of every trace,
    those of one trace in their order and with scaled times; and it is in the order of time if the
    traces are. *)
Theorem C52_merge scalars iters files ss ns n len0 :
  params scalars (length files) 100 = Some ss -> params iters (length files) 1 = Some ns ->
  Forall (fun s => 0 < s < 2 ^ 31) ss -> Forall (fun i => i <= 1) ns ->
  Forall2 (fun s f => Exists (fun r => useful r = true) f /\ Forall (fun r => useful r = true -> fits s r) f) ss files ->
  (total (map (filter useful) files) <= n)%nat ->
  let parts := map (fun x => contribution (fst x) (snd x)) (combine ss files) in
  exists out, merge_logs n 0 len0 scalars iters files = Some out /\ interleave parts out /\ Permutation out (concat parts) /\
    (Forall in_time parts -> in_time out).
Proof.
  intros P1 P2 HS HN F HT parts. destruct (C52_params _ _ _ _ P1) as (L1 & _). destruct (C52_params _ _ _ _ P2) as (L2 & _).
  unfold merge_logs. rewrite P1, P2.
  assert (FP : forall (ss ns : list Z) (files : list (list rec)), length ss = length files -> length ns = length files -> Forall (fun s => 0 < s < 2 ^ 31) ss -> Forall (fun i => i <= 1) ns ->
    Forall2 (fun s f => Exists (fun r => useful r = true) f /\ Forall (fun r => useful r = true -> fits s r) f) ss files ->
    Forall (fun p => 0 < fst p < 2 ^ 31 /\ snd p <= 1) (combine ss ns) /\
    Forall2 (fun p f => Exists (fun r => useful r = true) f /\ Forall (fun r => useful r = true -> fits (fst p) r) f) (combine ss ns) files /\
    map (fun x => contribution (fst (fst x)) (snd x)) (combine (combine ss ns) files) = map (fun x => contribution (fst x) (snd x)) (combine ss files)).
  { clear. induction ss as [|s ss IH]; intros [|i ns] [|f files] L1 L2 HS HN F; cbn in L1, L2; try lia; [cbn; auto|].
    inversion HS; subst. inversion HN; subst. inversion F; subst. destruct (IH ns files ltac:(lia) ltac:(lia) H2 H4 H8) as (X1 & X2 & X3).
    cbn [combine map fst snd]. split; [constructor; [cbn; lia|exact X1]|]. split; [constructor; [exact H6|exact X2]|]. now rewrite X3. }
  destruct (FP ss ns files L1 L2 HS HN F) as (X1 & X2 & X3).
  destruct (setup_ok len0 files (combine ss ns) [] ltac:(rewrite combine_length; lia) X1 X2 ltac:(constructor)) as (cs & S1 & S2 & S3).
  unfold blank in S1. cbn [app] in S1. rewrite S1. rewrite X3 in S3. fold parts in S3.
  assert (TP : total parts = total (map (filter useful) files)).
  { unfold parts. clear - L1. revert files L1. induction ss as [|s ss IH]; intros [|f files] L; cbn in L; try lia; [reflexivity|].
    cbn [combine map fst snd]. rewrite !total_cons, (IH files) by lia. unfold contribution. now rewrite map_length. }
  destruct (merge_ok n cs S2 ltac:(rewrite S3, TP; exact HT)) as (out & M1 & M2 & M3). rewrite S3 in M2, M3.
  exists out. split; [exact M1|]. split; [exact M2|]. split; [now apply il_concat|exact M3].
Qed.

(** Traces in the order of time stay so when scaled. *)
Theorem C52_scaling s f : 0 < s -> in_time (filter useful f) -> in_time (contribution s f).
Proof.
  unfold in_time, contribution. intros S H. induction H as [|r l H IH F]; cbn [map]; constructor; [exact IH|].
  rewrite Forall_forall in *. intros y Y. apply in_map_iff in Y. destruct Y as (x & <- & X). specialize (F x X). unfold earlier in *. cbn [time].
  apply Z.div_le_mono; [lia|]. apply Z.mul_le_mono_nonneg_r; lia.
Qed.

(** ** Cases, and what does not hold *)

Definition q (tm bd : Z) : rec := Rec true tm 0 bd.
Definition skip (tm bd : Z) : rec := Rec false tm 0 bd.
Definition show (o : option (list rec)) : option (list (Z * Z)) := match o with Some l => Some (map (fun r => (time r, body r)) l) | None => None end.

Example ex_merge : show (merge_logs 9 0 0 [100; 200] [] [[q 10 1; skip 11 9; q 30 2; q 30 3]; [q 5 4; q 10 5; skip 12 9; q 20 6]])
  = Some [(10, 1); (10, 4); (20, 5); (30, 2); (30, 3); (40, 6)].
Proof. vm_compute. reflexivity. Qed.

Example ex_three : show (merge_logs 9 0 0 [] [] [[q 1 1]; [q 5 2]; [q 2 3; q 3 4]]) = Some [(1, 1); (2, 3); (3, 4); (5, 2)].
Proof. vm_compute. reflexivity. Qed.

Example ex_mismatch : merge_logs 9 0 0 [50; 100] [] [[q 1 1]; [q 5 2]; [q 2 3]] = None.
Proof. reflexivity. Qed.

(** Two rounds of a trace of two records: the last one appears once too often. *)
Theorem C52_rounds_refuted : show (merge_logs 9 0 0 [] [2] [[q 10 1; q 20 2]]) = Some [(10, 1); (20, 2); (20, 2); (30, 1); (40, 2)].
Proof. vm_compute. reflexivity. Qed.

(** ... and if the trace ends in a record that is not to be replayed, that one is written. *)
Theorem C52_skipped_refuted : exists out, merge_logs 9 0 0 [] [2] [[q 10 1; skip 20 9]] = Some out /\ map useful out = [true; false; true] /\
  show (Some out) = Some [(10, 1); (20, 9); (30, 1)].
Proof. eexists. split; [vm_compute; reflexivity|]. split; reflexivity. Qed.

(** ... and if that one has a payload, the trace is read from the middle of a record. *)
Theorem C52_payload_refuted : merge_logs 9 0 0 [] [2] [[q 10 1; Rec false 20 16 9]] = None.
Proof. vm_compute. reflexivity. Qed.

(** In a second round times are scaled twice: a trace from 10 to 20 at 200 percent should go on at
    60, and goes on at 100. *)
Theorem C52_twice_refuted : show (merge_logs 9 0 0 [200] [2] [[q 10 1; q 20 2]]) = Some [(20, 1); (40, 2); (40, 2); (100, 1); (120, 2)].
Proof. vm_compute. reflexivity. Qed.

(** A trace with nothing to replay gives its scale and the offset of a second round to the next. *)
Theorem C52_empty_refuted : show (merge_logs 9 0 0 [100; 200] [] [[skip 50 9]; [q 10 1]]) = Some [(60, 1)] /\
  contribution 200 [q 10 1] = [q 20 1].
Proof. vm_compute. split; reflexivity. Qed.

(** The cursors are not cleared: the times depend on what memory held. *)
Theorem C52_memory_refuted : show (merge_logs 9 1 7 [] [] [[q 10 1]]) = Some [(17, 1)].
Proof. vm_compute. reflexivity. Qed.

Print Assumptions C52_params.
Print Assumptions C52_merge.
Print Assumptions C52_scaling.
