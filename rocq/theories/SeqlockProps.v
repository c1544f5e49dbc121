(** C37: a reader that accepts its snapshot of a sequence lock has read one completed value. *)
From Coq Require Import ZArith List Bool Lia.
From Verif Require Import CBase SeqlockModel SeqlockSpec SeqlockProofs.
Import ListNotations.
Open Scope Z_scope.

(** For every number of words, every history of the writer, every other reader and every interleaving: when reader [k] entered its loop
    in the step from [a] to [b], stayed in it up to [s] and leaves it with [ws] in the step to [t], its words are the value of the latest completed update, and no
    update completed in between. The sequence number has 32 bits, so fewer than 2^31 updates may finish during one round. *)
Theorem C37_snapshot_is_the_latest_completed_value v0 a b s t k ws :
  steps true (init v0) a -> step true a b -> enters a b k -> within true k b s -> step true s t -> accepts s t k ws ->
  Z.of_nat (length (completed s)) - Z.of_nat (length (completed a)) < 2 ^ 31 ->
  ws = latest s /\ In ws (completed s) /\ completed s = completed a.
Proof.
  intros Ha H E W S A B. destruct (accepted v0 a b s t k ws Ha H E W S A B) as (X & Y). split; [auto|]. split; [|auto].
  pose proof (inv_steps _ _ (inv_init v0) Ha) as (C & _). rewrite Y in *. subst ws. unfold latest. rewrite Y. destruct (completed a); [congruence|left; reflexivity].
Qed.

(** Completed updates are never forgotten, so a later snapshot is never older than an earlier one. *)
Theorem C37_snapshots_never_go_back o s s' : steps o s s' -> exists newer, completed s' = newer ++ completed s.
Proof.
  intros H. induction H as [|a b c H (n & IH) K]; [exists []; reflexivity|]. destruct K as [s v W L|s p x q v W O|s v W|s j W M|s j W M|s j sq w x W N|s j sq w W L M|s j sq w W L M|s j w W]; cbn [completed]; try (exists n; assumption).
  - exists n. destruct x; assumption.
  - exists (v :: n). rewrite IH. reflexivity.
Qed.

(** Outside an update memory holds the latest completed value and the sequence number is twice their count. *)
Theorem C37_memory_between_updates v0 s : steps true (init v0) s -> m_w s = WIdle -> m_data s = latest s /\ m_seq s = u32 (2 * begun s).
Proof.
  intros H W. pose proof (inv_steps _ _ (inv_init v0) H) as (C & Q & D & B). rewrite W in B. assert (O : odd_out s = false) by (unfold odd_out; rewrite W; reflexivity).
  split; [auto|]. rewrite Q. unfold gen. rewrite O, B, Z.add_0_r. reflexivity.
Qed.

(** While the first word of an update may be visible the sequence number is odd, and no reader can start. *)
Theorem C37_no_reader_starts_in_an_update v0 s p v k s' : steps true (init v0) s -> m_w s = WBusy p v -> m_data s <> latest s -> step true s s' -> ~ enters s s' k.
Proof.
  intros H W D K E. pose proof (inv_steps _ _ (inv_init v0) H) as I. destruct (enter_rinv s s' k I K E) as (R & G & _). destruct R as (sq & w & _ & _ & _ & P).
  destruct (P G) as (O & _). destruct (inv_step s s' I K) as (_ & _ & X & _). destruct (X G) as (O' & _). destruct I as (_ & _ & I & _). apply D, I. congruence.
Qed.

(** The bound on the number of updates is needed: when 2^31 of them finish between two loads the sequence number is the same again and
    the reader accepts words of two different values. *)
Definition v00 := [0; 0].
Definition v11 := [1; 1].
Definition w0 := mkSys 0 v00 WIdle (set_r (fun _ => RIdle) 0 (RReading 0 [])) [v00] 0.
Definition w1 := mkSys 0 v00 WIdle (set_r (set_r (fun _ => RIdle) 0 (RReading 0 [])) 0 (RReading 0 [0])) [v00] 0.
Lemma w0_start o : step o (init v00) w0.
Proof. exact (RBegin o (init v00) 0%nat eq_refl eq_refl). Qed.
Lemma w0_w1 o : step o w0 w1.
Proof. exact (RWord o w0 0%nat 0 [] 0 eq_refl eq_refl). Qed.
Theorem C37_wrapped_sequence_refuted : exists a b s t ws, steps true (init v00) a /\ step true a b /\ enters a b 0 /\ within true 0 b s /\ step true s t /\ accepts s t 0 ws /\
  (forall x, In x (completed s) -> x = v00 \/ x = v11) /\ ws = [0; 1] /\ Z.of_nat (length (completed s)) - Z.of_nat (length (completed a)) = 2 ^ 31.
Proof.
  destruct (many_writes true 0%nat 0 [0] v11 (Z.to_nat (2 ^ 31)) eq_refl w1 eq_refl eq_refl eq_refl eq_refl) as (s & H1 & H2 & H3 & H4 & H5 & H6 & H7).
  rewrite Z2Nat.id in H2 by lia. change (u32 (m_seq w1 + 2 * 2 ^ 31)) with 0 in H2.
  assert (D : m_data s = v11). { rewrite H5. destruct (Nat.eqb (Z.to_nat (2 ^ 31)) 0) eqn:Z0; [|reflexivity]. apply Nat.eqb_eq in Z0. exfalso. assert (0 < 2 ^ 31) by lia. lia. }
  assert (R : m_r s 0%nat = RReading 0 [0]) by (rewrite H4; reflexivity).
  pose (s2 := mkSys (m_seq s) (m_data s) (m_w s) (set_r (m_r s) 0 (RReading 0 ([0] ++ [1]))) (completed s) (begun s)).
  pose (t := mkSys (m_seq s) (m_data s) (m_w s) (set_r (m_r s2) 0 (RDone [0; 1])) (completed s) (begun s)).
  exists (init v00), w0, s2, t, [0; 1]. split; [apply S0|]. split; [apply w0_start|]. split; [split; [reflexivity|exists 0; reflexivity]|]. split.
  - assert (X : within true 0 w0 w1) by (refine (InN true 0%nat w0 w0 w1 (In0 true 0%nat w0) (w0_w1 true) _); exists 0, [0]; reflexivity).
    refine (InN true 0%nat w0 s s2 (within_trans true 0%nat w0 w1 s X H1) _ _).
    + apply (RWord true s 0%nat 0 [0] 1 R). rewrite D. reflexivity.
    + exists 0, [0; 1]. reflexivity.
  - split; [apply (RAccept true s2 0%nat 0 [0; 1] eq_refl); [cbn [m_data s2 length]; rewrite D; reflexivity|exact H2]|]. split; [split; [exists 0, [0; 1]|]; reflexivity|]. split.
    + intros x X. cbn [completed s2] in X. rewrite Forall_forall in H7. destruct (H7 x X) as [Y|Y]; [auto|]. destruct Y as [Y|[]]. left. symmetry. exact Y.
    + split; [reflexivity|]. cbn [completed s2 init]. rewrite H6. cbn [completed w1 length]. rewrite Nat2Z.inj_add, Z2Nat.id by lia. lia.
Qed.

(** The order of the writer's stores is needed too: write_seqlock_begin stores the odd number with a plain store and no barrier behind
    it, so where stores may overtake each other a word of the new value can be visible under the old even number. *)
Definition n1 := mkSys 0 v00 (WBusy [SSeq 1; SWord 0 1; SWord 1 1] v11) (fun _ => RIdle) [v00] 1.
Definition n2 := mkSys 0 [1; 0] (WBusy [SSeq 1; SWord 1 1] v11) (fun _ => RIdle) [v00] 1.
Definition rd (x : rstate) := mkSys 0 [1; 0] (WBusy [SSeq 1; SWord 1 1] v11) (set_r (fun _ => RIdle) 0 x) [v00] 1.
Theorem C37_unordered_stores_refuted : exists a b s t ws, steps false (init v00) a /\ step false a b /\ enters a b 0 /\ within false 0 b s /\ step false s t /\ accepts s t 0 ws /\
  completed s = [v00] /\ begun s = 1 /\ ws = [1; 0].
Proof.
  pose (b := rd (RReading 0 [])).
  pose (c := mkSys 0 [1; 0] (m_w b) (set_r (m_r b) 0 (RReading 0 [1])) [v00] 1).
  pose (d := mkSys 0 [1; 0] (m_w c) (set_r (m_r c) 0 (RReading 0 [1; 0])) [v00] 1).
  pose (t := mkSys 0 [1; 0] (m_w d) (set_r (m_r d) 0 (RDone [1; 0])) [v00] 1).
  exists n2, b, d, t, [1; 0]. split.
  - apply (SN false (init v00) n1 n2).
    + apply (SN false (init v00) (init v00) n1); [apply S0|]. exact (WBegin false (init v00) v11 eq_refl eq_refl).
    + exact (WStore false n1 [SSeq 1] (SWord 0 1) [SWord 1 1] v11 eq_refl (fun H => match Bool.diff_false_true H with end)).
  - split; [exact (RBegin false n2 0%nat eq_refl eq_refl)|]. split; [split; [reflexivity|exists 0; reflexivity]|]. split.
    + apply (InN false 0%nat b c d); [|exact (RWord false c 0%nat 0 [1] 0 eq_refl eq_refl)|exists 0, [1; 0]; reflexivity].
      apply (InN false 0%nat b b c); [apply In0|exact (RWord false b 0%nat 0 [] 1 eq_refl eq_refl)|exists 0, [1]; reflexivity].
    + split; [exact (RAccept false d 0%nat 0 [1; 0] eq_refl eq_refl eq_refl)|]. split; [split; [exists 0, [1; 0]|]; reflexivity|]. auto.
Qed.

(** A case that meets the hypotheses: one update finishes, then reader 3 reads both words and accepts. *)
Definition e1 := mkSys 2 [7; 8] WIdle (fun _ => RIdle) [[7; 8]; v00] 1.
Example C37_case : exists a b s t, steps true (init v00) a /\ step true a b /\ enters a b 3 /\ within true 3 b s /\ step true s t /\ accepts s t 3 [7; 8] /\ completed s = [[7; 8]; v00] /\ completed a = completed s.
Proof.
  pose (i := init v00).
  pose (p1 := mkSys 0 v00 (WBusy [SSeq 1; SWord 0 7; SWord 1 8] [7; 8]) (fun _ => RIdle) [v00] 1).
  pose (p2 := mkSys 1 v00 (WBusy [SWord 0 7; SWord 1 8] [7; 8]) (fun _ => RIdle) [v00] 1).
  pose (p3 := mkSys 1 [7; 0] (WBusy [SWord 1 8] [7; 8]) (fun _ => RIdle) [v00] 1).
  pose (p4 := mkSys 1 [7; 8] (WBusy [] [7; 8]) (fun _ => RIdle) [v00] 1).
  pose (b := mkSys 2 [7; 8] WIdle (set_r (fun _ => RIdle) 3 (RReading 2 [])) [[7; 8]; v00] 1).
  pose (c := mkSys 2 [7; 8] WIdle (set_r (m_r b) 3 (RReading 2 [7])) [[7; 8]; v00] 1).
  pose (d := mkSys 2 [7; 8] WIdle (set_r (m_r c) 3 (RReading 2 [7; 8])) [[7; 8]; v00] 1).
  pose (t := mkSys 2 [7; 8] WIdle (set_r (m_r d) 3 (RDone [7; 8])) [[7; 8]; v00] 1).
  exists e1, b, d, t. split.
  - apply (SN true i p4 e1); [|exact (WEnd true p4 [7; 8] eq_refl)].
    apply (SN true i p3 p4); [|exact (WStore true p3 [] (SWord 1 8) [] [7; 8] eq_refl (fun _ => eq_refl))].
    apply (SN true i p2 p3); [|exact (WStore true p2 [] (SWord 0 7) [SWord 1 8] [7; 8] eq_refl (fun _ => eq_refl))].
    apply (SN true i p1 p2); [|exact (WStore true p1 [] (SSeq 1) [SWord 0 7; SWord 1 8] [7; 8] eq_refl (fun _ => eq_refl))].
    apply (SN true i i p1); [apply S0|exact (WBegin true i [7; 8] eq_refl eq_refl)].
  - split; [exact (RBegin true e1 3%nat eq_refl eq_refl)|]. split; [split; [reflexivity|exists 2; reflexivity]|]. split.
    + apply (InN true 3%nat b c d); [|exact (RWord true c 3%nat 2 [7] 8 eq_refl eq_refl)|exists 2, [7; 8]; reflexivity].
      apply (InN true 3%nat b b c); [apply In0|exact (RWord true b 3%nat 2 [] 7 eq_refl eq_refl)|exists 2, [7]; reflexivity].
    + split; [exact (RAccept true d 3%nat 2 [7; 8] eq_refl eq_refl eq_refl)|]. split; [split; [exists 2, [7; 8]|]; reflexivity|]. auto.
Qed.
Print Assumptions C37_snapshot_is_the_latest_completed_value.
Print Assumptions C37_snapshots_never_go_back.
Print Assumptions C37_memory_between_updates.
Print Assumptions C37_no_reader_starts_in_an_update.
Print Assumptions C37_wrapped_sequence_refuted.
Print Assumptions C37_unordered_stores_refuted.
