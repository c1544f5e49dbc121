(** C44: every I/O unit is in one place, and every I/O is submitted, resumed and
    completed as asked. *)
From Coq Require Import ZArith List Lia Bool Arith Permutation.
From Verif Require Import CBase LifeModel LifeSpec LifeProofs.
Import ListNotations.
Open Scope Z_scope.

Definition hand (s : st) : list nat := match held s with Some i => [i] | None => [] end.

(** Each io_u is exactly once in the free list, the requeue list, the engine or
    the job's hand, and its flags say so. *)
Theorem C44_places : forall c s, cfg_ok c -> reach c any s ->
  Permutation (fr s ++ rq s ++ eng s ++ hand s) (seq 0 (depth c)) /\
  (forall i, In i (fr s ++ rq s) -> ff s i = true /\ fl s i = false) /\
  (forall i, In i (eng s) -> ff s i = false /\ fl s i = true) /\
  (forall i, In i (hand s) -> ff s i = false /\ fl s i = false).
Proof.
  intros c s (D & _) R. destruct (reach_top c D any s R) as (f & I & H).
  split; [ exact (i_perm _ _ _ _ I) | ]. split; [ | split ].
  - intros i X. split; [ apply (i_ff _ _ _ _ I i X) | apply (i_nl _ _ _ _ I i X) ].
  - intros i X. split; [ apply (i_nf _ _ _ _ I); rewrite in_app_iff; auto | apply (i_fl _ _ _ _ I i X) ].
  - intros i X. unfold hand in X. destruct (held s) as [ j | ] eqn:E; [ | destruct X ].
    destruct X as [ <- | [] ]. split; [ | apply (H j eq_refl) ].
    apply (i_nf _ _ _ _ I). rewrite in_app_iff. cbn. auto.
Qed.

(** The depth counter is right and never exceeds [iodepth]. *)
Theorem C44_depth : forall c s, cfg_ok c -> reach c any s ->
  cd s = Z.of_nat (length (eng s) + length (hand s)) /\ 0 <= cd s <= Z.of_nat (depth c).
Proof.
  intros c s (D & _) R. pose proof (top_facts c s (reach_top c D any s R)) as (F1 & _ & _ & _ & F5).
  change (hl (held s)) with (hand s) in *. split; [ exact F1 | ]. lia.
Qed.

(** No assertion fails and no null pointer is used; only a quiesce waits. *)
Theorem C44_no_abort : forall c s p, cfg_ok c -> reach c any s -> op_ok c s p ->
  step c p s <> Bug /\ (step c p s = More -> exists bs, p = OQuiesce bs).
Proof.
  intros c s p (D & _) R OK. pose proof (step_top c D s p (reach_top c D any s R) OK) as S.
  destruct (step c p s); [ | destruct S | ]; (split; [ discriminate | ]); [ discriminate | auto ].
Qed.

(** The I/Os: started, submitted one at a time, resumed where they stopped, and
    ended once.  The slots in the engine have a submission out, those in the
    requeue list and in hand have one to make, the free ones are idle. *)
Theorem C44_life : forall c s, cfg_ok c -> reach c any s ->
  exists f, life (fsize c) (tr s) f /\
    (forall i, In i (fr s) -> f i = Idle) /\
    (forall i, In i (eng s) -> exists o n d, f i = Active o n d true /\ off s i = o + d /\ xb s i = d /\ xl s i = n - d /\ 0 < xl s i) /\
    (forall i, In i (rq s ++ hand s) -> exists o n d, f i = Active o n d false /\ off s i = o + d /\ xb s i = d /\ xl s i = n - d /\ 0 < xl s i).
Proof.
  intros c s (D & _) R. destruct (reach_top c D any s R) as (f & I & H). exists f.
  split; [ exact (i_life _ _ _ _ I) | ]. split; [ exact (i_idle _ _ _ _ I) | ]. split.
  - intros i X. destruct (i_eng _ _ _ _ I i X) as (o & n & d & A1 & A2 & A3 & A4 & A5). exists o, n, d.
    repeat (split; [ assumption | ]). lia.
  - intros i X. assert (Q : dat f s i false).
    { rewrite in_app_iff in X. destruct X as [X|X]; [ exact (i_rq _ _ _ _ I i X) | ].
      unfold hand in X. destruct (held s) as [ j | ] eqn:E; [ | destruct X ]. destruct X as [ <- | [] ]. apply (H j eq_refl). }
    destruct Q as (o & n & d & A1 & A2 & A3 & A4 & A5). exists o, n, d. repeat (split; [ assumption | ]). lia.
Qed.

(** So a successful end means that all bytes were moved or that the end of the
    file was reached, read off the trace alone: the bytes moved for the I/O in
    slot [i] since it was started. *)
Fixpoint since (i : nat) (l : list ev) : option (Z * Z * Z) :=
  match l with
  | [] => None
  | TGet j o n :: l' => if Nat.eqb j i then Some (o, n, 0) else since i l'
  | TMove j _ _ k :: l' => match since i l' with
      Some (o, n, d) => Some (o, n, if Nat.eqb j i then d + k else d) | None => None end
  | _ :: l' => since i l'
  end.

Lemma since_life : forall size l f, life size l f -> forall i o n d b, f i = Active o n d b -> since i l = Some (o, n, d).
Proof.
  intros size l f L. induction L as [ | l f g j o' n' L IH P N G1 G2 | l f g j o' n' d' L IH P N G1 G2
    | l f g j o' n' d' k L IH P K1 K2 G1 G2 | l f g j o' n' d' b' L IH P Q G1 G2 | l f g j o' n' d' b' L IH P G1 G2 ];
    intros i o n d b A; cbn [since].
  - discriminate.
  - destruct (Nat.eqb j i) eqn:E.
    + apply Nat.eqb_eq in E. subst j. rewrite G1 in A. injection A as <- <- <- <-. reflexivity.
    + apply Nat.eqb_neq in E. rewrite G2 in A by congruence. eauto.
  - destruct (Nat.eq_dec i j) as [ -> | E ].
    + rewrite G1 in A. injection A as <- <- <- <-. eauto.
    + rewrite G2 in A by exact E. eauto.
  - destruct (Nat.eqb j i) eqn:E.
    + apply Nat.eqb_eq in E. subst j. rewrite G1 in A. injection A as <- <- <- <-. rewrite (IH _ _ _ _ _ P). reflexivity.
    + apply Nat.eqb_neq in E. rewrite G2 in A by congruence. rewrite (IH _ _ _ _ _ A). reflexivity.
  - destruct (Nat.eq_dec i j) as [ -> | E ]; [ congruence | ]. rewrite G2 in A by exact E. eauto.
  - destruct (Nat.eq_dec i j) as [ -> | E ]; [ congruence | ]. rewrite G2 in A by exact E. eauto.
Qed.

Lemma life_tail : forall size e l f, life size (e :: l) f -> exists g, life size l g.
Proof. intros size e l f L. inversion L; subst; eauto. Qed.

Theorem C44_complete : forall c s, cfg_ok c -> reach c any s -> forall l1 i l2, tr s = l1 ++ TFin i :: l2 ->
  exists o n d, since i l2 = Some (o, n, d) /\ 0 < n /\ (d = n \/ fsize c <= o + d).
Proof.
  intros c s K R l1 i l2 E. destruct (C44_life c s K R) as (f & L & _). rewrite E in L. clear E.
  revert f L. induction l1 as [ | e l1 IH ]; intros f L; cbn [app] in L.
  - inversion L as [ | | | | l f0 g j o n d b LL P Q G1 G2 | ]; subst. exists o, n, d. split; [ exact (since_life _ _ _ LL _ _ _ _ _ P) | ].
    split; [ | exact Q ]. clear - LL P.
    assert (X : forall size l f, life size l f -> forall i o n d b, f i = Active o n d b -> 0 < n).
    { clear. intros size l f L. induction L as [ | l f g j o' n' L IH P N G1 G2 | l f g j o' n' d' L IH P N G1 G2
        | l f g j o' n' d' k L IH P K1 K2 G1 G2 | l f g j o' n' d' b' L IH P Q G1 G2 | l f g j o' n' d' b' L IH P G1 G2 ];
        intros i o n d b A; try discriminate; (destruct (Nat.eq_dec i j) as [ -> | E ]; [ rewrite G1 in A | rewrite G2 in A by exact E; eauto ]);
        try discriminate; injection A as <- <- <- <-; eauto. }
    exact (X _ _ _ LL _ _ _ _ _ P).
  - destruct (life_tail _ _ _ _ L) as (g & L'). exact (IH g L').
Qed.

(** [io_u_in_flight] and [io_u_queued] together count what the engine holds. *)
Theorem C44_in_flight : forall c s, cfg_ok c -> reach c any s ->
  u32 (inf s + qd s) = Z.of_nat (length (eng s)).
Proof. intros c s (D & _) R. apply (top_facts c s (reach_top c D any s R)). Qed.

(** What was requeued goes first, in order and unchanged; a new I/O starts only
    below the latency target's depth. *)
Theorem C44_requeue_first : forall c s i r lim req prep s', cfg_ok c -> reach c any s -> rq s = i :: r ->
  op_ok c s (OGet lim req prep) -> step c (OGet lim req prep) s = Ret tt s' ->
  held s' = None \/ (held s' = Some i /\ off s' i = off s i /\ xb s' i = xb s i /\ xl s' i = xl s i).
Proof.
  intros c s i r lim req prep s' (D & _) R Q (H & RQ) E. destruct (reach_top c D any s R) as (f & I & _).
  rewrite H in I. cbn [step] in E. unfold bnd, modi in E.
  destruct (wp_inv _ _ _ _ (get_spec c D s f lim req prep I RQ)) as (h & s1 & X & g & H' & EE & P).
  rewrite X in E. injection E as <-. rewrite Q in P. sim.
  destruct h as [ j | ]; [ | auto ]. destruct P as (_ & _ & _ & _ & -> & P2 & P3 & P4). right. auto.
Qed.

Theorem C44_latency_depth : forall c s q req prep s' i, cfg_ok c -> reach c any s -> rq s = [] ->
  op_ok c s (OGet (Some q) req prep) -> step c (OGet (Some q) req prep) s = Ret tt s' -> held s' = Some i -> cd s < q.
Proof.
  intros c s q req prep s' i (D & _) R Q (H & RQ) E HI. destruct (reach_top c D any s R) as (f & I & _).
  rewrite H in I. cbn [step] in E. unfold bnd, modi in E.
  destruct (wp_inv _ _ _ _ (get_spec c D s f (Some q) req prep I RQ)) as (h & s1 & X & g & H' & EE & P).
  rewrite X in E. injection E as <-. rewrite Q in P. sim. subst h. destruct P as (_ & _ & _ & _ & P). exact P.
Qed.

(** A quiesce returns, with nothing in flight, when the engine has delivered at
    most as many batches as it holds io_us ... *)
Theorem C44_quiesce : forall c s bs, cfg_ok c -> reach c any s -> op_ok c s (OQuiesce bs) ->
  (cd s <> 0 \/ qd s = 0) -> (length (eng s) <= length bs)%nat ->
  exists s', step c (OQuiesce bs) s = Ret tt s' /\ eng s' = [] /\ inf s' = 0 /\ qd s' = 0.
Proof.
  intros c s bs (D & _) R OK C L.
  destruct (quiesce_ends c D s bs (reach_top c D any s R) OK C L) as (s' & A & B & E & F & _). eauto.
Qed.

(** The counters: I/Os ended well, bytes moved, bytes asked for, submissions. *)
Theorem C44_blocks : forall c s, cfg_ok c -> reach c any s -> blocks s = sum fin (tr s).
Proof. intros c s (D & _) R. exact (reach_J1 c any s D R). Qed.

Theorem C44_bytes : forall c s, cfg_ok c -> reach c no_short s -> bytes s = sum moved (tr s).
Proof. intros c s (D & _) R. exact (reach_J2 c s D R). Qed.

Theorem C44_issue_bytes : forall c s, cfg_ok c -> reach c no_verify s -> ibytes s = sum asked (tr s).
Proof. intros c s (D & _) R. exact (reach_J3 c s D R). Qed.

Theorem C44_issues : forall c s, cfg_ok c -> reach c (fun p => no_verify p /\ no_sync_short p) s ->
  issues s = u64 (sum sub (tr s)).
Proof. intros c s (D & _) R. exact (reach_J4 c s D R). Qed.

(** * A concrete execution *)

Definition next (c : cfg) (p : op) (s : st) : st := match step c p s with Ret _ s' => s' | _ => s end.
Definition after (c : cfg) (ps : list op) : st := fold_left (fun s p => next c p s) ps (init c).

Definition is_ret (o : out unit) : bool := match o with Ret _ _ => true | _ => false end.
Fixpoint all_ok (c : cfg) (P : op -> Prop) (ps : list op) (s : st) : Prop :=
  match ps with
  | [] => True
  | p :: ps' => op_ok c s p /\ P p /\ is_ret (step c p s) = true /\ all_ok c P ps' (next c p s)
  end.
Lemma reach_all : forall c P ps s, reach c P s -> all_ok c P ps s -> reach c P (fold_left (fun s p => next c p s) ps s).
Proof.
  induction ps as [ | p ps IH ]; intros s R A; cbn [fold_left]; [ exact R | ].
  destruct A as (A1 & A2 & A3 & A4). apply IH; [ | exact A4 ]. unfold next in *.
  destruct (step c p s) as [ [] s' | | ] eqn:E; try discriminate. exact (RStep c P s p s' R A1 A2 E).
Qed.
Lemma reach_after : forall c P ps, all_ok c P ps (init c) -> reach c P (after c ps).
Proof. intros c P ps A. apply reach_all; [ constructor | exact A ]. Qed.

Ltac fact := first
  [ exact Logic.I | reflexivity | congruence | lia | solve [ auto 10 ]
  | match goal with
    | |- _ /\ _ => split; fact
    | |- _ -> _ => intro; fact
    | |- NoDup [] => constructor
    | |- NoDup (_ :: _) => constructor; [ cbn; intuition discriminate | fact ]
    | |- Forall _ [] => constructor
    | |- Forall _ (_ :: _) => constructor; [ vm_compute; fact | fact ]
    end
  | solve [ intuition (try congruence; try lia) ] ].
Ltac runs := apply reach_after; vm_compute; fact.

Definition c1 := MkCfg 3 2 8 100.
(** Two I/Os: the first is queued and comes back short, the second is short at
    once, and then meets a busy engine; the first is resumed and finished after
    it. *)
Definition ps1 : list op :=
  [ OGet None (Some (0, 10, false)) true; OSubmit AQueued;
    OGet None (Some (10, 10, false)) true; OSubmit (ADone false 4);
    OGet None None true; OSubmit ABusy;
    OReap 1 [(0%nat, false, 7)];
    OGet None None true; OSubmit (ADone false 0);
    OGet (Some 1) None true; OSubmit AQueued;
    OQuiesce [[(0%nat, false, 0)]] ].

Example C44_run : reach c1 any (after c1 ps1) /\
  rev (tr (after c1 ps1)) =
    [TGet 0 0 10; TSub 0 10; TGet 1 10 10; TSub 1 10; TMove 1 10 0 6; TMove 0 0 0 3;
     TSub 1 4; TMove 1 16 6 4; TFin 1; TSub 0 7; TMove 0 3 3 7; TFin 0] /\
  fr (after c1 ps1) = [0%nat; 1%nat; 2%nat] /\ blocks (after c1 ps1) = 2.
Proof. split; [ runs | vm_compute; auto ]. Qed.

(** ... and the quiesce in it meets the conditions of the theorem. *)
Example C44_quiesce_case : let s := after c1 (firstn 11 ps1) in
  reach c1 any s /\ op_ok c1 s (OQuiesce [[(0%nat, false, 0)]]) /\ cd s <> 0 /\ length (eng s) = 1%nat.
Proof. split; [ runs | ]. vm_compute. fact. Qed.

(** An execution for the counters, with an error and a busy engine. *)
Definition ps2 : list op :=
  [ OGet None (Some (0, 10, false)) true; OSubmit AQueued;
    OGet None (Some (10, 10, false)) true; OSubmit ABusy;
    OGet None None true; OSubmit (ADone false 0);
    OGet None (Some (20, 10, false)) true; OSubmit (ADone true 10);
    OReap 1 [(0%nat, false, 0)] ].
Example C44_counters : reach c1 (fun p => no_short p /\ no_verify p) (after c1 ps2) /\
  issues (after c1 ps2) = 3 /\ ibytes (after c1 ps2) = 30 /\ blocks (after c1 ps2) = 2 /\ bytes (after c1 ps2) = 20.
Proof. split; [ runs | vm_compute; auto ]. Qed.

(** * What does not hold *)

(** ... but not when events were reaped that [td_io_commit] had not counted: with
    iodepth=4, iodepth_batch=3 and iodepth_batch_complete_min=4 all four I/Os are
    done, and [io_u_quiesce] never returns. *)
Definition c2 := MkCfg 4 3 4 100.
Definition ps3 : list op :=
  [ OGet None (Some (0, 10, false)) true; OSubmit AQueued;
    OGet None (Some (10, 10, false)) true; OSubmit AQueued;
    OGet None (Some (20, 10, false)) true; OSubmit AQueued;
    OGet None (Some (30, 10, false)) true; OSubmit AQueued;
    OReap 4 [(0%nat, false, 0); (1%nat, false, 0); (2%nat, false, 0); (3%nat, false, 0)] ].
Theorem C44_quiesce_refuted : exists c s, cfg_ok c /\ reach c any s /\ eng s = [] /\ held s = None /\
  forall bs, op_ok c s (OQuiesce bs) -> step c (OQuiesce bs) s = More.
Proof.
  exists c2, (after c2 ps3). assert (K : cfg_ok c2) by (unfold cfg_ok; cbn; lia).
  assert (R : reach c2 any (after c2 ps3)) by runs.
  split; [ exact K | ]. split; [ exact R | ]. split; [ reflexivity | ]. split; [ reflexivity | ].
  intros bs OK. destruct K as (D & CM).
  apply (quiesce_stuck c2 CM (after c2 ps3) bs (reach_top c2 D any _ R)); [ reflexivity | vm_compute; discriminate | exact OK ].
Qed.

(** An asynchronous completion that moved nothing ends the I/O well: the engine's
    promise to the contrary is needed. *)
Theorem C44_nothing_moved_refuted : exists c s i n s', cfg_ok c /\ reach c any s /\ In i (eng s) /\ xl s i = n /\ 0 < n /\
  off s i + n <= fsize c /\ step c (OReap 1 [(i, false, n)]) s = Ret tt s' /\
  blocks s' = 1 /\ sum moved (tr s') = 0 /\ tr s' = TFin i :: tr s.
Proof.
  exists c1, (after c1 (firstn 2 ps1)), 0%nat, 10, (next c1 (OReap 1 [(0%nat, false, 10)]) (after c1 (firstn 2 ps1))).
  split; [ unfold cfg_ok; cbn; lia | ]. split; [ runs | ]. vm_compute. fact.
Qed.

(** With short transfers [io_bytes] counts the last piece only, ... *)
Theorem C44_bytes_refuted : exists c s, cfg_ok c /\ reach c any s /\ eng s = [] /\ rq s = [] /\ held s = None /\
  sum moved (tr s) = 20 /\ bytes s = 11.
Proof.
  exists c1, (after c1 ps1). split; [ unfold cfg_ok; cbn; lia | ]. split; [ runs | ]. vm_compute. fact.
Qed.

(** ... [io_issue_bytes] counts the missing part again, ... *)
Definition started (e : ev) : Z := match e with TGet _ _ n => n | _ => 0 end.
Theorem C44_issue_bytes_refuted : exists c s, cfg_ok c /\ reach c any s /\ eng s = [] /\ rq s = [] /\ held s = None /\
  sum started (tr s) = 20 /\ ibytes s = 31.
Proof.
  exists c1, (after c1 ps1). split; [ unfold cfg_ok; cbn; lia | ]. split; [ runs | ]. vm_compute. fact.
Qed.

(** ... and [io_issues] counts the I/O twice if the engine is asynchronous and
    once if it is not. *)
Definition ps4 (a : list op) : list op := OGet None (Some (0, 10, false)) true :: a ++ [OGet None None true; OSubmit (ADone false 0)].
Theorem C44_issues_refuted : exists c s1 s2, cfg_ok c /\ reach c any s1 /\ reach c any s2 /\
  sum sub (tr s1) = 2 /\ sum sub (tr s2) = 2 /\ issues s1 = 1 /\ issues s2 = 2.
Proof.
  exists c1, (after c1 (ps4 [OSubmit (ADone false 4)])), (after c1 (ps4 [OSubmit AQueued; OReap 1 [(0%nat, false, 4)]])).
  split; [ unfold cfg_ok; cbn; lia | ]. split; [ runs | ]. split; [ runs | ]. vm_compute. fact.
Qed.

(** A busy engine takes back an issue that was never counted: a verify read makes
    the counter wrap. *)
Theorem C44_busy_verify_refuted : exists c s, cfg_ok c /\ reach c any s /\ sum sub (tr s) = 0 /\ issues s = 2 ^ 64 - 1.
Proof.
  exists c1, (after c1 [OGet None (Some (0, 10, true)) true; OSubmit ABusy]).
  split; [ unfold cfg_ok; cbn; lia | ]. split; [ runs | ]. vm_compute. fact.
Qed.

Print Assumptions C44_places.
Print Assumptions C44_depth.
Print Assumptions C44_no_abort.
Print Assumptions C44_life.
Print Assumptions C44_complete.
Print Assumptions C44_in_flight.
Print Assumptions C44_requeue_first.
Print Assumptions C44_latency_depth.
Print Assumptions C44_quiesce.
Print Assumptions C44_blocks.
Print Assumptions C44_bytes.
Print Assumptions C44_issue_bytes.
Print Assumptions C44_issues.
Print Assumptions C44_quiesce_refuted.
Print Assumptions C44_nothing_moved_refuted.
Print Assumptions C44_bytes_refuted.
Print Assumptions C44_issue_bytes_refuted.
Print Assumptions C44_issues_refuted.
Print Assumptions C44_busy_verify_refuted.
