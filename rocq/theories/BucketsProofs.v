(** Proofs about the distributions. *)
From Coq Require Import ZArith List Bool QArith Lia Lqa.
From Verif Require Import CBase Mem BucketsModel BucketsSpec.
Import ListNotations.
Open Scope Z_scope.

Definition good (l : list Z) (n : nat) : Prop := length l = n /\ Forall (fun v => 0 <= v) l.
Lemma good_total l n : good l n -> 0 <= total l.
Proof. intros (_ & F). induction F as [|v l H F IH]; cbn; lia. Qed.
Lemma nth_le_total : forall l i, Forall (fun v => 0 <= v) l -> 0 <= nth i l 0 <= total l.
Proof.
  induction l as [|v l IH]; intros i F; [destruct i; cbn; lia|]. inversion F; subst. pose proof (good_total l (length l) (conj eq_refl H2)). destruct i as [|i]; cbn; [lia|]. specialize (IH i H2). lia.
Qed.
Lemma total_upd : forall l i v, (i < length l)%nat -> total (upd l i v) = total l - nth i l 0 + v.
Proof. induction l as [|x l IH]; intros [|i] v H; cbn in H; try lia; cbn [upd total nth]; [lia|]. rewrite IH by lia. lia. Qed.
Lemma Forall_upd : forall l i v, Forall (fun v => 0 <= v) l -> 0 <= v -> Forall (fun v => 0 <= v) (upd l i v).
Proof. induction l as [|x l IH]; intros [|i] v F H; cbn; auto; inversion F; subst; constructor; auto. Qed.
Lemma bump_ok l i nr n : good l n -> 0 <= i < Z.of_nat n -> 0 <= nr -> total l + nr < 2 ^ 64 ->
  exists l', bump l i nr = Some l' /\ added l l' (Z.to_nat i) nr /\ good l' n /\ total l' = total l + nr.
Proof.
  intros (L & F) Hi Hn B. unfold bump. pose proof (nth_le_total l (Z.to_nat i) F) as T. rewrite (znth_nth l i 0) by (unfold zlen; lia).
  unfold u64. rewrite Z.mod_small by lia. rewrite zupd_some by (unfold zlen; lia). eexists. split; [reflexivity|]. split; [|split].
  - split; [apply upd_length|]. split; [lia|]. split; [apply upd_nth_same; lia|]. intros j Hj. apply upd_nth_other. auto.
  - split; [rewrite upd_length; auto|apply Forall_upd; auto; lia].
  - rewrite total_upd by lia. lia.
Qed.

(** ** The entries *)
Lemma entry_unique ls i j x : in_entry ls i x -> in_entry ls j x -> i = j.
Proof.
  intros (A1 & A2 & A3) (B1 & B2 & B3). destruct (Nat.lt_trichotomy i j) as [L|[E|L]]; auto; exfalso.
  - destruct (nth_error ls i) as [l|] eqn:E; [|apply nth_error_None in E; lia]. specialize (A3 l eq_refl). specialize (B2 i l L E). lia.
  - destruct (nth_error ls j) as [l|] eqn:E; [|apply nth_error_None in E; lia]. specialize (B3 l eq_refl). specialize (A2 j l L E). lia.
Qed.
Ltac cases := repeat match goal with |- context [within ?a ?b ?x] => unfold within; destruct (Z.leb_spec a x); cbn [andb]; [destruct (Z.leb_spec x b)|] | |- context [?x =? ?y] => destruct (Z.eqb_spec x y) end.
Ltac entry := unfold in_entry; split; [cbn; lia|split; [intros j l Hj; do 12 (destruct j as [|j]; [cbn; intros E; inversion E; lia|]); cbn in *; lia|cbn; intros l E; inversion E; lia]].
Lemma lat_idx_ok x : 0 <= x < 1000 -> 0 <= lat_idx x < 10 /\ in_entry labels (Z.to_nat (lat_idx x)) x.
Proof.
  intros H. assert (E : exists i, lat_idx x = i /\ 0 <= i < 10 /\ in_entry labels (Z.to_nat i) x).
  { unfold lat_idx. destruct (within 750 999 x) eqn:E9; [|destruct (within 500 749 x) eqn:E8; [|destruct (within 250 499 x) eqn:E7; [|destruct (within 100 249 x) eqn:E6; [|destruct (within 50 99 x) eqn:E5;
     [|destruct (within 20 49 x) eqn:E4; [|destruct (within 10 19 x) eqn:E3; [|destruct (within 4 9 x) eqn:E2; [|destruct (within 2 3 x) eqn:E1]]]]]]]];
    unfold within in *; (eexists; split; [reflexivity|]; split; [lia|]); rewrite ?andb_true_iff, ?andb_false_iff, ?Z.leb_le, ?Z.leb_gt in *; cbn [Z.to_nat Pos.to_nat Pos.iter_op Nat.add]; entry. }
  destruct E as (i & -> & A). exact A.
Qed.
Lemma msec_idx_ok x : 0 <= x -> 0 <= msec_idx x < 12 /\ in_entry msec_labels (Z.to_nat (msec_idx x)) x.
Proof.
  intros H. assert (E : exists i, msec_idx x = i /\ 0 <= i < 12 /\ in_entry msec_labels (Z.to_nat i) x).
  { unfold msec_idx. destruct (within 1000 1999 x) eqn:E10; [|destruct (within 750 999 x) eqn:E9; [|destruct (within 500 749 x) eqn:E8; [|destruct (within 250 499 x) eqn:E7; [|destruct (within 100 249 x) eqn:E6; [|destruct (within 50 99 x) eqn:E5;
     [|destruct (within 20 49 x) eqn:E4; [|destruct (within 10 19 x) eqn:E3; [|destruct (within 4 9 x) eqn:E2; [|destruct (within 2 3 x) eqn:E1; [|destruct (within 0 1 x) eqn:E0]]]]]]]]]];
    unfold within in *; (eexists; split; [reflexivity|]; split; [lia|]); rewrite ?andb_true_iff, ?andb_false_iff, ?Z.leb_le, ?Z.leb_gt in *; cbn [Z.to_nat Pos.to_nat Pos.iter_op Nat.add]; entry. }
  destruct E as (i & -> & A). exact A.
Qed.
Lemma depth_idx_ok d : 1 <= d -> 0 <= depth_idx d < 7 /\ in_depth (Z.to_nat (depth_idx d)) d.
Proof.
  intros H. assert (E : exists i, depth_idx d = i /\ 0 <= i < 7 /\ in_depth (Z.to_nat i) d).
  { unfold depth_idx. destruct (within 32 63 d) eqn:E5; [|destruct (within 16 31 d) eqn:E4; [|destruct (within 8 15 d) eqn:E3; [|destruct (within 4 7 d) eqn:E2; [|destruct (within 2 3 d) eqn:E1; [|destruct (Z.eqb_spec d 1)]]]]];
    unfold within in *; (eexists; split; [reflexivity|]; split; [lia|]); rewrite ?andb_true_iff, ?andb_false_iff, ?Z.leb_le, ?Z.leb_gt in *; cbn [Z.to_nat Pos.to_nat Pos.iter_op Nat.add];
    (split; [eexists; split; [reflexivity|lia]|cbn; intros l E; inversion E; lia]). }
  destruct E as (i & -> & A). exact A.
Qed.
Lemma depth_unique i j d : in_depth i d -> in_depth j d -> i = j.
Proof.
  assert (M : forall i j a b, (i < j)%nat -> nth_error depth_labels (S i) = Some a -> nth_error depth_labels j = Some b -> a <= b).
  { intros i' j' a b L Ha Hb. assert (j' < 7)%nat by (assert (K : nth_error depth_labels j' <> None) by congruence; apply nth_error_Some in K; exact K).
    do 7 (destruct i' as [|i']; [do 8 (destruct j' as [|j']; [cbn in *; try lia; inversion Ha; inversion Hb; lia|]); lia|]). lia. }
  intros ((a & A1 & A2) & A3) ((b & B1 & B2) & B3). destruct (Nat.lt_trichotomy i j) as [L|[E|L]]; auto; exfalso.
  - destruct (nth_error depth_labels (S i)) as [l|] eqn:E; [|apply nth_error_None in E; assert (K : nth_error depth_labels j <> None) by congruence; apply nth_error_Some in K; lia]. specialize (A3 l eq_refl). pose proof (M i j l b L E B1). lia.
  - destruct (nth_error depth_labels (S j)) as [l|] eqn:E; [|apply nth_error_None in E; assert (K : nth_error depth_labels i <> None) by congruence; apply nth_error_Some in K; lia]. specialize (B3 l eq_refl). pose proof (M j i l a L E A1). lia.
Qed.
Lemma map_idx_ok n : 0 <= n -> 0 <= map_idx n < 7 /\ in_submit (Z.to_nat (map_idx n)) n.
Proof.
  intros H. assert (E : exists i, map_idx n = i /\ 0 <= i < 7 /\ in_submit (Z.to_nat i) n).
  { unfold map_idx. destruct (within 33 64 n) eqn:E5; [|destruct (within 17 32 n) eqn:E4; [|destruct (within 9 16 n) eqn:E3; [|destruct (within 5 8 n) eqn:E2; [|destruct (within 1 4 n) eqn:E1; [|destruct (Z.eqb_spec n 0)]]]]];
    unfold within in *; (eexists; split; [reflexivity|]; split; [lia|]); rewrite ?andb_true_iff, ?andb_false_iff, ?Z.leb_le, ?Z.leb_gt in *; cbn [Z.to_nat Pos.to_nat Pos.iter_op Nat.add];
    (split; [cbn; lia|split; [cbn; intros l E; inversion E; lia|intros j l Ej E; inversion Ej; subst; cbn in E; inversion E; lia]]). }
  destruct E as (i & -> & A). exact A.
Qed.
Lemma submit_unique i j n : in_submit i n -> in_submit j n -> i = j.
Proof.
  assert (M : forall i j a b, (i <= j)%nat -> nth_error submit_labels i = Some a -> nth_error submit_labels j = Some b -> a <= b).
  { intros i' j' a b L Ha Hb. assert (j' < 6)%nat by (assert (K : nth_error submit_labels j' <> None) by congruence; apply nth_error_Some in K; exact K).
    do 6 (destruct i' as [|i']; [do 7 (destruct j' as [|j']; [cbn in *; try lia; inversion Ha; inversion Hb; lia|]); lia|]). lia. }
  assert (K : forall i j, (i < j)%nat -> in_submit i n -> in_submit j n -> False).
  { intros i' j' L (A1 & A2 & _) (B1 & _ & B3). destruct j' as [|j']; [lia|]. destruct (nth_error submit_labels j') as [b|] eqn:EB; [|apply nth_error_None in EB; lia]. specialize (B3 j' b eq_refl EB).
    destruct (nth_error submit_labels i') as [a|] eqn:EA; [|apply nth_error_None in EA; lia]. specialize (A2 a eq_refl). pose proof (M i' j' a b ltac:(lia) EA EB). lia. }
  intros A B. destruct (Nat.lt_trichotomy i j) as [L|[E|L]]; auto; exfalso; eauto.
Qed.

(** ** States *)
Definition tbl (t : table) (s : st) : list Z := match t with Tn => lat_n s | Tu => lat_u s | Tm => lat_m s end.
Definition tsize (t : table) : nat := match t with Tm => 12%nat | _ => 10%nat end.
Definition lat_total (s : st) : Z := total (lat_n s) + total (lat_u s) + total (lat_m s).
(** After [k] events. *)
Record ok (k : Z) (s : st) : Prop := mkOk {
  o_n : good (lat_n s) 10; o_u : good (lat_u s) 10; o_m : good (lat_m s) 12; o_d : good (dmap s) 7; o_s : good (smap s) 7; o_c : good (cmap s) 7;
  o_lat : lat_total s <= k; o_dep : total (dmap s) + queued s <= k; o_sub : total (smap s) <= k; o_com : total (cmap s) <= k;
  o_ts : 0 <= total_submit s <= k; o_tc : 0 <= total_complete s <= k; o_rw : 0 <= total_rw s <= k; o_sy : 0 <= total_sync s <= k; o_q : 0 <= queued s < 2 ^ 31 }.
Definition tot (l : list Z) n (H : good l n) := good_total l n H.

Definition table_of (ns : Z) : table := if ns <? 1000 then Tn else if ns <? 1000000 then Tu else Tm.
Definition entry_of (ns : Z) : nat := Z.to_nat (match table_of ns with Tn => lat_idx ns | Tu => lat_idx (ns / 1000) | Tm => msec_idx (ns / 1000000) end).
Lemma entry_of_ok ns : 0 <= ns -> (entry_of ns < tsize (table_of ns))%nat /\ lat_entry (table_of ns) (entry_of ns) ns.
Proof.
  intros H. unfold entry_of, table_of. destruct (Z.ltb_spec ns 1000); [|destruct (Z.ltb_spec ns 1000000)]; cbn [lat_entry tsize].
  - destruct (lat_idx_ok ns ltac:(lia)). split; [lia|]. split; [lia|auto].
  - assert (1 <= ns / 1000 < 1000) by (split; [apply Z.div_le_lower_bound; lia|apply Z.div_lt_upper_bound; lia]). destruct (lat_idx_ok (ns / 1000) ltac:(lia)). split; [lia|]. split; [lia|auto].
  - assert (1 <= ns / 1000000) by (apply Z.div_le_lower_bound; lia). destruct (msec_idx_ok (ns / 1000000) ltac:(lia)). split; [lia|]. split; [lia|auto].
Qed.
Lemma lat_entry_unique t i t' i' ns : lat_entry t i ns -> lat_entry t' i' ns -> t = t' /\ i = i'.
Proof. destruct t, t'; cbn; intros (A & B) (C & D); try lia; split; auto; eapply entry_unique; eauto. Qed.

(** What a step leaves alone. *)
Definition same_rest (s s' : st) : Prop := dmap s' = dmap s /\ smap s' = smap s /\ cmap s' = cmap s /\ total_submit s' = total_submit s /\ total_complete s' = total_complete s /\
  total_rw s' = total_rw s /\ total_sync s' = total_sync s /\ queued s' = queued s.
Lemma mark_latency_ok k s ns : ok k s -> 0 <= ns -> k + 1 < 2 ^ 64 -> exists s', mark_latency s ns = Some s' /\
  added (tbl (table_of ns) s) (tbl (table_of ns) s') (entry_of ns) 1 /\ (forall t, t <> table_of ns -> tbl t s' = tbl t s) /\ same_rest s s' /\ ok (k + 1) s' /\ lat_total s' = lat_total s + 1.
Proof.
  intros O H K. destruct (entry_of_ok ns H) as (B & _). pose proof (tot _ _ (o_n _ _ O)). pose proof (tot _ _ (o_u _ _ O)). pose proof (tot _ _ (o_m _ _ O)). pose proof (o_lat _ _ O) as OL. unfold lat_total in OL.
  unfold mark_latency, entry_of, table_of in *. destruct (Z.ltb_spec ns 1000); [|destruct (Z.ltb_spec ns 1000000)].
  - unfold mark_lat_nsec. destruct (Z.ltb_spec ns 1000); [|lia]. destruct (lat_idx_ok ns ltac:(lia)) as (I & _). destruct (Z.ltb_spec (lat_idx ns) 10); [|lia].
    destruct (bump_ok (lat_n s) (lat_idx ns) 1 10 (o_n _ _ O) ltac:(lia) ltac:(lia) ltac:(lia)) as (l' & -> & A & G & T). eexists. split; [reflexivity|]. cbn [tbl lat_n lat_u lat_m]. split; auto. split; [intros []; intros; congruence || reflexivity|].
    split; [unfold same_rest; cbn; auto 10|]. unfold lat_total. cbn [lat_n lat_u lat_m]. split; [|lia]. destruct O. constructor; cbn; auto; try lia. unfold lat_total; cbn; lia.
  - unfold mark_lat_usec. assert (D : 1 <= ns / 1000 < 1000) by (split; [apply Z.div_le_lower_bound; lia|apply Z.div_lt_upper_bound; lia]). destruct (Z.ltb_spec (ns / 1000) 1000); [|lia]. destruct (Z.leb_spec 1 (ns / 1000)); [|lia]. cbn [andb].
    destruct (lat_idx_ok (ns / 1000) ltac:(lia)) as (I & _). destruct (Z.ltb_spec (lat_idx (ns / 1000)) 10); [|lia].
    destruct (bump_ok (lat_u s) (lat_idx (ns / 1000)) 1 10 (o_u _ _ O) ltac:(lia) ltac:(lia) ltac:(lia)) as (l' & -> & A & G & T). eexists. split; [reflexivity|]. cbn [tbl lat_n lat_u lat_m]. split; auto. split; [intros []; intros; congruence || reflexivity|].
    split; [unfold same_rest; cbn; auto 10|]. unfold lat_total. cbn [lat_n lat_u lat_m]. split; [|lia]. destruct O. constructor; cbn; auto; try lia. unfold lat_total; cbn; lia.
  - unfold mark_lat_msec. assert (D : 1 <= ns / 1000000) by (apply Z.div_le_lower_bound; lia). destruct (Z.leb_spec 1 (ns / 1000000)); [|lia].
    destruct (msec_idx_ok (ns / 1000000) ltac:(lia)) as (I & _). destruct (Z.ltb_spec (msec_idx (ns / 1000000)) 12); [|lia].
    destruct (bump_ok (lat_m s) (msec_idx (ns / 1000000)) 1 12 (o_m _ _ O) ltac:(lia) ltac:(lia) ltac:(lia)) as (l' & -> & A & G & T). eexists. split; [reflexivity|]. cbn [tbl lat_n lat_u lat_m]. split; auto. split; [intros []; intros; congruence || reflexivity|].
    split; [unfold same_rest; cbn; auto 10|]. unfold lat_total. cbn [lat_n lat_u lat_m]. split; [|lia]. destruct O. constructor; cbn; auto; try lia. unfold lat_total; cbn; lia.
Qed.

Definition keeps_lat (s s' : st) : Prop := lat_n s' = lat_n s /\ lat_u s' = lat_u s /\ lat_m s' = lat_m s.
Definition keeps_io (s s' : st) : Prop := smap s' = smap s /\ cmap s' = cmap s /\ total_submit s' = total_submit s /\ total_complete s' = total_complete s.
(** Effects of the small functions, with explicit bounds. *)
Lemma mark_depth_ok s d nr : good (dmap s) 7 -> 1 <= d -> 0 <= nr -> total (dmap s) + nr < 2 ^ 64 -> exists s', mark_depth s d nr = Some s' /\
  added (dmap s) (dmap s') (Z.to_nat (depth_idx d)) nr /\ good (dmap s') 7 /\ total (dmap s') = total (dmap s) + nr /\ keeps_lat s s' /\ keeps_io s s' /\
  total_rw s' = total_rw s /\ total_sync s' = total_sync s /\ queued s' = queued s.
Proof.
  intros G D N B. destruct (depth_idx_ok d D) as (I & _). unfold mark_depth. destruct (bump_ok (dmap s) (depth_idx d) nr 7 G ltac:(lia) N B) as (l' & -> & A & G' & T).
  eexists. split; [reflexivity|]. cbn. unfold keeps_lat, keeps_io. cbn. auto 20.
Qed.
Lemma mark_both_ok k s : ok k s -> k + 1 < 2 ^ 64 -> exists s1 s2, mark_submit s 1 = Some s1 /\ mark_complete s1 1 = Some s2 /\
  added (smap s) (smap s2) 1 1 /\ added (cmap s) (cmap s2) 1 1 /\ good (smap s2) 7 /\ good (cmap s2) 7 /\ total (smap s2) = total (smap s) + 1 /\ total (cmap s2) = total (cmap s) + 1 /\
  total_submit s2 = total_submit s + 1 /\ total_complete s2 = total_complete s + 1 /\ keeps_lat s s2 /\ dmap s2 = dmap s /\ total_rw s2 = total_rw s /\ total_sync s2 = total_sync s /\ queued s2 = queued s.
Proof.
  intros O K. pose proof (o_sub _ _ O). pose proof (o_com _ _ O). pose proof (o_ts _ _ O). pose proof (o_tc _ _ O). unfold mark_submit. change (map_idx 1) with 1.
  destruct (bump_ok (smap s) 1 1 7 (o_s _ _ O) ltac:(lia) ltac:(lia) ltac:(lia)) as (l1 & -> & A1 & G1 & T1). eexists.
  unfold mark_complete. cbn [smap cmap total_submit total_complete lat_n lat_u lat_m dmap total_rw total_sync queued]. change (map_idx 1) with 1.
  destruct (bump_ok (cmap s) 1 1 7 (o_c _ _ O) ltac:(lia) ltac:(lia) ltac:(lia)) as (l2 & E2 & A2 & G2 & T2).
  eexists. split; [reflexivity|]. cbn [smap cmap total_submit total_complete lat_n lat_u lat_m dmap total_rw total_sync queued]. rewrite E2. split; [reflexivity|]. cbn [smap cmap total_submit total_complete lat_n lat_u lat_m dmap total_rw total_sync queued].
  unfold u64. rewrite !Z.mod_small by lia. unfold keeps_lat. cbn. auto 20.
Qed.

Lemma commit_ok s d : good (dmap s) 7 -> 0 <= d -> 0 <= queued s -> total (dmap s) + queued s < 2 ^ 64 -> exists s', commit s d = Some s' /\ good (dmap s') 7 /\
  total (dmap s') + queued s' = total (dmap s) + queued s /\ keeps_lat s s' /\ keeps_io s s' /\ total_rw s' = total_rw s /\ total_sync s' = total_sync s /\
  (1 <= d /\ 1 <= queued s -> queued s' = 0 /\ added (dmap s) (dmap s') (Z.to_nat (depth_idx d)) (queued s)) /\ (d = 0 \/ queued s = 0 -> s' = s).
Proof.
  intros G D Q B. unfold commit. destruct (Z.eqb_spec d 0) as [E|E]; [|destruct (Z.eqb_spec (queued s) 0) as [E2|E2]]; cbn [orb].
  - exists s. unfold keeps_lat, keeps_io. repeat (split; auto; try lia).
  - exists s. unfold keeps_lat, keeps_io. repeat (split; auto; try lia).
  - destruct (mark_depth_ok s d (queued s) G ltac:(lia) Q B) as (s1 & -> & A & G1 & T & KL & KI & R1 & R2 & R3). eexists. split; [reflexivity|]. unfold keeps_lat, keeps_io in *. cbn.
    split; auto. split; [lia|]. split; [tauto|]. split; [tauto|]. split; auto. split; auto. split; [auto|lia].
Qed.

Definition ev_ok (e : ev) : Prop :=
  match e with
  | ELat ns => 0 <= ns < 2 ^ 64
  | EDone _ _ _ d => 1 <= d < 2 ^ 32
  | EQueued _ _ _ d b => 1 <= d < 2 ^ 32 /\ 1 <= b <= 2 ^ 31
  | ECommit d => 0 <= d < 2 ^ 32
  | ESubmit nr | EComplete nr => 0 <= nr < 2 ^ 32
  end.
Definition is_nocommit (e : ev) : bool := match e with EDone c _ _ _ | EQueued c _ _ _ _ => c | _ => false end.
(** The submissions and completions an event reports. *)
Definition submits (e : ev) : option Z := match e with ESubmit nr => Some nr | _ => if is_nocommit e then Some 1 else None end.
Definition completes (e : ev) : option Z := match e with EComplete nr => Some nr | _ => if is_nocommit e then Some 1 else None end.
Definition depth_of (e : ev) : option Z := match e with EDone _ _ _ d | EQueued _ _ _ d _ | ECommit d => Some d | _ => None end.
Definition is_rw (e : ev) : bool := match e with EDone _ Rw _ _ | EQueued _ Rw _ _ _ => true | _ => false end.
Definition is_sync (e : ev) : bool := match e with EDone _ Sync f _ | EQueued _ Sync f _ _ => negb f | _ => false end.
(** Queued while the job is in TD_FSYNCING: in the depths, not in the totals. *)
Definition is_stray (e : ev) : bool := match e with EQueued _ Sync f _ _ => f | _ => false end.
Definition b2z (b : bool) : Z := if b then 1 else 0.

Record effect (e : ev) (s s' : st) : Prop := mkEff {
  f_lat : match e with
          | ELat ns => added (tbl (table_of ns) s) (tbl (table_of ns) s') (entry_of ns) 1 /\ forall t, t <> table_of ns -> tbl t s' = tbl t s
          | _ => forall t, tbl t s' = tbl t s
          end;
  f_sub : match submits e with Some nr => added (smap s) (smap s') (Z.to_nat (map_idx nr)) 1 /\ total_submit s' = total_submit s + 1 | None => smap s' = smap s /\ total_submit s' = total_submit s end;
  f_com : match completes e with Some nr => added (cmap s) (cmap s') (Z.to_nat (map_idx nr)) 1 /\ total_complete s' = total_complete s + 1 | None => cmap s' = cmap s /\ total_complete s' = total_complete s end;
  f_rw : total_rw s' = total_rw s + b2z (is_rw e);
  f_sync : total_sync s' = total_sync s + b2z (is_sync e);
  f_bal : total (dmap s') + queued s' = total (dmap s) + queued s + b2z (is_rw e) + b2z (is_sync e) + b2z (is_stray e);
  f_dep : dmap s' = dmap s \/ exists d n, depth_of e = Some d /\ 1 <= d /\ 0 < n /\ added (dmap s) (dmap s') (Z.to_nat (depth_idx d)) n;
  f_tot : lat_total s' = lat_total s + match e with ELat _ => 1 | _ => 0 end }.

Lemma lat_total_keep s s' : keeps_lat s s' -> lat_total s' = lat_total s.
Proof. intros (A & B & C). unfold lat_total. congruence. Qed.
Lemma tbl_keep s s' : keeps_lat s s' -> forall t, tbl t s' = tbl t s.
Proof. intros (A & B & C) []; auto. Qed.

Lemma done_ok k s c d f depth : ok k s -> 1 <= depth < 2 ^ 32 -> k + 1 < 2 ^ 64 -> exists s', queue_completed s c d f depth = Some s' /\ ok (k + 1) s' /\ effect (EDone c d f depth) s s'.
Proof.
  intros O D K. unfold queue_completed.
  assert (P : exists s1, (if c then do s <- mark_submit s 1; mark_complete s 1 else Some s) = Some s1 /\ keeps_lat s s1 /\ dmap s1 = dmap s /\ total_rw s1 = total_rw s /\ total_sync s1 = total_sync s /\ queued s1 = queued s /\
    good (smap s1) 7 /\ good (cmap s1) 7 /\ total (smap s1) <= k + 1 /\ total (cmap s1) <= k + 1 /\ 0 <= total_submit s1 <= k + 1 /\ 0 <= total_complete s1 <= k + 1 /\
    (if c then added (smap s) (smap s1) 1 1 /\ total_submit s1 = total_submit s + 1 else smap s1 = smap s /\ total_submit s1 = total_submit s) /\
    (if c then added (cmap s) (cmap s1) 1 1 /\ total_complete s1 = total_complete s + 1 else cmap s1 = cmap s /\ total_complete s1 = total_complete s)).
  { pose proof (o_sub _ _ O). pose proof (o_com _ _ O). pose proof (o_ts _ _ O). pose proof (o_tc _ _ O). destruct c.
    - destruct (mark_both_ok k s O K) as (s1 & s2 & -> & E2 & A1 & A2 & G1 & G2 & T1 & T2 & T3 & T4 & KL & R1 & R2 & R3 & R4). exists s2. rewrite E2. repeat (split; [auto; lia|]). auto.
    - exists s. destruct O. unfold keeps_lat. repeat (split; [auto; lia|]). auto. }
  destruct P as (s1 & -> & KL & P1 & P2 & P3 & P4 & P5 & P6 & P7 & P8 & P9 & P10 & P11 & P12).
  assert (Gd : good (dmap s1) 7) by (rewrite P1; apply O). pose proof (o_dep _ _ O). pose proof (o_q _ _ O). pose proof (o_rw _ _ O). pose proof (o_sy _ _ O). pose proof (o_lat _ _ O).
  destruct (counts d f) eqn:CT.
  - destruct (mark_depth_ok s1 depth 1 Gd ltac:(lia) ltac:(lia) ltac:(rewrite P1; lia)) as (s2 & -> & A & G2 & T & KL2 & KI & R1 & R2 & R3). destruct KI as (I1 & I2 & I3 & I4).
    assert (KL3 : keeps_lat s s2) by (unfold keeps_lat in *; intuition congruence). eexists. split; [reflexivity|]. pose proof (lat_total_keep _ _ KL3) as LT. rewrite P1 in *.
    assert (U : match d with Rw => u64 (total_rw s2 + 1) | Sync => total_rw s2 end = total_rw s + b2z (is_rw (EDone c d f depth))) by (destruct d; cbn; unfold u64; rewrite ?Z.mod_small by lia; lia).
    assert (U2 : match d with Sync => u64 (total_sync s2 + 1) | Rw => total_sync s2 end = total_sync s + b2z (is_sync (EDone c d f depth))) by (destruct d; cbn in *; rewrite ?CT; cbn; unfold u64; rewrite ?Z.mod_small by lia; lia).
    assert (BB : b2z (is_rw (EDone c d f depth)) + b2z (is_sync (EDone c d f depth)) = 1) by (destruct d; cbn in *; rewrite ?CT; reflexivity).
    assert (BR : 0 <= b2z (is_rw (EDone c d f depth)) <= 1 /\ 0 <= b2z (is_sync (EDone c d f depth)) <= 1) by (unfold b2z; destruct (is_rw _), (is_sync _); lia).
    split.
    + destruct O, KL3 as (K1 & K2 & K3). constructor; cbn; rewrite ?K1, ?K2, ?K3, ?I1, ?I2, ?I3, ?I4; auto; try lia. unfold lat_total in *. cbn. lia.
    + constructor; cbn [add_total smap cmap total_submit total_complete total_rw total_sync queued dmap submits completes is_nocommit depth_of is_stray b2z].
      * intros t. rewrite <- (tbl_keep _ _ KL3 t). destruct t; reflexivity.
      * rewrite I1, I3. destruct c; auto.
      * rewrite I2, I4. destruct c; auto.
      * exact U.
      * exact U2.
      * lia.
      * right. exists depth, 1. split; auto. split; [lia|]. split; [lia|]. auto.
      * unfold lat_total in *. cbn. lia.
  - exists s1. split; auto. pose proof (lat_total_keep _ _ KL) as LT.
    assert (Z1 : is_rw (EDone c d f depth) = false /\ is_sync (EDone c d f depth) = false) by (destruct d; cbn in *; auto; discriminate). destruct Z1 as (Z1 & Z2). split.
    + destruct O, KL as (K1 & K2 & K3). constructor; rewrite ?K1, ?K2, ?K3, ?P1, ?P2, ?P3, ?P4; auto; try lia.
    + constructor; rewrite ?Z1, ?Z2; cbn [submits completes is_nocommit is_stray b2z]; auto; try lia; try (destruct c; auto; fail). intros t. apply tbl_keep. auto. rewrite P1. lia.
Qed.

Lemma queued_ok k s c d f depth batch : ok k s -> 1 <= depth < 2 ^ 32 -> 1 <= batch <= 2 ^ 31 -> k + 1 < 2 ^ 64 ->
  exists s', queue_queued s c d f depth batch = Some s' /\ ok (k + 1) s' /\ effect (EQueued c d f depth batch) s s'.
Proof.
  intros O D HB K. unfold queue_queued.
  assert (P : exists s1, (if c then do s <- mark_submit s 1; mark_complete s 1 else Some s) = Some s1 /\ keeps_lat s s1 /\ dmap s1 = dmap s /\ total_rw s1 = total_rw s /\ total_sync s1 = total_sync s /\ queued s1 = queued s /\
    good (smap s1) 7 /\ good (cmap s1) 7 /\ total (smap s1) <= k + 1 /\ total (cmap s1) <= k + 1 /\ 0 <= total_submit s1 <= k + 1 /\ 0 <= total_complete s1 <= k + 1 /\
    (if c then added (smap s) (smap s1) 1 1 /\ total_submit s1 = total_submit s + 1 else smap s1 = smap s /\ total_submit s1 = total_submit s) /\
    (if c then added (cmap s) (cmap s1) 1 1 /\ total_complete s1 = total_complete s + 1 else cmap s1 = cmap s /\ total_complete s1 = total_complete s)).
  { pose proof (o_sub _ _ O). pose proof (o_com _ _ O). pose proof (o_ts _ _ O). pose proof (o_tc _ _ O). destruct c.
    - destruct (mark_both_ok k s O K) as (s1 & s2 & -> & E2 & A1 & A2 & G1 & G2 & T1 & T2 & T3 & T4 & KL & R1 & R2 & R3 & R4). exists s2. rewrite E2. repeat (split; [auto; lia|]). auto.
    - exists s. destruct O. unfold keeps_lat. repeat (split; [auto; lia|]). auto. }
  destruct P as (s1 & -> & KL & P1 & P2 & P3 & P4 & P5 & P6 & P7 & P8 & P9 & P10 & P11 & P12).
  pose proof (o_dep _ _ O). pose proof (o_q _ _ O). pose proof (o_rw _ _ O). pose proof (o_sy _ _ O). pose proof (o_lat _ _ O). cbv zeta.
  set (s2 := if counts d f then add_total (set_queued s1 (u32 (queued s1 + 1))) d else set_queued s1 (u32 (queued s1 + 1))).
  set (e := EQueued c d f depth batch).
  assert (Q2 : queued s2 = queued s + 1) by (unfold s2; destruct (counts d f), d; cbn; unfold u32; rewrite Z.mod_small by lia; lia).
  assert (S2 : keeps_lat s s2 /\ dmap s2 = dmap s /\ smap s2 = smap s1 /\ cmap s2 = cmap s1 /\ total_submit s2 = total_submit s1 /\ total_complete s2 = total_complete s1).
  { unfold s2, keeps_lat in *. destruct (counts d f), d; cbn; intuition congruence. }
  destruct S2 as (K2 & D2 & M1 & M2 & M3 & M4).
  assert (U1 : total_rw s2 = total_rw s + b2z (is_rw e)) by (unfold s2, e; destruct d; cbn; [|destruct f; cbn]; unfold u64; rewrite ?Z.mod_small by lia; lia).
  assert (U2 : total_sync s2 = total_sync s + b2z (is_sync e)) by (unfold s2, e; destruct d; cbn; [|destruct f; cbn]; unfold u64; rewrite ?Z.mod_small by lia; lia).
  assert (BB : b2z (is_rw e) + b2z (is_sync e) + b2z (is_stray e) = 1) by (unfold e; destruct d; cbn; [auto|destruct f; auto]).
  assert (BR : 0 <= b2z (is_rw e) <= 1 /\ 0 <= b2z (is_sync e) <= 1) by (unfold b2z; destruct (is_rw _), (is_sync _); lia).
  assert (FIN : forall s3, keeps_lat s2 s3 -> keeps_io s2 s3 -> total_rw s3 = total_rw s2 -> total_sync s3 = total_sync s2 -> good (dmap s3) 7 -> total (dmap s3) + queued s3 = total (dmap s2) + queued s2 -> 0 <= queued s3 < 2 ^ 31 ->
    (dmap s3 = dmap s \/ exists n, 0 < n /\ added (dmap s) (dmap s3) (Z.to_nat (depth_idx depth)) n) -> ok (k + 1) s3 /\ effect e s s3).
  { intros s3 L3 (I1 & I2 & I3 & I4) W1 W2 G3 B3 Q3 DD. assert (KL3 : keeps_lat s s3) by (unfold keeps_lat in *; intuition congruence). pose proof (lat_total_keep _ _ KL3) as LT. split.
    - destruct O, KL3 as (X1 & X2 & X3). constructor; rewrite ?X1, ?X2, ?X3, ?I1, ?I2, ?I3, ?I4, ?M1, ?M2, ?M3, ?M4; auto; try lia. rewrite B3, D2. lia.
    - unfold e in *. constructor; cbn [submits completes is_nocommit depth_of].
      + apply tbl_keep. auto.
      + rewrite I1, I3, M1, M3. destruct c; auto.
      + rewrite I2, I4, M2, M4. destruct c; auto.
      + lia.
      + lia.
      + rewrite B3, D2. lia.
      + destruct DD as [DD|(n & N1 & N2)]; [left; auto|right]. exists depth, n. split; auto. split; [lia|auto].
      + lia. }
  assert (G2 : good (dmap s2) 7) by (rewrite D2; apply O).
  destruct (Z.leb_spec batch (queued s2)) as [L|L].
  - destruct (commit_ok s2 depth G2 ltac:(lia) ltac:(lia) ltac:(rewrite D2; lia)) as (s3 & -> & G3 & B3 & L3 & I3 & W1 & W2 & C1 & _). destruct (C1 ltac:(lia)) as (C2 & C3).
    exists s3. split; auto. apply FIN; auto; try lia. right. exists (queued s2). split; [lia|]. rewrite <- D2. auto.
  - exists s2. split; auto. apply FIN; auto; try lia; unfold keeps_lat, keeps_io; auto.
Qed.

Lemma step_ok k s e : ok k s -> ev_ok e -> k + 1 < 2 ^ 64 -> exists s', step s e = Some s' /\ ok (k + 1) s' /\ effect e s s'.
Proof.
  intros O H K. destruct e as [ns|c d f depth|c d f depth b|depth|nr|nr]; cbn [step ev_ok] in *.
  - destruct (mark_latency_ok k s ns O ltac:(lia) K) as (s' & E & A & B & (R1 & R2 & R3 & R4 & R5 & R6 & R7 & R8) & O' & T). exists s'. split; auto. split; auto.
    constructor; cbn [submits completes is_nocommit is_rw is_sync is_stray b2z]; auto; try lia. rewrite R1, R8. lia.
  - apply done_ok; auto.
  - apply queued_ok; tauto.
  - destruct (commit_ok s depth (o_d _ _ O) ltac:(lia)) as (s' & E & G & B & L & (I1 & I2 & I3 & I4) & W1 & W2 & C1 & C2); [apply O|pose proof (o_dep _ _ O); lia|]. exists s'. split; auto. pose proof (lat_total_keep _ _ L) as LT.
    assert (Q : 0 <= queued s' < 2 ^ 31). { pose proof (o_q _ _ O). destruct (Z.eq_dec depth 0); [rewrite C2 by auto; lia|]. destruct (Z.eq_dec (queued s) 0); [rewrite C2 by auto; lia|]. destruct (C1 ltac:(lia)). lia. }
    pose proof (o_dep _ _ O). split.
    + destruct O, L as (X1 & X2 & X3). constructor; rewrite ?X1, ?X2, ?X3, ?I1, ?I2, ?I3, ?I4; auto; try lia.
    + constructor; cbn [submits completes is_nocommit is_rw is_sync is_stray b2z depth_of]; auto; try lia; [apply tbl_keep; auto|].
      pose proof (o_q _ _ O). destruct (Z.eq_dec depth 0); [left; rewrite C2; auto|]. destruct (Z.eq_dec (queued s) 0); [left; rewrite C2; auto|]. destruct (C1 ltac:(lia)) as (_ & A). right. exists depth, (queued s). split; auto. split; [lia|]. split; [lia|auto].
  - unfold mark_submit. destruct (map_idx_ok nr ltac:(lia)) as (I & _). pose proof (o_sub _ _ O). pose proof (o_ts _ _ O). destruct (bump_ok (smap s) (map_idx nr) 1 7 (o_s _ _ O) ltac:(lia) ltac:(lia) ltac:(lia)) as (l & -> & A & G & T).
    eexists. split; [reflexivity|]. unfold u64. rewrite Z.mod_small by lia. split; [destruct O; constructor; cbn; auto; try lia|]. { unfold lat_total in *. cbn. lia. }
    constructor; cbn [submits completes is_nocommit is_rw is_sync is_stray b2z smap cmap total_submit total_complete total_rw total_sync dmap queued]; auto; try lia; try (intros []; reflexivity); unfold lat_total; cbn; lia.
  - unfold mark_complete. destruct (map_idx_ok nr ltac:(lia)) as (I & _). pose proof (o_com _ _ O). pose proof (o_tc _ _ O). destruct (bump_ok (cmap s) (map_idx nr) 1 7 (o_c _ _ O) ltac:(lia) ltac:(lia) ltac:(lia)) as (l & -> & A & G & T).
    eexists. split; [reflexivity|]. unfold u64. rewrite Z.mod_small by lia. split; [destruct O; constructor; cbn; auto; try lia|]. { unfold lat_total in *. cbn. lia. }
    constructor; cbn [submits completes is_nocommit is_rw is_sync is_stray b2z smap cmap total_submit total_complete total_rw total_sync dmap queued]; auto; try lia; try (intros []; reflexivity); unfold lat_total; cbn; lia.
Qed.
Lemma ok_init : ok 0 init.
Proof.
  assert (G : forall n, good (zeros n) n) by (intros n; split; [apply repeat_length|induction n; cbn; constructor; auto; lia]).
  constructor; try apply G; cbn; lia.
Qed.

(** ** Runs *)
Lemma counted_add A (P : A -> Prop) x l n b : counted P (x :: l) n -> (b = true <-> P x) -> exists n', counted P l n' /\ n = n' + b2z b.
Proof. intros C B. inversion C; subst; destruct b; cbn; try (exfalso; intuition congruence); eexists; (split; [eauto|lia]). Qed.
Lemma run_ok : forall es k s, ok k s -> Forall ev_ok es -> k + Z.of_nat (length es) < 2 ^ 64 -> exists s', run s es = Some s' /\ ok (k + Z.of_nat (length es)) s' /\
  (forall t i n, counted (fun e => exists ns, e = ELat ns /\ lat_entry t i ns) es n -> nth i (tbl t s') 0 = nth i (tbl t s) 0 + n) /\
  (forall n, counted (fun e => exists ns, e = ELat ns) es n -> lat_total s' = lat_total s + n) /\
  (forall i n, counted (fun e => exists nr, submits e = Some nr /\ in_submit i nr) es n -> nth i (smap s') 0 = nth i (smap s) 0 + n) /\
  (forall n, counted (fun e => submits e <> None) es n -> total_submit s' = total_submit s + n) /\
  (forall i n, counted (fun e => exists nr, completes e = Some nr /\ in_submit i nr) es n -> nth i (cmap s') 0 = nth i (cmap s) 0 + n) /\
  (forall n, counted (fun e => completes e <> None) es n -> total_complete s' = total_complete s + n) /\
  (forall n, counted (fun e => is_rw e = true) es n -> total_rw s' = total_rw s + n) /\
  (forall n, counted (fun e => is_sync e = true) es n -> total_sync s' = total_sync s + n) /\
  (forall n, counted (fun e => is_stray e = true) es n -> total (dmap s') + queued s' - total_rw s' - total_sync s' = total (dmap s) + queued s - total_rw s - total_sync s + n).
Proof.
  induction es as [|e es IH]; intros k s O F K.
  - cbn [run length] in *. exists s. split; auto. rewrite Z.add_0_r. split; auto. repeat split; intros; match goal with H : counted _ [] _ |- _ => inversion H; subst end; lia.
  - inversion F as [|? ? He Hes]; subst. cbn [length] in K. destruct (step_ok k s e O He ltac:(lia)) as (s1 & E & O1 & EF). cbn [run]. rewrite E.
    destruct (IH (k + 1) s1 O1 Hes ltac:(lia)) as (s' & R & O' & I1 & I2 & I3 & I4 & I5 & I6 & I7 & I8 & I9). exists s'. split; auto.
    split; [replace (k + Z.of_nat (length (e :: es))) with (k + 1 + Z.of_nat (length es)) by (cbn [length]; lia); auto|]. destruct EF as [FL FS FC FR FY FB FD FT].
    assert (NA : forall l l' j i, added l l' j 1 -> nth i l' 0 = nth i l 0 + b2z (Nat.eqb i j)).
    { intros l l' j i (A1 & A2 & A3 & A4). destruct (Nat.eqb_spec i j) as [->|NE]; cbn [b2z]; [auto|]. rewrite A4 by auto. lia. }
    split; [|split; [|split; [|split; [|split; [|split; [|split; [|split]]]]]]].
    + intros t i n C. destruct e as [ns| | | | |]; [| | | | |].
      { destruct FL as (FA & FO). cbn in He. destruct (entry_of_ok ns ltac:(lia)) as (EB & EL).
        destruct (counted_add _ _ _ _ _ (match t, table_of ns with Tn, Tn | Tu, Tu | Tm, Tm => Nat.eqb i (entry_of ns) | _, _ => false end) C) as (n' & C' & ->).
        { split.
          - intros B. assert (t = table_of ns /\ i = entry_of ns) as (-> & ->) by (destruct t, (table_of ns); try discriminate; split; auto; apply Nat.eqb_eq; auto). exists ns. auto.
          - intros (ns' & X & Y). inversion X; subst ns'. destruct (lat_entry_unique _ _ _ _ _ Y EL) as (-> & ->). destruct (table_of ns); apply Nat.eqb_refl. }
        rewrite (I1 t i n' C'). assert (T : t = table_of ns \/ t <> table_of ns) by (destruct t, (table_of ns); auto; right; discriminate). destruct T as [->|T].
        - rewrite (NA _ _ _ i FA). destruct (table_of ns); lia.
        - rewrite (FO t T). destruct t, (table_of ns); cbn [b2z]; try lia; congruence. }
      all: destruct (counted_add _ _ _ _ _ false C) as (n' & C' & ->); [split; [discriminate|intros (ns & X & _); discriminate]|]; rewrite (I1 t i n' C'), (FL t); cbn; lia.
    + intros n C. destruct (counted_add _ _ _ _ _ (match e with ELat _ => true | _ => false end) C) as (n' & C' & ->).
      { destruct e; split; try discriminate; intros X; eauto; destruct X; discriminate. }
      rewrite (I2 n' C'), FT. destruct e; cbn [b2z]; lia.
    + intros i n C. destruct (submits e) as [nr|] eqn:SE.
      * assert (NR : 0 <= nr) by (destruct e; cbn in SE, He; try discriminate; try (destruct nocommit; inversion SE; lia); inversion SE; subst; lia). destruct (map_idx_ok nr NR) as (IB & IE). destruct FS as (FA & _).
        destruct (counted_add _ _ _ _ _ (Nat.eqb i (Z.to_nat (map_idx nr))) C) as (n' & C' & ->).
        { rewrite Nat.eqb_eq. split; [intros ->; eauto|intros (nr' & X & Y); rewrite SE in X; inversion X; subst; eapply submit_unique; eauto]. }
        rewrite (I3 i n' C'), (NA _ _ _ i FA). lia.
      * destruct FS as (FA & _). destruct (counted_add _ _ _ _ _ false C) as (n' & C' & ->); [rewrite SE; split; [discriminate|intros (nr & X & _); discriminate]|]. rewrite (I3 i n' C'), FA. cbn. lia.
    + intros n C. destruct (submits e) as [nr|] eqn:SE; destruct FS as (_ & FA).
      * destruct (counted_add _ _ _ _ _ true C) as (n' & C' & ->); [rewrite SE; split; [discriminate|auto]|]. rewrite (I4 n' C'), FA. cbn. lia.
      * destruct (counted_add _ _ _ _ _ false C) as (n' & C' & ->); [rewrite SE; split; [discriminate|intros X; exfalso; auto]|]. rewrite (I4 n' C'), FA. cbn. lia.
    + intros i n C. destruct (completes e) as [nr|] eqn:SE.
      * assert (NR : 0 <= nr) by (destruct e; cbn in SE, He; try discriminate; try (destruct nocommit; inversion SE; lia); inversion SE; subst; lia). destruct (map_idx_ok nr NR) as (IB & IE). destruct FC as (FA & _).
        destruct (counted_add _ _ _ _ _ (Nat.eqb i (Z.to_nat (map_idx nr))) C) as (n' & C' & ->).
        { rewrite Nat.eqb_eq. split; [intros ->; eauto|intros (nr' & X & Y); rewrite SE in X; inversion X; subst; eapply submit_unique; eauto]. }
        rewrite (I5 i n' C'), (NA _ _ _ i FA). lia.
      * destruct FC as (FA & _). destruct (counted_add _ _ _ _ _ false C) as (n' & C' & ->); [rewrite SE; split; [discriminate|intros (nr & X & _); discriminate]|]. rewrite (I5 i n' C'), FA. cbn. lia.
    + intros n C. destruct (completes e) as [nr|] eqn:SE; destruct FC as (_ & FA).
      * destruct (counted_add _ _ _ _ _ true C) as (n' & C' & ->); [rewrite SE; split; [discriminate|auto]|]. rewrite (I6 n' C'), FA. cbn. lia.
      * destruct (counted_add _ _ _ _ _ false C) as (n' & C' & ->); [rewrite SE; split; [discriminate|intros X; exfalso; auto]|]. rewrite (I6 n' C'), FA. cbn. lia.
    + intros n C. destruct (counted_add _ _ _ _ _ (is_rw e) C) as (n' & C' & ->); [tauto|]. rewrite (I7 n' C'), FR. lia.
    + intros n C. destruct (counted_add _ _ _ _ _ (is_sync e) C) as (n' & C' & ->); [tauto|]. rewrite (I8 n' C'), FY. lia.
    + intros n C. destruct (counted_add _ _ _ _ _ (is_stray e) C) as (n' & C' & ->); [tauto|]. rewrite (I9 n' C'). lia.
Qed.

(** ** Percentages *)
Open Scope Q_scope.
Lemma percent_bounds least tt v : 0 <= least -> (0 < tt)%Z -> (0 <= v)%Z -> let p := inject_Z v / inject_Z tt * 100 in p <= percent least tt v /\ percent least tt v <= p + least /\ ((v <> 0)%Z -> least <= percent least tt v).
Proof.
  intros HL HT HV p. assert (P0 : 0 <= p).
  { unfold p, Qdiv. assert (0 <= inject_Z v) by (change 0 with (inject_Z 0); rewrite <- Zle_Qle; auto). assert (0 < inject_Z tt) by (change 0 with (inject_Z 0); rewrite <- Zlt_Qlt; auto).
    assert (0 < / inject_Z tt) by (apply Qinv_lt_0_compat; auto). assert (0 <= inject_Z v * / inject_Z tt) by nra. lra. }
  unfold percent. destruct (Z.eqb_spec tt 0); [lia|]. fold p. cbv zeta. destruct (Qle_bool least p) eqn:E; cbn [negb andb].
  - apply Qle_bool_iff in E. split; [lra|]. split; lra.
  - assert (N : p < least) by (apply Qnot_le_lt; rewrite <- Qle_bool_iff, E; discriminate). destruct (Z.eqb_spec v 0); cbn [negb]; [split; [lra|split; [lra|lia]]|split; [lra|split; lra]].
Qed.
Lemma percents_total least tt : 0 <= least -> (0 < tt)%Z -> forall l, Forall (fun v => (0 <= v)%Z) l ->
  inject_Z (total l) / inject_Z tt * 100 <= qtotal (map (percent least tt) l) /\ qtotal (map (percent least tt) l) <= inject_Z (total l) / inject_Z tt * 100 + inject_Z (Z.of_nat (length l)) * least.
Proof.
  intros HL HT. assert (HZ : ~ inject_Z tt == 0) by (change 0 with (inject_Z 0); rewrite inject_Z_injective; lia). induction l as [|v l IH]; intros F.
  - cbn [total map qtotal length Z.of_nat]. assert (E : inject_Z 0 / inject_Z tt * 100 == 0) by (field; auto). rewrite E. change (inject_Z 0) with 0. split; lra.
  - inversion F; subst. destruct (IH H2) as (A & B). destruct (percent_bounds least tt v HL HT H1) as (C & D & _). cbn [total map qtotal].
    assert (E : inject_Z (v + total l) / inject_Z tt * 100 == inject_Z v / inject_Z tt * 100 + inject_Z (total l) / inject_Z tt * 100) by (rewrite inject_Z_plus; field; auto). rewrite E.
    assert (EL : inject_Z (Z.of_nat (length (v :: l))) == 1 + inject_Z (Z.of_nat (length l))) by (cbn [length]; rewrite Nat2Z.inj_succ; unfold Z.succ; rewrite inject_Z_plus; change (inject_Z 1) with 1; ring).
    rewrite EL. set (y := inject_Z (total l) / inject_Z tt * 100) in *. set (x := inject_Z v / inject_Z tt * 100) in *. clearbody x y. split; [lra|]. rewrite Qmult_plus_distr_l. lra.
Qed.
