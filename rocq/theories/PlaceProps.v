(** Property C55: writes are placed where the job asks. *)
From Coq Require Import ZArith List Lia Bool String Permutation Sorted.
From Verif Require Import CBase CStr UnitsModel UnitsSpec UnitsProofs RandModel RandProofs RandProps ZdModel ZdSpec ZdProofs PlaceModel PlaceSpec PlaceProofs.
Import ListNotations.
Open Scope Z_scope.

Lemma ranged_commas ts rs : Forall2 ranged ts rs -> Forall good rs -> Forall (fun x => ~ In 44 x) ts.
Proof.
  intros F G. induction F as [|t r ts rs W F IH]; constructor; [|apply IH; eapply Forall_inv_tail; eauto]. pose proof (Forall_inv G) as (G1 & G2). apply (ranged_reads t r W); lia.
Qed.
(** A list of values and ranges is read as the identifiers written, in ascending order. *)
Theorem C55_ids ts rs : ts <> [] -> Forall2 ranged ts rs -> Forall good rs -> (List.length (flat_map ids_of rs) <= 128)%nat ->
  exists ids, parse_ids (join "," ts) = (true, ids) /\ Permutation ids (flat_map ids_of rs) /\ Sorted Z.le ids.
Proof.
  intros N F G L. unfold parse_ids. rewrite (fields_join 44 "," ts eq_refl N (ranged_commas ts rs F G)). rewrite <- (app_nil_r ts), (id_list_app ts rs [] max_dp_ids F G L). cbn [id_list]. rewrite app_nil_r.
  eexists. split; [reflexivity|]. split; [apply sort_perm|apply sort_sorted].
Qed.
(** The identifiers of a range are those between its ends, once each. *)
Theorem C55_range r x : (In x (ids_of r) <-> fst r <= x <= snd r) /\ NoDup (ids_of r).
Proof.
  unfold ids_of. split.
  - rewrite in_map_iff. split; [intros (j & <- & I); apply in_seq in I; lia|]. intros H. exists (Z.to_nat (x - fst r)). split; [lia|]. apply in_seq. lia.
  - apply FinFun.Injective_map_NoDup; [intros a b E; lia|apply seq_NoDup].
Qed.
(** A range that is the wrong way round, an identifier of more than 16 bits or more than 128 of them are errors, whatever follows. *)
Theorem C55_rejects ts rs t r us : Forall2 ranged ts rs -> Forall good rs -> (List.length (flat_map ids_of rs) <= 128)%nat -> ranged t r -> fst r < 2 ^ 32 - 1 -> snd r < 2 ^ 32 - 1 ->
  snd r < fst r \/ 65535 < snd r \/ (128 < List.length (flat_map ids_of (rs ++ [r])))%nat -> Forall (fun x => ~ In 44 x) us -> fst (parse_ids (join "," (ts ++ t :: us))) = false.
Proof.
  intros F G L W A B BAD U. destruct (ranged_reads t r W B A) as (N0 & N1 & N2 & E). unfold parse_ids. rewrite (fields_join 44 "," (ts ++ t :: us) eq_refl).
  2: { destruct ts; discriminate. } 2: { apply Forall_app. split; [apply (ranged_commas ts rs F G)|constructor; auto]. }
  rewrite (id_list_app ts rs (t :: us) max_dp_ids F G L). set (room := (max_dp_ids - List.length (flat_map ids_of rs))%nat).
  assert (H : fst (id_list room (t :: us)) = false).
  { destruct t as [|c t]; [congruence|]. cbn [id_list]. rewrite E. destruct (Z.ltb_spec (snd r) (fst r)) as [Q|Q]; [reflexivity|]. destruct r as [s e]. cbn [fst snd] in *.
    pose proof (add_bad room s e Q) as AB. destruct (add_ids room s e) as [ok l]. cbn [fst] in AB. rewrite AB; [reflexivity|]. destruct BAD as [BAD|[BAD|BAD]]; [lia|left; exact BAD|right].
    rewrite flat_map_app, app_length in BAD. cbn [flat_map] in BAD. rewrite app_nil_r in BAD. unfold room, max_dp_ids. lia. }
  destruct (id_list room (t :: us)) as [ok l]. cbn [fst] in *. exact H.
Qed.

(** The table of a file: streams are the identifiers themselves; for FDP the identifiers are indices of the device's handles, each of which
    must exist, and by default all (up to 128) are used. *)
Theorem C55_table dev ids : Forall (fun i => 0 <= i) ids ->
  (init_plis false dev ids = if (List.length ids =? 0)%nat then None else Some ids) /\
  (ids = [] -> init_plis true dev ids = Some (firstn 128 dev)) /\
  (ids <> [] -> match init_plis true dev ids with Some plis => Forall2 (fun i p => nth_error dev (Z.to_nat i) = Some p) ids plis | None => exists i, In i ids /\ Z.of_nat (List.length dev) <= i end).
Proof.
  intros P. split; [destruct ids; reflexivity|]. split; [intros ->; reflexivity|]. intros N. unfold init_plis. destruct ids as [|i0 ids]; [congruence|]. set (l := i0 :: ids) in *. clearbody l. clear N.
  destruct (forallb (fun i => i <? Z.of_nat (List.length dev)) l) eqn:E.
  - rewrite forallb_forall in E. induction P as [|i l I P IH]; cbn [map]; constructor; [|apply IH; intros x X; apply E; right; auto].
    apply nth_error_nth'. specialize (E i (or_introl eq_refl)). lia.
  - clear P. induction l as [|i l IH]; [discriminate|]. cbn [forallb] in E. destruct (Z.ltb_spec i (Z.of_nat (List.length dev))) as [Q|Q].
    + destruct (IH E) as (x & X1 & X2). exists x. split; [right; auto|auto].
    + exists i. split; [left; reflexivity|exact Q].
Qed.

(** Round robin: in any sequence of I/Os the n-th write of a file gets the n-th identifier, cyclically; others get none. *)
Theorem C55_roundrobin fdp plis es ios : plis <> [] -> Z.of_nat (List.length plis) < 2 ^ 32 ->
  exists outs, fills RoundRobin fdp plis es 0 ios = Some outs /\ List.length outs = List.length ios /\
    forall i w off r, nth_error ios i = Some (w, off, r) ->
      nth_error outs i = Some (if w then (if fdp then 2 else 1, nth (writes (firstn i ios) mod List.length plis) plis 0) else (0, 0)).
Proof.
  intros N K. destruct (rr_all fdp es plis N K ios 0 0) as (outs & A & B & C); [lia| |exists outs; auto].
  assert (0 < List.length plis)%nat by (destruct plis; [congruence|cbn; lia]). rewrite Nat.mod_0_l by lia. unfold turn. destruct (Z.leb_spec (Z.of_nat (List.length plis)) 0); [lia|reflexivity].
Qed.
(** Random: each of the n identifiers has its even part of the random numbers. *)
Theorem C55_random fdp plis es loc off r : plis <> [] -> (List.length plis <= 128)%nat -> 0 <= r < 2 ^ 32 ->
  exists loc', fill Random fdp plis es loc true off r = Some (if fdp then 2 else 1, nth (Z.to_nat (r * Z.of_nat (List.length plis) / 2 ^ 32)) plis 0, loc').
Proof.
  intros N L R. unfold fill. cbn [negb]. set (k := Z.of_nat (List.length plis)). assert (K : 0 < k <= 128) by (unfold k; destruct plis; [congruence|cbn [List.length] in *; lia]).
  unfold between. rewrite (u32_id (k - 1)) by lia. rewrite Z.sub_0_r, (u32_id (k - 1)) by lia. rewrite (C46_scaled r (k - 1) R) by lia. replace (k - 1 + 1) with k by lia. cbn [Z.add].
  assert (V : 0 <= r * k / 2 ^ 32 < k) by (split; [apply Z.div_pos; [apply Z.mul_nonneg_nonneg; lia|lia]|apply Z.div_lt_upper_bound; [lia|]; apply Z.mul_lt_mono_pos_r; lia]).
  rewrite u64_id by lia. rewrite (nth_error_nth' plis 0) by (unfold k in *; lia). eexists. destruct fdp; reflexivity.
Qed.
(** Scheme: the first entry that has the offset decides, 0 is for the others. *)
Theorem C55_scheme fdp plis es loc off r : Forall (fun e => 0 <= pli e < 2 ^ 16) es -> (List.length es <= 32)%nat ->
  (forall es1 e es2, es = es1 ++ e :: es2 -> start_offset e <= off < end_offset e -> Forall (fun x => ~ (start_offset x <= off < end_offset x)) es1 ->
     fill Scheme fdp plis (init_scheme es) loc true off r = Some (if fdp then 2 else 1, pli e, loc)) /\
  (Forall (fun x => ~ (start_offset x <= off < end_offset x)) es -> fill Scheme fdp plis (init_scheme es) loc true off r = Some (if fdp then 2 else 1, 0, loc)).
Proof.
  intros P L. assert (I : init_scheme es = es).
  { unfold init_scheme. rewrite firstn_all2 by exact L. rewrite <- (map_id es) at 2. apply map_ext_in. intros [a b c] X. rewrite Forall_forall in P. apply P in X. cbn [start_offset end_offset pli] in *. f_equal. unfold u16. apply Z.mod_small. lia. }
  rewrite I. unfold fill. cbn [negb]. split.
  - intros es1 e es2 E C F. rewrite E, (lookup_first es1 e es2 off C F). destruct fdp; reflexivity.
  - intros F. rewrite (lookup_none es off F). destruct fdp; reflexivity.
Qed.
(** Only writes are placed. *)
Theorem C55_others sel fdp plis es loc off r : fill sel fdp plis es loc false off r = Some (0, 0, loc).
Proof. reflexivity. Qed.

(** What does not hold. A leading zero makes a number octal; a missing start is 0; of three numbers the middle one is ignored; an empty
    element ends the list; a range to 2^32-1 is one identifier, and numbers wrap at 2^32. *)
Theorem C55_text_refuted : parse_ids (codes "010") = (true, [8]) /\ parse_ids (codes "-2") = (true, [0]) /\ parse_ids (codes "1-9-3") = (true, [1; 2; 3]) /\ parse_ids (codes "1,,2") = (true, [1]) /\
  parse_ids (codes "7-4294967295") = (true, [7]) /\ parse_ids (codes "4294967297") = (true, [1]) /\ parse_ids (codes "x") = (true, [0]).
Proof. split; [|split; [|split; [|split; [|split; [|split]]]]]; vm_compute; reflexivity. Qed.
(** Identifiers given twice get two turns. *)
Theorem C55_twice_refuted : parse_ids (codes "1,0-1") = (true, [0; 1; 1]) /\ fills RoundRobin true [0; 1; 1] [] 0 (repeat (true, 0, 0) 3) = Some [(2, 0); (2, 1); (2, 1)].
Proof. split; vm_compute; reflexivity. Qed.
(** A device without handles is not refused, and the first write reads outside the table. *)
Theorem C55_empty_refuted : init_plis true [] [] = Some [] /\ fill RoundRobin true [] [] 0 true 0 0 = None /\ fill Random true [] [] 0 true 0 0 = None.
Proof. split; [|split]; vm_compute; reflexivity. Qed.
(** The scheme has identifiers, not indices of the device's handles. *)
Theorem C55_index_refuted : init_plis true [5; 6] [1] = Some [6] /\ fill Scheme true [5; 6] (init_scheme [Entry 0 100 1]) 0 true 50 0 = Some (2, 1, 0).
Proof. split; vm_compute; reflexivity. Qed.
(** Entries after the 32nd do not count. *)
Theorem C55_entries_refuted : fill Scheme true [1] (init_scheme (repeat (Entry 0 10 1) 32 ++ [Entry 10 20 2])) 0 true 15 0 = Some (2, 0, 0).
Proof. vm_compute. reflexivity. Qed.

(** The example of the manual. *)
Example C55_manual_ex : parse_ids (codes "1,2-4,5,6-8") = (true, [1; 2; 3; 4; 5; 6; 7; 8]) /\ ranged (codes "2-4") (2, 4) /\ init_plis true [10; 11; 12; 13; 14; 15] [0; 2; 5] = Some [10; 12; 15].
Proof.
  split; [vm_compute; reflexivity|]. split; [|vm_compute; reflexivity]. apply (Rtwo [50] 2 [52] 4); (split; [|right; eexists; eexists; split; [reflexivity|lia]]); [apply (D1 2)|apply (D1 4)]; lia.
Qed.
Example C55_roundrobin_ex : fills RoundRobin true [10; 12] [] 0 [(true, 0, 0); (false, 0, 0); (true, 0, 0); (true, 0, 0)] = Some [(2, 10); (0, 0); (2, 12); (2, 10)].
Proof. vm_compute. reflexivity. Qed.

Print Assumptions C55_ids.
Print Assumptions C55_rejects.
Print Assumptions C55_roundrobin.
Print Assumptions C55_random.
Print Assumptions C55_scheme.
