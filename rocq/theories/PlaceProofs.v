(** Proofs about data placement, for C55. *)
From Coq Require Import ZArith List Lia Bool String Permutation Sorted.
From Verif Require Import CBase CStr UnitsModel UnitsSpec UnitsProofs RandModel RandProofs RandProps ZdModel ZdSpec ZdProofs PlaceModel PlaceSpec.
Import ListNotations.
Open Scope Z_scope.

Lemma strtoull_plain ds n : plain ds n -> n < 2 ^ 64 -> strtoull0 ds = n.
Proof.
  intros (D & F) L. destruct (digits_ok ds n D) as (A & B & C & N). unfold strtoull0.
  destruct ds as [|c t]; [congruence|]. pose proof (Forall_inv B) as X. cbv beta in X. pose proof (digit_range c X) as R.
  assert (SP : snd (span isspace (c :: t)) = c :: t) by (cbn [span]; rewrite (digit_not_space c X); reflexivity). rewrite SP. destruct (Z.eqb_spec c 43); [lia|].
  destruct (Z.eqb_spec c 48) as [E|E].
  - destruct F as [F|(c' & t' & F & NE)]; [|congruence]. change (codes "0") with [48] in F. injection F as -> ->. cbv zeta. change (nval 8 (fst (span octdigit [48]))) with 0. change (nval 10 [48]) with 0 in C. lia.
  - cbv zeta. replace (fst (span digit (c :: t))) with (c :: t); [rewrite C; lia|]. rewrite <- (app_nil_r (c :: t)) at 2. rewrite (span_digits (c :: t) []); [reflexivity|exact B|intros x y Q; discriminate].
Qed.
Lemma plain_no ds n c : plain ds n -> (c < 48 \/ 57 < c) -> ~ In c ds /\ ds <> [] /\ 0 <= n.
Proof. intros (D & _) R. split; [apply (digits_not_in ds n c D R)|]. split; [apply (digits_nonnil _ _ D)|apply (digits_nonneg _ _ D)]. Qed.
Lemma u32_id x : 0 <= x < 2 ^ 32 -> u32 x = x.
Proof. intros H. unfold u32. apply Z.mod_small. lia. Qed.
Lemma last_cons p parts e : p <> [] -> last_end (p :: parts) e = last_end parts (u32 (strtoull0 p)).
Proof. intros H. destruct p; [congruence|reflexivity]. Qed.
Lemma ranged_reads t r : ranged t r -> snd r < 2 ^ 32 - 1 -> fst r < 2 ^ 32 - 1 -> 0 <= fst r /\ t <> [] /\ ~ In 44 t /\ id_range t = (if snd r <? fst r then None else Some r).
Proof.
  intros H L1 L2. unfold id_range. destruct H as [a A P|a A b B P1 P2]; cbn [fst snd] in *.
  - destruct (plain_no a A 45 P ltac:(lia)) as (N1 & N2 & N3). destruct (plain_no a A 44 P ltac:(lia)) as (N4 & _). rewrite (fields_one 45 a N1). cbn [hd]. rewrite (last_cons a [] m1U N2). cbn [last_end]. rewrite (strtoull_plain a A P), u32_id by lia.
    unfold m1U. destruct (Z.eqb_spec A (2 ^ 32 - 1)); [lia|]. cbv zeta. rewrite Z.ltb_irrefl. auto.
  - destruct (plain_no a A 45 P1 ltac:(lia)) as (N1 & N2 & N3). destruct (plain_no b B 45 P2 ltac:(lia)) as (M1 & M2 & M3). destruct (plain_no a A 44 P1 ltac:(lia)) as (N4 & _). destruct (plain_no b B 44 P2 ltac:(lia)) as (M4 & _).
    change (codes "-") with [45]. cbn [app]. split; [exact N3|]. split; [destruct a; [congruence|discriminate]|]. split. { rewrite in_app_iff. cbn [In]. intros [X|[X|X]]; auto. lia. }
    rewrite (fields_app 45 a b N1), (fields_one 45 b M1). cbn [hd]. rewrite (last_cons a _ m1U N2), (last_cons b [] _ M2). cbn [last_end]. rewrite (strtoull_plain a A P1), (strtoull_plain b B P2), !u32_id by lia.
    unfold m1U. destruct (Z.eqb_spec B (2 ^ 32 - 1)); [lia|]. reflexivity.
Qed.

Lemma ids_step s e : s <= e -> ids_of (s, e) = s :: ids_of (s + 1, e).
Proof.
  intros H. unfold ids_of. cbn [fst snd]. replace (Z.to_nat (e - s + 1)) with (S (Z.to_nat (e - (s + 1) + 1))) by lia. cbn [List.seq map]. f_equal; [lia|]. rewrite <- seq_shift, map_map. apply map_ext. intros j. lia.
Qed.
Lemma ids_none s e : e < s -> ids_of (s, e) = [].
Proof. intros H. unfold ids_of. cbn [fst snd]. replace (Z.to_nat (e - s + 1)) with 0%nat by lia. reflexivity. Qed.
Lemma ids_length r : List.length (ids_of r) = Z.to_nat (snd r - fst r + 1).
Proof. unfold ids_of. rewrite map_length, seq_length. reflexivity. Qed.
Lemma add_ok : forall room s e, e <= 65535 -> (List.length (ids_of (s, e)) <= room)%nat -> add_ids room s e = (true, ids_of (s, e)).
Proof.
  induction room as [|room IH]; intros s e E L; cbn [add_ids]; destruct (Z.ltb_spec e s) as [Q|Q]; try (rewrite (ids_none s e Q); reflexivity).
  - rewrite ids_length in L. cbn [fst snd] in L. lia.
  - unfold max_id. destruct (Z.ltb_spec 65535 s); [lia|]. rewrite (ids_step s e Q) in *. cbn [List.length] in L. rewrite (IH (s + 1) e E) by lia. reflexivity.
Qed.
Lemma add_bad : forall room s e, s <= e -> 65535 < e \/ (room < List.length (ids_of (s, e)))%nat -> fst (add_ids room s e) = false.
Proof.
  induction room as [|room IH]; intros s e SE B; cbn [add_ids]; destruct (Z.ltb_spec e s) as [Q|Q]; try lia; [reflexivity|].
  unfold max_id. destruct (Z.ltb_spec 65535 s); [reflexivity|]. assert (H1 : fst (add_ids room (s + 1) e) = false). { rewrite (ids_step s e SE) in B. cbn [List.length] in B. destruct (Z.eq_dec s e) as [->|NE].
    - rewrite (ids_none (e + 1) e) in B by lia. cbn in B. lia.
    - apply IH; [lia|]. destruct B; [left; auto|right; lia]. }
  destruct (add_ids room (s + 1) e). exact H1.
Qed.
Lemma id_list_app : forall ts rs us room, Forall2 ranged ts rs -> Forall good rs -> (List.length (flat_map ids_of rs) <= room)%nat ->
  id_list room (ts ++ us) = (let (ok, l) := id_list (room - List.length (flat_map ids_of rs)) us in (ok, flat_map ids_of rs ++ l)).
Proof.
  intros ts rs us room F. revert room. induction F as [|t r ts rs W F IH]; intros room G L; cbn [app flat_map] in *.
  - rewrite Nat.sub_0_r. destruct (id_list room us). reflexivity.
  - pose proof (Forall_inv G) as (G1 & G2). destruct (ranged_reads t r W ltac:(lia) ltac:(lia)) as (N0 & N1 & _ & E). destruct t as [|c t]; [congruence|]. cbn [id_list]. rewrite E. destruct (Z.ltb_spec (snd r) (fst r)); [lia|]. destruct r as [s e]. cbn [fst snd] in *.
    rewrite app_length in L. rewrite add_ok by lia. rewrite (IH (room - List.length (ids_of (s, e)))%nat (Forall_inv_tail G)) by lia. rewrite app_length, Nat.sub_add_distr. destruct (id_list _ us). rewrite app_assoc. reflexivity.
Qed.

Lemma insert_perm x l : Permutation (insert x l) (x :: l).
Proof. induction l as [|y l IH]; cbn [insert]; [reflexivity|]. destruct (x <=? y); [reflexivity|]. rewrite IH. apply perm_swap. Qed.
Lemma sort_perm l : Permutation (sort l) l.
Proof. induction l as [|x l IH]; [reflexivity|]. cbn [sort fold_right]. fold (sort l). rewrite insert_perm, IH. reflexivity. Qed.
Lemma insert_hd y x l : y <= x -> HdRel Z.le y l -> HdRel Z.le y (insert x l).
Proof. intros H I. destruct l as [|z l]; cbn [insert]; [constructor; auto|]. destruct (x <=? z); constructor; auto. inversion I; auto. Qed.
Lemma insert_sorted x l : Sorted Z.le l -> Sorted Z.le (insert x l).
Proof.
  intros H. induction H as [|y l H IH I]; cbn [insert]; [constructor; constructor|]. destruct (Z.leb_spec x y).
  - constructor; [constructor; auto|constructor; auto].
  - constructor; [exact IH|]. apply insert_hd; [lia|exact I].
Qed.
Lemma sort_sorted l : Sorted Z.le (sort l).
Proof. induction l as [|x l IH]; [constructor|]. cbn [sort fold_right]. apply insert_sorted, IH. Qed.

(** Round robin. *)
Definition turn (k loc : Z) : Z := if k <=? loc then 0 else loc.
Lemma rr_all fdp es plis : plis <> [] -> Z.of_nat (List.length plis) < 2 ^ 32 -> forall ios n loc, 0 <= loc <= Z.of_nat (List.length plis) -> turn (Z.of_nat (List.length plis)) loc = Z.of_nat (n mod List.length plis) ->
  exists outs, fills RoundRobin fdp plis es loc ios = Some outs /\ List.length outs = List.length ios /\
    forall i w off r, nth_error ios i = Some (w, off, r) -> nth_error outs i = Some (if w then (if fdp then 2 else 1, nth ((n + writes (firstn i ios)) mod List.length plis) plis 0) else (0, 0)).
Proof.
  intros N K. set (k := List.length plis) in *. assert (K0 : (0 < k)%nat) by (unfold k; destruct plis; [congruence|cbn; lia]).
  induction ios as [|[[w off] r] ios IH]; intros n loc L T.
  - exists []. split; [reflexivity|]. split; [reflexivity|]. intros i w off r E. destruct i; discriminate.
  - cbn [fills]. unfold fill. destruct w; cbn [negb].
    + fold k. fold (turn (Z.of_nat k) loc). cbv zeta. rewrite T, Nat2Z.id. pose proof (Nat.mod_upper_bound n k ltac:(lia)) as MB.
      rewrite (nth_error_nth' plis 0) by (unfold k in *; lia). cbn [snd fst]. rewrite u32_id by lia.
      destruct (IH (S n) (Z.of_nat (n mod k) + 1)) as (outs & E & LE & O); [lia| |].
      { unfold turn. destruct (Z.leb_spec (Z.of_nat k) (Z.of_nat (n mod k) + 1)).
        - assert (Q : (n mod k = k - 1)%nat) by lia. assert (S n mod k = 0)%nat as ->; [|reflexivity]. rewrite <- Nat.add_1_r, Nat.add_mod by lia. rewrite Q. destruct (Nat.eq_dec k 1) as [->|]; [reflexivity|]. rewrite (Nat.mod_small 1) by lia. replace (k - 1 + 1)%nat with k by lia. apply Nat.mod_same. lia.
        - assert (S n mod k = n mod k + 1)%nat as ->; [|lia]. rewrite <- Nat.add_1_r, Nat.add_mod by lia. rewrite (Nat.mod_small 1) by lia. apply Nat.mod_small. lia. }
      rewrite E. eexists. split; [reflexivity|]. split; [cbn [List.length]; lia|]. intros i w off' r' EI. destruct i as [|i]; cbn [nth_error firstn] in *.
      * injection EI as <- <- <-. cbn [writes filter fst List.length]. unfold writes. cbn [filter List.length]. rewrite Nat.add_0_r. destruct fdp; reflexivity.
      * rewrite (O i w off' r' EI). unfold writes. cbn [filter fst List.length]. rewrite Nat.add_succ_r. reflexivity.
    + cbn [snd fst]. destruct (IH n loc L T) as (outs & E & LE & O). rewrite E. eexists. split; [reflexivity|]. split; [cbn [List.length]; lia|]. intros i w off' r' EI. destruct i as [|i]; cbn [nth_error firstn] in *.
      * injection EI as <- <- <-. reflexivity.
      * rewrite (O i w off' r' EI). unfold writes. cbn [filter fst]. reflexivity.
Qed.

(** The scheme. *)
Definition covers (e : scheme_entry) (off : Z) : Prop := start_offset e <= off < end_offset e.
Lemma lookup_first es1 e es2 off : covers e off -> Forall (fun x => ~ covers x off) es1 -> lookup (es1 ++ e :: es2) off = pli e.
Proof.
  intros C F. unfold covers in *. induction F as [|x l X F IH]; cbn [app lookup].
  - destruct (Z.leb_spec (start_offset e) off); [|lia]. destruct (Z.ltb_spec off (end_offset e)); [reflexivity|lia].
  - destruct (Z.leb_spec (start_offset x) off); cbn [andb]; [|exact IH]. destruct (Z.ltb_spec off (end_offset x)); [lia|exact IH].
Qed.
Lemma lookup_none es off : Forall (fun x => ~ covers x off) es -> lookup es off = 0.
Proof. intros F. unfold covers in *. induction F as [|x l X F IH]; cbn [lookup]; [reflexivity|]. destruct (Z.leb_spec (start_offset x) off); cbn [andb]; [|exact IH]. destruct (Z.ltb_spec off (end_offset x)); [lia|exact IH]. Qed.
