(** C26: a value added to a bloom filter is always reported as present; the list of file names that are already laid
    out is exact. *)
From Coq Require Import ZArith List Lia Bool.
From Verif Require Import CBase BloomModel.
Import ListNotations.
Open Scope Z_scope.

(** ** Specification: the set of positions of the values added so far *)
Definition pos (n : Z) (h : list Z -> Z) (d : list Z) : Z := h d mod n.
Definition marked (n : Z) (hs : list (list Z -> Z)) (added : list (list Z)) (i : Z) : Prop :=
  exists d h, In d added /\ In h hs /\ i = pos n h d.
Definition bit_at (m : list Z) (i : Z) : bool := Z.testbit (nth (Z.to_nat (i / 32)) m 0) (i mod 32).

(** The filter after adding the values [added]. *)
Record good (hs : list (list Z -> Z)) (added : list (list Z)) (b : bloom) : Prop := {
  g_len : nentries b <= 32 * zlen (map_ b);
  g_pos : 0 < nentries b;
  g_words : Forall (fun w => 0 <= w < 2 ^ 32) (map_ b);
  g_bits : forall i, 0 <= i < nentries b -> (bit_at (map_ b) i = true <-> marked (nentries b) hs added i) }.

Lemma hash_all_ok n hs d : 0 < n -> hash_all n hs d = Some (map (fun h => pos n h d) hs).
Proof.
  intros N. induction hs as [|h hs IH]; auto. cbn [hash_all map]. destruct (Z.eqb_spec n 0); [lia|]. rewrite IH. reflexivity.
Qed.

Lemma shl_bit h : 0 <= h -> u32 (Z.shiftl 1 (Z.land h 31)) = 2 ^ (h mod 32).
Proof.
  intros H. change 31 with (Z.ones 5). rewrite Z.land_ones by lia. change (2 ^ 5) with 32. pose proof (Z.mod_pos_bound h 32 ltac:(lia)).
  rewrite Z.shiftl_mul_pow2, Z.mul_1_l by lia. unfold u32. apply Z.mod_small. split; [apply Z.pow_nonneg; lia|apply Z.pow_lt_mono_r; lia].
Qed.
Lemma land_bit w k : 0 <= k -> (Z.land w (2 ^ k) =? 0) = negb (Z.testbit w k).
Proof.
  intros K. destruct (Z.testbit w k) eqn:T; cbn.
  - apply Z.eqb_neq. intros E. assert (A : Z.testbit (Z.land w (2 ^ k)) k = true) by (rewrite Z.land_spec, T, Z.pow2_bits_true; auto). rewrite E, Z.testbit_0_l in A. discriminate.
  - apply Z.eqb_eq. apply Z.bits_inj'. intros i I. rewrite Z.land_spec, Z.testbit_0_l, Z.pow2_bits_eqb by auto. destruct (Z.eqb_spec k i); [subst; rewrite T; auto|apply andb_false_r].
Qed.

Lemma words_upd m i v : Forall (fun w => 0 <= w < 2 ^ 32) m -> 0 <= v < 2 ^ 32 -> Forall (fun w => 0 <= w < 2 ^ 32) (upd m i v).
Proof.
  intros F V. revert i. induction F as [|w m W F IH]; intros [|i]; cbn [upd]; constructor; auto.
Qed.

Lemma check_ok set n : forall hash m ws, 0 < n -> n <= 32 * zlen m -> Forall (fun w => 0 <= w < 2 ^ 32) m -> Forall (fun h => 0 <= h < n) hash ->
  exists m' r, check set hash m ws = Some (m', ws + r) /\ zlen m' = zlen m /\ Forall (fun w => 0 <= w < 2 ^ 32) m' /\ 0 <= r <= zlen hash /\
    (forall i, 0 <= i < n -> bit_at m' i = bit_at m i || (set && existsb (Z.eqb i) hash)) /\
    (set = false -> m' = m) /\ (r = zlen hash <-> forall h, In h hash -> bit_at m h = true).
Proof.
  induction hash as [|h hash IH]; intros m ws N NL W FH; cbn [check].
  - exists m, 0. rewrite Z.add_0_r. do 3 (split; [auto|]). split; [cbn; lia|]. split; [|split; [auto|split; [intros _ h []|auto]]].
    intros i Hi. cbn. rewrite andb_false_r, orb_false_r. auto.
  - inversion FH as [|? ? Hh FH']; subst. pose proof (Z.div_mod h 32 ltac:(lia)). pose proof (Z.mod_pos_bound h 32 ltac:(lia)).
    assert (HI : 0 <= h / 32 < zlen m) by (split; [apply Z.div_pos; lia|apply Z.div_lt_upper_bound; lia]).
    rewrite (znth_nth m _ 0 HI), shl_bit by lia. rewrite land_bit by lia. rewrite negb_involutive. fold (bit_at m h).
    destruct (bit_at m h) eqn:BT.
    + destruct (IH m (ws + 1) N NL W FH') as (m' & r & E & L & W' & R & B & S & C). exists m', (r + 1). rewrite E.
      split; [f_equal; f_equal; lia|]. split; [auto|]. split; [auto|]. unfold zlen in *. cbn [length]. split; [lia|]. split; [|split; [auto|]].
      * intros i Hi. rewrite (B i Hi). cbn [existsb]. destruct (Z.eqb_spec i h); [subst; rewrite BT; auto|auto].
      * split.
        -- intros HR h' [<-|I]; [auto|]. apply C; auto. lia.
        -- intros HA. assert (r = Z.of_nat (length hash)); [apply C; intros; apply HA; right; auto|lia].
    + destruct set.
      * rewrite (zupd_some m _ _ HI). set (m1 := upd m (Z.to_nat (h / 32)) _).
        assert (WM : 0 <= nth (Z.to_nat (h / 32)) m 0 < 2 ^ 32). { rewrite Forall_forall in W. apply W, nth_In. unfold zlen in HI. lia. }
        assert (P2 : 0 <= 2 ^ (h mod 32) < 2 ^ 32) by (split; [apply Z.pow_nonneg; lia|apply Z.pow_lt_mono_r; lia]).
        assert (W1 : Forall (fun w => 0 <= w < 2 ^ 32) m1) by (apply words_upd; auto; apply lor_range; lia).
        assert (L1 : zlen m1 = zlen m) by (unfold zlen, m1; rewrite upd_length; auto).
        assert (B1 : forall i, 0 <= i -> bit_at m1 i = bit_at m i || (i =? h)).
        { intros i Hi. pose proof (Z.div_mod i 32 ltac:(lia)). pose proof (Z.mod_pos_bound i 32 ltac:(lia)). unfold bit_at, m1.
          assert (0 <= i / 32) by (apply Z.div_pos; lia).
          destruct (Z.eq_dec (i / 32) (h / 32)) as [E|E].
          - rewrite E, upd_nth_same by (unfold zlen in HI; lia). rewrite Z.lor_spec, Z.pow2_bits_eqb by lia. f_equal.
            destruct (Z.eqb_spec (h mod 32) (i mod 32)), (Z.eqb_spec i h); auto; [exfalso; lia|subst; contradiction].
          - rewrite upd_nth_other by lia. destruct (Z.eqb_spec i h); [subst; contradiction|]. rewrite orb_false_r. auto. }
        destruct (IH m1 ws N ltac:(lia) W1 FH') as (m' & r & E & L & W' & R & B & S & C). exists m', r. rewrite E.
        split; [auto|]. split; [lia|]. split; [auto|]. unfold zlen in *. cbn [length]. split; [lia|]. split; [|split; [discriminate|]].
        -- intros i Hi. rewrite (B i Hi), B1 by lia. cbn [existsb andb]. rewrite orb_assoc. auto.
        -- split; [lia|]. intros HA. rewrite (HA h) in BT by (left; auto). discriminate.
      * exists m, 0. rewrite Z.add_0_r. do 3 (split; [auto|]). unfold zlen in *. cbn [length]. split; [lia|]. split; [|split; [auto|]].
        -- intros i Hi. rewrite orb_false_r. auto.
        -- split; [lia|]. intros HA. rewrite (HA h) in BT by (left; auto). discriminate.
Qed.

(** A new filter is empty; sizes within 31 of 2^64 are excluded because the word count wraps. *)
Theorem C26_new hs n : 0 < n <= 2 ^ 64 - 32 -> good hs [] (bloom_new n).
Proof.
  intros N. unfold bloom_new. pose proof (Z.div_mod (n + 32 - 1) 32 ltac:(lia)). pose proof (Z.mod_pos_bound (n + 32 - 1) 32 ltac:(lia)).
  constructor; cbn [nentries map_]; unfold u64; rewrite ?Z.mod_small by lia.
  - unfold zlen. rewrite repeat_length, Z2Nat.id by (apply Z.div_pos; lia). lia.
  - lia.
  - apply Forall_forall. intros w I. apply repeat_spec in I. subst. lia.
  - intros i Hi. unfold bit_at. assert (E : forall k m, nth k (repeat 0 m) 0 = 0) by (intros k m; revert k; induction m; destruct k; cbn; auto).
    rewrite E, Z.testbit_0_l. split; [discriminate|]. intros (d & h & [] & _).
Qed.
Print Assumptions C26_new.

(** Every access: inside the map; the answer is exactly whether all positions of the value had been marked before;
    setting marks exactly its positions, querying changes nothing. *)
Theorem C26_check hs added b d set : good hs added b ->
  exists b', bloom_check hs b d set = Some (b', true) /\ (forall h, In h hs -> marked (nentries b) hs added (pos (nentries b) h d)) /\ good hs (if set then added ++ [d] else added) b' /\ (set = false -> b' = b)
   \/ bloom_check hs b d set = Some (b', false) /\ ~ (forall h, In h hs -> marked (nentries b) hs added (pos (nentries b) h d)) /\ good hs (if set then added ++ [d] else added) b' /\ (set = false -> b' = b).
Proof.
  intros [GL GP GW GB]. unfold bloom_check. rewrite hash_all_ok by auto.
  assert (FH : Forall (fun h => 0 <= h < nentries b) (map (fun h => pos (nentries b) h d) hs)).
  { apply Forall_forall. intros p I. apply in_map_iff in I. destruct I as (h & <- & _). apply Z.mod_pos_bound. auto. }
  destruct (check_ok set (nentries b) (map (fun h => pos (nentries b) h d) hs) (map_ b) 0 GP GL GW FH) as (m' & r & -> & L & W & R & B & S & C).
  cbn [fst snd]. rewrite Z.add_0_l. exists (mkB (nentries b) m').
  assert (G' : good hs (if set then added ++ [d] else added) (mkB (nentries b) m')).
  { constructor; cbn [nentries map_]; auto; [lia|]. intros i Hi. rewrite (B i Hi). destruct set; cbn [andb].
    - rewrite orb_true_iff, (GB i Hi), existsb_exists. split.
      + intros [(d' & h & A1 & A2 & A3)|(p & I & E)]; [exists d', h; repeat split; auto; apply in_or_app; auto|].
        apply Z.eqb_eq in E. subst p. apply in_map_iff in I. destruct I as (h & <- & I). exists d, h. repeat split; auto. apply in_or_app. right. left. auto.
      + intros (d' & h & A1 & A2 & A3). apply in_app_or in A1. destruct A1 as [A1|[<-|[]]]; [left; exists d', h; auto|]. right. exists i. split; [|apply Z.eqb_refl].
        apply in_map_iff. eauto.
    - rewrite orb_false_r. auto. }
  assert (SF : set = false -> mkB (nentries b) m' = b) by (intros E; rewrite (S E); destruct b; auto).
  assert (Q : (r = Z.of_nat (length hs)) <-> (forall h, In h hs -> marked (nentries b) hs added (pos (nentries b) h d))).
  { unfold zlen in C. rewrite map_length in C. rewrite C. split.
    - intros H h I. apply GB; [apply Z.mod_pos_bound; auto|]. apply H. apply in_map_iff. eauto.
    - intros H p I. apply in_map_iff in I. destruct I as (h & <- & I). apply GB; [apply Z.mod_pos_bound; auto|auto]. }
  destruct (Z.eqb_spec r (Z.of_nat (length hs))) as [E|E]; [left|right].
  - split; [auto|]. split; [apply Q; auto|auto].
  - split; [auto|]. split; [rewrite <- Q; auto|auto].
Qed.
Print Assumptions C26_check.

(** No false negatives, through any later additions and queries. *)
Fixpoint run (hs : list (list Z -> Z)) (b : bloom) (ops : list (list Z * bool)) : option (bloom * list bool) :=
  match ops with
  | [] => Some (b, [])
  | (d, set) :: ops => do r <- bloom_check hs b d set; do q <- run hs (fst r) ops; Some (fst q, snd r :: snd q)
  end.
Fixpoint adds (ops : list (list Z * bool)) : list (list Z) :=
  match ops with [] => [] | (d, set) :: ops => (if set : bool then [d] else []) ++ adds ops end.

Lemma run_good hs : forall ops added b, good hs added b -> exists b' rs, run hs b ops = Some (b', rs) /\ good hs (added ++ adds ops) b' /\ nentries b' = nentries b.
Proof.
  induction ops as [|[d set] ops IH]; intros added b G; cbn [run adds].
  - exists b, []. rewrite app_nil_r. auto.
  - destruct (C26_check hs added b d set G) as (b1 & [(E & _ & G1 & _)|(E & _ & G1 & _)]); rewrite E; cbn [fst snd];
      (assert (N1 : nentries b1 = nentries b) by (unfold bloom_check in E; destruct (hash_all (nentries b) hs d); [|discriminate]; destruct (check set l (map_ b) 0); [|discriminate]; injection E as <- _; reflexivity));
      destruct (IH _ _ G1) as (b2 & rs & E2 & G2 & N2); rewrite E2; cbn [fst snd]; eexists _, _; (split; [reflexivity|]); (split; [|congruence]);
      (replace (added ++ (if set then [d] else []) ++ adds ops) with ((if set then added ++ [d] else added) ++ adds ops) by (destruct set; rewrite <- ?app_assoc; auto)); auto.
Qed.

Theorem C26_no_false_negative hs n ops1 ops2 d set : 0 < n <= 2 ^ 64 - 32 ->
  exists b rs b', run hs (bloom_new n) (ops1 ++ (d, true) :: ops2) = Some (b, rs) /\ bloom_check hs b d set = Some (b', true).
Proof.
  intros N. destruct (run_good hs (ops1 ++ (d, true) :: ops2) [] (bloom_new n) (C26_new hs n N)) as (b & rs & E & G & NB). exists b, rs.
  destruct (C26_check hs _ b d set G) as (b' & [(E' & _)|(_ & NM & _)]); [exists b'; auto|]. exfalso. apply NM. intros h I. exists d, h. repeat split; auto.
  clear. cbn. induction ops1 as [|[d1 s1] ops1 IH]; cbn [app adds]; [left; auto|]. apply in_or_app. auto.
Qed.
Print Assumptions C26_no_false_negative.

(** A positive answer for a value that was not added needs every one of its positions to belong to an added value; in
    particular an empty filter answers no. *)
Theorem C26_positive hs n ops d : 0 < n <= 2 ^ 64 - 32 -> hs <> [] ->
  exists b rs r, run hs (bloom_new n) ops = Some (b, rs) /\ bloom_check hs b d false = Some (b, r) /\
    (r = true <-> forall h, In h hs -> exists d' h', In d' (adds ops) /\ In h' hs /\ h d mod n = h' d' mod n).
Proof.
  intros N HN. destruct (run_good hs ops [] (bloom_new n) (C26_new hs n N)) as (b & rs & E & G & NB). cbn [app nentries bloom_new] in *.
  assert (Q : forall h, marked (nentries b) hs (adds ops) (pos (nentries b) h d) <-> exists d' h', In d' (adds ops) /\ In h' hs /\ h d mod n = h' d' mod n).
  { intros h. unfold marked, pos. rewrite NB. split; intros (d' & h' & A); exists d', h'; tauto. }
  destruct (C26_check hs _ b d false G) as (b' & [(E' & M & _ & SF)|(E' & NM & _ & SF)]); rewrite (SF eq_refl) in E'; exists b, rs.
  - exists true. split; [auto|]. split; [auto|]. split; auto. intros _ h I. apply Q. auto.
  - exists false. split; [auto|]. split; [auto|]. split; [discriminate|]. intros H. exfalso. apply NM. intros h I. apply Q. auto.
Qed.
Print Assumptions C26_positive.

(** ** The list of file names that are already laid out *)

(** After any sequence of set_already_allocated, is_already_allocated answers exactly whether the name was set, whatever
    the hash functions do, and every name is stored once. *)
Fixpoint set_all (hs : list (list Z -> Z)) (s : names) (fs : list (list Z)) : option names :=
  match fs with [] => Some s | f :: fs => do s <- set_already_allocated hs s f; set_all hs s fs end.

Definition names_ok (hs : list (list Z -> Z)) (done : list (list Z)) (s : names) : Prop :=
  (exists added, good hs added (fb s) /\ incl done added) /\ NoDup (flist s) /\ (forall f, In f (flist s) <-> In f done).

Lemma streq_ok a b : streq a b = true <-> a = b.
Proof. unfold streq. destruct (list_eq_dec Z.eq_dec a b); split; auto; discriminate. Qed.

Lemma is_alloc_ok hs done s f set : names_ok hs done s ->
  exists s', is_alloc_ hs s f set = Some (s', existsb (fun g => streq g f) (flist s)) /\ flist s' = flist s /\
    (exists added, good hs added (fb s') /\ incl done added /\ (set = true -> In f added)) /\ (set = false -> s' = s).
Proof.
  intros ((added & G & I) & ND & ST). unfold is_alloc_.
  destruct (C26_check hs added (fb s) f set G) as (b' & [(E & M & G' & SF)|(E & NM & G' & SF)]); rewrite E; cbn [fst snd negb flist].
  - exists (mkN b' (flist s)). split; [auto|]. split; [auto|]. split.
    + eexists. split; [exact G'|]. destruct set; split; auto; try discriminate; [intros x Hx; apply in_or_app; auto|intros _; apply in_or_app; right; left; auto].
    + intros ->. rewrite (SF eq_refl). destruct s; auto.
  - exists (mkN b' (flist s)). split; [|split; [auto|split]].
    + f_equal. f_equal. destruct (existsb (fun g => streq g f) (flist s)) eqn:X; auto. exfalso. apply existsb_exists in X. destruct X as (g & Ig & Eg). apply streq_ok in Eg. subst g.
      apply NM. intros h Ih. exists f, h. repeat split; auto. apply I, ST. auto.
    + eexists. split; [exact G'|]. destruct set; split; auto; try discriminate; [intros x Hx; apply in_or_app; auto|intros _; apply in_or_app; right; left; auto].
    + intros ->. rewrite (SF eq_refl). destruct s; auto.
Qed.

Lemma set_ok hs done s f : names_ok hs done s -> exists s', set_already_allocated hs s f = Some s' /\ names_ok hs (done ++ [f]) s'.
Proof.
  intros OK. destruct (is_alloc_ok hs done s f true OK) as (s' & E & FL & (added & G & I & IF) & _). destruct OK as (_ & ND & ST). unfold set_already_allocated. rewrite E.
  eexists. split; [reflexivity|]. destruct (existsb (fun g => streq g f) (flist s)) eqn:X.
  - apply existsb_exists in X. destruct X as (g & Ig & Eg). apply streq_ok in Eg. subst g. split; [|rewrite FL; split; auto].
    + exists added. split; auto. intros x Hx. apply in_app_or in Hx. destruct Hx as [Hx|[<-|[]]]; auto.
    + intros x. rewrite in_app_iff, ST. split; auto. intros [H|[<-|[]]]; auto. apply ST. auto.
  - assert (NI : ~ In f (flist s)). { intros A. enough (existsb (fun g => streq g f) (flist s) = true) by congruence. apply existsb_exists. exists f. split; auto. apply streq_ok. auto. }
    split; cbn [fb flist]; [|rewrite FL; split].
    + exists added. split; auto. intros x Hx. apply in_app_or in Hx. destruct Hx as [Hx|[<-|[]]]; auto.
    + clear -ND NI. induction (flist s) as [|g l IH]; cbn [app]; [constructor; auto; constructor|]. inversion ND; subst. constructor; [|apply IH; auto; intros A; apply NI; right; auto].
      intros A. apply in_app_or in A. destruct A as [A|[->|[]]]; auto. apply NI. left. auto.
    + intros x. rewrite !in_app_iff, ST. tauto.
Qed.

Lemma set_all_ok hs : forall fs done s, names_ok hs done s -> exists s', set_all hs s fs = Some s' /\ names_ok hs (done ++ fs) s'.
Proof.
  induction fs as [|f fs IH]; intros done s OK; cbn [set_all]; [exists s; rewrite app_nil_r; auto|].
  destruct (set_ok hs done s f OK) as (s1 & -> & OK1). destruct (IH _ _ OK1) as (s2 & -> & OK2). exists s2. rewrite <- app_assoc in OK2. auto.
Qed.

Theorem C26_file_names hs fs f : exists s b, set_all hs names_init fs = Some s /\ NoDup (flist s) /\
  is_already_allocated hs s f = Some (s, b) /\ (b = true <-> In f fs).
Proof.
  assert (OK0 : names_ok hs [] names_init).
  { split; [|split; [constructor|intros x; split; intros []]]. exists []. split; [apply C26_new; lia|apply incl_refl]. }
  destruct (set_all_ok hs fs [] names_init OK0) as (s & E & OK). exists s. destruct (is_alloc_ok hs _ s f false OK) as (s' & E' & _ & _ & SF). rewrite (SF eq_refl) in E'.
  exists (existsb (fun g => streq g f) (flist s)). split; [auto|]. split; [apply OK|]. split; [exact E'|]. rewrite existsb_exists. destruct OK as (_ & _ & ST). cbn in ST. rewrite <- ST.
  split; [intros (g & I & Eg); apply streq_ok in Eg; subst; auto|]. intros I. exists f. split; auto. apply streq_ok. auto.
Qed.
Print Assumptions C26_file_names.

(** t/dedupe.c sizes the filter as 8 * (device size / block size): a device smaller than one block gives a filter of size
    0 and the first lookup divides by zero (t/dedupe.c:529). *)
Theorem C26_empty_filter_refuted hs d set : hs <> [] -> bloom_check hs (bloom_new 0) d set = None.
Proof. intros H. destruct hs; [congruence|]. reflexivity. Qed.
Print Assumptions C26_empty_filter_refuted.

Example C26_ex : exists b, run [(fun d => 7 * hd 0 d); (fun d => 13 + hd 0 d)] (bloom_new 100) [([5], true); ([6], false); ([5], false); ([22], true)] = Some (b, [false; false; true; false]).
Proof. eexists. vm_compute. reflexivity. Qed.
