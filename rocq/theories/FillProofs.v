(** Proofs about the filling of buffers. *)
From Coq Require Import ZArith Znumtheory Zpow_facts List Lia Bool Arith.
From Verif Require Import CBase Orbit RandModel PatternModel PatternSpec FillModel FillSpec.
Import ListNotations.
Open Scope Z_scope.

Lemma le_len n : forall v, length (le_bytes n v) = n.
Proof. induction n; simpl; auto. Qed.

Lemma le_inj n : forall a b, 0 <= a < 256 ^ Z.of_nat n -> 0 <= b < 256 ^ Z.of_nat n -> le_bytes n a = le_bytes n b -> a = b.
Proof.
  induction n as [|n IH]; intros a b Ha Hb H.
  - simpl in Ha, Hb. lia.
  - cbn [le_bytes] in H. injection H as H1 H2.
    rewrite Nat2Z.inj_succ, Z.pow_succ_r in Ha, Hb by lia.
    assert (a / 256 = b / 256).
    { apply IH; auto; split; try (apply Z.div_pos; lia); apply Z.div_lt_upper_bound; lia. }
    rewrite (Z.div_mod a 256), (Z.div_mod b 256) by lia. lia.
Qed.

Lemma bow_len w : length (bytes_of_words w) = (8 * length w)%nat.
Proof. induction w as [|x w IH]; [reflexivity|]. unfold bytes_of_words in *. cbn [flat_map]. rewrite app_length, le_len, IH. simpl. lia. Qed.

Lemma bow_app a b : bytes_of_words (a ++ b) = bytes_of_words a ++ bytes_of_words b.
Proof. unfold bytes_of_words. apply flat_map_app. Qed.

(** ** Closed form of the words *)

Definition gpow (x : Z) (k : nat) : Z := (x * golden ^ Z.of_nat k) mod 2 ^ 64.

Lemma gpow_hash x k : gpow (hash x) k = gpow x (S k).
Proof.
  unfold gpow, hash, u64. rewrite Zmult_mod_idemp_l. f_equal. rewrite Nat2Z.inj_succ, Z.pow_succ_r by lia. ring.
Qed.

Lemma gpow_mod x k : gpow (x mod 2 ^ 64) k = gpow x k.
Proof. unfold gpow. apply Zmult_mod_idemp_l. Qed.

Lemma gpow_0 x : 0 <= x < 2 ^ 64 -> gpow x 0 = x.
Proof. intros H. unfold gpow. simpl (golden ^ _). rewrite Z.mul_1_r. now apply Z.mod_small. Qed.

Lemma hash_range x : 0 <= hash x < 2 ^ 64.
Proof. apply Z.mod_pos_bound. lia. Qed.

Lemma small_words_spec n : forall x, 0 <= x < 2 ^ 64 ->
  small_words n x = (map (gpow x) (seq 0 n), gpow x n).
Proof.
  induction n as [|n IH]; intros x H; cbn [small_words].
  - now rewrite gpow_0.
  - rewrite IH by apply hash_range. rewrite gpow_hash. cbn [seq map]. rewrite gpow_0 by assumption.
    do 2 f_equal. rewrite <- seq_shift, map_map. apply map_ext. intros k. apply gpow_hash.
Qed.

Lemma rounds_spec n : forall s, Forall (fun x => 0 <= x < 2 ^ 64) s ->
  rounds n s = (flat_map (fun k => map (fun x => gpow x k) s) (seq 0 n), map (fun x => gpow x n) s).
Proof.
  induction n as [|n IH]; intros s H; cbn [rounds].
  - cbn [seq flat_map]. f_equal. rewrite <- (map_id s) at 1. apply map_ext_in. intros x I. symmetry. apply gpow_0.
    rewrite Forall_forall in H. now apply H.
  - rewrite IH by (apply Forall_forall; intros x I; apply in_map_iff in I; destruct I as (y & <- & _); apply hash_range).
    cbn [seq flat_map].
    assert (E : map (fun x => gpow x 0) s = s).
    { rewrite <- (map_id s) at 2. apply map_ext_in. intros x I. apply gpow_0. rewrite Forall_forall in H. now apply H. }
    rewrite E. f_equal.
    + f_equal. rewrite <- seq_shift, flat_map_concat_map, flat_map_concat_map, map_map. f_equal.
      apply map_ext. intros k. rewrite map_map. apply map_ext. intros x. apply gpow_hash.
    + rewrite map_map. apply map_ext. intros x. apply gpow_hash.
Qed.

Lemma seq_blocks (B : nat) {A} (g : nat -> nat -> A) n : (0 < B)%nat ->
  flat_map (fun k => map (fun p => g p k) (seq 0 B)) (seq 0 n) = map (fun i => g (i mod B)%nat (i / B)%nat) (seq 0 (n * B)).
Proof.
  intros HB. induction n as [|n IH]; [reflexivity|].
  rewrite seq_S, flat_map_app, IH. cbn [flat_map]. rewrite app_nil_r, Nat.add_0_l.
  replace (S n * B)%nat with (n * B + B)%nat by lia. rewrite seq_app, map_app. f_equal. rewrite Nat.add_0_l.
  rewrite <- (Nat.add_0_r (n * B)) at 1.
  assert (E : forall m a, map (fun p => g p n) (seq a m) = map (fun i => g (i mod B)%nat (i / B)%nat) (seq (n * B + a) m) \/ (B < a + m)%nat).
  { induction m as [|m IHm]; intros a; [now left|].
    destruct (le_lt_dec (a + S m) B) as [L|L]; [left|right; lia].
    destruct (IHm (S a)) as [E|E]; [|lia]. cbn [seq map].
    replace (S (n * B + a)) with (n * B + S a)%nat by lia. rewrite E. f_equal.
    rewrite (Nat.add_comm (n * B) a), Nat.mod_add, Nat.mod_small by lia.
    rewrite Nat.div_add, Nat.div_small by lia. reflexivity. }
  destruct (E B 0%nat) as [E'|E']; [|lia]. rewrite Nat.add_0_r in *. exact E'.
Qed.

Lemma firstn_primes B : (B <= 16)%nat -> firstn B primes = map (fun p => nth p primes 0) (seq 0 B).
Proof.
  intros H. do 17 (destruct B as [|B]; [reflexivity|]). lia.
Qed.

Lemma seq_from b m : seq b m = map (fun j => (b + j)%nat) (seq 0 m).
Proof.
  assert (G : forall m a, seq (b + a) m = map (fun j => (b + j)%nat) (seq a m)).
  { intros k. induction k as [|k IH]; intros a; [reflexivity|]. cbn [seq map]. f_equal.
    replace (S (b + a)) with (b + S a)%nat by lia. apply IH. }
  rewrite <- G. f_equal. lia.
Qed.

Lemma fill_random_spec B len x : (1 <= B <= 16)%nat -> 0 <= x < 2 ^ 64 ->
  fill_random B len x = bytes_of_words (map (word B len x) (seq 0 (len / 8))) ++
                        firstn (len mod 8) (le_bytes 8 (word B len x (len / 8))).
Proof.
  intros HB Hx. unfold fill_random. set (n := (len / 8 / B)%nat).
  assert (Hn : (n * B <= len / 8)%nat) by (unfold n; rewrite Nat.mul_comm; apply Nat.mul_div_le; lia).
  pose proof (Nat.div_mod len 8 ltac:(lia)) as DM. pose proof (Nat.mod_upper_bound len 8 ltac:(lia)) as MB.
  rewrite rounds_spec.
  2:{ apply Forall_forall. intros y I. apply in_map_iff in I. destruct I as (p & <- & _). apply Z.mod_pos_bound. lia. }
  rewrite firstn_primes, map_map by lia.
  assert (N0 : nth 0 (map (fun x0 => gpow x0 n) (map (fun p => u64 (x * nth p primes 0)) (seq 0 B))) 0 = gpow x n).
  { destruct B as [|B]; [lia|]. cbn [seq map nth]. unfold u64. rewrite gpow_mod. f_equal. simpl. lia. }
  rewrite N0. unfold fill_small. rewrite small_words_spec by (apply Z.mod_pos_bound; lia).
  assert (D : ((len - n * B * 8) / 8 = len / 8 - n * B)%nat).
  { replace (len - n * B * 8)%nat with (len mod 8 + (len / 8 - n * B) * 8)%nat by lia.
    rewrite Nat.div_add, Nat.div_small by lia. lia. }
  assert (M : ((len - n * B * 8) mod 8 = len mod 8)%nat).
  { replace (len - n * B * 8)%nat with (len mod 8 + (len / 8 - n * B) * 8)%nat by lia.
    rewrite Nat.mod_add, Nat.mod_small by lia. reflexivity. }
  rewrite D, M, app_assoc. f_equal.
  - rewrite <- bow_app. f_equal.
    assert (SQ : seq 0 (len / 8) = seq 0 (n * B) ++ seq (n * B) (len / 8 - n * B)) by (rewrite <- seq_app; f_equal; lia).
    rewrite SQ, map_app. f_equal.
    + erewrite flat_map_ext by (intros k; rewrite map_map; reflexivity).
      rewrite (seq_blocks B (fun p k => gpow (u64 (x * nth p primes 0)) k)) by lia.
      apply map_ext_in. intros i I. apply in_seq in I. unfold word. fold n.
      destruct (Nat.ltb_spec i (n * B)); [|lia]. unfold u64. rewrite gpow_mod. reflexivity.
    + replace (seq (n * B) (len / 8 - n * B)) with (map (fun j => (n * B + j)%nat) (seq 0 (len / 8 - n * B))).
      2:{ symmetry. apply seq_from. }
      rewrite map_map. apply map_ext_in. intros j I. unfold word. fold n.
      destruct (Nat.ltb_spec (n * B + j) (n * B)); [lia|].
      unfold gpow. rewrite Zmult_mod_idemp_l. f_equal. rewrite <- Z.mul_assoc, <- Z.pow_add_r by lia.
      do 2 f_equal. lia.
  - f_equal. f_equal. unfold word. fold n. destruct (Nat.ltb_spec (len / 8) (n * B)); [lia|].
    unfold gpow. rewrite Zmult_mod_idemp_l. f_equal. rewrite <- Z.mul_assoc, <- Z.pow_add_r by lia.
    do 2 f_equal. lia.
Qed.

Lemma fill_random_len B len x : (1 <= B <= 16)%nat -> length (fill_random B len x) = len.
Proof.
  intros HB. unfold fill_random, fill_small. set (n := (len / 8 / B)%nat).
  assert (Hn : (n * B <= len / 8)%nat) by (unfold n; rewrite Nat.mul_comm; apply Nat.mul_div_le; lia).
  pose proof (Nat.div_mod len 8 ltac:(lia)) as DM. pose proof (Nat.mod_upper_bound len 8 ltac:(lia)) as MB.
  assert (RL : forall m s, length (fst (rounds m s)) = (m * length s)%nat).
  { induction m as [|m IHm]; intros s; [reflexivity|]. cbn [rounds]. specialize (IHm (map hash s)).
    destruct (rounds m (map hash s)) as [w s']. cbn [fst] in *. rewrite app_length, IHm, map_length. lia. }
  assert (SL : forall m s, length (fst (small_words m s)) = m).
  { induction m as [|m IHm]; intros s; [reflexivity|]. cbn [small_words]. specialize (IHm (hash s)).
    destruct (small_words m (hash s)) as [w s']. cbn [fst] in *. simpl. now rewrite IHm. }
  specialize (RL n (map (fun p => u64 (x * p)) (firstn B primes))).
  destruct (rounds n _) as [w s']. cbn [fst] in RL.
  rewrite map_length, firstn_length in RL. replace (Nat.min B (length primes)) with B in RL by (simpl length; lia).
  specialize (SL ((len - n * B * 8) / 8)%nat (nth 0 s' 0)). destruct (small_words _ (nth 0 s' 0)) as [w2 s2]. cbn [fst] in SL.
  rewrite !app_length, !bow_len, RL, SL, firstn_length, le_len.
  pose proof (Nat.div_mod (len - n * B * 8) 8 ltac:(lia)). pose proof (Nat.mod_upper_bound (len - n * B * 8) 8 ltac:(lia)). lia.
Qed.

Lemma soft_len pat n : length (soft pat n) = n.
Proof. unfold soft. destruct (_ =? 0)%nat; [apply repeat_length|]. now rewrite map_length, seq_length. Qed.

(** ** The share that compresses *)

Lemma perc_loop_ok B x p segment pat : (1 <= B <= 16)%nat -> (1 <= segment)%nat -> forall fuel len, (len < fuel)%nat ->
  exists l, perc_loop fuel B x p segment len pat = Some l /\ length l = len.
Proof.
  intros HB HS. induction fuel as [|fuel IH]; intros len HF; [lia|]. cbn [perc_loop].
  destruct (Nat.eqb_spec len 0) as [->|N]; [now exists []|].
  assert (T : (segment * (100 - p) / 100 <= segment)%nat) by (apply Nat.div_le_upper_bound; nia).
  set (this := Nat.min (segment * (100 - p) / 100) len) in *.
  destruct (Nat.eqb_spec (len - this) 0).
  { eexists. split; [reflexivity|]. rewrite fill_random_len by assumption. lia. }
  set (t2 := if (len - this <? segment - this)%nat then (len - this)%nat
             else if (len - this - (segment - this) <=? 8)%nat then (len - this)%nat else (segment - this)%nat).
  assert (Ht2 : (1 <= this + t2 /\ t2 <= len - this)%nat).
  { unfold t2. destruct (Nat.ltb_spec (len - this) (segment - this)); [lia|]. destruct (_ <=? 8)%nat; lia. }
  destruct (IH (len - this - t2)%nat) as (l & E & L); [lia|]. rewrite E. eexists. split; [reflexivity|].
  rewrite !app_length, fill_random_len, soft_len by assumption. lia.
Qed.

Lemma fill_perc_one c x n : (cperc c <= 100)%nat -> (1 <= n)%nat ->
  fill_perc (S n) (buckets c) x (cperc c) n n (pattern c) = Some (piece c x n).
Proof.
  intros HP HN. unfold fill_perc, piece.
  destruct (Nat.eqb_spec (cperc c) 100) as [->|NP].
  { replace (n * (100 - 100) / 100)%nat with 0%nat by (rewrite Nat.mul_0_r; reflexivity). rewrite Nat.sub_0_r.
    replace (fill_random (buckets c) 0 x) with (@nil Z); [reflexivity|].
    unfold fill_random, fill_small. change (0 / 8)%nat with 0%nat.
    replace (0 / buckets c)%nat with 0%nat by (destruct (buckets c); reflexivity). reflexivity. }
  rewrite Nat.min_id. cbn [perc_loop].
  destruct (Nat.eqb_spec n 0); [lia|].
  assert (T : (n * (100 - cperc c) / 100 <= n)%nat) by (apply Nat.div_le_upper_bound; nia).
  rewrite Nat.min_l by assumption. set (r := (n * (100 - cperc c) / 100)%nat) in *.
  destruct (Nat.eqb_spec (n - r) 0) as [Z0|N0].
  { rewrite Z0. unfold soft. destruct (_ =? 0)%nat; simpl; now rewrite app_nil_r. }
  rewrite Nat.ltb_irrefl, Nat.sub_diag. cbn [Nat.leb]. 
  destruct n as [|n']; [lia|]. rewrite ?Nat.sub_diag. cbn [perc_loop Nat.eqb]. rewrite ?app_nil_r. reflexivity.
Qed.

(** ** Pages *)

Lemma advance_add a b f : advance (a + b) f = advance a (advance b f).
Proof. apply nat_iter_add. Qed.

Lemma advance_1 f : advance 1 f = snd (next_seed f).
Proof. reflexivity. Qed.

Lemma mnz_min m l ch : (1 <= m)%nat -> (1 <= l)%nat -> min_not_zero (Nat.min m l) ch = Nat.min l (min_not_zero m ch).
Proof.
  intros Hm Hl. unfold min_not_zero. destruct (Nat.eqb_spec (Nat.min m l) 0); [lia|]. destruct (Nat.eqb_spec m 0); [lia|].
  destruct (Nat.eqb_spec ch 0); lia.
Qed.

Lemma mnz_pos m ch : (1 <= m)%nat -> (1 <= min_not_zero m ch)%nat.
Proof. intros H. unfold min_not_zero. destruct (Nat.eqb_spec m 0); [lia|]. destruct (Nat.eqb_spec ch 0); lia. Qed.

Lemma page_fuel fresh c q : (1 <= q)%nat -> forall a b f len, (len < a)%nat -> (len < b)%nat ->
  page_loop a fresh c f q len = page_loop b fresh c f q len.
Proof.
  intros Hq. induction a as [|a IH]; intros b f len Ha Hb; [lia|]. destruct b as [|b]; [lia|]. cbn [page_loop].
  destruct (Nat.leb_spec len q); [reflexivity|]. f_equal. apply IH; lia.
Qed.

Lemma pieces_small q len : (1 <= len <= q)%nat -> pieces q len = 1%nat.
Proof.
  intros H. unfold pieces. symmetry. apply Nat.div_unique with (r := (len - 1)%nat); lia.
Qed.

Lemma pieces_step q len : (1 <= q < len)%nat -> pieces q len = S (pieces q (len - q)).
Proof.
  intros H. unfold pieces. replace (len + q - 1)%nat with ((len - q + q - 1) + 1 * q)%nat by lia. rewrite Nat.div_add by lia. lia.
Qed.

(** What the loop leaves of the state. *)
Definition after_fill (c : cfg) (s : st) (r : ref) (k : nat) : st :=
  match r with
  | Ret _ => s
  | Main => if (dperc c =? 100)%nat then s else let f := advance k (bst s) in St f f (wset s)
  end.

Definition source (s : st) (r : ref) : frand := match r with Main => bst s | Ret f => f end.
Definition freshness (c : cfg) (r : ref) : nat := match r with Ret _ => 1 | Main => if (dperc c =? 100)%nat then 0 else 1 end.

Lemma io_loop_ok c minw0 : (cperc c <= 100)%nat -> (1 <= minw0)%nat ->
  forall fuel s r minw left, (left < fuel)%nat -> (1 <= left)%nat ->
  (1 <= minw)%nat -> Nat.min minw left = Nat.min minw0 left ->
  (r = Main -> (dperc c = 100)%nat -> prev s = bst s) ->
  io_loop fuel c s r minw left =
    Some (page_loop fuel (freshness c r) c (source s r) (quantum c minw0) left,
          after_fill c s r (pieces (quantum c minw0) left)).
Proof.
  intros HP H0. induction fuel as [|fuel IH]; intros s r minw left HF HL HM HE HR; [lia|]. cbn [io_loop page_loop].
  rewrite HE, mnz_min by assumption. fold (quantum c minw0). set (q := quantum c minw0) in *.
  assert (Hq : (1 <= q)%nat) by (apply mnz_pos; assumption).
  set (this := Nat.min left q).
  assert (HT : (1 <= this <= left)%nat) by lia.
  destruct (draw s r) as [[x s1] r1] eqn:ED.
  rewrite fill_perc_one by lia.
  destruct (Nat.ltb_spec left this); [lia|].
  assert (Fx : fst (next_seed (source s r)) = x).
  { unfold draw, source in *. destruct r as [|f].
    - destruct (next_seed (bst s)). now injection ED as <- <- <-.
    - destruct (next_seed f). now injection ED as <- <- <-. }
  rewrite Fx.
  set (s2 := save_buf_state c s1 r1).
  assert (S2 : source s2 r1 = advance (freshness c r) (source s r) /\ freshness c r1 = freshness c r /\
               s2 = after_fill c s r 1 /\ (r1 = Main <-> r = Main) /\ (r1 = Main -> (dperc c = 100)%nat -> prev s2 = bst s2)).
  { unfold s2, draw, save_buf_state, source, freshness, after_fill in *. destruct r as [|f].
    - destruct (next_seed (bst s)) as [y g] eqn:EN. injection ED as <- <- <-.
      destruct (Nat.eqb_spec (dperc c) 100) as [E100|E100]; cbn [prev bst wset].
      + rewrite (HR eq_refl E100). destruct s as [b0 p0 w0]. cbn [bst prev wset] in *.
        pose proof (HR eq_refl E100) as HR'. subst p0.
        split; [reflexivity|]. split; [reflexivity|]. split; [reflexivity|]. split; [tauto|auto].
      + rewrite !advance_1, EN. cbn [snd].
        split; [reflexivity|]. split; [reflexivity|]. split; [reflexivity|]. split; [tauto|auto].
    - destruct (next_seed f) as [y g] eqn:EN. injection ED as <- <- <-. rewrite !advance_1, EN. cbn [snd].
      destruct (dperc c =? 100)%nat; (split; [reflexivity|]; split; [reflexivity|]; split; [reflexivity|]; split; [split; discriminate|discriminate]). }
  destruct S2 as (Sa & Sb & Sc & Sd & Se).
  destruct (Nat.leb_spec left q) as [LQ|LQ].
  - assert (ET : this = left) by lia. rewrite ET, Nat.sub_diag. cbn [Nat.eqb]. rewrite Sc, pieces_small by lia. reflexivity.
  - assert (ET : this = q) by lia. rewrite ET. destruct (Nat.eqb_spec (left - q) 0); [lia|].
    rewrite (IH s2 r1 (Nat.min minw0 left) (left - q)%nat) by (try lia; auto).
    rewrite Sa, Sb. do 2 f_equal. rewrite (pieces_step q left) by lia.
    rewrite Sc. unfold after_fill. destruct r as [|f].
    + replace r1 with Main by (symmetry; now apply Sd). destruct (Nat.eqb_spec (dperc c) 100); [reflexivity|].
      cbn [bst wset]. rewrite <- advance_add. rewrite Nat.add_1_r. reflexivity.
    + destruct r1 as [|g]; [|reflexivity]. destruct Sd as [Sd _]. discriminate (Sd eq_refl).
Qed.

Lemma fill_io_ok c s v i minw len r s1 : (cperc c <= 100)%nat -> (1 <= minw)%nat -> (1 <= len)%nat ->
  (cperc c <> 0 \/ dperc c <> 0)%nat -> get_buf_state c s v i = Some (r, s1) ->
  fill_io c s v i minw len =
    Some (page (freshness c r) c (source s1 r) (quantum c minw) len, after_fill c s1 r (pieces (quantum c minw) len)).
Proof.
  intros HP HM HL HD HG. unfold fill_io. rewrite HG.
  replace ((cperc c =? 0)%nat && (dperc c =? 0)%nat) with false.
  2:{ symmetry. apply andb_false_iff. destruct HD as [HD|HD]; apply Nat.eqb_neq in HD; tauto. }
  rewrite (io_loop_ok c minw HP HM) by (try lia; auto;
    intros -> E; unfold get_buf_state in HG; rewrite E in HG; simpl in HG; injection HG as <-; reflexivity).
  reflexivity.
Qed.

(** ** Working sets *)

Lemma set_loop_nth n adv : forall f i, (i < n)%nat -> nth_error (set_loop n adv f) i = Some (advance (S i * adv) f).
Proof.
  induction n as [|n IH]; intros f i H; [lia|]. cbn [set_loop]. destruct i as [|i]; cbn [nth_error].
  - rewrite Nat.mul_1_l. reflexivity.
  - rewrite IH by lia. rewrite <- advance_add. do 2 f_equal. lia.
Qed.

Lemma set_loop_len n adv : forall f, length (set_loop n adv f) = n.
Proof. induction n; intros; cbn [set_loop length]; auto. Qed.

Lemma working_set_spec f minbs chunk size perc w : working_set f minbs chunk size perc = Some w ->
  length w = (size * perc / 100 / minbs)%nat /\
  forall i, (i < length w)%nat -> nth_error w i = Some (advance (i * (minbs / min_not_zero minbs chunk)) f).
Proof.
  unfold working_set. destruct (size * perc / 100 / minbs)%nat as [|n]; [discriminate|]. intros [= <-].
  cbn [length]. rewrite set_loop_len. split; [reflexivity|]. intros [|i] H; [reflexivity|].
  cbn [nth_error]. apply set_loop_nth. lia.
Qed.

(** ** Sequences of buffers *)

(** The working set is that of the unique buffers. *)
Definition true_set (c : cfg) (f : frand) (minw len : nat) (w : list frand) : Prop :=
  forall i g, nth_error w i = Some g -> g = advance (i * pieces (quantum c minw) len) f.

Lemma fill_all_ok c f minw len w : (cperc c <= 100)%nat -> (1 <= minw)%nat -> (1 <= len)%nat ->
  (0 < dperc c < 100)%nat -> (dmode c = WorkingSet -> true_set c f minw len w) ->
  forall vs done s bs s', bst s = advance (fresh_count c done * pieces (quantum c minw) len) f -> prev s = bst s -> wset s = w ->
  fill_all c s minw len vs = Some (bs, s') ->
  forall j x b, nth_error vs j = Some x -> nth_error bs j = Some b ->
  b = unique c f minw len (twin c (done ++ firstn j vs) x).
Proof.
  intros HP HM HL HD HW. induction vs as [|[v i] vs IH]; intros done s bs s' SB SP SW H j x b Hx Hb.
  { destruct j; discriminate. }
  cbn [fill_all] in H.
  destruct (get_buf_state c s v i) as [[r s1]|] eqn:EG.
  2:{ unfold fill_io in H. rewrite EG in H. discriminate. }
  rewrite (fill_io_ok c s v i minw len r s1) in H by (try assumption; lia).
  destruct (fill_all c _ minw len vs) as [[l s3]|] eqn:EF; [|discriminate]. injection H as <- <-.
  assert (K : (if (v <=? dperc c)%nat then exists g, r = Ret g else r = Main) /\ s1 = s /\
     source s r = advance (twin c done (v, i) * pieces (quantum c minw) len) f /\ freshness c r = 1%nat).
  { unfold get_buf_state in EG. destruct (Nat.eqb_spec (dperc c) 0); [lia|]. destruct (Nat.eqb_spec (dperc c) 100); [lia|].
    unfold twin, freshness. cbn [fst snd]. destruct (v <=? dperc c)%nat.
    - destruct (dmode c) eqn:EM.
      + injection EG as <- <-. split; [eauto|]. repeat split. cbn [source]. now rewrite SP.
      + destruct (nth_error (wset s) i) as [g|] eqn:EW; [|discriminate]. injection EG as <- <-.
        split; [eauto|]. repeat split. cbn [source]. apply (HW eq_refl). now rewrite <- SW.
    - injection EG as <- <-. repeat split; auto. apply Nat.eqb_neq in n0. now rewrite n0. }
  destruct K as (Kr & -> & Ks & Kf).
  destruct j as [|j]; cbn [nth_error] in Hx, Hb.
  - injection Hx as <-. injection Hb as <-. cbn [firstn]. rewrite app_nil_r. unfold unique. now rewrite Kf, Ks.
  - cbn [firstn].
    replace (done ++ (v, i) :: firstn j vs) with ((done ++ [(v, i)]) ++ firstn j vs) by (rewrite <- app_assoc; reflexivity).
    assert (FC : fresh_count c (done ++ [(v, i)]) = (fresh_count c done + (if (v <=? dperc c)%nat then 0 else 1))%nat).
    { unfold fresh_count. rewrite filter_app, app_length. cbn [filter fst negb]. destruct (v <=? dperc c)%nat; reflexivity. }
    assert (SA : let s2 := after_fill c s r (pieces (quantum c minw) len) in
      bst s2 = advance (fresh_count c (done ++ [(v, i)]) * pieces (quantum c minw) len) f /\ prev s2 = bst s2 /\ wset s2 = w).
    { cbv zeta. rewrite FC. unfold after_fill. destruct (v <=? dperc c)%nat.
      - destruct Kr as (g & ->). rewrite Nat.add_0_r. auto.
      - rewrite Kr. destruct (Nat.eqb_spec (dperc c) 100); [lia|]. cbn [bst prev wset].
        rewrite SB, <- advance_add. repeat split; auto. f_equal. lia. }
    destruct SA as (A1 & A2 & A3).
    exact (IH (done ++ [(v, i)]) _ l s3 A1 A2 A3 EF j x b Hx Hb).
Qed.

(** Filling ends when each drawn index is in the working set. *)
Lemma fill_all_total c minw len : (cperc c <= 100)%nat -> (1 <= minw)%nat -> (1 <= len)%nat ->
  (cperc c <> 0 \/ dperc c <> 0)%nat ->
  forall vs s, (dmode c = WorkingSet -> Forall (fun x => (snd x < length (wset s))%nat) vs) ->
  exists bs s', fill_all c s minw len vs = Some (bs, s') /\ length bs = length vs.
Proof.
  intros HP HM HL HD. induction vs as [|[v i] vs IH]; intros s HW; cbn [fill_all].
  { now exists [], s. }
  assert (EG : exists r s1, get_buf_state c s v i = Some (r, s1) /\ wset s1 = wset s).
  { unfold get_buf_state. destruct (dperc c =? 0)%nat; [eauto|]. destruct (dperc c =? 100)%nat; [cbn; eauto|].
    destruct (v <=? dperc c)%nat; [|eauto]. destruct (dmode c); [eauto|].
    specialize (HW eq_refl). inversion HW; subst. cbn [snd] in *.
    destruct (nth_error (wset s) i) eqn:E; [eauto|]. apply nth_error_None in E. lia. }
  destruct EG as (r & s1 & EG & EW). rewrite (fill_io_ok c s v i minw len r s1) by assumption.
  destruct (IH (after_fill c s1 r (pieces (quantum c minw) len))) as (bs & s' & E & L).
  { intros W. specialize (HW W). inversion HW; subst.
    replace (wset (after_fill c s1 r (pieces (quantum c minw) len))) with (wset s); [assumption|].
    rewrite <- EW. unfold after_fill. destruct r; [|reflexivity]. destruct (dperc c =? 100)%nat; reflexivity. }
  rewrite E. eexists _, _. split; [reflexivity|]. simpl. now rewrite L.
Qed.

Lemma page_loop_len fresh c q : (1 <= buckets c <= 16)%nat -> (cperc c <= 100)%nat -> (1 <= q)%nat ->
  forall fuel f len, (len < fuel)%nat -> length (page_loop fuel fresh c f q len) = len.
Proof.
  intros HB HP Hq. 
  assert (PL : forall x n, length (piece c x n) = n).
  { intros x n. unfold piece. rewrite app_length, fill_random_len, soft_len by assumption.
    assert (n * (100 - cperc c) / 100 <= n)%nat by (apply Nat.div_le_upper_bound; nia). lia. }
  induction fuel as [|fuel IH]; intros f len H; [lia|]. cbn [page_loop].
  destruct (Nat.leb_spec len q); [apply PL|]. rewrite app_length, PL, IH; lia.
Qed.

(** ** Words of one bucket do not come back *)

Lemma golden_orders : forallb (fun k => (powm golden (2 ^ (62 - k)) (2 ^ (64 - k)) =? 1) && negb (powm golden (2 ^ (61 - k)) (2 ^ (64 - k)) =? 1))
  (map Z.of_nat (seq 0 62)) = true.
Proof. vm_compute. reflexivity. Qed.

Lemma golden_order k d : 0 <= k <= 61 -> 0 < d < 2 ^ (62 - k) -> golden ^ d mod 2 ^ (64 - k) <> 1.
Proof.
  intros Hk Hd. pose proof golden_orders as G. rewrite forallb_forall in G.
  assert (I : In k (map Z.of_nat (seq 0 62))).
  { apply in_map_iff. exists (Z.to_nat k). split; [lia|]. apply in_seq. lia. }
  specialize (G k I). apply andb_true_iff in G. destruct G as [G1 G2]. apply Z.eqb_eq in G1. apply negb_true_iff, Z.eqb_neq in G2.
  assert (M : 1 < 2 ^ (64 - k)).
  { apply Z.lt_le_trans with (2 ^ 1); [lia|]. apply Z.pow_le_mono_r; lia. }
  assert (P61 : 0 < 2 ^ (61 - k)) by (apply Z.pow_pos_nonneg; lia).
  assert (P62 : 2 ^ (62 - k) = 2 * 2 ^ (61 - k)).
  { replace (62 - k) with (Z.succ (61 - k)) by lia. apply Z.pow_succ_r. lia. }
  rewrite powm_spec in G1, G2 by lia.
  rewrite <- powmod_iter in * by lia.
  assert (PP : pprod (repeat 2 (Z.to_nat (62 - k))) = 2 ^ (62 - k)).
  { replace (62 - k) with (Z.of_nat (Z.to_nat (62 - k))) at 2 by lia. generalize (Z.to_nat (62 - k)). intros n.
    induction n as [|n IH]; [reflexivity|]. cbn [repeat]. rewrite Nat2Z.inj_succ, Z.pow_succ_r, <- IH by lia. reflexivity. }
  pose proof (exact_order (fun y => (golden * y) mod 2 ^ (64 - k)) 1 Z.eq_dec (repeat 2 (Z.to_nat (62 - k)))) as O.
  cbv zeta in O. rewrite PP in O. apply O; auto; try lia.
  - apply Forall_forall. intros q Iq. apply repeat_spec in Iq. subst. apply prime_2.
  - intros q Iq. apply repeat_spec in Iq. subst q. rewrite P62, Z.mul_comm, Z.div_mul by lia. assumption.
Qed.

Lemma odd_rel_prime a e : 0 <= e -> Z.odd a = true -> Z.gcd (2 ^ e) a = 1.
Proof.
  intros He Ho. apply Zgcd_1_rel_prime, rel_prime_sym, rel_prime_Zpower_r; [assumption|].
  apply rel_prime_sym, prime_rel_prime; [apply prime_2|]. intros D.
  apply Zodd_bool_iff in Ho. destruct D as [z ->]. revert Ho. rewrite Z.mul_comm. intros Ho.
  apply Zodd_not_Zeven in Ho. apply Ho. apply Zeven_2p.
Qed.

Lemma gpow_distinct m k o a b : m = 2 ^ k * o -> Z.odd o = true -> 0 <= k <= 61 ->
  (a < b)%nat -> Z.of_nat (b - a) < 2 ^ (62 - k) -> gpow m a <> gpow m b.
Proof.
  intros -> Ho Hk Hab Hd E. unfold gpow in E.
  set (d := Z.of_nat (b - a)) in *.
  assert (D : (2 ^ 64 | 2 ^ k * (o * golden ^ Z.of_nat a * (golden ^ d - 1)))).
  { replace (2 ^ k * (o * golden ^ Z.of_nat a * (golden ^ d - 1)))
      with (2 ^ k * o * golden ^ Z.of_nat b - 2 ^ k * o * golden ^ Z.of_nat a).
    - apply Z.mod_divide; [lia|]. rewrite Zminus_mod, E, Z.sub_diag. reflexivity.
    - replace (Z.of_nat b) with (Z.of_nat a + d) by lia. rewrite Z.pow_add_r by lia. ring. }
  replace (2 ^ 64) with (2 ^ k * 2 ^ (64 - k)) in D by (rewrite <- Z.pow_add_r by lia; f_equal; lia).
  apply Z.mul_divide_cancel_l in D; [|apply Z.pow_nonzero; lia].
  apply Z.gauss in D.
  2:{ apply odd_rel_prime; [lia|]. rewrite Z.odd_mul, Ho. cbn [andb].
      generalize a. clear. intros a. induction a as [|a IH]; [reflexivity|].
      rewrite Nat2Z.inj_succ, Z.pow_succ_r, Z.odd_mul, IH by lia. reflexivity. }
  apply (golden_order k d Hk); [lia|].
  assert (M : 1 < 2 ^ (64 - k)).
  { apply Z.lt_le_trans with (2 ^ 1); [lia|]. apply Z.pow_le_mono_r; lia. }
  apply Z.mod_divide in D; [|lia].
  replace (golden ^ d) with ((golden ^ d - 1) + 1) by lia. rewrite Zplus_mod, D, Z.add_0_l, Z.mod_mod by lia.
  apply Z.mod_small. lia.
Qed.
