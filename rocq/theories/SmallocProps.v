(** Properties C10 and C11: the shared-memory allocator. *)
From Coq Require Import ZArith List Lia Bool.
From Verif Require Import CBase SmallocModel SmallocBits SmallocSpec SmallocProofs.
Import ListNotations.
Open Scope Z_scope.

(** C10: in every history, live allocations occupy disjoint byte ranges; each range contains the 16-byte
    header, the requested bytes and a 4-byte red zone, and lies inside one pool; pointers are 16-byte
    aligned. *)
Theorem C10_disjoint : forall ps s L, fresh_pools ps -> reach ps s L ->
  ForallOrdPairs apart L /\
  forall ptr size, In (ptr, size) L ->
    ptr mod 16 = 0 /\ ptr + size + 4 <= hi (ptr, size) /\
    exists p, In p ps /\ base p <= ptr - 16 /\ hi (ptr, size) <= pool_end p.
Proof.
  intros ps s L FP R. pose proof (reach_inv ps FP s L R) as I. split; [exact (i_apart _ _ _ I)|].
  intros ptr size HI. pose proof (i_size _ _ _ I _ HI) as Sz. cbn [snd] in Sz.
  destruct (i_placed _ _ _ I _ HI) as (i & p & b & E & Hb & Hf & P). cbn [fst snd] in *.
  destruct (blocks_bounds size ltac:(lia)) as (_ & _ & N3). destruct (fresh_nth ps FP _ _ E) as (F1 & F2 & F3 & _).
  split; [|split].
  - pose proof (Z.div_mod (base p) 16 ltac:(lia)).
    replace ptr with ((base p / 16 + 2 * b + 1) * 16) by lia. apply Z.mod_mul. lia.
  - unfold hi. cbn [fst snd]. lia.
  - exists p. split; [eapply nth_error_In; eauto|]. unfold hi, pool_end, nbits in *. cbn [fst snd]. lia.
Qed.

(** C10: no history trips an assertion: neither an allocation nor the free of a live pointer. *)
Theorem C10_no_assert : forall ps s L, fresh_pools ps -> reach ps s L ->
  (forall size zo, 0 <= size < 2 ^ 64 -> any_ffz zo -> smalloc s size zo <> None) /\
  (forall ptr size, In (ptr, size) L -> sfree s ptr <> None).
Proof.
  intros ps s L FP R. pose proof (reach_inv ps FP s L R) as I. split.
  - intros size zo Hs Hz. destruct (smalloc_ok ps FP s L size zo I Hs Hz) as (s' & r & E & _). congruence.
  - intros ptr size HI. apply in_split in HI. destruct HI as (L1 & L2 & ->).
    destruct (sfree_ok ps FP s L1 ptr size L2 I) as (s' & E & _). congruence.
Qed.

(** C10: a granted allocation is zeroed, and neither granting, refusing nor freeing changes a byte of any
    other live allocation. *)
Theorem C10_contents : forall ps s L, fresh_pools ps -> reach ps s L ->
  (forall size zo s' ptr, 0 <= size < 2 ^ 64 -> any_ffz zo -> smalloc s size zo = Some (s', Some ptr) ->
     (forall x, ptr <= x < ptr + size -> memory s' x = 0) /\
     (forall q n x, In (q, n) L -> q <= x < q + n -> memory s' x = memory s x)) /\
  (forall size zo s', 0 <= size < 2 ^ 64 -> any_ffz zo -> smalloc s size zo = Some (s', None) ->
     memory s' = memory s) /\
  (forall ptr size s', In (ptr, size) L -> sfree s ptr = Some s' -> memory s' = memory s).
Proof.
  intros ps s L FP R. pose proof (reach_inv ps FP s L R) as I. split; [|split].
  - intros size zo s' ptr Hs Hz E. destruct (smalloc_ok ps FP s L size zo I Hs Hz) as (s2 & r & E2 & RR & _).
    rewrite E in E2. injection E2 as <- <-. destruct RR as (_ & I' & Z0 & M). split; auto.
    intros q n x HI Hx. apply M. pose proof (i_apart _ _ _ I') as AP. inversion AP as [|? ? FA _]. subst.
    rewrite Forall_forall in FA. specialize (FA _ HI). pose proof (i_size _ _ _ I _ HI) as Sz.
    cbn [snd] in Sz. destruct (blocks_bounds n ltac:(lia)) as (_ & _ & N3).
    unfold apart, lo, hi in FA. cbn [fst snd] in FA. lia.
  - intros size zo s' Hs Hz E. destruct (smalloc_ok ps FP s L size zo I Hs Hz) as (s2 & r & E2 & RR & _).
    rewrite E in E2. injection E2 as <- <-. apply RR.
  - intros ptr size s' HI E. apply in_split in HI. destruct HI as (L1 & L2 & ->).
    destruct (sfree_ok ps FP s L1 ptr size L2 I) as (s2 & E2 & _ & M & _). congruence.
Qed.

(** C11: the free count of every pool is the number of its blocks that no live allocation covers. *)
Theorem C11_free_count : forall ps s L p, fresh_pools ps -> reach ps s L -> In p (pools s) ->
  free_blocks p = uncovered L p.
Proof. intros ps s L p FP R. exact (inv_free ps s L p (reach_inv ps FP s L R)). Qed.

(** C11: once everything is freed, the pools are exactly as they were set up. *)
Theorem C11_restored : forall ps s, fresh_pools ps -> reach ps s [] -> pools s = ps.
Proof. intros ps s FP R. exact (inv_empty ps FP s (reach_inv ps FP s [] R)). Qed.

(** C11: a pool whose first [k] blocks are in use and the rest free (in particular k = 0: a pool with no
    live allocation) makes every request that fits in the rest succeed, whatever the history. *)
Theorem C11_serves : forall ps s L p k size zo, fresh_pools ps -> reach ps s L -> In p ps -> any_ffz zo ->
  0 <= k -> 0 <= size -> k + blocks_of size <= 32 * zlen (bitmap p) ->
  (forall x, 0 <= x < 32 * zlen (bitmap p) ->
     (exists a, In a L /\ lo a <= base p + 32 * x < hi a) <-> x < k) ->
  exists s' ptr, smalloc s size zo = Some (s', Some ptr).
Proof.
  intros ps s L p k size zo FP R HI Hz Hk Hs Hfit HP. pose proof (reach_inv ps FP s L R) as I.
  apply In_nth_error in HI. destruct HI as [j Ej]. destruct (fresh_nth ps FP _ _ Ej) as (_ & _ & F3 & _).
  destruct (blocks_bounds size Hs) as (_ & _ & N3).
  destruct (smalloc_ok ps FP s L size zo I ltac:(lia) Hz) as (s' & r & E & _ & C).
  destruct r as [ptr|]; [eauto|]. exfalso. apply (C j p k Ej); auto.
  intros x Hx. specialize (HP x Hx). unfold covd. destruct (Z.ltb_spec x k) as [LT|GE].
  - apply existsb_exists. destruct HP as [_ HP]. destruct (HP LT) as (a & Ha & Hc). exists a. split; auto.
    unfold covers. apply andb_true_iff. split; [apply Z.leb_le|apply Z.ltb_lt]; lia.
  - apply not_true_is_false. intros T. apply existsb_exists in T. destruct T as (a & Ha & Tc).
    unfold covers in Tc. apply andb_true_iff in Tc. destruct Tc as [T1 T2]. apply Z.leb_le in T1. apply Z.ltb_lt in T2.
    assert (x < k) by (apply HP; eauto). lia.
Qed.

(** C10: add_pool maps enough memory for the blocks and the bitmap as long as the requested pool is at
    most 4 GiB - 32 MiB, and what it sets up is a fresh pool. *)
Theorem C10_pool_layout : forall n b, 0 <= n <= 2 ^ 32 - 2 ^ 25 -> 0 < b -> b mod 16 = 0 ->
  let (words, bytes) := pool_layout n in
  n <= 1024 * words /\ 1024 * words + 4 * words <= bytes /\ fresh_pool (new_pool b n).
Proof.
  intros n b Hn Hb Hm. unfold fresh_pool, new_pool. destruct (pool_layout n) as [words bytes] eqn:E.
  cbn [fst base bitmap free_blocks next_non_full]. unfold zlen. rewrite repeat_length.
  assert (G : n <= 1024 * words /\ 1024 * words + 4 * words <= bytes /\ 0 < words < 2 ^ 22).
  { unfold pool_layout, HDR, INITIAL_SIZE, BPL, BPB, BPI in E.
    assert (U1 : u32 (u32 (n + 4) + 16) = n + 20) by (unfold u32; rewrite (Z.mod_small (n + 4)) by lia; rewrite Z.mod_small; lia).
    rewrite U1 in E. set (a2 := if n + 20 <? _ then _ else _) in E.
    assert (A2 : 16777216 <= a2 <= 2 ^ 32 - 2 ^ 25 + 20 /\ n <= a2).
    { unfold a2. destruct (Z.ltb_spec (n + 20) (16 * 1024 * 1024)); lia. }
    clearbody a2. pose proof (Z.div_mod (a2 + 32 * 32 - 1) (32 * 32) ltac:(lia)).
    pose proof (Z.mod_pos_bound (a2 + 32 * 32 - 1) (32 * 32) ltac:(lia)).
    set (q := (a2 + 32 * 32 - 1) / (32 * 32)) in *. clearbody q.
    assert (U3 : u32 (32 * 32 * q) = 1024 * q) by (unfold u32; rewrite Z.mod_small; lia).
    rewrite U3 in E. cbv zeta in E.
    assert (D : 1024 * q / (32 * 32) = q) by (rewrite Z.mul_comm; apply Z.div_mul; lia). rewrite D in E.
    assert (U4 : u32 (1024 * q + q * 4) = 1028 * q) by (unfold u32; rewrite Z.mod_small; lia). rewrite U4 in E.
    assert (W1 : words = q) by congruence. assert (W2 : bytes = 1028 * q) by congruence. subst words bytes.
    clear -H H0 A2 Hn. change (2 ^ 32) with 4294967296 in *. change (2 ^ 25) with 33554432 in *.
    change (2 ^ 22) with 4194304. change (32 * 32) with 1024 in *. lia. }
  destruct G as (G1 & G2 & G3). split; [auto|]. split; [auto|]. split; [auto|]. split; [auto|].
  split; [lia|]. split; [auto|]. split; [|auto]. unfold BPI. lia.
Qed.

(** Findings. *)

(** Above that, the size passed to mmap wraps: the mapping is smaller than the pool it describes. *)
Theorem C10_pool_layout_refuted : exists n, 0 <= n < 2 ^ 32 /\ n mod 1024 = 0 /\
  snd (pool_layout n) < 1024 * fst (pool_layout n).
Proof. exists (4095 * 1024 * 1024). split; [lia|]. split; reflexivity. Qed.

Definition ex_mem : mem := fun _ => 255.
Definition zo0 : nat -> nat -> Z -> Z := fun _ _ _ => 63.
Definition zo1 : nat -> nat -> Z -> Z := fun _ _ _ => 1.
Lemma zo0_ok : any_ffz zo0. Proof. unfold any_ffz, zo0. lia. Qed.
Lemma zo1_ok : any_ffz zo1. Proof. unfold any_ffz, zo1. lia. Qed.

Definition ps1 : list pool := [mkPool 4096 [0] 32 0].
Definition ps2 : list pool := [mkPool 4096 [0; 0] 64 0].
Definition ps3 : list pool := [mkPool 4096 [0] 32 0; mkPool 65536 [0; 0] 64 0].
Lemma fresh1 : fresh_pools ps1.
Proof.
  split; [discriminate|]. split; [|repeat constructor]. constructor; [|constructor].
  unfold fresh_pool. cbn [base bitmap free_blocks next_non_full length repeat]. unfold zlen. cbn [length].
  split; [lia|]. split; [reflexivity|]. split; [lia|]. auto.
Qed.
Lemma fresh2 : fresh_pools ps2.
Proof.
  split; [discriminate|]. split; [|repeat constructor]. constructor; [|constructor].
  unfold fresh_pool. cbn [base bitmap free_blocks next_non_full length repeat]. unfold zlen. cbn [length].
  split; [lia|]. split; [reflexivity|]. split; [lia|]. auto.
Qed.
Lemma fresh3 : fresh_pools ps3.
Proof.
  split; [discriminate|]. split.
  - constructor; [|constructor; [|constructor]];
    unfold fresh_pool; cbn [base bitmap free_blocks next_non_full length repeat]; unfold zlen; cbn [length];
    (split; [lia|]; split; [reflexivity|]; split; [lia|]; auto).
  - constructor; [|constructor; [|constructor]].
    + constructor; [|constructor]. left. unfold pool_end, zlen. cbn [base bitmap length]. lia.
    + constructor.
Qed.

(** Executing concrete histories. *)
Inductive op := Alloc (n : Z) | Free (k : nat) | Poke (k : nat) (off v : Z).
Definition step (zo : nat -> nat -> Z -> Z) (c : st * list (Z * Z)) (o : op) : st * list (Z * Z) :=
  let (s, L) := c in
  match o with
  | Alloc n => match smalloc s n zo with
               | Some (s', Some p) => (s', (p, n) :: L) | Some (s', None) => (s', L) | None => c end
  | Free k => match nth_error L k with
              | Some (p, _) => match sfree s p with Some s' => (s', firstn k L ++ skipn (S k) L) | None => c end
              | None => c end
  | Poke k off v => match nth_error L k with
                    | Some (p, n) => (mkSt (pools s) (store (memory s) (p + off) v) (last_pool s), L)
                    | None => c end
  end.
Definition ok_op (c : st * list (Z * Z)) (o : op) : bool :=
  match o with
  | Alloc n => (0 <=? n) && (n <? 2 ^ 64)
  | Free k => true
  | Poke k off v => match nth_error (snd c) k with
                    | Some (p, n) => (0 <=? off) && (off <? n) && (0 <=? v) && (v <? 256) | None => true end
  end.
Fixpoint run zo c (l : list op) : st * list (Z * Z) :=
  match l with [] => c | o :: l' => run zo (step zo c o) l' end.
Fixpoint ok_run zo c (l : list op) : bool :=
  match l with [] => true | o :: l' => ok_op c o && ok_run zo (step zo c o) l' end.

Lemma step_reach ps zo c o : any_ffz zo -> reach ps (fst c) (snd c) -> ok_op c o = true ->
  reach ps (fst (step zo c o)) (snd (step zo c o)).
Proof.
  intros Hz R OK. destruct c as [s L]. cbn [fst snd] in *. destruct o as [n|k|k off v]; cbn [step ok_op snd] in *.
  - apply andb_true_iff in OK. destruct OK as [O1 O2]. apply Z.leb_le in O1. apply Z.ltb_lt in O2.
    destruct (smalloc s n zo) as [[s' [p|]]|] eqn:E; cbn [fst snd]; auto.
    + eapply R_alloc; eauto.
    + eapply R_refuse; eauto.
  - destruct (nth_error L k) as [[p n]|] eqn:EN; auto. destruct (sfree s p) as [s'|] eqn:E; auto. cbn [fst snd].
    apply nth_error_split in EN. destruct EN as (L1 & L2 & -> & <-).
    rewrite firstn_app, firstn_all, Nat.sub_diag. cbn [firstn]. rewrite app_nil_r.
    replace (S (length L1)) with (length (L1 ++ [(p, n)])) by (rewrite app_length; cbn; lia).
    change ((p, n) :: L2) with ([(p, n)] ++ L2) in *. rewrite app_assoc in *. rewrite skipn_app, skipn_all, Nat.sub_diag.
    cbn [skipn app]. rewrite <- app_assoc in R. cbn [app] in R. eapply R_free; eauto.
  - destruct (nth_error L k) as [[p n]|] eqn:EN; auto. cbn [fst snd].
    apply andb_true_iff in OK. destruct OK as [OK O4]. apply andb_true_iff in OK. destruct OK as [OK O3].
    apply andb_true_iff in OK. destruct OK as [O1 O2].
    apply Z.leb_le in O1, O3. apply Z.ltb_lt in O2, O4. eapply R_write; eauto; [eapply nth_error_In; eauto|lia].
Qed.

Lemma run_reach ps zo l : any_ffz zo -> forall c, reach ps (fst c) (snd c) -> ok_run zo c l = true ->
  reach ps (fst (run zo c l)) (snd (run zo c l)).
Proof.
  intros Hz. induction l as [|o l IH]; intros c R OK; cbn [run ok_run] in *; auto.
  apply andb_true_iff in OK. destruct OK. apply IH; auto. apply step_reach; auto.
Qed.

(** A request can be refused although a free run of sufficient length exists: after a refused position
    the search skips as many blocks as it wanted.  Here a 4-block allocation is freed and the same request
    is refused right after. *)
Theorem C11_fragmented_refuted : exists ps s L size zo s' b,
  fresh_pools ps /\ reach ps s L /\ any_ffz zo /\ 0 <= size < 2 ^ 32 /\
  (exists p, In p ps /\ 0 <= b /\ b + blocks_of size <= 32 * zlen (bitmap p) /\
     forall x, b <= x < b + blocks_of size -> forall a, In a L -> ~ lo a <= base p + 32 * x < hi a) /\
  smalloc s size zo = Some (s', None).
Proof.
  set (l := [Alloc 40; Alloc 10; Alloc 108; Alloc 780; Free 3; Free 1]).
  set (c0 := (mkSt ps1 ex_mem 0, [] : list (Z * Z))).
  pose proof (run_reach ps1 zo0 l zo0_ok c0 (R_init ps1 ex_mem)) as R.
  specialize (R ltac:(vm_compute; reflexivity)).
  assert (EL : snd (run zo0 c0 l) = [(4336, 780); (4176, 10)]) by (vm_compute; reflexivity).
  rewrite EL in R.
  destruct (C10_no_assert _ _ _ fresh1 R) as [NA _].
  specialize (NA 108 zo0 ltac:(lia) zo0_ok).
  assert (EN : match smalloc (fst (run zo0 c0 l)) 108 zo0 with Some (_, Some _) => false | _ => true end = true)
    by (vm_compute; reflexivity).
  destruct (smalloc (fst (run zo0 c0 l)) 108 zo0) as [[s' [p|]]|] eqn:E; [discriminate| |congruence].
  exists ps1, (fst (run zo0 c0 l)), [(4336, 780); (4176, 10)], 108, zo0, s', 3.
  split; [exact fresh1|]. split; [exact R|]. split; [exact zo0_ok|]. split; [lia|]. split; [|exact E].
  exists (mkPool 4096 [0] 32 0). split; [left; reflexivity|]. split; [lia|].
  assert (B : blocks_of 108 = 4) by reflexivity. rewrite B. split; [cbn; lia|].
  intros x Hx a [<-|[<-|[]]]; unfold lo, hi; cbn [fst snd base];
    [assert (B' : blocks_of 780 = 25) by reflexivity|assert (B' : blocks_of 10 = 1) by reflexivity]; rewrite B'; lia.
Qed.

(** find_next_zero can hand an all-ones word to ffz; whether the request is granted then depends on that
    undefined value. *)
Theorem C11_ffz_refuted : exists ps s L size zo zo' s1 s2 ptr,
  fresh_pools ps /\ reach ps s L /\ any_ffz zo /\ any_ffz zo' /\ 0 <= size < 2 ^ 32 /\
  smalloc s size zo = Some (s1, None) /\ smalloc s size zo' = Some (s2, Some ptr).
Proof.
  set (l := [Alloc 10; Alloc 972; Free 1]).
  set (c0 := (mkSt ps2 ex_mem 0, [] : list (Z * Z))).
  pose proof (run_reach ps2 zo0 l zo0_ok c0 (R_init ps2 ex_mem)) as R.
  specialize (R ltac:(vm_compute; reflexivity)).
  destruct (C10_no_assert _ _ _ fresh2 R) as [NA _].
  pose proof (NA 40 zo0 ltac:(lia) zo0_ok) as N0. pose proof (NA 40 zo1 ltac:(lia) zo1_ok) as N1.
  assert (E0 : match smalloc (fst (run zo0 c0 l)) 40 zo0 with Some (_, Some _) => false | _ => true end = true)
    by (vm_compute; reflexivity).
  assert (E1 : match smalloc (fst (run zo0 c0 l)) 40 zo1 with Some (_, None) => false | _ => true end = true)
    by (vm_compute; reflexivity).
  clear NA. revert R N0 N1 E0 E1. generalize (fst (run zo0 c0 l)) as s. generalize (snd (run zo0 c0 l)) as L.
  intros L s R N0 N1 E0 E1.
  destruct (smalloc s 40 zo0) as [[s1 [p|]]|] eqn:F0; [discriminate| |congruence].
  destruct (smalloc s 40 zo1) as [[s2 [p|]]|] eqn:F1; [|discriminate|congruence].
  exists ps2, s, L, 40, zo0, zo1, s1, s2, p. split; [exact fresh2|]. split; [exact R|].
  split; [exact zo0_ok|]. split; [exact zo1_ok|]. split; [lia|]. split; [exact F0|exact F1].
Qed.

(** Non-vacuity: a history over two pools with writes, frees and an allocation in the second pool. *)
Definition ex_ops : list op := [Alloc 100; Alloc 700; Poke 0 699 7; Alloc 900; Free 2; Alloc 0; Poke 1 0 9].
Example ex_reach : reach ps3 (fst (run zo1 (mkSt ps3 ex_mem 0, []) ex_ops)) [(65552 + 32 * 29, 0); (65552, 900); (4240, 700)].
Proof.
  pose proof (run_reach ps3 zo1 ex_ops zo1_ok (mkSt ps3 ex_mem 0, []) (R_init ps3 ex_mem)) as R.
  specialize (R ltac:(vm_compute; reflexivity)).
  assert (E : snd (run zo1 (mkSt ps3 ex_mem 0, []) ex_ops) = [(65552 + 32 * 29, 0); (65552, 900); (4240, 700)])
    by (vm_compute; reflexivity).
  rewrite E in R. exact R.
Qed.
Example ex_apart : ForallOrdPairs apart [(65552 + 32 * 29, 0); (65552, 900); (4240, 700)].
Proof. exact (proj1 (C10_disjoint _ _ _ fresh3 ex_reach)). Qed.
Example ex_frees : reach ps3 (fst (run zo1 (mkSt ps3 ex_mem 0, []) (ex_ops ++ [Free 1; Free 1; Free 0]))) [].
Proof.
  pose proof (run_reach ps3 zo1 (ex_ops ++ [Free 1; Free 1; Free 0]) zo1_ok (mkSt ps3 ex_mem 0, []) (R_init ps3 ex_mem)) as R.
  specialize (R ltac:(vm_compute; reflexivity)).
  assert (E : snd (run zo1 (mkSt ps3 ex_mem 0, []) (ex_ops ++ [Free 1; Free 1; Free 0])) = [])
    by (vm_compute; reflexivity).
  rewrite E in R. exact R.
Qed.
Example ex_count : map free_blocks (pools (fst (run zo1 (mkSt ps3 ex_mem 0, []) ex_ops))) = [9; 34].
Proof. vm_compute. reflexivity. Qed.

Print Assumptions C10_disjoint.
Print Assumptions C10_no_assert.
Print Assumptions C10_contents.
Print Assumptions C10_pool_layout.
Print Assumptions C11_free_count.
Print Assumptions C11_restored.
Print Assumptions C11_serves.
