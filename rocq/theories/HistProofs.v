(** Proofs about the write history. *)
From Coq Require Import Permutation ZArith List Lia Bool Sorting.Sorted.
From Verif Require Import CBase RbModel RbSpec RbProofs HistModel HistSpec.
Import ListNotations.
Open Scope Z_scope.

(** ** Order and overlap of pieces *)

Definition pb (p q : piece) : Prop := pfile p < pfile q \/ pfile p = pfile q /\ poff p + plen p <= poff q.
Definition ranged (p : piece) : Prop := 0 <= poff p /\ 0 < plen p /\ poff p + plen p < 2 ^ 64.
Definition ov (p q : piece) : bool :=
  (pfile p =? pfile q) && (poff p <? poff q + plen q) && (poff q <? poff p + plen p).

Lemma pb_trans p q r : pb p q -> pb q r -> 0 < plen q -> pb p r.
Proof. unfold pb. lia. Qed.

Lemma compare_spec p q : ranged p -> ranged q ->
  snd (compare p q) = ov p q /\ (ov p q = false -> match fst (compare p q) with Some true => pb p q | Some false => pb q p | None => False end).
Proof.
  unfold ranged, compare, ov, pb. intros (A & B & C) (A' & B' & C').
  assert (E1 : u64 (poff p + plen p) = poff p + plen p) by (apply Z.mod_small; lia).
  assert (E2 : u64 (poff q + plen q) = poff q + plen q) by (apply Z.mod_small; lia). rewrite E1, E2.
  destruct (Z.ltb_spec (pfile p) (pfile q)); [cbn; split; [|lia]; destruct (Z.eqb_spec (pfile p) (pfile q)); [lia|auto]|].
  destruct (Z.ltb_spec (pfile q) (pfile p)); [cbn; split; [|lia]; destruct (Z.eqb_spec (pfile p) (pfile q)); [lia|auto]|].
  destruct (Z.eqb_spec (pfile p) (pfile q)); [|lia]. cbn [andb].
  destruct (Z.ltb_spec (poff p) (poff q)); cbn [fst snd].
  - split; [destruct (Z.ltb_spec (poff q) (poff p + plen p)), (Z.ltb_spec (poff p) (poff q + plen q)); cbn; auto; lia|].
    destruct (Z.ltb_spec (poff q) (poff p + plen p)), (Z.ltb_spec (poff p) (poff q + plen q)); cbn; try discriminate; lia.
  - destruct (Z.ltb_spec (poff q) (poff p)); cbn [fst snd].
    + split; [destruct (Z.ltb_spec (poff q) (poff p + plen p)), (Z.ltb_spec (poff p) (poff q + plen q)); cbn; auto; lia|].
      destruct (Z.ltb_spec (poff q) (poff p + plen p)), (Z.ltb_spec (poff p) (poff q + plen q)); cbn; try discriminate; lia.
    + split; destruct (Z.ltb_spec (poff q) (poff p + plen p)), (Z.ltb_spec (poff p) (poff q + plen q)); cbn; auto; lia.
Qed.

Lemma ov_pb p q : ranged p -> ranged q -> pb p q -> ov p q = false /\ ov q p = false.
Proof.
  unfold ranged, pb, ov. intros H H1 H2.
  destruct (Z.eqb_spec (pfile p) (pfile q)), (Z.eqb_spec (pfile q) (pfile p)), (Z.ltb_spec (poff p) (poff q + plen q)), (Z.ltb_spec (poff q) (poff p + plen p)); cbn; split; auto; lia.
Qed.

(** ** The search *)

Definition fnode (f : frame) : Z := match f with L _ y _ => y | R _ _ y => y end.
Definition fdir (f : frame) : bool := match f with L _ _ _ => true | R _ _ _ => false end.

Lemma last_left k : lefts k = [] \/ exists pre y, lefts k = pre ++ [y] /\ exists f, In f k /\ fnode f = y /\ fdir f = false.
Proof.
  induction k as [|[c x r|c l x] k IH]; cbn [lefts]; auto.
  - destruct IH as [->|(pre & y & -> & f & Hf & H)]; auto. right. exists pre, y. split; auto. exists f. split; [right; auto|auto].
  - right. exists (lefts k ++ inorder l), x. split; [rewrite <- app_assoc; auto|]. exists (R c l x). cbn. auto.
Qed.
Lemma first_right k : rights k = [] \/ exists y post, rights k = y :: post /\ exists f, In f k /\ fnode f = y /\ fdir f = true.
Proof.
  induction k as [|[c x r|c l x] k IH]; cbn [rights]; auto.
  - right. exists x, (inorder r ++ rights k). split; auto. exists (L c x r). cbn. auto.
  - destruct IH as [->|(y & post & -> & f & Hf & H)]; auto. right. exists y, post. split; auto. exists f. split; [right; auto|auto].
Qed.

Lemma walk_ok fuel p h : forall t k, rep (htree h) k t -> (height t < fuel)%nat -> ranged p ->
  (forall y, In y (inorder t) -> live h y = true /\ ranged (pc h y)) ->
  (exists y, walk fuel p (rootp t) (ppar k) (link_at k) h = Some (Overlap y) /\ In y (inorder t) /\ ov p (pc h y) = true) \/
  (exists k', walk fuel p (rootp t) (ppar k) (link_at k) h = Some (Slot (ppar (k' ++ k)) (link_at (k' ++ k))) /\ plug k' E = t /\
     forall f, In f k' -> if fdir f then pb p (pc h (fnode f)) else pb (pc h (fnode f)) p).
Proof.
  induction fuel as [|fl IH]; intros t k H F RP A; [lia|]. cbn [walk]. destruct t as [|c l x r]; cbn [rootp].
  { right. exists []. cbn [Z.eqb app]. split; [auto|]. split; [auto|]. intros f []. }
  destruct (rep_node _ _ _ _ _ _ H) as [X0 HX]. destruct (Z.eqb_spec x 0); [congruence|].
  destruct (A x) as [LX RX]; [cbn [inorder]; apply in_elt|]. replace (deref h x) with (Some (pc h x)) by (unfold deref; rewrite LX; auto).
  destruct (compare_spec p (pc h x) RP RX) as [C1 C2]. destruct (compare p (pc h x)) as [dir o]. cbn [fst snd] in *. subst o.
  destruct (ov p (pc h x)) eqn:OV.
  { left. exists x. split; [auto|]. split; auto. cbn [inorder]. apply in_elt. }
  specialize (C2 eq_refl). rewrite (get_nz _ x), HX by auto. cbn [lft rgt]. cbn [height] in F.
  destruct dir as [[]|]; [| |destruct C2].
  - assert (A' : forall y, In y (inorder l) -> live h y = true /\ ranged (pc h y)) by (intros y Hy; apply A; cbn [inorder]; apply in_or_app; cbn [In]; auto).
    destruct (IH l _ (dnL _ _ _ _ _ _ H) ltac:(lia) RP A') as [(y & E1 & E2 & E3)|(k' & E1 & E2 & E3)].
    + left. exists y. split; [exact E1|]. split; auto. cbn [inorder]. apply in_or_app. auto.
    + right. exists (k' ++ [L c x r]). rewrite <- app_assoc. cbn [app]. split; [exact E1|]. split; [rewrite plug_app, E2; auto|].
      intros f Hf. apply in_app_or in Hf. destruct Hf as [Hf|[<-|[]]]; [apply E3; auto|exact C2].
  - assert (A' : forall y, In y (inorder r) -> live h y = true /\ ranged (pc h y)) by (intros y Hy; apply A; cbn [inorder]; apply in_or_app; cbn [In]; auto).
    destruct (IH r _ (dnR _ _ _ _ _ _ H) ltac:(lia) RP A') as [(y & E1 & E2 & E3)|(k' & E1 & E2 & E3)].
    + left. exists y. split; [exact E1|]. split; auto. cbn [inorder]. apply in_or_app. cbn [In]. auto.
    + right. exists (k' ++ [R c l x]). rewrite <- app_assoc. cbn [app]. split; [exact E1|]. split; [rewrite plug_app, E2; auto|].
      intros f Hf. apply in_app_or in Hf. destruct Hf as [Hf|[<-|[]]]; [apply E3; auto|exact C2].
Qed.

Lemma ss_app {A} (R : A -> A -> Prop) a b : StronglySorted R (a ++ b) <-> StronglySorted R a /\ StronglySorted R b /\ (forall x y, In x a -> In y b -> R x y).
Proof.
  induction a as [|x a IH]; cbn [app].
  - split; [intros H; split; [constructor|]; split; auto; intros ? ? []|tauto].
  - split.
    + intros H. inversion H as [|? ? H1 H2]; subst. apply IH in H1. destruct H1 as (H3 & H4 & H5). apply Forall_app in H2. destruct H2 as [H6 H7].
      split; [constructor; auto|]. split; auto. intros z y [->|Hz] Hy; [rewrite Forall_forall in H7; auto|auto].
    + intros (H1 & H2 & H3). inversion H1 as [|? ? H4 H5]; subst. constructor; [apply IH; split; auto; split; auto; intros; apply H3; auto; right; auto|].
      apply Forall_app. split; auto. apply Forall_forall. intros y Hy. apply H3; auto. left. auto.
Qed.

(** No overlap on the path means no overlap at all, and the slot is the right place. *)
Lemma path_clear (c : Z -> piece) p k : ranged p -> (forall y, In y (lefts k ++ rights k) -> ranged (c y)) ->
  StronglySorted (fun x y => pb (c x) (c y)) (lefts k ++ rights k) ->
  (forall f, In f k -> if fdir f then pb p (c (fnode f)) else pb (c (fnode f)) p) ->
  (forall y, In y (lefts k) -> pb (c y) p) /\ (forall y, In y (rights k) -> pb p (c y)).
Proof.
  intros RP A S P. apply ss_app in S. destruct S as (S1 & S2 & _). split.
  - intros y Hy. destruct (last_left k) as [E|(pre & z & E & f & Hf & <- & D)]; [rewrite E in Hy; destruct Hy|].
    specialize (P f Hf). rewrite D in P. rewrite E in *. apply in_app_or in Hy. destruct Hy as [Hy|[<-|[]]]; auto.
    apply ss_app in S1. destruct S1 as (_ & _ & S1). apply (pb_trans _ (c (fnode f))); auto.
    + apply S1; auto. left. auto.
    + apply A. apply in_or_app. left. apply in_or_app. right. left. auto.
  - intros y Hy. destruct (first_right k) as [E|(z & post & E & f & Hf & <- & D)]; [rewrite E in Hy; destruct Hy|].
    specialize (P f Hf). rewrite D in P. rewrite E in *. destruct Hy as [<-|Hy]; auto.
    inversion S2 as [|? ? S3 S4]; subst. rewrite Forall_forall in S4. apply (pb_trans _ (c (fnode f))); auto.
    apply A. apply in_or_app. right. left. auto.
Qed.

Lemma height_size t : (height t <= length (inorder t))%nat.
Proof. induction t as [|c l IHl x r IHr]; cbn [height inorder]; auto. rewrite app_length. cbn [length]. lia. Qed.

(** ** Placing a piece *)

Lemma mem_In x l : mem x l = true <-> In x l.
Proof. unfold mem. rewrite existsb_exists. split; [intros (y & H & E); apply Z.eqb_eq in E; subst; auto|intros H; exists x; split; auto; apply Z.eqb_refl]. Qed.
Lemma mem_false x l : mem x l = false <-> ~ In x l.
Proof. rewrite <- mem_In. destruct (mem x l); intuition congruence. Qed.

Lemma fupd_same {A} (f : Z -> A) x v : fupd f x v x = v. Proof. unfold fupd. rewrite Z.eqb_refl. auto. Qed.
Lemma fupd_other {A} (f : Z -> A) x v i : i <> x -> fupd f x v i = f i.
Proof. unfold fupd. intros. destruct (Z.eqb_spec i x); congruence. Qed.

Definition keepq (g : list Z) (q : list Z) : list Z := filter (fun y => negb (mem y g)) q.

Lemma unlink_len x l : NoDup l -> In x l -> (length l = S (length (unlink x l)))%nat.
Proof.
  induction l as [|y l IH]; intros ND HI; [destruct HI|]. inversion ND; subst. cbn [unlink filter].
  destruct (Z.eqb_spec x y); cbn [negb].
  - subst. cbn [length]. f_equal. assert (H : filter (fun y0 => negb (y =? y0)) l = l); [|unfold unlink; rewrite H; auto].
    clear -H1. induction l as [|z l IH]; auto. cbn [filter]. destruct (Z.eqb_spec y z); [subst; destruct H1; left; auto|]. cbn [negb]. f_equal. apply IH. intros H. apply H1. right. auto.
  - cbn [length]. f_equal. apply IH; auto. destruct HI; congruence.
Qed.
Lemma keepq_nil q : keepq [] q = q.
Proof. unfold keepq. induction q as [|y q IH]; auto. cbn. f_equal. auto. Qed.
Lemma keepq_cons y g q : keepq (y :: g) q = keepq g (unlink y q).
Proof.
  unfold keepq, unlink. induction q as [|z q IH]; auto. cbn [filter]. change (mem z (y :: g)) with ((z =? y) || mem z g).
  destruct (Z.eqb_spec z y), (Z.eqb_spec y z); try congruence; cbn [orb negb filter]; [auto|]. rewrite IH. reflexivity.
Qed.
Lemma keepq_ext g g' q : (forall y, In y g <-> In y g') -> keepq g q = keepq g' q.
Proof.
  intros H. unfold keepq. apply filter_ext. intros y. f_equal. destruct (mem y g) eqn:A, (mem y g') eqn:B; auto.
  - apply mem_In, H, mem_In in A. congruence.
  - apply mem_In, H, mem_In in B. congruence.
Qed.

Definition tok (h : hist) : Prop := NoDup (trimq h) /\ tents h = u64 (zlen (trimq h)).

Record tree_ok (h : hist) (t : tree) : Prop := {
  k_holds : holds (htree h) t;
  k_bal : balanced t;
  k_sort : StronglySorted (fun x y => pb (pc h x) (pc h y)) (inorder t);
  k_mem : forall y, In y (inorder t) -> live h y = true /\ ranged (pc h y) }.

Lemma remove_trim_ok y h : live h y = true -> tok h ->
  exists h', remove_trim_entry y h = Some h' /\ trimq h' = unlink y (trimq h) /\ tok h' /\
    htree h' = htree h /\ hlist h' = hlist h /\ hlen h' = hlen h /\ pc h' = pc h /\ live h' = live h.
Proof.
  intros LY [ND TE]. unfold remove_trim_entry, deref. rewrite LY. destruct (mem y (trimq h)) eqn:M.
  - apply mem_In in M. eexists. split; [reflexivity|]. cbn. repeat (split; auto).
    + apply NoDup_filter. auto.
    + cbn. rewrite TE. pose proof (unlink_len y _ ND M) as UL. unfold u64, zlen. rewrite Zminus_mod_idemp_l. f_equal. rewrite UL. lia.
  - exists h. split; auto. apply mem_false in M. split; [|repeat (split; auto)].
    symmetry. unfold unlink. clear -M. induction (trimq h) as [|z l IH]; auto. cbn [filter]. destruct (Z.eqb_spec y z); [subst; destruct M; left; auto|].
    cbn [negb]. f_equal. apply IH. intros H. apply M. right. auto.
Qed.

Definition gone (p : piece) (h : hist) (t : tree) : list Z := filter (fun y => ov p (pc h y)) (inorder t).

Lemma ss_impl {A} (R R' : A -> A -> Prop) l : (forall x y, In x l -> In y l -> R x y -> R' x y) -> StronglySorted R l -> StronglySorted R' l.
Proof.
  intros H S. induction S as [|x l S IH F]; constructor.
  - apply IH. intros; apply H; auto; right; auto.
  - rewrite Forall_forall in *. intros y Hy. apply H; auto; [left|right]; auto.
Qed.

Lemma filter_none {A} (f : A -> bool) l : (forall x, In x l -> f x = false) -> filter f l = [].
Proof. induction l as [|x l IH]; intros H; auto. cbn [filter]. rewrite H by (left; auto). apply IH. intros; apply H; right; auto. Qed.

Lemma u64_sub a b : u64 (u64 a - b) = u64 (a - b). Proof. apply Zminus_mod_idemp_l. Qed.
Lemma u64_add a b : u64 (u64 a + b) = u64 (a + b). Proof. apply Zplus_mod_idemp_l. Qed.

Lemma place_ok fuel x p : forall rounds h t, tree_ok h t -> tok h -> live h x = true -> pc h x = p -> ranged p -> x <> 0 -> ~ In x (inorder t) ->
  (length (gone p h t) < rounds)%nat -> (length (inorder t) < fuel)%nat ->
  let g := gone p h t in
  exists h' t', place rounds fuel x h = Some h' /\ tree_ok h' t' /\ tok h' /\
    (forall y, In y (inorder t') <-> y = x \/ In y (inorder t) /\ ~ In y g) /\
    pc h' x = set_onrb true p /\
    (forall y, y <> x -> pc h' y = if mem y g then set_onrb false (pc h y) else pc h y) /\
    (forall y, live h' y = live h y && negb (mem y g && negb (flying (pc h y)))) /\
    trimq h' = keepq g (trimq h) /\ hlist h' = hlist h /\ hlen h' = u64 (hlen h + 1 - zlen g).
Proof.
  induction rounds as [|rounds IH]; intros h t TO TK LX PX RP X0 NX GL F; [lia|]. cbn zeta. cbn [place].
  unfold deref at 1. rewrite LX, PX. destruct TO as [HH BB SS MM]. pose proof (proj2 (rep_holds _ _) HH) as RR.
  pose proof (height_size t) as HS.
  assert (Ht : top (htree h) = rootp t) by (destruct HH as (_ & Ht & _); exact Ht).
  destruct (walk_ok fuel p h t [] RR ltac:(lia) RP MM) as [(y & E1 & IY & OY)|(k & E1 & PK & PA)]; cbn [ppar link_at] in E1; rewrite Ht, E1.
  - (* an overlapping piece is dropped *)
    assert (YX : y <> x) by (intros ->; auto). destruct (MM y IY) as [LY RY].
    cbn [w_len htree]. destruct (erase_list fuel (htree h) t y RR BB IY ltac:(lia)) as (s1 & t1 & l1 & l2 & -> & R1 & B1 & I1 & I2).
    assert (YN : ~ In y (l1 ++ l2)). { apply NoDup_remove_2. rewrite <- I1. apply HH. }
    set (h1 := w_pc (fupd (pc h) y (set_onrb false (pc h y))) (w_tree s1 (w_len (u64 (hlen h - 1)) h))).
    assert (MD : modify y (set_onrb false) (w_tree s1 (w_len (u64 (hlen h - 1)) h)) = Some h1) by (unfold modify, deref; cbn; rewrite LY; reflexivity).
    rewrite MD. assert (TK1 : tok h1) by (unfold h1, tok; cbn; exact TK).
    destruct (remove_trim_ok y h1) as (h2 & -> & Q2 & TK2 & T2 & L2 & N2 & P2 & V2); auto.
    assert (D2 : deref h2 y = Some (set_onrb false (pc h y))) by (unfold deref; rewrite V2, P2; cbn; rewrite LY, fupd_same; reflexivity).
    rewrite D2. cbn [set_onrb flying].
    set (fy := flying (pc h y)).
    assert (S3 : exists h3, (if fy then Some h2 else release y h2) = Some h3 /\ trimq h3 = trimq h2 /\ tok h3 /\ htree h3 = s1 /\ hlist h3 = hlist h /\
       hlen h3 = u64 (hlen h - 1) /\ pc h3 = fupd (pc h) y (set_onrb false (pc h y)) /\ (forall i, live h3 i = live h i && negb ((i =? y) && negb fy))).
    { destruct fy.
      - exists h2. split; [auto|]. split; [auto|]. split; [auto|]. split; [rewrite T2; auto|]. split; [rewrite L2; auto|]. split; [rewrite N2; auto|]. split; [rewrite P2; auto|].
        intros i. rewrite V2. cbn [h1 live]. cbn [negb]. rewrite andb_false_r, andb_true_r. auto.
      - unfold release, deref. rewrite V2. change (live h1 y) with (live h y). rewrite LY. eexists. split; [reflexivity|]. cbn [w_live trimq htree hlist hlen pc live].
        split; [auto|]. split; [exact TK2|]. split; [rewrite T2; auto|]. split; [rewrite L2; auto|]. split; [rewrite N2; auto|]. split; [rewrite P2; auto|].
        intros i. unfold fupd. destruct (Z.eqb_spec i y); cbn [andb negb]; [rewrite andb_false_r|rewrite andb_true_r]; auto. }
    destruct S3 as (h3 & -> & Q3 & TK3 & T3 & L3 & N3 & P3 & V3).
    assert (P3o : forall i, i <> y -> pc h3 i = pc h i) by (intros; rewrite P3; apply fupd_other; auto).
    assert (TO3 : tree_ok h3 t1).
    { constructor.
      - rewrite T3. apply rep_holds. auto.
      - auto.
      - rewrite I2. rewrite I1 in SS. apply ss_app in SS. destruct SS as (S1 & S2 & S3). inversion S2; subst.
        apply (ss_impl (fun a b => pb (pc h a) (pc h b))).
        + intros a b Ha Hb. rewrite !P3o; auto; intros ->; auto.
        + apply ss_app. split; auto. split; auto. intros; apply S3; auto; right; auto.
      - intros i Hi. rewrite I2 in Hi. assert (i <> y) by (intros ->; auto). rewrite P3o, V3 by auto.
        destruct (MM i) as [Li Ri]; [rewrite I1; apply in_app_or in Hi; apply in_or_app; cbn [In]; tauto|].
        rewrite Li. destruct (Z.eqb_spec i y); [congruence|]. auto. }
    assert (G3 : gone p h3 t1 = filter (fun z => ov p (pc h z)) (l1 ++ l2)).
    { unfold gone. rewrite I2. apply filter_ext_in. intros a Ha. rewrite P3o; auto. intros ->; auto. }
    assert (G0 : gone p h t = filter (fun z => ov p (pc h z)) l1 ++ y :: filter (fun z => ov p (pc h z)) l2).
    { unfold gone. rewrite I1, filter_app. cbn [filter]. rewrite OY. auto. }
    rewrite filter_app in G3.
    assert (GI : forall i, In i (gone p h t) <-> i = y \/ In i (gone p h3 t1)).
    { intros i. rewrite G0, G3, !in_app_iff. cbn [In]. intuition congruence. }
    assert (NYG : ~ In y (gone p h3 t1)). { unfold gone. rewrite filter_In, I2. tauto. }
    assert (NX1 : ~ In x (inorder t1)). { rewrite I2. intros Hx. apply NX. rewrite I1. apply in_app_or in Hx. apply in_or_app. cbn [In]. tauto. }
    destruct (IH h3 t1 TO3 TK3) as (h' & t' & E4 & TO' & TK' & M' & PX' & PO' & V' & Q' & L' & N'); auto.
    { rewrite V3, LX. destruct (Z.eqb_spec x y); [congruence|]. auto. }
    { rewrite P3o; auto. }
    { rewrite G3. rewrite G0 in GL. rewrite app_length in *. cbn [length] in GL. lia. }
    { rewrite I2. rewrite I1 in F. rewrite app_length in *. cbn [length] in F. lia. }
    assert (MY : mem y (gone p h t) = true) by (apply mem_In, GI; auto).
    assert (MO : forall i, i <> y -> mem i (gone p h3 t1) = mem i (gone p h t)).
    { intros i Hi. destruct (mem i (gone p h3 t1)) eqn:A, (mem i (gone p h t)) eqn:B; auto.
      - apply mem_In in A. apply mem_false in B. destruct B. apply GI. auto.
      - apply mem_In in B. apply GI in B. apply mem_false in A. tauto. }
    exists h', t'. split; [exact E4|]. split; [exact TO'|]. split; [exact TK'|]. split; [|split; [exact PX'|split; [|split; [|split; [|split]]]]].
    + intros i. rewrite M', GI, I2, I1, !in_app_iff. cbn [In].
      split; [intros [->|[A B]]; auto; right; split; [tauto|]; intros [->|C]; [|tauto]; apply YN; apply in_or_app; auto|].
      intros [->|[A B]]; auto. right. split; [|tauto]. destruct A as [A|[A|A]]; auto. subst. tauto.
    + intros i Hi. rewrite PO' by auto. destruct (Z.eq_dec i y) as [->|NY].
      * rewrite MY. apply mem_false in NYG. rewrite NYG, P3. apply fupd_same.
      * rewrite MO, P3o by auto. auto.
    + intros i. rewrite V', V3. destruct (Z.eq_dec i y) as [->|NY].
      * apply mem_false in NYG. rewrite NYG, MY, Z.eqb_refl. cbn [andb negb]. rewrite andb_true_r. auto.
      * rewrite MO, P3o by auto. destruct (Z.eqb_spec i y); [congruence|]. cbn [andb negb]. rewrite andb_true_r. auto.
    + rewrite Q', Q3, Q2. cbn [h1 trimq]. rewrite <- keepq_cons. apply keepq_ext. intros i. rewrite GI. cbn [In]. intuition congruence.
    + rewrite L', L3. auto.
    + rewrite N', N3. rewrite <- Z.add_sub_assoc, u64_add. f_equal. rewrite G0, G3. unfold zlen. rewrite !app_length. cbn [length]. lia.
  - (* insertion *)
    rewrite app_nil_r. subst t. pose proof (proj2 (rep_plug _ _ _) RR) as RK.
    assert (IO : inorder (plug k E) = lefts k ++ rights k) by (rewrite inorder_plug; auto). rewrite IO in *.
    pose proof (height_plug k E) as HP. cbn [height] in HP.
    destruct (path_clear (pc h) p k RP) as [PL PR]; auto; [intros y Hy; apply MM; auto|].
    assert (G0 : gone p h (plug k E) = []).
    { unfold gone. apply filter_none. intros y Hy. rewrite IO in Hy. destruct (MM y Hy) as [_ RY]. apply in_app_or in Hy.
      destruct Hy as [Hy|Hy]; [destruct (ov_pb _ _ RY RP (PL y Hy))|destruct (ov_pb _ _ RP RY (PR y Hy))]; auto. }
    destruct (insert_ok fuel (htree h) k x RK BB X0) as (s1 & s' & t' & -> & -> & R' & I' & B'); [rewrite IO; auto|lia|].
    assert (NX' : forall y, In y (lefts k ++ rights k) -> y <> x) by (intros y Hy ->; auto).
    unfold modify, deref. cbn [w_tree live pc]. rewrite LX, PX. cbn [w_pc w_len hlen].
    eexists _, t'. split; [reflexivity|].
    rewrite inorder_plug in I'. cbn [inorder app] in I'. rewrite G0. cbn [w_tree w_len w_pc htree pc live trimq hlist hlen tents mem existsb].
    assert (PO : forall i, i <> x -> fupd (pc h) x (set_onrb true p) i = pc h i) by (intros; apply fupd_other; auto).
    split; [constructor; cbn [w_tree w_len w_pc htree pc live]|split; [exact TK|split; [|split; [|split; [|split; [|split; [|split]]]]]]].
    + apply rep_holds. auto.
    + auto.
    + rewrite I'. apply ss_app in SS. destruct SS as (S1 & S2 & S3).
      assert (IMP : forall l, (forall y, In y l -> In y (lefts k ++ rights k)) -> StronglySorted (fun a b => pb (pc h a) (pc h b)) l ->
         StronglySorted (fun a b => pb (fupd (pc h) x (set_onrb true p) a) (fupd (pc h) x (set_onrb true p) b)) l).
      { intros l Hl. apply ss_impl. intros a b Ha Hb. rewrite !PO; auto. }
      apply ss_app. split; [apply IMP; auto; intros; apply in_or_app; auto|]. split.
      * constructor; [apply IMP; auto; intros; apply in_or_app; auto|]. apply Forall_forall. intros y Hy. cbn beta. rewrite fupd_same, PO by (apply NX', in_or_app; auto).
        apply PR. auto.
      * intros a b Ha [<-|Hb]; rewrite (PO a) by (apply NX', in_or_app; auto); [rewrite fupd_same; apply PL; auto|].
        rewrite (PO b) by (apply NX', in_or_app; auto). auto.
    + intros y Hy. rewrite I' in Hy. destruct (Z.eq_dec y x) as [->|NY].
      * rewrite fupd_same. split; auto.
      * rewrite PO by auto. apply MM. apply in_app_or in Hy. apply in_or_app. cbn [In] in Hy. destruct Hy as [|[|]]; auto. congruence.
    + intros y. rewrite I', !in_app_iff. cbn [In]. intuition congruence.
    + apply fupd_same.
    + intros y Hy. apply PO. auto.
    + intros y. cbn [andb negb]. rewrite andb_true_r. auto.
    + rewrite keepq_nil. auto.
    + auto.
    + unfold zlen. cbn [length]. f_equal. lia.
Qed.

(** ** The code's reaction to the events *)

Definition pview (p : piece) : Z * Z * Z * Z * Z * bool := (pfile p, poff p, plen p, pnum p, pmark p, ptrim p).
Definition hstep (fuel : nat) (risk : bool) (e : ev) (h : hist) : option (out * hist) :=
  match e with
  | Log x file off len num mark trim => do h <- log_piece fuel risk x file off len num mark trim h; Some (None, h)
  | Done x => do h <- completed x h; Some (None, h)
  | Fail x => do h <- unlog_piece fuel x h; Some (None, h)
  | Short x n => do h <- trim_piece x n h; Some (None, h)
  | Next => do r <- next_verify fuel h; Some (option_map pview (fst r), snd r)
  | Trim => do r <- next_trim fuel true h; Some (option_map pview (fst r), snd r)
  end.
Fixpoint hrun (fuel : nat) (risk : bool) (evs : list ev) (h : hist) : option (list out * hist) :=
  match evs with
  | [] => Some ([], h)
  | e :: evs => do r <- hstep fuel risk e h; do q <- hrun fuel risk evs (snd r); Some (fst r :: fst q, snd q)
  end.

Definition matches (p : piece) (e : ent) : Prop :=
  pfile p = efile e /\ poff p = eoff e /\ plen p = elen e /\ pnum p = enum e /\ pmark p = emark e /\ flying p = negb (edone e) /\ ptrim p = etrim e.

Definition tree_part (risk : bool) (s : sst) (h : hist) (t : tree) : Prop :=
  if risk then (forall x, In x (inorder t) <-> In x (ids (recs s))) /\ hlist h = []
  else inorder t = [] /\ hlist h = ids (recs s).

Record sim (risk : bool) (s : sst) (h : hist) : Prop := {
  m_tree : exists t, tree_ok h t /\ tree_part risk s h t;
  m_nd : NoDup (ids (recs s));
  m_ent : forall e, In e (recs s) -> eid e <> 0 /\ live h (eid e) = true /\ matches (pc h (eid e)) e /\ ranged (pc h (eid e)) /\
     onrb (pc h (eid e)) = risk /\ onlist (pc h (eid e)) = negb risk /\ (edone e = true <-> ~ In (eid e) (fly s));
  m_fly : forall x, In x (fly s) -> x <> 0 /\ live h x = true /\
     (~ In x (ids (recs s)) -> onrb (pc h x) = false /\ onlist (pc h x) = false);
  m_live : forall x, live h x = true -> In x (ids (recs s)) \/ In x (fly s);
  m_tq : trimq h = tq s; m_tok : tok h; m_tqin : incl (tq s) (ids (recs s));
  m_len : hlen h = u64 (zlen (recs s) - lost s) }.

Lemma matches_ov p e q f : matches p e -> matches q f -> ov p q = touchb e f.
Proof. intros (A1 & A2 & A3 & _) (B1 & B2 & B3 & _). unfold ov, touchb. congruence. Qed.
Lemma matches_view p e : matches p e -> pview p = view e.
Proof. unfold matches, pview, view. intros (A1 & A2 & A3 & A4 & A5 & A6 & A7). congruence. Qed.

Lemma in_ids l x : In x (ids l) <-> exists e, In e l /\ eid e = x.
Proof. unfold ids. rewrite in_map_iff. firstorder. Qed.
Lemma ids_upd x f l : (forall e, eid (f e) = eid e) -> ids (upd_ent x f l) = ids l.
Proof. intros H. unfold ids, upd_ent. rewrite map_map. apply map_ext. intros e. destruct (eid e =? x); auto. Qed.
Lemma in_upd x f l e' : In e' (upd_ent x f l) <-> exists e, In e l /\ e' = if eid e =? x then f e else e.
Proof. unfold upd_ent. rewrite in_map_iff. split; intros (e & A & B); exists e; auto. Qed.
Lemma len_upd x f l : zlen (upd_ent x f l) = zlen l.
Proof. unfold zlen, upd_ent. rewrite map_length. auto. Qed.
Lemma in_drop x l e : In e (drop x l) <-> In e l /\ eid e <> x.
Proof. unfold drop. rewrite filter_In. destruct (Z.eqb_spec (eid e) x); cbn; intuition congruence. Qed.
Lemma ids_drop x l i : In i (ids (drop x l)) <-> In i (ids l) /\ i <> x.
Proof. rewrite !in_ids. split; [intros (e & A & <-); apply in_drop in A; destruct A; split; eauto|intros [(e & A & <-) B]; exists e; rewrite in_drop; auto]. Qed.
Lemma nd_filter f l : NoDup (ids l) -> NoDup (ids (filter f l)).
Proof.
  induction l as [|e l IH]; intros H; cbn; [auto|]. inversion H; subst. destruct (f e); auto. cbn. constructor; auto.
  intros A. apply in_ids in A. destruct A as (e' & A & B). apply filter_In in A. apply H2. apply in_ids. exists e'. tauto.
Qed.
Lemma in_del x l i : In i (HistSpec.del x l) <-> In i l /\ i <> x.
Proof. unfold HistSpec.del. rewrite filter_In. destruct (Z.eqb_spec i x); cbn; intuition congruence. Qed.
Lemma del_unlink x l : HistSpec.del x l = unlink x l.
Proof. unfold HistSpec.del, unlink. apply filter_ext. intros a. rewrite Z.eqb_sym. auto. Qed.
Lemma uniq_id l e e' : NoDup (ids l) -> In e l -> In e' l -> eid e = eid e' -> e = e'.
Proof.
  induction l as [|a l IH]; intros ND A B EQ; [destruct A|]. inversion ND; subst. destruct A as [->|A], B as [->|B]; auto.
  - destruct H1. apply in_ids. eauto.
  - destruct H1. apply in_ids. eauto.
Qed.
Lemma drop_len x l : NoDup (ids l) -> zlen (drop x l) = zlen l - (if existsb (Z.eqb x) (ids l) then 1 else 0).
Proof.
  induction l as [|e l IH]; intros ND; auto. inversion ND; subst. specialize (IH H2). unfold drop in *. cbn [filter ids map existsb].
  rewrite (Z.eqb_sym x). destruct (Z.eqb_spec (eid e) x); cbn [negb orb].
  - subst. replace (existsb (Z.eqb (eid e)) (ids l)) with false in IH.
    + unfold zlen in *. cbn [length]. lia.
    + symmetry. apply mem_false. auto.
  - unfold zlen in *. cbn [length]. fold (ids l). destruct (existsb (Z.eqb x) (ids l)); lia.
Qed.

(** *** Completion and shortening *)

Lemma tree_frame h h' t : tree_ok h t -> htree h' = htree h ->
  (forall y, In y (inorder t) -> live h' y = true /\ pfile (pc h' y) = pfile (pc h y) /\ poff (pc h' y) = poff (pc h y) /\ 0 < plen (pc h' y) <= plen (pc h y)) ->
  tree_ok h' t.
Proof.
  intros [H B S M] E F. constructor; auto.
  - rewrite E. auto.
  - apply (ss_impl (fun a b => pb (pc h a) (pc h b))); auto. intros a b Ha Hb. destruct (F a Ha) as (_ & A1 & A2 & A3), (F b Hb) as (_ & B1 & B2 & B3).
    unfold pb. lia.
  - intros y Hy. destruct (F y Hy) as (L & A1 & A2 & A3), (M y Hy) as (_ & R). split; auto. unfold ranged in *. lia.
Qed.

Lemma sim_done risk s h x : sim risk s h -> In x (fly s) ->
  exists h', completed x h = Some h' /\ sim risk (mkT (upd_ent x done_ent (recs s)) (HistSpec.del x (fly s)) (tq s) (lost s)) h'.
Proof.
  intros [MT ND ME MF ML MQ MK MI MN] HX. destruct (MF x HX) as (X0 & LX & NR). unfold completed, deref. rewrite LX.
  assert (DI : forall l, ids (upd_ent x done_ent l) = ids l) by (intros; apply ids_upd; auto).
  destruct (in_dec Z.eq_dec x (ids (recs s))) as [IR|IR].
  - apply in_ids in IR. destruct IR as (e & IE & EX). destruct (ME e IE) as (_ & _ & M1 & R1 & O1 & O2 & D1). rewrite EX in *.
    rewrite O1, O2. replace (negb (risk || negb risk)) with false by (destruct risk; auto).
    unfold modify, deref. rewrite LX. eexists. split; [reflexivity|]. destruct MT as (t & TO & TP).
    assert (PS : forall i, pfile (fupd (pc h) x (set_flying false (pc h x)) i) = pfile (pc h i) /\ poff (fupd (pc h) x (set_flying false (pc h x)) i) = poff (pc h i) /\
       plen (fupd (pc h) x (set_flying false (pc h x)) i) = plen (pc h i) /\ onrb (fupd (pc h) x (set_flying false (pc h x)) i) = onrb (pc h i) /\
       onlist (fupd (pc h) x (set_flying false (pc h x)) i) = onlist (pc h i)).
    { intros i. unfold fupd. destruct (Z.eqb_spec i x); subst; auto. }
    constructor; cbn [recs fly tq lost w_pc live pc trimq hlen]; rewrite ?DI; auto.
    + exists t. split.
      * apply (tree_frame h); auto. intros y Hy. cbn [w_pc pc live]. destruct (PS y) as (A1 & A2 & A3 & _). destruct (k_mem _ _ TO y Hy) as [A4 A5].
        rewrite A1, A2, A3. unfold ranged in A5. repeat split; auto; lia.
      * unfold tree_part in *. cbn [recs w_pc hlist]. rewrite DI. auto.
    + intros e' IE'. apply in_upd in IE'. destruct IE' as (e0 & IE0 & ->). destruct (ME e0 IE0) as (B1 & B2 & B3 & B4 & B5 & B6 & B7).
      assert (ID : eid (if eid e0 =? x then done_ent e0 else e0) = eid e0) by (destruct (eid e0 =? x); auto). rewrite ID.
      destruct (PS (eid e0)) as (A1 & A2 & A3 & A4 & A5). split; auto. split; auto. split.
      { unfold fupd. destruct (Z.eqb_spec (eid e0) x); auto. unfold matches in *. cbn. rewrite <- e1. intuition. }
      split. { unfold ranged in *. rewrite A2, A3. auto. } split; [rewrite A4; auto|]. split; [rewrite A5; auto|].
      rewrite in_del. destruct (Z.eqb_spec (eid e0) x); cbn; [split; intros; [tauto|auto]|]. rewrite B7. tauto.
    + intros y Hy. apply in_del in Hy. destruct Hy as [Hy NY]. destruct (MF y Hy) as (A & B & C). rewrite fupd_other by auto. auto.
    + intros y Hy. rewrite in_del. destruct (Z.eq_dec y x) as [->|NY]; [left; apply in_ids; eauto|]. destruct (ML y Hy); auto.
    + rewrite len_upd. auto.
  - destruct (NR IR) as [O1 O2]. rewrite O1, O2. cbn [orb negb]. unfold release, deref. rewrite LX. eexists. split; [reflexivity|].
    assert (UE : upd_ent x done_ent (recs s) = recs s).
    { unfold upd_ent. clear -IR. induction (recs s) as [|e l IH]; auto. cbn [map]. destruct (Z.eqb_spec (eid e) x).
      - destruct IR. cbn. auto.
      - f_equal. apply IH. intros A. apply IR. cbn. auto. }
    rewrite UE. destruct MT as (t & TO & TP).
    assert (LO : forall e, In e (recs s) -> fupd (live h) x false (eid e) = true).
    { intros e IE. rewrite fupd_other; [apply ME; auto|]. intros <-. apply IR. apply in_ids. eauto. }
    constructor; cbn [recs fly tq lost w_live live pc trimq hlen]; auto.
    + exists t. split.
      * apply (tree_frame h); auto. intros y Hy. cbn [w_live pc live]. destruct (k_mem _ _ TO y Hy) as [A4 A5]. unfold ranged in A5.
        unfold tree_part in TP. destruct risk.
        -- destruct TP as [TP _]. apply TP in Hy. rewrite fupd_other by (intros ->; auto). repeat split; auto; lia.
        -- destruct TP as [TP _]. rewrite TP in Hy. destruct Hy.
      * exact TP.
    + intros e IE. destruct (ME e IE) as (B1 & B2 & B3 & B4 & B5 & B6 & B7). do 6 (split; [auto|]). rewrite in_del.
      assert (eid e <> x) by (intros <-; apply IR; apply in_ids; eauto). tauto.
    + intros y Hy. apply in_del in Hy. destruct Hy as [Hy NY]. destruct (MF y Hy) as (A & B & C). rewrite fupd_other by auto. auto.
    + intros y Hy. rewrite in_del. destruct (Z.eq_dec y x) as [->|NY]; [rewrite fupd_same in Hy; discriminate|]. rewrite fupd_other in Hy by auto. destruct (ML y Hy); auto.
Qed.

Lemma sim_upd risk s h x f g : sim risk s h ->
  (forall e, eid (f e) = eid e /\ edone (f e) = edone e) ->
  onrb (g (pc h x)) = onrb (pc h x) -> onlist (g (pc h x)) = onlist (pc h x) ->
  (forall e, In e (recs s) -> eid e = x -> matches (g (pc h x)) (f e) /\ pfile (g (pc h x)) = pfile (pc h x) /\ poff (g (pc h x)) = poff (pc h x) /\
     0 < plen (g (pc h x)) <= plen (pc h x)) ->
  sim risk (mkT (upd_ent x f (recs s)) (fly s) (tq s) (lost s)) (w_pc (fupd (pc h) x (g (pc h x))) h).
Proof.
  intros [MT ND ME MF ML MQ MK MI MN] FI G1 G2 GX.
  assert (DI : forall l, ids (upd_ent x f l) = ids l) by (intros; apply ids_upd; apply FI).
  assert (O : forall i, onrb (fupd (pc h) x (g (pc h x)) i) = onrb (pc h i) /\ onlist (fupd (pc h) x (g (pc h x)) i) = onlist (pc h i)).
  { intros i. unfold fupd. destruct (Z.eqb_spec i x); subst; auto. }
  constructor; cbn [recs fly tq lost w_pc live pc trimq hlen]; rewrite ?DI; auto.
  - destruct MT as (t & TO & TP). exists t. split.
    + apply (tree_frame h); auto. intros y Hy. cbn [w_pc pc live]. destruct (k_mem _ _ TO y Hy) as [A4 A5]. split; auto.
      unfold fupd. destruct (Z.eqb_spec y x); [|unfold ranged in A5; lia]. subst y. unfold tree_part in TP. destruct risk.
      * destruct TP as [TP _]. apply TP, in_ids in Hy. destruct Hy as (e & IE & EX). destruct (GX e IE EX) as (_ & A). auto.
      * destruct TP as [TP _]. rewrite TP in Hy. destruct Hy.
    + unfold tree_part in *. cbn [recs w_pc hlist]. rewrite DI. auto.
  - intros e' IE'. apply in_upd in IE'. destruct IE' as (e0 & IE0 & ->). destruct (ME e0 IE0) as (B1 & B2 & B3 & B4 & B5 & B6 & B7).
    assert (ID : eid (if eid e0 =? x then f e0 else e0) = eid e0) by (destruct (eid e0 =? x); auto; apply FI). rewrite ID.
    destruct (O (eid e0)) as [A4 A5]. do 2 (split; [auto|]). rewrite A4, A5. unfold fupd. destruct (Z.eqb_spec (eid e0) x) as [EX|NX].
    + destruct (GX e0 IE0 EX) as (C1 & C2 & C3 & C4). split; [auto|]. split; [|split; [auto|split; [auto|]]].
      * unfold ranged in *. rewrite EX in B4. lia.
      * rewrite (proj2 (FI e0)). auto.
    + auto.
  - intros y Hy. destruct (MF y Hy) as (A & B & C). do 2 (split; [auto|]). destruct (O y) as [-> ->]. auto.
  - rewrite len_upd. auto.
Qed.

Lemma sim_short risk s h x n : sim risk s h -> In x (fly s) -> 0 < n -> (forall e, In e (recs s) -> eid e = x -> n <= elen e) ->
  exists h', trim_piece x n h = Some h' /\ sim risk (mkT (upd_ent x (cut_ent n) (recs s)) (fly s) (tq s) (lost s)) h'.
Proof.
  intros S HX N0 NL. destruct (m_fly _ _ _ S x HX) as (X0 & LX & _). unfold trim_piece, modify, deref. rewrite LX. eexists. split; [reflexivity|].
  apply (sim_upd risk s h x (cut_ent n) (set_plen n)); auto.
  intros e IE EX. specialize (NL e IE EX). destruct (m_ent _ _ _ S e IE) as (_ & _ & M & R & _). rewrite EX in *.
  unfold matches in *. cbn. intuition lia.
Qed.

Lemma sim_trim risk s h : sim risk s h -> zlen (recs s) < 2 ^ 64 ->
  exists h' o s', hstep 0 risk Trim h = Some (o, h') /\ sstep risk s Trim o s' /\ sim risk s' h'.
Proof.
  intros S ZL. cbn [hstep]. unfold next_trim. rewrite (m_tq _ _ _ S). destruct (tq s) as [|x q] eqn:TQ.
  - exists h, None, s. split; [reflexivity|]. split; [constructor; auto|auto].
  - assert (IX : In x (ids (recs s))) by (apply (m_tqin _ _ _ S); rewrite TQ; left; auto).
    pose proof (m_tok _ _ _ S) as [TND TE]. rewrite (m_tq _ _ _ S), TQ in TND, TE.
    assert (TL : (length (x :: q) <= length (recs s))%nat).
    { replace (length (recs s)) with (length (ids (recs s))) by apply map_length. apply NoDup_incl_length; auto. rewrite <- TQ. apply (m_tqin _ _ _ S). }
    destruct (Z.eqb_spec (tents h) 0) as [E0|_].
    { rewrite TE in E0. unfold u64, zlen in *. cbn [length] in *. rewrite Z.mod_small in E0; lia. }
    apply in_ids in IX. destruct IX as (e & IE & EX). destruct (m_ent _ _ _ S e IE) as (B1 & B2 & B3 & B4 & B5 & B6 & B7). rewrite EX in *.
    destruct (remove_trim_ok x h B2 (m_tok _ _ _ S)) as (h1 & -> & Q1 & TK1 & T1 & L1 & N1 & P1 & V1).
    unfold modify, deref. rewrite V1, B2, P1. cbn [fst snd option_map].
    rewrite (matches_view _ _ B3).
    exists (w_pc (fupd (pc h1) x (set_ptrim true (pc h1 x))) h1), (Some (view e)), (mkT (upd_ent x trim_ent (recs s)) (fly s) q (lost s)).
    split; [rewrite P1; reflexivity|]. split; [rewrite <- EX; constructor; auto; congruence|].
    assert (Q0 : unlink x (trimq h) = q).
    { rewrite (m_tq _ _ _ S), TQ. inversion TND; subst. unfold unlink. cbn [filter]. rewrite Z.eqb_refl. cbn [negb]. clear -H1.
      induction q as [|y q IH]; auto. cbn [filter]. destruct (Z.eqb_spec (eid e) y); [subst; destruct H1; left; auto|]. cbn [negb]. f_equal. apply IH. intros A. apply H1. right. auto. }
    assert (S1 : sim risk (mkT (recs s) (fly s) q (lost s)) h1).
    { destruct S as [MT ND ME MF ML MQ MK MI MN]. constructor; cbn [recs fly tq lost]; rewrite ?V1, ?P1, ?N1; auto.
      - destruct MT as (t & TO & TP). exists t. split; [|unfold tree_part in *; cbn [recs]; rewrite L1; auto].
        apply (tree_frame h); auto. intros y Hy. rewrite V1, P1. destruct (k_mem _ _ TO y Hy) as [A4 A5]. unfold ranged in A5. repeat split; auto; lia.
      - rewrite Q1, Q0. auto.
      - intros y Hy. apply MI. rewrite TQ. right. auto. }
    apply (sim_upd risk _ h1 x trim_ent (set_ptrim true)) in S1; auto.
    cbn [recs]. intros e' IE' EX'. assert (e' = e) by (apply (uniq_id (recs s)); auto; [apply (m_nd _ _ _ S)|congruence]). subst e'.
    rewrite P1. unfold matches in *. cbn. unfold ranged in B4. intuition lia.
Qed.

(** *** Failure *)

Lemma drop_none x l : ~ In x (ids l) -> drop x l = l.
Proof.
  intros H. unfold drop. induction l as [|e l IH]; auto. cbn [filter]. destruct (Z.eqb_spec (eid e) x); [destruct H; cbn; auto|].
  cbn [negb]. f_equal. apply IH. intros A. apply H. cbn. auto.
Qed.
Lemma ids_drop_eq x l : ids (drop x l) = unlink x (ids l).
Proof.
  unfold ids, drop, unlink. induction l as [|e l IH]; auto. cbn [filter map]. rewrite (Z.eqb_sym x). destruct (Z.eqb_spec (eid e) x); cbn [negb]; auto.
  cbn [map]. f_equal. auto.
Qed.

(** A recorded piece is unlinked: what the structures look like afterwards. *)
Lemma unlink_sim fuel risk s h x : sim risk s h -> In x (ids (recs s)) -> (length (recs s) < fuel)%nat ->
  exists t0 t1 s1, tree_ok h t0 /\ tree_part risk s h t0 /\
   (if risk then erase fuel x (htree h) = Some s1 else s1 = htree h) /\
   (forall h', htree h' = s1 -> (forall y, y <> x -> live h' y = live h y /\ pc h' y = pc h y) ->
      hlist h' = (if risk then hlist h else unlink x (hlist h)) -> tree_ok h' t1 /\ tree_part risk (mkT (drop x (recs s)) (fly s) (tq s) (lost s)) h' t1).
Proof.
  intros S IX F. destruct (m_tree _ _ _ S) as (t & TO & TP). unfold tree_part in *. destruct risk.
  - destruct TP as [TP HL]. destruct TO as [HH BB SS MM]. pose proof (proj2 (rep_holds _ _) HH) as RR.
    assert (LEN : (length (inorder t) <= length (recs s))%nat).
    { replace (length (recs s)) with (length (ids (recs s))) by apply map_length. apply NoDup_incl_length; [apply HH|]. intros y Hy. apply TP. auto. }
    pose proof (height_size t).
    destruct (erase_list fuel (htree h) t x RR BB) as (s1 & t1 & l1 & l2 & E1 & R1 & B1 & I1 & I2); [apply TP; auto|lia|].
    exists t, t1, s1. split; [constructor; auto|]. split; [auto|]. split; [auto|]. intros h' ET EO EL.
    assert (XN : ~ In x (l1 ++ l2)). { apply NoDup_remove_2. rewrite <- I1. apply HH. }
    assert (SUB : forall y, In y (l1 ++ l2) -> In y (inorder t)) by (intros y Hy; rewrite I1; apply in_app_or in Hy; apply in_or_app; cbn [In]; tauto).
    split; [constructor; auto|split].
    + rewrite ET. apply rep_holds. auto.
    + rewrite I2. rewrite I1 in SS. apply ss_app in SS. destruct SS as (S1 & S2 & S3). inversion S2; subst.
      apply (ss_impl (fun a b => pb (pc h a) (pc h b))).
      * intros a b Ha Hb. rewrite (proj2 (EO a ltac:(intros ->; auto))), (proj2 (EO b ltac:(intros ->; auto))). auto.
      * apply ss_app. split; auto. split; auto. intros; apply S3; auto; right; auto.
    + intros y Hy. rewrite I2 in Hy. destruct (EO y ltac:(intros ->; auto)) as [-> ->]. auto.
    + cbn [recs]. intros y. rewrite ids_drop, <- TP, I2, I1, !in_app_iff. cbn [In].
      split; [intros H0; split; [tauto|intros ->; apply XN, in_or_app; auto]|intros [[A|[A|A]] B]; auto; congruence].
    + congruence.
  - destruct TP as [TP HL]. exists t, t, (htree h). split; [auto|]. split; [auto|]. split; [auto|]. intros h' ET EO EL.
    split.
    + apply (tree_frame h); auto. rewrite TP. intros y [].
    + split; auto. cbn [recs]. rewrite EL, HL, ids_drop_eq. auto.
Qed.

Lemma sim_fail fuel risk s h x : sim risk s h -> In x (fly s) -> ~ In x (tq s) -> (length (recs s) < fuel)%nat ->
  exists h', unlog_piece fuel x h = Some h' /\
    sim risk (mkT (drop x (recs s)) (HistSpec.del x (fly s)) (tq s) (lost s + if existsb (Z.eqb x) (ids (recs s)) then 0 else 1)) h'.
Proof.
  intros S HX NQ F. destruct (m_fly _ _ _ S x HX) as (X0 & LX & NR). unfold unlog_piece, deref. rewrite LX.
  assert (SH : exists h1, (if onrb (pc h x) then do t <- erase fuel x (htree h); Some (w_tree t h)
       else if onlist (pc h x) then Some (w_list (unlink x (hlist h)) h) else Some h) = Some h1 /\
       trimq h1 = trimq h /\ tents h1 = tents h /\ hlen h1 = hlen h /\ pc h1 = pc h /\ live h1 = live h /\
       exists t1, forall h', htree h' = htree h1 -> (forall y, y <> x -> live h' y = live h y /\ pc h' y = pc h y) -> hlist h' = hlist h1 ->
         tree_ok h' t1 /\ tree_part risk (mkT (drop x (recs s)) (HistSpec.del x (fly s)) (tq s) (lost s)) h' t1).
  { destruct (in_dec Z.eq_dec x (ids (recs s))) as [IR|IR].
    - destruct (unlink_sim fuel risk s h x S IR F) as (t0 & t1 & s1 & TO & TP & EE & FR). apply in_ids in IR. destruct IR as (e & IE & EX).
      destruct (m_ent _ _ _ S e IE) as (_ & _ & _ & _ & O1 & O2 & _). rewrite EX in *. rewrite O1, O2. destruct risk; cbn [negb].
      + rewrite EE. eexists. split; [reflexivity|]. cbn. do 5 (split; [auto|]). exists t1. intros h' A B C. apply FR; auto.
      + subst s1. eexists. split; [reflexivity|]. cbn. do 5 (split; [auto|]). exists t1. intros h' A B C. apply FR; auto.
    - destruct (NR IR) as [-> ->]. exists h. split; [auto|]. do 5 (split; [auto|]). destruct (m_tree _ _ _ S) as (t & TO & TP). exists t. intros h' A B C.
      rewrite (drop_none x (recs s) IR). split; [|unfold tree_part in *; cbn [recs]; rewrite C; auto].
      apply (tree_frame h); auto. intros y Hy. assert (NY : y <> x).
      { unfold tree_part in TP. destruct risk; destruct TP as [TP _]; [intros ->; apply TP in Hy; auto|rewrite TP in Hy; destruct Hy]. }
      destruct (B y NY) as [-> ->]. destruct (k_mem _ _ TO y Hy) as [A4 A5]. unfold ranged in A5. repeat split; auto; lia. }
  destruct SH as (h1 & -> & Q1 & TE1 & N1 & P1 & V1 & t1 & FR). unfold release, deref. rewrite V1, LX. eexists. split; [reflexivity|].
  destruct S as [MT ND ME MF ML MQ MK MI MN].
  constructor; cbn [recs fly tq lost w_live w_len live pc trimq hlen].
  - exists t1. apply FR; [reflexivity| |reflexivity]. intros y NY. cbn [w_live w_len live pc]. rewrite fupd_other, P1 by auto. auto.
  - apply nd_filter. auto.
  - intros e IE. apply in_drop in IE. destruct IE as [IE NE]. destruct (ME e IE) as (B1 & B2 & B3 & B4 & B5 & B6 & B7).
    rewrite P1. rewrite fupd_other by auto. do 6 (split; [auto|]). rewrite in_del. tauto.
  - intros y Hy. apply in_del in Hy. destruct Hy as [Hy NY]. destruct (MF y Hy) as (A & B & C). rewrite fupd_other by auto. rewrite P1. do 2 (split; [auto|]).
    rewrite ids_drop. tauto.
  - intros y Hy. destruct (Z.eq_dec y x) as [->|NY]; [rewrite fupd_same in Hy; discriminate|]. rewrite fupd_other in Hy by auto. rewrite ids_drop, in_del. destruct (ML y Hy); auto.
  - rewrite Q1. auto.
  - unfold tok in *. cbn. rewrite Q1, TE1. auto.
  - intros y Hy. rewrite ids_drop. split; [auto|]. intros ->. auto.
  - rewrite N1, MN, u64_sub. f_equal. rewrite (drop_len x _ ND). destruct (existsb (Z.eqb x) (ids (recs s))); lia.
Qed.

(** *** Verification *)

Definition finish (x : Z) (h : hist) : option (option piece * hist) :=
  let h := w_len (u64 (hlen h - 1)) h in
  do p <- deref h x;
  do h <- remove_trim_entry x h;
  do h <- release x h;
  Some (Some p, h).

Lemma finish_ok risk s h x e h1 q t1 : sim risk s h -> In e (recs s) -> eid e = x -> edone e = true ->
  trimq h1 = trimq h -> tents h1 = tents h -> hlen h1 = hlen h -> live h1 = live h -> pc h1 x = q -> (forall y, y <> x -> pc h1 y = pc h y) -> pview q = view e ->
  (forall h', htree h' = htree h1 -> (forall y, y <> x -> live h' y = live h y /\ pc h' y = pc h y) -> hlist h' = hlist h1 ->
     tree_ok h' t1 /\ tree_part risk (mkT (drop x (recs s)) (fly s) (tq s) (lost s)) h' t1) ->
  exists h', finish x h1 = Some (Some q, h') /\ sim risk (mkT (drop x (recs s)) (fly s) (HistSpec.del x (tq s)) (lost s)) h'.
Proof.
  intros S IE EX ED Q1 TE1 N1 V1 PX P1 PV FR. destruct (m_ent _ _ _ S e IE) as (B1 & B2 & B3 & B4 & B5 & B6 & B7). rewrite EX in *.
  assert (NF : ~ In x (fly s)) by (apply B7; auto).
  unfold finish. cbn zeta. set (h2 := w_len (u64 (hlen h1 - 1)) h1). unfold deref at 1. change (live h2 x) with (live h1 x). change (pc h2 x) with (pc h1 x).
  rewrite V1, B2, PX.
  assert (T2 : tok h2) by (pose proof (m_tok _ _ _ S) as [A B]; split; [change (trimq h2) with (trimq h1); rewrite Q1; auto|change (trimq h2) with (trimq h1); change (tents h2) with (tents h1); rewrite Q1, TE1; auto]).
  assert (L2 : live h2 x = true) by (change (live h2 x) with (live h1 x); rewrite V1; auto).
  destruct (remove_trim_ok x h2 L2 T2) as (h3 & -> & Q3 & TK3 & T3 & L3 & N3 & P3 & V3).
  assert (L5 : live h3 x = true) by (rewrite V3; auto).
  unfold release, deref. rewrite L5. eexists. split; [reflexivity|].
  destruct S as [MT ND ME MF ML MQ MK MI MN].
  assert (PO : forall y, y <> x -> pc h3 y = pc h y) by (intros y NY; rewrite P3; change (pc h2) with (pc h1); auto).
  assert (VO : live h3 = live h) by (rewrite V3; change (live h2) with (live h1); auto).
  constructor; cbn [recs fly tq lost w_live live pc trimq hlen].
  - exists t1. apply FR; cbn [w_live htree hlist live pc]; auto. intros y NY. rewrite fupd_other, VO by auto. auto.
  - apply nd_filter. auto.
  - intros f IF. apply in_drop in IF. destruct IF as [IF NE]. rewrite fupd_other, VO, PO by auto. auto.
  - intros y Hy. destruct (MF y Hy) as (A & B & C). assert (y <> x) by congruence. rewrite fupd_other, VO, PO by auto. do 2 (split; [auto|]).
    rewrite ids_drop. tauto.
  - intros y Hy. destruct (Z.eq_dec y x) as [->|NY]; [rewrite fupd_same in Hy; discriminate|]. rewrite fupd_other, VO in Hy by auto. rewrite ids_drop. destruct (ML y Hy); auto.
  - rewrite Q3, del_unlink, <- MQ, <- Q1. reflexivity.
  - auto.
  - intros y Hy. apply in_del in Hy. destruct Hy as [Hy NY]. rewrite ids_drop. split; auto.
  - rewrite N3. change (hlen h2) with (u64 (hlen h1 - 1)). rewrite N1, MN, u64_sub. f_equal. rewrite (drop_len x _ ND).
    replace (existsb (Z.eqb x) (ids (recs s))) with true; [lia|]. symmetry. apply mem_In. apply in_ids. eauto.
Qed.

Lemma first_done_ok fuel h t : rep (htree h) [] t -> (height t <= fuel)%nat -> (forall y, In y (inorder t) -> live h y = true /\ y <> 0) ->
  forall l2 l1 steps, inorder t = l1 ++ l2 -> (length l2 <= steps)%nat ->
  first_done steps fuel (hd 0 l2) h = Some (hd 0 (filter (fun y => negb (flying (pc h y))) l2)).
Proof.
  intros R F LV. induction l2 as [|y l2 IH]; intros l1 steps IO SL; cbn [hd filter].
  - destruct steps; reflexivity.
  - destruct steps as [|steps]; cbn [length] in SL; [lia|]. cbn [first_done].
    assert (IY : In y (inorder t)) by (rewrite IO; apply in_elt). destruct (LV y IY) as [LY NY].
    destruct (Z.eqb_spec y 0); [congruence|]. unfold deref. rewrite LY. destruct (negb (flying (pc h y))) eqn:FY; [reflexivity|].
    rewrite (next_list fuel _ t y l1 l2 R IO F). apply (IH (l1 ++ [y])); [rewrite <- app_assoc; auto|lia].
Qed.

Lemma ss_filter {A} (R : A -> A -> Prop) f l : StronglySorted R l -> StronglySorted R (filter f l).
Proof.
  intros S. induction S as [|x l S IH FO]; cbn [filter]; [constructor|]. destruct (f x); auto. constructor; auto.
  rewrite Forall_forall in *. intros y Hy. apply filter_In in Hy. apply FO. tauto.
Qed.

Lemma next_unf fuel h : next_verify fuel h =
  do xh <- (if negb (top (htree h) =? 0)
            then do n <- rb_first fuel (htree h);
                 do x <- first_done fuel fuel n h;
                 if x =? 0 then Some (0, h)
                 else do t <- erase fuel x (htree h);
                      do p <- deref h x;
                      if onrb p then do h <- modify x (set_onrb false) (w_tree t h); Some (x, h) else None
            else match hlist h with
                 | [] => Some (0, h)
                 | x :: l =>
                     do p <- deref h x;
                     if flying p then Some (0, h)
                     else if onlist p then do h <- modify x (set_onlist false) (w_list l h); Some (x, h) else None
                 end);
  let (x, h) := xh in if x =? 0 then Some (None, h) else finish x h.
Proof. reflexivity. Qed.

Lemma sim_next fuel risk s h : sim risk s h -> (length (recs s) < fuel)%nat ->
  exists h' o s', hstep fuel risk Next h = Some (o, h') /\ sstep risk s Next o s' /\ sim risk s' h'.
Proof.
  intros S F. cbn [hstep]. rewrite next_unf. destruct (m_tree _ _ _ S) as (t & TO & TP). pose proof TO as [HH BB SS MM].
  pose proof (proj2 (rep_holds _ _) HH) as RR. assert (Ht : top (htree h) = rootp t) by (destruct HH as (_ & Ht & _); exact Ht).
  pose proof TP as TP0. unfold tree_part in TP. destruct risk; destruct TP as [TI HL].
  - assert (LEN : (length (inorder t) <= length (recs s))%nat).
    { replace (length (recs s)) with (length (ids (recs s))) by apply map_length. apply NoDup_incl_length; [apply HH|]. intros y Hy. apply TI. auto. }
    pose proof (height_size t) as HS.
    assert (LV : forall y, In y (inorder t) -> live h y = true /\ y <> 0).
    { intros y Hy. split; [apply MM; auto|]. apply TI, in_ids in Hy. destruct Hy as (e & IE & <-). apply (m_ent _ _ _ S e IE). }
    destruct (E_or t) as [->|NE].
    { cbn [rootp] in Ht. rewrite Ht. cbn [Z.eqb negb]. rewrite HL. cbn. exists h, None, s. split; [auto|]. split; [|auto].
      apply s_next_none; auto. intros e IE. destruct (proj2 (TI (eid e))); [apply in_ids; eauto]. }
    pose proof HH as (TR & _). pose proof (root_nz _ _ _ TR NE) as RN. rewrite Ht. destruct (Z.eqb_spec (rootp t) 0); [congruence|]. cbn [negb].
    rewrite (first_ok fuel _ t RR) by lia. rewrite (first_done_ok fuel h t RR ltac:(lia) LV (inorder t) [] fuel) by (auto; lia).
    set (fl := filter (fun y => negb (flying (pc h y))) (inorder t)).
    destruct fl as [|x fl'] eqn:FL.
    + cbn [hd Z.eqb]. exists h, None, s. split; [reflexivity|]. split; [|auto]. apply s_next_none; auto. intros e IE.
      destruct (m_ent _ _ _ S e IE) as (B1 & B2 & B3 & B4 & B5 & B6 & B7). destruct (edone e) eqn:ED; auto. exfalso.
      assert (I0 : In (eid e) fl); [|rewrite FL in I0; destruct I0]. apply filter_In. split; [apply TI, in_ids; eauto|].
      destruct B3 as (_ & _ & _ & _ & _ & -> & _). rewrite ED. auto.
    + cbn [hd]. assert (IX : In x fl) by (rewrite FL; left; auto). apply filter_In in IX. destruct IX as [IX FX]. destruct (LV x IX) as [LX X0].
      destruct (Z.eqb_spec x 0); [congruence|].
      assert (IR : In x (ids (recs s))) by (apply TI; auto). destruct (unlink_sim fuel true s h x S IR F) as (t0 & t1 & s1 & TO1 & TP1 & EE & FR).
      rewrite EE. apply in_ids in IR. destruct IR as (e & IE & EX). destruct (m_ent _ _ _ S e IE) as (B1 & B2 & B3 & B4 & B5 & B6 & B7). rewrite EX in *.
      unfold modify, deref. cbn [w_tree live pc]. rewrite LX, B5. destruct (Z.eqb_spec x 0); [congruence|].
      assert (DE : edone e = true). { destruct B3 as (_ & _ & _ & _ & _ & Fy & _). rewrite Fy in FX. destruct (edone e); auto. }
      destruct (finish_ok true s h x e (w_pc (fupd (pc h) x (set_onrb false (pc h x))) (w_tree s1 h)) (set_onrb false (pc h x)) t1) as (h' & E1 & E2); auto.
      { apply fupd_same. }
      { intros y NY. apply fupd_other. auto. }
      { rewrite <- (matches_view _ _ B3). reflexivity. }
      cbn [w_pc w_tree] in *. rewrite E1. cbn [fst snd option_map]. replace (pview (set_onrb false (pc h x))) with (view e) by (rewrite <- (matches_view _ _ B3); reflexivity).
      exists h', (Some (view e)), (mkT (drop x (recs s)) (fly s) (HistSpec.del x (tq s)) (lost s)). split; [auto|]. split; [|auto].
      rewrite <- EX. apply s_next_over; auto. intros f IF DF. destruct (m_ent _ _ _ S f IF) as (_ & _ & C3 & C4 & _).
      assert (Hf : In (eid f) fl). { apply filter_In. split; [apply TI, in_ids; eauto|]. destruct C3 as (_ & _ & _ & _ & _ & -> & _). rewrite DF. auto. }
      pose proof (ss_filter _ (fun y => negb (flying (pc h y))) _ SS) as SF. fold fl in SF. rewrite FL in SF, Hf. destruct Hf as [Hf|Hf].
      * left. apply (uniq_id (recs s)); auto; [apply (m_nd _ _ _ S)|congruence].
      * right. inversion SF as [|? ? _ FO]; subst. rewrite Forall_forall in FO. specialize (FO _ Hf). unfold before. unfold pb in FO.
        destruct B3 as (D1 & D2 & D3 & _), C3 as (G1 & G2 & G3 & _). unfold ranged in *. lia.
  - assert (t = E) by (destruct t; auto; cbn [inorder] in TI; destruct (inorder t1); discriminate). subst t. cbn [rootp] in Ht. rewrite Ht. cbn [Z.eqb negb].
    rewrite HL. destruct (recs s) as [|e l] eqn:RS; cbn [ids map].
    + cbn. exists h, None, s. split; [auto|]. split; [|auto]. apply s_next_wait; auto. rewrite RS. auto.
    + assert (IE : In e (recs s)) by (rewrite RS; left; auto). destruct (m_ent _ _ _ S e IE) as (B1 & B2 & B3 & B4 & B5 & B6 & B7).
      unfold modify, deref. cbn [w_list live pc]. rewrite B2, B6. pose proof B3 as (_ & _ & _ & _ & _ & Fy & _). rewrite Fy. destruct (edone e) eqn:DE; cbn [negb].
      * assert (IR : In (eid e) (ids (recs s))) by (apply in_ids; eauto).
        assert (F' : (length (recs s) < fuel)%nat) by (rewrite RS; auto).
        destruct (unlink_sim fuel false s h (eid e) S IR F') as (t0 & t1 & s1 & TO1 & TP1 & EE & FR). subst s1.
        assert (DL : drop (eid e) (recs s) = l).
        { rewrite RS. unfold drop. cbn [filter]. rewrite Z.eqb_refl. cbn [negb]. pose proof (m_nd _ _ _ S) as ND. rewrite RS in ND. inversion ND; subst. apply drop_none. auto. }
        destruct (Z.eqb_spec (eid e) 0); [congruence|].
        destruct (finish_ok false s h (eid e) e (w_pc (fupd (pc h) (eid e) (set_onlist false (pc h (eid e)))) (w_list (ids l) h)) (set_onlist false (pc h (eid e))) t1) as (h' & E1 & E2); auto.
        { apply fupd_same. }
        { intros y NY. apply fupd_other. auto. }
        { rewrite <- (matches_view _ _ B3). reflexivity. }
        { intros h' A B C. apply FR; auto. rewrite C. cbn [w_pc w_list hlist]. rewrite HL. transitivity (unlink (eid e) (ids (recs s))); [rewrite <- ids_drop_eq, DL; reflexivity|rewrite RS; reflexivity]. }
        cbn [w_pc w_list] in *. unfold ids in E1. rewrite E1. cbn [fst snd option_map]. replace (pview (set_onlist false (pc h (eid e)))) with (view e) by (rewrite <- (matches_view _ _ B3); reflexivity).
        rewrite DL in E2. eexists h', _, _. split; [reflexivity|]. split; [|exact E2]. apply s_next_list; auto.
      * cbn. exists h, None, s. split; [auto|]. split; [|auto]. apply s_next_wait; auto. rewrite RS. auto.
Qed.

Lemma filter_split {A} (f : A -> bool) l : (length (filter f l) + length (filter (fun x => negb (f x)) l) = length l)%nat.
Proof. induction l as [|x l IH]; auto. cbn [filter]. destruct (f x); cbn [negb length]; lia. Qed.
Lemma flen {A} (f : A -> bool) l : (length (filter f l) <= length l)%nat.
Proof. pose proof (filter_split f l). lia. Qed.

Lemma nd_app {A} (l l' : list A) : NoDup l -> NoDup l' -> (forall x, In x l -> In x l' -> False) -> NoDup (l ++ l').
Proof.
  intros H. induction H as [|x l NI H IH]; intros H' D; auto. cbn [app]. constructor.
  - intros I. apply in_app_or in I. destruct I; auto. apply (D x); auto. left. auto.
  - apply IH; auto. intros y I1 I2. apply (D y); auto. right. auto.
Qed.

(** *** Recording *)

Lemma sim_log_list fuel s h x file off len num mark trim : sim false s h -> pre s (Log x file off len num mark trim) ->
  exists h', log_piece fuel false x file off len num mark trim h = Some h' /\
    sim false (mkT (recs s ++ [new_ent x file off len num mark]) (x :: fly s) (tq s ++ (if trim then [x] else [])) (lost s)) h'.
Proof.
  intros [MT ND ME MF ML MQ MK MI MN] (X0 & XR & XF & O0 & L0 & OL). unfold log_piece.
  assert (LX : live h x = false) by (destruct (live h x) eqn:A; auto; destruct (ML x A); tauto). rewrite LX. cbn zeta.
  set (p := mkP file off len num mark true false false false).
  set (h0 := if trim then _ else _).
  assert (A1 : htree h0 = htree h /\ hlist h0 = hlist h /\ hlen h0 = hlen h /\ pc h0 = fupd (pc h) x p /\ live h0 = fupd (live h) x true /\
     trimq h0 = trimq h ++ (if trim then [x] else []) /\ tok h0).
  { assert (NQ : ~ In x (trimq h)) by (rewrite MQ; auto). destruct MK as [K1 K2]. unfold h0, tok. destruct trim; cbn; rewrite ?app_nil_r; do 6 (split; [auto; fail|]); [|auto].
    split; [apply nd_app; auto; [constructor; auto; constructor|intros y Hy [<-|[]]; auto]|].
    rewrite K2, u64_add. f_equal. unfold zlen. rewrite app_length. cbn. lia. }
  destruct A1 as (T1 & HL1 & N1 & P1 & V1 & Q1 & TK1). clearbody h0.
  unfold modify, deref. cbn [w_list live pc]. rewrite V1, P1, !fupd_same. eexists. split; [reflexivity|].
  assert (PO : forall y, y <> x -> fupd (fupd (pc h) x p) x (set_onlist true p) y = pc h y) by (intros; rewrite !fupd_other; auto).
  assert (IDS : forall y, In y (ids (recs s ++ [new_ent x file off len num mark])) <-> In y (ids (recs s)) \/ y = x).
  { intros y. unfold ids. rewrite map_app, in_app_iff. cbn. intuition. }
  assert (EN : forall e, In e (recs s) -> eid e <> x) by (intros e IE <-; apply XR, in_ids; eauto).
  constructor; cbn [recs fly tq lost w_len w_pc w_list live pc trimq hlen].
  - destruct MT as (t & TO & TI & HL). exists t. split.
    + apply (tree_frame h); auto. intros y Hy. rewrite TI in Hy. destruct Hy.
    + split; auto. cbn [w_len w_pc w_list hlist recs]. rewrite HL1, HL. unfold ids. rewrite map_app. reflexivity.
  - unfold ids. rewrite map_app. apply nd_app; auto; [constructor; auto; constructor|intros y Hy [<-|[]]; auto].
  - intros e IE. apply in_app_or in IE. destruct IE as [IE|[<-|[]]].
    + specialize (EN e IE). rewrite PO, V1, fupd_other by auto. cbn [In]. destruct (ME e IE) as (B1 & B2 & B3 & B4 & B5 & B6 & B7).
      do 6 (split; [auto|]). rewrite B7. intuition.
    + cbn [new_ent eid edone]. rewrite V1, !fupd_same. cbn. unfold matches, ranged. cbn. intuition; try lia; discriminate.
  - intros y [<-|Hy].
    + rewrite V1, fupd_same. rewrite IDS. tauto.
    + destruct (MF y Hy) as (A & B & C). assert (y <> x) by congruence. rewrite PO, V1, fupd_other, IDS by auto. tauto.
  - intros y Hy. rewrite IDS. cbn [In]. rewrite V1 in Hy. destruct (Z.eq_dec y x); [auto|]. rewrite fupd_other in Hy by auto. destruct (ML y Hy); auto.
  - rewrite Q1, MQ. auto.
  - exact TK1.
  - intros y Hy. apply IDS. apply in_app_or in Hy. destruct Hy as [Hy|Hy]; auto. destruct trim; [destruct Hy as [<-|[]]; auto|destruct Hy].
  - rewrite N1, MN, u64_add. f_equal. unfold zlen. rewrite app_length. cbn. lia.
Qed.

Lemma sim_log_over fuel s h x file off len num mark trim : sim true s h -> pre s (Log x file off len num mark trim) -> (length (recs s) < fuel)%nat ->
  let e := new_ent x file off len num mark in
  exists h', log_piece fuel true x file off len num mark trim h = Some h' /\
    sim true (mkT (e :: filter (fun f => negb (touchb e f)) (recs s)) (x :: fly s)
      (filter (fun y => negb (existsb (Z.eqb y) (ids (filter (fun f => touchb e f) (recs s))))) (tq s) ++ (if trim then [x] else [])) (lost s)) h'.
Proof.
  intros [MT ND ME MF ML MQ MK MI MN] (X0 & XR & XF & O0 & L0 & OL) F e. unfold log_piece.
  assert (LX : live h x = false) by (destruct (live h x) eqn:A; auto; destruct (ML x A); tauto). rewrite LX. cbn zeta.
  set (p := mkP file off len num mark true false false false).
  set (h0 := if trim then _ else _).
  assert (A1 : htree h0 = htree h /\ hlist h0 = hlist h /\ hlen h0 = hlen h /\ pc h0 = fupd (pc h) x p /\ live h0 = fupd (live h) x true /\
     trimq h0 = trimq h ++ (if trim then [x] else []) /\ tok h0).
  { assert (NQ : ~ In x (trimq h)) by (rewrite MQ; auto). destruct MK as [K1 K2]. unfold h0, tok. destruct trim; cbn; rewrite ?app_nil_r; do 6 (split; [auto; fail|]); [|auto].
    split; [apply nd_app; auto; [constructor; auto; constructor|intros y Hy [<-|[]]; auto]|].
    rewrite K2, u64_add. f_equal. unfold zlen. rewrite app_length. cbn. lia. }
  destruct A1 as (T1 & HL1 & N1 & P1 & V1 & Q1 & TK1). clearbody h0.
  destruct MT as (t & TO & TI & HL).
  assert (LEN : (length (inorder t) <= length (recs s))%nat).
  { replace (length (recs s)) with (length (ids (recs s))) by apply map_length. apply NoDup_incl_length; [apply TO|]. intros y Hy. apply TI. auto. }
  assert (XT : ~ In x (inorder t)) by (rewrite TI; auto).
  assert (TO0 : tree_ok h0 t).
  { apply (tree_frame h); auto. intros y Hy. assert (y <> x) by congruence. rewrite V1, P1, !fupd_other by auto. destruct (k_mem _ _ TO y Hy) as [A4 A5].
    unfold ranged in A5. repeat split; auto; lia. }
  assert (RP : ranged p) by (unfold ranged; cbn; lia).
  pose proof (flen (fun y => ov p (pc h0 y)) (inorder t)) as GL. fold (gone p h0 t) in GL.
  destruct (place_ok fuel x p fuel h0 t) as (h' & t' & E1 & TO' & TK' & IN' & PX' & PO' & LV' & Q' & HL' & N'); auto;
    [rewrite V1; apply fupd_same|rewrite P1; apply fupd_same|lia|lia|].
  exists h'. split; [exact E1|]. set (g := gone p h0 t) in *.
  assert (EN : forall f, In f (recs s) -> eid f <> x) by (intros f IF <-; apply XR, in_ids; eauto).
  assert (MP : matches p e) by (unfold matches; cbn; auto 10).
  assert (GI : forall f, In f (recs s) -> (In (eid f) g <-> touchb e f = true)).
  { intros f IF. unfold g, gone. rewrite filter_In, TI, P1, fupd_other by auto. destruct (ME f IF) as (_ & _ & M & _). rewrite (matches_ov _ _ _ _ MP M).
    split; [tauto|]. split; auto. apply in_ids. eauto. }
  assert (GS : forall y, In y g -> In y (ids (recs s))) by (intros y Hy; apply filter_In in Hy; apply TI; tauto).
  assert (GX : forall y, In y g <-> In y (ids (filter (fun f => touchb e f) (recs s)))).
  { intros y. rewrite in_ids. split.
    - intros Hy. pose proof (GS y Hy) as HI. apply in_ids in HI. destruct HI as (f & IF & <-). exists f. split; auto. apply filter_In. split; auto. apply GI; auto.
    - intros (f & IF & <-). apply filter_In in IF. apply GI; tauto. }
  assert (KI : forall y, In y (ids (e :: filter (fun f => negb (touchb e f)) (recs s))) <-> y = x \/ In y (ids (recs s)) /\ ~ In y g).
  { intros y. cbn [ids map In]. fold (ids (filter (fun f => negb (touchb e f)) (recs s))). change (eid e) with x. split.
    - intros [H|H]; [auto|]. right. apply in_ids in H. destruct H as (f & IF & <-). apply filter_In in IF. destruct IF as [IF T]. rewrite (GI f IF).
      split; [apply in_ids; eauto|]. destruct (touchb e f); [discriminate|congruence].
    - intros [H|[H H']]; [auto|]. right. apply in_ids in H. destruct H as (f & IF & <-). apply in_ids. exists f. split; auto. apply filter_In. split; auto.
      rewrite (GI f IF) in H'. destruct (touchb e f); [exfalso; auto|auto]. }
  assert (NG : forall y, In y g -> y <> x) by (intros y Hy ->; apply XR; auto).
  constructor; cbn [recs fly tq lost].
  - exists t'. split; auto. split; [|congruence]. cbn [recs]. intros y. rewrite KI, IN', TI. tauto.
  - cbn [ids map]. constructor; [|apply nd_filter; auto]. intros A. apply in_ids in A. destruct A as (f & IF & EF). apply filter_In in IF. destruct IF as [IF _].
    apply (EN f IF). auto.
  - intros f [<-|IF].
    + change (eid e) with x. change (edone e) with false. rewrite PX', LV', V1, fupd_same. split; [auto|].
      replace (mem x g) with false by (symmetry; apply mem_false; intros A; apply (NG x A); auto). cbn [andb negb]. split; [auto|].
      unfold matches, ranged. cbn. intuition; try lia; discriminate.
    + apply filter_In in IF. destruct IF as [IF T]. specialize (EN f IF). destruct (ME f IF) as (B1 & B2 & B3 & B4 & B5 & B6 & B7).
      assert (MG : mem (eid f) g = false). { apply mem_false. rewrite (GI f IF). destruct (touchb e f); discriminate. }
      rewrite (PO' _ EN), LV', MG, V1, P1, !fupd_other by auto. cbn [andb negb]. rewrite andb_true_r. do 6 (split; [auto|]). cbn [In]. rewrite B7. intuition.
  - intros y [<-|Hy].
    + rewrite PX', LV', V1, fupd_same. replace (mem x g) with false by (symmetry; apply mem_false; intros A; apply (NG x A); auto). cbn [andb negb]. rewrite KI. tauto.
    + destruct (MF y Hy) as (A & B & C). assert (NY : y <> x) by congruence. split; [auto|]. rewrite LV', V1, P1, !fupd_other by auto.
      rewrite (PO' y NY), P1, fupd_other by auto. rewrite KI. destruct (in_dec Z.eq_dec y (ids (recs s))) as [IR|IR].
      * apply in_ids in IR. destruct IR as (f & IF & <-). destruct (ME f IF) as (B1 & B2 & B3 & B4 & B5 & B6 & B7). split.
        -- rewrite B. destruct B3 as (_ & _ & _ & _ & _ & -> & _). assert (DF : edone f = false) by (destruct (edone f); auto; exfalso; apply B7; auto).
           rewrite DF. cbn [negb]. rewrite andb_false_r. auto.
        -- intros HK. destruct (mem (eid f) g) eqn:MG; [cbn; auto|]. apply mem_false in MG. exfalso. apply HK. right. split; auto. apply in_ids. eauto.
      * replace (mem y g) with false by (symmetry; apply mem_false; auto). cbn [andb negb]. rewrite andb_true_r. split; auto.
  - intros y Hy. rewrite KI. cbn [In]. destruct (Z.eq_dec y x) as [|NY]; [auto|]. rewrite LV', V1, P1, !fupd_other in Hy by auto.
    apply andb_prop in Hy. destruct Hy as [Hy G1]. destruct (ML y Hy) as [IR|IR]; [|auto]. destruct (mem y g) eqn:MG; [|apply mem_false in MG; auto].
    right. right. apply in_ids in IR. destruct IR as (f & IF & <-). destruct (ME f IF) as (B1 & B2 & B3 & B4 & B5 & B6 & B7).
    destruct B3 as (_ & _ & _ & _ & _ & Fy & _). rewrite Fy in G1. cbn [andb] in G1. rewrite !negb_involutive in G1.
    destruct (in_dec Z.eq_dec (eid f) (fly s)); auto. apply B7 in n. rewrite n in G1. discriminate.
  - rewrite Q', Q1, MQ. unfold keepq. rewrite filter_app. f_equal.
    + apply (keepq_ext g (ids (filter (fun f => touchb e f) (recs s)))). auto.
    + destruct trim; auto. cbn [filter]. replace (mem x g) with false by (symmetry; apply mem_false; intros A; apply (NG x A); auto). reflexivity.
  - auto.
  - intros y Hy. rewrite KI. apply in_app_or in Hy. destruct Hy as [Hy|Hy].
    + apply filter_In in Hy. destruct Hy as [Hy HN]. right. split; [apply MI; auto|]. rewrite GX. apply mem_false. apply negb_true_iff. auto.
    + destruct trim; [destruct Hy as [<-|[]]; auto|destruct Hy].
  - rewrite N', N1, MN, <- Z.add_sub_assoc, u64_add. f_equal.
    assert (LG : length g = length (filter (fun f => touchb e f) (recs s))).
    { replace (length (filter (fun f => touchb e f) (recs s))) with (length (ids (filter (fun f => touchb e f) (recs s)))) by apply map_length.
      apply Permutation_length, NoDup_Permutation; auto; [apply NoDup_filter, TO|apply nd_filter; auto]. }
    pose proof (filter_split (fun f => touchb e f) (recs s)) as FLN. unfold zlen. cbn [length]. rewrite LG. lia.
Qed.

(** ** All events *)

Lemma hstep_ok fuel risk s h e : sim risk s h -> pre s e -> (length (recs s) < fuel)%nat -> zlen (recs s) < 2 ^ 64 ->
  exists h' o s', hstep fuel risk e h = Some (o, h') /\ sstep risk s e o s' /\ sim risk s' h' /\ (length (recs s') <= S (length (recs s)))%nat.
Proof.
  intros S P F Z. destruct e as [x file off len num mark trim|x|x|x n| |]; cbn [hstep].
  - destruct risk.
    + destruct (sim_log_over fuel s h x file off len num mark trim S P F) as (h' & -> & S'). eexists h', None, _. split; [reflexivity|].
      split; [apply s_log_over; auto|]. split; [exact S'|]. cbn [recs length]. pose proof (flen (fun f => negb (touchb (new_ent x file off len num mark) f)) (recs s)). lia.
    + destruct (sim_log_list fuel s h x file off len num mark trim S P) as (h' & -> & S'). eexists h', None, _. split; [reflexivity|].
      split; [apply s_log_list; auto|]. split; [exact S'|]. cbn [recs]. rewrite app_length. cbn. lia.
  - destruct (sim_done risk s h x S P) as (h' & -> & S'). eexists h', None, _. split; [reflexivity|]. split; [apply s_done|]. split; [exact S'|].
    cbn [recs]. unfold upd_ent. rewrite map_length. lia.
  - destruct P as [P1 P2]. destruct (sim_fail fuel risk s h x S P1 P2 F) as (h' & -> & S'). eexists h', None, _. split; [reflexivity|]. split; [apply s_fail|]. split; [exact S'|].
    cbn [recs]. pose proof (flen (fun e => negb (eid e =? x)) (recs s)). unfold drop. lia.
  - destruct P as (P1 & P2 & P3). destruct (sim_short risk s h x n S P1 P2 P3) as (h' & -> & S'). eexists h', None, _. split; [reflexivity|]. split; [apply s_short|]. split; [exact S'|].
    cbn [recs]. unfold upd_ent. rewrite map_length. lia.
  - destruct (sim_next fuel risk s h S F) as (h' & o & s' & A & B & C). exists h', o, s'. split; [exact A|]. split; [exact B|]. split; [exact C|].
    inversion B; subst; cbn [recs]; try lia; [pose proof (flen (fun f => negb (eid f =? eid e)) (recs s)); unfold drop; lia|].
    match goal with H : recs s = _ |- _ => rewrite H end. cbn. lia.
  - destruct (sim_trim risk s h S Z) as (h' & o & s' & A & B & C). exists h', o, s'. split; [exact A|]. split; [exact B|]. split; [exact C|].
    inversion B; subst; cbn [recs]; try lia. unfold upd_ent. rewrite map_length. lia.
Qed.

Theorem hrun_ok fuel risk : forall evs s h, sim risk s h -> legal risk s evs -> (length (recs s) + length evs <= fuel)%nat -> Z.of_nat fuel < 2 ^ 64 ->
  exists h' outs s', hrun fuel risk evs h = Some (outs, h') /\ sruns risk s evs outs s' /\ sim risk s' h'.
Proof.
  induction evs as [|e evs IH]; intros s h S LG F FB.
  - exists h, [], s. split; [reflexivity|]. split; [constructor|auto].
  - destruct LG as [P LG]. cbn [length] in F. cbn [hrun].
    destruct (hstep_ok fuel risk s h e S P ltac:(lia) ltac:(unfold zlen; lia)) as (h1 & o & s1 & -> & ST & S1 & LN). cbn [fst snd].
    destruct (IH s1 h1 S1 (LG o s1 ST) ltac:(lia) FB) as (h2 & outs & s2 & -> & SR & S2).
    exists h2, (o :: outs), s2. split; [reflexivity|]. split; [econstructor; eauto|auto].
Qed.

Lemma sim_init risk h : top (htree h) = 0 -> hlist h = [] -> hlen h = 0 -> trimq h = [] -> tents h = 0 -> (forall x, live h x = false) ->
  sim risk sinit h.
Proof.
  intros A B C D E0 F. constructor; cbn [recs fly tq lost sinit]; auto.
  - exists E. split.
    + constructor; [|split; [exact I|exists O; constructor]|constructor|intros y []].
      split; [exact I|]. split; [auto|constructor].
    + unfold tree_part. cbn. rewrite B. destruct risk; split; auto; reflexivity.
  - constructor.
  - intros e [].
  - intros x [].
  - intros x Hx. rewrite F in Hx. discriminate.
  - split; rewrite D, ?E0; [constructor|reflexivity].
  - intros x [].
Qed.

(** ** Dropping the whole history *)

Lemma prune_finish x h : (do h <- remove_trim_entry x h; release x (w_len (u64 (hlen h - 1)) h)) = option_map snd (finish x h).
Proof.
  unfold finish, remove_trim_entry, release, deref. cbn zeta. cbn [w_len w_trim live trimq hlen pc]. destruct (live h x) eqn:L; [|reflexivity].
  destruct (mem x (trimq h)); cbn [w_len w_trim live trimq hlen pc]; rewrite L; reflexivity.
Qed.

Lemma prune_tree_ok fuel : forall steps s h, sim true s h -> fly s = [] -> (length (recs s) < steps)%nat -> (length (recs s) < fuel)%nat ->
  exists h', prune_tree steps fuel h = Some h' /\ sim true (mkT [] [] [] (lost s)) h'.
Proof.
  induction steps as [|steps IH]; intros s h S FL SL F; [lia|]. cbn [prune_tree].
  destruct (m_tree _ _ _ S) as (t & TO & TI & HL). pose proof TO as [HH BB SS MM]. pose proof (proj2 (rep_holds _ _) HH) as RR.
  assert (LEN : (length (inorder t) <= length (recs s))%nat).
  { replace (length (recs s)) with (length (ids (recs s))) by apply map_length. apply NoDup_incl_length; [apply HH|]. intros y Hy. apply TI. auto. }
  pose proof (height_size t) as HS. rewrite (first_ok fuel _ t RR) by lia. destruct (inorder t) as [|x l] eqn:IO; cbn [hd].
  - cbn. exists h. split; [reflexivity|]. assert (RS : recs s = []).
    { destruct (recs s) as [|e l] eqn:RS; auto. exfalso. apply (TI (eid e)). left. auto. }
    assert (TS : tq s = []). { pose proof (m_tqin _ _ _ S) as MI. rewrite RS in MI. destruct (tq s) as [|y q]; auto. destruct (MI y). left. auto. }
    destruct s as [r f q ls]. cbn in *. subst. auto.
  - assert (IR : In x (ids (recs s))) by (apply TI; left; auto). destruct (unlink_sim fuel true s h x S IR F) as (t0 & t1 & s1 & TO1 & TP1 & EE & FR).
    pose proof IR as IR0. apply in_ids in IR. destruct IR as (e & IE & EX). destruct (m_ent _ _ _ S e IE) as (B1 & B2 & B3 & B4 & B5 & B6 & B7). rewrite EX in *.
    destruct (Z.eqb_spec x 0); [congruence|]. rewrite EE.
    destruct (finish_ok true s h x e (w_tree s1 h) (pc h x) t1) as (h2 & E1 & E2); auto.
    { apply B7. rewrite FL. intros []. }
    { apply matches_view. auto. }
    pose proof (prune_finish x (w_tree s1 h)) as PF. rewrite E1 in PF. cbn [option_map snd] in PF.
    destruct (remove_trim_entry x (w_tree s1 h)) as [h3|] eqn:R3; [|discriminate].
    rewrite PF. assert (DL : (length (recs s) = 1 + length (drop x (recs s)))%nat).
    { pose proof (drop_len x _ (m_nd _ _ _ S)) as DL. replace (existsb (Z.eqb x) (ids (recs s))) with true in DL by (symmetry; apply mem_In; auto). unfold zlen in DL. lia. }
    destruct (IH _ h2 E2) as (h' & E3 & E4); cbn [fly recs] in *; auto; [lia|lia|]. exists h'. auto.
Qed.

Lemma prune_list_ok : forall l s h, sim false s h -> fly s = [] -> hlist h = l ->
  exists h', prune_list l h = Some h' /\ sim false (mkT [] [] [] (lost s)) h'.
Proof.
  induction l as [|x l IH]; intros s h S FL HL; cbn [prune_list].
  - eexists. split; [reflexivity|]. destruct (m_tree _ _ _ S) as (t & TO & TI & HL'). rewrite HL in HL'. assert (RS : recs s = []) by (destruct (recs s); auto; discriminate).
    assert (TS : tq s = []). { pose proof (m_tqin _ _ _ S) as MI. rewrite RS in MI. destruct (tq s) as [|y q]; auto. destruct (MI y). left. auto. }
    assert (SI : w_list [] h = h) by (destruct h; cbn in *; subst; reflexivity). rewrite SI. destruct s as [r f q ls]. cbn in *. subst. auto.
  - destruct (m_tree _ _ _ S) as (t & TO & TI & HL'). rewrite HL in HL'. destruct (recs s) as [|e r] eqn:RS; [discriminate|]. cbn [ids map] in HL'. injection HL' as EX HL'.
    assert (IE : In e (recs s)) by (rewrite RS; left; auto).
    assert (IR : In x (ids (recs s))) by (apply in_ids; eauto). destruct (unlink_sim (1 + length (recs s))%nat false s h x S IR ltac:(lia)) as (t0 & t1 & s1 & TO1 & TP1 & EE & FR). subst s1.
    destruct (m_ent _ _ _ S e IE) as (B1 & B2 & B3 & B4 & B5 & B6 & B7). rewrite <- EX in *.
    destruct (finish_ok false s h x e (w_list l h) (pc h x) t1) as (h2 & E1 & E2); auto.
    { apply B7. rewrite FL. intros []. }
    { apply matches_view. auto. }
    { intros h' A B C. apply FR; auto. rewrite C. cbn [w_list hlist]. rewrite HL. pose proof (m_nd _ _ _ S) as ND. rewrite RS in ND. cbn [ids map] in ND.
      rewrite <- EX in ND. inversion ND; subst. unfold unlink. cbn [filter]. rewrite Z.eqb_refl. cbn [negb]. fold (unlink (eid e) (map eid r)).
      change (map eid r) with (ids r). rewrite <- ids_drop_eq, drop_none; auto. }
    pose proof (prune_finish x (w_list l h)) as PF. rewrite E1 in PF. cbn [option_map snd] in PF.
    destruct (remove_trim_entry x (w_list l h)) as [h3|] eqn:R3; [|discriminate].
    rewrite PF. assert (HL2 : hlist h2 = l).
    { revert E1. unfold finish, remove_trim_entry, release, deref. cbn zeta. cbn [w_len w_list live trimq pc]. destruct (live h x) eqn:LX; [|discriminate].
      destruct (mem x (trimq h)); cbn [w_len w_list w_trim live]; rewrite LX; intros [= <-]; reflexivity. }
    destruct (IH _ h2 E2) as (h' & E3 & E4); auto. exists h'. auto.
Qed.

Theorem prune_ok fuel risk s h : sim risk s h -> fly s = [] -> (length (recs s) < fuel)%nat ->
  exists h', prune fuel h = Some h' /\ (forall x, live h' x = false) /\ top (htree h') = 0 /\ hlist h' = [] /\ trimq h' = [] /\ hlen h' = u64 (- lost s).
Proof.
  intros S FL F.
  assert (EX : exists h', prune fuel h = Some h' /\ sim risk (mkT [] [] [] (lost s)) h').
  { unfold prune. destruct risk.
    - destruct (prune_tree_ok fuel fuel s h S FL F F) as (h1 & -> & S1). destruct (m_tree _ _ _ S1) as (t & _ & _ & HL). rewrite HL. cbn [prune_list].
      exists h1. split; auto. f_equal. destruct h1; cbn in *; subst; reflexivity.
    - destruct (m_tree _ _ _ S) as (t & TO & TI & HL). destruct TO as [HH _ _ _]. pose proof (proj2 (rep_holds _ _) HH) as RR.
      assert (t = E) by (destruct t; auto; cbn [inorder] in TI; destruct (inorder t1); discriminate). subst t.
      destruct fuel; [lia|]. cbn [prune_tree]. rewrite (first_ok _ _ E RR) by (cbn; lia). cbn [hd inorder Z.eqb].
      apply (prune_list_ok (hlist h) s h); auto. }
  destruct EX as (h' & E1 & S'). exists h'. split; auto. split.
  - intros x. destruct (live h' x) eqn:L; auto. destruct (m_live _ _ _ S' x L) as [[]|[]].
  - destruct (m_tree _ _ _ S') as (t & TO & TP). assert (IT : inorder t = [] /\ hlist h' = []).
    { unfold tree_part in TP. destruct risk; destruct TP as [TI HL]; split; auto. destruct (inorder t) as [|y l]; auto. destruct (proj1 (TI y)). left. auto. }
    destruct IT as [IT HL]. assert (t = E) by (destruct t; auto; cbn [inorder] in IT; destruct (inorder t1); discriminate). subst t.
    destruct (k_holds _ _ TO) as (_ & HT & _). split; auto. split; auto. split; [apply (m_tq _ _ _ S')|apply (m_len _ _ _ S')].
Qed.
