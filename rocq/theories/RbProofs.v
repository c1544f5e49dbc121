(** Proofs about lib/rbtree.c. *)
From Coq Require Import ZArith List Lia Bool Permutation.
From Verif Require Import CBase RbModel RbSpec.
Import ListNotations.
Open Scope Z_scope.

(** ** Counting occurrences *)

Definition cnt (l : list Z) (i : Z) : nat := count_occ Z.eq_dec l i.
Definition one (x i : Z) : nat := if Z.eq_dec x i then 1%nat else 0%nat.
Lemma cnt_app a b i : cnt (a ++ b) i = (cnt a i + cnt b i)%nat.
Proof. apply count_occ_app. Qed.
Lemma cnt_cons x l i : cnt (x :: l) i = (one x i + cnt l i)%nat.
Proof. unfold cnt, one. cbn [count_occ]. destruct (Z.eq_dec x i); auto. Qed.
Lemma cnt_nil i : cnt [] i = 0%nat. Proof. auto. Qed.
Lemma one_same x : one x x = 1%nat. Proof. unfold one. destruct (Z.eq_dec x x); auto. lia. Qed.
Lemma cnt_In l i : In i l <-> (0 < cnt l i)%nat. Proof. apply (count_occ_In Z.eq_dec). Qed.
Lemma cnt_NoDup l : NoDup l <-> forall i, (cnt l i <= 1)%nat. Proof. apply (NoDup_count_occ Z.eq_dec). Qed.
Lemma cnt_root t : t <> E -> (0 < cnt (inorder t) (rootp t))%nat.
Proof. destruct t; [congruence|]. intros _. cbn [inorder rootp]. rewrite cnt_app, cnt_cons, one_same. lia. Qed.

Ltac cn := cbn [inorder] in *; repeat (rewrite ?cnt_app, ?cnt_cons, ?cnt_nil, ?one_same in *).

(** ** Contexts *)

Inductive frame := L (c : bool) (x : Z) (r : tree) | R (c : bool) (l : tree) (x : Z).
Definition ppar (k : list frame) : Z := match k with [] => 0 | L _ x _ :: _ => x | R _ _ x :: _ => x end.
Fixpoint plug (k : list frame) (t : tree) : tree :=
  match k with
  | [] => t
  | L c x r :: k => plug k (N c t x r)
  | R c l x :: k => plug k (N c l x t)
  end.
Fixpoint lefts (k : list frame) : list Z :=
  match k with [] => [] | L c x r :: k => lefts k | R c l x :: k => lefts k ++ inorder l ++ [x] end.
Fixpoint rights (k : list frame) : list Z :=
  match k with [] => [] | L c x r :: k => x :: inorder r ++ rights k | R c l x :: k => rights k end.

Lemma inorder_plug k : forall t, inorder (plug k t) = lefts k ++ inorder t ++ rights k.
Proof.
  induction k as [|[c x r|c l x] k IH]; intros t; cbn [plug lefts rights].
  - rewrite app_nil_r. auto.
  - rewrite IH. cbn [inorder]. rewrite <- !app_assoc. auto.
  - rewrite IH. cbn [inorder]. rewrite <- !app_assoc. auto.
Qed.

(** The heap outside the hole, whose root pointer is [hole]. *)
Fixpoint ctxr (h : Z -> rbn) (rt : Z) (k : list frame) (hole : Z) : Prop :=
  match k with
  | [] => rt = hole
  | L c x r :: k => x <> 0 /\ h x = mkN (ppar k) c hole (rootp r) /\ tr h x r /\ ctxr h rt k x
  | R c l x :: k => x <> 0 /\ h x = mkN (ppar k) c (rootp l) hole /\ tr h x l /\ ctxr h rt k x
  end.

(** No address twice. *)
Definition uniq (k : list frame) (t : tree) : Prop :=
  forall i, (cnt (lefts k) i + cnt (inorder t) i + cnt (rights k) i <= 1)%nat.

Definition rep (s : rbs) (k : list frame) (t : tree) : Prop :=
  tr (nd s) (ppar k) t /\ ctxr (nd s) (top s) k (rootp t) /\ uniq k t.

Lemma rep_L s c x r k t : rep s (L c x r :: k) t <-> rep s k (N c t x r).
Proof.
  unfold rep, uniq. cbn [tr ctxr ppar rootp lefts rights]. split.
  - intros (A & (B1 & B2 & B3 & B4) & U). repeat (split; auto). intros i. specialize (U i). cn. lia.
  - intros ((B1 & B2 & B3 & B4) & A & U). repeat (split; auto). intros i. specialize (U i). cn. lia.
Qed.
Lemma rep_R s c l x k t : rep s (R c l x :: k) t <-> rep s k (N c l x t).
Proof.
  unfold rep, uniq. cbn [tr ctxr ppar rootp lefts rights]. split.
  - intros (A & (B1 & B2 & B3 & B4) & U). repeat (split; auto). intros i. specialize (U i). cn. lia.
  - intros ((B1 & B2 & B3 & B4) & A & U). repeat (split; auto). intros i. specialize (U i). cn. lia.
Qed.

Lemma upL s c x r k t : rep s (L c x r :: k) t -> rep s k (N c t x r). Proof. apply rep_L. Qed.
Lemma dnL s c x r k t : rep s k (N c t x r) -> rep s (L c x r :: k) t. Proof. apply rep_L. Qed.
Lemma upR s c l x k t : rep s (R c l x :: k) t -> rep s k (N c l x t). Proof. apply rep_R. Qed.
Lemma dnR s c l x k t : rep s k (N c l x t) -> rep s (R c l x :: k) t. Proof. apply rep_R. Qed.

Lemma rep_plug s k : forall t, rep s k t <-> rep s [] (plug k t).
Proof.
  induction k as [|[c x r|c l x] k IH]; intros t; cbn [plug]; [tauto| |].
  - rewrite rep_L. apply IH.
  - rewrite rep_R. apply IH.
Qed.

Lemma rep_holds s t : rep s [] t <-> holds s t.
Proof.
  unfold rep, holds. cbn [ctxr ppar]. rewrite cnt_NoDup. unfold uniq. cbn [lefts rights].
  split; intros (A & B & C); repeat split; auto; intros i; specialize (C i); cn; lia.
Qed.

(** ** Frames *)

Lemma tr_frame h h' p t : tr h p t -> (forall i, (0 < cnt (inorder t) i)%nat -> h' i = h i) -> tr h' p t.
Proof.
  revert p. induction t as [|c l IHl x r IHr]; intros p T F; auto. cbn [tr] in *. destruct T as (T1 & T2 & T3 & T4).
  split; auto. split; [rewrite F; auto; cn; lia|].
  split; [apply IHl|apply IHr]; auto; intros i Hi; apply F; cn; lia.
Qed.

Lemma tr_reparent h h' p q t : tr h p t -> (forall i, (0 < cnt (inorder t) i)%nat -> i <> rootp t -> h' i = h i) ->
  (t <> E -> h' (rootp t) = set_par q (h (rootp t))) -> (forall i, (cnt (inorder t) i <= 1)%nat) -> tr h' q t.
Proof.
  destruct t as [|c l x r]; intros T F G U; auto. cbn [tr rootp] in *. destruct T as (T1 & T2 & T3 & T4).
  split; auto. split; [rewrite G, T2 by congruence; auto|].
  split; (eapply tr_frame; [eassumption|]); intros i Hi; apply F; cn; try lia;
    intros ->; specialize (U x); cn; lia.
Qed.

Lemma ctx_frame h h' rt k hole : ctxr h rt k hole ->
  (forall i, (0 < cnt (lefts k) i + cnt (rights k) i)%nat -> h' i = h i) -> ctxr h' rt k hole.
Proof.
  revert hole. induction k as [|[c x r|c l x] k IH]; intros hole C F; auto; cbn [ctxr lefts rights] in *;
    destruct C as (C1 & C2 & C3 & C4); (split; [auto|]); (split; [rewrite F; auto; cn; lia|]);
    (split; [eapply tr_frame; [eassumption|]; intros i Hi; apply F; cn; lia|]);
    apply IH; auto; intros i Hi; apply F; cn; lia.
Qed.

Lemma root_nz h p t : tr h p t -> t <> E -> rootp t <> 0.
Proof. destruct t; cbn; [congruence|tauto]. Qed.

Lemma ctx_ppar h rt k hole : ctxr h rt k hole -> k <> [] -> ppar k <> 0.
Proof. destruct k as [|[c x r|c l x] k]; cbn; [congruence|tauto|tauto]. Qed.

Lemma upd_same h p n : upd h p n p = n. Proof. unfold upd. rewrite Z.eqb_refl. auto. Qed.
Lemma upd_other h p n i : i <> p -> upd h p n i = h i.
Proof. unfold upd. intros. destruct (Z.eqb_spec i p); congruence. Qed.

Lemma get_nz s p : p <> 0 -> get s p = Some (nd s p).
Proof. unfold get. destruct (Z.eqb_spec p 0); congruence. Qed.
Lemma put_nz s p f : p <> 0 -> put s p f = Some (mkS (upd (nd s) p (f (nd s p))) (top s)).
Proof. unfold put. destruct (Z.eqb_spec p 0); congruence. Qed.

(** Separation goals: [U] is the uniqueness fact. *)
Ltac sep U y := exfalso; let H := fresh in pose proof (U y) as H; unfold uniq in H; cbn [lefts rights inorder] in H; cn; lia.

(** The link from above is redirected. *)
Lemma ctx_redirect h h' rt rt' k hole hole' : ctxr h rt k hole -> hole <> 0 ->
  (forall i, (cnt (lefts k) i + one hole i + cnt (rights k) i <= 1)%nat) ->
  (forall i, (0 < cnt (lefts k) i + cnt (rights k) i)%nat -> i <> ppar k -> h' i = h i) ->
  (k = [] -> rt' = hole') -> (k <> [] -> rt' = rt) ->
  (k <> [] -> (hole = lft (h (ppar k)) -> h' (ppar k) = set_lft hole' (h (ppar k))) /\
              (hole = rgt (h (ppar k)) -> h' (ppar k) = set_rgt hole' (h (ppar k)))) ->
  ctxr h' rt' k hole'.
Proof.
  intros C NZ U F K0 K1 P. destruct k as [|[c x r|c l x] k]; cbn [ctxr ppar lefts rights] in *; auto;
    destruct C as (C1 & C2 & C3 & C4); (split; [auto|]); destruct (P ltac:(congruence)) as [P1 P2]; specialize (K1 ltac:(congruence)); subst rt';
    rewrite C2 in P1, P2; cbn [lft rgt] in P1, P2.
  - split; [rewrite P1; reflexivity|].
    split; [eapply tr_frame; [eassumption|]|eapply ctx_frame; [eassumption|]]; intros i Hi; apply F; cn; try lia;
      intros ->; sep U x.
  - split; [rewrite P2; reflexivity|].
    split; [eapply tr_frame; [eassumption|]|eapply ctx_frame; [eassumption|]]; intros i Hi; apply F; cn; try lia;
      intros ->; sep U x.
Qed.

(** A child link is the left or the right one, not both. *)
Lemma ctx_side h rt k hole : ctxr h rt k hole -> hole <> 0 -> k <> [] ->
  (forall i, (cnt (lefts k) i + one hole i + cnt (rights k) i <= 1)%nat) ->
  (hole = lft (h (ppar k)) /\ hole <> rgt (h (ppar k))) \/ (hole <> lft (h (ppar k)) /\ hole = rgt (h (ppar k))).
Proof.
  intros C NZ NK U. destruct k as [|[c x r|c l x] k]; cbn [ctxr ppar lefts rights] in *; [congruence| |];
    destruct C as (C1 & C2 & C3 & C4); rewrite C2; cbn [lft rgt].
  - left. split; auto. intros ->. destruct r as [|c' l' y r']; cbn [rootp] in *; [congruence|]. sep U y.
  - right. split; auto. intros ->. destruct l as [|c' l' y r']; cbn [rootp] in *; [congruence|]. sep U y.
Qed.

(** [p] is in the context. *)
Lemma ppar_cnt k : k <> [] -> (0 < cnt (lefts k) (ppar k) + cnt (rights k) (ppar k))%nat.
Proof. destruct k as [|[c x r|c l x] k]; cbn [ppar lefts rights]; [congruence| |]; cn; lia. Qed.

Lemma nil_or (k : list frame) : k = [] \/ k <> []. Proof. destruct k; [auto|right; congruence]. Qed.
Lemma E_or t : t = E \/ t <> E. Proof. destruct t; [auto|right; congruence]. Qed.

Ltac upds := repeat first [rewrite upd_same | rewrite upd_other by assumption | rewrite upd_other by auto | rewrite upd_other by congruence].

(** ** Rotations *)

Lemma rotate_left_ok s k c d a x b y e : rep s k (N c a x (N d b y e)) ->
  exists s', rotate_left x s = Some s' /\ rep s' k (N d (N c a x b) y e).
Proof.
  intros (T & C & U). cbn [tr] in T. destruct T as (X0 & HX & Ta & Y0 & HY & Tb & Te). cbn [rootp] in *.
  unfold rotate_left. rewrite (get_nz s x), HX by auto. cbn [rgt par]. rewrite (get_nz s y), HY by auto. cbn [lft].
  assert (Uk : forall i, (cnt (lefts k) i + one x i + cnt (rights k) i <= 1)%nat).
  { intros i. specialize (U i). cn. lia. }
  assert (XY : x <> y) by (intros ->; sep U y).
  rewrite put_nz by auto.
  set (h1 := upd (nd s) x (set_rgt (rootp b) (nd s x))).
  assert (S2 : exists h2, (if rootp b =? 0 then Some (mkS h1 (top s)) else put (mkS h1 (top s)) (rootp b) (set_par x)) = Some (mkS h2 (top s)) /\
     (forall i, (i <> rootp b \/ b = E) -> h2 i = h1 i) /\ (b <> E -> h2 (rootp b) = set_par x (h1 (rootp b)))).
  { destruct (E_or b) as [->|NE]; cbn [rootp].
    - exists h1. repeat split; auto. congruence.
    - pose proof (root_nz _ _ _ Tb NE). destruct (Z.eqb_spec (rootp b) 0); [congruence|]. rewrite put_nz by auto. cbn [nd top].
      eexists. split; [reflexivity|]. split; [|intros; upds; auto]. intros i [|]; [upds; auto|congruence]. }
  destruct S2 as (h2 & -> & F2 & G2).
  rewrite (put_nz _ y) by auto. cbn [nd top]. rewrite (put_nz _ y) by auto. cbn [nd top].
  set (h3 := upd (upd h2 y _) y _).
  assert (XB : b <> E -> x <> rootp b /\ y <> rootp b).
  { intros NE. pose proof (cnt_root b NE). split; intros ->; sep U (rootp b). }
  assert (H2y : h2 y = mkN x d (rootp b) (rootp e)).
  { rewrite F2. { unfold h1. upds. auto. } destruct (E_or b) as [|NE]; auto. left. apply XB; auto. }
  assert (H2x : h2 x = mkN (ppar k) c (rootp a) (rootp b)).
  { rewrite F2. { unfold h1. upds. rewrite HX. auto. } destruct (E_or b) as [|NE]; auto. left. apply XB; auto. }
  assert (H3y : h3 y = mkN (ppar k) d x (rootp e)) by (unfold h3; upds; rewrite H2y; auto).
  assert (H3 : forall i, i <> y -> h3 i = h2 i) by (intros; unfold h3; upds; auto).
  clearbody h3.
  assert (XP : k <> [] -> x <> ppar k /\ y <> ppar k /\ ppar k <> 0).
  { intros NK. pose proof (ppar_cnt k NK). split; [|split; [|eapply ctx_ppar; eauto]]; intros E0; rewrite <- E0 in *; [sep U x|sep U y]. }
  assert (H3p : k <> [] -> h3 (ppar k) = nd s (ppar k)).
  { intros NK. destruct (XP NK) as (P1 & P2 & _). pose proof (ppar_cnt k NK). rewrite H3 by auto. rewrite F2. { unfold h1. upds. auto. }
    destruct (E_or b) as [|NE]; auto. left. intros E0. pose proof (cnt_root b NE). rewrite E0 in *. sep U (rootp b). }
  assert (S4 : exists h4 rt', (if ppar k =? 0 then Some (set_top y (mkS h3 (top s))) else
       do p <- get (mkS h3 (top s)) (ppar k);
       if x =? lft p then put (mkS h3 (top s)) (ppar k) (set_lft y) else put (mkS h3 (top s)) (ppar k) (set_rgt y)) = Some (mkS h4 rt') /\
     (forall i, i <> ppar k \/ k = [] -> h4 i = h3 i) /\ (k = [] -> rt' = y) /\ (k <> [] -> rt' = top s) /\
     (k <> [] -> (x = lft (nd s (ppar k)) -> h4 (ppar k) = set_lft y (nd s (ppar k))) /\
                 (x = rgt (nd s (ppar k)) -> h4 (ppar k) = set_rgt y (nd s (ppar k))))).
  { destruct (nil_or k) as [->|NK].
    - cbn [ppar]. cbn [Z.eqb]. exists h3, y. split; [reflexivity|]. repeat split; auto; congruence.
    - destruct (XP NK) as (P1 & P2 & P0). destruct (Z.eqb_spec (ppar k) 0); [congruence|]. rewrite get_nz by auto. cbn [nd].
      rewrite (H3p NK). destruct (ctx_side _ _ _ _ C X0 NK Uk) as [[S1 S2]|[S1 S2]].
      + rewrite <- S1, Z.eqb_refl. rewrite put_nz by auto. cbn [nd top]. eexists _, _. split; [reflexivity|].
        split; [intros i [|]; [upds; auto|congruence]|]. split; [congruence|]. split; [auto|]. intros _. rewrite (H3p NK).
        split; [intros; upds; auto|congruence].
      + destruct (Z.eqb_spec x (lft (nd s (ppar k)))); [congruence|]. rewrite put_nz by auto. cbn [nd top]. eexists _, _. split; [reflexivity|].
        split; [intros i [|]; [upds; auto|congruence]|]. split; [congruence|]. split; [auto|]. intros _. rewrite (H3p NK).
        split; [congruence|intros; upds; auto]. }
  destruct S4 as (h4 & rt' & -> & F4 & K0 & K1 & G4).
  rewrite put_nz by auto. cbn [nd top]. eexists. split; [reflexivity|].
  set (h5 := upd h4 x _).
  assert (H4 : forall i, i <> ppar k -> h4 i = h3 i) by (intros; apply F4; auto).
  assert (H4x : h4 x = h3 x).
  { apply F4. destruct (nil_or k) as [|NK]; auto. left. apply XP; auto. }
  assert (H4y : h4 y = h3 y).
  { apply F4. destruct (nil_or k) as [|NK]; auto. left. apply XP; auto. }
  assert (OUT : forall i, i <> x -> i <> y -> i <> rootp b \/ b = E -> i <> ppar k \/ k = [] -> h5 i = nd s i).
  { intros i I1 I2 I3 I4. unfold h5. upds. rewrite F4, H3, F2 by auto. unfold h1. upds. auto. }
  assert (NKp : forall i, (0 < cnt (inorder a) i + cnt (inorder b) i + cnt (inorder e) i)%nat -> i <> ppar k \/ k = []).
  { intros i Hi. destruct (nil_or k) as [|NK]; auto. left. intros ->. pose proof (ppar_cnt k NK). sep U (ppar k). }
  assert (NB : forall i, (0 < cnt (inorder a) i + cnt (inorder e) i + cnt (lefts k) i + cnt (rights k) i)%nat -> i <> rootp b \/ b = E).
  { intros i Hi. destruct (E_or b) as [|NE]; auto. left. intros ->. pose proof (cnt_root b NE). sep U (rootp b). }
  unfold rep. cbn [nd top tr rootp].
  split; [|split].
  - split; auto. split; [unfold h5; upds; rewrite H4y, H3y; auto|].
    split; [split; [auto|]|].
    + split; [unfold h5; upds; rewrite H4x, H3 by auto; rewrite H2x; auto|].
      split.
      * apply (tr_frame (nd s)); auto. intros i Hi. apply OUT; try (apply NB; lia); try (apply NKp; lia); intros ->; [sep U x|sep U y].
      * apply (tr_reparent (nd s) _ y); auto.
        -- intros i Hi NR. apply OUT; try (apply NKp; lia); auto; intros ->; [sep U x|sep U y].
        -- intros NE. pose proof (cnt_root b NE). destruct (XB NE). unfold h5. upds. rewrite F4 by (apply NKp; lia). rewrite H3 by auto.
           rewrite G2 by auto. unfold h1. upds. auto.
        -- intros i. specialize (U i). cn. lia.
    + apply (tr_frame (nd s)); auto. intros i Hi. apply OUT; try (apply NB; lia); try (apply NKp; lia); intros ->; [sep U x|sep U y].
  - apply (ctx_redirect (nd s) h5 (top s) rt' k x y); auto.
    + intros i Hi NP. apply OUT; auto; [intros ->; sep U x|intros ->; sep U y|apply NB; lia].
    + intros NK. destruct (XP NK) as (P1 & P2 & _). unfold h5. upds. apply G4; auto.
  - intros i. specialize (U i). cn. lia.
Qed.

Lemma rotate_right_ok s k c d a x b y e : rep s k (N c (N d e y b) x a) ->
  exists s', rotate_right x s = Some s' /\ rep s' k (N d e y (N c b x a)).
Proof.
  intros (T & C & U). cbn [tr] in T. destruct T as (X0 & HX & (Y0 & HY & Te & Tb) & Ta). cbn [rootp] in *.
  unfold rotate_right. rewrite (get_nz s x), HX by auto. cbn [lft par]. rewrite (get_nz s y), HY by auto. cbn [rgt].
  assert (Uk : forall i, (cnt (lefts k) i + one x i + cnt (rights k) i <= 1)%nat).
  { intros i. specialize (U i). cn. lia. }
  assert (XY : x <> y) by (intros ->; sep U y).
  rewrite put_nz by auto.
  set (h1 := upd (nd s) x (set_lft (rootp b) (nd s x))).
  assert (S2 : exists h2, (if rootp b =? 0 then Some (mkS h1 (top s)) else put (mkS h1 (top s)) (rootp b) (set_par x)) = Some (mkS h2 (top s)) /\
     (forall i, (i <> rootp b \/ b = E) -> h2 i = h1 i) /\ (b <> E -> h2 (rootp b) = set_par x (h1 (rootp b)))).
  { destruct (E_or b) as [->|NE]; cbn [rootp].
    - exists h1. repeat split; auto. congruence.
    - pose proof (root_nz _ _ _ Tb NE). destruct (Z.eqb_spec (rootp b) 0); [congruence|]. rewrite put_nz by auto. cbn [nd top].
      eexists. split; [reflexivity|]. split; [|intros; upds; auto]. intros i [|]; [upds; auto|congruence]. }
  destruct S2 as (h2 & -> & F2 & G2).
  rewrite (put_nz _ y) by auto. cbn [nd top]. rewrite (put_nz _ y) by auto. cbn [nd top].
  set (h3 := upd (upd h2 y _) y _).
  assert (XB : b <> E -> x <> rootp b /\ y <> rootp b).
  { intros NE. pose proof (cnt_root b NE). split; intros ->; sep U (rootp b). }
  assert (H2y : h2 y = mkN x d (rootp e) (rootp b)).
  { rewrite F2. { unfold h1. upds. auto. } destruct (E_or b) as [|NE]; auto. left. apply XB; auto. }
  assert (H2x : h2 x = mkN (ppar k) c (rootp b) (rootp a)).
  { rewrite F2. { unfold h1. upds. rewrite HX. auto. } destruct (E_or b) as [|NE]; auto. left. apply XB; auto. }
  assert (H3y : h3 y = mkN (ppar k) d (rootp e) x) by (unfold h3; upds; rewrite H2y; auto).
  assert (H3 : forall i, i <> y -> h3 i = h2 i) by (intros; unfold h3; upds; auto).
  clearbody h3.
  assert (XP : k <> [] -> x <> ppar k /\ y <> ppar k /\ ppar k <> 0).
  { intros NK. pose proof (ppar_cnt k NK). split; [|split; [|eapply ctx_ppar; eauto]]; intros E0; rewrite <- E0 in *; [sep U x|sep U y]. }
  assert (H3p : k <> [] -> h3 (ppar k) = nd s (ppar k)).
  { intros NK. destruct (XP NK) as (P1 & P2 & _). pose proof (ppar_cnt k NK). rewrite H3 by auto. rewrite F2. { unfold h1. upds. auto. }
    destruct (E_or b) as [|NE]; auto. left. intros E0. pose proof (cnt_root b NE). rewrite E0 in *. sep U (rootp b). }
  assert (S4 : exists h4 rt', (if ppar k =? 0 then Some (set_top y (mkS h3 (top s))) else
       do p <- get (mkS h3 (top s)) (ppar k);
       if x =? rgt p then put (mkS h3 (top s)) (ppar k) (set_rgt y) else put (mkS h3 (top s)) (ppar k) (set_lft y)) = Some (mkS h4 rt') /\
     (forall i, i <> ppar k \/ k = [] -> h4 i = h3 i) /\ (k = [] -> rt' = y) /\ (k <> [] -> rt' = top s) /\
     (k <> [] -> (x = lft (nd s (ppar k)) -> h4 (ppar k) = set_lft y (nd s (ppar k))) /\
                 (x = rgt (nd s (ppar k)) -> h4 (ppar k) = set_rgt y (nd s (ppar k))))).
  { destruct (nil_or k) as [->|NK].
    - cbn [ppar]. cbn [Z.eqb]. exists h3, y. split; [reflexivity|]. repeat split; auto; congruence.
    - destruct (XP NK) as (P1 & P2 & P0). destruct (Z.eqb_spec (ppar k) 0); [congruence|]. rewrite get_nz by auto. cbn [nd].
      rewrite (H3p NK). destruct (ctx_side _ _ _ _ C X0 NK Uk) as [[S2 S1]|[S2 S1]].
      + destruct (Z.eqb_spec x (rgt (nd s (ppar k)))); [congruence|]. rewrite put_nz by auto. cbn [nd top]. eexists _, _. split; [reflexivity|].
        split; [intros i [|]; [upds; auto|congruence]|]. split; [congruence|]. split; [auto|]. intros _. rewrite (H3p NK).
        split; [intros; upds; auto|congruence].
      + rewrite <- S1, Z.eqb_refl. rewrite put_nz by auto. cbn [nd top]. eexists _, _. split; [reflexivity|].
        split; [intros i [|]; [upds; auto|congruence]|]. split; [congruence|]. split; [auto|]. intros _. rewrite (H3p NK).
        split; [congruence|intros; upds; auto]. }
  destruct S4 as (h4 & rt' & -> & F4 & K0 & K1 & G4).
  rewrite put_nz by auto. cbn [nd top]. eexists. split; [reflexivity|].
  set (h5 := upd h4 x _).
  assert (H4 : forall i, i <> ppar k -> h4 i = h3 i) by (intros; apply F4; auto).
  assert (H4x : h4 x = h3 x).
  { apply F4. destruct (nil_or k) as [|NK]; auto. left. apply XP; auto. }
  assert (H4y : h4 y = h3 y).
  { apply F4. destruct (nil_or k) as [|NK]; auto. left. apply XP; auto. }
  assert (OUT : forall i, i <> x -> i <> y -> i <> rootp b \/ b = E -> i <> ppar k \/ k = [] -> h5 i = nd s i).
  { intros i I1 I2 I3 I4. unfold h5. upds. rewrite F4, H3, F2 by auto. unfold h1. upds. auto. }
  assert (NKp : forall i, (0 < cnt (inorder a) i + cnt (inorder b) i + cnt (inorder e) i)%nat -> i <> ppar k \/ k = []).
  { intros i Hi. destruct (nil_or k) as [|NK]; auto. left. intros ->. pose proof (ppar_cnt k NK). sep U (ppar k). }
  assert (NB : forall i, (0 < cnt (inorder a) i + cnt (inorder e) i + cnt (lefts k) i + cnt (rights k) i)%nat -> i <> rootp b \/ b = E).
  { intros i Hi. destruct (E_or b) as [|NE]; auto. left. intros ->. pose proof (cnt_root b NE). sep U (rootp b). }
  unfold rep. cbn [nd top tr rootp].
  split; [|split].
  - split; auto. split; [unfold h5; upds; rewrite H4y, H3y; auto|].
    split; [|split; [auto|]].
    + apply (tr_frame (nd s)); auto. intros i Hi. apply OUT; try (apply NB; lia); try (apply NKp; lia); intros ->; [sep U x|sep U y].
    + split; [unfold h5; upds; rewrite H4x, H3 by auto; rewrite H2x; auto|].
      split.
      * apply (tr_reparent (nd s) _ y); auto.
        -- intros i Hi NR. apply OUT; try (apply NKp; lia); auto; intros ->; [sep U x|sep U y].
        -- intros NE. pose proof (cnt_root b NE). destruct (XB NE). unfold h5. upds. rewrite F4 by (apply NKp; lia). rewrite H3 by auto.
           rewrite G2 by auto. unfold h1. upds. auto.
        -- intros i. specialize (U i). cn. lia.
      * apply (tr_frame (nd s)); auto. intros i Hi. apply OUT; try (apply NB; lia); try (apply NKp; lia); intros ->; [sep U x|sep U y].
  - apply (ctx_redirect (nd s) h5 (top s) rt' k x y); auto.
    + intros i Hi NP. apply OUT; auto; [intros ->; sep U x|intros ->; sep U y|apply NB; lia].
    + intros NK. destruct (XP NK) as (P1 & P2 & _). unfold h5. upds. apply G4; auto.
  - intros i. specialize (U i). cn. lia.
Qed.

(** ** Colours *)

Lemma put_col s k c l x r b : rep s k (N c l x r) ->
  exists s', put s x (set_blk b) = Some s' /\ rep s' k (N b l x r).
Proof.
  intros (T & C & U). cbn [tr] in T. destruct T as (X0 & HX & Tl & Tr). rewrite put_nz by auto. eexists. split; [reflexivity|].
  unfold rep. cbn [nd top tr rootp]. cbn [rootp] in C.
  split; [split; [auto|]|split].
  - upds. rewrite HX. split; auto. split; (eapply tr_frame; [eassumption|]); intros i Hi; apply upd_other; intros ->; sep U x.
  - eapply ctx_frame; [eassumption|]. intros i Hi; apply upd_other; intros ->; sep U x.
  - intros i. specialize (U i). cn. lia.
Qed.

Lemma rep_node s k c l x r : rep s k (N c l x r) -> x <> 0 /\ nd s x = mkN (ppar k) c (rootp l) (rootp r).
Proof. intros (T & _). cbn [tr] in T. tauto. Qed.
Lemma rep_parL s c x r k t : rep s (L c x r :: k) t -> x <> 0 /\ nd s x = mkN (ppar k) c (rootp t) (rootp r).
Proof. intros H. apply rep_L in H. apply rep_node in H. auto. Qed.
Lemma rep_parR s c l x k t : rep s (R c l x :: k) t -> x <> 0 /\ nd s x = mkN (ppar k) c (rootp l) (rootp t).
Proof. intros H. apply rep_R in H. apply rep_node in H. auto. Qed.

Definition blackb (t : tree) : bool := match t with N c _ _ _ => c | E => true end.
Lemma blackish_b t : blackish t <-> blackb t = true.
Proof. destruct t as [|[] ? ? ?]; cbn; intuition congruence. Qed.

Lemma is_red_ok s k t : rep s k t -> is_red s (rootp t) = Some (negb (blackb t)).
Proof.
  intros H. destruct t as [|c l x r]; auto. destruct (rep_node _ _ _ _ _ _ H) as [X0 HX]. unfold is_red. cbn [rootp].
  destruct (Z.eqb_spec x 0); [congruence|]. rewrite get_nz, HX by auto. auto.
Qed.
Lemma is_blk_ok s k t : rep s k t -> is_blk s (rootp t) = Some (blackb t).
Proof.
  intros H. destruct t as [|c l x r]; auto. destruct (rep_node _ _ _ _ _ _ H) as [X0 HX]. unfold is_blk. cbn [rootp].
  destruct (Z.eqb_spec x 0); [congruence|]. rewrite get_nz, HX by auto. auto.
Qed.

(** Sibling nodes are different. *)
Lemma sib_ne s k c l x r : rep s k (N c l x r) -> (l <> E \/ r <> E) -> rootp l <> rootp r.
Proof.
  intros (T & C & U) H E0. cbn [tr] in T. destruct T as (_ & _ & Tl & Tr).
  destruct (E_or l) as [->|NL], (E_or r) as [->|NR].
  - destruct H; congruence.
  - apply (root_nz _ _ _ Tr NR). auto.
  - apply (root_nz _ _ _ Tl NL). auto.
  - pose proof (cnt_root l NL). pose proof (cnt_root r NR). rewrite E0 in *. sep U (rootp r).
Qed.

Lemma sib_neL s k c c' a y b x r : rep s k (N c (N c' a y b) x r) -> rootp r <> y.
Proof. intros H E0. apply (sib_ne _ _ _ _ _ _ H); [left; discriminate|]. cbn [rootp]. auto. Qed.
Lemma sib_neR s k c c' a y b x l : rep s k (N c l x (N c' a y b)) -> y <> rootp l.
Proof. intros H E0. apply (sib_ne _ _ _ _ _ _ H); [right; discriminate|]. cbn [rootp]. auto. Qed.

(** ** Contexts of balanced trees *)

(** A tree of black height [n] may fill the hole; it must be black if [mb]. *)
Inductive crb : list frame -> nat -> bool -> Prop :=
| crb_nil n : crb [] n true
| crb_LB x r k n b : rbt r n -> crb k (S n) b -> crb (L true x r :: k) n false
| crb_RB l x k n b : rbt l n -> crb k (S n) b -> crb (R true l x :: k) n false
| crb_LR x r k n : rbt r n -> blackish r -> crb k n false -> crb (L false x r :: k) n true
| crb_RR l x k n : rbt l n -> blackish l -> crb k n false -> crb (R false l x :: k) n true.

Lemma crb_plug k n mb : crb k n mb -> forall t, rbt t n -> (mb = true -> blackish t) -> balanced (plug k t).
Proof.
  induction 1 as [n|x r k n b Hr C IH|l x k n b Hl C IH|x r k n Hr Br C IH|l x k n Hl Bl C IH]; intros t T M; cbn [plug].
  - split; eauto.
  - apply IH; [constructor; auto|cbn; auto].
  - apply IH; [constructor; auto|cbn; auto].
  - apply IH; [constructor; auto|congruence].
  - apply IH; [constructor; auto|congruence].
Qed.

Lemma plug_E k t : plug k t = E -> t = E.
Proof.
  revert t. induction k as [|[c x r|c l x] k IH]; intros t H; cbn [plug] in H; auto; apply IH in H; discriminate.
Qed.

(** rb_set_black(root->rb_node) on a black root. *)
Lemma blacken_root s t : rep s [] t -> t <> E -> blackish t ->
  exists s', put s (top s) (set_blk true) = Some s' /\ rep s' [] t.
Proof.
  intros H NE B. destruct t as [|[] l x r]; cbn in B; try tauto; try congruence.
  assert (Ht : top s = x) by (destruct H as (_ & C & _); exact C). rewrite Ht. apply (put_col s [] true); auto.
Qed.

(** ** Insertion *)

Ltac apps := repeat (progress (rewrite <- ?app_assoc; cbn [app])); reflexivity.

Lemma insert_color_ok fuel : forall k s l x r n mb, rep s k (N false l x r) -> rbt (N false l x r) n -> crb k n mb -> (length k < fuel)%nat ->
  exists s' t', insert_color fuel x s = Some s' /\ rep s' [] t' /\ inorder t' = inorder (plug k (N false l x r)) /\ balanced t'.
Proof.
  induction fuel as [|f IH]; intros k s l x r n mb H T C F; [lia|]. cbn [insert_color].
  destruct (rep_node _ _ _ _ _ _ H) as [X0 HX]. rewrite get_nz, HX by auto. cbn [par].
  destruct k as [|fr k].
  { cbn [ppar]. unfold is_red. cbn [Z.eqb negb]. assert (Ht : top s = x) by (destruct H as (_ & Ct & _); exact Ct). rewrite Ht.
    destruct (put_col _ _ _ _ _ _ true H) as (s' & -> & H'). exists s', (N true l x r).
    split; [auto|]. split; [auto|]. split; [auto|]. split; [exact I|]. inversion T; subst. exists (S n). constructor; auto. }
  assert (BLK : forall p, (exists sib, fr = L true p sib \/ fr = R true sib p) ->
     exists s' t', put s (top s) (set_blk true) = Some s' /\ rep s' [] t' /\ inorder t' = inorder (plug (fr :: k) (N false l x r)) /\ balanced t').
  { intros p [sib Hfr]. assert (mb = false) by (destruct Hfr; subst fr; inversion C; auto). subst mb.
    pose proof (crb_plug _ _ _ C _ T ltac:(congruence)) as B.
    apply rep_plug in H. destruct (blacken_root s _ H) as (s' & E1 & R'); [|apply B|].
    - intros E0. apply plug_E in E0. discriminate.
    - exists s'. eauto. }
  destruct fr as [c p sib|c sib p].
  - destruct (rep_parL _ _ _ _ _ _ H) as [P0 HP]. cbn [ppar]. unfold is_red at 1. destruct (Z.eqb_spec p 0); [congruence|].
    rewrite (get_nz s p), HP by exact P0. cbn [blk]. destruct c; cbn [negb].
    { apply (BLK p). exists sib. auto. }
    cbn [par lft rgt]. inversion C as [| | |? ? ? ? Hsib Bsib Ck|]; subst.
    inversion Ck as [|g u k2 ? b2 Hu Ck2|u g k2 ? b2 Hu Ck2| |]; subst; cbn [ppar].
    + (* L of the parent, L of the grandparent *)
      apply upL in H. destruct (rep_parL _ _ _ _ _ _ H) as [G0 HG]. rewrite (get_nz s g), HG by exact G0. cbn [lft rgt rootp].
      apply upL in H.
      rewrite Z.eqb_refl.
      pose proof (dnR _ _ _ _ _ _ H) as Hu'. rewrite (is_red_ok _ _ _ Hu').
      destruct u as [|[] ul uu ur]; cbn [blackb negb].
      3:{ (* red uncle *)
        cbn [rootp]. destruct (put_col _ _ _ _ _ _ true Hu') as (s1 & -> & H1). apply upR in H1. apply dnL in H1.
        destruct (put_col _ _ _ _ _ _ true H1) as (s2 & -> & H2). apply upL in H2.
        destruct (put_col _ _ _ _ _ _ false H2) as (s3 & -> & H3). inversion Hu; subst.
        destruct (IH k2 s3 _ _ _ (S n) b2 H3) as (s' & t' & E1 & E2 & E3 & E4); auto.
        { apply rb_R; [apply rb_B; auto|apply rb_B; auto|exact I|exact I]. }
        { cbn [length] in F. lia. }
        exists s', t'. split; [exact E1|]. split; [exact E2|]. split; [|exact E4]. rewrite E3. rewrite !inorder_plug.
        cbn [lefts rights inorder plug]; apps. }
      all: apply dnL in H; pose proof (sib_neL _ _ _ _ _ _ _ _ _ H) as NS;
        destruct (Z.eqb_spec (rootp sib) x); [congruence|];
        destruct (put_col _ _ _ _ _ _ true H) as (s1 & -> & H1); apply upL in H1;
        destruct (put_col _ _ _ _ _ _ false H1) as (s2 & -> & H2);
        destruct (rotate_right_ok _ _ _ _ _ _ _ _ _ H2) as (s3 & -> & H3); apply dnL in H3;
        (edestruct (IH) as (s' & t' & E1 & E2 & E3 & E4);
          [exact H3|exact T|econstructor; [apply rb_R; auto; exact I|exact Ck2]|cbn [length] in *; lia|];
        exists s', t'; (split; [exact E1|]; split; [exact E2|]; split; [|exact E4]); rewrite E3; rewrite !inorder_plug; cbn [lefts rights inorder plug]; apps).
    + (* L of the parent, R of the grandparent *)
      apply upL in H. destruct (rep_parR _ _ _ _ _ _ H) as [G0 HG]. rewrite (get_nz s g), HG by exact G0. cbn [lft rgt rootp].
      apply upR in H.
      pose proof (sib_neR _ _ _ _ _ _ _ _ _ H) as NG.
      destruct (Z.eqb_spec p (rootp u)); [congruence|].
      pose proof (dnL _ _ _ _ _ _ H) as Hu'. rewrite (is_red_ok _ _ _ Hu').
      destruct u as [|[] ul uu ur]; cbn [blackb negb].
      3:{ (* red uncle *)
        cbn [rootp]. destruct (put_col _ _ _ _ _ _ true Hu') as (s1 & -> & H1). apply upL in H1. apply dnR in H1.
        destruct (put_col _ _ _ _ _ _ true H1) as (s2 & -> & H2). apply upR in H2.
        destruct (put_col _ _ _ _ _ _ false H2) as (s3 & -> & H3). inversion Hu; subst.
        destruct (IH k2 s3 _ _ _ (S n) b2 H3) as (s' & t' & E1 & E2 & E3 & E4); auto.
        { apply rb_R; [apply rb_B; auto|apply rb_B; auto|exact I|exact I]. }
        { cbn [length] in F. lia. }
        exists s', t'. split; [exact E1|]. split; [exact E2|]. split; [|exact E4]. rewrite E3. rewrite !inorder_plug.
        cbn [lefts rights inorder plug]; apps. }
      all: rewrite Z.eqb_refl;
        apply dnR in H; destruct (rotate_right_ok _ _ _ _ _ _ _ _ _ H) as (s0 & -> & H0);
        destruct (put_col _ _ _ _ _ _ true H0) as (s1 & -> & H1); apply upR in H1;
        destruct (put_col _ _ _ _ _ _ false H1) as (s2 & -> & H2);
        destruct (rotate_left_ok _ _ _ _ _ _ _ _ _ H2) as (s3 & -> & H3); apply dnR in H3; inversion T; subst;
        (edestruct (IH) as (s' & t' & E1 & E2 & E3 & E4);
          [exact H3|apply rb_R; eauto|econstructor; [apply rb_R; auto; exact I|exact Ck2]|cbn [length] in *; lia|];
        exists s', t'; (split; [exact E1|]; split; [exact E2|]; split; [|exact E4]); rewrite E3; rewrite !inorder_plug; cbn [lefts rights inorder plug]; apps).
  - destruct (rep_parR _ _ _ _ _ _ H) as [P0 HP]. cbn [ppar]. unfold is_red at 1. destruct (Z.eqb_spec p 0); [congruence|].
    rewrite (get_nz s p), HP by exact P0. cbn [blk]. destruct c; cbn [negb].
    { apply (BLK p). exists sib. auto. }
    cbn [par lft rgt]. inversion C as [| | | |? ? ? ? Hsib Bsib Ck]; subst.
    inversion Ck as [|g u k2 ? b2 Hu Ck2|u g k2 ? b2 Hu Ck2| |]; subst; cbn [ppar].
    + (* R of the parent, L of the grandparent *)
      apply upR in H. destruct (rep_parL _ _ _ _ _ _ H) as [G0 HG]. rewrite (get_nz s g), HG by exact G0. cbn [lft rgt rootp].
      apply upL in H.
      rewrite Z.eqb_refl.
      pose proof (dnR _ _ _ _ _ _ H) as Hu'. rewrite (is_red_ok _ _ _ Hu').
      destruct u as [|[] ul uu ur]; cbn [blackb negb].
      3:{ (* red uncle *)
        cbn [rootp]. destruct (put_col _ _ _ _ _ _ true Hu') as (s1 & -> & H1). apply upR in H1. apply dnL in H1.
        destruct (put_col _ _ _ _ _ _ true H1) as (s2 & -> & H2). apply upL in H2.
        destruct (put_col _ _ _ _ _ _ false H2) as (s3 & -> & H3). inversion Hu; subst.
        destruct (IH k2 s3 _ _ _ (S n) b2 H3) as (s' & t' & E1 & E2 & E3 & E4); auto.
        { apply rb_R; [apply rb_B; auto|apply rb_B; auto|exact I|exact I]. }
        { cbn [length] in F. lia. }
        exists s', t'. split; [exact E1|]. split; [exact E2|]. split; [|exact E4]. rewrite E3. rewrite !inorder_plug.
        cbn [lefts rights inorder plug]; apps. }
      all: rewrite Z.eqb_refl;
        apply dnL in H; destruct (rotate_left_ok _ _ _ _ _ _ _ _ _ H) as (s0 & -> & H0);
        destruct (put_col _ _ _ _ _ _ true H0) as (s1 & -> & H1); apply upL in H1;
        destruct (put_col _ _ _ _ _ _ false H1) as (s2 & -> & H2);
        destruct (rotate_right_ok _ _ _ _ _ _ _ _ _ H2) as (s3 & -> & H3); apply dnL in H3; inversion T; subst;
        (edestruct (IH) as (s' & t' & E1 & E2 & E3 & E4);
          [exact H3|apply rb_R; eauto|econstructor; [apply rb_R; auto; exact I|exact Ck2]|cbn [length] in *; lia|];
        exists s', t'; (split; [exact E1|]; split; [exact E2|]; split; [|exact E4]); rewrite E3; rewrite !inorder_plug; cbn [lefts rights inorder plug]; apps).
    + (* R of the parent, R of the grandparent *)
      apply upR in H. destruct (rep_parR _ _ _ _ _ _ H) as [G0 HG]. rewrite (get_nz s g), HG by exact G0. cbn [lft rgt rootp].
      apply upR in H.
      pose proof (sib_neR _ _ _ _ _ _ _ _ _ H) as NG.
      destruct (Z.eqb_spec p (rootp u)); [congruence|].
      pose proof (dnL _ _ _ _ _ _ H) as Hu'. rewrite (is_red_ok _ _ _ Hu').
      destruct u as [|[] ul uu ur]; cbn [blackb negb].
      3:{ (* red uncle *)
        cbn [rootp]. destruct (put_col _ _ _ _ _ _ true Hu') as (s1 & -> & H1). apply upL in H1. apply dnR in H1.
        destruct (put_col _ _ _ _ _ _ true H1) as (s2 & -> & H2). apply upR in H2.
        destruct (put_col _ _ _ _ _ _ false H2) as (s3 & -> & H3). inversion Hu; subst.
        destruct (IH k2 s3 _ _ _ (S n) b2 H3) as (s' & t' & E1 & E2 & E3 & E4); auto.
        { apply rb_R; [apply rb_B; auto|apply rb_B; auto|exact I|exact I]. }
        { cbn [length] in F. lia. }
        exists s', t'. split; [exact E1|]. split; [exact E2|]. split; [|exact E4]. rewrite E3. rewrite !inorder_plug.
        cbn [lefts rights inorder plug]; apps. }
      all: apply dnR in H; pose proof (sib_neR _ _ _ _ _ _ _ _ _ H) as NS;
        destruct (Z.eqb_spec (rootp sib) x); [congruence|];
        destruct (put_col _ _ _ _ _ _ true H) as (s1 & -> & H1); apply upR in H1;
        destruct (put_col _ _ _ _ _ _ false H1) as (s2 & -> & H2);
        destruct (rotate_left_ok _ _ _ _ _ _ _ _ _ H2) as (s3 & -> & H3); apply dnR in H3;
        (edestruct (IH) as (s' & t' & E1 & E2 & E3 & E4);
          [exact H3|exact T|econstructor; [apply rb_R; auto; exact I|exact Ck2]|cbn [length] in *; lia|];
        exists s', t'; (split; [exact E1|]; split; [exact E2|]; split; [|exact E4]); rewrite E3; rewrite !inorder_plug; cbn [lefts rights inorder plug]; apps).
Qed.

(** ** Positions *)

Lemma plug_app k1 k t : plug (k1 ++ k) t = plug k (plug k1 t).
Proof. revert t. induction k1 as [|[c x r|c l x] k1 IH]; intros t; cbn [app plug]; auto. Qed.

Lemma rep_app s k1 k : forall t, rep s (k1 ++ k) t <-> rep s k (plug k1 t).
Proof. intros t. rewrite (rep_plug s (k1 ++ k)), (rep_plug s k), plug_app. tauto. Qed.

Lemma in_plug t x : In x (inorder t) -> exists k c l r, t = plug k (N c l x r).
Proof.
  induction t as [|c l IHl y r IHr]; cbn [inorder]; [intros []|]. intros H. apply in_app_or in H. destruct H as [H|[->|H]].
  - destruct (IHl H) as (k & c' & l' & r' & ->). exists (k ++ [L c y r]), c', l', r'. rewrite plug_app. auto.
  - exists [], c, l, r. auto.
  - destruct (IHr H) as (k & c' & l' & r' & ->). exists (k ++ [R c l y]), c', l', r'. rewrite plug_app. auto.
Qed.

Lemma height_plug k : forall t, (length k + height t <= height (plug k t))%nat.
Proof.
  induction k as [|[c x r|c l x] k IH]; intros t; cbn [length plug]; [lia| |];
    eapply Nat.le_trans; [|apply IH| |apply IH]; cbn [height]; lia.
Qed.

Lemma crb_of k : forall t, balanced (plug k t) -> exists n mb, crb k n mb /\ rbt t n /\ (mb = true -> blackish t).
Proof.
  induction k as [|[c x r|c l x] k IH]; intros t B; cbn [plug] in B.
  - destruct B as [B [n T]]. exists n, true. split; [constructor|auto].
  - destruct (IH _ B) as (n & mb & C & T & M). destruct c; inversion T; subst.
    + eexists _, false. split; [econstructor; eauto|]. split; [auto|congruence].
    + destruct mb; [destruct (M eq_refl)|]. eexists _, true. split; [constructor; eauto|]. auto.
  - destruct (IH _ B) as (n & mb & C & T & M). destruct c; inversion T; subst.
    + eexists _, false. split; [econstructor; eauto|]. split; [auto|congruence].
    + destruct mb; [destruct (M eq_refl)|]. eexists _, true. split; [constructor; eauto|]. auto.
Qed.

Lemma crb_relabel k1 c l x y k : forall n mb, crb (k1 ++ R c l x :: k) n mb -> crb (k1 ++ R c l y :: k) n mb.
Proof.
  induction k1 as [|[c' z r'|c' l' z] k1 IH]; intros n mb C; cbn [app] in *; inversion C; subst; econstructor; eauto.
Qed.

(** ** The hole *)

Definition set_hole (k : list frame) (new : Z) (s : rbs) : option rbs :=
  match k with
  | [] => Some (set_top new s)
  | L _ p _ :: _ => put s p (set_lft new)
  | R _ _ p :: _ => put s p (set_rgt new)
  end.

Lemma set_hole_ok s k hole new : ctxr (nd s) (top s) k hole -> (forall i, (cnt (lefts k) i + cnt (rights k) i <= 1)%nat) ->
  exists s', set_hole k new s = Some s' /\ ctxr (nd s') (top s') k new /\
             (forall i, (cnt (lefts k) i + cnt (rights k) i = 0)%nat -> nd s' i = nd s i).
Proof.
  intros C U. destruct k as [|[c p r|c l p] k]; cbn [set_hole].
  - eexists. split; [reflexivity|]. split; [reflexivity|auto].
  - cbn [ctxr] in C. destruct C as (P0 & HP & Tr & Ck). rewrite put_nz by auto. eexists. split; [reflexivity|].
    cbn [nd top ctxr]. split.
    + split; [auto|]. split; [upds; rewrite HP; auto|]. cbn [lefts rights] in U.
      split; [eapply tr_frame; [eassumption|]|eapply ctx_frame; [eassumption|]]; intros i Hi; apply upd_other; intros ->; sep U p.
    + intros i Hi. apply upd_other. intros ->. cbn [lefts rights] in Hi. cn. lia.
  - cbn [ctxr] in C. destruct C as (P0 & HP & Tr & Ck). rewrite put_nz by auto. eexists. split; [reflexivity|].
    cbn [nd top ctxr]. split.
    + split; [auto|]. split; [upds; rewrite HP; auto|]. cbn [lefts rights] in U.
      split; [eapply tr_frame; [eassumption|]|eapply ctx_frame; [eassumption|]]; intros i Hi; apply upd_other; intros ->; sep U p.
    + intros i Hi. apply upd_other. intros ->. cbn [lefts rights] in Hi. cn. lia.
Qed.

Lemma replace_child_hole s k hole new : ctxr (nd s) (top s) k hole -> hole <> 0 ->
  (forall i, (cnt (lefts k) i + one hole i + cnt (rights k) i <= 1)%nat) ->
  replace_child (ppar k) hole new s = set_hole k new s.
Proof.
  intros C H0 U. unfold replace_child. destruct k as [|[c p r|c l p] k]; cbn [ppar set_hole]; auto;
    pose proof (ctx_side _ _ _ _ C H0 ltac:(discriminate) U) as SD; cbn [ctxr ppar] in *;
    destruct C as (P0 & HP & _); destruct (Z.eqb_spec p 0); try congruence; rewrite get_nz by auto; rewrite HP in *; cbn [lft rgt] in *.
  - rewrite Z.eqb_refl. auto.
  - destruct (Z.eqb_spec (rootp l) hole); auto. destruct SD as [[? ?]|[? ?]]; congruence.
Qed.

(** ** Insertion at a leaf *)

Definition link_at (k : list frame) : link := match k with [] => LTop | L _ _ _ :: _ => LLeft | R _ _ _ :: _ => LRight end.

Lemma link_node_ok s k x : rep s k E -> x <> 0 -> (cnt (lefts k) x + cnt (rights k) x = 0)%nat ->
  exists s', link_node x (ppar k) (link_at k) s = Some s' /\ rep s' k (N false E x E).
Proof.
  intros (_ & C & U) X0 NI. unfold link_node. rewrite put_nz by auto. cbn [nd top].
  set (s1 := mkS _ _). assert (C1 : ctxr (nd s1) (top s1) k (rootp E)).
  { eapply ctx_frame; [exact C|]. intros i Hi. apply upd_other. intros ->. lia. }
  destruct (set_hole_ok s1 k _ x C1) as (s' & E1 & C' & F).
  { intros i. specialize (U i). lia. }
  exists s'. split.
  - destruct k as [|[c p r|c l p] k]; cbn [link_at set_hole ppar] in *; auto.
  - split; [|split].
    + cbn [tr rootp]. split; auto. split; auto. rewrite F by auto. apply upd_same.
    + exact C'.
    + intros i. specialize (U i). cn. unfold one. destruct (Z.eq_dec x i); [subst|]; lia.
Qed.

Lemma insert_ok fuel s k x : rep s k E -> balanced (plug k E) -> x <> 0 -> ~ In x (inorder (plug k E)) -> (length k < fuel)%nat ->
  exists s1 s' t', link_node x (ppar k) (link_at k) s = Some s1 /\ insert_color fuel x s1 = Some s' /\
    rep s' [] t' /\ inorder t' = inorder (plug k (N false E x E)) /\ balanced t'.
Proof.
  intros H B X0 NI F. rewrite inorder_plug, cnt_In in NI. cn.
  destruct (link_node_ok s k x H X0 ltac:(lia)) as (s1 & E1 & R1).
  destruct (crb_of _ _ B) as (n & mb & C & T & M). inversion T; subst.
  destruct (insert_color_ok fuel _ _ _ _ _ O mb R1) as (s' & t' & E2 & R2 & I2 & B2); auto.
  { apply rb_R; auto; exact I. }
  eauto 10.
Qed.

(** ** Unlinking *)

Lemma splice s k c l x r ch : rep s k (N c l x r) -> (l = E /\ ch = r \/ r = E /\ ch = l) ->
  exists s1 s2, (if rootp ch =? 0 then Some s else put s (rootp ch) (set_par (ppar k))) = Some s1 /\
    replace_child (ppar k) x (rootp ch) s1 = Some s2 /\ set_hole k (rootp ch) s1 = Some s2 /\ rep s2 k ch.
Proof.
  intros (T & C & U) CH. cbn [tr rootp] in *. destruct T as (X0 & HX & Tl & Tr).
  assert (Tc : tr (nd s) x ch) by (destruct CH as [[_ ->]|[_ ->]]; auto).
  assert (Uc : forall i, (cnt (lefts k) i + one x i + cnt (inorder ch) i + cnt (rights k) i <= 1)%nat).
  { intros i. specialize (U i). destruct CH as [[-> ->]|[-> ->]]; cn; lia. }
  assert (Uk : forall i, (cnt (lefts k) i + one x i + cnt (rights k) i <= 1)%nat) by (intros i; specialize (Uc i); lia).
  clear U CH HX Tl Tr.
  assert (S1 : exists s1, (if rootp ch =? 0 then Some s else put s (rootp ch) (set_par (ppar k))) = Some s1 /\ top s1 = top s /\
     (forall i, (i <> rootp ch \/ ch = E) -> nd s1 i = nd s i) /\ (ch <> E -> nd s1 (rootp ch) = set_par (ppar k) (nd s (rootp ch)))).
  { destruct (E_or ch) as [->|NE]; cbn [rootp].
    - exists s. repeat split; auto. congruence.
    - pose proof (root_nz _ _ _ Tc NE). destruct (Z.eqb_spec (rootp ch) 0); [congruence|]. rewrite put_nz by auto.
      eexists. split; [reflexivity|]. cbn [nd top]. split; [auto|]. split; [|intros; upds; auto]. intros i [|]; [upds; auto|congruence]. }
  destruct S1 as (s1 & E1 & T1 & F1 & G1).
  assert (C1 : ctxr (nd s1) (top s1) k x).
  { rewrite T1. eapply ctx_frame; [exact C|]. intros i Hi. apply F1. destruct (E_or ch) as [->|NE]; auto. left. intros ->.
    pose proof (cnt_root ch NE). specialize (Uc (rootp ch)). lia. }
  destruct (set_hole_ok s1 k x (rootp ch) C1) as (s2 & E2 & C2 & F2); [intros i; specialize (Uk i); lia|].
  exists s1, s2. split; auto. rewrite (replace_child_hole s1 k x (rootp ch)) by auto. split; auto. split; auto.
  split; [|split; auto].
  - apply (tr_reparent (nd s) _ x); auto.
    + intros i Hi NR. rewrite F2 by (specialize (Uc i); lia). apply F1. auto.
    + intros NE. pose proof (cnt_root ch NE). rewrite F2 by (specialize (Uc (rootp ch)); lia). apply G1. auto.
    + intros i. specialize (Uc i). lia.
  - intros i. specialize (Uc i). lia.
Qed.

Lemma takeover_ok s k c l x r y : rep s k (N c l x r) -> l <> E -> y <> 0 ->
  (cnt (lefts k) y + cnt (inorder (N c l x r)) y + cnt (rights k) y = 0)%nat ->
  exists s', takeover x y s = Some s' /\ rep s' k (N c l y r).
Proof.
  intros (T & C & U) NL Y0 NY. cbn [tr rootp] in *. destruct T as (X0 & HX & Tl & Tr). unfold takeover.
  rewrite (get_nz s x), HX by auto. cbn [par blk lft rgt]. rewrite put_nz by auto. cbn [nd top].
  rewrite put_nz by auto. cbn [nd top]. rewrite put_nz by auto. cbn [nd top].
  set (h := upd _ y _). assert (Hy : h y = mkN (ppar k) c (rootp l) (rootp r)) by (unfold h; upds; reflexivity).
  assert (Ho : forall i, i <> y -> h i = nd s i) by (intros; unfold h; upds; reflexivity). clearbody h.
  assert (Uk : forall i, (cnt (lefts k) i + one x i + cnt (rights k) i <= 1)%nat).
  { intros i. specialize (U i). cn. lia. }
  assert (C1 : ctxr h (top s) k x).
  { eapply ctx_frame; [exact C|]. intros i Hi. apply Ho. intros ->. lia. }
  rewrite (replace_child_hole (mkS h (top s)) k x y) by auto.
  destruct (set_hole_ok (mkS h (top s)) k x y C1) as (s2 & -> & C2 & F2); [intros i; specialize (Uk i); lia|]. cbn [nd] in F2.
  pose proof (cnt_root l NL) as CL. pose proof (root_nz _ _ _ Tl NL) as L0.
  rewrite put_nz by auto.
  assert (LY : rootp l <> y) by (intros E0; rewrite E0 in *; cn; lia).
  assert (S3 : exists s3, (if rootp r =? 0 then Some (mkS (upd (nd s2) (rootp l) (set_par y (nd s2 (rootp l)))) (top s2))
        else put (mkS (upd (nd s2) (rootp l) (set_par y (nd s2 (rootp l)))) (top s2)) (rootp r) (set_par y)) = Some s3 /\ top s3 = top s2 /\ (forall i, i <> rootp l -> (i <> rootp r \/ r = E) -> nd s3 i = nd s2 i) /\ nd s3 (rootp l) = set_par y (nd s2 (rootp l)) /\ (r <> E -> nd s3 (rootp r) = set_par y (nd s2 (rootp r)))).
  { destruct (E_or r) as [->|NR]; cbn [rootp].
    - eexists. split; [reflexivity|]. cbn [nd top]. split; [auto|]. split; [intros; upds; auto|]. split; [upds; auto|congruence].
    - pose proof (root_nz _ _ _ Tr NR). pose proof (cnt_root r NR). destruct (Z.eqb_spec (rootp r) 0); [congruence|].
      assert (rootp l <> rootp r) by (intros E0; rewrite E0 in *; sep U (rootp r)).
      rewrite put_nz by auto. eexists. split; [reflexivity|]. cbn [nd top]. split; [auto|].
      split; [intros i Hi [|]; [upds; auto|congruence]|]. split; [upds; auto|]. intros _. upds. auto. }
  destruct S3 as (s3 & -> & T3 & F3 & GL & GR). eexists. split; [reflexivity|].
  assert (RY : r <> E -> rootp r <> y) by (intros NR E0; pose proof (cnt_root r NR); rewrite E0 in *; cn; lia).
  assert (F23 : forall i, i <> y -> (cnt (lefts k) i + cnt (rights k) i = 0)%nat -> nd s2 i = nd s i).
  { intros i H1 H2. rewrite F2 by auto. apply Ho. auto. }
  split; [|split].
  - cbn [tr]. split; auto. split; [|split].
    + rewrite F3; auto.
      * rewrite F2 by (cn; lia). auto.
      * destruct (E_or r) as [|NR]; auto. left. intros E0. apply (RY NR). auto.
    + apply (tr_reparent (nd s) _ x); auto.
      * intros i Hi NR. rewrite F3; auto.
        -- apply F23; [intros ->; cn; lia|specialize (U i); cn; lia].
        -- destruct (E_or r) as [|NRr]; auto. left. intros ->. pose proof (cnt_root r NRr). specialize (U (rootp r)). cn. lia.
      * intros _. rewrite GL. rewrite F23; auto. specialize (U (rootp l)). cn. lia.
      * intros i. specialize (U i). cn. lia.
    + apply (tr_reparent (nd s) _ x); auto.
      * intros i Hi NR. rewrite F3; auto.
        -- apply F23; [intros ->; cn; lia|specialize (U i); cn; lia].
        -- intros ->. specialize (U (rootp l)). cn. lia.
      * intros NR. rewrite GR by auto. pose proof (cnt_root r NR). rewrite F23; auto. specialize (U (rootp r)). cn. lia.
      * intros i. specialize (U i). cn. lia.
  - rewrite T3. cbn [rootp]. eapply ctx_frame; [exact C2|]. intros i Hi. apply F3.
    + intros ->. specialize (U (rootp l)). cn. lia.
    + destruct (E_or r) as [|NR]; auto. left. intros ->. pose proof (cnt_root r NR). specialize (U (rootp r)). cn. lia.
  - intros i. specialize (U i). cn. unfold one in *. destruct (Z.eq_dec y i); [subst|]; destruct (Z.eq_dec x i); try lia; subst; lia.
Qed.

(** ** Erasing: colours *)

(** A subtree that lacks one black node: it is either a red node over two balanced trees, or a balanced tree. *)
Definition dbl (t : tree) (n : nat) : Prop := match t with N false l _ r => rbt l n /\ rbt r n | _ => rbt t n end.

(** The part of the loop after the sibling is known to be black, L side. *)
Definition black_L (fuel : nat) (other parent : Z) (s : rbs) : option rbs :=
  do o <- get s other;
  do lb <- is_blk s (lft o);
  do rb <- is_blk s (rgt o);
  if lb && rb then
    do s <- put s other (set_blk false);
    do p <- get s parent;
    erase_color fuel parent (par p) s
  else
    do so <- (if rb
              then do s <- (if lft o =? 0 then Some s else put s (lft o) (set_blk true));
                   do s <- put s other (set_blk false);
                   do s <- rotate_right other s;
                   do p <- get s parent; Some (s, rgt p)
              else Some (s, other));
    let '(s, other) := so in
    do p <- get s parent;
    do s <- put s other (set_blk (blk p));
    do s <- put s parent (set_blk true);
    do o <- get s other;
    do s <- (if rgt o =? 0 then Some s else put s (rgt o) (set_blk true));
    do s <- rotate_left parent s;
    blacken (top s) s.

(** The last rotation: the sibling's far child is red. *)
Lemma last_L s c p a o u v w k t n :
  rep s (L c p (N true a o (N false u v w)) :: k) t ->
  (c = true -> exists b, crb k (S (S n)) b) -> (c = false -> crb k (S n) false) ->
  rbt t n -> rbt a n -> rbt u n -> rbt w n ->
  exists s' t',
    (do p' <- get s p;
     do s <- put s o (set_blk (blk p'));
     do s <- put s p (set_blk true);
     do o' <- get s o;
     do s <- (if rgt o' =? 0 then Some s else put s (rgt o') (set_blk true));
     do s <- rotate_left p s;
     blacken (top s) s) = Some s' /\
    rep s' [] t' /\ inorder t' = inorder (plug (L c p (N true a o (N false u v w)) :: k) t) /\ balanced t'.
Proof.
  intros H K1 K0 Tt Ta Tu Tw. destruct (rep_parL _ _ _ _ _ _ H) as [P0 HP]. rewrite (get_nz s p), HP by exact P0. cbn [blk].
  apply upL in H. apply dnR in H. destruct (put_col _ _ _ _ _ _ c H) as (s1 & -> & H1).
  apply upR in H1. destruct (put_col _ _ _ _ _ _ true H1) as (s2 & -> & H2).
  apply dnR in H2. destruct (rep_node _ _ _ _ _ _ H2) as [O0 HO]. rewrite (get_nz s2 o), HO by exact O0. cbn [lft rgt rootp].
  apply dnR in H2. destruct (rep_node _ _ _ _ _ _ H2) as [V0 HV]. destruct (Z.eqb_spec v 0); [congruence|].
  destruct (put_col _ _ _ _ _ _ true H2) as (s3 & -> & H3). apply upR in H3. apply upR in H3.
  destruct (rotate_left_ok _ _ _ _ _ _ _ _ _ H3) as (s4 & -> & H4).
  assert (B : balanced (plug k (N c (N true t p a) o (N true u v w)))).
  { destruct c.
    - destruct (K1 eq_refl) as [b C]. apply (crb_plug _ _ _ C); [repeat (apply rb_B; auto)|exact (fun _ => I)].
    - apply (crb_plug _ _ _ (K0 eq_refl)); [|discriminate]. apply rb_R; try exact I; apply rb_B; auto. }
  apply rep_plug in H4. destruct (blacken_root s4 _ H4) as (s' & E1 & R'); [|apply B|].
  { intros E0. apply plug_E in E0. discriminate. }
  exists s'. eexists. unfold blacken. destruct (Z.eqb_spec (top s4) 0) as [E0|_].
  { unfold put in E1. rewrite E0 in E1. discriminate. }
  split; [exact E1|]. split; [exact R'|]. split; [|exact B].
  rewrite !inorder_plug. cbn [lefts rights inorder plug]; apps.
Qed.

Lemma black_L_ok fuel s c p a o b k t n :
  (forall k s t n mb, rep s k t -> dbl t n -> crb k (S n) mb -> ((if blackb t then length k else 0) < fuel)%nat ->
     exists s' t', erase_color fuel (rootp t) (ppar k) s = Some s' /\ rep s' [] t' /\ inorder t' = inorder (plug k t) /\ balanced t') ->
  rep s (L c p (N true a o b) :: k) t ->
  (c = true -> exists mb, crb k (S (S n)) mb) -> (c = false -> crb k (S n) false) ->
  rbt t n -> rbt a n -> rbt b n -> ((if c then length k else 0) < fuel)%nat ->
  exists s' t', black_L fuel o p s = Some s' /\ rep s' [] t' /\
    inorder t' = inorder (plug (L c p (N true a o b) :: k) t) /\ balanced t'.
Proof.
  intros IH H K1 K0 Tt Ta Tb F. unfold black_L. apply upL in H. apply dnR in H.
  destruct (rep_node _ _ _ _ _ _ H) as [O0 HO]. rewrite (get_nz s o), HO by exact O0. cbn [lft rgt].
  pose proof (is_blk_ok _ _ _ (dnL _ _ _ _ _ _ H)) as Ba. pose proof (is_blk_ok _ _ _ (dnR _ _ _ _ _ _ H)) as Bb.
  rewrite Ba, Bb. destruct (blackb b) eqn:B1; [destruct (blackb a) eqn:A1|]; cbn [andb].
  - destruct (put_col _ _ _ _ _ _ false H) as (s1 & -> & H1). apply upR in H1.
    destruct (rep_node _ _ _ _ _ _ H1) as [P0 HP]. rewrite (get_nz s1 p), HP by exact P0. cbn [par].
    assert (T2 : rbt (N false a o b) n) by (apply rb_R; try apply blackish_b; auto).
    destruct c.
    + destruct (K1 eq_refl) as [mb C]. destruct (IH _ _ _ (S n) mb H1) as (s' & t' & E1 & E2 & E3 & E4); auto.
      { cbn [dbl]. apply rb_B; auto. }
      exists s', t'. split; [exact E1|]. split; [exact E2|]. split; [|exact E4]. rewrite E3. rewrite !inorder_plug. cbn [lefts rights inorder plug]; apps.
    + destruct (IH _ _ _ n false H1) as (s' & t' & E1 & E2 & E3 & E4); auto.
      { cbn [dbl]. auto. }
      exists s', t'. split; [exact E1|]. split; [exact E2|]. split; [|exact E4]. rewrite E3. rewrite !inorder_plug. cbn [lefts rights inorder plug]; apps.
  - destruct a as [|[] u' v' w']; try discriminate.
    cbn [rootp]; apply dnL in H; destruct (rep_node _ _ _ _ _ _ H) as [V0 HV]; destruct (Z.eqb_spec v' 0); [congruence|];
      destruct (put_col _ _ _ _ _ _ true H) as (s1 & -> & H1); apply upL in H1;
      destruct (put_col _ _ _ _ _ _ false H1) as (s2 & -> & H2);
      destruct (rotate_right_ok _ _ _ _ _ _ _ _ _ H2) as (s3 & -> & H3); apply upR in H3;
      destruct (rep_node _ _ _ _ _ _ H3) as [P0 HP]; rewrite (get_nz s3 p), HP by exact P0; cbn [lft rgt rootp];
      apply dnL in H3; inversion Ta; subst;
      (edestruct last_L as (s' & t' & E1 & E2 & E3 & E4); [exact H3|exact K1|exact K0|exact Tt| | | |]; eauto);
      exists s', t'; (split; [exact E1|]; split; [exact E2|]; split; [|exact E4]); rewrite E3; rewrite !inorder_plug; cbn [lefts rights inorder plug]; apps.
  - replace (blackb a && false) with false by (destruct (blackb a); auto).
    destruct b as [|[] u v w]; try discriminate.
    apply upR in H. apply dnL in H. inversion Tb; subst. eapply last_L; eauto.
Qed.

(** The part of the loop after the sibling is known to be black, R side. *)
Definition black_R (fuel : nat) (other parent : Z) (s : rbs) : option rbs :=
  do o <- get s other;
  do lb <- is_blk s (lft o);
  do rb <- is_blk s (rgt o);
  if lb && rb then
    do s <- put s other (set_blk false);
    do p <- get s parent;
    erase_color fuel parent (par p) s
  else
    do so <- (if lb
              then do s <- (if rgt o =? 0 then Some s else put s (rgt o) (set_blk true));
                   do s <- put s other (set_blk false);
                   do s <- rotate_left other s;
                   do p <- get s parent; Some (s, lft p)
              else Some (s, other));
    let '(s, other) := so in
    do p <- get s parent;
    do s <- put s other (set_blk (blk p));
    do s <- put s parent (set_blk true);
    do o <- get s other;
    do s <- (if lft o =? 0 then Some s else put s (lft o) (set_blk true));
    do s <- rotate_right parent s;
    blacken (top s) s.

(** The last rotation: the sibling's far child is red. *)
Lemma last_R s c p a o u v w k t n :
  rep s (R c (N true (N false u v w) o a) p :: k) t ->
  (c = true -> exists b, crb k (S (S n)) b) -> (c = false -> crb k (S n) false) ->
  rbt t n -> rbt a n -> rbt u n -> rbt w n ->
  exists s' t',
    (do p' <- get s p;
     do s <- put s o (set_blk (blk p'));
     do s <- put s p (set_blk true);
     do o' <- get s o;
     do s <- (if lft o' =? 0 then Some s else put s (lft o') (set_blk true));
     do s <- rotate_right p s;
     blacken (top s) s) = Some s' /\
    rep s' [] t' /\ inorder t' = inorder (plug (R c (N true (N false u v w) o a) p :: k) t) /\ balanced t'.
Proof.
  intros H K1 K0 Tt Ta Tu Tw. destruct (rep_parR _ _ _ _ _ _ H) as [P0 HP]. rewrite (get_nz s p), HP by exact P0. cbn [blk].
  apply upR in H. apply dnL in H. destruct (put_col _ _ _ _ _ _ c H) as (s1 & -> & H1).
  apply upL in H1. destruct (put_col _ _ _ _ _ _ true H1) as (s2 & -> & H2).
  apply dnL in H2. destruct (rep_node _ _ _ _ _ _ H2) as [O0 HO]. rewrite (get_nz s2 o), HO by exact O0. cbn [lft rgt rootp].
  apply dnL in H2. destruct (rep_node _ _ _ _ _ _ H2) as [V0 HV]. destruct (Z.eqb_spec v 0); [congruence|].
  destruct (put_col _ _ _ _ _ _ true H2) as (s3 & -> & H3). apply upL in H3. apply upL in H3.
  destruct (rotate_right_ok _ _ _ _ _ _ _ _ _ H3) as (s4 & -> & H4).
  assert (B : balanced (plug k (N c (N true u v w) o (N true a p t)))).
  { destruct c.
    - destruct (K1 eq_refl) as [b C]. apply (crb_plug _ _ _ C); [repeat (apply rb_B; auto)|exact (fun _ => I)].
    - apply (crb_plug _ _ _ (K0 eq_refl)); [|discriminate]. apply rb_R; try exact I; apply rb_B; auto. }
  apply rep_plug in H4. destruct (blacken_root s4 _ H4) as (s' & E1 & R'); [|apply B|].
  { intros E0. apply plug_E in E0. discriminate. }
  exists s'. eexists. unfold blacken. destruct (Z.eqb_spec (top s4) 0) as [E0|_].
  { unfold put in E1. rewrite E0 in E1. discriminate. }
  split; [exact E1|]. split; [exact R'|]. split; [|exact B].
  rewrite !inorder_plug. cbn [lefts rights inorder plug]; apps.
Qed.

Lemma black_R_ok fuel s c p a o b k t n :
  (forall k s t n mb, rep s k t -> dbl t n -> crb k (S n) mb -> ((if blackb t then length k else 0) < fuel)%nat ->
     exists s' t', erase_color fuel (rootp t) (ppar k) s = Some s' /\ rep s' [] t' /\ inorder t' = inorder (plug k t) /\ balanced t') ->
  rep s (R c (N true b o a) p :: k) t ->
  (c = true -> exists mb, crb k (S (S n)) mb) -> (c = false -> crb k (S n) false) ->
  rbt t n -> rbt a n -> rbt b n -> ((if c then length k else 0) < fuel)%nat ->
  exists s' t', black_R fuel o p s = Some s' /\ rep s' [] t' /\
    inorder t' = inorder (plug (R c (N true b o a) p :: k) t) /\ balanced t'.
Proof.
  intros IH H K1 K0 Tt Ta Tb F. unfold black_R. apply upR in H. apply dnL in H.
  destruct (rep_node _ _ _ _ _ _ H) as [O0 HO]. rewrite (get_nz s o), HO by exact O0. cbn [lft rgt].
  pose proof (is_blk_ok _ _ _ (dnR _ _ _ _ _ _ H)) as Ba. pose proof (is_blk_ok _ _ _ (dnL _ _ _ _ _ _ H)) as Bb.
  rewrite Ba, Bb. destruct (blackb b) eqn:B1; [destruct (blackb a) eqn:A1|]; cbn [andb].
  - destruct (put_col _ _ _ _ _ _ false H) as (s1 & -> & H1). apply upL in H1.
    destruct (rep_node _ _ _ _ _ _ H1) as [P0 HP]. rewrite (get_nz s1 p), HP by exact P0. cbn [par].
    assert (T2 : rbt (N false b o a) n) by (apply rb_R; try apply blackish_b; auto).
    destruct c.
    + destruct (K1 eq_refl) as [mb C]. destruct (IH _ _ _ (S n) mb H1) as (s' & t' & E1 & E2 & E3 & E4); auto.
      { cbn [dbl]. apply rb_B; auto. }
      exists s', t'. split; [exact E1|]. split; [exact E2|]. split; [|exact E4]. rewrite E3. rewrite !inorder_plug. cbn [lefts rights inorder plug]; apps.
    + destruct (IH _ _ _ n false H1) as (s' & t' & E1 & E2 & E3 & E4); auto.
      { cbn [dbl]. auto. }
      exists s', t'. split; [exact E1|]. split; [exact E2|]. split; [|exact E4]. rewrite E3. rewrite !inorder_plug. cbn [lefts rights inorder plug]; apps.
  - destruct a as [|[] u' v' w']; try discriminate.
    cbn [rootp]; apply dnR in H; destruct (rep_node _ _ _ _ _ _ H) as [V0 HV]; destruct (Z.eqb_spec v' 0); [congruence|];
      destruct (put_col _ _ _ _ _ _ true H) as (s1 & -> & H1); apply upR in H1;
      destruct (put_col _ _ _ _ _ _ false H1) as (s2 & -> & H2);
      destruct (rotate_left_ok _ _ _ _ _ _ _ _ _ H2) as (s3 & -> & H3); apply upL in H3;
      destruct (rep_node _ _ _ _ _ _ H3) as [P0 HP]; rewrite (get_nz s3 p), HP by exact P0; cbn [lft rgt rootp];
      apply dnR in H3; inversion Ta; subst;
      (edestruct last_R as (s' & t' & E1 & E2 & E3 & E4); [exact H3|exact K1|exact K0|exact Tt| | | |]; eauto);
      exists s', t'; (split; [exact E1|]; split; [exact E2|]; split; [|exact E4]); rewrite E3; rewrite !inorder_plug; cbn [lefts rights inorder plug]; apps.
  - replace (blackb a && false) with false by (destruct (blackb a); auto).
    destruct b as [|[] u v w]; try discriminate.
    apply upL in H. apply dnR in H. inversion Tb; subst. eapply last_R; eauto.
Qed.

Lemma rbt_S t n : rbt t (S n) -> blackish t -> exists l x r, t = N true l x r /\ rbt l n /\ rbt r n.
Proof. intros T B. inversion T; subst; [destruct B|]. eauto 10. Qed.

Lemma top_ne s fr k t : rep s (fr :: k) t -> rootp t <> top s.
Proof.
  intros H. pose proof H as (T & C & U). apply rep_plug in H. destruct H as (T' & C' & U'). cbn [ctxr] in C'.
  assert (NE : plug (fr :: k) t <> E). { destruct fr; cbn [plug]; intros E0; apply plug_E in E0; discriminate. }
  pose proof (root_nz _ _ _ T' NE) as R0. rewrite C'. destruct (E_or t) as [->|NT]; [cbn [rootp]; congruence|].
  pose proof (cnt_root t NT). intros E0. clear T' C' U' NE R0 T.
  assert (G : forall k t', (0 < cnt (lefts k) (rootp (plug k t')) + cnt (rights k) (rootp (plug k t')) \/ rootp (plug k t') = rootp t')%nat).
  { clear. induction k as [|[c x r|c l x] k IH]; intros t'; cbn [plug lefts rights]; auto.
    - destruct (IH (N c t' x r)) as [H|H]; left; [cn; lia|]. rewrite H. cbn [rootp]. cn. lia.
    - destruct (IH (N c l x t')) as [H|H]; left; [cn; lia|]. rewrite H. cbn [rootp]. cn. lia. }
  assert (0 < cnt (lefts (fr :: k)) (rootp t) + cnt (rights (fr :: k)) (rootp t))%nat.
  { rewrite E0. destruct fr as [c x r|c l x]; cbn [plug lefts rights]; [destruct (G k (N c t x r)) as [H1|H1]|destruct (G k (N c l x t)) as [H1|H1]]; try (cn; lia); rewrite H1; cbn [rootp]; cn; lia. }
  specialize (U (rootp t)). lia.
Qed.

Lemma blacken_node s k c l x r n mb : rep s k (N c l x r) -> rbt l n -> rbt r n -> crb k (S n) mb ->
  exists s' t', blacken x s = Some s' /\ rep s' [] t' /\ inorder t' = inorder (plug k (N c l x r)) /\ balanced t'.
Proof.
  intros H Tl Tr C. destruct (rep_node _ _ _ _ _ _ H) as [X0 HX]. unfold blacken. destruct (Z.eqb_spec x 0); [congruence|].
  destruct (put_col _ _ _ _ _ _ true H) as (s' & -> & H'). exists s', (plug k (N true l x r)). split; [auto|].
  split; [exact (proj1 (rep_plug _ _ _) H')|]. split; [rewrite !inorder_plug; auto|].
  apply (crb_plug _ _ _ C); [apply rb_B; auto|exact (fun _ => I)].
Qed.

Lemma erase_color_ok fuel : forall k s t n mb, rep s k t -> dbl t n -> crb k (S n) mb -> ((if blackb t then length k else 0) < fuel)%nat ->
  exists s' t', erase_color fuel (rootp t) (ppar k) s = Some s' /\ rep s' [] t' /\ inorder t' = inorder (plug k t) /\ balanced t'.
Proof.
  induction fuel as [|f IH]; intros k s t n mb H D C F; [lia|]. cbn [erase_color].
  rewrite (is_blk_ok _ _ _ H). destruct (blackb t) eqn:BT.
  2:{ destruct t as [|[] l x r]; try discriminate. cbn [andb rootp]. destruct D as [Tl Tr]. eapply blacken_node; eauto. }
  assert (Tt : rbt t n) by (destruct t as [|[] l x r]; try discriminate; exact D). cbn [andb].
  destruct k as [|fr k].
  { assert (Ht : top s = rootp t) by (destruct H as (_ & Ct & _); exact Ct). rewrite Ht, Z.eqb_refl. cbn [negb].
    assert (R0 : blacken (rootp t) s = Some s \/ exists s', blacken (rootp t) s = Some s' /\ rep s' [] t).
    { destruct t as [|c l x r]; [left; reflexivity|]. right. destruct c; [|discriminate]. destruct (rep_node _ _ _ _ _ _ H) as [X0 HX].
      unfold blacken. cbn [rootp]. destruct (Z.eqb_spec x 0); [congruence|]. apply (put_col s [] true); auto. }
    assert (B : balanced t) by (split; [apply blackish_b; auto|eauto]).
    destruct R0 as [->|(s' & -> & R')]; eauto 10. }
  pose proof (top_ne _ _ _ _ H) as TN. destruct (Z.eqb_spec (rootp t) (top s)); [congruence|]. cbn [negb].
  destruct fr as [c p sib|c sib p].
  - destruct (rep_parL _ _ _ _ _ _ H) as [P0 HP]. cbn [ppar]. rewrite (get_nz s p), HP by exact P0. cbn [lft rgt].
    assert (Ts : rbt sib (S n) /\ (c = true -> exists b, crb k (S (S n)) b) /\ (c = false -> crb k (S n) false /\ blackish sib)).
    { destruct c; inversion C; subst; (split; [auto|]); split; try discriminate; eauto. }
    destruct Ts as (Ts & K1 & K0).
    assert (NS : sib <> E) by (intros ->; inversion Ts).
    rewrite Z.eqb_refl.
    destruct sib as [|cs sl o sr]; [congruence|]. cbn [rootp]. pose proof H as H'. apply upL in H'. apply dnR in H'.
    destruct (rep_node _ _ _ _ _ _ H') as [O0 HO]. rewrite (get_nz s o), HO by exact O0. cbn [blk]. cbn [length] in F.
    destruct cs; cbn [negb].
    + inversion Ts; subst.
      match goal with |- exists s' t', ?e = _ /\ _ => change e with (black_L f o p s) end.
      eapply black_L_ok; eauto; [intros ->; apply K0; auto|]. destruct c; lia.
    + destruct c; [|destruct (K0 eq_refl) as [_ []]]. destruct (K1 eq_refl) as [b Ck]. inversion Ts; subst.
      destruct (put_col _ _ _ _ _ _ true H') as (s1 & -> & J1). apply upR in J1.
      destruct (put_col _ _ _ _ _ _ false J1) as (s2 & -> & J2).
      destruct (rotate_left_ok _ _ _ _ _ _ _ _ _ J2) as (s3 & -> & J3). apply dnL in J3.
      destruct (rep_node _ _ _ _ _ _ J3) as [_ HP3]. rewrite (get_nz s3 p), HP3 by exact P0. cbn [lft rgt].
      destruct (rbt_S sl n) as (xl & x & xr & -> & Txl & Txr); auto. cbn [rootp].
      match goal with |- exists s' t', ?e = _ /\ _ => change e with (black_L f x p s3) end.
      apply dnL in J3.
      destruct (black_L_ok f s3 false p xl x xr _ t n IH J3) as (s' & t' & E1 & E2 & E3 & E4); auto; try discriminate; try lia.
      { intros _. econstructor; eauto. }
      exists s', t'. split; [exact E1|]. split; [exact E2|]. split; [|exact E4]. rewrite E3. rewrite !inorder_plug. cbn [lefts rights inorder plug]; apps.
  - destruct (rep_parR _ _ _ _ _ _ H) as [P0 HP]. cbn [ppar]. rewrite (get_nz s p), HP by exact P0. cbn [lft rgt].
    assert (Ts : rbt sib (S n) /\ (c = true -> exists b, crb k (S (S n)) b) /\ (c = false -> crb k (S n) false /\ blackish sib)).
    { destruct c; inversion C; subst; (split; [auto|]); split; try discriminate; eauto. }
    destruct Ts as (Ts & K1 & K0).
    assert (NS : sib <> E) by (intros ->; inversion Ts).
    destruct (Z.eqb_spec (rootp sib) (rootp t)) as [E0|_]; [exfalso; apply (sib_ne _ _ _ _ _ _ (upR _ _ _ _ _ _ H)); auto|].
    destruct sib as [|cs sl o sr]; [congruence|]. cbn [rootp]. pose proof H as H'. apply upR in H'. apply dnL in H'.
    destruct (rep_node _ _ _ _ _ _ H') as [O0 HO]. rewrite (get_nz s o), HO by exact O0. cbn [blk]. cbn [length] in F.
    destruct cs; cbn [negb].
    + inversion Ts; subst.
      match goal with |- exists s' t', ?e = _ /\ _ => change e with (black_R f o p s) end.
      eapply black_R_ok; eauto; [intros ->; apply K0; auto|]. destruct c; lia.
    + destruct c; [|destruct (K0 eq_refl) as [_ []]]. destruct (K1 eq_refl) as [b Ck]. inversion Ts; subst.
      destruct (put_col _ _ _ _ _ _ true H') as (s1 & -> & J1). apply upL in J1.
      destruct (put_col _ _ _ _ _ _ false J1) as (s2 & -> & J2).
      destruct (rotate_right_ok _ _ _ _ _ _ _ _ _ J2) as (s3 & -> & J3). apply dnR in J3.
      destruct (rep_node _ _ _ _ _ _ J3) as [_ HP3]. rewrite (get_nz s3 p), HP3 by exact P0. cbn [lft rgt].
      destruct (rbt_S sr n) as (xl & x & xr & -> & Txl & Txr); auto. cbn [rootp].
      match goal with |- exists s' t', ?e = _ /\ _ => change e with (black_R f x p s3) end.
      apply dnR in J3.
      destruct (black_R_ok f s3 false p xr x xl _ t n IH J3) as (s' & t' & E1 & E2 & E3 & E4); auto; try discriminate; try lia.
      { intros _. econstructor; eauto. }
      exists s', t'. split; [exact E1|]. split; [exact E2|]. split; [|exact E4]. rewrite E3. rewrite !inorder_plug. cbn [lefts rights inorder plug]; apps.
Qed.

(** ** Walking *)

Definition isL (f : frame) : Prop := match f with L _ _ _ => True | R _ _ _ => False end.
Lemma isL_lefts k : Forall isL k -> lefts k = [].
Proof. induction 1 as [|[c x r|c l x] k Hf _ IH]; auto. destruct Hf. Qed.

Lemma leftmost_ok fuel : forall s k t, rep s k t -> t <> E -> (height t <= fuel)%nat ->
  exists k1 c y r, leftmost fuel (rootp t) s = Some y /\ Forall isL k1 /\ t = plug k1 (N c E y r).
Proof.
  induction fuel as [|f IH]; intros s k t H NE F; destruct t as [|c l x r]; try congruence; cbn [height] in F; [lia|].
  cbn [leftmost rootp]. destruct (rep_node _ _ _ _ _ _ H) as [X0 HX]. rewrite (get_nz s x), HX by auto. cbn [lft].
  destruct (E_or l) as [->|NL].
  - cbn [rootp Z.eqb]. exists [], c, x, r. auto.
  - apply dnL in H. destruct (Z.eqb_spec (rootp l) 0) as [E0|_].
    { destruct H as (Tl & _). destruct (root_nz _ _ _ Tl NL E0). }
    destruct (IH s _ l H NL ltac:(lia)) as (k1 & c1 & y & r1 & E1 & F1 & ->).
    exists (k1 ++ [L c x r]), c1, y, r1. split; [auto|]. split; [apply Forall_app; split; auto; repeat constructor|].
    rewrite plug_app. auto.
Qed.

Lemma first_ok fuel s t : rep s [] t -> (height t <= fuel)%nat -> rb_first fuel s = Some (hd 0 (inorder t)).
Proof.
  intros H F. unfold rb_first. assert (Ht : top s = rootp t) by (destruct H as (_ & C & _); exact C). rewrite Ht.
  destruct (E_or t) as [->|NE]; auto. pose proof H as (T & _). pose proof (root_nz _ _ _ T NE).
  destruct (Z.eqb_spec (rootp t) 0); [congruence|]. destruct (leftmost_ok fuel s [] t H NE F) as (k1 & c & y & r & -> & FL & ->).
  rewrite inorder_plug, (isL_lefts k1 FL). auto.
Qed.

(** Climbing from a subtree reaches what follows it. *)
Lemma climb_ok fuel : forall s k c l x r, rep s k (N c l x r) -> (length k < fuel)%nat ->
  climb fuel x s = Some (hd 0 (rights k)).
Proof.
  induction fuel as [|f IH]; intros s k c l x r H F; [lia|]. cbn [climb].
  destruct (rep_node _ _ _ _ _ _ H) as [X0 HX]. rewrite (get_nz s x), HX by auto. cbn [par].
  destruct k as [|[c' p r'|c' l' p] k]; cbn [ppar rights hd]; auto.
  - destruct (rep_parL _ _ _ _ _ _ H) as [P0 HP]. destruct (Z.eqb_spec p 0); [congruence|]. rewrite (get_nz s p), HP by auto. cbn [rgt].
    apply upL in H. pose proof (sib_neL _ _ _ _ _ _ _ _ _ H). destruct (Z.eqb_spec x (rootp r')); [congruence|]. auto.
  - destruct (rep_parR _ _ _ _ _ _ H) as [P0 HP]. destruct (Z.eqb_spec p 0); [congruence|]. rewrite (get_nz s p), HP by auto. cbn [rgt rootp].
    rewrite Z.eqb_refl. apply upR in H. cbn [length] in F. apply (IH _ _ _ _ _ _ H). lia.
Qed.

Lemma next_ok fuel s k c l x r : rep s k (N c l x r) -> (height (plug k (N c l x r)) <= fuel)%nat ->
  rb_next fuel x s = Some (hd 0 (inorder r ++ rights k)).
Proof.
  intros H F. pose proof (height_plug k (N c l x r)) as HP. cbn [height] in HP. unfold rb_next.
  destruct (rep_node _ _ _ _ _ _ H) as [X0 HX]. rewrite (get_nz s x), HX by auto. cbn [par rgt].
  destruct (Z.eqb_spec (ppar k) x) as [E0|_].
  { exfalso. destruct H as (_ & C & U). destruct (nil_or k) as [->|NK]; [cbn [ppar] in E0; congruence|].
    pose proof (ppar_cnt k NK). rewrite E0 in *. sep U x. }
  destruct (E_or r) as [->|NR].
  - cbn [rootp Z.eqb negb inorder app]. eapply climb_ok; [eassumption|]. lia.
  - apply dnR in H. destruct (Z.eqb_spec (rootp r) 0) as [E0|_].
    { destruct H as (Tr & _). destruct (root_nz _ _ _ Tr NR E0). }
    cbn [negb]. destruct (leftmost_ok fuel s _ r H NR ltac:(lia)) as (k1 & c1 & y & r1 & -> & FL & ->).
    rewrite inorder_plug, (isL_lefts k1 FL). auto.
Qed.

(** ** Erasing *)

Lemma erase_finish fuel s k ch c l x r n mb : rep s k ch -> (l = E /\ ch = r \/ r = E /\ ch = l) ->
  crb k n mb -> rbt (N c l x r) n -> (mb = true -> blackish (N c l x r)) -> (length k < fuel)%nat ->
  exists s' t', (if c then erase_color fuel (rootp ch) (ppar k) s else Some s) = Some s' /\
    rep s' [] t' /\ inorder t' = inorder (plug k ch) /\ balanced t'.
Proof.
  intros H CH C T M F. destruct c.
  - inversion T as [| |? ? ? m Tl Tr]; subst. assert (Tc : rbt ch m) by (destruct CH as [[_ ->]|[_ ->]]; auto).
    eapply erase_color_ok; [exact H| |exact C|destruct (blackb ch); lia].
    destruct ch as [|[] ? ? ?]; cbn [dbl]; auto. inversion Tc; auto.
  - destruct mb; [destruct (M eq_refl)|]. inversion T; subst.
    exists s, (plug k ch). split; [auto|]. split; [apply rep_plug in H; exact H|]. split; [auto|].
    apply (crb_plug _ _ _ C); [|discriminate]. destruct CH as [[_ ->]|[_ ->]]; auto.
Qed.

Lemma last_frame (k1 : list frame) : Forall isL k1 -> k1 = [] \/ exists c p r k2, k1 = L c p r :: k2.
Proof. destruct 1 as [|[c p r|c l p] k1 Hf _]; [auto| |destruct Hf]. right. eauto 10. Qed.

Lemma erase_ok fuel s k c l x r : rep s k (N c l x r) -> balanced (plug k (N c l x r)) -> (height (plug k (N c l x r)) < fuel)%nat ->
  exists s' t', erase fuel x s = Some s' /\ rep s' [] t' /\ inorder t' = lefts k ++ inorder l ++ inorder r ++ rights k /\ balanced t'.
Proof.
  intros H B F. pose proof (height_plug k (N c l x r)) as HP. cbn [height] in HP. unfold erase.
  destruct (rep_node _ _ _ _ _ _ H) as [X0 HX]. rewrite (get_nz s x), HX by auto. cbn [par blk lft rgt].
  assert (LZ : forall t k', rep s k' t -> (rootp t =? 0) = true <-> t = E).
  { intros t k' (Tt & _). split; [|intros ->; auto]. intros E0. apply Z.eqb_eq in E0. destruct (E_or t) as [|NE]; auto.
    destruct (root_nz _ _ _ Tt NE E0). }
  pose proof (LZ l _ (dnL _ _ _ _ _ _ H)) as Zl. pose proof (LZ r _ (dnR _ _ _ _ _ _ H)) as Zr.
  destruct ((rootp l =? 0) || (rootp r =? 0)) eqn:Z0.
  - set (ch := if rootp l =? 0 then r else l).
    assert (CH : l = E /\ ch = r \/ r = E /\ ch = l).
    { unfold ch. apply orb_prop in Z0. destruct (rootp l =? 0); [left; split; auto; apply Zl; auto|right; split; auto; apply Zr; destruct Z0; congruence]. }
    replace (if rootp l =? 0 then rootp r else rootp l) with (rootp ch) by (unfold ch; destruct (rootp l =? 0); auto).
    destruct (splice _ _ _ _ _ _ ch H CH) as (s1 & s2 & -> & -> & _ & R2).
    destruct (crb_of _ _ B) as (n & mb & C & T & M).
    destruct (erase_finish fuel s2 k ch c l x r n mb R2 CH C T M ltac:(lia)) as (s' & t' & E1 & E2 & E3 & E4).
    exists s', t'. split; [exact E1|]. split; [exact E2|]. split; [|exact E4]. rewrite E3, inorder_plug.
    destruct CH as [[-> ->]|[-> ->]]; cbn [inorder app]; auto.
  - apply orb_false_elim in Z0. destruct Z0 as [Z1 Z2].
    assert (NL : l <> E) by (intros E0; apply Zl in E0; congruence).
    assert (NR : r <> E) by (intros E0; apply Zr in E0; congruence).
    destruct (leftmost_ok fuel s _ r (dnR _ _ _ _ _ _ H) NR ltac:(lia)) as (k1 & cy & y & ry & -> & FL & Er).
    pose proof (isL_lefts k1 FL) as LL.
    pose proof H as HH. apply dnR in H. rewrite Er in H. apply rep_app in H.
    destruct (rep_node _ _ _ _ _ _ H) as [Y0 HY]. rewrite (get_nz s y), HY by auto. cbn [rgt par blk].
    destruct (splice _ _ _ _ _ _ ry H (or_introl (conj eq_refl eq_refl))) as (s1 & s2 & -> & _ & SH & R2).
    assert (UY : (cnt (lefts (k1 ++ R c l x :: k)) y + cnt (rights (k1 ++ R c l x :: k)) y + cnt (inorder ry) y = 0)%nat).
    { destruct H as (_ & _ & U). specialize (U y). cn. lia. }
    assert (XY : x <> y). { intros ->. destruct HH as (_ & _ & U). subst r. specialize (U y). cbn [inorder] in U. rewrite inorder_plug in U. cn. lia. }
    assert (R2' : rep s2 k (N c l x (plug k1 ry))). { apply rep_app in R2. apply upR in R2. exact R2. }
    assert (NY : (cnt (lefts k) y + cnt (inorder (N c l x (plug k1 ry))) y + cnt (rights k) y = 0)%nat).
    { destruct HH as (_ & _ & U). subst r. specialize (U y). cbn [inorder] in *. rewrite inorder_plug in *. cbn [inorder] in *. cn.
      unfold one in *. destruct (Z.eq_dec x y); lia. }
    assert (PS : exists par', (if ppar (k1 ++ R c l x :: k) =? x then do s <- put s1 (ppar (k1 ++ R c l x :: k)) (set_rgt (rootp ry)); Some (y, s)
        else do s <- put s1 (ppar (k1 ++ R c l x :: k)) (set_lft (rootp ry)); Some (ppar (k1 ++ R c l x :: k), s)) = Some (par', s2) /\
        par' = ppar (k1 ++ R c l y :: k)).
    { destruct (last_frame k1 FL) as [->|(cp & p & rp & k2 & ->)]; cbn [app ppar set_hole] in *.
      - rewrite Z.eqb_refl, SH. eauto.
      - destruct (Z.eqb_spec p x) as [->|_].
        { exfalso. destruct HH as (_ & _ & U). subst r. specialize (U x). cbn [inorder plug] in U. rewrite inorder_plug in U. cbn [inorder] in U. cn. lia. }
        rewrite SH. eauto. }
    destruct PS as (par' & -> & ->).
    destruct (takeover_ok _ _ _ _ _ _ y R2' NL Y0 NY) as (s3 & -> & R3).
    apply dnR in R3. apply rep_app in R3.
    assert (B' : balanced (plug (k1 ++ R c l x :: k) (N cy E y ry))). { rewrite plug_app. cbn [plug]. rewrite <- Er. exact B. }
    destruct (crb_of _ _ B') as (n & mb & C & T & M). apply (crb_relabel k1 c l x y k) in C.
    destruct (erase_finish fuel s3 _ ry cy E y ry n mb R3 (or_introl (conj eq_refl eq_refl)) C T M) as (s' & t' & E1 & E2 & E3 & E4).
    { pose proof (height_plug k1 (N cy E y ry)) as HK. rewrite <- Er in HK. cbn [height] in HK. rewrite app_length. cbn [length]. lia. }
    exists s', t'. split; [exact E1|]. split; [exact E2|]. split; [|exact E4]. rewrite E3, Er, plug_app. cbn [plug].
    rewrite !inorder_plug. cbn [inorder]. rewrite !inorder_plug, LL. cbn [app inorder]. apps.
Qed.

(** ** Height *)

Lemma rbt_size t n : rbt t n -> (2 ^ n <= S (length (inorder t)))%nat.
Proof.
  induction 1 as [|l x r n Hl IHl Hr IHr Bl Br|l x r n Hl IHl Hr IHr]; cbn [inorder length]; [auto| |];
    rewrite ?app_length; cbn [length]; rewrite ?Nat.pow_succ_r'; lia.
Qed.
Lemma rbt_height t n : rbt t n -> (height t <= 2 * n + (if blackb t then 0 else 1))%nat.
Proof.
  induction 1 as [|l x r n Hl IHl Hr IHr Bl Br|l x r n Hl IHl Hr IHr]; cbn [height blackb]; [lia| |].
  - apply blackish_b in Bl. apply blackish_b in Br. rewrite Bl in IHl. rewrite Br in IHr. lia.
  - destruct (blackb l), (blackb r); lia.
Qed.
Lemma balanced_height t : balanced t -> (height t <= 2 * Nat.log2 (S (length (inorder t))))%nat.
Proof.
  intros [B [n T]]. pose proof (rbt_height _ _ T) as H. apply blackish_b in B. rewrite B in H.
  pose proof (rbt_size _ _ T) as S. apply Nat.log2_le_mono in S. rewrite Nat.log2_pow2 in S by lia. lia.
Qed.

(** ** Callers *)

Lemma slot_ok fuel go s : forall t k, rep s k t -> (height t < fuel)%nat ->
  exists k', slot fuel go (rootp t) (ppar k) (link_at k) s = Some (ppar (k' ++ k), link_at (k' ++ k)) /\ plug k' E = t /\
    (forall y, In y (lefts k') -> In y (inorder t)) /\
    (forall a b, inorder t = a ++ b -> (forall y, In y a -> go y = false) -> (forall y, In y b -> go y = true) -> lefts k' = a /\ rights k' = b).
Proof.
  induction fuel as [|f IH]; intros t k H F; [lia|]. cbn [slot]. destruct t as [|c l x r]; cbn [rootp].
  { cbn [Z.eqb]. exists []. split; [auto|]. split; [auto|]. split; [auto|]. cbn [inorder lefts rights]. intros a b E0 _ _.
    symmetry in E0. apply app_eq_nil in E0. destruct E0; auto. }
  destruct (rep_node _ _ _ _ _ _ H) as [X0 HX]. destruct (Z.eqb_spec x 0); [congruence|]. rewrite (get_nz s x), HX by auto. cbn [lft rgt].
  cbn [height] in F. destruct (go x) eqn:GX.
  - destruct (IH l _ (dnL _ _ _ _ _ _ H) ltac:(lia)) as (k' & E1 & E2 & E3 & E4). exists (k' ++ [L c x r]).
    rewrite <- app_assoc. cbn [app]. cbn [ppar link_at] in E1. split; [exact E1|]. split; [rewrite plug_app, E2; auto|].
    assert (LE : lefts (k' ++ [L c x r]) = lefts k') by (clear; induction k' as [|[? ? ?|? ? ?] k' I]; cbn [lefts app]; rewrite ?I; auto).
    assert (RE : rights (k' ++ [L c x r]) = rights k' ++ x :: inorder r).
    { clear. induction k' as [|[? ? ?|? ? ?] k' I]; cbn [rights app]; rewrite ?I, ?app_nil_r; auto. rewrite <- app_assoc. auto. }
    split; [intros y; rewrite LE; cbn [inorder]; intros Hy; apply in_or_app; auto|].
    intros a b Hab Ga Gb. rewrite LE, RE. cbn [inorder] in Hab.
    assert (X : exists b0, inorder l = a ++ b0 /\ b = b0 ++ x :: inorder r).
    { clear -Hab Ga GX. revert a Hab Ga. induction (inorder l) as [|z q I]; intros a Hab Ga; destruct a as [|z' a]; cbn [app] in Hab.
      - exists []. auto.
      - injection Hab as -> _. rewrite Ga in GX by (left; auto). discriminate.
      - exists (z :: q). auto.
      - injection Hab as -> Hab. destruct (I a Hab) as (b0 & -> & ->); [intros; apply Ga; right; auto|]. exists b0. auto. }
    destruct X as (b0 & X1 & ->). destruct (E4 a b0 X1 Ga) as [-> ->]; [|auto]. intros y Hy. apply Gb. apply in_or_app. auto.
  - destruct (IH r _ (dnR _ _ _ _ _ _ H) ltac:(lia)) as (k' & E1 & E2 & E3 & E4). exists (k' ++ [R c l x]).
    rewrite <- app_assoc. cbn [app]. cbn [ppar link_at] in E1. split; [exact E1|]. split; [rewrite plug_app, E2; auto|].
    assert (RE : rights (k' ++ [R c l x]) = rights k') by (clear; induction k' as [|[? ? ?|? ? ?] k' I]; cbn [rights app]; rewrite ?I; auto).
    assert (LE : lefts (k' ++ [R c l x]) = (inorder l ++ [x]) ++ lefts k').
    { clear. induction k' as [|[? ? ?|? ? ?] k' I]; cbn [lefts app]; rewrite ?I, ?app_nil_r; auto. rewrite <- !app_assoc. auto. }
    split.
    { intros y. rewrite LE. cbn [inorder]. intros Hy. rewrite <- app_assoc in Hy. apply in_app_or in Hy. apply in_or_app.
      destruct Hy as [Hy|Hy]; auto. right. cbn [app In] in *. destruct Hy; auto. }
    intros a b Hab Ga Gb. rewrite LE, RE. cbn [inorder] in Hab.
    assert (X : exists a0, inorder r = a0 ++ b /\ a = (inorder l ++ [x]) ++ a0).
    { clear -Hab Gb GX. revert a Hab. induction (inorder l) as [|z q I]; intros a Hab; destruct a as [|z' a]; cbn [app] in *.
      - subst b. rewrite Gb in GX by (left; auto). discriminate.
      - injection Hab as -> Hab. exists a. auto.
      - subst b. rewrite Gb in GX; [discriminate|]. right. apply in_or_app. right. left. auto.
      - injection Hab as -> Hab. destruct (I a Hab) as (a0 & E0 & ->). exists a0. auto. }
    destruct X as (a0 & X1 & ->). destruct (E4 a0 b X1) as [-> ->]; auto. intros y Hy. apply Ga. apply in_or_app. auto.
Qed.

Lemma rb_insert_ok fuel go x s t : rep s [] t -> balanced t -> x <> 0 -> ~ In x (inorder t) -> (height t < fuel)%nat ->
  exists s' t' l1 l2, rb_insert fuel go x s = Some s' /\ rep s' [] t' /\ balanced t' /\ inorder t = l1 ++ l2 /\ inorder t' = l1 ++ x :: l2 /\
    (forall a b, inorder t = a ++ b -> (forall y, In y a -> go y = false) -> (forall y, In y b -> go y = true) -> l1 = a /\ l2 = b).
Proof.
  intros H B X0 NI F. unfold rb_insert. destruct (slot_ok fuel go s t [] H F) as (k & E1 & E2 & E3 & E4).
  assert (Ht : top s = rootp t) by (destruct H as (_ & C & _); exact C). rewrite Ht. cbn [ppar link_at] in E1. rewrite E1.
  rewrite app_nil_r in *. cbn [fst snd]. subst t.
  pose proof (height_plug k E) as HP. cbn [height] in HP.
  destruct (insert_ok fuel s k x) as (s1 & s' & t' & -> & E5 & R' & I' & B'); auto; [apply rep_plug in H; auto|lia|].
  exists s', t', (lefts k), (rights k). split; [exact E5|]. split; [exact R'|]. split; [exact B'|].
  split; [rewrite inorder_plug; auto|]. split; [rewrite I', inorder_plug; auto|]. exact E4.
Qed.

Lemma erase_list fuel s t x : rep s [] t -> balanced t -> In x (inorder t) -> (height t < fuel)%nat ->
  exists s' t' l1 l2, erase fuel x s = Some s' /\ rep s' [] t' /\ balanced t' /\ inorder t = l1 ++ x :: l2 /\ inorder t' = l1 ++ l2.
Proof.
  intros H B HI F. destruct (in_plug _ _ HI) as (k & c & l & r & ->). apply (proj2 (rep_plug _ _ _)) in H.
  destruct (erase_ok fuel s k c l x r H B F) as (s' & t' & E1 & E2 & E3 & E4).
  exists s', t', (lefts k ++ inorder l), (inorder r ++ rights k). split; [exact E1|]. split; [exact E2|]. split; [exact E4|].
  split; [rewrite inorder_plug; cbn [inorder]; apps|rewrite E3; apps].
Qed.

Lemma next_list fuel s t x l1 l2 : rep s [] t -> inorder t = l1 ++ x :: l2 -> (height t <= fuel)%nat -> rb_next fuel x s = Some (hd 0 l2).
Proof.
  intros H HI F. assert (I0 : In x (inorder t)) by (rewrite HI; apply in_elt).
  destruct (in_plug _ _ I0) as (k & c & l & r & ->). pose proof (proj1 (rep_holds _ _) H) as (_ & _ & ND).
  apply (proj2 (rep_plug _ _ _)) in H. rewrite (next_ok fuel s k c l x r H F). do 2 f_equal.
  rewrite HI in ND. rewrite inorder_plug in HI. cbn [inorder] in HI. clear -HI ND.
  assert (E0 : (lefts k ++ inorder l) ++ x :: (inorder r ++ rights k) = l1 ++ x :: l2) by (rewrite <- HI; apps).
  revert E0. generalize (lefts k ++ inorder l) (inorder r ++ rights k). intros a b. revert a. clear HI. induction l1 as [|z l1 I]; intros a E0; cbn [app] in *.
  - destruct a as [|z a]; cbn [app] in E0; [congruence|]. injection E0 as -> E0. inversion ND; subst. destruct H1. apply in_elt.
  - destruct a as [|z' a]; cbn [app] in E0; injection E0 as -> E0.
    + inversion ND; subst. destruct H1. apply in_elt.
    + inversion ND; subst. eapply I; eauto.
Qed.

Lemma iter_ok fuel s t : rep s [] t -> (height t <= fuel)%nat -> forall l1 l2 steps, inorder t = l1 ++ l2 -> (length l2 <= steps)%nat ->
  iter steps fuel (hd 0 l2) s = Some l2.
Proof.
  intros H F l1 l2. revert l1. induction l2 as [|x l2 I]; intros l1 steps HI HS.
  - destruct steps; auto.
  - assert (X0 : x <> 0).
    { assert (I0 : In x (inorder t)) by (rewrite HI; apply in_elt). destruct (in_plug _ _ I0) as (k & c & l & r & ->).
      apply (proj2 (rep_plug _ _ _)) in H. apply rep_node in H. tauto. }
    destruct steps as [|st]; cbn [length] in HS; [lia|]. cbn [iter hd]. destruct (Z.eqb_spec x 0); [congruence|].
    rewrite (next_list fuel s t x l1 l2 H HI F). rewrite (I (l1 ++ [x])); auto; [|lia]. rewrite HI. apps.
Qed.

(** ** Sequences of operations *)

Lemma sorted_app key a b : sorted key (a ++ b) <-> sorted key a /\ sorted key b /\ (forall x y, In x a -> In y b -> key x <= key y).
Proof.
  induction a as [|x a IH]; cbn [app sorted].
  - split; [intros H; split; [exact I|]; split; auto; intros ? ? []|tauto].
  - rewrite IH. split.
    + intros (H1 & H2 & H3 & H4). split; [split; auto; intros; apply H1; apply in_or_app; auto|]. split; auto.
      intros z y [->|Hz] Hy; [apply H1; apply in_or_app; auto|auto].
    + intros ((H1 & H2) & H3 & H4). split; [|split; auto; split; auto; intros; apply H4; auto; right; auto].
      intros y Hy. apply in_app_or in Hy. destruct Hy; auto. apply H4; auto. left. auto.
Qed.

Lemma insert_by_split key x l : sorted key l -> exists a b, l = a ++ b /\ insert_by key x l = a ++ x :: b /\
  (forall y, In y a -> (key x <? key y) = false) /\ (forall y, In y b -> (key x <? key y) = true) /\ sorted key (insert_by key x l).
Proof.
  induction l as [|z l IH]; cbn [insert_by sorted].
  - intros _. exists [], []. split; [auto|]. split; [auto|]. split; [intros ? []|]. split; [intros ? []|]. split; [intros ? []|auto].
  - intros [H1 H2]. destruct (Z.ltb_spec (key x) (key z)).
    + exists [], (z :: l). split; [auto|]. split; [auto|]. split; [intros ? []|].
      assert (G : forall y, In y (z :: l) -> key x < key y) by (intros y [->|Hy]; [lia|specialize (H1 y Hy); lia]).
      split; [intros y Hy; apply Z.ltb_lt; auto|]. cbn [sorted]. split; auto. intros y Hy. specialize (G y Hy). lia.
    + destruct (IH H2) as (a & b & -> & E & Ga & Gb & S). exists (z :: a), b. split; [auto|]. split; [rewrite E; auto|].
      split; [intros y [->|Hy]; [apply Z.ltb_ge; lia|auto]|]. split; auto. cbn [sorted]. split; auto. intros y Hy. rewrite E in Hy.
      apply in_app_or in Hy. destruct Hy as [Hy|[<-|Hy]]; [apply H1; apply in_or_app; auto|lia|apply H1; apply in_or_app; auto].
Qed.

Lemma remove_split x : forall l1 l2, NoDup (l1 ++ x :: l2) -> remove Z.eq_dec x (l1 ++ x :: l2) = l1 ++ l2.
Proof.
  intros l1 l2 ND. apply NoDup_remove_2 in ND. rewrite remove_app. cbn [remove]. destruct (Z.eq_dec x x); [|congruence].
  rewrite !notin_remove; auto; intros HI; apply ND; apply in_or_app; auto.
Qed.

Lemma run_ok fuel key : forall ops s t, rep s [] t -> balanced t -> sorted key (inorder t) -> legal key (inorder t) ops ->
  (2 * Nat.log2 (S (length (inorder t) + length ops)) < fuel)%nat ->
  exists s' t', run fuel key ops s = Some s' /\ rep s' [] t' /\ balanced t' /\ inorder t' = fold_left (apply_op key) ops (inorder t) /\ sorted key (inorder t').
Proof.
  induction ops as [|o ops IH]; intros s t H B S LG F; cbn [run fold_left].
  { exists s, t. auto. }
  cbn [legal] in LG. destruct LG as [LO LG].
  assert (HF : (height t < fuel)%nat).
  { pose proof (balanced_height t B). assert (Nat.log2 (Datatypes.S (length (inorder t))) <= Nat.log2 (Datatypes.S (length (inorder t) + length (o :: ops))))%nat by (apply Nat.log2_le_mono; lia). lia. }
  pose proof (proj1 (rep_holds _ _) H) as (_ & _ & ND).
  assert (ST : exists s1 t1, run_op fuel key o s = Some s1 /\ rep s1 [] t1 /\ balanced t1 /\ inorder t1 = apply_op key (inorder t) o /\
     sorted key (inorder t1) /\ (length (inorder t1) <= Datatypes.S (length (inorder t)))%nat).
  { destruct o as [x|x]; cbn [run_op apply_op].
    - destruct LO as [X0 NI]. destruct (rb_insert_ok fuel (fun y => key x <? key y) x s t H B X0 NI HF) as (s1 & t1 & l1 & l2 & E1 & R1 & B1 & I1 & I2 & G).
      destruct (insert_by_split key x _ S) as (a & b & Hab & E & Ga & Gb & S1). destruct (G a b Hab Ga Gb) as [-> ->].
      exists s1, t1. split; [exact E1|]. split; [exact R1|]. split; [exact B1|]. split; [congruence|]. split; [congruence|].
      rewrite I2, I1. rewrite !app_length. cbn [length]. lia.
    - destruct (erase_list fuel s t x H B LO HF) as (s1 & t1 & l1 & l2 & E1 & R1 & B1 & I1 & I2).
      exists s1, t1. split; [exact E1|]. split; [exact R1|]. split; [exact B1|].
      split; [rewrite I1 in *; rewrite remove_split; auto|].
      split; [|rewrite I2, I1, !app_length; cbn [length]; lia].
      rewrite I2. rewrite I1 in S. apply sorted_app in S. destruct S as (S1 & S2 & S3). cbn [sorted] in S2. apply sorted_app.
      split; auto. split; [tauto|]. intros; apply S3; auto. right. auto. }
  destruct ST as (s1 & t1 & -> & R1 & B1 & I1 & S1 & L1).
  rewrite <- I1. apply IH; auto; [rewrite I1; auto|].
  cbn [length] in F. eapply Nat.le_lt_trans; [|exact F]. apply Nat.mul_le_mono_l. apply Nat.log2_le_mono. lia.
Qed.
