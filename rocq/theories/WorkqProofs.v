(** The invariant of the work queue (C36). *)
From Coq Require Import ZArith List Bool Lia Arith.
From Verif Require Import CBase WorkqModel WorkqSpec.
Import ListNotations.

Lemma of_worker_app w a b : of_worker w (a ++ b) = of_worker w a ++ of_worker w b.
Proof. induction a as [|[v x] a IH]; cbn; [reflexivity|]. destruct (v =? w)%nat; cbn; now rewrite IH. Qed.
Definition running (k : wk) : list Z := match wpc_ k with WRun x => [x] | _ => [] end.
Definition rest (k : wk) : list Z := running k ++ loc k ++ wl k.

Record wok (s : st) (w : nat) (k : wk) : Prop := {
  k_hist : of_worker w (given s) = of_worker w (handled s) ++ rest k;
  k_loc : loc k = [] \/ wpc_ k = WHandle \/ exists x, wpc_ k = WRun x;
  k_idle : idle k = true -> rest k = [];
  k_wait : wpc_ k = WWait -> wl k = [] /\ idle k = true /\ ext k = false;
  k_sig : wpc_ k = WSig \/ wpc_ k = WThird -> idle k = true \/ wl k <> [];
  k_done : wpc_ k = WDone -> rest k = [] /\ ext k = true;
  k_ext : ext k = true -> match mpc_ s with MExit _ | MJoin _ | MEnd => True | _ => False end }.

Definition mok (s : st) : Prop :=
  match mpc_ s with
  | MIdle | MWant | MAwake => True
  | MCheck i => (i <= length (ws s))%nat /\ forall j k, (j < i)%nat -> nth_error (ws s) j = Some k -> idle k = true
  | MSleep | MWait => exists w k, nth_error (ws s) w = Some k /\ (idle k = false \/ wpc_ k = WSig)
  | MExit i => (i <= length (ws s))%nat /\ forall j k, (j < i)%nat -> nth_error (ws s) j = Some k -> ext k = true
  | MJoin i => (i <= length (ws s))%nat /\ forall j k, nth_error (ws s) j = Some k -> ext k = true /\ ((j < i)%nat -> wpc_ k = WDone)
  | MEnd => forall j k, nth_error (ws s) j = Some k -> wpc_ k = WDone
  end.
Record Inv (s : st) : Prop := {
  i_w : forall w k, nth_error (ws s) w = Some k -> wok s w k;
  i_range : forall w x, In (w, x) (given s) \/ In (w, x) (handled s) -> (w < length (ws s))%nat;
  i_m : mok s;
  i_wake : (match mpc_ s with MCheck _ | MSleep | MWait | MAwake => True | _ => False end) -> wake s = true;
  i_nxt : (nxt s < length (ws s))%nat }.

Lemma started_inv s : started s -> Inv s.
Proof.
  intros (Hm & Hw & Hn & Hg & Hh & Hk). rewrite Forall_forall in Hk. constructor.
  - intros w k H. destruct (Hk k (nth_error_In _ _ H)) as (b & ->). constructor; rewrite ?Hg, ?Hh; cbn; auto; try discriminate. intros [|]; discriminate.
  - rewrite Hg, Hh. cbn. tauto.
  - unfold mok. now rewrite Hm.
  - now rewrite Hm.
  - assumption.
Qed.

(** Only the caller moves. *)
Lemma setm_inv s m wk' : Inv s ->
  (match mpc_ s with MExit _ | MJoin _ | MEnd => True | _ => False end -> match m with MExit _ | MJoin _ | MEnd => True | _ => False end) ->
  mok (mkSt m wk' (nxt s) (ws s) (given s) (handled s)) ->
  ((match m with MCheck _ | MSleep | MWait | MAwake => True | _ => False end) -> wk' = true) ->
  Inv (mkSt m wk' (nxt s) (ws s) (given s) (handled s)).
Proof.
  intros Hi He Hm Hw. constructor; cbn [ws given handled mpc_ wake nxt]; auto.
  - intros w k H. destruct (i_w s Hi w k H) as [G1 G2 G3 G4 G5 G6 G7]. constructor; cbn [given handled mpc_]; auto. intros Hx. exact (He (G7 Hx)).
  - apply (i_range s Hi).
  - apply (i_nxt s Hi).
Qed.

(** A worker moves. *)
Lemma setw_inv s w k k' nx h' m' : Inv s -> nth_error (ws s) w = Some k -> (nx < length (ws s))%nat ->
  (h' = handled s \/ exists x, h' = handled s ++ [(w, x)]) ->
  ext k' = ext k ->
  (m' = mpc_ s \/ (mpc_ s = MWait /\ m' = MAwake)) ->
  (of_worker w (given s) = of_worker w h' ++ rest k') ->
  (loc k' = [] \/ wpc_ k' = WHandle \/ exists x, wpc_ k' = WRun x) ->
  (idle k' = true -> rest k' = []) -> (wpc_ k' = WWait -> wl k' = [] /\ idle k' = true /\ ext k' = false) ->
  (wpc_ k' = WSig \/ wpc_ k' = WThird -> idle k' = true \/ wl k' <> []) ->
  (wpc_ k' = WDone -> rest k' = [] /\ ext k' = true) ->
  (idle k = true -> idle k' = true) -> (wpc_ k <> WDone) ->
  (m' = MWait \/ m' = MSleep -> idle k' = idle k \/ wpc_ k' = WSig) -> (m' = MWait \/ m' = MSleep -> wpc_ k <> WSig) ->
  Inv (mkSt m' (wake s) nx (upd (ws s) w k') (given s) h').
Proof.
  intros Hi Hk Hnx Hh He Hmm Hist Hloc Hid Hwait Hsig Hdone Hkeep Hnd Hmw Hms.
  assert (Hlt : (w < length (ws s))%nat) by (apply nth_error_Some; rewrite Hk; discriminate).
  constructor; cbn [ws given handled mpc_ wake nxt].
  - intros v kv H. destruct (Nat.eq_dec w v) as [<-|Hne].
    + rewrite upd_nth_error_same in H by assumption. inversion H; subst kv. constructor; cbn [given handled mpc_]; auto.
      intros Hx. rewrite He in Hx. pose proof (k_ext _ _ _ (i_w s Hi w k Hk) Hx) as G. destruct Hmm as [->|[E ->]]; [exact G|]. rewrite E in G. contradiction.
    + rewrite upd_nth_error_other in H by assumption. destruct (i_w s Hi v kv H) as [G1 G2 G3 G4 G5 G6 G7]. constructor; cbn [given handled mpc_]; auto.
      * destruct Hh as [->|(x & ->)]; [assumption|]. rewrite of_worker_app. cbn. destruct (Nat.eqb_spec w v); [congruence|]. now rewrite app_nil_r.
      * intros Hx. specialize (G7 Hx). destruct Hmm as [->|[E ->]]; [exact G7|]. rewrite E in G7. contradiction.
  - intros v x H. rewrite upd_length. destruct H as [H|H]; [apply (i_range s Hi v x); now left|].
    destruct Hh as [->|(y & ->)]; [apply (i_range s Hi v x); now right|]. apply in_app_iff in H. destruct H as [H|[H|[]]]; [apply (i_range s Hi v x); now right|]. now inversion H; subst.
  - assert (Hothers : forall (P : wk -> Prop), P k' -> forall v kv, nth_error (upd (ws s) w k') v = Some kv -> (v = w /\ kv = k') \/ (v <> w /\ nth_error (ws s) v = Some kv)).
    { intros _ _ v kv H. destruct (Nat.eq_dec w v) as [<-|Hne]; [left; rewrite upd_nth_error_same in H by assumption; inversion H; auto | right; rewrite upd_nth_error_other in H by assumption; auto]. }
    specialize (Hothers (fun _ => True) Logic.I). pose proof (i_m s Hi) as Hm. unfold mok in *. cbn [mpc_ ws]. rewrite upd_length.
    destruct Hmm as [->|[E ->]]; [|exact Logic.I]. destruct (mpc_ s) eqn:E; auto.
    + destruct Hm as [Hm1 Hm2]. split; [assumption|]. intros j kj Hj H. destruct (Hothers _ _ H) as [[-> ->]|[_ H']]; [apply Hkeep; exact (Hm2 w k Hj Hk) | exact (Hm2 j kj Hj H')].
    + destruct Hm as (v & kv & H1 & H2). destruct (Nat.eq_dec w v) as [<-|Hne].
      * rewrite Hk in H1. inversion H1; subst kv. exists w, k'. rewrite upd_nth_error_same by assumption. split; [reflexivity|].
        destruct (Hmw (or_intror eq_refl)) as [E1|E1]; [|now right]. rewrite E1. destruct H2 as [H2|H2]; [now left|]. exfalso. now apply (Hms (or_intror eq_refl)).
      * exists v, kv. rewrite upd_nth_error_other by assumption. auto.
    + destruct Hm as (v & kv & H1 & H2). destruct (Nat.eq_dec w v) as [<-|Hne].
      * rewrite Hk in H1. inversion H1; subst kv. exists w, k'. rewrite upd_nth_error_same by assumption. split; [reflexivity|].
        destruct (Hmw (or_introl eq_refl)) as [E1|E1]; [|now right]. rewrite E1. destruct H2 as [H2|H2]; [now left|]. exfalso. now apply (Hms (or_introl eq_refl)).
      * exists v, kv. rewrite upd_nth_error_other by assumption. auto.
    + destruct Hm as [Hm1 Hm2]. split; [assumption|]. intros j kj Hj H. destruct (Hothers _ _ H) as [[-> ->]|[_ H']]; [rewrite He; exact (Hm2 w k Hj Hk) | exact (Hm2 j kj Hj H')].
    + destruct Hm as [Hm1 Hm2]. split; [assumption|]. intros j kj H. destruct (Hothers _ _ H) as [[-> ->]|[_ H']]; [|exact (Hm2 j kj H')].
      destruct (Hm2 w k Hk) as [Ha Hb]. split; [now rewrite He|]. intros Hj. now specialize (Hb Hj).
    + intros j kj H. destruct (Hothers _ _ H) as [[-> ->]|[_ H']]; [|exact (Hm j kj H')]. exfalso. apply Hnd. exact (Hm w k Hk).
  - intros H. apply (i_wake s Hi). destruct Hmm as [->|[E ->]]; [exact H|now rewrite E].
  - now rewrite upd_length.
Qed.

Lemma rest_nil k : rest k = [] -> running k = [] /\ loc k = [] /\ wl k = [].
Proof. unfold rest. intros H. apply app_eq_nil in H. destruct H as [H1 H2]. apply app_eq_nil in H2. tauto. Qed.

Ltac old Hi Hk := let G := fresh "G" in pose proof (i_w _ Hi _ _ Hk) as G; destruct G as [Gh Gl Gi Gw Gs Gd Ge].

Lemma step_inv s s' : Inv s -> step s s' -> Inv s'.
Proof.
  intros Hi Hst. pose proof (i_m s Hi) as Hm. pose proof (i_nxt s Hi) as Hnx. unfold mok in Hm.
  destruct Hst as [w x k nx Em Hk Hn | Em | Em | i k Em Hk Hid | i k Em Hk Hid | Em | i Em El | Em | Em | Em | i k Em Hk | i Em El | i k Em Hk Hd | i Em El
    | w k Hk Hp Hw He | w k Hk Hp Hw He | w k Hk Hp Hw He | w k Hk Hp Hw He Hid | w k Hk Hp Hw He Hid | w k Hk Hp Hw | w k Hk Hp Hc Hc2
    | w k Hk Hp Hw He | w k Hk Hp Hw He | w k Hk Hp Hw | w k Hk Hp | w k Hk Hp | w k x l Hk Hp Hl | w k x Hk Hp | w k Hk Hp Hl].
  - (* Enqueue *)
    assert (Hlt : (w < length (ws s))%nat) by (apply nth_error_Some; rewrite Hk; discriminate). old Hi Hk.
    assert (Hns : forall q, running (mkW (signal (wpc_ k)) q (loc k) false (ext k)) = running k) by (intros q; unfold running; cbn [wpc_]; destruct (wpc_ k); reflexivity).
    constructor; cbn [ws given handled mpc_ wake nxt].
    + intros v kv H. destruct (Nat.eq_dec w v) as [<-|Hne].
      * rewrite upd_nth_error_same in H by assumption. inversion H; subst kv. constructor; cbn [given handled mpc_ wpc_ loc wl idle ext].
        -- rewrite of_worker_app, Gh. cbn. rewrite Nat.eqb_refl. unfold rest. rewrite Hns. cbn [loc wl]. now rewrite <- !app_assoc.
        -- destruct Gl as [Gl|[Gl|[y Gl]]]; [auto | rewrite Gl; auto | rewrite Gl; cbn; eauto].
        -- discriminate.
        -- destruct (wpc_ k); discriminate.
        -- intros _. right. intros E. now apply app_eq_nil in E.
        -- intros E. assert (wpc_ k = WDone) as E' by (destruct (wpc_ k); try discriminate; reflexivity). destruct (Gd E') as [_ Gx]. specialize (Ge Gx). now rewrite Em in Ge.
        -- intros Gx. specialize (Ge Gx). now rewrite Em in Ge.
      * rewrite upd_nth_error_other in H by assumption. destruct (i_w s Hi v kv H) as [G1 G2 G3 G4 G5 G6 G7]. constructor; cbn [given handled mpc_]; auto.
        -- rewrite of_worker_app. cbn. destruct (Nat.eqb_spec w v); [congruence|]. now rewrite app_nil_r.
        -- intros Hx. specialize (G7 Hx). now rewrite Em in G7.
    + intros v y H. rewrite upd_length. destruct H as [H|H]; [|apply (i_range s Hi v y); now right]. apply in_app_iff in H. destruct H as [H|[H|[]]]; [apply (i_range s Hi v y); now left|].
      now inversion H; subst.
    + exact Logic.I.
    + tauto.
    + rewrite upd_length. destruct Hn as [-> | ->]; [assumption|]. unfold succw. destruct (Nat.ltb_spec (w + 1) (length (ws s))); lia.
  - apply (setm_inv s MWant (wake s) Hi); [now rewrite Em | exact Logic.I | tauto].
  - apply (setm_inv s (MCheck 0) true Hi); [now rewrite Em | | reflexivity]. cbn. split; [lia|]. intros; lia.
  - rewrite Em in Hm. destruct Hm as [Hm1 Hm2]. assert (i < length (ws s))%nat by (apply nth_error_Some; rewrite Hk; discriminate).
    apply (setm_inv s (MCheck (S i)) (wake s) Hi); [now rewrite Em | | intros _; apply (i_wake s Hi); now rewrite Em].
    cbn. split; [lia|]. intros j kj Hj H'. destruct (Nat.eq_dec j i) as [->|]; [congruence|]. apply (Hm2 j kj); [lia|assumption].
  - apply (setm_inv s MSleep (wake s) Hi); [now rewrite Em | | intros _; apply (i_wake s Hi); now rewrite Em]. cbn. eauto.
  - rewrite Em in Hm. apply (setm_inv s MWait (wake s) Hi); [now rewrite Em | exact Hm | intros _; apply (i_wake s Hi); now rewrite Em].
  - apply (setm_inv s MIdle false Hi); [now rewrite Em | exact Logic.I | tauto].
  - apply (setm_inv s MAwake (wake s) Hi); [now rewrite Em | exact Logic.I | intros _; apply (i_wake s Hi); now rewrite Em].
  - apply (setm_inv s (MCheck 0) (wake s) Hi); [now rewrite Em | cbn; split; [lia|intros; lia] | intros _; apply (i_wake s Hi); now rewrite Em].
  - apply (setm_inv s (MExit 0) (wake s) Hi); [now rewrite Em | cbn; split; [lia|intros; lia] | tauto].
  - (* ExitOne *)
    assert (Hlt : (i < length (ws s))%nat) by (apply nth_error_Some; rewrite Hk; discriminate). old Hi Hk. rewrite Em in Hm. destruct Hm as [Hm1 Hm2].
    set (k' := mkW (signal (wpc_ k)) (wl k) (loc k) (idle k) true). assert (Er : rest k' = rest k) by (unfold rest, running, k'; cbn [wpc_ loc wl]; destruct (wpc_ k); reflexivity).
    constructor; cbn [ws given handled mpc_ wake nxt].
    + intros v kv H. destruct (Nat.eq_dec i v) as [<-|Hne].
      * rewrite upd_nth_error_same in H by assumption. inversion H; subst kv. constructor; cbn [given handled mpc_]; rewrite ?Er; auto; unfold k'; cbn [wpc_ loc wl idle ext].
        -- destruct Gl as [Gl|[Gl|[y Gl]]]; [auto | rewrite Gl; auto | rewrite Gl; cbn; eauto].
        -- destruct (wpc_ k); discriminate.
        -- intros E. apply Gs. destruct E as [E|E]; destruct (wpc_ k); try discriminate; auto.
        -- intros E. assert (wpc_ k = WDone) as E' by (destruct (wpc_ k); try discriminate; reflexivity). split; [apply (Gd E')|reflexivity].
      * rewrite upd_nth_error_other in H by assumption. destruct (i_w s Hi v kv H) as [G1 G2 G3 G4 G5 G6 G7]. constructor; cbn [given handled mpc_]; auto.
    + intros v y H. rewrite upd_length. exact (i_range s Hi v y H).
    + unfold mok. cbn [mpc_ ws]. rewrite upd_length. split; [lia|]. intros j kj Hj H. destruct (Nat.eq_dec i j) as [<-|Hne].
      * rewrite upd_nth_error_same in H by assumption. now inversion H.
      * rewrite upd_nth_error_other in H by assumption. apply (Hm2 j kj); [lia|assumption].
    + tauto.
    + now rewrite upd_length.
  - rewrite Em in Hm. destruct Hm as [Hm1 Hm2]. apply (setm_inv s (MJoin 0) (wake s) Hi); [now rewrite Em | | tauto].
    cbn. split; [lia|]. intros j kj H. split; [|lia]. apply (Hm2 j kj); [|assumption]. subst i. apply nth_error_Some. rewrite H. discriminate.
  - rewrite Em in Hm. destruct Hm as [Hm1 Hm2]. assert (i < length (ws s))%nat by (apply nth_error_Some; rewrite Hk; discriminate).
    apply (setm_inv s (MJoin (S i)) (wake s) Hi); [now rewrite Em | | tauto]. cbn. split; [lia|]. intros j kj H'. destruct (Hm2 j kj H') as [Ha Hb]. split; [assumption|].
    intros Hj. destruct (Nat.eq_dec j i) as [->|]; [congruence|apply Hb; lia].
  - rewrite Em in Hm. destruct Hm as [Hm1 Hm2]. apply (setm_inv s MEnd (wake s) Hi); [now rewrite Em | | tauto]. cbn. intros j kj H. apply (proj2 (Hm2 j kj H)).
    subst i. apply nth_error_Some. rewrite H. discriminate.
  - old Hi Hk. assert (Hl : loc k = []) by (destruct Gl as [|[|[y Gl]]]; congruence).
    eapply (setw_inv s w k _ (nxt s) (handled s) (mpc_ s) Hi Hk); cbn [wpc_ loc wl idle ext]; unfold rest, running in *; cbn [wpc_ loc wl] in *; rewrite ?Hp, ?Hw, ?Hl in *; auto; try congruence; try (intros [|]; discriminate).
  - old Hi Hk. assert (Hl : loc k = []) by (destruct Gl as [|[|[y Gl]]]; congruence).
    eapply (setw_inv s w k _ (nxt s) (handled s) (mpc_ s) Hi Hk); cbn [wpc_ loc wl idle ext]; unfold rest, running in *; cbn [wpc_ loc wl] in *; rewrite ?Hp, ?Hw, ?Hl in *; auto; try congruence; try (intros [|]; discriminate).
  - old Hi Hk. assert (Hl : loc k = []) by (destruct Gl as [|[|[y Gl]]]; congruence).
    eapply (setw_inv s w k _ (nxt s) (handled s) (mpc_ s) Hi Hk); cbn [wpc_ loc wl idle ext]; unfold rest, running in *; cbn [wpc_ loc wl] in *; rewrite ?Hp, ?Hw, ?Hl in *; auto; try congruence; try (intros [|]; discriminate).
  - old Hi Hk. assert (Hl : loc k = []) by (destruct Gl as [|[|[y Gl]]]; destruct Hp; congruence).
    assert (Hlt : (w < length (ws s))%nat) by (apply nth_error_Some; rewrite Hk; discriminate).
    assert (Hr : running k = []) by (unfold running; destruct Hp as [-> | ->]; reflexivity).
    eapply (setw_inv s w k _ w (handled s) (mpc_ s) Hi Hk Hlt); cbn [wpc_ loc wl idle ext]; unfold rest in *; rewrite ?Hr in *; unfold running; cbn [wpc_ loc wl] in *; rewrite ?Hw, ?Hl in *; auto; try congruence; try (intros [|]; discriminate);
      try (destruct Hp; congruence).
  - old Hi Hk. assert (Hl : loc k = []) by (destruct Gl as [|[|[y Gl]]]; destruct Hp; congruence).
    assert (Hr : running k = []) by (unfold running; destruct Hp as [-> | ->]; reflexivity).
    eapply (setw_inv s w k _ (nxt s) (handled s) (mpc_ s) Hi Hk Hnx); cbn [wpc_ loc wl idle ext]; unfold rest in *; rewrite ?Hr in *; unfold running; cbn [wpc_ loc wl] in *; rewrite ?Hw, ?Hl in *; auto; try congruence; try (intros [|]; discriminate);
      try (destruct Hp; congruence).
  - old Hi Hk. assert (Hl : loc k = []) by (destruct Gl as [|[|[y Gl]]]; destruct Hp; congruence).
    assert (Hr : running k = []) by (unfold running; destruct Hp as [-> | ->]; reflexivity).
    eapply (setw_inv s w k _ (nxt s) (handled s) (mpc_ s) Hi Hk Hnx); cbn [wpc_ loc wl idle ext]; unfold rest in *; rewrite ?Hr in *; unfold running; cbn [wpc_ loc wl] in *; rewrite ?Hl in *; cbn [app] in *; rewrite ?app_nil_r; auto; try congruence; try (intros [|]; discriminate);
      try (destruct Hp; congruence).
  - old Hi Hk. assert (Hl : loc k = []) by (destruct Gl as [|[|[y Gl]]]; congruence).
    eapply (setw_inv s w k _ (nxt s) (handled s) _ Hi Hk Hnx); cbn [wpc_ loc wl idle ext]; unfold rest, running in *; cbn [wpc_ loc wl] in *; rewrite ?Hp, ?Hl in *; auto; try congruence.
    + destruct (wake s); [|now left]. destruct (mpc_ s); auto.
    + intros E. exfalso. destruct (mpc_ s) eqn:E2; try (destruct (wake s), E; congruence). assert (Hwk : wake s = true) by (apply (i_wake s Hi); now rewrite E2). rewrite Hwk in E. destruct E; discriminate.
  - old Hi Hk. assert (Hl : loc k = []) by (destruct Gl as [|[|[y Gl]]]; congruence).
    eapply (setw_inv s w k _ (nxt s) (handled s) (mpc_ s) Hi Hk); cbn [wpc_ loc wl idle ext]; unfold rest, running in *; cbn [wpc_ loc wl] in *; rewrite ?Hp, ?Hw, ?Hl in *; auto; try congruence; try (intros [|]; discriminate).
  - old Hi Hk. assert (Hl : loc k = []) by (destruct Gl as [|[|[y Gl]]]; congruence). destruct (Gs (or_intror Hp)) as [Gid|]; [|congruence].
    eapply (setw_inv s w k _ (nxt s) (handled s) (mpc_ s) Hi Hk); cbn [wpc_ loc wl idle ext]; unfold rest, running in *; cbn [wpc_ loc wl] in *; rewrite ?Hp, ?Hw, ?Hl in *; auto; try congruence; try (intros [|]; discriminate).
  - old Hi Hk. assert (Hl : loc k = []) by (destruct Gl as [|[|[y Gl]]]; congruence).
    eapply (setw_inv s w k _ (nxt s) (handled s) (mpc_ s) Hi Hk Hnx); cbn [wpc_ loc wl idle ext]; unfold rest, running in *; cbn [wpc_ loc wl] in *; rewrite ?Hp, ?Hl in *; cbn [app] in *; rewrite ?app_nil_r; auto; try congruence; try (intros [|]; discriminate).
  - old Hi Hk. assert (Hl : loc k = []) by (destruct Gl as [|[|[y Gl]]]; congruence).
    eapply (setw_inv s w k _ (nxt s) (handled s) (mpc_ s) Hi Hk Hnx); cbn [wpc_ loc wl idle ext]; unfold rest, running in *; cbn [wpc_ loc wl] in *; rewrite ?Hp, ?Hl in *; auto; try congruence; try (intros [|]; discriminate).
  - old Hi Hk. assert (Hl : loc k = []) by (destruct Gl as [|[|[y Gl]]]; congruence).
    eapply (setw_inv s w k _ (nxt s) (handled s) (mpc_ s) Hi Hk Hnx); cbn [wpc_ loc wl idle ext]; unfold rest, running in *; cbn [wpc_ loc wl] in *; rewrite ?Hp, ?Hl in *; auto; try congruence; try (intros [|]; discriminate).
  - old Hi Hk.
    eapply (setw_inv s w k _ (nxt s) (handled s) (mpc_ s) Hi Hk Hnx); cbn [wpc_ loc wl idle ext]; unfold rest, running in *; cbn [wpc_ loc wl] in *; rewrite ?Hp, ?Hl in *; cbn [app] in *; eauto; try congruence; try (intros [|]; discriminate).
  - old Hi Hk.
    eapply (setw_inv s w k _ (nxt s) (handled s ++ [(w, x)]) (mpc_ s) Hi Hk Hnx); cbn [wpc_ loc wl idle ext]; unfold rest, running in *; cbn [wpc_ loc wl] in *; rewrite ?Hp in *; eauto; try congruence; try (intros [|]; discriminate).
    + rewrite of_worker_app, Gh. cbn. rewrite Nat.eqb_refl. now rewrite <- app_assoc.
    + intros H. specialize (Gi H). discriminate.
  - old Hi Hk.
    eapply (setw_inv s w k _ (nxt s) (handled s) (mpc_ s) Hi Hk Hnx); cbn [wpc_ loc wl idle ext]; unfold rest, running in *; cbn [wpc_ loc wl] in *; rewrite ?Hp, ?Hl in *; auto; try congruence; try (intros [|]; discriminate).
Qed.

Lemma reach_inv s : reach s -> Inv s.
Proof. induction 1 as [s H|s s' _ IH Hs]; [now apply started_inv | exact (step_inv _ _ IH Hs)]. Qed.
