From Coq Require Import ZArith List Bool Lia.
From Verif Require Import CBase BuflenModel BuflenProofs BuflenProps OffsetModel OffsetSpec.
Import ListNotations.
Open Scope Z_scope.

Lemma dir_eqb_spec a b : reflect (a = b) (dir_eqb a b).
Proof. destruct a, b; constructor; congruence. Qed.
Lemma set_same A (f : dir -> A) d v : set f d v d = v.
Proof. unfold set. destruct (dir_eqb_spec d d); congruence. Qed.
Lemma set_other A (f : dir -> A) d d' v : d' <> d -> set f d v d' = f d'.
Proof. unfold set. destruct (dir_eqb_spec d d'); congruence. Qed.
Lemma u64_small x : 0 <= x < 2 ^ 64 -> u64 x = x.
Proof. intros. apply Z.mod_small. lia. Qed.
Lemma u64_neg x : - 2 ^ 63 <= x < 0 -> 2 ^ 63 <= u64 x < 2 ^ 64.
Proof. intros. unfold u64. rewrite <- (Z.mod_add x 1) by lia. rewrite Z.mod_small; lia. Qed.
Lemma u64_range x : 0 <= u64 x < 2 ^ 64.
Proof. apply Z.mod_pos_bound. lia. Qed.

(** What the options must satisfy: sizes far below 2^63; with backward or holed I/O the unit divides the file's sizes. *)
Definition conf (o : opts) : Prop :=
  (forall d, good (o_b o d) /\ b_max (o_b o d) < 2 ^ 61 /\ 1 <= o_ba o d) /\ 0 <= o_start o < 2 ^ 61 /\ 0 <= f_io o < 2 ^ 61 /\ 0 <= f_real o < 2 ^ 61 /\ - 2 ^ 61 < o_seq_add o < 2 ^ 61 /\
  (forall r z k, o_zone o = Some (r, z, k) -> 1 <= r < 2 ^ 61 /\ 0 <= k < 2 ^ 61) /\ (o_rtw o = true -> o_tw o = true).
Definition unit_ok (g : Z) (o : opts) : Prop :=
  1 <= g /\ (forall d, (g | o_ba o d) /\ (g | b_min (o_b o d)) /\ (g = 1 \/ b_unaligned (o_b o d) = false /\ (b_min (o_b o d) | b_max (o_b o d)))) /\
  (o_seq_add o <> 0 -> (g | o_seq_add o) /\ (g | o_start o) /\ (g | f_io o) /\ (g | f_real o) /\ forall r z k, o_zone o = Some (r, z, k) -> (g | r) /\ (g | k)).
(** What a generator may answer: a block whose byte offset does not overflow, at least one free block. *)
Definition inp_ok (o : opts) (i : inp) : Prop :=
  (forall b, i_b1 i = Some b \/ i_b2 i = Some b -> 0 <= b /\ forall d, b * o_ba o d < 2 ^ 64) /\ draws_ok (i_draws i) /\ (forall nr, i_mark i = Some nr -> 1 <= nr /\ forall d, nr * b_min (o_b o d) < 2 ^ 64).

Definition pos_ok (g : Z) (o : opts) (fo p : Z) : Prop := 0 <= p < 2 ^ 61 /\ (g | p - fo) /\ (0 <= o_seq_add o -> fo <= p).
Definition start_ok (g : Z) (fo p : Z) : Prop := p = ones \/ (fo <= p < 2 ^ 61 /\ (g | p - fo)).
Definition inv0 (g : Z) (o : opts) (s : st) : Prop :=
  0 <= s_fo s < 2 ^ 61 /\ (o_seq_add o <> 0 -> (g | s_fo s)) /\ (forall d, pos_ok g o (s_fo s) (s_pos s d)) /\
  (forall d, (o_rtw o = true -> d <> DW) -> start_ok g (s_fo s) (s_start s d)).
(** The last trim of a trim and write workload, which the next write repeats; [m] bounds its length. *)
Definition trim_ok (g m : Z) (s : st) : Prop := s_start s DT = ones \/ (1 <= s_pos s DT - s_start s DT <= m /\ (g | s_pos s DT - s_start s DT)).
Definition inv (g m : Z) (o : opts) (s : st) : Prop := inv0 g o s /\ (o_rtw o = true -> trim_ok g m s).

Lemma pos_ok_base g o fo : 0 <= fo < 2 ^ 61 -> pos_ok g o fo fo.
Proof. intros. split; [lia|]. split; [|lia]. rewrite Z.sub_diag. apply Z.divide_0_r. Qed.
Lemma inv_reset g m o s : 0 <= s_fo s < 2 ^ 61 -> (o_seq_add o <> 0 -> (g | s_fo s)) -> inv g m o (file_reset s).
Proof.
  intros F A. unfold inv, inv0, trim_ok, file_reset; cbn [s_fo s_pos s_start]. split; [|intros; left; auto]. split; [auto|]. split; [auto|]. split; [intros; apply pos_ok_base; auto|]. intros; left; auto.
Qed.
Lemma inv_init g m o : conf o -> unit_ok g o -> inv g m o (init o).
Proof. intros (_ & B & _) (G & _ & A). apply (inv_reset g m o (init o)); cbn [init s_fo]; [lia|]. intros N. apply A; auto. Qed.

(** The state differs at most in the last position of [d], or has been reset before such a change. *)
Definition near (d : dir) (s s' : st) : Prop :=
  s_fo s' = s_fo s /\ s_zb s' = s_zb s /\ ((forall d', d' <> d -> s_pos s' d' = s_pos s d') /\ (forall d', s_start s' d' = s_start s d') \/ (forall d', s_start s' d' = ones) /\ (forall d', d' <> d -> s_pos s' d' = s_fo s)).
Lemma near_trans d a b c : near d a b -> near d b c -> near d a c.
Proof.
  intros (F & Z1 & H) (F' & Z2 & H'). split; [congruence|]. split; [congruence|]. destruct H' as [(P' & S')|(S' & P')].
  - destruct H as [(P & S)|(S & P)].
    + left. split; intros; [rewrite P' by auto; auto|rewrite S'; auto].
    + right. split; intros; [rewrite S'; auto|rewrite P'; auto].
  - right. split; auto. intros. rewrite P', F; auto.
Qed.
Lemma near_refl d s : near d s s.
Proof. split; [auto|]. split; [auto|]. left. auto. Qed.
Lemma near_nr d s n : near d s (set_nr s n).
Proof. split; [auto|]. split; [auto|]. left. auto. Qed.
Lemma near_reset d s : near d s (file_reset s).
Proof. split; [auto|]. split; [auto|]. right. auto. Qed.
Lemma near_set_pos d s v : near d s (set_pos s d v).
Proof. split; [auto|]. split; [auto|]. left. split; auto. intros. cbn. apply set_other. auto. Qed.

Lemma rand_block_ok o s b1 b2 s' b : rand_block o s b1 b2 = (s', b) -> (b = b1 \/ b = b2 \/ b = None) /\ forall d, near d s s'.
Proof.
  unfold rand_block. destruct b1; [intros H; inversion H; subst; split; auto; intros; apply near_refl|].
  destruct (_ || _); intros H; inversion H; subst; split; auto; intros; [apply near_reset|apply near_refl].
Qed.

(** The first part of get_next_seq_offset: the last position after the possible return to the beginning of the region. *)
Lemma seq_offset_ok g o s d s' p : conf o -> unit_ok g o -> 0 <= s_fo s < 2 ^ 61 -> (o_seq_add o <> 0 -> (g | s_fo s)) -> pos_ok g o (s_fo s) (s_pos s d) -> seq_offset o s d = (s', p) ->
  near d s s' /\ (forall x, p = Some x -> 0 <= x < 2 ^ 64 /\ (x < f_io o -> (g | x))) /\
  (o_seq_add o = 0 -> forall x, p = Some x -> x = s_pos s d - s_fo s \/ x = 0).
Proof.
  intros (_ & B1 & B2 & B3 & B4 & _) (G & _ & U) F A P H.
  assert (P0 : pos_ok g o (s_fo s) (s_fo s)) by (split; [lia|]; split; [rewrite Z.sub_diag; apply Z.divide_0_r|lia]).
  unfold seq_offset in H.
  set (s1 := if (s_pos s d >=? u64 (f_io o + o_start o)) && o_time_based o && o_one_file o then set_pos s d (s_fo s) else s) in H.
  assert (H1 : near d s s1 /\ (s_pos s1 d = s_pos s d \/ s_pos s1 d = s_fo s)).
  { unfold s1. destruct (_ && _); [|split; [apply near_refl|auto]]. split; [apply near_set_pos|]. right. cbn. apply set_same. }
  clearbody s1. destruct H1 as (N1 & E1).
  set (s2 := if o_overlap o then (if s_pos s1 d >=? u64 (f_io o + o_start o) then set_pos s1 d (s_fo s1) else s1) else s1) in H.
  assert (H2 : near d s s2 /\ (s_pos s2 d = s_pos s d \/ s_pos s2 d = s_fo s)).
  { unfold s2. destruct (o_overlap o); auto. destruct (_ >=? _); auto. split; [eapply near_trans; [exact N1|apply near_set_pos]|]. right. cbn. rewrite set_same. apply N1. }
  clearbody s2. clear s1 N1 E1. destruct H2 as (N2 & E2).
  assert (F2 : s_fo s2 = s_fo s) by apply N2. assert (P2 : pos_ok g o (s_fo s) (s_pos s2 d)) by (destruct E2 as [-> | ->]; auto).
  destruct (s_pos s2 d <? f_real o); [|inversion H; subst; split; auto; split; intros; discriminate].
  set (s3 := if (s_pos s2 d =? s_fo s2) && negb (s_fo s2 =? 0) && (o_seq_add o <? 0) then set_pos s2 d (if f_real o >? f_io o then f_io o else f_real o) else s2) in H.
  assert (H3 : near d s s3 /\ pos_ok g o (s_fo s) (s_pos s3 d) /\ (o_seq_add o = 0 -> s_pos s3 d = s_pos s d \/ s_pos s3 d = s_fo s)).
  { unfold s3. destruct (_ && _) eqn:E; [|split; auto; split; auto]. apply andb_prop in E. destruct E as (_ & E). apply Z.ltb_lt in E. split; [eapply near_trans; [exact N2|apply near_set_pos]|].
    split; [|lia]. cbn. rewrite set_same. destruct U as (_ & _ & U3 & U4 & _); [lia|]. specialize (A ltac:(lia)). destruct (_ >? _); (split; [lia|]; split; [apply Z.divide_sub_r; auto|lia]). }
  clearbody s3. destruct H3 as (N3 & P3 & E3). assert (F3 : s_fo s3 = s_fo s) by apply N3. rewrite F3 in H. destruct P3 as (Q1 & Q2 & Q3). inversion H; subst s' p. clear H. split; auto.
  destruct (Z.eqb_spec (o_seq_add o) 0) as [Z0|Z0]; cbn [negb].
  - rewrite andb_false_r. rewrite u64_small by lia. split; intros; match goal with E : Some _ = Some _ |- _ => inversion E; subst end; [split; [lia|auto]|]. destruct (E3 Z0) as [-> | ->]; [auto|right; lia].
  - split; [|congruence]. rewrite andb_true_r. intros x X. inversion X; subst x. clear X. destruct U as (U1 & U2 & U3 & U4 & _); auto. specialize (A Z0).
    assert (D1 : (g | s_pos s3 d - s_fo s + o_seq_add o)) by (apply Z.divide_add_r; auto).
    assert (M : u64 (u64 (s_pos s3 d - s_fo s) + o_seq_add o) = u64 (s_pos s3 d - s_fo s + o_seq_add o)) by (unfold u64; rewrite Zplus_mod_idemp_l; auto).
    assert (END : forall v, 0 <= v < 2 ^ 61 -> (g | v) -> 0 <= u64 (v + o_seq_add o) < 2 ^ 64 /\ (u64 (v + o_seq_add o) < f_io o -> (g | u64 (v + o_seq_add o)))).
    { intros v V D. split; [apply u64_range|]. intros L. destruct (Z_lt_le_dec (v + o_seq_add o) 0); [pose proof (u64_neg (v + o_seq_add o) ltac:(lia)); lia|]. rewrite u64_small by lia. apply Z.divide_add_r; auto. }
    destruct (Z.eqb_spec (u64 (s_pos s3 d - s_fo s)) 0) as [E0|E0]; cbn [negb]; [rewrite E0; split; [lia|intros; apply Z.divide_0_r]|]. rewrite M. clear M.
    destruct (Z_lt_le_dec (s_pos s3 d - s_fo s + o_seq_add o) 0) as [N|N].
    + pose proof (u64_neg (s_pos s3 d - s_fo s + o_seq_add o) ltac:(lia)). rewrite (proj2 (Z.geb_le _ _)) by lia. destruct (Z.gtb_spec (o_seq_add o) 0); [split; [lia|auto]|]. destruct (_ >? _); apply END; auto.
    + rewrite u64_small by lia. destruct (_ >=? _); [|split; [lia|auto]]. destruct (Z.gtb_spec (o_seq_add o) 0); [split; [lia|auto]|]. destruct (_ >? _); apply END; auto.
Qed.

(** All the starting points lie below [fo + lim] (strided zones). *)
Definition below (o : opts) (lim : Z) (s : st) (d : dir) : Prop :=
  o_seq_add o = 0 /\ 0 < lim /\ s_pos s d - s_fo s < lim /\ forall d', (o_rtw o = true -> d' <> DW) -> s_start s d' = ones \/ s_start s d' - s_fo s < lim.
Definition blocks_below (o : opts) (lim : Z) (i : inp) : Prop := forall b d, i_b1 i = Some b \/ i_b2 i = Some b -> b * o_ba o d < lim.

Lemma next_block_ok g o s d i hit s' x r busy : conf o -> unit_ok g o -> inp_ok o i -> inv0 g o s -> next_block o s d i hit = (s', Some (x, r, busy)) ->
  near d s s' /\ 0 <= x < 2 ^ 64 /\ (x < f_io o -> (g | x)) /\ (forall lim, below o lim s d -> blocks_below o lim i -> x < f_io o -> x < lim) /\
  (o_rtw o = true -> d = DW -> s' = s /\ (x < f_io o -> s_start s DT <> ones /\ x = s_start s DT - s_fo s)).
Proof.
  intros C U I V H. pose proof C as (CB & B1 & B2 & B3 & _). pose proof V as (F & A & P & S). pose proof U as (G & UB & _). pose proof I as (IB & _).
  assert (ST : forall d', (o_rtw o = true -> d' <> DW) -> s_start s d' <> ones -> s_fo s <= s_start s d' < 2 ^ 61 /\ (g | s_start s d' - s_fo s)) by (intros d' N E; destruct (S d' N); [contradiction|auto]).
  assert (RB : forall q b, pick o d None q = Some b -> (q = i_b1 i \/ q = i_b2 i \/ q = None) -> exists y, q = Some y /\ (i_b1 i = Some y \/ i_b2 i = Some y) /\ b = y * o_ba o d /\ 0 <= b < 2 ^ 64 /\ (g | b)).
  { intros q b E Q. unfold pick in E. destruct q as [y|]; [|discriminate]. destruct (y =? ones); [discriminate|]. exists y. assert (K : i_b1 i = Some y \/ i_b2 i = Some y) by (destruct Q as [<-|[<-|]]; [auto|auto|discriminate]).
    destruct (IB y K) as (Y0 & Y1). specialize (Y1 d). destruct (CB d) as (_ & _ & BA). destruct (UB d) as (UA & _). rewrite u64_small in E by nia. inversion E; subst b. split; auto. split; auto. split; auto. split; [nia|]. apply Z.divide_mul_r. auto. }
  assert (PS : forall x1 x2, pick o d (Some x1) None = Some x2 -> x2 = x1) by (intros x1 x2 E; unfold pick in E; destruct (x1 =? ones); congruence).
  unfold next_block in H. destruct (o_rtw o && dir_eqb d DW) eqn:RT.
  { apply andb_prop in RT. destruct RT as (R1 & R2). destruct (dir_eqb_spec d DW); [|discriminate]. subst d.
    destruct (pick _ _ _ _) as [y|] eqn:E; inversion H; subst. apply PS in E. subst x. split; [apply near_refl|]. split; [apply u64_range|].
    assert (NT : u64 (s_start s' DT - s_fo s') < f_io o -> s_start s' DT <> ones /\ u64 (s_start s' DT - s_fo s') = s_start s' DT - s_fo s').
    { intros L. assert (s_start s' DT <> ones) by (intros X; rewrite X in L; unfold ones in L; rewrite u64_small in L by lia; lia). split; auto. destruct (ST DT ltac:(congruence) H0). apply u64_small. lia. }
    split; [intros L; destruct (NT L) as (N1 & ->); apply ST; congruence|]. split; [|auto].
    intros lim (_ & _ & _ & BS) _ L. destruct (NT L) as (N1 & ->). destruct (BS DT ltac:(congruence)); [contradiction|auto]. }
  assert (LAST : o_rtw o = true -> d = DW -> False) by (intros R1 ->; rewrite R1 in RT; discriminate).
  assert (SEQ : forall s1 y, seq_offset o s d = (s1, Some y) -> near d s s1 /\ 0 <= y < 2 ^ 64 /\ (y < f_io o -> (g | y)) /\ (forall lim, below o lim s d -> blocks_below o lim i -> y < f_io o -> y < lim) /\ (o_rtw o = true -> d = DW -> s1 = s /\ (y < f_io o -> s_start s DT <> ones /\ y = s_start s DT - s_fo s))).
  { intros s1 y E. destruct (seq_offset_ok g o s d s1 (Some y) C U F A (P d) E) as (N & Y & Z1). split; auto. specialize (Y y eq_refl). split; [apply Y|]. split; [apply Y|]. split; [|intros; exfalso; auto].
    intros lim (L0 & L1 & L2 & _) _ _. destruct (Z1 L0 y eq_refl); lia. }
  assert (RAND : forall s1 s2 q y, near d s s1 -> rand_block o s1 (i_b1 i) (i_b2 i) = (s2, q) -> pick o d None q = Some y -> near d s s2 /\ 0 <= y < 2 ^ 64 /\ (y < f_io o -> (g | y)) /\ (forall lim, below o lim s d -> blocks_below o lim i -> y < f_io o -> y < lim) /\ (o_rtw o = true -> d = DW -> s2 = s /\ (y < f_io o -> s_start s DT <> ones /\ y = s_start s DT - s_fo s))).
  { intros s1 s2 q y N E K. apply rand_block_ok in E. destruct E as (Q & N2). destruct (RB q y K Q) as (b & -> & IBB & -> & Y & D). split; [eapply near_trans; [exact N|apply N2]|]. split; auto. split; auto. split; [|intros; exfalso; auto].
    intros lim _ BB _. apply BB. auto. }
  assert (SR : forall h b2, (let '(s0, off) := seq_offset o s d in
           match off with Some _ => (s0, match pick o d off None with Some x => Some (x, h, b2) | None => None end) | None => let '(s1, b) := rand_block o s0 (i_b1 i) (i_b2 i) in (s1, match pick o d None b with Some x => Some (x, h, b2) | None => None end) end) = (s', Some (x, r, busy)) ->
    near d s s' /\ 0 <= x < 2 ^ 64 /\ (x < f_io o -> (g | x)) /\ (forall lim, below o lim s d -> blocks_below o lim i -> x < f_io o -> x < lim) /\ (o_rtw o = true -> d = DW -> s' = s /\ (x < f_io o -> s_start s DT <> ones /\ x = s_start s DT - s_fo s))).
  { intros h b2 E. destruct (seq_offset o s d) as [s1 [y|]] eqn:ES.
    - destruct (pick o d (Some y) None) as [z|] eqn:EP; inversion E; subst. apply PS in EP. subst. apply SEQ. auto.
    - destruct (seq_offset_ok g o s d s1 None C U F A (P d) ES) as (N & _). destruct (rand_block o s1 (i_b1 i) (i_b2 i)) as [s2 q] eqn:ER. destruct (pick o d None q) as [z|] eqn:EP; inversion E; subst. eapply RAND; eauto. }
  destruct hit.
  - destruct (o_random o).
    + destruct (i_rand i); [|apply SR in H; exact H].
      destruct (rand_block o s (i_b1 i) (i_b2 i)) as [s2 q] eqn:ER. destruct (pick o d None q) as [z|] eqn:EP; inversion H; subst. eapply RAND; eauto. apply near_refl.
    + destruct (seq_offset o s d) as [s1 [y|]] eqn:ES.
      * destruct (pick o d (Some y) None) as [z|] eqn:EP; inversion H; subst. apply PS in EP. subst. apply SEQ. auto.
      * cbn in H. inversion H.
  - destruct (o_ident o); [|apply SR in H; exact H].
    destruct (pick _ _ _ _) as [y|] eqn:E; inversion H; subst. apply PS in E. subst x. split; [apply near_refl|].
    destruct (Z.eqb_spec (s_start s' d) ones) as [E1|E1].
    + split; [lia|]. split; [intros; apply Z.divide_0_r|]. split; [|intros; exfalso; auto]. intros lim (_ & L1 & _) _ _. auto.
    + destruct (ST d ltac:(intros R1 ->; auto) E1) as (Q1 & Q2). rewrite u64_small by lia. split; [lia|]. split; [auto|]. split; [|intros; exfalso; auto].
      intros lim (_ & _ & _ & BS) _ _. destruct (BS d ltac:(intros R1 ->; auto)); [contradiction|auto].
Qed.

Lemma near_inv0 g o d s s' : inv0 g o s -> near d s s' -> pos_ok g o (s_fo s) (s_pos s' d) -> inv0 g o s'.
Proof.
  intros (F & A & P & S) (E & _ & N) Q. unfold inv0. rewrite E. split; auto. split; auto. split.
  - intros d'. destruct (dir_eqb_spec d' d) as [->|X]; auto. destruct N as [(N1 & _)|(_ & N1)]; rewrite N1 by auto; auto. apply pos_ok_base. auto.
  - intros d' R. destruct N as [(_ & N1)|(N1 & _)]; rewrite N1; auto. left. auto.
Qed.
Lemma near_trim g m d s s' : d <> DT -> trim_ok g m s -> near d s s' -> trim_ok g m s'.
Proof. intros D T (_ & _ & [(N1 & N2)|(N1 & _)]); [unfold trim_ok; rewrite N2, N1; auto|left; apply N1]. Qed.
Definition zinv (o : opts) (lim : Z) (s : st) : Prop := forall d', (o_rtw o = true -> d' <> DW) -> s_start s d' = ones \/ s_start s d' - s_fo s < lim.
Lemma near_zinv o lim d s s' : zinv o lim s -> near d s s' -> zinv o lim s'.
Proof. intros Z1 (E & _ & N) d' R. rewrite E. destruct N as [(_ & N1)|(N1 & _)]; rewrite N1; auto. Qed.

Lemma zone_setup_ok g m o s d : conf o -> unit_ok g o -> inv g m o s -> let s' := zone_setup o s d in
  inv0 g o s' /\ (o_rtw o = true -> d <> DT -> trim_ok g m s') /\ forall r z k, o_zone o = Some (r, z, k) -> s_pos s' d - s_fo s' < r /\ (zinv o r s -> zinv o r s').
Proof.
  intros C (G & _ & U) (V & T) s'. pose proof C as (_ & B1 & _ & B3 & _ & CZ & _). unfold s', zone_setup. destruct (o_zone o) as [[[r z] k]|] eqn:EZ; [|split; [auto|]; split; [auto|]; intros; discriminate].
  destruct (CZ r z k eq_refl) as (R & K). clear s' CZ.
  set (s1 := if s_zb s >=? z then _ else s).
  assert (H1 : (s1 = s \/ s_zb s1 = 0) /\ 0 <= s_fo s1 < 2 ^ 61 /\ (o_seq_add o <> 0 -> (g | s_fo s1))).
  { destruct V as (F & A & _). unfold s1. destruct (s_zb s >=? z); [|auto]. cbn [s_zb s_fo]. split; auto. rewrite u64_small by lia. destruct (Z.geb_spec (s_fo s + r + k) (f_real o)).
    - split; [lia|]. intros N. apply U; auto.
    - split; [lia|]. intros N. destruct (U N) as (_ & _ & _ & _ & UZ). destruct (UZ r z k eq_refl). apply Z.divide_add_r; auto. apply Z.divide_add_r; auto. }
  clearbody s1. destruct H1 as (E1 & F1 & A1).
  set (s2 := if s_pos s1 d >=? u64 (s_fo s1 + r) then set_pos s1 d (s_fo s1) else s1).
  assert (H2 : near d s1 s2 /\ (s_pos s2 d = s_pos s1 d \/ s_pos s2 d = s_fo s1) /\ s_pos s2 d < s_fo s1 + r).
  { unfold s2. rewrite u64_small by lia. destruct (Z.geb_spec (s_pos s1 d) (s_fo s1 + r)); [|split; [apply near_refl|auto]]. split; [apply near_set_pos|]. cbn. rewrite set_same. split; [auto|lia]. }
  clearbody s2. destruct H2 as (N2 & E2 & L2). assert (F2 : s_fo s2 = s_fo s1) by apply N2.
  assert (RS : inv g m o (file_reset s2)) by (apply inv_reset; rewrite F2; auto).
  destruct (Z.eqb_spec (s_zb s2 mod r) 0) as [M|M].
  - split; [apply RS|]. split; [intros; apply RS; auto|]. intros r0 z0 k0 EQ. inversion EQ; subst r0 z0 k0. cbn [file_reset s_pos s_fo s_start]. split; [lia|]. intros _ d' _. left. auto.
  - destruct E1 as [->|E0].
    + split; [|split].
      * apply (near_inv0 g o d s s2); auto. destruct V as (F & A & P & _). destruct E2 as [-> | ->]; auto. apply pos_ok_base. auto.
      * intros. apply (near_trim g m d s); auto.
      * intros r0 z0 k0 EQ. inversion EQ; subst r0 z0 k0. split; [lia|]. intros. eapply near_zinv; eauto.
    + exfalso. apply M. assert (E : s_zb s2 = s_zb s1) by apply N2. rewrite E, E0. apply Z.mod_0_l. lia.
Qed.

(** get_next_offset. *)
Lemma next_offset_ok g m o s d i s' res : conf o -> unit_ok g o -> inp_ok o i -> inv0 g o s -> (o_rtw o = true -> d <> DT -> trim_ok g m s) -> next_offset o s d i = (s', res) ->
  s_fo s' = s_fo s /\ forall off r busy, res = Some (off, r, busy) ->
  (exists s1, near d s s1 /\ s_pos s' = s_pos s1 /\ (forall d', (o_rtw o = true -> d' <> DW) -> s_start s' d' = s_start s1 d')) /\
  s_fo s <= off < s_fo s + f_io o /\ off < f_real o /\ (g | off - s_fo s) /\ (forall lim, below o lim s d -> blocks_below o lim i -> off - s_fo s < lim) /\
  (o_rtw o = true -> d = DW -> s_start s DT <> ones /\ off = s_start s DT /\ s_start s' DT = s_start s DT /\ s_pos s' DT = s_pos s DT).
Proof.
  intros C U I V T H. pose proof V as (F & _). pose proof C as (_ & B1 & B2 & B3 & _). unfold next_offset in H.
  destruct (if o_seq_nr o =? 0 then _ else _) as [s0 hit] eqn:EN in H.
  assert (HN : s_fo s0 = s_fo s /\ s_pos s0 = s_pos s /\ s_start s0 = s_start s /\ s_zb s0 = s_zb s).
  { destruct (o_seq_nr o =? 0); [|cbv zeta in EN; destruct (s_nr s - 1 =? 0)]; inversion EN; subst; auto. }
  destruct HN as (E1 & E2 & E3 & E4). clear EN.
  assert (V0 : inv0 g o s0) by (unfold inv0; rewrite E1, E2, E3; exact V).
  assert (NR : near d s s0) by (split; [auto|]; split; [auto|]; left; rewrite E2, E3; auto).
  destruct (next_block o s0 d i hit) as [s1 [[[x r0] busy0]|]] eqn:EB.
  2: { inversion H; subst. split; [|intros; discriminate].
       (* the state of a failed attempt *)
       assert (K : exists g0, near d s0 s' /\ g0 = 0); [|destruct K as (_ & K & _); destruct K; congruence]. exists 0. split; auto.
       unfold next_block in EB. 
       assert (NS : forall sx q, seq_offset o s0 d = (sx, q) -> near d s0 sx) by (intros sx q E; destruct V0 as (F0 & A0 & P0 & _); eapply (seq_offset_ok g o s0 d sx q); eauto).
       assert (NB : forall sa sx q, near d s0 sa -> rand_block o sa (i_b1 i) (i_b2 i) = (sx, q) -> near d s0 sx) by (intros sa sx q N E; apply rand_block_ok in E; destruct E as (_ & E); eapply near_trans; eauto).
       destruct (_ && _); [inversion EB; subst; apply near_refl|]. destruct hit.
       - destruct (o_random o).
         + destruct (i_rand i); [destruct (rand_block o s0 _ _) as [sx q] eqn:E; inversion EB; subst; eapply NB; eauto; apply near_refl|].
           destruct (seq_offset o s0 d) as [sx [y|]] eqn:ES; [inversion EB; subst; eapply NS; eauto|]. destruct (rand_block o sx _ _) as [sy q] eqn:E; inversion EB; subst. eapply NB; eauto.
         + destruct (seq_offset o s0 d) as [sx q] eqn:ES; inversion EB; subst; eapply NS; eauto.
       - destruct (o_ident o); [inversion EB; subst; apply near_refl|].
         destruct (seq_offset o s0 d) as [sx [y|]] eqn:ES; [inversion EB; subst; eapply NS; eauto|]. destruct (rand_block o sx _ _) as [sy q] eqn:E; inversion EB; subst. eapply NB; eauto. }
  destruct (next_block_ok g o s0 d i hit s1 x r0 busy0 C U I V0 EB) as (N1 & X1 & X2 & X3 & X4).
  assert (F1 : s_fo s1 = s_fo s) by (destruct N1; congruence).
  destruct (Z.geb_spec x (f_io o)) as [L1|L1]; [inversion H; subst; split; [auto|intros; discriminate]|].
  rewrite F1 in H. rewrite u64_small in H by lia. destruct (Z.geb_spec (x + s_fo s) (f_real o)) as [L2|L2]; [inversion H; subst; split; [auto|intros; discriminate]|].
  set (s2 := if o_rtw o && dir_eqb d DT && (s_start s1 DT =? x + s_fo s) then mkS (s_fo s) (s_pos s1) (set (s_start s1) DW (u64 (s_start s1 DW - 1))) (s_nr s1) (s_zb s1) else s1) in H.
  assert (H2 : s_fo s2 = s_fo s1 /\ s_pos s2 = s_pos s1 /\ (forall d', (o_rtw o = true -> d' <> DW) -> s_start s2 d' = s_start s1 d') /\ (d = DW -> s2 = s1)).
  { unfold s2. destruct (_ && _) eqn:ED; [|auto]. cbn [s_fo s_pos s_start]. apply andb_prop in ED. destruct ED as (ED & _). apply andb_prop in ED. destruct ED as (ER & ED). destruct (dir_eqb_spec d DT); [|discriminate].
    split; auto. split; auto. split; [|congruence]. intros d' N. apply set_other. auto. }
  clearbody s2. destruct H2 as (G1 & G2 & G3 & G4). inversion H; subst s' res. clear H. split; [congruence|]. intros off r busy E. inversion E; subst off r busy. clear E.
  split; [exists s1; split; [eapply near_trans; eauto|auto]|]. split; [lia|]. split; [lia|]. replace (x + s_fo s - s_fo s) with x by lia. split; [auto|]. split.
  - intros lim BL BB. apply X3; auto. destruct BL as (K1 & K2 & K3 & K4). unfold below. rewrite E1, E2, E3. auto.
  - intros R D. destruct (X4 R D) as (-> & X5). destruct (X5 L1) as (X6 & X7). rewrite E3 in X6, X7. split; auto. split; [rewrite E1 in X7; lia|]. rewrite (G4 D), E2, E3. auto.
Qed.

Lemma next_buflen_ok g m o s d i off r len : conf o -> unit_ok g o -> inp_ok o i -> (forall e, b_max (o_b o e) <= m) -> (o_rtw o && dir_eqb d DW = false) -> next_buflen o s d i off r = Some len -> len <> 0 ->
  1 <= len <= m /\ len < 2 ^ 61 /\ (g | len) /\ ((forall e, b_min (o_b o e) <> b_max (o_b o e)) -> u64 (off + len) <= u64 (f_io o + o_start o)) /\ exists e, b_min (o_b o e) <= len <= b_max (o_b o e) /\ (o_seq_rand o = false -> e = d).
Proof.
  intros (CB & _) (G & UB & _) (_ & ID & _) M R H L0. unfold next_buflen in H. rewrite R in H.
  set (e := if o_seq_rand o then (if r then DW else DR) else d) in H. assert (EE : o_seq_rand o = false -> e = d) by (unfold e; intros ->; auto). clearbody e.
  destruct (CB e) as (GE & BE & _). specialize (M e). destruct (UB e) as (_ & UM & UX).
  destruct (C30_size _ _ _ _ _ GE ID H) as [(X & _)|(S1 & S2 & _)]; [contradiction|]. pose proof GE as (Gm & _). split; [lia|]. split; [lia|]. split; [|split; [|eauto]].
  - destruct UX as [->|(U1 & U2)]; [apply Z.divide_1_l|]. eapply Z.divide_trans; [exact UM|]. eapply C30_multiple; eauto.
  - intros V. specialize (S2 (V e)). unfold io_u_fits in S2. apply Z.leb_le in S2. auto.
Qed.
Lemma mark_ok g o d i busy len : unit_ok g o -> conf o -> inp_ok o i -> 1 <= len -> (g | len) -> 1 <= mark o d i busy len <= len /\ (g | mark o d i busy len).
Proof.
  intros (_ & UB & _) (CB & _) (_ & _ & IM) L D. unfold mark. destruct (_ && _); [|split; [lia|auto]]. destruct (i_mark i) as [nr|]; [|split; [lia|auto]].
  destruct (IM nr eq_refl) as (N1 & N2). specialize (N2 d). destruct (CB d) as ((G1 & _) & _). rewrite u64_small by nia. destruct (Z.ltb_spec (nr * b_min (o_b o d)) len); [|split; [lia|auto]]. split; [nia|]. apply Z.divide_mul_r. apply UB.
Qed.

Lemma fill_ok g m o s i s' x : conf o -> unit_ok g o -> inp_ok o i -> (forall e, b_max (o_b o e) <= m) -> inv g m o s -> fill o s i = Some (s', x) ->
  inv g m o s' /\ (forall r z k, o_zone o = Some (r, z, k) -> o_seq_add o = 0 -> blocks_below o r i -> zinv o r s -> zinv o r s') /\
  forall d fo off len, x = Issued d fo off len -> d = the_dir o s i /\ fo = s_fo s' /\ fo <= off < fo + f_io o /\ 1 <= len <= m /\ off + len <= f_real o /\ (g | off - fo) /\ (g | len) /\
    ((forall e, b_min (o_b o e) <> b_max (o_b o e)) -> o_rtw o = false -> off + len <= f_io o + o_start o) /\
    (forall r z k, o_zone o = Some (r, z, k) -> o_seq_add o = 0 -> blocks_below o r i -> zinv o r s -> off - fo < r).
Proof.
  intros C U I M V H. unfold fill in H. set (d := the_dir o s i) in *.
  destruct (zone_setup_ok g m o s d C U V) as (V1 & T1 & Z1). pose proof C as (CB & B1 & B2 & B3 & _ & CZ & _).
  set (s1 := zone_setup o s d) in *. clearbody s1.
  destruct (next_offset o s1 d i) as [s2 res] eqn:EO. destruct (next_offset_ok g m o s1 d i s2 res C U I V1 T1 EO) as (F2 & K).
  pose proof V1 as (F1 & A1 & P1 & S1).
  assert (RS : inv g m o (file_reset s2) /\ forall r, zinv o r (file_reset s2)) by (split; [apply inv_reset; rewrite F2; auto|intros r d' _; left; auto]).
  assert (NOM : forall sx y, Some (file_reset s2, NoMore) = Some (sx, y) -> inv g m o sx /\ (forall r z k, o_zone o = Some (r, z, k) -> o_seq_add o = 0 -> blocks_below o r i -> zinv o r s -> zinv o r sx) /\ y = NoMore) by (intros sx y E; inversion E; subst; split; [apply RS|]; split; [intros; apply RS|auto]).
  destruct res as [[[off r] busy]|]; [|destruct (NOM _ _ H) as (A & B & ->); split; auto; split; auto; intros; discriminate].
  destruct (K off r busy eq_refl) as (NE & O1 & O2 & O3 & O4 & O5). clear K.
  destruct (next_buflen o s2 d i off r) as [len|] eqn:EL; [|discriminate].
  destruct (Z.eqb_spec len 0) as [L0|L0]; [destruct (NOM _ _ H) as (A & B & ->); split; auto; split; auto; intros; discriminate|].
  assert (LEN : 1 <= len <= m /\ len < 2 ^ 63 /\ (g | len) /\ ((forall e, b_min (o_b o e) <> b_max (o_b o e)) -> o_rtw o = false -> u64 (off + len) <= u64 (f_io o + o_start o))).
  { destruct (o_rtw o && dir_eqb d DW) eqn:RT.
    - unfold next_buflen in EL. rewrite RT in EL. apply andb_prop in RT. destruct RT as (R1 & R2). destruct (dir_eqb_spec d DW) as [DE|]; [|discriminate]. destruct (O5 R1 DE) as (Q1 & Q2 & Q3 & Q4).
      destruct (T1 R1) as [X|(X1 & X2)]; [congruence|contradiction|]. rewrite Q3, Q4 in EL. destruct (P1 DT) as (X3 & _). destruct (S1 DT) as [X4|(X4 & _)]; [congruence|contradiction|].
      rewrite u64_small in EL by lia. inversion EL; subst len. split; [lia|]. split; [lia|]. split; [auto|]. congruence.
    - destruct (next_buflen_ok g m o s2 d i off r len C U I M RT EL L0) as (X1 & X2 & X3 & X4 & _). split; auto. split; [lia|]. split; auto. }
  destruct LEN as (L1 & L2 & L3 & L4). rewrite u64_small in H, L4 by lia. rewrite u64_small in L4 by lia.
  destruct (Z.gtb_spec (off + len) (f_real o)) as [X|X]; [destruct (NOM _ _ H) as (A & B & ->); split; auto; split; auto; intros; discriminate|].
  destruct (mark_ok g o d i busy len U C I ltac:(lia) L3) as (ML & MD). set (ln := mark o d i busy len) in *. clearbody ln. rewrite u64_small in H by lia. inversion H; subst s' x. clear H.
  destruct NE as (sn & N1 & N2 & N3).
  assert (FN : s_fo s2 = s_fo s1) by auto.
  assert (ZB : forall r0 z k, o_zone o = Some (r0, z, k) -> o_seq_add o = 0 -> blocks_below o r0 i -> zinv o r0 s -> off - s_fo s1 < r0).
  { intros r0 z k E A BB ZI. destruct (Z1 r0 z k E) as (Y1 & Y2). apply O4; auto. split; auto. split; [destruct (CZ r0 z k E); lia|]. split; auto. apply Y2. auto. }
  split; [|split].
  - split.
    + unfold inv0; cbn [s_fo s_pos s_start]. rewrite FN. split; auto. split; auto. split.
      * intros d'. unfold set. destruct (dir_eqb_spec d d') as [->|ND]; [split; [lia|]; split; [|lia]; replace (off + ln - s_fo s1) with (off - s_fo s1 + ln) by lia; apply Z.divide_add_r; auto|].
        rewrite N2. destruct N1 as (_ & _ & [(N1 & _)|(_ & N1)]); rewrite N1 by auto; auto. apply pos_ok_base; auto.
      * intros d' R. unfold set. destruct (dir_eqb_spec d d') as [->|ND]; [right; split; [lia|auto]|]. rewrite N3 by auto. destruct N1 as (_ & _ & [(_ & N1)|(N1 & _)]); rewrite N1; auto. left. auto.
    + intros R. unfold trim_ok; cbn [s_fo s_pos s_start]. unfold set. destruct (dir_eqb_spec d DT) as [DE|ND]; [right; replace (off + ln - off) with ln by lia; split; [lia|auto]|].
      rewrite N3 by congruence. rewrite N2. specialize (T1 R ND). destruct N1 as (_ & _ & [(N1 & N4)|(N4 & N1)]); [|left; apply N4]. rewrite N4, N1 by auto. auto.
  - intros r0 z k E A BB ZI d' R. cbn [s_fo s_pos s_start]. rewrite FN. unfold set. destruct (dir_eqb_spec d d'); [right; eapply ZB; eauto|]. rewrite N3 by auto. destruct (Z1 r0 z k E) as (_ & Y2). destruct N1 as (_ & _ & [(_ & N1)|(N1 & _)]); rewrite N1; auto. apply (Y2 ZI d' R).
  - intros d0 fo0 off0 len0 E. inversion E; subst d0 fo0 off0 len0. cbn [s_fo]. split; auto. split; auto. rewrite FN. split; [lia|]. split; [lia|]. split; [lia|]. split; auto. split; auto. split.
    + intros VV RR. specialize (L4 VV RR). lia.
    + exact ZB.
Qed.

Lemma run_ok g m o : conf o -> unit_ok g o -> (forall e, b_max (o_b o e) <= m) -> forall is s s' xs, Forall (inp_ok o) is -> inv g m o s -> run o s is = Some (s', xs) ->
  inv g m o s' /\ forall d fo off len, In (Issued d fo off len) xs -> 0 <= fo /\ fo <= off < fo + f_io o /\ 1 <= len <= m /\ off + len <= f_real o /\ (g | off - fo) /\ (g | len) /\
    ((forall e, b_min (o_b o e) <> b_max (o_b o e)) -> o_rtw o = false -> off + len <= f_io o + o_start o) /\
    (forall r z k, o_zone o = Some (r, z, k) -> o_seq_add o = 0 -> Forall (blocks_below o r) is -> zinv o r s -> off - fo < r) /\
    (o_zone o = None -> fo = s_fo s).
Proof.
  intros C U M. induction is as [|i is IH]; intros s s' xs FI V H; cbn [run] in H; [inversion H; subst; split; auto; intros ? ? ? ? []|].
  inversion FI; subst. destruct (fill o s i) as [[s1 x]|] eqn:E1; [|discriminate]. destruct (run o s1 is) as [[s2 xs1]|] eqn:E2; [|discriminate]. inversion H; subst s2 xs. clear H.
  destruct (fill_ok g m o s i s1 x C U H2 M V E1) as (V1 & Z1 & O1). destruct (IH s1 s' xs1 H3 V1 E2) as (V2 & O2). split; auto.
  assert (FO : o_zone o = None -> s_fo s1 = s_fo s).
  { intros EZ. unfold fill in E1. unfold zone_setup in E1. rewrite EZ in E1. destruct (next_offset o s (the_dir o s i) i) as [sa res] eqn:EN. destruct V as (V0 & T0). destruct (next_offset_ok g m o s (the_dir o s i) i sa res C U H2 V0 ltac:(auto) EN) as (FF & _).
    destruct res as [[[off r] busy]|]; [|inversion E1; subst; auto]. destruct (next_buflen _ _ _ _ _ _); [|discriminate]. destruct (_ =? 0); [inversion E1; subst; auto|]. destruct (_ >? _); inversion E1; subst; auto. }
  intros d fo off len [HX|HX].
  - destruct (O1 d fo off len HX) as (_ & A2 & A3 & A4 & A5 & A6 & A7 & A8 & A9). destruct V1 as ((F1 & _) & _). split; [lia|]. split; auto. split; auto. split; auto. split; auto. split; auto. split; auto. split.
    + intros r z k EZ EA FB ZI. inversion FB; subst. eapply A9; eauto.
    + intros EZ. rewrite A2. auto.
  - destruct (O2 d fo off len HX) as (A2 & A3 & A4 & A5 & A6 & A7 & A8 & A9 & A10). split; [lia|]. split; auto. split; auto. split; auto. split; auto. split; auto. split; auto. split.
    + intros r z k EZ EA FB ZI. inversion FB; subst. eapply A9; eauto.
    + intros EZ. rewrite A10; auto.
Qed.

(** A plain sequential job with blocks of [bs] in a region of [n] blocks. *)
Definition seqconf (o : opts) (bs n : Z) : Prop :=
  conf o /\ o_random o = false /\ o_seq_nr o = 1 /\ o_seq_add o = 0 /\ o_zone o = None /\ o_tw o = false /\ o_rtw o = false /\ (forall d, b_min (o_b o d) = bs /\ b_max (o_b o d) = bs) /\ f_io o = n * bs /\ 1 <= n /\ o_start o + f_io o <= f_real o.
Definition wraps (o : opts) : bool := (o_time_based o && o_one_file o) || o_overlap o.
Definition seqstate (o : opts) (bs n : Z) (s : st) (c : dir -> Z) : Prop := s_fo s = o_start o /\ s_nr s = 1 /\ forall d, s_pos s d = o_start o + c d * bs /\ 0 <= c d <= n.

Lemma seq_step o bs n s c i : seqconf o bs n -> seqstate o bs n s c -> let d := i_dir i in let k := if wraps o && (c d =? n) then 0 else c d in
  if k =? n then exists s', fill o s i = Some (s', NoMore) /\ seqstate o bs n s' (fun _ => 0)
  else exists s', fill o s i = Some (s', Issued d (o_start o) (o_start o + k * bs) bs) /\ seqstate o bs n s' (set c d (k + 1)).
Proof.
  intros ((CB & B1 & B2 & B3 & _) & ER & EN & EA & EZ & ET & ERT & EB & EI & N1 & RG) (F & SN & P) d k.
  assert (BS : 1 <= bs < 2 ^ 61) by (destruct (CB DR) as ((G1 & _) & G2 & _); destruct (EB DR); lia).
  destruct (P d) as (PD & CD). assert (LIM : u64 (f_io o + o_start o) = f_io o + o_start o) by (apply u64_small; lia).
  assert (GE : (s_pos s d >=? u64 (f_io o + o_start o)) = (c d =? n)).
  { rewrite LIM, PD, EI. destruct (Z.eqb_spec (c d) n) as [->|NE]; [apply Z.geb_le; lia|]. destruct (Z.geb_spec (o_start o + c d * bs) (n * bs + o_start o)); auto. nia. }
  (* the position after the possible return to the start *)
  assert (SEQ : exists sx, (forall d', s_pos sx d' = if dir_eqb d d' then o_start o + k * bs else s_pos s d') /\ s_fo sx = o_start o /\ s_nr sx = 1 /\ s_start sx = s_start s /\
            seq_offset o (set_nr s 1) d = if s_pos sx d <? f_real o then (sx, Some (k * bs)) else (sx, None)).
  { unfold seq_offset. cbn [s_pos s_fo set_nr]. fold d. rewrite GE.
    set (s1 := if (c d =? n) && o_time_based o && o_one_file o then set_pos (set_nr s 1) d (s_fo s) else set_nr s 1).
    set (s2 := if o_overlap o then (if s_pos s1 d >=? u64 (f_io o + o_start o) then set_pos s1 d (s_fo s1) else s1) else s1).
    assert (X : (forall d', s_pos s2 d' = if dir_eqb d d' then o_start o + k * bs else s_pos s d') /\ s_fo s2 = o_start o /\ s_nr s2 = 1 /\ s_start s2 = s_start s).
    { assert (X1 : (forall d', s_pos s1 d' = if dir_eqb d d' then o_start o + (if (c d =? n) && o_time_based o && o_one_file o then 0 else c d) * bs else s_pos s d') /\ s_fo s1 = o_start o /\ s_nr s1 = 1 /\ s_start s1 = s_start s).
      { unfold s1. destruct ((c d =? n) && o_time_based o && o_one_file o); cbn [set_pos set_nr s_pos s_fo s_nr s_start].
        - split; [|auto]. intros d'. unfold set. destruct (dir_eqb_spec d d'); [lia|auto].
        - split; [|auto]. intros d'. destruct (dir_eqb_spec d d') as [<-|]; [lia|auto]. }
      clearbody s1. destruct X1 as (X1 & X2 & X3 & X4). pose proof (X1 d) as X1d. destruct (dir_eqb_spec d d) as [_|]; [|congruence].
      assert (KE : k = if o_overlap o then (if (c d =? n) then 0 else c d) else (if (c d =? n) && o_time_based o && o_one_file o then 0 else c d)).
      { unfold k, wraps. destruct (o_overlap o), (c d =? n), (o_time_based o), (o_one_file o); reflexivity. }
      unfold s2. destruct (o_overlap o); [|split; [|auto]; intros d'; rewrite X1; rewrite KE; auto].
      assert (G2 : (s_pos s1 d >=? u64 (f_io o + o_start o)) = (c d =? n) && negb (o_time_based o && o_one_file o)).
      { rewrite X1d, LIM, EI. destruct (Z.eqb_spec (c d) n) as [->|NE]; cbn [andb].
        - destruct (o_time_based o && o_one_file o); cbn [negb]; [|apply Z.geb_le; lia]. destruct (Z.geb_spec (o_start o + 0 * bs) (n * bs + o_start o)); auto. nia.
        - destruct (Z.geb_spec (o_start o + c d * bs) (n * bs + o_start o)); auto. nia. }
      rewrite G2. rewrite KE. destruct (Z.eqb_spec (c d) n) as [E|NE]; cbn [andb] in *.
      - destruct (o_time_based o && o_one_file o) eqn:TB; cbn [negb]; [split; auto|]. cbn [set_pos s_pos s_fo s_nr s_start]. split; [|auto]. intros d'. unfold set. rewrite X1. destruct (dir_eqb d d'); lia.
      - split; auto. }
    clearbody s2. destruct X as (X1 & X2 & X3 & X4). exists s2. split; auto. split; auto. split; auto. split; auto.
    pose proof (X1 d) as X1d. destruct (dir_eqb_spec d d) as [_|]; [|congruence]. rewrite X1d. assert (KB : 0 <= k <= n) by (unfold k; destruct (_ && _); lia).
    destruct (Z.ltb_spec (o_start o + k * bs) (f_real o)); [|auto]. rewrite EA. change (0 <? 0) with false. change (negb (0 =? 0)) with false. rewrite !andb_false_r. rewrite X1d, X2. rewrite u64_small by nia. do 2 f_equal. lia. }
  destruct SEQ as (sx & X1 & X2 & X3 & X4 & ES). pose proof (X1 d) as X1d. destruct (dir_eqb_spec d d) as [_|]; [|congruence]. assert (KB : 0 <= k <= n) by (unfold k; destruct (_ && _); lia).
  assert (NO : next_offset o s d i = match seq_offset o (set_nr s 1) d with (sy, None) => (sy, None) | (sy, Some x) => if x >=? f_io o then (sy, None) else (sy, Some (x + o_start o, false, false)) end).
  { unfold next_offset. rewrite EN, SN. change (1 =? 0) with false. change (1 - 1 =? 0) with true. cbv beta iota zeta. unfold next_block. rewrite ERT, ER. cbn [andb]. rewrite ES. rewrite X1d.
    destruct (Z.ltb_spec (o_start o + k * bs) (f_real o)); [|reflexivity]. unfold pick, ones. destruct (Z.eqb_spec (k * bs) (2 ^ 64 - 1)); [nia|]. destruct (Z.geb_spec (k * bs) (f_io o)); [reflexivity|]. rewrite X2. rewrite u64_small by lia.
    destruct (Z.geb_spec (k * bs + o_start o) (f_real o)); [lia|]. reflexivity. }
  assert (FE : fill o s i = match seq_offset o (set_nr s 1) d with (sy, None) => Some (file_reset sy, NoMore) | (sy, Some x) => if x >=? f_io o then Some (file_reset sy, NoMore) else
     (if x + o_start o + bs >? f_real o then Some (file_reset sy, NoMore) else Some (mkS (s_fo sy) (set (s_pos sy) d (x + o_start o + bs)) (set (s_start sy) d (x + o_start o)) (s_nr sy) (s_zb sy + bs), Issued d (s_fo sy) (x + o_start o) bs)) end).
  { unfold fill, the_dir, zone_setup. rewrite ET, EZ. fold d. rewrite NO, ES, X1d. destruct (Z.ltb_spec (o_start o + k * bs) (f_real o)); [|reflexivity]. destruct (Z.geb_spec (k * bs) (f_io o)); [reflexivity|].
    unfold next_buflen. rewrite ERT. cbn [andb]. unfold get_next_buflen. set (e := if o_seq_rand o then DR else d). destruct (EB e) as (E1 & E2). rewrite E1, E2, Z.eqb_refl. destruct (Z.eqb_spec bs 0); [lia|].
    unfold mark. rewrite ER. cbn [andb]. rewrite u64_small by lia. reflexivity. }
  rewrite FE, ES, X1d. clear FE NO ES.
  assert (EN2 : forall sy, s_fo sy = o_start o -> s_nr sy = 1 -> seqstate o bs n (file_reset sy) (fun _ => 0)).
  { intros sy Y1 Y2. split; [auto|]. split; [auto|]. intros d'. cbn [file_reset s_pos]. lia. }
  destruct (Z.eqb_spec k n) as [E|NE].
  - destruct (Z.ltb_spec (o_start o + k * bs) (f_real o)); [|eexists; split; [reflexivity|apply EN2; auto]].
    destruct (Z.geb_spec (k * bs) (f_io o)); [|nia]. eexists; split; [reflexivity|apply EN2; auto].
  - destruct (Z.ltb_spec (o_start o + k * bs) (f_real o)); [|nia]. destruct (Z.geb_spec (k * bs) (f_io o)); [nia|]. destruct (Z.gtb_spec (k * bs + o_start o + bs) (f_real o)); [nia|].
    eexists. split; [rewrite X2; do 3 f_equal; lia|]. split; [auto|]. split; [auto|]. cbn [s_pos]. intros d'. unfold set. destruct (dir_eqb_spec d d') as [<-|ND]; [lia|]. rewrite X1. destruct (dir_eqb_spec d d'); [congruence|]. apply P.
Qed.

(** The number of blocks since the last return to the start, after [k] requests. *)
Definition phase (w : bool) (n k : Z) : Z := if w then (if k =? 0 then 0 else (k - 1) mod n + 1) else k.
Lemma phase_step w n k : 1 <= n -> 0 <= k -> (w = false -> k < n) -> let c := phase w n k in let q := if w && (c =? n) then 0 else c in q = (if w then k mod n else k) /\ q < n /\ phase w n (k + 1) = q + 1.
Proof.
  intros N K W. unfold phase. destruct w; cbn [andb]; [|specialize (W eq_refl); lia]. destruct (Z.eqb_spec (k + 1) 0); [lia|]. replace (k + 1 - 1) with k by lia. pose proof (Z.mod_pos_bound k n ltac:(lia)).
  destruct (Z.eqb_spec k 0) as [->|NZ].
  - destruct (Z.eqb_spec 0 n); [lia|]. rewrite Z.mod_0_l by lia. lia.
  - pose proof (Z.mod_pos_bound (k - 1) n ltac:(lia)). pose proof (Z.div_mod (k - 1) n ltac:(lia)). destruct (Z.eqb_spec ((k - 1) mod n + 1) n) as [E|E].
    + assert (k mod n = 0) by (symmetry; apply (Z.mod_unique k n ((k - 1) / n + 1)); [left; lia|lia]). lia.
    + assert (k mod n = (k - 1) mod n + 1) by (symmetry; apply (Z.mod_unique k n ((k - 1) / n)); [left; lia|lia]). lia.
Qed.
Lemma phase_bound w n k : 1 <= n -> 0 <= k -> (w = false -> k <= n) -> 0 <= phase w n k <= n.
Proof. intros N K W. unfold phase. destruct w; [|specialize (W eq_refl); lia]. destruct (Z.eqb_spec k 0); [lia|]. pose proof (Z.mod_pos_bound (k - 1) n ltac:(lia)). lia. Qed.
Lemma count_nonneg A (e : A -> A -> bool) x l : 0 <= count e x l.
Proof. induction l as [|y l IH]; cbn [count]; [lia|]. destruct (e x y); lia. Qed.
Lemma count_app A (e : A -> A -> bool) x l l' : count e x (l ++ l') = count e x l + count e x l'.
Proof. induction l as [|y l IH]; cbn [count app]; [lia|]. destruct (e x y); lia. Qed.
Lemma count_firstn A (e : A -> A -> bool) x k l : count e x (firstn k l) <= count e x l.
Proof. rewrite <- (firstn_skipn k l) at 2. rewrite count_app. pose proof (count_nonneg A e x (skipn k l)). lia. Qed.
Lemma dir_eqb_sym a b : dir_eqb a b = dir_eqb b a.
Proof. destruct a, b; reflexivity. Qed.

Lemma seq_run o bs n : seqconf o bs n -> forall is s c, seqstate o bs n s (fun d => phase (wraps o) n (c d)) -> (forall d, 0 <= c d) -> (wraps o = false -> forall d, c d + count dir_eqb d (map i_dir is) <= n) ->
  exists s' xs, run o s is = Some (s', xs) /\ length xs = length is /\ seqstate o bs n s' (fun d => phase (wraps o) n (c d + count dir_eqb d (map i_dir is))) /\
  forall k i, nth_error is k = Some i -> nth_error xs k = Some (Issued (i_dir i) (o_start o) (o_start o + (let q := c (i_dir i) + count dir_eqb (i_dir i) (map i_dir (firstn k is)) in if wraps o then q mod n else q) * bs) bs).
Proof.
  intros Q. pose proof Q as (_ & _ & _ & _ & _ & _ & _ & _ & _ & N1 & _). induction is as [|i is IH]; intros s c ST C0 CN.
  - exists s, []. split; [reflexivity|]. split; [reflexivity|]. split; [|intros [|]; discriminate]. destruct ST as (A & B & P). split; auto. split; auto. intros d. cbn [map count]. rewrite Z.add_0_r. apply P.
  - pose proof (seq_step o bs n s _ i Q ST) as H. cbv zeta beta in H. set (d := i_dir i) in *. cbn [map count] in CN. fold d in CN.
    destruct (phase_step (wraps o) n (c d) N1 (C0 d)) as (P1 & P2 & P3). { intros W. specialize (CN W d). destruct (dir_eqb_spec d d); [|congruence]. pose proof (count_nonneg _ dir_eqb d (map i_dir is)). lia. }
    set (q := if wraps o && (phase (wraps o) n (c d) =? n) then 0 else phase (wraps o) n (c d)) in *. clearbody q. destruct (Z.eqb_spec q n); [lia|]. destruct H as (s1 & F1 & ST1).
    assert (CE : forall d', set c d (c d + 1) d' = c d' + (if dir_eqb d' d then 1 else 0)).
    { intros d'. unfold set. rewrite dir_eqb_sym. destruct (dir_eqb_spec d' d) as [E|]; [rewrite E; lia|lia]. }
    destruct (IH s1 (set c d (c d + 1))) as (s' & xs & R & L & ST' & OUT).
    + destruct ST1 as (A & B & P). split; auto. split; auto. intros d'. specialize (P d'). unfold set in *. destruct (dir_eqb_spec d d') as [E|]; [rewrite P3; auto|auto].
    + intros d'. rewrite CE. specialize (C0 d'). destruct (dir_eqb d' d); lia.
    + intros W d'. rewrite CE. specialize (CN W d'). lia.
    + exists s', (Issued d (o_start o) (o_start o + q * bs) bs :: xs). cbn [run]. rewrite F1, R. split; [reflexivity|]. split; [cbn; congruence|]. split.
      * destruct ST' as (A & B & P). split; auto. split; auto. intros d'. specialize (P d'). rewrite CE in P. cbn [map count]. fold d. rewrite Z.add_assoc. auto.
      * intros [|k] j E; cbn [nth_error] in *.
        -- inversion E; subst j. fold d. cbn [firstn map count]. rewrite Z.add_0_r. rewrite P1. reflexivity.
        -- rewrite (OUT k j E). rewrite CE. cbn [firstn map count]. fold d. rewrite Z.add_assoc. reflexivity.
Qed.

(** After a trim of a random trim and write workload the next request is a write. *)
Lemma next_offset_trim g o s i s' off r busy : conf o -> unit_ok g o -> inp_ok o i -> inv0 g o s -> o_rtw o = true -> s_start s DW = s_start s DT -> next_offset o s DT i = (s', Some (off, r, busy)) -> s_start s' DW <> off.
Proof.
  intros C U I V R E H. pose proof V as (F & _). pose proof C as (_ & B1 & B2 & B3 & _). unfold next_offset in H.
  destruct (if o_seq_nr o =? 0 then _ else _) as [s0 hit] eqn:EN in H.
  assert (HN : s_fo s0 = s_fo s /\ s_pos s0 = s_pos s /\ s_start s0 = s_start s).
  { destruct (o_seq_nr o =? 0); [|cbv zeta in EN; destruct (s_nr s - 1 =? 0)]; inversion EN; subst; auto. }
  destruct HN as (E1 & E2 & E3). clear EN. assert (V0 : inv0 g o s0) by (unfold inv0; rewrite E1, E2, E3; exact V).
  destruct (next_block o s0 DT i hit) as [s1 [[[x r0] busy0]|]] eqn:EB; [|discriminate]. destruct (next_block_ok g o s0 DT i hit s1 x r0 busy0 C U I V0 EB) as (N1 & X1 & _).
  assert (F1 : s_fo s1 = s_fo s) by (destruct N1; congruence). destruct (Z.geb_spec x (f_io o)) as [L1|L1]; [discriminate|].
  rewrite F1 in H. rewrite u64_small in H by lia. destruct (Z.geb_spec (x + s_fo s) (f_real o)) as [L2|L2]; [discriminate|].
  assert (EQ : s_start s1 DW = s_start s1 DT) by (destruct N1 as (_ & _ & [(_ & N)|(N & _)]); rewrite !N; [rewrite E3; auto|auto]).
  rewrite R in H. change (dir_eqb DT DT) with true in H. cbn [andb] in H. inversion H; subst off r busy s'. clear H.
  destruct (Z.eqb_spec (s_start s1 DT) (x + s_fo s)) as [X|X].
  - cbn [s_start]. rewrite set_same, EQ, X. destruct (Z.eqb_spec (x + s_fo s) 0) as [->|NZ]; [vm_compute; congruence|]. rewrite u64_small by lia. lia.
  - rewrite EQ. auto.
Qed.
