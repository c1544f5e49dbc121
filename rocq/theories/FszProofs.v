(** Proofs about the sizes of files, for C57. *)
From Coq Require Import ZArith List Lia Bool.
From Verif Require Import CBase FloatZ ZdModel ZdProofs FszModel FszSpec.
Import ListNotations.
Open Scope Z_scope.

Lemma percent_none o io f : plain_percent o -> percent o io f = io.
Proof. intros (P & _). unfold percent. destruct P as [-> | ->]; reflexivity. Qed.
Lemma add_none o io t : plain_percent o -> 0 <= io -> 0 <= t -> t + io < 2 ^ 64 - 1 -> add_total o io io t = t + io.
Proof. intros (_ & P) I T L. unfold add_total, m1ull. destruct (Z.eqb_spec io (2 ^ 64 - 1)); [lia|]. destruct P as [-> | ->]; cbn [Z.eqb negb andb]; apply u64_id; lia. Qed.

Lemma total_nonneg l : Forall (fun x => 0 <= x) l -> 0 <= total l.
Proof. intros H. induction H; cbn [total]; lia. Qed.
Lemma set_sizes_each o fs : forall l extra t ios t', set_sizes o fs extra t l = Some (ios, t') ->
  Forall2 (fun f io => exists e x e', base_size o fs e f = Some (x, e') /\ io = if x =? m1ull then x else percent o x (off f)) l ios.
Proof.
  induction l as [|f l IH]; intros extra t ios t' H; cbn [set_sizes] in H; [injection H as <- <-; constructor|].
  destruct (base_size o fs extra f) as [[x e']|] eqn:B; [|discriminate]. cbn [fst snd] in H. destruct (set_sizes o fs e' _ l) as [[ios' tt]|] eqn:R; [|discriminate]. cbn [fst snd] in H. injection H as <- <-.
  constructor; [exists extra, x, e'; auto|]. eapply IH. exact R.
Qed.
Lemma set_sizes_sum o fs : plain_percent o -> forall l extra t ios t', set_sizes o fs extra t l = Some (ios, t') -> Forall (fun x => 0 <= x) ios -> 0 <= t -> t + total ios < 2 ^ 64 - 1 -> t' = t + total ios.
Proof.
  intros P. induction l as [|f l IH]; intros extra t ios t' H N T L; cbn [set_sizes] in H; [injection H as <- <-; cbn [total]; lia|].
  destruct (base_size o fs extra f) as [[x e']|] eqn:B; [|discriminate]. cbn [fst snd] in H. rewrite (percent_none o x (off f) P) in H. destruct (set_sizes o fs e' _ l) as [[ios' tt]|] eqn:R; [|discriminate]. cbn [fst snd] in H. injection H as <- <-.
  assert (E : (if x =? m1ull then x else x) = x) by (destruct (x =? m1ull); reflexivity). rewrite E in *. pose proof (Forall_inv N) as N0. cbv beta in N0. pose proof (Forall_inv_tail N) as NT. pose proof (total_nonneg ios' NT). cbn [total] in *. rewrite (add_none o x t P) in R by lia. rewrite (IH _ _ _ _ R NT) by lia. lia.
Qed.
Lemma set_sizes_error o fs f : (forall e, base_size o fs e f = None) -> forall l extra t, In f l -> set_sizes o fs extra t l = None.
Proof.
  intros B. induction l as [|g l IH]; intros extra t I; [destruct I|]. cbn [set_sizes]. destruct (base_size o fs extra g) as [[x e']|] eqn:E; [|reflexivity]. destruct I as [->|I]; [rewrite B in E; discriminate|]. cbn [fst snd]. rewrite IH by auto. reflexivity.
Qed.
(** What [setup] returns comes from the loop. *)
Lemma setup_inv o l ios rs sz n : setup o l = Some (ios, rs, sz, n) ->
  exists t, set_sizes o (fst (share o (Z.of_nat (List.length l)))) (snd (share o (Z.of_nat (List.length l)))) 0 l = Some (ios, t) /\ rs = map (fun p => laid_out (fst p) (snd p)) (combine l ios) /\ sz = (if (size o =? 0) || (negb (t =? 0) && (t <? size o)) then t else size o) /\ min_bs o <= sz /\ n = u64 ((if io_size o =? 0 then sz else io_size o) * loops o).
Proof.
  unfold setup. destruct (_ && _); [discriminate|]. destruct (share o _) as [fs extra]. cbn [fst snd]. destruct (set_sizes o fs extra 0 l) as [[ios' t]|]; [|discriminate]. cbn [fst snd].
  match goal with |- context [(if ?b <? min_bs o then _ else _)] => destruct (Z.ltb_spec b (min_bs o)) as [|G]; [discriminate|] end. intros H. injection H as <- <- <- <-. exists t. auto.
Qed.
Lemma share_low o n : size_low o <> 0 -> share o n = (0, 0).
Proof. intros H. unfold share. destruct (Z.eqb_spec (size_low o) 0); [contradiction|reflexivity]. Qed.
Lemma share_size o n : size_low o = 0 -> 0 < n < 2 ^ 32 -> 0 < min_bs o -> 0 <= size o < 2 ^ 64 -> share o n = (size o / n, (size o mod n) / min_bs o).
Proof.
  intros L N B SZ. unfold share. rewrite L. destruct (Z.eqb_spec n 0); [lia|]. cbn [Z.eqb negb andb]. pose proof (Z.div_mod (size o) n ltac:(lia)) as DM. pose proof (Z.mod_pos_bound (size o) n ltac:(lia)) as MB. pose proof (Z.div_pos (size o) n ltac:(lia) ltac:(lia)).
  assert (0 <= size o / n * n) by (apply Z.mul_nonneg_nonneg; lia). rewrite u64_id by lia. replace (size o - size o / n * n) with (size o mod n) by lia. destruct (Z.ltb_spec (size o / n * n) (size o)) as [|GE].
  - f_equal. unfold u32. apply Z.mod_small. split; [apply Z.div_pos; lia|]. apply Z.le_lt_trans with (size o mod n); [|lia]. apply Z.div_le_upper_bound; [lia|]. nia.
  - f_equal. replace (size o mod n) with 0 by lia. rewrite Z.div_0_l; lia.
Qed.
(** Dividing. *)
Fixpoint parts (fs bs : Z) (extra : nat) (n : nat) : list Z :=
  match n with O => [] | S n' => match extra with O => fs :: parts fs bs O n' | S e => (fs + bs) :: parts fs bs e n' end end.
Lemma parts_total fs bs : forall n extra, (extra <= n)%nat -> total (parts fs bs extra n) = fs * Z.of_nat n + bs * Z.of_nat extra.
Proof. induction n as [|n IH]; intros extra L; [destruct extra; [cbn; lia|lia]|]. cbn [parts]. destruct extra as [|e]; cbn [total]; rewrite IH by lia; nia. Qed.
Lemma parts_length fs bs : forall n extra, List.length (parts fs bs extra n) = n.
Proof. induction n as [|n IH]; intros extra; [reflexivity|]. cbn [parts]. destruct extra; cbn [List.length]; rewrite IH; reflexivity. Qed.
Lemma parts_in fs bs x : forall n extra, In x (parts fs bs extra n) -> x = fs \/ x = fs + bs.
Proof. induction n as [|n IH]; intros extra I; [destruct I|]. cbn [parts] in I. destruct extra; destruct I as [<-|I]; auto; eapply IH; eauto. Qed.
Lemma parts_repeat fs bs : forall n extra, (extra <= n)%nat -> parts fs bs extra n = repeat (fs + bs) extra ++ repeat fs (n - extra).
Proof. induction n as [|n IH]; intros extra L; [destruct extra; [reflexivity|lia]|]. cbn [parts]. destruct extra as [|e]; rewrite IH by lia; [cbn [repeat app]; rewrite Nat.sub_0_r; reflexivity|reflexivity]. Qed.
Lemma set_sizes_divide o : plain_percent o -> size_low o = 0 -> forall l fs extra t, 0 < fs -> 0 <= min_bs o -> fs + min_bs o < 2 ^ 64 -> 0 <= t -> t + total (parts fs (min_bs o) extra (List.length l)) < 2 ^ 64 - 1 ->
  set_sizes o fs (Z.of_nat extra) t l = Some (parts fs (min_bs o) extra (List.length l), t + total (parts fs (min_bs o) extra (List.length l))).
Proof.
  intros P LO. induction l as [|f l IH]; intros fs extra t F B FB T L; cbn [set_sizes List.length parts] in *; [cbn [total]; rewrite Z.add_0_r; reflexivity|].
  unfold base_size. rewrite LO. cbn [Z.eqb].
  assert (TN : forall e n, 0 <= total (parts fs (min_bs o) e n)) by (intros e n; apply total_nonneg, Forall_forall; intros x I; apply parts_in in I; lia).
  destruct extra as [|e]; cbn [total] in *.
  - change (Z.of_nat 0 =? 0) with true. cbv iota beta. destruct (Z.eqb_spec fs 0); [lia|]. cbn [fst snd]. pose proof (TN 0%nat (List.length l)). unfold m1ull. destruct (Z.eqb_spec fs (2 ^ 64 - 1)); [lia|]. rewrite (percent_none o _ _ P), (add_none o fs t P) by lia. change 0 with (Z.of_nat 0). rewrite IH by (auto; lia). cbn [fst snd]. f_equal. f_equal. lia.
  - destruct (Z.eqb_spec (Z.of_nat (S e)) 0); [lia|]. rewrite u64_id by lia. cbv iota beta. destruct (Z.eqb_spec (fs + min_bs o) 0); [lia|]. cbn [fst snd]. pose proof (TN e (List.length l)). unfold m1ull. destruct (Z.eqb_spec (fs + min_bs o) (2 ^ 64 - 1)); [lia|]. rewrite (percent_none o _ _ P), (add_none o (fs + min_bs o) t P) by lia.
    replace (Z.of_nat (S e) - 1) with (Z.of_nat e) by lia. rewrite IH by (auto; lia). cbn [fst snd]. f_equal. f_equal. lia.
Qed.

(** filesize=. *)
Lemma rand_size_range o g : usual_draw g -> 0 < min_bs o -> 0 < size_low o < size_high o -> size_high o < 2 ^ 53 -> size_low o mod min_bs o = 0 -> size_low o <= rand_size o g < size_high o /\ rand_size o g mod min_bs o = 0.
Proof.
  intros G B L H M. unfold rand_size. rewrite (u64_id (size_high o - size_low o)) by lia. pose proof (rand_offset_below g (size_high o - size_low o) G ltac:(lia)) as R. rewrite u64_id by lia. cbv zeta.
  set (x := rand_offset g (size_high o - size_low o) + size_low o) in *. pose proof (Z.mod_pos_bound x (min_bs o) B). pose proof (Z.div_mod x (min_bs o) ltac:(lia)) as DM. pose proof (Z.div_mod (size_low o) (min_bs o) ltac:(lia)) as DL. rewrite M in DL.
  assert (size_low o / min_bs o <= x / min_bs o) by (apply Z.div_le_mono; lia). assert (min_bs o * (size_low o / min_bs o) <= min_bs o * (x / min_bs o)) by (apply Z.mul_le_mono_nonneg_l; lia).
  split; [lia|]. replace (x - x mod min_bs o) with (x / min_bs o * min_bs o) by lia. apply Z.mod_mul. lia.
Qed.
(** size= as a percentage. *)
Lemma percent_range o io f : 0 < size_percent o <= 100 -> 0 < min_bs o -> 0 <= io -> 0 <= f -> (io + f) * 100 < 2 ^ 64 -> size_percent o <> 100 ->
  let x := Z.min io ((io + f) * size_percent o / 100) in 0 <= percent o io f <= x /\ x < percent o io f + min_bs o /\ percent o io f mod min_bs o = 0.
Proof.
  intros P B I F L N. cbv zeta. unfold percent. destruct (Z.eqb_spec (size_percent o) 0); [lia|]. destruct (Z.eqb_spec (size_percent o) 100); [lia|]. cbn [negb andb]. rewrite (u64_id (io + f)) by lia.
  assert (M : 0 <= (io + f) * size_percent o <= (io + f) * 100) by (split; [apply Z.mul_nonneg_nonneg|apply Z.mul_le_mono_nonneg_l]; lia). rewrite (u64_id ((io + f) * size_percent o)) by lia. replace (io + f - f) with io by lia. rewrite (u64_id io) by lia.
  set (y := (io + f) * size_percent o / 100). assert (Y : 0 <= y) by (apply Z.div_pos; lia). assert (E : (if io <? y then io else y) = Z.min io y) by (destruct (Z.ltb_spec io y); lia). rewrite E. set (x := Z.min io y). assert (0 <= x) by (unfold x; lia).
  pose proof (Z.mod_pos_bound x (min_bs o) B). pose proof (Z.mod_le x (min_bs o) ltac:(lia) B). split; [lia|]. split; [lia|]. pose proof (Z.div_mod x (min_bs o) ltac:(lia)). replace (x - x mod min_bs o) with (x / min_bs o * min_bs o) by lia. apply Z.mod_mul. lia.
Qed.
