(** Proofs about the status line, for C59. *)
From Coq Require Import ZArith List Lia Bool.
From Verif Require Import CBase EtaModel EtaSpec.
Import ListNotations.
Open Scope Z_scope.

Definition val (a : Z) (ds : list Z) : Z := fold_left (fun n x => n * 10 + (x - 48)) ds a.
Definition all_digits (ds : list Z) : Prop := Forall (fun x => is_digit x = true) ds.
Lemma u32_id x : 0 <= x < 2 ^ 32 -> u32 x = x.
Proof. intros. apply Z.mod_small. lia. Qed.
Lemma pr_digits : forall k n, 0 <= n -> all_digits (pr k n).
Proof.
  induction k as [|k IH]; intros n N; [constructor|]. cbn [pr]. apply Forall_app. split; [destruct (n <? 10); [constructor|apply IH, Z.div_pos; lia]|]. constructor; [|constructor]. unfold is_digit. pose proof (Z.mod_pos_bound n 10 ltac:(lia)). apply andb_true_iff. rewrite !Z.leb_le. lia.
Qed.
Lemma pr_val : forall k n, 0 <= n < 10 ^ Z.of_nat k -> val 0 (pr k n) = n.
Proof.
  induction k as [|k IH]; intros n N; [cbn in *; lia|]. cbn [pr]. unfold val. rewrite fold_left_app. cbn [fold_left]. rewrite Nat2Z.inj_succ, Z.pow_succ_r in N by lia. destruct (Z.ltb_spec n 10).
  - cbn [fold_left]. rewrite Z.mod_small by lia. lia.
  - fold (val 0 (pr k (n / 10))). rewrite IH; [pose proof (Z.div_mod n 10 ltac:(lia)); lia|]. split; [apply Z.div_pos; lia|apply Z.div_lt_upper_bound; lia].
Qed.
Lemma pr_length : forall k n, 1 <= n -> Z.of_nat (List.length (pr k n)) <= n.
Proof.
  induction k as [|k IH]; intros n N; [cbn; lia|]. cbn [pr]. rewrite app_length. cbn [List.length]. destruct (Z.ltb_spec n 10); [cbn [List.length]; lia|]. pose proof (Z.div_mod n 10 ltac:(lia)). pose proof (Z.mod_pos_bound n 10 ltac:(lia)). assert (1 <= n / 10) by (apply Z.div_le_lower_bound; lia). specialize (IH (n / 10) ltac:(lia)). lia.
Qed.
Lemma pr_short : forall k n, (List.length (pr k n) <= k)%nat.
Proof. induction k as [|k IH]; intros n; [cbn; lia|]. cbn [pr]. rewrite app_length. cbn [List.length]. destruct (n <? 10); cbn [List.length]; [lia|]. specialize (IH (n / 10)). lia. Qed.
Lemma pu_val n : 0 <= n < 2 ^ 32 -> all_digits (pu n) /\ val 0 (pu n) = n.
Proof. intros N. unfold pu. rewrite u32_id by lia. split; [apply pr_digits; lia|apply pr_val; cbn; lia]. Qed.
Lemma pu2_val n : 0 <= n < 2 ^ 32 -> all_digits (pu2 n) /\ val 0 (pu2 n) = n /\ (List.length (pu2 n) <= 11)%nat.
Proof.
  intros N. destruct (pu_val n N) as (A & B). unfold pu2. pose proof (pr_short 10 (u32 n)) as L. fold (pu n) in L. destruct (u32 n <? 10); [|split; [auto|split; [auto|lia]]]. split; [constructor; [reflexivity|auto]|]. split; [exact B|cbn [List.length]; lia].
Qed.

(** Reading a number. *)
Lemma expand_digits c r : forall ds n, all_digits ds -> expand (ds ++ r) (Number c n) = expand r (Number c (val n ds)).
Proof. induction ds as [|x ds IH]; intros n H; [reflexivity|]. inversion H as [|? ? D F]; subst. cbn [app expand]. rewrite D. rewrite IH by auto. reflexivity. Qed.
Lemma expand_run c n r : 0 <= n < 2 ^ 32 -> expand (c :: 40 :: pu n ++ 41 :: r) Start = match expand r After with Some x => Some (repeat c (Z.to_nat n) ++ x) | None => None end.
Proof. intros N. destruct (pu_val n N) as (D & V). cbn [expand]. rewrite expand_digits by auto. rewrite V. reflexivity. Qed.
Lemma condense_ends : forall l c nr, exists b, condense l c nr = b ++ [44].
Proof.
  induction l as [|x l IH]; intros c nr; cbn [condense]; [exists (c :: 40 :: pu nr ++ [41]); rewrite !app_comm_cons, <- app_assoc; reflexivity|]. destruct (c =? x); [apply IH|]. destruct (IH x 1) as (b & E). exists (c :: 40 :: pu nr ++ 41 :: 44 :: b). rewrite E, !app_comm_cons, <- app_assoc. reflexivity.
Qed.
Lemma removelast_snoc (b : list Z) : removelast (b ++ [44]) = b.
Proof. rewrite removelast_app by discriminate. cbn. apply app_nil_r. Qed.
Lemma condense_expand : forall l c nr b, 1 <= nr -> nr + Z.of_nat (List.length l) < 2 ^ 32 -> condense l c nr = b ++ [44] -> expand b Start = Some (repeat c (Z.to_nat nr) ++ l).
Proof.
  induction l as [|x l IH]; intros c nr b N L H; cbn [condense List.length] in *.
  - assert (E : b = c :: 40 :: pu nr ++ [41]) by (rewrite <- (removelast_snoc b), <- H; change (c :: 40 :: pu nr ++ [41; 44]) with ((c :: 40 :: pu nr) ++ [41; 44]); rewrite removelast_app by discriminate; reflexivity). rewrite E, expand_run by lia. reflexivity.
  - destruct (Z.eqb_spec c x) as [->|NE].
    + rewrite (IH x (nr + 1) b ltac:(lia) ltac:(lia) H). f_equal. replace (Z.to_nat (nr + 1)) with (Z.to_nat nr + 1)%nat by lia. rewrite repeat_app, <- app_assoc. reflexivity.
    + destruct (condense_ends l x 1) as (b' & E). assert (EB : b = c :: 40 :: pu nr ++ 41 :: 44 :: b').
      { rewrite <- (removelast_snoc b), <- H, E. change (c :: 40 :: pu nr ++ 41 :: 44 :: b' ++ [44]) with ((c :: 40 :: pu nr) ++ (41 :: 44 :: b') ++ [44]). rewrite app_assoc, removelast_snoc. reflexivity. }
      rewrite EB, expand_run by lia. cbn [expand]. rewrite (IH x 1 b' ltac:(lia) ltac:(lia) E). reflexivity.
Qed.
Lemma condense_length : forall l c nr, 1 <= nr -> nr + Z.of_nat (List.length l) < 2 ^ 32 -> Z.of_nat (List.length (condense l c nr)) <= 5 * (nr + Z.of_nat (List.length l)).
Proof.
  induction l as [|x l IH]; intros c nr N L; cbn [condense List.length] in *.
  - pose proof (pr_length 10 (u32 nr)) as P. rewrite u32_id in P by lia. unfold pu. rewrite u32_id by lia. rewrite app_length. cbn [List.length]. lia.
  - destruct (c =? x); [specialize (IH c (nr + 1) ltac:(lia) ltac:(lia)); lia|]. specialize (IH x 1 ltac:(lia) ltac:(lia)). pose proof (pr_length 10 (u32 nr)) as P. rewrite u32_id in P by lia. cbn [List.length]. unfold pu. rewrite u32_id by lia. rewrite app_length. cbn [List.length]. lia.
Qed.

Lemma seconds_digits r t : forall ds n, all_digits ds -> seconds (ds ++ r) n t = seconds r (val n ds) t.
Proof. induction ds as [|x ds IH]; intros n H; [reflexivity|]. inversion H as [|? ? D F]; subst. cbn [app seconds]. rewrite D, IH by auto. reflexivity. Qed.

(** What a letter tells, and that it tells it. *)
Inductive told := Is (r : runstate) | SetsUp | Runs (random : bool) | Ended (err sig : bool).
Definition tells (c : Z) : told :=
  if existsb (Z.eqb c) [114; 119; 109; 100] then Runs true else if existsb (Z.eqb c) [82; 87; 77; 68] then Runs false
  else if c =? 88 then Ended true false else if c =? 75 then Ended false true else if c =? 95 then Ended false false else if c =? 73 then SetsUp
  else if c =? 69 then Is Exited else if c =? 47 then Is Ramp else if c =? 112 then Is PreReading else if c =? 86 then Is Verifying else if c =? 70 then Is Fsyncing
  else if c =? 102 then Is Finishing else if c =? 67 then Is Created else Is NotCreated.
Definition of_td (t : td) : told :=
  match rs t with Initialized | SettingUp => SetsUp | Running => Runs (random t) | Reaped => Ended (err t) (if err t then false else sig t) | r => Is r end.
Lemma letter_tells t : tells (letter t) = of_td t.
Proof.
  destruct t as [r e g x y z m w]. unfold letter, of_td. cbn [rs err sig rd wr random mix_read mix_write]. destruct r; try reflexivity; [|destruct e, g; reflexivity].
  destruct x, y, z; cbn [andb]; repeat match goal with |- context [?a =? 100] => is_var a; destruct (a =? 100) end; reflexivity.
Qed.
