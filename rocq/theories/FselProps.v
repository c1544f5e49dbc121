(** C51: the choice of files, their references, opening and closing. *)
From Coq Require Import ZArith List Lia Bool.
From Verif Require Import CBase FloatZ FselModel FselSpec FselProofs.
Import ListNotations.
Open Scope Z_scope.

Section Job.
Variable c : cfg.
Hypothesis some_files : (0 < nr c)%nat.
Hypothesis some_limit : 0 <= limit c.

(** No assertion fails and no file outside the job's is touched. *)
Theorem C51_safe v h s fl : reach c v h s fl ->
  (forall ins fits, drawn c ins -> Forall (fun x => h (snd x)) ins -> ask c s ins fits <> None) /\
  (forall i, 0 < fl i -> put_file s i <> None) /\
  (forall i o, v = true -> (i < nr c)%nat -> h o -> again s i o <> None).
Proof.
  intros R. pose proof (reach_inv c v h s fl some_files some_limit R) as H. split; [|split].
  - intros ins fits D T. destruct (ask_inv c v h s fl ins fits H ltac:(split; assumption)) as (s' & p & E & _). congruence.
  - intros i B. assert (I0 : (i < nr c)%nat). { destruct (Nat.lt_ge_cases i (nr c)) as [|G]; [assumption|]. destruct H as (_ & _ & _ & _ & Z0 & _). rewrite (Z0 i G) in B. lia. }
    destruct (put_inv c v h s fl i H I0 B) as (s' & E & _). congruence.
  - intros i o -> I0 T. destruct (again_inv c h s fl i o H I0 T) as (s' & p & E & _). congruence.
Qed.

(** A file has one reference for each of its I/Os in flight and one more while it is in use; it is
    closed when, and only when, the last one goes. The files that are open are counted. *)
Theorem C51_references v h s fl : reach c v h s fl ->
  (forall i f, nth_error (files s) i = Some f -> file_ok f (fl i)) /\ nopen s = howmany op (files s).
Proof. intros R. destruct (reach_inv c v h s fl some_files some_limit R) as (_ & _ & _ & K & _ & O & _). auto. Qed.

(** Unless blocks are read back meanwhile, no more files are open than asked for, and the files that
    are done are counted. *)
Theorem C51_limit h s fl : reach c false h s fl -> nopen s <= limit c /\ ndone s = howmany dn (files s) /\ ndone s <= Z.of_nat (nr c).
Proof.
  intros R. destruct (reach_inv c false h s fl some_files some_limit R) as (L & _ & _ & _ & _ & _ & P & _). destruct (P eq_refl) as (P1 & P2 & _).
  split; [exact P2|]. split; [exact P1|]. rewrite P1, <- L. apply howmany_le.
Qed.

(** The file chosen is open, not about to be closed, not done, and has a descriptor. *)
Theorem C51_usable v h s fl ins fits s' i : reach c v h s fl -> drawn c ins -> Forall (fun x => h (snd x)) ins ->
  ask c s ins fits = Some (s', File i) -> (i < nr c)%nat /\
  exists f, nth_error (files s') i = Some f /\ op f = true /\ cl f = false /\ (v = false -> dn f = false) /\ (nohalf h -> fd f = true).
Proof.
  intros R D T E. pose proof (reach_inv c v h s fl some_files some_limit R) as H.
  destruct (ask_inv c v h s fl ins fits H ltac:(split; assumption)) as (s2 & p & E2 & I2 & U & _). rewrite E in E2. injection E2 as <- <-.
  destruct U as (I0 & f & F1 & F2 & F3 & F4). split; [exact I0|]. exists f. repeat (split; [assumption|]). intros NH.
  destruct I2 as (_ & _ & _ & _ & _ & _ & _ & HH). now rewrite <- (HH NH i f F1).
Qed.

(** A request is refused only when as many files are open as may be. *)
Theorem C51_busy v h s fl ins fits s' : reach c v h s fl -> drawn c ins -> Forall (fun x => h (snd x)) ins ->
  ask c s ins fits = Some (s', Busy) -> limit c <= nopen s'.
Proof.
  intros R D T E. pose proof (reach_inv c v h s fl some_files some_limit R) as H.
  destruct (ask_inv c v h s fl ins fits H ltac:(split; assumption)) as (s2 & p & E2 & _ & _ & B). rewrite E in E2. injection E2 as <- <-. auto.
Qed.

(** Round robin takes the first file from its place on that is not done. *)
Theorem C51_first h s fl d ins : reach c false h s fl -> robin c -> ndone s < Z.of_nat (nr c) ->
  exists k f s', (k < nr c)%nat /\ nth_error (files s) (at_k c s k) = Some f /\ dn f = false /\
    (forall j, (j < k)%nat -> exists g, nth_error (files s) (at_k c s j) = Some g /\ dn g = true) /\
    rr (nr c) c s (next s) ((d, Opened) :: ins) = Some (s', if negb (op f) && (limit c <=? nopen s) then Busy else File (at_k c s k)) /\
    next s' = at_k c s (S k).
Proof.
  intros R KD D. pose proof (reach_inv c false h s fl some_files some_limit R) as H. pose proof H as (L & N & C & K & _ & _ & P & _). specialize (P eq_refl).
  assert (KS : knd c <> Skewed) by (destruct KD as [-> | ->]; discriminate).
  destruct (first_live c s N L (not_all_done c s P L D)) as (k & f & K1 & KG & KD2 & KB).
  assert (CG : op f = true -> cl f = false).
  { intros _. destruct (cl f) eqn:X; [|reflexivity]. destruct P as (_ & _ & P3). destruct (P3 _ f KG) as (_ & P5). rewrite (P5 KS X) in KD2. discriminate. }
  rewrite rr_full by exact N. rewrite (scan_first c k (nr c) s _ f N K1 KB KG KD2 CG). exists k, f.
  destruct (op f) eqn:O; cbn [negb andb]; [eexists; repeat (split; [eassumption|]); split; reflexivity|].
  destruct (limit c <=? nopen s) eqn:LB; [eexists; repeat (split; [eassumption|]); split; reflexivity|].
  unfold try. cbn [moved files nopen]. rewrite KG, KD2, O, LB. unfold open_file. cbn [moved files nopen]. rewrite KG, O.
  assert (CLF : cl f = false) by (destruct (K _ f KG) as (_ & _ & _ & K4); destruct (cl f); [rewrite O in K4; now specialize (K4 eq_refl)|reflexivity]).
  rewrite CLF. cbn [setf files moved]. rewrite (nth_upd_same _ _ _ _ KG). cbn [op cl andb negb].
  eexists. split; [exact K1|]. split; [first [exact KG|reflexivity]|]. split; [first [exact KD2|reflexivity]|]. split; [exact KB|]. split; reflexivity.
Qed.

(** With all files open, each gets [file_service_nr] I/Os in its turn, for any number of I/Os. *)
Theorem C51_turns s n : knd c = RR -> 1 <= serve c < 2 ^ 32 -> all_live s -> length (files s) = nr c -> ndone s = 0 ->
  (next s < nr c)%nat -> (cur s = None \/ left_ s = 0) ->
  asks n c s = map (fun k => File (Z.to_nat ((Z.of_nat (next s) + Z.of_nat k / serve c) mod Z.of_nat (nr c)))) (seq 0 n).
Proof. intros KD SV A L D NL CL. exact (asks_all c s n KD some_files SV A L D NL CL). Qed.

(** If nothing is in flight and some file is not done, one of the next [nr_files] requests gets one. *)
Theorem C51_not_for_ever h s fl ins : reach c false h s fl -> robin c -> 1 <= limit c -> (forall i, fl i = 0) -> ndone s < Z.of_nat (nr c) ->
  ins <> [] -> Forall (fun x => snd x = Opened) ins -> exists s' i, tries (nr c) c s ins = Some (s', File i).
Proof.
  intros R KD LM FL D NE OK. exact (tries_file c h s fl ins KD some_files LM (reach_inv c false h s fl some_files some_limit R) FL D NE OK).
Qed.

(** A random draw of any file that is not done ends the choice. *)
Theorem C51_random h s fl d f ins : reach c false h s fl -> knd c = Uniform -> nth_error (files s) d = Some f -> dn f = false ->
  exists s', rand c s ((d, Opened) :: ins) = Some (s', if negb (op f) && (limit c <=? nopen s) then Busy else File d).
Proof.
  intros R KD I D. destruct (reach_inv c false h s fl some_files some_limit R) as (L & N & C & K & _ & _ & P & _). destruct (P eq_refl) as (_ & _ & P3).
  destruct (P3 d f I) as (_ & P5). apply rand_hit; [exact I|exact D|apply (K d f I)|]. intros _. destruct (cl f) eqn:X; [|reflexivity].
  assert (KS : knd c <> Skewed) by (rewrite KD; discriminate). rewrite (P5 KS eq_refl) in D. discriminate.
Qed.

(** When all files are done there are no more I/Os, and not before. *)
Theorem C51_end h s fl ins fits : reach c false h s fl ->
  (ndone s = Z.of_nat (nr c) <-> forall i f, nth_error (files s) i = Some f -> dn f = true) /\
  (ndone s = Z.of_nat (nr c) -> ask c s ins fits = Some (s, Nothing)).
Proof.
  intros R. destruct (reach_inv c false h s fl some_files some_limit R) as (L & _ & _ & _ & _ & _ & P & _). destruct (P eq_refl) as (P1 & _). split; [split|].
  - intros E i f I. rewrite P1, <- L in E. apply howmany_all in E. rewrite Forall_forall in E. apply E. now apply nth_error_In in I.
  - intros A. pose proof (howmany_le dn (files s)). destruct (Z_lt_le_dec (howmany dn (files s)) (Z.of_nat (length (files s)))) as [LT|]; [|lia].
    apply howmany_not_all in LT. destruct LT as (i & f & I & D). rewrite (A i f I) in D. discriminate.
  - intros E. unfold ask, get_next_file. rewrite E. destruct (Z.leb_spec (Z.of_nat (nr c)) (Z.of_nat (nr c))); [reflexivity|lia].
Qed.

(** Sequential service with all files allowed open: a file is served only when all before it are
    done, and none after it has been touched. *)
Theorem C51_sequential s fl ins fits s' i : knd c = Seq -> Z.of_nat (nr c) <= limit c -> reach c false good s fl -> drawn c ins -> Forall (fun x => good (snd x)) ins ->
  ask c s ins fits = Some (s', File i) ->
  forall j f, nth_error (files s') j = Some f -> ((j < i)%nat -> dn f = true) /\ ((i < j)%nat -> fresh_file f).
Proof.
  intros KD LM R D T E. pose proof (seq_reach c s fl KD some_files LM R) as IO.
  exact (proj2 (seq_ask c s fl ins fits s' (File i) KD some_files LM (reach_inv c false good s fl some_files some_limit R) IO ltac:(split; assumption) E ltac:(discriminate)) i eq_refl).
Qed.
End Job.

(** ** Draws *)

(** A uniform draw with the default generator is a file of the job. *)
Theorem C51_draw n r : 0 < n < 2 ^ 32 -> 0 <= r < 2 ^ 32 -> 0 <= draw32 n r < n.
Proof. intros. apply draw32_lt; lia. Qed.

(** With random_generator=tausworthe64 it can be one past the last. *)
Theorem C51_draw64_refuted n : 0 < n < 2 ^ 32 -> draw64 n (2 ^ 64 - 1) = n.
Proof.
  intros H. unfold draw64. change (rne53 (2 ^ 64 - 1)) with (1 * 2 ^ 64).
  assert (E : rne53 (n * (1 * 2 ^ 64)) = n * 2 ^ 64).
  { rewrite Z.mul_1_l. destruct (Z_lt_le_dec (n * 2 ^ 64) (2 ^ 53)) as [S|B]; [now apply rne53_small|].
    unfold rne53. destruct (Z.ltb_spec (n * 2 ^ 64) (2 ^ 53)); [lia|].
    assert (LG : Z.log2 (n * 2 ^ 64) = Z.log2 n + 64) by (rewrite Z.log2_mul_pow2 by lia; lia). rewrite LG.
    assert (LN : 0 <= Z.log2 n < 32) by (split; [apply Z.log2_nonneg|]; apply Z.log2_lt_pow2; lia).
    replace (2 ^ 64) with (2 ^ (64 - (Z.log2 n + 64 - 52)) * 2 ^ (Z.log2 n + 64 - 52)) by (rewrite <- Z.pow_add_r by lia; f_equal; lia).
    rewrite Z.mul_assoc, Z.div_mul, Z.mod_mul by (apply Z.pow_nonzero; lia).
    destruct (Z.ltb_spec 0 (2 ^ (Z.log2 n + 64 - 52 - 1))) as [_|X]; [reflexivity|].
    assert (0 < 2 ^ (Z.log2 n + 64 - 52 - 1)) by (apply Z.pow_pos_nonneg; lia). lia. }
  rewrite E. apply Z.div_mul. lia.
Qed.

(** A skewed draw among [nr_files << 10] values is a file of the job. *)
Theorem C51_draw_skewed n v : 0 <= v < Z.shiftl n 10 -> 0 <= draw_skewed v < n.
Proof.
  unfold draw_skewed. rewrite Z.shiftl_mul_pow2, Z.shiftr_div_pow2 by lia. intros H. split; [apply Z.div_pos; lia|]. apply Z.div_lt_upper_bound; lia.
Qed.

(** ** Runs *)

Inductive ev := Ask (ins : list input) (fits : bool) | End (i : nat) | Again (i : nat) (o : opening).
Definition anything : outcomes := fun _ => True.

Definition play1 (c : cfg) (v : bool) (x : td * flight) (e : ev) : option (td * flight) :=
  let (s, fl) := x in
  match e with
  | Ask ins fits =>
    if forallb (fun y => (fst y <? nr c)%nat) ins then
      match ask c s ins fits with
      | Some (s', File i) => Some (s', more fl i 1)
      | Some (s', Nothing) | Some (s', Busy) => Some (s', fl)
      | _ => None
      end
    else None
  | End i => if 0 <? fl i then match put_file s i with Some s' => Some (s', more fl i (-1)) | None => None end else None
  | Again i o =>
    if v && (i <? nr c)%nat then
      match again s i o with Some (s', File _) => Some (s', more fl i 1) | Some (s', _) => Some (s', fl) | None => None end
    else None
  end.

Fixpoint play (c : cfg) (v : bool) (x : td * flight) (l : list ev) : option (td * flight) :=
  match l with [] => Some x | e :: l' => match play1 c v x e with Some x' => play c v x' l' | None => None end end.

Definition ran (c : cfg) (v : bool) (l : list ev) : option td :=
  match play c v (start c, fun _ => 0) l with Some (s, _) => Some s | None => None end.

Lemma play_reach c v l : forall s fl s' fl', reach c v anything s fl -> play c v (s, fl) l = Some (s', fl') -> reach c v anything s' fl'.
Proof.
  induction l as [|e l IH]; intros s fl s' fl' R E; [injection E as <- <-; exact R|]. cbn [play] in E.
  destruct (play1 c v (s, fl) e) as [(s1, fl1)|] eqn:P; [|discriminate]. apply (IH s1 fl1 s' fl'); [|exact E]. clear E IH.
  destruct e as [ins fits|i|i o]; cbn [play1] in P.
  - destruct (forallb (fun y => (fst y <? nr c)%nat) ins) eqn:FB; [|discriminate].
    assert (D : drawn c ins). { unfold drawn. rewrite Forall_forall. intros y Y. rewrite forallb_forall in FB. specialize (FB y Y). now apply Nat.ltb_lt. }
    assert (T : Forall (fun x => anything (snd x)) ins) by (rewrite Forall_forall; intros; exact I).
    destruct (ask c s ins fits) as [(s2, p)|] eqn:A; [|discriminate].
    destruct p as [i| | |]; try discriminate; injection P as <- <-.
    + exact (R_ask c v anything s fl ins fits s2 (File i) R D T A ltac:(discriminate)).
    + exact (R_ask c v anything s fl ins fits s2 Nothing R D T A ltac:(discriminate)).
    + exact (R_ask c v anything s fl ins fits s2 Busy R D T A ltac:(discriminate)).
  - destruct (Z.ltb_spec 0 (fl i)); [|discriminate]. destruct (put_file s i) as [s2|] eqn:A; [|discriminate]. injection P as <- <-.
    exact (R_end c v anything s fl i s2 R H A).
  - destruct v; [|discriminate]. cbn [andb] in P. destruct (Nat.ltb_spec i (nr c)); [|discriminate].
    destruct (again s i o) as [(s2, p)|] eqn:A; [|discriminate].
    pose proof (R_again c true anything s fl i o s2 p R eq_refl H I A) as X. destruct p; injection P as <- <-; exact X.
Qed.

Theorem C51_runs c v l s : ran c v l = Some s -> exists fl, reach c v anything s fl.
Proof.
  unfold ran. destruct (play c v (start c, fun _ => 0) l) as [(s1, fl)|] eqn:P; [|discriminate]. intros [= <-]. exists fl. eapply play_reach; [|exact P]. apply R_start.
Qed.

Definition o0 : list input := [(0%nat, Opened)].

(** Skewed service, one file, queue depth two: the end of the file is reached while an I/O is in
    flight; the file waits to be closed and is drawn for ever. *)
Definition one := Cfg Skewed 1 1 1.
Theorem C51_skewed_refuted : exists s, ran one false [Ask o0 true; Ask o0 false] = Some s /\
  forall ins fits, drawn one ins -> ask one s ins fits = Some (s, Hungry).
Proof.
  eexists. split; [vm_compute; reflexivity|]. intros ins fits D. unfold ask, get_next_file. cbn [ndone nr one cur knd].
  change (Z.of_nat 1 <=? 0) with false. cbn [usable files nth_error op cl negb andb].
  rewrite rand_endless; [reflexivity|reflexivity|exact D|].
  intros [|[|i]] f H; cbn in H; try discriminate. injection H as <-. right. auto.
Qed.

(** Sequential service, two files, one open at a time, blocks read back: a file that is done is
    served again, counted as done twice, and the job ends without the second file. *)
Definition two := Cfg Seq 2 1 1.
Definition readback := [Ask o0 true; Ask o0 false; Ask [] true; End 0%nat; Again 0%nat Opened].
Theorem C51_verify_refuted : exists s s', ran two true readback = Some s /\
  ask two s [] true = Some (s', File 0%nat) /\ nth_error (files s) 0 = Some (F true false true 2 true) /\
  exists s2 s3, ask two s [] false = Some (s2, Nothing) /\ ndone s2 = 2 /\ howmany dn (files s2) = 1 /\ ask two s2 o0 true = Some (s3, Nothing) /\
    nth_error (files s3) 1 = Some (F false false false 0 false).
Proof. eexists _, _. split; [vm_compute; reflexivity|]. split; [vm_compute; reflexivity|]. split; [reflexivity|]. eexists _, _. split; [vm_compute; reflexivity|]. vm_compute. auto. Qed.

(** Sequential service, three files, one open at a time: after the first comes the third. *)
Definition three := Cfg Seq 3 1 1.
Theorem C51_order_refuted : exists s s', ran three false [Ask o0 true; Ask o0 false; Ask [] true; End 0%nat] = Some s /\
  ask three s o0 true = Some (s', File 2%nat) /\ nth_error (files s') 1 = Some (F false false false 0 false).
Proof. eexists _, _. split; [vm_compute; reflexivity|]. vm_compute. auto. Qed.

(** An opening that fails half way leaves a file that counts as open, without a descriptor; it is
    chosen later. *)
Definition halves := Cfg RR 2 2 1.
Theorem C51_half_refuted : exists s s' f, ran halves false [Ask [(0%nat, Half); (0%nat, Opened)] true] = Some s /\
  ask halves s [] true = Some (s', File 0%nat) /\ nth_error (files s') 0 = Some f /\ fd f = false.
Proof. eexists _, _, _. split; [vm_compute; reflexivity|]. split; [vm_compute; reflexivity|]. vm_compute. auto. Qed.

(** file_service_type=roundrobin:0 serves the first file 2^32 times. *)
Theorem C51_zero_refuted : exists s, ran (Cfg RR 2 2 0) false [Ask o0 true] = Some s /\ left_ s = 2 ^ 32 - 1.
Proof. eexists. split; vm_compute; reflexivity. Qed.

(** ** Cases *)

(** Round robin of three files, two I/Os each. *)
Example ex_turns : forall s, ran (Cfg RR 3 3 1) false [Ask o0 true; Ask o0 true; Ask o0 true] = Some s ->
  asks 7 (Cfg RR 3 3 2) s = map File [0; 0; 1; 1; 2; 2; 0]%nat.
Proof. intros s H. vm_compute in H. injection H as <-. vm_compute. reflexivity. Qed.

Example ex_seq : forall s, ran (Cfg Seq 3 3 1) false [Ask o0 true; Ask o0 true; Ask [] false; Ask o0 true; End 0%nat; End 0%nat] = Some s ->
  nopen s = 1 /\ ndone s = 1 /\ cur s = Some 1%nat.
Proof. intros s H. vm_compute in H. injection H as <-. auto. Qed.

Example ex_draw : map (draw32 10) [0; 429496729; 429496730; 4294967295] = [0; 0; 1; 9].
Proof. reflexivity. Qed.

Print Assumptions C51_safe.
Print Assumptions C51_references.
Print Assumptions C51_turns.
Print Assumptions C51_not_for_ever.
Print Assumptions C51_sequential.
Print Assumptions C51_skewed_refuted.
