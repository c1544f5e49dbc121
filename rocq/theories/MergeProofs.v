(** Proofs for the merging of traces. *)
From Coq Require Import ZArith List Lia Bool Sorted Permutation.
From Verif Require Import CBase MergeModel MergeSpec.
Import ListNotations.
Open Scope Z_scope.

(** ** Interleavings *)

Lemma il_perm {A} (ls ls' : list (list A)) out : interleave ls out -> Permutation ls ls' -> interleave ls' out.
Proof.
  intros H. revert ls'. induction H as [ls F|ls1 x l ls2 out H IH]; intros ls' P.
  - apply I_nil. rewrite Forall_forall in *. intros l I. apply F. eapply Permutation_in; [apply Permutation_sym; exact P|exact I].
  - assert (I : In (x :: l) ls') by (eapply Permutation_in; [exact P|apply in_elt]). apply in_split in I. destruct I as (m1 & m2 & ->).
    apply I_cons. apply IH. apply Permutation_app_inv in P.
    eapply Permutation_trans; [apply Permutation_sym, Permutation_middle|]. eapply Permutation_trans; [|apply Permutation_middle]. now constructor.
Qed.

Lemma il_empty {A} (ls : list (list A)) out : interleave ls out -> interleave ([] :: ls) out.
Proof.
  intros H. induction H as [ls F|ls1 x l ls2 out H IH]; [apply I_nil; now constructor|].
  exact (I_cons ([] :: ls1) x l ls2 out IH).
Qed.

Lemma il_in {A} (ls : list (list A)) out y : interleave ls out -> In y out -> exists l, In l ls /\ In y l.
Proof.
  intros H. induction H as [ls F|ls1 x l ls2 out H IH]; intros I; [contradiction|]. destruct I as [<-|I].
  - exists (x :: l). split; [apply in_elt|now left].
  - destruct (IH I) as (m & M1 & M2). apply in_app_or in M1. destruct M1 as [M1|[<-|M1]].
    + exists m. split; [apply in_or_app; now left|exact M2].
    + exists (x :: l). split; [apply in_elt|now right].
    + exists m. split; [apply in_or_app; right; now right|exact M2].
Qed.

Definition total {A} (ls : list (list A)) : nat := list_sum (map (@length A) ls).

Lemma total_app {A} (a b : list (list A)) : total (a ++ b) = (total a + total b)%nat.
Proof. unfold total. now rewrite map_app, list_sum_app. Qed.

Lemma total_cons {A} (x : list A) l : total (x :: l) = (length x + total l)%nat.
Proof. reflexivity. Qed.

Lemma total_perm {A} (l l' : list (list A)) : Permutation l l' -> total l = total l'.
Proof. intros P. induction P; rewrite ?total_cons; lia. Qed.

Lemma il_length {A} (ls : list (list A)) out : interleave ls out -> length out = total ls.
Proof.
  intros H. induction H as [ls F|ls1 x l ls2 out H IH].
  - unfold total. induction F as [|l ls -> F IH]; [reflexivity|]. cbn. exact IH.
  - cbn [length]. rewrite IH, !total_app. unfold total. cbn. lia.
Qed.

Lemma il_concat {A} (ls : list (list A)) out : interleave ls out -> Permutation out (concat ls).
Proof.
  intros H. induction H as [ls F|ls1 x l ls2 out H IH].
  - induction F as [|l ls -> F IH]; [constructor|]. exact IH.
  - rewrite concat_app in *. cbn [concat] in *. rewrite <- app_comm_cons. eapply Permutation_trans; [|apply Permutation_middle]. now constructor.
Qed.

(** ** The earliest record *)

Lemma earliest_from_spec cs : forall i best idx, Forall (fun c => time (t c) <= 2 ^ 64 - 1) cs -> best <= 2 ^ 64 - 1 ->
  let e := earliest_from cs i best idx in
  (e = idx /\ (forall c, In c cs -> best <= time (t c))) \/
  (exists c, (i <= e < i + length cs)%nat /\ nth_error cs (e - i) = Some c /\ time (t c) < best /\ forall c', In c' cs -> time (t c) <= time (t c')).
Proof.
  induction cs as [|c cs IH]; intros i best idx F B; cbn zeta; cbn [earliest_from].
  - left. split; [reflexivity|intros ? []].
  - inversion F as [|? ? F1 F2]; subst. destruct (Z.ltb_spec (time (t c)) best) as [L|L].
    + destruct (IH (S i) (time (t c)) i F2 F1) as [(E & M)|(x & E1 & E2 & E3 & E4)].
      * right. exists c. rewrite E. split; [cbn; lia|]. rewrite Nat.sub_diag. split; [reflexivity|]. split; [exact L|]. intros c' [<-|I]; [lia|now apply M].
      * right. exists x. split; [cbn [length]; lia|]. replace (earliest_from cs (S i) (time (t c)) i - i)%nat with (S (earliest_from cs (S i) (time (t c)) i - S i))%nat by lia.
        split; [exact E2|]. split; [lia|]. intros c' [<-|I]; [lia|now apply E4].
    + destruct (IH (S i) best idx F2 B) as [(E & M)|(x & E1 & E2 & E3 & E4)].
      * left. split; [exact E|]. intros c' [<-|I]; [lia|now apply M].
      * right. exists x. split; [cbn [length]; lia|]. replace (earliest_from cs (S i) best idx - i)%nat with (S (earliest_from cs (S i) best idx - S i))%nat by lia.
        split; [exact E2|]. split; [exact E3|]. intros c' [<-|I]; [lia|now apply E4].
Qed.

Lemma earliest_spec cs : cs <> [] -> Forall (fun c => time (t c) <= 2 ^ 64 - 1) cs ->
  exists c, nth_error cs (earliest cs) = Some c /\ forall c', In c' cs -> time (t c) <= time (t c').
Proof.
  intros NE F. unfold earliest. destruct (earliest_from_spec cs 0 (2 ^ 64 - 1) 0 F ltac:(lia)) as [(E & M)|(c & E1 & E2 & E3 & E4)].
  - rewrite E. destruct cs as [|c cs]; [congruence|]. exists c. split; [reflexivity|]. intros c' I. inversion F as [|? ? F1 F2]; subst. specialize (M c' I). lia.
  - rewrite Nat.sub_0_r in E2. exists c. auto.
Qed.

(** ** Cursors with one round *)

Definition ok (c : cursor) : Prop :=
  iter c = 0 /\ nr_iter c <= 1 /\ 0 < scalar c < 2 ^ 31 /\ rewound c = false /\ useful (t c) = true /\ time (t c) <= 2 ^ 64 - 1 /\
  Forall (fun r => useful r = true -> fits (scalar c) r) (rest c).

Definition remaining (c : cursor) : list rec := written (t c) :: contribution (scalar c) (rest c).

Lemma scaled_plain c x : iter c = 0 -> 0 < scalar c < 2 ^ 31 -> 0 <= x -> x * scalar c < 2 ^ 64 -> scaled c x = x * scalar c / 100.
Proof.
  intros I S X B. unfold scaled. rewrite I, Z.mul_0_l. unfold u64. rewrite (Z.mod_small 0) by lia. rewrite Z.add_0_r.
  assert (x * 1 <= x * scalar c) by (apply Z.mul_le_mono_nonneg_l; lia).
  rewrite (Z.mod_small x), (Z.mod_small (scalar c)), Z.mod_small by lia. reflexivity.
Qed.

Lemma read_ok : forall l c, iter c = 0 -> nr_iter c <= 1 -> 0 < scalar c < 2 ^ 31 ->
  Forall (fun r => useful r = true -> fits (scalar c) r) l ->
  (contribution (scalar c) l = [] /\ exists c', read_rest l c = (c', false) /\ iter c' = 0 /\ nr_iter c' = nr_iter c) \/
  (exists c', read_rest l c = (c', true) /\ ok c' /\ remaining c' = contribution (scalar c) l /\ scalar c' = scalar c).
Proof.
  induction l as [|r l IH]; intros c I N S F; cbn [read_rest].
  - left. split; [reflexivity|]. eexists. split; [reflexivity|]. cbn. auto.
  - inversion F as [|? ? F1 F2]; subst. unfold contribution. cbn [filter]. destruct (useful r) eqn:U.
    + right. eexists. split; [reflexivity|]. destruct (F1 eq_refl) as (T0 & T1). split; [|split; [|reflexivity]].
      * unfold ok. cbn [iter nr_iter scalar rewound t useful time rest]. repeat (split; [assumption || reflexivity|]). split; [|exact F2].
        rewrite scaled_plain by assumption. assert (0 <= time r * scalar c) by (apply Z.mul_nonneg_nonneg; lia).
        apply Z.div_le_upper_bound; [lia|]. lia.
      * unfold remaining, contribution, written. cbn [t useful time body scalar rest map]. rewrite scaled_plain by assumption. reflexivity.
    + destruct (IH (Cur (file c) l false r (scalar c) (nr_iter c) (iter c) (len c)) I N S F2) as [(E & c' & X)|X]; [left|right].
      * split; [exact E|]. exists c'. exact X.
      * exact X.
Qed.

Lemma nth_split_upd {A} (l : list A) i x : nth_error l i = Some x -> exists a b, l = a ++ x :: b /\ length a = i /\ forall y, upd l i y = a ++ y :: b.
Proof.
  revert i. induction l as [|z l IH]; intros [|i] H; cbn in H; try discriminate.
  - injection H as ->. exists [], l. auto.
  - destruct (IH i H) as (a & b & -> & L & U). exists (z :: a), b. split; [reflexivity|]. split; [cbn; lia|]. intros y. cbn. now rewrite U.
Qed.

Lemma finish_perm cs a c0 c b : cs = a ++ c0 :: b -> nr_iter c <= iter c + 1 -> Permutation (finish cs (length a) c) (a ++ b).
Proof.
  intros -> N. unfold finish. cbn [iter nr_iter]. destruct (Z.ltb_spec (iter c + 1) (nr_iter c)); [lia|].
  assert (U : forall y, upd (a ++ c0 :: b) (length a) y = a ++ y :: b) by (intros y; clear; induction a; cbn; congruence).
  destruct b as [|z b] using rev_ind.
  - rewrite rev_app_distr. cbn [rev app]. rewrite U, removelast_last, app_nil_r. apply Permutation_refl.
  - clear IHb. rewrite rev_app_distr. cbn [rev]. rewrite rev_app_distr. cbn [rev app]. rewrite U.
    replace (a ++ z :: b ++ [z]) with ((a ++ z :: b) ++ [z]) by (rewrite <- app_assoc; reflexivity). rewrite removelast_last.
    apply Permutation_app_head. apply Permutation_cons_append.
Qed.

Lemma merge_ok n : forall cs, Forall ok cs -> (total (map remaining cs) <= n)%nat ->
  exists out, merge n cs = Some out /\ interleave (map remaining cs) out /\ (Forall in_time (map remaining cs) -> in_time out).
Proof.
  induction n as [|n IH]; intros cs F T.
  - destruct cs as [|c cs]; [|unfold total in T; cbn in T; lia]. exists []. split; [reflexivity|]. split; [apply I_nil; constructor|]. intros _. constructor.
  - destruct cs as [|c0 cs0]; [exists []; split; [reflexivity|]; split; [apply I_nil; constructor|]; intros _; constructor|].
    remember (c0 :: cs0) as cs eqn:EC. assert (NE : cs <> []) by (subst; discriminate).
    destruct (earliest_spec cs NE ltac:(eapply Forall_impl; [|exact F]; unfold ok; tauto)) as (c & N & M).
    assert (ST : merge (S n) cs = match nth_error cs (earliest cs) with
       | None => None
       | Some c => if rewound c && negb (pdu (t c) =? 0) then None else
          let (c2, got) := read_trace (Cur (file c) (rest c) (rewound c) (written (t c)) (scalar c) (nr_iter c) (iter c) (len c)) in
          match merge n (if got then upd cs (earliest cs) c2 else finish cs (earliest cs) c2) with Some out => Some (written (t c) :: out) | None => None end end)
      by (subst cs; reflexivity).
    rewrite ST, N. clear ST.
    destruct (nth_split_upd cs _ c N) as (a & b & SP & LA & U). rewrite SP in F. apply Forall_app in F. destruct F as (Fa & F). inversion F as [|? ? Fc Fb]; subst x l.
    destruct Fc as (K1 & K2 & K3 & K4 & K5 & K6 & K7). rewrite K4. cbn [andb]. unfold read_trace. cbn [rest].
    set (c1 := Cur (file c) (rest c) false (written (t c)) (scalar c) (nr_iter c) (iter c) (len c)).
    assert (T' : total (map remaining cs) = S (total (map remaining a) + length (contribution (scalar c) (rest c)) + total (map remaining b))).
    { rewrite SP, map_app, total_app. cbn [map]. rewrite total_cons. unfold remaining at 2. cbn [length]. lia. }
    (* the earliest comes first *)
    assert (FST : forall out, interleave (map remaining a ++ contribution (scalar c) (rest c) :: map remaining b) out ->
      (Forall in_time (map remaining a ++ contribution (scalar c) (rest c) :: map remaining b) -> in_time out) ->
      interleave (map remaining cs) (written (t c) :: out) /\ (Forall in_time (map remaining cs) -> in_time (written (t c) :: out))).
    { intros out IL SO. rewrite SP, map_app. cbn [map]. split; [unfold remaining at 2; apply I_cons; exact IL|].
      intros FS. apply Forall_app in FS. destruct FS as (FS1 & FS2). inversion FS2 as [|? ? FS3 FS4]; subst x l.
      assert (TAIL : in_time (contribution (scalar c) (rest c))) by (unfold remaining in FS3; now apply StronglySorted_inv in FS3).
      constructor; [apply SO; apply Forall_app; split; [exact FS1|constructor; assumption]|].
      rewrite Forall_forall. intros y Y. destruct (il_in _ _ _ IL Y) as (l & L1 & L2). unfold earlier. cbn [written time].
      assert (HD : forall d, In d cs -> In y (remaining d) -> in_time (remaining d) -> time (t c) <= time y).
      { intros d D1 D2 D3. specialize (M d D1). unfold remaining in D2, D3. destruct D2 as [<-|D2]; [exact M|]. apply StronglySorted_inv in D3. destruct D3 as (_ & D3).
        rewrite Forall_forall in D3. specialize (D3 y D2). unfold earlier in D3. cbn [written time] in D3. lia. }
      apply in_app_or in L1. destruct L1 as [L1|[<-|L1]].
      - apply in_map_iff in L1. destruct L1 as (d & <- & D). apply (HD d); [rewrite SP; apply in_or_app; now left|exact L2|]. rewrite Forall_forall in FS1. apply FS1. now apply in_map.
      - apply (HD c); [rewrite SP; apply in_elt|now right|exact FS3].
      - apply in_map_iff in L1. destruct L1 as (d & <- & D). apply (HD d); [rewrite SP; apply in_or_app; right; now right|exact L2|]. rewrite Forall_forall in FS4. apply FS4. now apply in_map. }
    destruct (read_ok (rest c) c1 K1 K2 K3 K7) as [(E & c2 & R & I2 & N2)|(c2 & R & O2 & E & S2)]; cbn [scalar c1] in E; rewrite R.
    + assert (P : Permutation (finish cs (earliest cs) c2) (a ++ b)).
      { rewrite <- LA. apply (finish_perm cs a c c2 b SP). rewrite N2, I2. cbn [nr_iter c1]. lia. }
      assert (F2 : Forall ok (finish cs (earliest cs) c2)).
      { rewrite Forall_forall. intros d D. apply (Permutation_in _ P) in D. apply in_app_or in D. rewrite Forall_forall in Fa, Fb. destruct D; auto. }
      assert (T2 : total (map remaining (finish cs (earliest cs) c2)) = total (map remaining (a ++ b))).
      { apply total_perm. now apply Permutation_map. }
      destruct (IH _ F2) as (out & X1 & X2 & X3); [rewrite T2, map_app, total_app; lia|].
      rewrite X1. exists (written (t c) :: out). split; [reflexivity|]. apply FST.
      * rewrite E. apply (il_perm ([] :: map remaining a ++ map remaining b)); [|apply Permutation_middle].
        apply il_empty. apply (il_perm _ _ _ X2). rewrite <- map_app. now apply Permutation_map.
      * intros FS. apply X3. rewrite Forall_forall. intros l L. apply (Permutation_in _ (Permutation_map remaining P)) in L. rewrite map_app in L.
        rewrite Forall_forall in FS. apply FS. apply in_app_or in L. apply in_or_app. destruct L; [now left|right; now right].
    + rewrite U. destruct (IH (a ++ c2 :: b)) as (out & X1 & X2 & X3).
      * apply Forall_app. split; [exact Fa|]. constructor; assumption.
      * rewrite map_app, total_app. cbn [map]. rewrite E, total_cons. lia.
      * rewrite X1. exists (written (t c) :: out). split; [reflexivity|]. rewrite map_app in X2, X3. cbn [map] in X2, X3. rewrite E in X2, X3. apply FST; assumption.
Qed.

(** ** Setting up *)

Definition blank (s n iter0 len0 : Z) : cursor := Cur [] [] false (Rec false 0 0 0) s n iter0 len0.

Lemma setup_ok len0 : forall files ps done, length ps = length files ->
  Forall (fun p => 0 < fst p < 2 ^ 31 /\ snd p <= 1) ps ->
  Forall2 (fun p f => Exists (fun r => useful r = true) f /\ Forall (fun r => useful r = true -> fits (fst p) r) f) ps files ->
  Forall ok done ->
  exists cs, setup files (map (fun p => blank (fst p) (snd p) 0 len0) ps) done = Some (done ++ cs) /\ Forall ok cs /\
    map remaining cs = map (fun x => contribution (fst (fst x)) (snd x)) (combine ps files).
Proof.
  induction files as [|f files IH]; intros ps done L P F D.
  - destruct ps; [|discriminate]. exists []. cbn. rewrite app_nil_r. auto.
  - destruct ps as [|(s, n) ps]; [discriminate|]. inversion P as [|? ? P1 P2]; subst. inversion F as [|? ? ? ? F1 F2]; subst. destruct F1 as (F0 & F1). cbn [fst snd] in *.
    cbn [map setup]. unfold read_trace. cbn [rest blank t scalar nr_iter iter len fst snd].
    destruct (read_ok f (Cur f f false (Rec false 0 0 0) s n 0 len0) eq_refl ltac:(cbn; lia) ltac:(cbn; lia) F1) as [(E & _)|(c' & R & O & E & S)].
    + exfalso. cbn [scalar] in E. unfold contribution in E. apply map_eq_nil in E. apply Exists_exists in F0. destruct F0 as (r & I & U).
      assert (In r (filter useful f)) by (apply filter_In; auto). rewrite E in H. contradiction.
    + rewrite R. destruct (IH ps (done ++ [c']) ltac:(cbn in L; lia) P2 F2) as (cs & X1 & X2 & X3); [apply Forall_app; split; [exact D|constructor; [exact O|constructor]]|].
      rewrite X1, <- app_assoc. exists (c' :: cs). split; [reflexivity|]. split; [constructor; assumption|]. cbn [map combine fst snd]. rewrite E, X3. reflexivity.
Qed.
