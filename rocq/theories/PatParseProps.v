(** C09: the pattern parser.  The grammar is specified in [PatParseSpec]. *)
From Coq Require Import ZArith List Lia Bool.
From Verif Require Import CBase Mem PatternModel PatternSpec PatParseModel PatParseSpec PatParseProofs.
Import ListNotations.
Open Scope Z_scope.

Lemma texts_len files its : Forall (item_ok files) its -> (length its <= length (texts its))%nat.
Proof.
  induction 1 as [|it r H Hr IH]; [cbn; lia|]. unfold texts. cbn [map concat]. rewrite app_length.
  fold (texts r). cbn [length]. enough (0 < length (text it))%nat by lia.
  destruct it as [s|up ds|neg ds| |name content]; cbn [text]; rewrite ?app_length; cbn; try lia.
  destruct H as [H _]. destruct ds; [congruence|cbn; lia].
Qed.

(** Every sequence of legal, separable items parses to the concatenation of the bytes of the items,
    with the offset fields where the %o items are (restriction: [near]). *)
Theorem C09_items : forall files its fmt_sz,
  its <> [] -> Forall (item_ok files) its -> separable its -> near its ->
  zlen (all_bytes its) <= MAX_PATTERN_SIZE -> zlen (off_fields 0 its) <= fmt_sz ->
  parse_alloc files fmt_desc (texts its) fmt_sz =
    Ret (zlen (all_bytes its), Some (map Some (all_bytes its)),
         map (fun f => (Z.of_nat f, 8)) (off_fields 0 its), zlen (off_fields 0 its)).
Proof.
  intros files its fmt_sz Hne Hok Hsep Hnear Hmax Hfmt.
  assert (NB : 0 < zlen (all_bytes its)).
  { destruct its as [|it r]; [congruence|]. inversion Hok; subst.
    pose proof (bytes_nonempty files it ltac:(auto)). unfold zlen, all_bytes. cbn [map concat].
    rewrite app_length. lia. }
  pose proof (texts_len files its Hok) as TL.
  assert (NT : zlen (texts its) <> 0).
  { unfold zlen. destruct its; [congruence|]. cbn [length] in TL. lia. }
  unfold parse_alloc, parse_and_fill.
  destruct (Z.eqb_spec (zlen (texts its)) 0); [contradiction|].
  destruct (Z.eqb_spec MAX_PATTERN_SIZE 0) as [E|_]; [unfold MAX_PATTERN_SIZE in E; lia|]. cbn [orb].
  rewrite (loop_ok files its _ (mkPst None 0 MAX_PATTERN_SIZE [] fmt_sz) 0); auto; cbn [p_total p_room p_rem p_out];
    try discriminate; try lia.
  cbn [p_fmts]. rewrite Z.add_0_l.
  destruct (Z.eqb_spec (zlen (all_bytes its)) 0); [lia|].
  replace (fmt_sz - (fmt_sz - zlen (off_fields 0 its))) with (zlen (off_fields 0 its)) by lia.
  set (N := Z.to_nat (zlen (all_bytes its))).
  rewrite (loop_ok files its _ (mkPst (Some (repeat None N)) 0 (zlen (all_bytes its)) []
     (zlen (off_fields 0 its))) 0); auto; cbn [p_total p_room p_rem p_out p_fmts]; try lia.
  - rewrite Z.add_0_l, app_nil_r, rev_involutive, !Z.sub_diag, Z.sub_0_r.
    do 4 f_equal. unfold put_at. cbn [firstn app plus]. rewrite skipn_all2, app_nil_r; auto.
    rewrite repeat_length, map_length. unfold N, zlen. lia.
  - intros buf E. inversion E; subst. rewrite repeat_length. unfold N, zlen in *. lia.
Qed.

(** For every input text, whatever it contains: nothing is stored outside the allocated buffer, and a
    successful parse yields a buffer of exactly the returned size (at most 128 MiB), whose offset
    fields are ordered, disjoint and inside it, with no more fields than slots. *)
Theorem C09_any_input : forall files inp fmt_sz, 0 <= fmt_sz ->
  match parse_alloc files fmt_desc inp fmt_sz with
  | Ret (n, out, fmts, nf) =>
      1 <= n <= MAX_PATTERN_SIZE /\ nf = zlen fmts /\ nf <= fmt_sz /\
      (exists buf, out = Some buf /\ zlen buf = n) /\
      exists fields, fmts = map (fun f => (Z.of_nat f, 8)) fields /\ fields_ok 0 fields (Z.to_nat n)
  | Inval | Abort => True
  | Stuck => False
  end.
Proof.
  intros files inp fmt_sz Hf. unfold parse_alloc, parse_and_fill.
  destruct (Z.eqb_spec (zlen inp) 0); [exact I|].
  destruct (Z.eqb_spec MAX_PATTERN_SIZE 0) as [E|_]; [exact I|]. cbn [orb].
  set (st1 := mkPst None 0 MAX_PATTERN_SIZE [] fmt_sz).
  assert (G1 : good st1) by (constructor; cbn; unfold MAX_PATTERN_SIZE; try lia; auto).
  pose proof (loop_any files (S (length inp)) inp st1 G1 ltac:(lia)) as L1.
  destruct (fill_loop files fmt_desc (S (length inp)) inp st1) as [st1'| | |] eqn:E1; auto.
  destruct L1 as (G1' & T1 & _ & R1 & M1 & F1). cbn [st1 p_total p_room p_rem p_fmts] in *.
  pose proof (g_room _ G1'). pose proof (g_rem _ G1').
  destruct (Z.eqb_spec (p_total st1') 0); [lia|]. 
  set (st2 := mkPst (Some (repeat None (Z.to_nat (p_total st1')))) 0 (p_total st1') [] (fmt_sz - p_rem st1')).
  assert (G2 : good st2).
  { constructor; cbn; try lia. unfold zlen. rewrite repeat_length. split; [lia|]. exists []. split; auto. cbn. auto. }
  destruct (second_pass files (S (length inp)) inp st1 st1' st2 G1 G2 ltac:(lia) E1) as (st2' & E2 & T2 & R2 & M2);
    cbn [st1 st2 p_total p_room p_rem]; try lia.
  rewrite E2. pose proof (loop_any files (S (length inp)) inp st2 G2 ltac:(lia)) as L2. rewrite E2 in L2.
  destruct L2 as (G2' & _ & O2 & _ & _ & F2). cbn [st2 p_out p_rem p_fmts] in *.
  destruct G2' as [_ _ _ GO]. destruct (p_out st2') as [buf|] eqn:EO; [|exfalso; destruct O2 as [_ O2]; discriminate (O2 eq_refl)].
  destruct GO as [LB (fields & EF & FO)].
  split; [lia|]. unfold zlen in F2 at 2. cbn [length] in F2. split; [unfold zlen in *; rewrite rev_length; lia|].
  split; [lia|]. split; [exists buf; split; auto; lia|].
  exists fields. split; [rewrite EF, rev_involutive; auto|]. exact FO.
Qed.

(** The two passes agree: if the measuring pass succeeds, so does the filling pass, with the same
    size. *)
Theorem C09_passes_agree : forall files inp fmt_sz n fmts nf, 0 <= fmt_sz ->
  parse_and_fill files fmt_desc inp None MAX_PATTERN_SIZE fmt_sz = Ret (n, None, fmts, nf) ->
  match parse_alloc files fmt_desc inp fmt_sz with
  | Ret (n', _, _, nf') => n' = n /\ nf' = nf
  | _ => False
  end.
Proof.
  intros files inp fmt_sz n fmts nf Hf E. unfold parse_alloc. rewrite E. unfold parse_and_fill in *.
  destruct (Z.eqb_spec (zlen inp) 0); [discriminate|]. cbn [orb] in *.
  destruct (Z.eqb_spec MAX_PATTERN_SIZE 0) as [|_]; [discriminate|].
  set (st1 := mkPst None 0 MAX_PATTERN_SIZE [] fmt_sz) in *.
  assert (G1 : good st1) by (constructor; cbn; unfold MAX_PATTERN_SIZE; try lia; auto).
  pose proof (loop_any files (S (length inp)) inp st1 G1 ltac:(lia)) as L1.
  destruct (fill_loop files fmt_desc (S (length inp)) inp st1) as [st1'| | |] eqn:E1; try discriminate.
  assert (En : p_total st1' = n /\ fmt_sz - p_rem st1' = nf) by (inversion E; auto). destruct En as [En Ef].
  destruct L1 as (G1' & T1 & _ & R1 & M1 & F1). cbn [st1 p_total p_room p_rem p_fmts] in *.
  destruct (Z.eqb_spec n 0); [lia|].
  set (st2 := mkPst (Some (repeat None (Z.to_nat n))) 0 n [] nf).
  assert (G2 : good st2).
  { pose proof (g_rem _ G1'). constructor; cbn; try lia. unfold zlen. rewrite repeat_length. split; [lia|]. exists []. split; auto. cbn. auto. }
  destruct (second_pass files (S (length inp)) inp st1 st1' st2 G1 G2 ltac:(lia) E1) as (st2' & E2 & T2 & R2 & M2);
    cbn [st1 st2 p_total p_room p_rem]; try lia.
  rewrite E2. split; lia.
Qed.

(** Non-vacuity: the documented example  -100xab"1"%o"2"  and  0xFF0X1 . *)
Definition ex_items : list item := [IDec true [49; 48]; IHex false [97; 98]; IStr [49]; IOff; IStr [50]].
Example C09_ex_hyps : Forall (item_ok (fun _ => None)) ex_items /\ separable ex_items /\ near ex_items.
Proof.
  split; [|split].
  - repeat (apply Forall_cons || apply Forall_nil); cbn [item_ok].
    + split; [discriminate|]. split; [repeat constructor|cbn; lia].
    + split; [discriminate|repeat constructor].
    + split; [discriminate|intros [H|[]]; discriminate].
    + exact I.
    + split; [discriminate|intros [H|[]]; discriminate].
  - cbn. tauto.
  - cbn [near]. split; [|repeat split]. intros pos [_ H].
    destruct (Nat.lt_ge_cases pos 24); auto. exfalso. apply (H 3%nat); [lia|].
    exists 120. auto.
Qed.
Example C09_ex_run : parse_alloc (fun _ => None) fmt_desc (texts ex_items) 16 =
  Ret (15, Some (map Some [246; 255; 255; 255; 171; 49; 0; 0; 0; 0; 0; 0; 0; 0; 50]), [(6, 8)], 1).
Proof. vm_compute. reflexivity. Qed.
Example C09_ex_hex : parse_alloc (fun _ => None) fmt_desc [48; 120; 70; 70; 48; 88; 49] 0 =
  Ret (2, Some [Some 255; Some 1], [], 0).
Proof. vm_compute. reflexivity. Qed.

(** Finding: without the [near] restriction the property is false.  1"aaaaaaaaaaaaaaaaaaaaaaaa"0x12
    consists of three legal, separable items and is rejected. *)
Theorem C09_far_hex_rejected_refuted :
  let its := [IDec false [49]; IStr (repeat 97 24); IHex false [49; 50]] in
  Forall (item_ok (fun _ => None)) its /\ separable its /\
  parse_alloc (fun _ => None) fmt_desc (texts its) 0 = Inval.
Proof.
  split; [|split].
  - repeat (apply Forall_cons || apply Forall_nil); cbn [item_ok].
    + split; [discriminate|]. split; [repeat constructor|cbn; lia].
    + split; [discriminate|]. intros H. apply repeat_spec in H. discriminate.
    + split; [discriminate|repeat constructor].
  - cbn. tauto.
  - vm_compute. reflexivity.
Qed.

(** Finding: some texts end in a failed assertion instead of an error:  ""  and  0x0x12 . *)
Theorem C09_abort_refuted :
  parse_alloc (fun _ => None) fmt_desc [34; 34] 0 = Abort /\
  parse_alloc (fun _ => None) fmt_desc [48; 120; 48; 120; 49; 50] 0 = Abort.
Proof. vm_compute. auto. Qed.

(** Finding: 0xx12 is accepted and leaves a byte of the pattern uninitialised. *)
Theorem C09_uninitialised_refuted :
  parse_alloc (fun _ => None) fmt_desc [48; 120; 120; 49; 50] 0 = Ret (2, Some [None; Some 18], [], 0).
Proof. vm_compute. reflexivity. Qed.

Print Assumptions C09_items.
Print Assumptions C09_any_input.
Print Assumptions C09_passes_agree.
Print Assumptions C09_far_hex_rejected_refuted.
Print Assumptions C09_abort_refuted.
Print Assumptions C09_uninitialised_refuted.
