(** Proofs about pattern fill and compare. *)
From Coq Require Import ZArith List Lia Bool Arith.
From Verif Require Import CBase Mem PatternModel PatternSpec.
Import ListNotations.
Open Scope Z_scope.

Lemma u32_of_nat n : (Z.of_nat n < 2 ^ 32) -> u32 (Z.of_nat n) = Z.of_nat n.
Proof. intros. unfold u32. apply Z.mod_small. lia. Qed.

Lemma zmin_nat a b : Z.min (Z.of_nat a) (Z.of_nat b) = Z.of_nat (Nat.min a b).
Proof. lia. Qed.

(** [buf] repeats with period [p] on the [n] bytes at [base]. *)
Definition periodic (buf : list Z) (base p n : nat) : Prop :=
  forall i, (i < n)%nat -> nth (base + i) buf 0 = nth (base + i mod p) buf 0.

Lemma dup_loop_ok base p out_len : (0 < p)%nat -> Z.of_nat out_len < 2 ^ 32 ->
  forall fuel buf left off q,
  (left < fuel)%nat -> (off + left = out_len)%nat -> (left <> 0 -> off = p * q /\ 0 < off)%nat ->
  (p <= off)%nat ->
  (base + out_len <= length buf)%nat -> periodic buf base p off ->
  exists buf', dup_loop fuel buf (Z.of_nat base) (Z.of_nat left) (Z.of_nat off)
                 (Z.min (Z.of_nat left) (Z.of_nat off)) = Some buf' /\
    length buf' = length buf /\
    (forall i, (i < out_len)%nat -> nth (base + i) buf' 0 = nth (base + i mod p) buf 0) /\
    (forall j, (j < base \/ base + out_len <= j)%nat -> nth j buf' 0 = nth j buf 0).
Proof.
  intros Hp Hol. induction fuel as [|fuel IH]; intros buf left off q Hf Hs Hq Hpo Hb Hper; [lia|].
  cbn [dup_loop]. destruct (Z.eqb_spec (Z.of_nat left) 0) as [E|E].
  - exists buf. split; [auto|]. split; [auto|]. split; auto. intros i Hi. apply Hper. lia.
  - assert (left <> 0)%nat by lia. destruct (Hq ltac:(lia)) as [Eo Po].
    set (len := Nat.min left off). rewrite zmin_nat. fold len.
    rewrite !Nat2Z.id. rewrite slice_some by lia.
    replace (Z.to_nat (Z.of_nat base + Z.of_nat off)) with (base + off)%nat by lia.
    set (src := firstn len (skipn base buf)).
    assert (Ls : length src = len) by (unfold src; rewrite firstn_length, skipn_length; lia).
    destruct (blit_some buf (base + off) src) as [b Eb]; [lia|]. rewrite Eb.
    assert (Lb : length b = length buf) by (eapply blit_length; eauto).
    assert (Nb : forall i, nth i b 0 = if ((base + off <=? i) && (i <? base + off + len))%nat
                  then nth (i - off) buf 0 else nth i buf 0).
    { intros i. rewrite (blit_nth _ _ _ _ 0 i Eb), Ls.
      destruct (Nat.leb_spec (base + off) i), (Nat.ltb_spec i (base + off + len)); cbn [andb]; auto.
      unfold src. rewrite nth_firstn by lia. rewrite nth_skipn. f_equal. lia. }
    assert (Hmod : forall i, ((i + p * q) mod p = i mod p)%nat).
    { intros i. rewrite (Nat.mul_comm p q). apply Nat.mod_add. lia. }
    assert (Hperb : periodic b base p (off + len)).
    { intros i Hi. rewrite !Nb.
      assert (i mod p < p)%nat by (apply Nat.mod_upper_bound; lia).
      destruct (Nat.leb_spec (base + off) (base + i mod p)); [lia|]. cbn [andb].
      destruct (Nat.leb_spec (base + off) (base + i)); cbn [andb].
      - destruct (Nat.ltb_spec (base + i) (base + off + len)); [|lia].
        replace (base + i - off)%nat with (base + (i - off))%nat by lia.
        rewrite Hper by lia. f_equal. f_equal.
        replace i with ((i - off) + p * q)%nat at 2 by lia. symmetry. apply Hmod.
      - apply Hper. lia. }
    assert (Hout : forall i, (i < p)%nat -> nth (base + i) b 0 = nth (base + i) buf 0).
    { intros i Hi. rewrite Nb. destruct (Nat.leb_spec (base + off) (base + i)); [lia|]. auto. }
    replace (u32 (Z.of_nat left - Z.of_nat len)) with (Z.of_nat (left - len)%nat).
    2:{ rewrite <- (u32_of_nat (left - len)) by lia. f_equal. lia. }
    destruct (Nat.eq_dec left len) as [El|El].
    + (* last iteration: the doubled offset is not used any more *)
      replace (left - len)%nat with 0%nat by lia.
      exists b. split; [destruct fuel; reflexivity|]. split; [auto|]. split.
      * intros i Hi. rewrite Hperb by lia. apply Hout. apply Nat.mod_upper_bound. lia.
      * intros j Hj. rewrite Nb.
        destruct (Nat.leb_spec (base + off) j), (Nat.ltb_spec j (base + off + len)); cbn [andb]; auto; lia.
    + assert (len = off) by lia.
      replace (u32 (Z.of_nat off * 2)) with (Z.of_nat (off + len)%nat).
      2:{ rewrite <- (u32_of_nat (off + len)) by lia. f_equal. lia. }
      destruct (IH b (left - len)%nat (off + len)%nat (2 * q)%nat) as (b' & Eb' & Lb' & N1 & N2);
        try lia; [exact Hperb|].
      exists b'. split; [exact Eb'|]. split; [lia|]. split.
      * intros i Hi. rewrite N1 by auto. apply Hout. apply Nat.mod_upper_bound. lia.
      * intros j Hj. rewrite N2 by auto. rewrite Nb.
        destruct (Nat.leb_spec (base + off) j), (Nat.ltb_spec j (base + off + len)); cbn [andb]; auto; lia.
Qed.

Lemma dup_pattern_ok base p out_len buf : (0 < p)%nat -> Z.of_nat out_len < 2 ^ 32 ->
  (base + out_len <= length buf)%nat ->
  exists buf', dup_pattern buf (Z.of_nat base) (Z.of_nat out_len) (Z.of_nat p) = Some buf' /\
    length buf' = length buf /\
    (forall i, (i < out_len)%nat -> nth (base + i) buf' 0 = nth (base + i mod p) buf 0) /\
    (forall j, (j < base \/ base + out_len <= j)%nat -> nth j buf' 0 = nth j buf 0).
Proof.
  intros Hp Ho Hb. unfold dup_pattern. destruct (Z.leb_spec (Z.of_nat out_len) (Z.of_nat p)).
  - exists buf. split; [auto|]. split; [auto|]. split; auto.
    intros i Hi. rewrite Nat.mod_small by lia. auto.
  - replace (u32 (Z.of_nat out_len - Z.of_nat p)) with (Z.of_nat (out_len - p)%nat).
    2:{ rewrite <- (u32_of_nat (out_len - p)) by lia. f_equal. lia. }
    apply (dup_loop_ok base p out_len Hp Ho _ buf (out_len - p)%nat p 1%nat); try lia.
    intros i Hi. rewrite Nat.mod_small by lia. auto.
Qed.


Lemma cpy_ok pattern buf base out_len : (0 < length pattern)%nat -> zlen pattern < 2 ^ 32 ->
  (0 < out_len)%nat -> Z.of_nat out_len < 2 ^ 32 -> (base + out_len <= length buf)%nat ->
  exists buf', cpy_pattern pattern buf (Z.of_nat base) (Z.of_nat out_len) = Some (0, buf') /\
    length buf' = length buf /\
    (forall i, (i < out_len)%nat -> nth (base + i) buf' 0 = cyc pattern i) /\
    (forall j, (j < base \/ base + out_len <= j)%nat -> nth j buf' 0 = nth j buf 0).
Proof.
  intros Hp Hp2 Ho Ho2 Hb. unfold cpy_pattern, zlen in *.
  destruct (Z.eqb_spec (Z.of_nat (length pattern)) 0); [lia|].
  destruct (Z.eqb_spec (Z.of_nat out_len) 0); [lia|]. cbn [orb].
  rewrite zmin_nat, !Nat2Z.id. set (len := Nat.min (length pattern) out_len).
  rewrite slice_some by lia. cbn [skipn].
  assert (Ls : length (firstn len pattern) = len) by (rewrite firstn_length; lia).
  destruct (blit_some buf base (firstn len pattern)) as [b Eb]; [lia|]. rewrite Eb.
  assert (Lb : length b = length buf) by (eapply blit_length; eauto).
  destruct (dup_pattern_ok base (length pattern) out_len b) as (b' & Eb' & Lb' & N1 & N2); try lia.
  rewrite Eb'. exists b'. split; [auto|]. split; [lia|]. split.
  - intros i Hi. rewrite N1 by auto. rewrite (blit_nth _ _ _ _ 0 _ Eb), Ls.
    assert (i mod length pattern < length pattern)%nat by (apply Nat.mod_upper_bound; lia).
    assert (i mod length pattern <= i)%nat by (apply Nat.mod_le; lia).
    destruct (Nat.leb_spec base (base + i mod length pattern)); [|lia].
    destruct (Nat.ltb_spec (base + i mod length pattern) (base + len)); [|lia]. cbn [andb].
    rewrite nth_firstn by lia. unfold cyc. f_equal. lia.
  - intros j Hj. rewrite N2 by auto. rewrite (blit_nth _ _ _ _ 0 _ Eb), Ls.
    destruct (Nat.leb_spec base j), (Nat.ltb_spec j (base + len)); cbn [andb]; auto. lia.
Qed.

(** ** Compare *)

Lemma mem_eq_ok a ao b bo n : (ao + n <= length a)%nat -> (bo + n <= length b)%nat ->
  exists e, mem_eq a (Z.of_nat ao) b (Z.of_nat bo) (Z.of_nat n) = Some e /\
    (e = true <-> forall i, (i < n)%nat -> nth (ao + i) a 0 = nth (bo + i) b 0).
Proof.
  intros Ha Hb. unfold mem_eq. rewrite !Nat2Z.id, !slice_some by lia.
  destruct (list_eq_dec _ _ _) as [E|E]; eexists; (split; [reflexivity|]); split; intros H; auto.
  - intros i Hi. assert (Q : nth i (firstn n (skipn ao a)) 0 = nth i (firstn n (skipn bo b)) 0)
      by (rewrite E; auto).
    rewrite !nth_firstn, !nth_skipn in Q by lia. auto.
  - discriminate.
  - exfalso. apply E. apply list_ext with 0.
    + rewrite !firstn_length, !skipn_length. lia.
    + intros i Hi. rewrite firstn_length, skipn_length in Hi.
      rewrite !nth_firstn, !nth_skipn by lia. apply H. lia.
Qed.

Lemma cmp_ok pattern off buf base len : (0 < length pattern)%nat -> zlen pattern < 2 ^ 32 ->
  (off < length pattern)%nat -> Z.of_nat len < 2 ^ 32 -> (base + len <= length buf)%nat ->
  exists rc, cmp_pattern pattern (Z.of_nat off) buf (Z.of_nat base) (Z.of_nat len) = Some rc /\
    (rc = 0 \/ rc = - EILSEQ) /\
    (rc = 0 <-> forall i, (i < len)%nat -> nth (base + i) buf 0 = cyc pattern (off + i)).
Proof.
  intros Hp Hp2 Ho Hl Hb. unfold cmp_pattern, zlen in *.
  set (P := length pattern) in *.
  assert (CY : forall i, (i < P)%nat -> cyc pattern i = nth i pattern 0)
    by (intros; unfold cyc; rewrite Nat.mod_small by (fold P; lia); auto).
  assert (CP : forall i, cyc pattern (i + P) = cyc pattern i).
  { intros i. unfold cyc. fold P. f_equal. replace (i + P)%nat with (i + 1 * P)%nat by lia.
    apply Nat.mod_add. lia. }
  (* first comparison *)
  assert (S1 : exists e1, (if Z.of_nat P <? Z.of_nat len
            then mem_eq buf (Z.of_nat base) buf (Z.of_nat base + Z.of_nat P) (u32 (Z.of_nat len - Z.of_nat P))
            else Some true) = Some e1 /\
          (e1 = true <-> forall i, (i + P < len)%nat -> nth (base + i) buf 0 = nth (base + (i + P)) buf 0)).
  { destruct (Z.ltb_spec (Z.of_nat P) (Z.of_nat len)).
    - replace (u32 (Z.of_nat len - Z.of_nat P)) with (Z.of_nat (len - P)%nat).
      2:{ rewrite <- (u32_of_nat (len - P)) by lia. f_equal. lia. }
      replace (Z.of_nat base + Z.of_nat P) with (Z.of_nat (base + P)%nat) by lia.
      destruct (mem_eq_ok buf base buf (base + P) (len - P)) as (e & E & Q); try lia.
      exists e. split; [auto|]. rewrite Q. split; intros G i Hi.
      + rewrite G by lia. f_equal. lia.
      + rewrite G by lia. f_equal. lia.
    - exists true. split; auto. split; auto. intros _ i Hi. lia. }
  destruct S1 as (e1 & -> & Q1).
  destruct e1; cbn [negb].
  2:{ exists (- EILSEQ). split; [auto|]. split; [auto|]. split; [discriminate|]. intros G.
      assert (false = true); [|discriminate]. apply Q1. intros i Hi.
      rewrite !G by lia. rewrite Nat.add_assoc, CP. auto. }
  assert (Q1' := proj1 Q1 eq_refl). clear Q1.
  (* it remains to compare the first period *)
  assert (RED : (forall i, (i < len)%nat -> nth (base + i) buf 0 = cyc pattern (off + i)) <->
                (forall i, (i < len)%nat -> (i < P)%nat -> nth (base + i) buf 0 = cyc pattern (off + i))).
  { split; [auto|]. intros G i. induction i as [i IH] using (well_founded_induction lt_wf). intros Hi.
    destruct (Nat.lt_ge_cases i P); auto.
    replace i with (i - P + P)%nat by lia.
    rewrite <- Q1' by lia. rewrite Nat.add_assoc, CP. apply IH; lia. }
  destruct (Z.eqb_spec (Z.of_nat off) 0) as [E0|E0].
  - assert (off = 0)%nat by lia. subst off. cbn [negb]. clear E0.
    rewrite Z.add_0_r, Z.sub_0_r. rewrite u32_of_nat by lia.
    destruct (Z.eqb_spec (Z.of_nat len) 0).
    + exists 0. split; [auto|]. split; [auto|]. split; auto. intros _ i Hi. lia.
    + rewrite zmin_nat.
      destruct (mem_eq_ok buf base pattern 0 (Nat.min len P)) as (e & E & Q); try lia.
      cbn [Z.of_nat] in E. rewrite E. eexists. split; [reflexivity|]. split; [destruct e; auto|].
      rewrite RED. cbn [plus] in *. transitivity (e = true).
      * destruct e; unfold EILSEQ; split; auto; discriminate.
      * rewrite Q. split; intros G i Hi; [intros Hi2|].
        -- rewrite G by lia. symmetry. apply CY. auto.
        -- rewrite G by lia. apply CY. lia.
  - replace (u32 (Z.of_nat P - Z.of_nat off)) with (Z.of_nat (P - off)%nat).
    2:{ rewrite <- (u32_of_nat (P - off)) by lia. f_equal. lia. }
    rewrite zmin_nat. set (size := Nat.min len (P - off)).
    destruct (mem_eq_ok buf base pattern off size) as (e2 & E2 & Q2); try lia.
    rewrite E2. destruct e2; cbn [negb].
    2:{ exists (- EILSEQ). split; [auto|]. split; [auto|]. split; [discriminate|]. intros G.
        assert (false = true); [|discriminate]. apply Q2. intros i Hi.
        rewrite G by lia. apply CY. lia. }
    assert (Q2' := proj1 Q2 eq_refl). clear Q2.
    replace (u32 (Z.of_nat len - Z.of_nat size)) with (Z.of_nat (len - size)%nat).
    2:{ rewrite <- (u32_of_nat (len - size)) by lia. f_equal. lia. }
    destruct (Z.eqb_spec (Z.of_nat (len - size)) 0).
    + exists 0. split; [auto|]. split; [auto|]. split; auto. intros _.
      apply RED. intros i Hi Hi2. rewrite Q2' by lia. symmetry. apply CY. lia.
    + rewrite zmin_nat.
      replace (Z.of_nat base + Z.of_nat size) with (Z.of_nat (base + size)%nat) by lia.
      destruct (mem_eq_ok buf (base + size) pattern 0 (Nat.min (len - size) off)) as (e & E & Q); try lia.
      cbn [Z.of_nat] in E. rewrite E. eexists. split; [reflexivity|]. split; [destruct e; auto|].
      rewrite RED. transitivity (e = true).
      * destruct e; unfold EILSEQ; split; auto; discriminate.
      * assert (size = P - off)%nat by lia. rewrite Q. split; intros G i Hi; [intros Hi2|].
        -- destruct (Nat.lt_ge_cases i size).
           ++ rewrite Q2' by lia. symmetry. apply CY. lia.
           ++ replace (base + i)%nat with (base + size + (i - size))%nat by lia.
              rewrite G by lia. replace (off + i)%nat with (i - size + P)%nat by lia.
              rewrite CP. symmetry. apply CY. lia.
        -- replace (base + size + i)%nat with (base + (size + i))%nat by lia.
           rewrite G by lia. replace (off + (size + i))%nat with (i + P)%nat by lia.
           rewrite CP. apply CY. lia.
Qed.

(** ** Offset fields *)

Lemma le_bytes_length n v : length (le_bytes n v) = n.
Proof. revert v. induction n; intros; simpl; auto. Qed.

Lemma le_bytes_nth n : forall v k, (k < n)%nat -> nth k (le_bytes n v) 0 = byte_of v k.
Proof.
  induction n as [|n IH]; intros v k Hk; [lia|]. destruct k as [|k]; cbn [le_bytes nth].
  - unfold byte_of. cbn [Z.of_nat]. rewrite Z.mul_0_r, Z.pow_0_r, Z.div_1_r. auto.
  - rewrite IH by lia. unfold byte_of. change 256 with (2 ^ 8) at 1.
    rewrite Z.div_div by lia. rewrite <- Z.pow_add_r by lia. do 2 f_equal. f_equal. lia.
Qed.

Lemma field_at_low fields : forall from plen k, fields_ok from fields plen -> (k < from)%nat ->
  field_at fields k = None.
Proof.
  induction fields as [|f fs IH]; intros from plen k H Hk; cbn [field_at]; auto.
  destruct H as (H1 & H2 & H3). destruct (Nat.leb_spec f k); [lia|]. cbn [andb].
  apply (IH (f + 8)%nat plen); auto. lia.
Qed.

Lemma paste_loop_ok offset base n plen : forall fields from buf,
  fields_ok from fields plen -> (base + n <= length buf)%nat ->
  exists buf', paste_loop (fmts_of fields) buf (Z.of_nat base) (Z.of_nat n) offset = Some buf' /\
    length buf' = length buf /\
    (forall k, (k < n)%nat -> nth (base + k) buf' 0 =
       match field_at fields k with Some b => byte_of offset b | None => nth (base + k) buf 0 end) /\
    (forall j, (j < base \/ base + n <= j)%nat -> nth j buf' 0 = nth j buf 0).
Proof.
  induction fields as [|f fs IH]; intros from buf Hok Hb; cbn [fmts_of map paste_loop].
  - exists buf. split; [auto|]. split; auto.
  - destruct Hok as (H1 & H2 & H3). cbn [f_off f_len].
    destruct (Z.leb_spec (Z.of_nat n) (Z.of_nat f)).
    + exists buf. split; [auto|]. split; [auto|]. split; auto. intros k Hk.
      rewrite (field_at_low (f :: fs) f plen k); auto; [|lia].
      cbn [fields_ok]. auto.
    + unfold paste_blockoff.
      set (m := Nat.min (n - f) 8).
      replace (Z.to_nat (Z.min (Z.min (Z.of_nat n - Z.of_nat f) 8) 8)) with m by lia.
      replace (Z.to_nat (Z.of_nat base + Z.of_nat f)) with (base + f)%nat by lia.
      set (d := firstn m (le_bytes 8 offset)).
      assert (Ld : length d = m) by (unfold d; rewrite firstn_length, le_bytes_length; lia).
      destruct (blit_some buf (base + f) d) as [b Eb]; [lia|]. rewrite Eb.
      assert (Lb : length b = length buf) by (eapply blit_length; eauto).
      assert (Nb : forall i, nth i b 0 = if ((base + f <=? i) && (i <? base + f + m))%nat
                then byte_of offset (i - (base + f)) else nth i buf 0).
      { intros i. rewrite (blit_nth _ _ _ _ 0 i Eb), Ld.
        destruct (Nat.leb_spec (base + f) i), (Nat.ltb_spec i (base + f + m)); cbn [andb]; auto.
        unfold d. rewrite nth_firstn by lia. apply le_bytes_nth. lia. }
      destruct (IH (f + 8)%nat b) as (b' & Eb' & Lb' & N1 & N2); auto; [lia|].
      exists b'. split; [exact Eb'|]. split; [lia|]. split.
      * intros k Hk. rewrite N1 by auto. cbn [field_at].
        destruct (Nat.leb_spec f k), (Nat.ltb_spec k (f + 8)); cbn [andb].
        -- rewrite (field_at_low fs (f + 8) plen k) by (auto; lia). rewrite Nb.
           destruct (Nat.leb_spec (base + f) (base + k)); [|lia].
           destruct (Nat.ltb_spec (base + k) (base + f + m)); [|lia]. cbn [andb]. f_equal. lia.
        -- destruct (field_at fs k); auto. rewrite Nb.
           destruct (Nat.leb_spec (base + f) (base + k)), (Nat.ltb_spec (base + k) (base + f + m));
             cbn [andb]; auto; lia.
        -- destruct (field_at fs k); auto. rewrite Nb.
           destruct (Nat.leb_spec (base + f) (base + k)), (Nat.ltb_spec (base + k) (base + f + m));
             cbn [andb]; auto; lia.
        -- lia.
      * intros j Hj. rewrite N2 by auto. rewrite Nb.
        destruct (Nat.leb_spec (base + f) j), (Nat.ltb_spec j (base + f + m)); cbn [andb]; auto; lia.
Qed.

Lemma inplace_ok offset base n plen fields buf :
  fields_ok 0 fields plen -> (0 < n)%nat -> (base + n <= length buf)%nat ->
  exists buf', paste_format_inplace (fmts_of fields) buf (Z.of_nat base) (Z.of_nat n) offset = Some (0, buf') /\
    length buf' = length buf /\
    (forall k, (k < n)%nat -> nth (base + k) buf' 0 =
       match field_at fields k with Some b => byte_of offset b | None => nth (base + k) buf 0 end) /\
    (forall j, (j < base \/ base + n <= j)%nat -> nth j buf' 0 = nth j buf 0).
Proof.
  intros Hok Hn Hb. destruct (paste_loop_ok offset base n plen fields 0 buf Hok Hb) as (b & E & R).
  exists b. split; [|exact R]. unfold paste_format_inplace.
  destruct (Z.eqb_spec (Z.of_nat n) 0); [lia|]. rewrite E. auto.
Qed.

Lemma paste_format_ok pattern fields buf base out_len offset :
  (0 < length pattern)%nat -> zlen pattern < 2 ^ 32 -> fields_ok 0 fields (length pattern) ->
  (0 < out_len)%nat -> Z.of_nat out_len < 2 ^ 32 -> (base + out_len <= length buf)%nat ->
  exists buf', paste_format pattern (fmts_of fields) buf (Z.of_nat base) (Z.of_nat out_len) offset
               = Some (0, buf') /\
    length buf' = length buf /\
    (forall i, (i < out_len)%nat ->
       nth (base + i) buf' 0 = pat_byte pattern fields offset (i mod length pattern)) /\
    (forall j, (j < base \/ base + out_len <= j)%nat -> nth j buf' 0 = nth j buf 0).
Proof.
  intros Hp Hp2 Hok Ho Ho2 Hb. unfold paste_format, zlen in *.
  destruct (Z.eqb_spec (Z.of_nat (length pattern)) 0); [lia|].
  destruct (Z.eqb_spec (Z.of_nat out_len) 0); [lia|]. cbn [orb].
  rewrite zmin_nat, !Nat2Z.id. set (len := Nat.min (length pattern) out_len).
  rewrite slice_some by lia. cbn [skipn].
  assert (Ls : length (firstn len pattern) = len) by (rewrite firstn_length; lia).
  destruct (blit_some buf base (firstn len pattern)) as [b Eb]; [lia|]. rewrite Eb.
  assert (Lb : length b = length buf) by (eapply blit_length; eauto).
  destruct (inplace_ok offset base len (length pattern) fields b) as (b2 & E2 & L2 & N1 & N2); auto; try lia.
  rewrite E2. cbn [Z.eqb negb].
  destruct (dup_pattern_ok base (length pattern) out_len b2) as (b3 & E3 & L3 & M1 & M2); try lia.
  rewrite E3. exists b3. split; [auto|]. split; [lia|]. split.
  - intros i Hi. rewrite M1 by auto.
    assert (i mod length pattern < length pattern)%nat by (apply Nat.mod_upper_bound; lia).
    assert (i mod length pattern <= i)%nat by (apply Nat.mod_le; lia).
    rewrite N1 by lia. unfold pat_byte. destruct (field_at _ _); auto.
    rewrite (blit_nth _ _ _ _ 0 _ Eb), Ls.
    destruct (Nat.leb_spec base (base + i mod length pattern)); [|lia].
    destruct (Nat.ltb_spec (base + i mod length pattern) (base + len)); [|lia]. cbn [andb].
    rewrite nth_firstn by lia. f_equal. lia.
  - intros j Hj. rewrite M2 by auto. rewrite N2 by lia. rewrite (blit_nth _ _ _ _ 0 _ Eb), Ls.
    destruct (Nat.leb_spec base j), (Nat.ltb_spec j (base + len)); cbn [andb]; auto. lia.
Qed.

Lemma piece_start_same I k j : (0 < I)%nat -> (k * I <= j < k * I + I)%nat -> piece_start I j = (k * I)%nat.
Proof.
  intros HI Hj. unfold piece_start. destruct (Nat.eqb_spec I 0); [lia|]. f_equal.
  symmetry. apply Nat.div_unique with (j - k * I)%nat; lia.
Qed.

Lemma fill_loop_ok pattern fields I len offset :
  (0 < length pattern)%nat -> zlen pattern < 2 ^ 32 -> fields_ok 0 fields (length pattern) ->
  (0 < I)%nat -> Z.of_nat I < 2 ^ 32 -> Z.of_nat len < 2 ^ 32 -> 0 <= offset < 2 ^ 63 ->
  forall fuel buf done k, (len - done < fuel)%nat -> length buf = len ->
  (done = k * I \/ done = len)%nat -> (done <= len)%nat ->
  exists buf', fill_loop fuel pattern (fmts_of fields) buf (Z.of_nat I) (Z.of_nat len) (Z.of_nat done)
                 (Z.of_nat done) (offset + Z.of_nat (k * I)%nat) = Some buf' /\
    length buf' = len /\
    (forall j, (j < done)%nat -> nth j buf' 0 = nth j buf 0) /\
    (forall j, (done <= j < len)%nat -> nth j buf' 0 = block_byte pattern fields I offset j).
Proof.
  intros Hp Hp2 Hok HI HI2 Hlen Hoff.
  induction fuel as [|fuel IH]; intros buf done k Hf Lb Hd Hle; [lia|].
  cbn [fill_loop]. destruct (Z.leb_spec (Z.of_nat len) (Z.of_nat done)).
  - exists buf. split; [auto|]. split; [auto|]. split; auto. intros j Hj. lia.
  - assert (Ed : done = (k * I)%nat) by lia.
    assert (E0 : Z.of_nat done mod Z.of_nat I = 0).
    { rewrite Ed, Nat2Z.inj_mul. apply Z.mod_mul. lia. }
    rewrite E0. cbn [Z.eqb].
    set (todo := Nat.min I (len - done)).
    replace (Z.min (Z.of_nat I) (u32 (Z.of_nat len - Z.of_nat done))) with (Z.of_nat todo).
    2:{ replace (Z.of_nat len - Z.of_nat done) with (Z.of_nat (len - done)%nat) by lia.
        rewrite u32_of_nat by lia. lia. }
    destruct (paste_format_ok pattern fields buf done todo (offset + Z.of_nat (k * I)%nat))
      as (b & Eb & L & N1 & N2); auto; try lia.
    rewrite Eb.
    replace (u32 (Z.of_nat done + Z.of_nat todo)) with (Z.of_nat (done + todo)%nat).
    2:{ rewrite <- (u32_of_nat (done + todo)) by lia. f_equal. lia. }
    replace (Z.of_nat done + Z.of_nat todo) with (Z.of_nat (done + todo)%nat) by lia.
    replace (u64 (offset + Z.of_nat (k * I)%nat + Z.of_nat I)) with (offset + Z.of_nat (S k * I)%nat).
    2:{ unfold u64. rewrite Z.mod_small; lia. }
    destruct (IH b (done + todo)%nat (S k)) as (b' & Eb' & Lb' & M1 & M2); try lia.
    exists b'. split; [exact Eb'|]. split; [lia|]. split.
    + intros j Hj. rewrite M1 by lia. apply N2. lia.
    + intros j Hj. destruct (Nat.lt_ge_cases j (done + todo)) as [G|G].
      * rewrite M1 by lia. replace j with (done + (j - done))%nat at 1 by lia.
        rewrite N1 by lia. unfold block_byte.
        rewrite (piece_start_same I k j) by lia. rewrite Ed. auto.
      * apply M2. lia.
Qed.

Lemma block_byte_whole pattern fields offset len j : (j < len)%nat ->
  block_byte pattern fields len offset j = block_byte pattern fields 0 offset j.
Proof.
  intros H. unfold block_byte. rewrite (piece_start_same len 0 j) by lia. reflexivity.
Qed.

Lemma fill_ok pattern fields I offset buf :
  (0 < length pattern)%nat -> zlen pattern < 2 ^ 32 -> fields_ok 0 fields (length pattern) ->
  Z.of_nat I < 2 ^ 32 -> zlen buf < 2 ^ 32 -> 0 <= offset < 2 ^ 63 ->
  exists buf', fill_verify_pattern pattern (fmts_of fields) (Z.of_nat I) offset buf = Some buf' /\
    length buf' = length buf /\
    (forall j, (j < length buf)%nat -> nth j buf' 0 = block_byte pattern fields I offset j).
Proof.
  intros Hp Hp2 Hok HI Hb Ho. unfold fill_verify_pattern, zlen in *.
  destruct (Nat.eq_dec (length buf) 0) as [E|E].
  { rewrite E. cbn. exists buf. split; [auto|]. split; auto. intros. lia. }
  destruct (Z.eqb_spec (Z.of_nat I) 0).
  - destruct (fill_loop_ok pattern fields (length buf) (length buf) offset Hp Hp2 Hok ltac:(lia) Hb Hb Ho
      (S (length buf)) buf 0 0) as (b & Eb & L & N1 & N2); try lia.
    cbn [Nat.mul Z.of_nat] in Eb. rewrite Z.add_0_r in Eb. rewrite Nat2Z.id.
    exists b. split; [exact Eb|]. split; auto. intros j Hj. rewrite N2 by lia.
    replace I with 0%nat by lia. apply block_byte_whole. auto.
  - destruct (fill_loop_ok pattern fields I (length buf) offset Hp Hp2 Hok ltac:(lia) HI Hb Ho
      (S (length buf)) buf 0 0) as (b & Eb & L & N1 & N2); try lia.
    cbn [Nat.mul Z.of_nat] in Eb. rewrite Z.add_0_r in Eb. rewrite Nat2Z.id.
    exists b. split; [exact Eb|]. split; auto. intros j Hj. apply N2. lia.
Qed.

(** ** Verify *)

Lemma slow_loop_ok pattern buf rc : rc <> 0 -> forall n pos mod_,
  (pos + n <= length buf)%nat -> (mod_ < length pattern)%nat ->
  exists r, slow_loop n pattern buf (Z.of_nat pos) (Z.of_nat mod_) rc = Some r /\ r <> 0.
Proof.
  intros Hrc. induction n as [|n IH]; intros pos m Hp Hm; cbn [slow_loop].
  - eauto.
  - unfold znth. destruct (Z.ltb_spec (Z.of_nat pos) 0); [lia|]. destruct (Z.ltb_spec (Z.of_nat m) 0); [lia|].
    rewrite !Nat2Z.id.
    destruct (nth_error buf pos) eqn:E1; [|apply nth_error_None in E1; lia].
    destruct (nth_error pattern m) eqn:E2; [|apply nth_error_None in E2; lia].
    destruct (_ =? _); cbn [negb]; [|exists EILSEQ; split; [auto|discriminate]].
    replace (Z.of_nat pos + 1) with (Z.of_nat (S pos)) by lia.
    unfold zlen. destruct (Z.eqb_spec (Z.of_nat m + 1) (Z.of_nat (length pattern))).
    + apply (IH (S pos) 0%nat); lia.
    + replace (Z.of_nat m + 1) with (Z.of_nat (S m)) by lia. apply IH; lia.
Qed.

Lemma check_ok pattern m buf base len : (0 < length pattern)%nat -> zlen pattern < 2 ^ 32 ->
  (m < length pattern)%nat -> Z.of_nat len < 2 ^ 32 -> (base + len <= length buf)%nat ->
  exists rc, check_pattern buf (Z.of_nat base) (Z.of_nat len) (Z.of_nat m) pattern = Some rc /\
    (rc = 0 <-> forall i, (i < len)%nat -> nth (base + i) buf 0 = cyc pattern (m + i)).
Proof.
  intros Hp Hp2 Hm Hl Hb. unfold check_pattern.
  destruct (cmp_ok pattern m buf base len) as (rc & E & V & Q); auto. rewrite E.
  destruct (Z.eqb_spec rc 0) as [->|N].
  - exists 0. split; auto.
  - rewrite Nat2Z.id. destruct (slow_loop_ok pattern buf rc N len base m) as (r & Er & Nr); auto.
    exists r. split; auto. split; [contradiction|]. intros H. exfalso. apply N, Q, H.
Qed.

(** A pattern buffer that differs from the configured one only inside the offset fields. *)
Definition same_outside (fields : list nat) (p q : list Z) : Prop :=
  length p = length q /\
  forall k, (k < length p)%nat -> field_at fields k = None -> nth k p 0 = nth k q 0.

Lemma pasted pattern fields offset q : (0 < length pattern)%nat -> fields_ok 0 fields (length pattern) ->
  same_outside fields q pattern ->
  exists q', paste_format_inplace (fmts_of fields) q 0 (zlen q) offset = Some (0, q') /\
    same_outside fields q' pattern /\
    (forall k, (k < length pattern)%nat -> nth k q' 0 = pat_byte pattern fields offset k).
Proof.
  intros Hp Hok [L S].
  destruct (inplace_ok offset 0 (length q) (length pattern) fields q) as (q' & E & L' & N1 & _);
    auto; try lia.
  exists q'. split; [exact E|]. cbn [plus] in N1. split.
  - split; [lia|]. intros k Hk F. rewrite N1 by lia. rewrite F. apply S; auto. lia.
  - intros k Hk. rewrite N1 by lia. unfold pat_byte. destruct (field_at fields k) eqn:F; auto.
    apply S; auto. lia.
Qed.

Lemma vloop_ok pattern fields I len offset buf P0 :
  (0 < length pattern)%nat -> zlen pattern < 2 ^ 32 -> fields_ok 0 fields (length pattern) ->
  (0 < I)%nat -> Z.of_nat I < 2 ^ 32 -> zlen buf < 2 ^ 32 -> 0 <= offset < 2 ^ 63 ->
  (P0 + len <= length buf)%nat ->
  forall fuel q done k m todo, (len - done < fuel)%nat -> same_outside fields q pattern ->
  (done <= len)%nat ->
  (done < len -> k * I <= P0 + done < k * I + I /\ m = (P0 + done - k * I) mod length pattern /\
     todo = Nat.min (len - done) (k * I + I - (P0 + done)))%nat ->
  (k * I <= P0 + len + I)%nat ->
  exists rc, vloop fuel q (fmts_of fields) buf (Z.of_nat I) (Z.of_nat len) (Z.of_nat done)
               (Z.of_nat (P0 + done)) (Z.of_nat m) (Z.of_nat todo) (offset + Z.of_nat (k * I)%nat) = Some rc /\
    (rc = 0 <-> forall i, (done <= i < len)%nat ->
       nth (P0 + i) buf 0 = block_byte pattern fields I offset (P0 + i)).
Proof.
  intros Hp Hp2 Hok HI HI2 Hb Hoff Hlen. unfold zlen in *.
  induction fuel as [|fuel IH]; intros q done k m todo Hf SO Hle HD HK; [lia|].
  cbn [vloop]. destruct (Z.leb_spec (Z.of_nat len) (Z.of_nat done)).
  - exists 0. split; auto. split; auto. intros _ i Hi. lia.
  - destruct HD as (Hk & Hm & Ht); [lia|].
    destruct (Z.eqb_spec (Z.of_nat I) 0); [lia|].
    destruct (pasted pattern fields (offset + Z.of_nat (k * I)%nat) q Hp Hok SO) as (q' & Eq & SO' & Nq).
    rewrite Eq. cbn [option_map snd].
    assert (Lq : length q' = length pattern) by (destruct SO'; lia).
    destruct (check_ok q' m buf (P0 + done) todo) as (rc & Erc & Q); unfold zlen; rewrite ?Lq; auto; try lia.
    { rewrite Hm. apply Nat.mod_upper_bound. lia. }
    rewrite Erc.
    assert (CY : forall i, (i < todo)%nat ->
              cyc q' (m + i) = block_byte pattern fields I offset (P0 + (done + i))).
    { intros i Hi. unfold cyc, block_byte. rewrite Lq.
      rewrite (piece_start_same I k) by lia.
      rewrite Nq by (apply Nat.mod_upper_bound; lia). f_equal.
      rewrite Hm, Nat.add_mod_idemp_l by lia. f_equal. lia. }
    destruct (Z.eqb_spec rc 0) as [->|N]; cbn [negb].
    + assert (Q' := proj1 Q eq_refl).
      replace (u32 (Z.of_nat done + Z.of_nat todo)) with (Z.of_nat (done + todo)%nat).
      2:{ rewrite <- (u32_of_nat (done + todo)) by lia. f_equal. lia. }
      replace (Z.of_nat (P0 + done) + Z.of_nat todo) with (Z.of_nat (P0 + (done + todo))%nat) by lia.
      replace (u32 (Z.of_nat len - Z.of_nat (done + todo))) with (Z.of_nat (len - (done + todo))%nat).
      2:{ rewrite <- (u32_of_nat (len - (done + todo))) by lia. f_equal. lia. }
      rewrite zmin_nat.
      replace (u64 (offset + Z.of_nat (k * I)%nat + Z.of_nat I)) with (offset + Z.of_nat (S k * I)%nat).
      2:{ unfold u64. rewrite Z.mod_small; lia. }
      destruct (IH q' (done + todo)%nat (S k) 0%nat (Nat.min (len - (done + todo)) I)) as (r & Er & Qr);
        auto; try lia.
      { intros G. assert (P0 + (done + todo) = S k * I)%nat by lia. split; [lia|]. split; [|lia].
        replace (P0 + (done + todo) - S k * I)%nat with 0%nat by lia.
        rewrite Nat.mod_0_l by lia. auto. }
      exists r. split; [exact Er|]. rewrite Qr. split; intros G i Hi.
      * destruct (Nat.lt_ge_cases i (done + todo)) as [F|F].
        -- replace i with (done + (i - done))%nat by lia. rewrite <- CY by lia.
           rewrite <- Q' by lia. f_equal. lia.
        -- apply G. lia.
      * apply G. lia.
    + exists rc. split; auto. split; [contradiction|]. intros G. exfalso. apply N, Q.
      intros i Hi. rewrite CY by auto. replace (P0 + done + i)%nat with (P0 + (done + i))%nat by lia.
      apply G. lia.
Qed.

Lemma verify_ok pattern fields I hdr_inc hsize hnum offset buf :
  (0 < length pattern)%nat -> zlen pattern < 2 ^ 32 -> fields_ok 0 fields (length pattern) ->
  Z.of_nat I < 2 ^ 32 -> zlen buf < 2 ^ 32 -> 0 <= offset < 2 ^ 63 ->
  (hsize <= hdr_inc)%nat -> (hdr_inc * hnum + hdr_inc <= length buf)%nat ->
  exists rc, verify_io_u_pattern pattern (fmts_of fields) (Z.of_nat I) (Z.of_nat hdr_inc) (Z.of_nat hsize)
               (Z.of_nat hnum) offset buf = Some rc /\
    (rc = 0 <-> forall j, (hdr_inc * hnum + hsize <= j < hdr_inc * hnum + hdr_inc)%nat ->
       nth j buf 0 = block_byte pattern fields I offset j).
Proof.
  intros Hp Hp2 Hok HI Hb Ho Hh Hbuf. unfold verify_io_u_pattern.
  unfold zlen in *.
  set (P0 := (hdr_inc * hnum + hsize)%nat). set (len := (hdr_inc - hsize)%nat).
  replace (Z.of_nat hdr_inc * Z.of_nat hnum + Z.of_nat hsize) with (Z.of_nat P0) by lia.
  replace (u32 (Z.of_nat hdr_inc - Z.of_nat hsize)) with (Z.of_nat len).
  2:{ rewrite <- (u32_of_nat len) by lia. f_equal. lia. }
  rewrite (u32_of_nat P0) by lia.
  assert (SO : same_outside fields pattern pattern) by (split; auto).
  assert (CONV : forall A : nat -> Prop, (forall j, (P0 <= j < hdr_inc * hnum + hdr_inc)%nat -> A j) <->
                           (forall i, (0 <= i < len)%nat -> A (P0 + i)%nat)).
  { intros A. split; intros G i Hi.
    - apply G. lia.
    - replace i with (P0 + (i - P0))%nat by lia. apply G. lia. }
  setoid_rewrite (CONV (fun j => nth j buf 0 = block_byte pattern fields I offset j)).
  destruct (Z.eqb_spec (Z.of_nat I) 0) as [E|E].
  - destruct (pasted pattern fields offset pattern Hp Hok SO) as (q & Eq & SOq & Nq).
    unfold zlen in Eq. rewrite Eq. rewrite Nat2Z.id. cbn [vloop].
    assert (Lq : length q = length pattern) by (destruct SOq; lia).
    replace I with 0%nat by lia.
    destruct (Z.leb_spec (Z.of_nat len) 0).
    + exists 0. split; auto. split; auto. intros _ i Hi. lia.
    + cbn [Z.eqb]. rewrite <- Nat2Z.inj_mod.
      destruct (check_ok q (P0 mod length pattern) buf P0 len) as (rc & Erc & Q); unfold zlen; rewrite ?Lq;
        auto; try lia. { apply Nat.mod_upper_bound. lia. }
      rewrite Erc.
      assert (CY : forall i, cyc q (P0 mod length pattern + i) = block_byte pattern fields 0 offset (P0 + i)).
      { intros i. unfold cyc, block_byte, piece_start. cbn [Nat.eqb]. rewrite Lq, Nat.add_mod_idemp_l by lia.
        rewrite Nq by (apply Nat.mod_upper_bound; lia). f_equal; [lia|]. f_equal. lia. }
      exists rc. split.
      * destruct (Z.eqb_spec rc 0) as [->|N]; cbn [negb]; auto.
        rewrite Z.add_0_l. rewrite (u32_of_nat len) by lia.
        assert (0 < len)%nat by lia. destruct len as [|l']; [lia|]. cbn [vloop].
        rewrite Z.leb_refl. auto.
      * rewrite Q. split; intros G i Hi; [rewrite <- CY|rewrite CY]; apply G; lia.
  - rewrite Nat2Z.id, <- Nat2Z.inj_mod, <- Nat2Z.inj_mod, <- Nat2Z.inj_div, <- Nat2Z.inj_mul.
    assert (Hdm := Nat.div_mod P0 I ltac:(lia)).
    assert (Hub : (P0 mod I < I)%nat) by (apply Nat.mod_upper_bound; lia).
    assert (Hk : (P0 / I * I = P0 - P0 mod I)%nat) by (rewrite (Nat.mul_comm _ I); lia).
    replace (Z.of_nat I - Z.of_nat (P0 mod I)) with (Z.of_nat (I - P0 mod I)%nat) by lia.
    rewrite zmin_nat.
    replace (u64 (offset + Z.of_nat (P0 / I * I)%nat)) with (offset + Z.of_nat (P0 / I * I)%nat).
    2:{ unfold u64. rewrite Z.mod_small; lia. }
    destruct (vloop_ok pattern fields I len offset buf P0 Hp Hp2 Hok ltac:(lia) HI Hb Ho ltac:(lia)
      (S len) pattern 0 (P0 / I) ((P0 mod I) mod length pattern) (Nat.min len (I - P0 mod I)))
      as (rc & Erc & Q); auto; try lia.
    { intros _. rewrite Hk. split; [lia|]. split; [|lia]. f_equal. lia. }
    exists rc. split; [|exact Q]. rewrite Nat.add_0_r in Erc. exact Erc.
Qed.
