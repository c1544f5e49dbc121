From Coq Require Import ZArith List Bool Arith Lia.
From Verif Require Import CBase CrcModel CrcSpec CrcProofs CrcProps DigestModel NetModel NetSpec.
Import ListNotations.
Open Scope Z_scope.
Notation len := List.length.

(** Numbers and checksums. *)
Lemma le_word_number bs : le_word bs = number bs.
Proof. induction bs as [|b bs IH]; [reflexivity|]. cbn [le_word number]. rewrite IH. reflexivity. Qed.
Lemma number_le n : forall v, number (le_bytes n v) = v mod 256 ^ Z.of_nat n.
Proof.
  induction n as [|n IH]; intros v; [rewrite Z.mod_1_r; reflexivity|]. cbn [le_bytes number]. rewrite IH. rewrite Nat2Z.inj_succ, Z.pow_succ_r by lia.
  rewrite Z.rem_mul_r by lia. reflexivity.
Qed.
Lemma le_len n : forall v, len (le_bytes n v) = n.
Proof. induction n as [|n IH]; intros v; [reflexivity|]. cbn. rewrite IH. reflexivity. Qed.
Lemma le_range n : forall v, bytes (le_bytes n v).
Proof. induction n as [|n IH]; intros v; [constructor|]. cbn. constructor; [|apply IH]. unfold byte. pose proof (Z.mod_pos_bound v 256 ltac:(lia)). lia. Qed.
Lemma encodes_le n v : 0 <= v < 256 ^ Z.of_nat n -> encodes n v (le_bytes n v).
Proof. intros H. split; [apply le_range|]. split; [apply le_len|]. rewrite number_le, Z.mod_small; auto. Qed.
Lemma number_range bs : bytes bs -> 0 <= number bs < 256 ^ zlen bs.
Proof.
  intros H. induction H as [|b bs Hb _ IH]; [cbn; lia|]. cbn [number]. unfold zlen in *. cbn [len]. rewrite Nat2Z.inj_succ, Z.pow_succ_r by lia. unfold byte in Hb. lia.
Qed.
Lemma crc_total buf : bytes buf -> exists c, fio_crc16 buf = Some c /\ crc16_of buf c /\ 0 <= c < 2 ^ 16.
Proof.
  intros H. destruct (C17_crc16 buf H) as (r & E & C). exists (reflect 16 r). split; [exact E|]. split; [exists r; auto|]. apply (reflect_range 16 r).
Qed.
Lemma crc_det buf c : bytes buf -> crc16_of buf c -> fio_crc16 buf = Some c.
Proof.
  intros H (r & -> & C). destruct (C17_crc16 buf H) as (r' & E & C'). rewrite E. f_equal. f_equal. apply (C17_crc_unique 16 0x8005 0 (lsb_first buf) r' r); auto; lia.
Qed.
Lemma crc_sound buf c : bytes buf -> fio_crc16 buf = Some c -> crc16_of buf c.
Proof. intros H E. destruct (crc_total buf H) as (d & E' & C & _). rewrite E in E'. injection E' as <-. exact C. Qed.

(** Frames. *)
Lemma head_framed opcode flags tag pdu : 0 <= opcode < 2 ^ 16 -> 0 <= flags < 2 ^ 32 -> 0 <= tag < 2 ^ 64 -> bytes pdu -> zlen pdu <= 1024 ->
  exists h, head opcode flags tag pdu = Some h /\ len h = 24%nat /\ framed (mkFrame opcode flags tag pdu) (h ++ pdu).
Proof.
  intros O F T B L. unfold head. set (f := fields opcode flags tag (zlen pdu)).
  assert (Bf : bytes f) by (unfold f, fields, bytes; repeat (apply Forall_app; split); apply le_range).
  destruct (crc_total f Bf) as (c & Ec & Cc & Rc). destruct (crc_total pdu B) as (d & Ed & Cd & Rd). rewrite Ec, Ed.
  exists (f ++ le_bytes 2 c ++ le_bytes 2 d). split; [reflexivity|]. split; [unfold f, fields; rewrite !app_length, !le_len; reflexivity|].
  pose proof (zlen_nonneg pdu) as Z0.
  exists (le_bytes 2 VER), (le_bytes 2 opcode), (le_bytes 4 flags), (le_bytes 8 tag), (le_bytes 4 (zlen pdu)), (le_bytes 2 c), (le_bytes 2 d), c, d. cbn [f_pdu f_opcode f_flags f_tag].
  split; [unfold f, fields; rewrite <- !app_assoc; reflexivity|].
  split; [apply encodes_le; cbn; unfold VER; lia|]. split; [apply encodes_le; cbn; lia|]. split; [apply encodes_le; cbn; lia|]. split; [apply encodes_le; cbn; lia|]. split; [apply encodes_le; cbn; lia|].
  split; [apply encodes_le; cbn; lia|]. split; [exact Cc|]. split; [apply encodes_le; cbn; lia|]. split; [intros _; exact Cd|]. split; [exact B|exact L].
Qed.
Lemma list2 {A} (l : list A) : len l = 2%nat -> exists a b, l = [a; b].
Proof. destruct l as [|a [|b [|? ?]]]; intros H; try discriminate. eauto. Qed.
Lemma list4 {A} (l : list A) : len l = 4%nat -> exists a b c d, l = [a; b; c; d].
Proof. destruct l as [|a [|b [|c [|d [|? ?]]]]]; intros H; try discriminate. eauto. Qed.
Lemma list8 {A} (l : list A) : len l = 8%nat -> exists a b c d e f g h, l = [a; b; c; d; e; f; g; h].
Proof. destruct l as [|a [|b [|c [|d [|e [|f [|g [|h [|? ?]]]]]]]]]; intros H; try discriminate. exists a, b, c, d, e, f, g, h. reflexivity. Qed.

Lemma framed_split f bs : framed f bs -> exists h dv, bs = h ++ f_pdu f /\ len h = 24%nat /\ bytes h /\ bytes (f_pdu f) /\ zlen (f_pdu f) <= 1024 /\
  verify_convert_cmd h = Some (Some (mkHdr (f_opcode f) (f_flags f) (f_tag f) (zlen (f_pdu f)) dv)) /\ (f_pdu f <> [] -> fio_crc16 (f_pdu f) = Some dv).
Proof.
  intros (v & o & fl & t & l & c & d & cv & dv & E & (V1 & V2 & V3) & (O1 & O2 & O3) & (F1 & F2 & F3) & (T1 & T2 & T3) & (L1 & L2 & L3) & (C1 & C2 & C3) & C & (D1 & D2 & D3) & D & B & L).
  exists ((v ++ o ++ fl ++ t ++ l) ++ c ++ d), dv.
  split; [rewrite E, <- !app_assoc; reflexivity|]. split; [rewrite !app_length; lia|].
  assert (Bh : bytes (v ++ o ++ fl ++ t ++ l)) by (unfold bytes; repeat (apply Forall_app; split); assumption).
  split; [unfold bytes; repeat (apply Forall_app; split); assumption|]. split; [exact B|]. split; [exact L|].
  pose proof (crc_det _ _ Bh C) as Ec. split; [|intros N; apply crc_det; auto].
  destruct (list2 v V2) as (v0 & v1 & ->). destruct (list2 o O2) as (o0 & o1 & ->). destruct (list4 fl F2) as (f0 & f1 & f2 & f3 & ->). destruct (list8 t T2) as (t0 & t1 & t2 & t3 & t4 & t5 & t6 & t7 & ->). destruct (list4 l L2) as (l0 & l1 & l2 & l3 & ->). destruct (list2 c C2) as (c0 & c1 & ->). destruct (list2 d D2) as (d0 & d1 & ->).
  unfold verify_convert_cmd. cbn [app firstn skipn fld] in *. unfold fld. cbn [firstn skipn]. rewrite Ec. change le_word with number. rewrite C3, V3, L3, O3, F3, T3, D3. rewrite Z.eqb_refl. cbn [negb]. change (121 =? VER) with true. cbn [negb]. change (Z.of_nat MAX_PDU) with 1024. destruct (Z.ltb_spec 1024 (zlen (f_pdu f))); [lia|]. reflexivity.
Qed.
Lemma firstn_bytes n b : bytes b -> bytes (firstn n b).
Proof. unfold bytes. rewrite !Forall_forall. intros H x I. apply H. rewrite <- (firstn_skipn n b). apply in_or_app. auto. Qed.
Lemma skipn_bytes n b : bytes b -> bytes (skipn n b).
Proof. unfold bytes. rewrite !Forall_forall. intros H x I. apply H. rewrite <- (firstn_skipn n b). apply in_or_app. auto. Qed.
Lemma verify_total h : bytes h -> exists r, verify_convert_cmd h = Some r.
Proof.
  intros B. unfold verify_convert_cmd. destruct (crc_total _ (firstn_bytes 20 h B)) as (c & -> & _). destruct (negb _); [eauto|]. destruct (negb _); [eauto|]. destruct (_ <? _); eauto.
Qed.
Lemma verify_inv h cmd pdu : len h = 24%nat -> bytes h -> verify_convert_cmd h = Some (Some cmd) -> bytes pdu -> zlen pdu = h_len cmd -> (pdu <> [] -> fio_crc16 pdu = Some (h_pcrc cmd)) ->
  framed (mkFrame (h_opcode cmd) (h_flags cmd) (h_tag cmd) pdu) (h ++ pdu) /\ 0 <= h_len cmd <= 1024.
Proof.
  intros L B V Bp Lp Cp.
  do 24 (destruct h as [|? h]; [discriminate L|]). destruct h; [|discriminate L].
  unfold verify_convert_cmd, fld in V. cbn [firstn skipn] in V.
  match type of V with match fio_crc16 ?l with _ => _ end = _ => set (f := l) in * end.
  assert (Bf : bytes f) by (unfold f, bytes in *; rewrite !Forall_cons_iff in *; tauto).
  destruct (crc_total f Bf) as (c & Ec & Cc & _). rewrite Ec in V. change le_word with number in V.
  match type of V with (if negb (c =? ?x) then _ else _) = _ => destruct (Z.eqb_spec c x) as [E1|]; [|discriminate V] end. cbn [negb] in V.
  match type of V with (if negb (?x =? VER) then _ else _) = _ => destruct (Z.eqb_spec x VER) as [E2|]; [|discriminate V] end. cbn [negb] in V.
  change (Z.of_nat MAX_PDU) with 1024 in V.
  match type of V with (if 1024 <? ?x then _ else _) = _ => destruct (Z.ltb_spec 1024 x) as [|E3]; [discriminate V|] end.
  injection V as <-. cbn [h_opcode h_flags h_tag h_len h_pcrc] in *.
  assert (Lz : zlen pdu <= 1024) by (rewrite Lp; exact E3). split; [|rewrite <- Lp; split; [apply zlen_nonneg|exact Lz]].
  exists [z; z0], [z1; z2], [z3; z4; z5; z6], [z7; z8; z9; z10; z11; z12; z13; z14], [z15; z16; z17; z18], [z19; z20], [z21; z22]. eexists. eexists. cbn [f_pdu f_opcode f_flags f_tag].
  unfold bytes in B. rewrite !Forall_cons_iff in B.
  split; [reflexivity|]. split; [split; [unfold bytes; rewrite !Forall_cons_iff; tauto|split; [reflexivity|exact E2]]|]. split; [split; [unfold bytes; rewrite !Forall_cons_iff; tauto|split; reflexivity]|]. split; [split; [unfold bytes; rewrite !Forall_cons_iff; tauto|split; reflexivity]|]. split; [split; [unfold bytes; rewrite !Forall_cons_iff; tauto|split; reflexivity]|]. split; [split; [unfold bytes; rewrite !Forall_cons_iff; tauto|split; [reflexivity|symmetry; exact Lp]]|].
  split; [split; [unfold bytes; rewrite !Forall_cons_iff; tauto|split; [reflexivity|symmetry; exact E1]]|]. split; [exact Cc|]. split; [split; [unfold bytes; rewrite !Forall_cons_iff; tauto|split; reflexivity]|]. split; [intros N; apply crc_sound; auto|]. split; [exact Bp|exact Lz].
Qed.

(** Sending bytes. *)
Lemma prefix_refl {A} (a : list A) : prefix a a.
Proof. exists []. rewrite app_nil_r. reflexivity. Qed.
Lemma prefix_nil {A} (a : list A) : prefix [] a.
Proof. exists a. reflexivity. Qed.
Lemma prefix_app {A} (a b c : list A) : prefix b c -> prefix (a ++ b) (a ++ c).
Proof. intros (r & ->). exists r. rewrite app_assoc. reflexivity. Qed.
Lemma prefix_app_r {A} (a b c : list A) : prefix a b -> prefix a (b ++ c).
Proof. intros (r & ->). exists (r ++ c). rewrite app_assoc. reflexivity. Qed.
Lemma sendv_one script : forall p wire, p <> [] -> exists ret w sc, sendv script [p] 1 (len p) wire = Some (ret, wire ++ w, sc) /\ prefix w p /\ (ret = 0 -> w = p).
Proof.
  induction script as [|[r ex] script IH]; intros p wire N.
  - exists 1, [], []. cbn. rewrite app_nil_r. split; [reflexivity|]. split; [apply prefix_nil|discriminate].
  - assert (Lp : (len p =? 0)%nat = false) by (destruct p; [congruence|reflexivity]).
    assert (S0 : exists ret w sc, Some (if (len p =? 0)%nat then 0 else 1, wire, script) = Some (ret, wire ++ w, sc) /\ prefix w p /\ (ret = 0 -> w = p)).
    { rewrite Lp. exists 1, [], script. rewrite app_nil_r. split; [reflexivity|]. split; [apply prefix_nil|discriminate]. }
    cbn [sendv]. change (len [p] <? 1)%nat with false. cbv iota. cbn [firstn concat]. rewrite app_nil_r. destruct r.
    + destruct (Nat.eqb_spec (Nat.min k (len p)) 0) as [|K]; [exact S0|]. set (k' := Nat.min k (len p)) in *. cbv zeta.
      destruct (Nat.eqb_spec (len p - k') 0) as [Z|Z].
      * exists 0, p, script. rewrite firstn_all2 by lia. split; [reflexivity|]. split; [apply prefix_refl|reflexivity].
      * assert (A : advance [p] k' = Some [skipn k' p]). { unfold advance. destruct k'; [congruence|]. destruct (Nat.leb_spec (len p) (S k')); [lia|reflexivity]. } rewrite A.
        assert (Lk : (len p - k')%nat = len (skipn k' p)) by (rewrite skipn_length; reflexivity).
        assert (P : prefix (firstn k' p) p) by (exists (skipn k' p); rewrite firstn_skipn; reflexivity).
        destruct ex.
        { exists 1, (firstn k' p), script. split; [destruct (Nat.eqb_spec (len p - k') 0); [lia|reflexivity]|]. split; [exact P|discriminate]. }
        { assert (N' : skipn k' p <> []) by (intros E; rewrite E in Lk; cbn in Lk; lia). destruct (IH (skipn k' p) (wire ++ firstn k' p) N') as (ret & w & sc & E & Pw & R). rewrite Lk, E.
          exists ret, (firstn k' p ++ w), sc. split; [rewrite app_assoc; reflexivity|]. split; [|intros Z0; rewrite (R Z0); apply firstn_skipn]. destruct Pw as (r0 & Er0). exists r0. rewrite <- app_assoc, <- Er0, firstn_skipn. reflexivity. }
    + exact S0.
    + destruct ex; [exact S0|]. apply IH, N.
    + exact S0.
Qed.
Lemma send_data_ok script p wire : p <> [] -> (len p <= 1048)%nat -> exists ret w sc, send_data script p wire = Some (ret, wire ++ w, sc) /\ prefix w p /\ (ret = 0 -> w = p).
Proof. intros N L. unfold send_data. destruct (Nat.ltb_spec (24 + MAX_PDU) (len p)); [change (24 + MAX_PDU)%nat with 1048%nat in *; lia|]. apply sendv_one, N. Qed.
Lemma more_cases {A} (l : list A) : (l = [] /\ more l = 0) \/ (l <> [] /\ more l = 1).
Proof. destruct l; [left|right]; split; auto; discriminate. Qed.
Lemma frag_le {A} (buf : list A) : (len (firstn MAX_PDU buf) <= 1024)%nat.
Proof. rewrite firstn_length. apply Nat.le_min_l. Qed.
Lemma frag_nonempty {A} (buf : list A) : skipn MAX_PDU buf <> [] -> firstn MAX_PDU buf <> [].
Proof. unfold MAX_PDU. destruct buf; [rewrite skipn_nil; congruence|]. intros _. change 1024%nat with (S 1023). cbn [firstn]. discriminate. Qed.
Lemma frag_shorter {A} (buf : list A) : skipn MAX_PDU buf <> [] -> (len (skipn MAX_PDU buf) < len buf)%nat.
Proof. intros N. rewrite skipn_length. destruct buf; [rewrite skipn_nil in N; congruence|]. cbn [len]. unfold MAX_PDU. lia. Qed.
Lemma send_loop_ok opcode tag : 0 <= opcode < 2 ^ 16 -> 0 <= tag < 2 ^ 64 -> forall fuel buf script wire, (len buf < fuel)%nat -> bytes buf ->
  exists m ret w sc, message opcode tag buf m /\ send_loop fuel opcode tag buf script wire = Some (ret, wire ++ w, sc) /\ prefix w m /\ (ret = 0 -> w = m).
Proof.
  intros O T. induction fuel as [|fuel IH]; intros buf script wire F B; [lia|].
  set (this := firstn MAX_PDU buf). set (rest := skipn MAX_PDU buf).
  assert (Lt : zlen this <= 1024) by (unfold zlen, this; pose proof (frag_le buf); lia).
  assert (Bt : bytes this) by (apply firstn_bytes, B). assert (Br : bytes rest) by (apply skipn_bytes, B).
  assert (Eb : buf = this ++ rest) by (unfold this, rest; rewrite firstn_skipn; reflexivity).
  assert (Fl : 0 <= more rest < 2 ^ 32) by (destruct (more_cases rest) as [(_ & ->)|(_ & ->)]; lia).
  destruct (head_framed opcode (more rest) tag this O Fl T Bt Lt) as (h & Eh & Lh & Fr).
  assert (N : h ++ this <> []) by (destruct h; discriminate).
  assert (L : (len (h ++ this) <= 1048)%nat) by (rewrite app_length; unfold zlen in Lt; lia).
  destruct (send_data_ok script (h ++ this) wire N L) as (ret & w & sc & Es & Pw & R).
  cbn [send_loop]. fold this rest. rewrite Eh, Es. destruct (more_cases rest) as [(Er & Em)|(Er & Em)].
  - exists (h ++ this), ret, w, sc. split; [rewrite Em in Fr; rewrite Eb, Er, app_nil_r; apply Last, Fr|]. split; [|auto]. rewrite Er. destruct (negb (ret =? 0)); reflexivity.
  - destruct (IH rest sc (wire ++ w) ltac:(unfold rest in *; pose proof (frag_shorter buf Er); lia) Br) as (m & ret' & w' & sc' & M & E' & P' & R').
    assert (Mm : message opcode tag buf ((h ++ this) ++ m)) by (rewrite Eb; apply More; [apply frag_nonempty, Er|exact Er|rewrite <- Em; exact Fr|exact M]).
    destruct (Z.eqb_spec ret 0) as [Z|Z]; cbn [negb].
    + rewrite (R Z) in *. exists ((h ++ this) ++ m), ret', ((h ++ this) ++ w'), sc'. split; [exact Mm|]. split; [|split; [apply prefix_app, P'|intros Z'; rewrite (R' Z'); reflexivity]].
      destruct rest eqn:Q; [congruence|]. rewrite E', <- !app_assoc. reflexivity.
    + exists ((h ++ this) ++ m), ret, w, sc. split; [exact Mm|]. split; [reflexivity|]. split; [apply prefix_app_r, Pw|congruence].
Qed.

(** Sending with two entries, when no call of writev stops inside a frame. *)
Definition whole (script : list (sres * bool)) : Prop := Forall (fun x => match fst x with SSent k => (1048 <= k)%nat | _ => True end) script.
Lemma sendv_two script : whole script -> forall h p wire, h <> [] -> (len h + len p <= 1048)%nat -> exists ret w sc, sendv script [h; p] 2 (len h + len p) wire = Some (ret, wire ++ w, sc) /\ whole sc /\ prefix w (h ++ p) /\ (ret = 0 -> w = h ++ p).
Proof.
  intros W. induction W as [|[r ex] script H W IH]; intros h p wire N L.
  - exists 1, [], []. cbn. rewrite app_nil_r. split; [reflexivity|]. split; [constructor|]. split; [apply prefix_nil|discriminate].
  - assert (S0 : exists ret w sc, Some (if (len h + len p =? 0)%nat then 0 else 1, wire, script) = Some (ret, wire ++ w, sc) /\ whole sc /\ prefix w (h ++ p) /\ (ret = 0 -> w = h ++ p)).
    { exists 1, [], script. rewrite app_nil_r. split; [destruct h; [congruence|reflexivity]|]. split; [exact W|]. split; [apply prefix_nil|discriminate]. }
    cbn [sendv]. change (len [h; p] <? 2)%nat with false. cbv iota. cbn [firstn concat]. rewrite app_nil_r. destruct r.
    + cbn [fst] in H. rewrite app_length. rewrite Nat.min_r by lia. destruct (Nat.eqb_spec (len h + len p) 0); [destruct h; [congruence|discriminate]|]. cbv zeta. rewrite Nat.sub_diag. cbn [Nat.eqb]. exists 0, (h ++ p), script. split; [rewrite firstn_all2 by (rewrite app_length; lia); reflexivity|]. split; [exact W|]. split; [apply prefix_refl|reflexivity].
    + exact S0.
    + destruct ex; [exact S0|]. apply IH; assumption.
    + exact S0.
Qed.
(** The frames of one buffer; with F_MORE they continue a message. *)
Inductive part (opcode tag flags : Z) : list Z -> list Z -> Prop :=
| PLast pdu bs : framed (mkFrame opcode flags tag pdu) bs -> part opcode tag flags pdu bs
| PMore pdu rest bs bs' : pdu <> [] -> rest <> [] -> framed (mkFrame opcode 1 tag pdu) bs -> part opcode tag flags rest bs' -> part opcode tag flags (pdu ++ rest) (bs ++ bs').
Lemma part_message opcode tag b m : part opcode tag 0 b m -> message opcode tag b m.
Proof. intros P. induction P; [apply Last; assumption|apply More; assumption]. Qed.
Lemma part_more opcode tag b m b' m' : part opcode tag 1 b m -> b <> [] -> b' <> [] -> message opcode tag b' m' -> message opcode tag (b ++ b') (m ++ m').
Proof. intros P N N' M. revert N. induction P; intros N; [apply More; assumption|]. rewrite <- !app_assoc. apply More; [assumption| |assumption|apply IHP; assumption]. destruct rest; [congruence|discriminate]. Qed.
Lemma ext_loop_ok opcode flags tag : 0 <= opcode < 2 ^ 16 -> flags = 0 \/ flags = 1 -> 0 <= tag < 2 ^ 64 -> forall fuel buf script wire, (len buf < fuel)%nat -> bytes buf -> whole script ->
  exists m ret w sc, part opcode tag flags buf m /\ ext_loop fuel opcode flags tag buf script wire = Some (ret, wire ++ w, sc) /\ whole sc /\ prefix w m /\ (ret = 0 -> w = m).
Proof.
  intros O FL T. induction fuel as [|fuel IH]; intros buf script wire F B W; [lia|].
  set (this := firstn MAX_PDU buf). set (rest := skipn MAX_PDU buf).
  assert (Lt : zlen this <= 1024) by (unfold zlen, this; pose proof (frag_le buf); lia).
  assert (Bt : bytes this) by (apply firstn_bytes, B). assert (Br : bytes rest) by (apply skipn_bytes, B).
  assert (Eb : buf = this ++ rest) by (unfold this, rest; rewrite firstn_skipn; reflexivity).
  assert (Fl : 0 <= Z.lor flags (more rest) < 2 ^ 32) by (destruct (more_cases rest) as [(_ & ->)|(_ & ->)]; destruct FL as [-> | ->]; cbn; lia).
  destruct (head_framed opcode (Z.lor flags (more rest)) tag this O Fl T Bt Lt) as (h & Eh & Lh & Fr).
  assert (N : h <> []) by (destruct h; discriminate).
  destruct (sendv_two script W h this wire N ltac:(unfold zlen in Lt; lia)) as (ret & w & sc & Es & Ws & Pw & R). rewrite Lh in Es.
  cbn [ext_loop]. fold this rest. rewrite Eh, Es. destruct (more_cases rest) as [(Er & Em)|(Er & Em)].
  - exists (h ++ this), ret, w, sc. rewrite Em, Z.lor_0_r in Fr. split; [rewrite Eb, Er, app_nil_r; apply PLast, Fr|]. split; [|auto]. rewrite Er. destruct (negb (ret =? 0)); reflexivity.
  - rewrite Em in Fr. replace (Z.lor flags 1) with 1 in Fr by (destruct FL as [-> | ->]; reflexivity).
    destruct (IH rest sc (wire ++ w) ltac:(unfold rest in *; pose proof (frag_shorter buf Er); lia) Br Ws) as (m & ret' & w' & sc' & M & E' & W' & P' & R').
    assert (Mm : part opcode tag flags buf ((h ++ this) ++ m)) by (rewrite Eb; apply PMore; [apply frag_nonempty, Er|exact Er|exact Fr|exact M]).
    destruct (Z.eqb_spec ret 0) as [Z|Z]; cbn [negb].
    + rewrite (R Z) in *. exists ((h ++ this) ++ m), ret', ((h ++ this) ++ w'), sc'. split; [exact Mm|]. split; [|split; [exact W'|split; [apply prefix_app, P'|intros Z'; rewrite (R' Z'); reflexivity]]].
      destruct rest eqn:Q; [congruence|]. rewrite E', <- !app_assoc. reflexivity.
    + exists ((h ++ this) ++ m), ret, w, sc. split; [exact Mm|]. split; [reflexivity|]. split; [exact Ws|]. split; [apply prefix_app_r, Pw|congruence].
Qed.
Lemma ext_ret fuel opcode flags tag : forall buf script wire r w sc, ext_loop fuel opcode flags tag buf script wire = Some (r, w, sc) -> r = 0 \/ r = 1.
Proof.
  assert (S : forall script iov c t w r w' sc, sendv script iov c t w = Some (r, w', sc) -> r = 0 \/ r = 1).
  { induction script as [|[x ex] script IH]; intros iov c t w r w' sc H; cbn [sendv] in H; [injection H as <- _ _; auto|]. destruct (_ <? _)%nat; [discriminate|]. cbv zeta in H.
    assert (Q : forall (b : bool) a c0, Some (if b then 0 else 1, a, c0) = Some (r, w', sc) -> r = 0 \/ r = 1) by (intros [] a c0 X; injection X as <- _ _; auto).
    destruct x; [| eauto | destruct ex; eauto | eauto].
    destruct (_ =? 0)%nat; [eauto|]. destruct (_ =? 0)%nat; [injection H as <- _ _; auto|]. destruct (advance _ _); [|discriminate]. destruct ex; [|eauto].
    injection H as <- _ _; auto. }
  induction fuel as [|fuel IH]; intros buf script wire r w sc H; [discriminate|]. cbn [ext_loop] in H. destruct (head _ _ _ _); [|discriminate]. destruct (sendv _ _ _ _ _) as [[[ret w1] sc1]|] eqn:E; [|discriminate]. apply S in E. destruct (negb (ret =? 0)); [injection H as <- _ _; exact E|]. destruct (skipn _ _); [injection H as <- _ _; exact E|]. apply IH in H. exact H.
Qed.
Lemma send_vec_ok opcode tag : 0 <= opcode < 2 ^ 16 -> 0 <= tag < 2 ^ 64 -> forall bufs script wire, bufs <> [] -> Forall (fun b => bytes b /\ b <> []) bufs -> whole script ->
  exists m ret w sc, message opcode tag (concat bufs) m /\ send_vec opcode tag bufs script wire = Some (ret, wire ++ w, sc) /\ 0 <= ret /\ (ret = 0 -> w = m).
Proof.
  intros O T. induction bufs as [|b bufs IH]; intros script wire N F W; [congruence|]. inversion F as [|? ? (Bb & Nb) F2]; subst.
  assert (FL : more bufs = 0 \/ more bufs = 1) by (destruct (more_cases bufs) as [(_ & ->)|(_ & ->)]; auto).
  destruct (ext_loop_ok opcode (more bufs) tag O FL T (S (len b)) b script wire ltac:(lia) Bb W) as (m & ret & w & sc & P & E & Ws & Pw & R). cbn [send_vec]. unfold send_ext. rewrite E. pose proof (ext_ret _ _ _ _ _ _ _ _ _ _ E) as Q.
  destruct (more_cases bufs) as [(Eb & Em)|(Eb & Em)].
  - subst bufs. cbn [send_vec concat]. rewrite app_nil_r. exists m, ret, w, sc. rewrite Z.add_0_r. split; [apply part_message; exact P|]. split; [reflexivity|]. split; [lia|exact R].
  - destruct (IH sc (wire ++ w) Eb F2 Ws) as (m' & ret' & w' & sc' & M' & E' & Q' & R'). rewrite E'. exists (m ++ m'), (ret + ret'), (w ++ w'), sc'. split.
    + cbn [concat]. apply part_more; [rewrite <- Em; exact P|exact Nb| |exact M']. destruct bufs as [|b' bufs]; [congruence|]. inversion F2 as [|? ? (_ & Nb') _]; subst. cbn. destruct b'; [congruence|discriminate].
    + split; [rewrite app_assoc; reflexivity|]. split; [lia|]. intros Z. rewrite (R ltac:(lia)), (R' ltac:(lia)). reflexivity.
Qed.

(** Receiving bytes. *)
Lemma skipn_twice {A} a : forall b (l : list A), skipn a (skipn b l) = skipn (b + a) l.
Proof. intros b. induction b as [|b IH]; intros l; [reflexivity|]. destruct l; [rewrite !skipn_nil; reflexivity|]. cbn [skipn plus]. apply IH. Qed.
Lemma recv_data_ok script wait : forall n stream got st g s sc, recv_data script wait n stream got = (st, g, s, sc) ->
  (List.length sc <= List.length script)%nat /\ (st = 0 -> (0 < n)%nat -> (n <= len stream)%nat /\ g = got ++ firstn n stream /\ s = skipn n stream /\ (List.length sc < List.length script)%nat).
Proof.
  induction script as [|[r ex] script IH]; intros n stream got st g s sc H.
  - injection H as <- <- <- <-. split; [auto|discriminate].
  - assert (S0 : forall a b, (if (n =? 0)%nat then 0 else -1, a, b, script) = (st, g, s, sc) -> (len sc <= S (len script))%nat /\ (st = 0 -> (0 < n)%nat -> (n <= len stream)%nat /\ g = got ++ firstn n stream /\ s = skipn n stream /\ (len sc < S (len script))%nat)).
    { intros a b E. injection E as <- _ _ <-. split; [lia|]. intros Z P. destruct (Nat.eqb_spec n 0); [lia|discriminate]. }
    assert (I0 : recv_data script wait n stream got = (st, g, s, sc) -> (len sc <= S (len script))%nat /\ (st = 0 -> (0 < n)%nat -> (n <= len stream)%nat /\ g = got ++ firstn n stream /\ s = skipn n stream /\ (len sc < S (len script))%nat)).
    { intros E. destruct (IH _ _ _ _ _ _ _ E) as (A & B). split; [lia|]. intros Z P. destruct (B Z P) as (B1 & B2 & B3 & B4). repeat split; auto; lia. }
    cbn [recv_data len] in *. destruct r.
    + set (k' := Nat.min k (Nat.min n (len stream))) in *. destruct (Nat.eqb_spec k' 0) as [|K]; [eauto|]. cbv zeta in H. destruct (Nat.eqb_spec (n - k') 0) as [Z|Z].
      * injection H as <- <- <- <-. split; [lia|]. intros _ _. assert (E : k' = n) by lia. rewrite E in *. repeat split; auto; lia.
      * destruct ex.
        { injection H as <- <- <- <-. split; [lia|]. discriminate. }
        { destruct (IH _ _ _ _ _ _ _ H) as (A & B). split; [lia|]. intros Z0 P. destruct (B Z0 ltac:(lia)) as (B1 & B2 & B3 & B4). rewrite skipn_length in B1. split; [lia|]. split; [|split; [|lia]].
          - rewrite B2, <- app_assoc. f_equal. rewrite <- (firstn_skipn k' (firstn n stream)). rewrite firstn_firstn, Nat.min_l by lia. f_equal. rewrite firstn_skipn_comm. f_equal. f_equal. lia.
          - rewrite B3. rewrite skipn_twice. f_equal. lia. }
    + eauto.
    + destruct wait; [destruct ex; eauto|eauto].
    + eauto.
Qed.
(** A script in which every call brings something. *)
Definition clean (script : list (rres * bool)) : Prop := Forall (fun x => exists k, x = (RGot (S k), false)) script.
Lemma recv_data_clean script wait : clean script -> forall n stream got, (0 < n)%nat -> (n <= len stream)%nat -> (n <= len script)%nat ->
  exists g s sc, recv_data script wait n stream got = (0, g, s, sc) /\ clean sc /\ (len script <= len sc + n)%nat.
Proof.
  intros C. induction C as [|x script (k & ->) C IH]; intros n stream got P L S; [cbn in S; lia|]. cbn [len] in S. cbn [recv_data]. set (k' := Nat.min (Datatypes.S k) (Nat.min n (len stream))). assert (K : (1 <= k' <= n)%nat) by lia.
  destruct (Nat.eqb_spec k' 0); [lia|]. cbv zeta. destruct (Nat.eqb_spec (n - k') 0) as [Z|Z].
  - eexists. eexists. exists script. split; [reflexivity|]. split; [exact C|]. cbn [len]. lia.
  - destruct (IH (n - k')%nat (skipn k' stream) (got ++ firstn k' stream) ltac:(lia) ltac:(rewrite skipn_length; lia) ltac:(lia)) as (g & s & sc & E & Cs & L'). rewrite E. exists g, s, sc. split; [reflexivity|]. split; [exact Cs|]. cbn [len]. lia.
Qed.

Definition base (cmdret : option hdr) (cmd_size : Z) : Z := match cmdret with None => 25 | Some _ => cmd_size end.
Definition start_len (cmdret : option hdr) : Z := match cmdret with None => 0 | Some c => h_len c end.
Definition state_ok (cmdret : option hdr) (cmd_size opcode : Z) : Prop := match cmdret with None => True | Some c => h_opcode c = opcode /\ 0 <= cmd_size <= 2 ^ 31 + 1023 /\ 0 <= h_len c < 2 ^ 32 end.
Definition follows (cmdret : option hdr) (f : frame) (c : hdr) : Prop :=
  h_opcode c = f_opcode f /\ h_flags c = match cmdret with None => f_flags f | Some c0 => h_flags c0 end /\ h_tag c = match cmdret with None => f_tag f | Some c0 => h_tag c0 end /\ h_len c = u32 (start_len cmdret + zlen (f_pdu f)).
Definition fails (r : option (Z * option hdr * list Z * list Z * list (rres * bool))) : Prop := exists ret c p s sc, r = Some (ret, c, p, s, sc) /\ ret <> 0.
Lemma recv_step f bs cmdret cmd_size payload rest script fuel wait : framed f bs -> state_ok cmdret cmd_size (f_opcode f) ->
  let r := recv_loop (S fuel) wait cmdret cmd_size payload (bs ++ rest) script in
  let size := base cmdret cmd_size + zlen (f_pdu f) in
  (fails r /\ (2 ^ 31 + 1023 < size \/ ~ (clean script /\ (len bs <= len script)%nat))) \/
  (size <= 2 ^ 31 + 1023 /\ exists c sc, follows cmdret f c /\ (len sc < len script)%nat /\ (clean script -> clean sc /\ (len script <= len sc + len bs)%nat) /\
    r = (if (zlen (f_pdu f) =? 0) || (Z.land (f_flags f) 1 =? 0) then Some (0, Some c, payload ++ f_pdu f, rest, sc) else recv_loop fuel wait (Some c) size (payload ++ f_pdu f) rest sc)).
Proof.
  intros F St r size. destruct (framed_split f bs F) as (h & dv & Eb & Lh & Bh & Bp & Lp & V & Cp). subst r. cbn [recv_loop].
  assert (Sz : 0 <= size < 2 ^ 32) by (unfold size, base; pose proof (zlen_nonneg (f_pdu f)); destruct cmdret; [destruct St as (_ & S2 & _)|]; lia).
  destruct (recv_data script wait 24 (bs ++ rest) []) as [[[st g] s] sc] eqn:E1. pose proof (recv_data_ok _ _ _ _ _ _ _ _ _ E1) as (A1 & A2).
  destruct (Z.eqb_spec st 0) as [Z|Z]; cbn [negb].
  2: { left. split; [exists st; do 4 eexists; split; [reflexivity|exact Z]|]. right. intros (C & L). rewrite Eb, app_length in L. destruct (recv_data_clean script wait C 24 (bs ++ rest) [] ltac:(lia) ltac:(rewrite Eb, !app_length; lia) ltac:(lia)) as (g' & s' & sc' & E & _). rewrite E1 in E. injection E as E _ _ _. congruence. }
  destruct (A2 Z ltac:(lia)) as (A3 & A4 & A5 & A6). cbn [app] in A4.
  assert (Eg : g = h). { rewrite A4, Eb, <- app_assoc. rewrite firstn_app, (firstn_all2 h) by lia. rewrite Lh. apply app_nil_r. }
  assert (Es : s = f_pdu f ++ rest). { rewrite A5, Eb, <- app_assoc. rewrite skipn_app, (skipn_all2 h) by lia. rewrite Lh. reflexivity. }
  rewrite Eg, V, Es. cbn [h_opcode h_flags h_tag h_len h_pcrc].
  assert (Eu : u64 (match cmdret with Some _ => cmd_size + zlen (f_pdu f) | None => 24 + zlen (f_pdu f) + 1 end) = size).
  { unfold u64, size, base. unfold size, base in Sz. destruct cmdret; rewrite Z.mod_small; lia. }
  rewrite Eu. destruct (Z.ltb_spec (2048 * 1024) (size / 1024)) as [B|B].
  { left. split; [exists 1; do 4 eexists; split; [reflexivity|lia]|]. left. pose proof (Z.div_mod size 1024 ltac:(lia)). pose proof (Z.mod_pos_bound size 1024 ltac:(lia)). lia. }
  assert (B' : size <= 2 ^ 31 + 1023) by (pose proof (Z.div_mod size 1024 ltac:(lia)); pose proof (Z.mod_pos_bound size 1024 ltac:(lia)); lia).
  assert (Bad : match cmdret with None => false | Some c => negb (h_opcode c =? f_opcode f) end = false) by (destruct cmdret as [c|]; [destruct St as (-> & _); rewrite Z.eqb_refl; reflexivity|reflexivity]). rewrite Bad.
  set (c0 := mkHdr (f_opcode f) (f_flags f) (f_tag f) (zlen (f_pdu f)) dv).
  destruct (Z.eqb_spec (zlen (f_pdu f)) 0) as [P0|P0].
  { right. split; [exact B'|]. assert (f_pdu f = []) as Pn by (destruct (f_pdu f); [reflexivity|unfold zlen in P0; cbn in P0; lia]).
    exists (match cmdret with None => c0 | Some c => c end), sc. split; [|split; [exact A6|split]].
    - unfold follows, start_len, u32. rewrite P0. destruct cmdret as [c|]; [destruct St as (S1 & _ & S3); rewrite Z.add_0_r, Z.mod_small by lia; auto|cbn; auto].
    - intros C. destruct (Nat.leb_spec 24 (len script)) as [Q|Q].
      + destruct (recv_data_clean script wait C 24 (bs ++ rest) [] ltac:(lia) ltac:(rewrite Eb, !app_length; lia) Q) as (g' & s' & sc' & E & C' & L'). rewrite E1 in E. injection E as _ _ _ E. rewrite E. split; [exact C'|]. rewrite Eb, app_length. lia.
      + pose proof E1 as E1'. split; [|rewrite Eb, app_length; lia]. clear -C E1. revert E1. generalize (bs ++ rest) (@nil BinNums.Z) 24%nat. induction C as [|x script (k & ->) C IH]; intros st0 g0 n E1; cbn [recv_data] in E1; [injection E1 as _ _ _ <-; constructor|]. destruct (_ =? 0)%nat in E1; [injection E1 as _ _ _ <-; exact C|]. cbv zeta in E1. destruct (_ =? 0)%nat in E1; [injection E1 as _ _ _ <-; exact C|]. apply IH in E1. exact E1.
    - rewrite Pn, app_nil_r. cbn [orb app]. reflexivity. }
  destruct (recv_data sc wait (Z.to_nat (zlen (f_pdu f))) (f_pdu f ++ rest) []) as [[[st2 g2] s2] sc2] eqn:E2. pose proof (recv_data_ok _ _ _ _ _ _ _ _ _ E2) as (D1 & D2).
  assert (Ln : Z.to_nat (zlen (f_pdu f)) = len (f_pdu f)) by (unfold zlen; rewrite Nat2Z.id; reflexivity). rewrite Ln in *.
  assert (Lpos : (0 < len (f_pdu f))%nat) by (unfold zlen in P0; lia).
  destruct (Z.eqb_spec st2 0) as [Z2|Z2]; cbn [negb].
  2: { left. split; [exists st2; do 4 eexists; split; [reflexivity|exact Z2]|]. right. intros (C & L). rewrite Eb, app_length in L. destruct (recv_data_clean script wait C 24 (bs ++ rest) [] ltac:(lia) ltac:(rewrite Eb, !app_length; lia) ltac:(lia)) as (g' & s' & sc' & E & C' & L'). rewrite E1 in E. injection E as _ _ _ E. subst sc'.
       destruct (recv_data_clean sc wait C' (len (f_pdu f)) (f_pdu f ++ rest) [] Lpos ltac:(rewrite app_length; lia) ltac:(lia)) as (g'' & s'' & sc'' & E' & _). rewrite E2 in E'. injection E' as E' _ _ _. congruence. }
  destruct (D2 Z2 Lpos) as (D3 & D4 & D5 & D6). cbn [app] in D4.
  assert (Eg2 : g2 = f_pdu f) by (rewrite D4, firstn_app, Nat.sub_diag; cbn [firstn]; rewrite app_nil_r; apply firstn_all2; lia).
  assert (Es2 : s2 = rest) by (rewrite D5, skipn_app, Nat.sub_diag; cbn [skipn]; rewrite skipn_all2 by lia; reflexivity).
  assert (Pn : f_pdu f <> []) by (intros X; rewrite X in Lpos; cbn in Lpos; lia).
  rewrite Eg2, Es2, (Cp Pn), Z.eqb_refl. cbn [negb]. right. split; [exact B'|].
  exists (match cmdret with None => c0 | Some c => mkHdr (h_opcode c) (h_flags c) (h_tag c) (u32 (h_len c + zlen (f_pdu f))) (h_pcrc c) end), sc2. split; [|split; [lia|split]].
  - unfold follows, start_len. destruct cmdret as [c|]; [destruct St as (S1 & _ & S3); cbn; auto|]. cbn. unfold u32. rewrite Z.mod_small by (pose proof (zlen_nonneg (f_pdu f)); lia). auto.
  - assert (G : forall scr n st0 g0 a b c d, clean scr -> recv_data scr wait n st0 g0 = (a, b, c, d) -> clean d).
    { clear. intros scr. induction scr as [|x scr IH]; intros n st0 g0 a b c d C E; cbn [recv_data] in E; [injection E as _ _ _ <-; exact C|]. inversion C as [|? ? (k & ->) C2]; subst. destruct (_ =? 0)%nat in E; [injection E as _ _ _ <-; exact C2|]. cbv zeta in E. destruct (_ =? 0)%nat in E; [injection E as _ _ _ <-; exact C2|]. eapply IH; eauto. }
    intros C. pose proof (G _ _ _ _ _ _ _ _ C E1) as C1. split; [exact (G _ _ _ _ _ _ _ _ C1 E2)|]. rewrite Eb, app_length.
    destruct (Nat.leb_spec (24 + len (f_pdu f)) (len script)) as [Q|Q]; [|lia].
    destruct (recv_data_clean script wait C 24 (bs ++ rest) [] ltac:(lia) ltac:(rewrite Eb, !app_length; lia) ltac:(lia)) as (g' & s' & sc' & E & C' & L'). rewrite E1 in E. injection E as _ _ _ E. subst sc'.
    destruct (recv_data_clean sc wait C' (len (f_pdu f)) (f_pdu f ++ rest) [] Lpos ltac:(rewrite app_length; lia) ltac:(lia)) as (g'' & s'' & sc'' & E' & C'' & L''). rewrite E2 in E'. injection E' as _ _ _ E'. subst sc''. lia.
  - cbn [orb]. change F_MORE with 1. destruct (Z.land (f_flags f) 1 =? 0); destruct cmdret; reflexivity.
Qed.

Lemma recv_message opcode tag payload bs : message opcode tag payload bs -> forall cmdret cmd_size pl rest script fuel wait, state_ok cmdret cmd_size opcode -> (len script < fuel)%nat ->
  let r := recv_loop fuel wait cmdret cmd_size pl (bs ++ rest) script in
  let size := base cmdret cmd_size + zlen payload in
  (fails r /\ (2 ^ 31 + 1023 < size \/ ~ (clean script /\ (len bs <= len script)%nat))) \/
  (size <= 2 ^ 31 + 1023 /\ exists c sc, r = Some (0, Some c, pl ++ payload, rest, sc) /\ h_opcode c = opcode /\ h_tag c = match cmdret with None => tag | Some c0 => h_tag c0 end /\
     match cmdret with None => h_flags c = 0 \/ h_flags c = 1 | Some c0 => h_flags c = h_flags c0 end /\ h_len c = u32 (start_len cmdret + zlen payload)).
Proof.
  intros M. induction M as [pdu bs F|pdu pr bs bs' Np Nr F M IH]; intros cmdret cmd_size pl rest script fuel wait St Fu r size; (destruct fuel as [|fuel]; [lia|]).
  - destruct (recv_step _ bs cmdret cmd_size pl rest script fuel wait F St) as [L|(S1 & c & sc & (C1 & C2 & C3 & C4) & Ls & Cs & E)]; [left; exact L|]. right. split; [exact S1|]. cbn [f_pdu f_flags f_tag f_opcode] in *. exists c, sc. change (Z.land 0 1 =? 0) with true in E. rewrite orb_true_r in E. split; [exact E|]. split; [exact C1|]. split; [rewrite C3; destruct cmdret; reflexivity|]. split; [|exact C4]. rewrite C2. destruct cmdret; auto.
  - unfold r. rewrite <- app_assoc. destruct (recv_step _ bs cmdret cmd_size pl (bs' ++ rest) script fuel wait F St) as [(L1 & L2)|(S1 & c & sc & (C1 & C2 & C3 & C4) & Ls & Cs & E)]; cbn [f_pdu f_flags f_tag f_opcode] in *.
    + left. split; [exact L1|]. unfold size. unfold zlen in *. rewrite app_length, Nat2Z.inj_add. destruct L2 as [L2|L2]; [left; lia|right]. intros (X & Y). apply L2. split; [exact X|]. rewrite app_length in Y. lia.
    + assert (Pz : zlen pdu =? 0 = false) by (apply Z.eqb_neq; destruct pdu; [congruence|unfold zlen; cbn [len]; lia]). rewrite Pz in E. change (Z.land 1 1 =? 0) with false in E. cbn [orb] in E. rewrite E.
      assert (Zp := zlen_nonneg pdu). assert (B0 : 0 <= base cmdret cmd_size) by (destruct cmdret; [destruct St as (_ & ? & _); cbn; lia|cbn; lia]).
      assert (St' : state_ok (Some c) (base cmdret cmd_size + zlen pdu) opcode). { split; [exact C1|]. split; [lia|]. rewrite C4. apply Z.mod_pos_bound. lia. }
      assert (Zr : zlen (pdu ++ pr) = zlen pdu + zlen pr) by (unfold zlen; rewrite app_length, Nat2Z.inj_add; reflexivity).
      destruct (IH (Some c) (base cmdret cmd_size + zlen pdu) (pl ++ pdu) rest sc fuel wait St' ltac:(lia)) as [(L1 & L2)|(S2 & c' & sc' & E' & D1 & D2 & D3 & D4)].
      * left. split; [exact L1|]. unfold size. rewrite Zr. cbn [base] in L2. destruct L2 as [L2|L2]; [left; lia|right]. intros (X & Y). apply L2. destruct (Cs X) as (X1 & X2). split; [exact X1|]. rewrite app_length in Y. lia.
      * right. cbn [base start_len] in *. split; [unfold size; lia|]. exists c', sc'. rewrite E', <- app_assoc. split; [reflexivity|]. split; [exact D1|]. split; [rewrite D2, C3; reflexivity|]. split; [rewrite D3, C2; destruct cmdret; auto|]. rewrite D4, C4, Zr. unfold u32. rewrite Zplus_mod_idemp_l. f_equal. lia.
Qed.

(** Whatever arrives. *)
Lemma flag_more fl : (Z.land fl 1 =? 0) = false <-> Z.testbit fl 0 = true.
Proof. change 1 with (Z.ones 1). rewrite Z.land_ones by lia. change (2 ^ 1) with 2. rewrite Zmod_odd, Z.bit0_odd. destruct (Z.odd fl); split; intros H; try discriminate; reflexivity. Qed.
Lemma bytes_app a b : bytes (a ++ b) <-> bytes a /\ bytes b.
Proof. unfold bytes. apply Forall_app. Qed.
Lemma recv_sound wait fuel : forall cmdret cmd_size pl stream script c pl' rest sc, bytes stream ->
  recv_loop fuel wait cmdret cmd_size pl stream script = Some (0, Some c, pl', rest, sc) ->
  exists f frs b bss, framed f b /\ Forall2 framed frs bss /\ stream = (b ++ concat bss) ++ rest /\ pl' = pl ++ f_pdu f ++ concat (map f_pdu frs) /\ accepted (h_opcode c) (f :: frs) /\
    match cmdret with None => h_tag c = f_tag f /\ h_flags c = f_flags f | Some c0 => h_opcode c = h_opcode c0 /\ h_tag c = h_tag c0 /\ h_flags c = h_flags c0 end /\
    h_len c mod 2 ^ 32 = (start_len cmdret + zlen (f_pdu f ++ concat (map f_pdu frs))) mod 2 ^ 32.
Proof.
  induction fuel as [|fuel IH]; intros cmdret cmd_size pl stream script c pl' rest sc B H; [discriminate|]. cbn [recv_loop] in H.
  destruct (recv_data script wait 24 stream []) as [[[st g] s] sc1] eqn:E1. destruct (recv_data_ok _ _ _ _ _ _ _ _ _ E1) as (_ & A2).
  destruct (Z.eqb_spec st 0) as [Z|Z]; cbn [negb] in H; [|congruence]. destruct (A2 Z ltac:(lia)) as (A3 & A4 & A5 & A6). cbn [app] in A4.
  assert (Es : stream = g ++ s) by (rewrite A4, A5, firstn_skipn; reflexivity). assert (Bgs := B). rewrite Es in Bgs. apply bytes_app in Bgs. destruct Bgs as (Bg & Bs).
  assert (Lg : len g = 24%nat) by (rewrite A4, firstn_length; lia).
  destruct (verify_convert_cmd g) as [[cmd|]|] eqn:V; [|congruence|discriminate].
  destruct (2048 * 1024 <? _); [congruence|].
  destruct (match cmdret with None => false | Some c0 => negb (h_opcode c0 =? h_opcode cmd) end) eqn:Bad; [congruence|].
  assert (Op : match cmdret with None => True | Some c0 => h_opcode c0 = h_opcode cmd end) by (destruct cmdret as [c0|]; [destruct (Z.eqb_spec (h_opcode c0) (h_opcode cmd)); [assumption|discriminate]|exact I]).
  destruct (Z.eqb_spec (h_len cmd) 0) as [P0|P0].
  - injection H as <- <- <- <-. destruct (verify_inv g cmd [] Lg Bg V ltac:(constructor) ltac:(rewrite P0; reflexivity) ltac:(congruence)) as (F & _). rewrite app_nil_r in F.
    eexists. exists [], g, []. split; [exact F|]. split; [constructor|]. cbn [concat map f_pdu app]. rewrite !app_nil_r. split; [exact Es|]. split; [reflexivity|]. split.
    + apply AOne; [destruct cmdret; [symmetry; exact Op|reflexivity]|]. right. reflexivity.
    + cbn [f_tag f_flags]. split; [destruct cmdret; auto|]. unfold start_len, zlen. cbn [len app]. rewrite Z.add_0_r. destruct cmdret; [reflexivity|rewrite P0; reflexivity].
  - destruct (recv_data sc1 wait (Z.to_nat (h_len cmd)) s []) as [[[st2 pdu] s2] sc2] eqn:E2. destruct (recv_data_ok _ _ _ _ _ _ _ _ _ E2) as (_ & D2).
    destruct (Z.eqb_spec st2 0) as [Z2|Z2]; cbn [negb] in H; [|congruence].
    assert (H0 : 0 <= h_len cmd).
    { unfold verify_convert_cmd in V. destruct (fio_crc16 _); [|discriminate]. destruct (negb _); [discriminate|]. destruct (negb _); [discriminate|]. destruct (_ <? _); [discriminate|]. injection V as <-. cbn [h_len]. unfold fld. change le_word with number. apply number_range. apply firstn_bytes, skipn_bytes, Bg. }
    destruct (D2 Z2 ltac:(lia)) as (D3 & D4 & D5 & D6). cbn [app] in D4.
    assert (Es2 : s = pdu ++ s2) by (rewrite D4, D5, firstn_skipn; reflexivity). assert (Bss := Bs). rewrite Es2 in Bss. apply bytes_app in Bss. destruct Bss as (Bp & Bs2).
    assert (Lp : zlen pdu = h_len cmd) by (unfold zlen; rewrite D4, firstn_length; lia).
    destruct (fio_crc16 pdu) as [crc|] eqn:Ec; [|discriminate]. destruct (Z.eqb_spec crc (h_pcrc cmd)) as [Q|Q]; cbn [negb] in H; [|congruence]. subst crc.
    destruct (verify_inv g cmd pdu Lg Bg V Bp Lp ltac:(auto)) as (F & R).
    assert (Pn : pdu <> []) by (intros X; subst pdu; rewrite X in Lp; unfold zlen in Lp; cbn in Lp; lia).
    set (c1 := match cmdret with None => match cmdret with None => cmd | Some c => c end | Some c => mkHdr (h_opcode c) (h_flags c) (h_tag c) (u32 (h_len c + h_len cmd)) (h_pcrc c) end) in H.
    assert (P1 : h_opcode c1 = h_opcode cmd /\ h_len c1 mod 2 ^ 32 = (start_len cmdret + zlen pdu) mod 2 ^ 32 /\ match cmdret with None => h_tag c1 = h_tag cmd /\ h_flags c1 = h_flags cmd | Some c0 => h_opcode c1 = h_opcode c0 /\ h_tag c1 = h_tag c0 /\ h_flags c1 = h_flags c0 end).
    { unfold c1. destruct cmdret as [c0|]; cbn [h_opcode h_tag h_flags h_len start_len]; [|rewrite Lp; auto]. split; [exact Op|]. split; [|auto]. unfold u32. rewrite Z.mod_mod by lia. rewrite Lp. reflexivity. }
    destruct P1 as (P1 & P2 & P3). change F_MORE with 1 in H.
    destruct (Z.land (h_flags cmd) 1 =? 0) eqn:Fm.
    + injection H as <- <- <- <-. eexists. exists [], (g ++ pdu), []. split; [exact F|]. split; [constructor|]. cbn [concat map f_pdu]. rewrite !app_nil_r. split; [rewrite Es, Es2, app_assoc; reflexivity|]. split; [reflexivity|]. split.
      * apply AOne; [cbn [f_opcode]; symmetry; exact P1|]. left. intros X. apply flag_more in X. cbn [f_flags] in X. congruence.
      * cbn [f_tag f_flags]. split; [exact P3|exact P2].
    + destruct (IH _ _ _ _ _ _ _ _ _ Bs2 H) as (f & frs & b & bss & F1 & F2 & Est & Epl & Acc & Hd & Hl). cbn [start_len] in Hl. destruct Hd as (Hd1 & Hd2 & Hd3).
      eexists. exists (f :: frs), (g ++ pdu), (b :: bss). split; [exact F|]. split; [constructor; assumption|]. cbn [concat map f_pdu]. split; [rewrite Es, Es2, Est, <- !app_assoc; reflexivity|]. split; [rewrite Epl, <- !app_assoc; reflexivity|]. split.
      * apply AMore; [cbn [f_opcode]; congruence|apply flag_more; cbn [f_flags]; exact Fm|exact Pn|exact Acc].
      * cbn [f_tag f_flags]. split; [destruct cmdret; [destruct P3 as (Q1 & Q2 & Q3); repeat split; congruence|destruct P3; split; congruence]|].
        rewrite Hl. unfold zlen in *. rewrite (app_length pdu), Nat2Z.inj_add. rewrite Z.add_assoc. rewrite <- (Zplus_mod_idemp_l (h_len c1)), P2, Zplus_mod_idemp_l. reflexivity.
Qed.
Lemma recv_total wait fuel : forall cmdret cmd_size pl stream script, bytes stream -> exists r, recv_loop fuel wait cmdret cmd_size pl stream script = Some r.
Proof.
  assert (G : forall scr n st g a b c d, bytes st -> bytes g -> recv_data scr wait n st g = (a, b, c, d) -> bytes b /\ bytes c).
  { clear. intros scr. induction scr as [|[r ex] scr IH]; intros n st g a b c d Bs Bg E; cbn [recv_data] in E; [injection E as _ <- <- _; auto|]. destruct r.
    - destruct (_ =? 0)%nat in E; [injection E as _ <- <- _; auto|]. cbv zeta in E. assert (X1 : bytes (g ++ firstn (Nat.min k (Nat.min n (len st))) st)) by (apply bytes_app; split; [exact Bg|apply firstn_bytes, Bs]). assert (X2 : bytes (skipn (Nat.min k (Nat.min n (len st))) st)) by (apply skipn_bytes, Bs). destruct (_ =? 0)%nat in E; [injection E as _ <- <- _; auto|]. destruct ex; [injection E as _ <- <- _; auto|]. exact (IH _ _ _ _ _ _ _ X2 X1 E).
    - injection E as _ <- <- _; auto.
    - destruct wait; [destruct ex; [injection E as _ <- <- _; auto|exact (IH _ _ _ _ _ _ _ Bs Bg E)]|injection E as _ <- <- _; auto].
    - injection E as _ <- <- _; auto. }
  induction fuel as [|fuel IH]; intros cmdret cmd_size pl stream script B; cbn [recv_loop]; [eauto|].
  destruct (recv_data script wait 24 stream []) as [[[st g] s] sc1] eqn:E1. destruct (G _ _ _ _ _ _ _ _ B ltac:(constructor) E1) as (Bg & Bs).
  destruct (negb _); [eauto|]. destruct (verify_total g Bg) as (v & ->). destruct v as [cmd|]; [|eauto]. destruct (_ <? _); [eauto|]. destruct (match cmdret with None => _ | Some _ => _ end); [eauto|]. destruct (_ =? 0); [eauto|].
  destruct (recv_data sc1 wait _ s []) as [[[st2 g2] s2] sc2] eqn:E2. destruct (G _ _ _ _ _ _ _ _ Bs ltac:(constructor) E2) as (Bg2 & Bs2). destruct (negb _); [eauto|]. destruct (crc_total g2 Bg2) as (crc & -> & _). destruct (negb _); [eauto|]. destruct (_ =? 0); [eauto|]. apply IH, Bs2.
Qed.

(** The zero behind a text. *)
Lemma terminate_ok p hd l (pre post : list Z) x : zlen (pre ++ l ++ post) < 2 ^ 31 -> len l = 4%nat -> zlen pre = p -> 0 <= hd -> number l = zlen (pre ++ l ++ post) - hd -> 0 <= number l ->
  terminate p hd ((pre ++ l ++ post) ++ [x]) = Some ((pre ++ l ++ post) ++ [0]).
Proof.
  intros L Ll Lp H0 N N0. unfold terminate, fld. set (pl := pre ++ l ++ post) in *.
  assert (Lm : zlen (pl ++ [x]) = zlen pl + 1) by (unfold zlen; rewrite app_length; cbn; lia).
  assert (Lq : p + 4 <= zlen pl) by (subst p; unfold pl, zlen; rewrite !app_length; lia).
  destruct (Z.ltb_spec (zlen (pl ++ [x])) (p + 4)); [lia|].
  assert (E : firstn 4 (skipn (Z.to_nat p) (pl ++ [x])) = l).
  { unfold pl. rewrite <- !app_assoc. rewrite skipn_app. rewrite skipn_all2 by (subst p; unfold zlen; lia). replace (Z.to_nat p - len pre)%nat with 0%nat by (subst p; unfold zlen; lia). cbn [skipn app]. rewrite firstn_app, Ll, Nat.sub_diag. rewrite firstn_all2 by lia. cbn [firstn]. apply app_nil_r. }
  rewrite E. change le_word with number. cbv zeta. destruct (Z.ltb_spec (number l) (2 ^ 31)); [|lia]. destruct (Z.ltb_spec (number l) 0); [lia|]. replace (hd + number l) with (zlen pl) by lia.
  rewrite zupd_some by (pose proof (zlen_nonneg pl); lia). f_equal. unfold zlen. rewrite Nat2Z.id. clear. induction pl as [|y pl IH]; [reflexivity|]. cbn [app len]. unfold upd in *. cbn. f_equal. exact IH.
Qed.

(** Damaged frames. *)
Lemma firstn_exact {A} (x y : list A) n : len x = n -> firstn n (x ++ y) = x.
Proof. intros <-. rewrite firstn_app, Nat.sub_diag, firstn_all2 by lia. apply app_nil_r. Qed.
Lemma skipn_exact {A} (x y : list A) n : len x = n -> skipn n (x ++ y) = y.
Proof. intros <-. rewrite skipn_app, Nat.sub_diag, skipn_all2 by lia. reflexivity. Qed.
Lemma recv_bad f bs bad cmdret cmd_size pl rest script fuel wait : framed f bs -> damaged bs bad -> fails (recv_loop (S fuel) wait cmdret cmd_size pl (bad ++ rest) script).
Proof.
  intros F (pre & a & b & post & Eb & Ebad & Bb & Lab & Bu & Cs). destruct (framed_split f bs F) as (h & dv & Eh & Lh & Bh & Bp & Lp & V & Cp). cbn [recv_loop].
  destruct (recv_data script wait 24 (bad ++ rest) []) as [[[st g] s] sc] eqn:E1. destruct (recv_data_ok _ _ _ _ _ _ _ _ _ E1) as (_ & A2).
  destruct (Z.eqb_spec st 0) as [Z|Z]; cbn [negb]; [|exists st; do 4 eexists; split; [reflexivity|exact Z]]. destruct (A2 Z ltac:(lia)) as (A3 & A4 & A5 & A6). cbn [app] in A4.
  destruct Cs as [(-> & La)|(Lpre & ->)].
  - (* header *) cbn [app] in Eb, Ebad.
    assert (Lpost : (4 <= len post)%nat). { assert (X : len bs = len (h ++ f_pdu f)) by (rewrite Eh; reflexivity). rewrite Eb, !app_length in X. lia. }
    assert (Eg : g = b ++ firstn 4 post). { rewrite A4, Ebad, <- app_assoc. rewrite firstn_app. rewrite firstn_all2 by lia. f_equal. replace (24 - len b)%nat with 4%nat by lia. rewrite firstn_app. replace (4 - len post)%nat with 0%nat by lia. cbn [firstn]. apply app_nil_r. }
    assert (Eh' : h = a ++ firstn 4 post). { assert (X : firstn 24 bs = h) by (rewrite Eh; apply firstn_exact, Lh). rewrite <- X, Eb. rewrite firstn_app. rewrite firstn_all2 by lia. f_equal. f_equal. lia. }
    assert (Ba : bytes a) by (rewrite Eh' in Bh; apply bytes_app in Bh; tauto).
    assert (Fx : forall x, len x = 20%nat -> firstn 20 (x ++ firstn 4 post) = x /\ fld (x ++ firstn 4 post) 20 2 = number (firstn 2 (firstn 4 post))).
    { intros x Lx. split; [apply firstn_exact, Lx|]. unfold fld. change le_word with number. f_equal. f_equal. apply skipn_exact, Lx. }
    assert (Lb : len b = 20%nat) by lia. destruct (Fx a La) as (Fa1 & Fa2). destruct (Fx b Lb) as (Fb1 & Fb2).
    unfold verify_convert_cmd in V. rewrite Eh', Fa1, Fa2 in V. destruct (fio_crc16 a) as [ca|] eqn:Ca; [|discriminate]. destruct (Z.eqb_spec ca (number (firstn 2 (firstn 4 post)))) as [Q|Q]; [|discriminate].
    assert (Vb : verify_convert_cmd g = Some None).
    { unfold verify_convert_cmd. rewrite Eg, Fb1, Fb2. destruct (crc_total b Bb) as (cb & Cb & _). rewrite Cb. destruct (Z.eqb_spec cb (number (firstn 2 (firstn 4 post)))) as [Q'|Q']; [|reflexivity]. exfalso. apply (proj1 (C18_burst_lsb a b Ba Bb) Bu). rewrite Ca, Cb, Q, Q'. reflexivity. }
    rewrite Vb. exists 1. do 4 eexists. split; [reflexivity|lia].
  - (* payload *) rewrite !app_nil_r in *.
    assert (Hpre : pre = h /\ a = f_pdu f). { rewrite Eh in Eb. assert (X : firstn 24 (h ++ f_pdu f) = firstn 24 (pre ++ a)) by (rewrite Eb; reflexivity). rewrite (firstn_exact h _ 24 Lh), (firstn_exact pre _ 24 Lpre) in X. subst pre. apply app_inv_head in Eb. auto. }
    destruct Hpre as (-> & ->).
    assert (Eg : g = h). { rewrite A4, Ebad, <- app_assoc, firstn_app, (firstn_all2 h) by lia. rewrite Lh. apply app_nil_r. }
    assert (Es : s = b ++ rest). { rewrite A5, Ebad, <- app_assoc, skipn_app, (skipn_all2 h) by lia. rewrite Lh. reflexivity. }
    rewrite Eg, V, Es. cbn [h_opcode h_flags h_tag h_len h_pcrc]. match goal with |- fails (if ?x then _ else _) => destruct x; [exists 1; do 4 eexists; split; [reflexivity|lia]|] end.
    match goal with |- fails (if ?x then _ else _) => destruct x; [exists 1; do 4 eexists; split; [reflexivity|lia]|] end.
    destruct (Z.eqb_spec (zlen (f_pdu f)) 0) as [P0|P0].
    { exfalso. destruct Bu as (p1 & x & y & p2 & X1 & X2 & X3 & _ & X4). apply X4. assert (Pn : f_pdu f = []) by (destruct (f_pdu f); [reflexivity|unfold zlen in P0; cbn in P0; lia]). rewrite Pn in X1. cbn in X1. destruct p1; [|discriminate]. destruct x; [|discriminate]. destruct y; [reflexivity|discriminate]. }
    destruct (recv_data sc wait (Z.to_nat (zlen (f_pdu f))) (b ++ rest) []) as [[[st2 g2] s2] sc2] eqn:E2. destruct (recv_data_ok _ _ _ _ _ _ _ _ _ E2) as (_ & D2).
    destruct (Z.eqb_spec st2 0) as [Z2|Z2]; cbn [negb]; [|exists st2; do 4 eexists; split; [reflexivity|exact Z2]].
    assert (Ln : Z.to_nat (zlen (f_pdu f)) = len b) by (unfold zlen; rewrite Nat2Z.id; exact Lab). rewrite Ln in *.
    destruct (D2 Z2 ltac:(unfold zlen in P0; lia)) as (D3 & D4 & D5 & D6). cbn [app] in D4. rewrite firstn_app, Nat.sub_diag, firstn_all2 in D4 by lia. cbn [firstn] in D4. rewrite app_nil_r in D4. rewrite D4.
    destruct (crc_total b Bb) as (cb & Cb & _). rewrite Cb. assert (Pn : f_pdu f <> []) by (intros X; rewrite X in P0; unfold zlen in P0; cbn in P0; lia).
    destruct (Z.eqb_spec cb dv) as [Q|Q]; cbn [negb]; [|exists 1; do 4 eexists; split; [reflexivity|lia]]. exfalso. apply (proj1 (C18_burst_lsb (f_pdu f) b Bp Bb) Bu). rewrite (Cp Pn), Cb, Q. reflexivity.
Qed.
Lemma recv_bad_later opcode f bs bad rest wait : framed f bs -> damaged bs bad -> forall frs bss, Forall2 framed frs bss -> Forall (fun g => f_opcode g = opcode /\ has_more g /\ f_pdu g <> []) frs ->
  forall cmdret cmd_size pl script fuel, state_ok cmdret cmd_size opcode -> fails (recv_loop (S fuel) wait cmdret cmd_size pl ((concat bss ++ bad) ++ rest) script).
Proof.
  intros F D frs bss H. induction H as [|g b frs bss Fg _ IH]; intros Fo cmdret cmd_size pl script fuel St; [cbn [concat app]; apply (recv_bad f bs); assumption|].
  inversion Fo as [|? ? (O1 & O2 & O3) Fo2]; subst. cbn [concat]. rewrite <- !app_assoc. destruct (recv_step g b cmdret cmd_size pl (concat bss ++ bad ++ rest) script fuel wait Fg St) as [(L & _)|(S1 & c & sc & (C1 & C2 & C3 & C4) & Ls & Cs & E)]; [exact L|]. rewrite E.
  assert (Pz : zlen (f_pdu g) =? 0 = false) by (apply Z.eqb_neq; destruct (f_pdu g); [congruence|unfold zlen; cbn [len]; lia]). rewrite Pz. unfold has_more in O2. apply flag_more in O2. rewrite O2. cbn [orb].
  destruct fuel as [|fuel]; [exists (-1); do 4 eexists; split; [reflexivity|lia]|]. rewrite app_assoc. apply IH; [exact Fo2|]. split; [exact C1|]. split.
  - pose proof (zlen_nonneg (f_pdu g)). destruct cmdret; cbn [base] in *; [destruct St as (_ & ? & _)|]; lia.
  - rewrite C4. apply Z.mod_pos_bound. lia.
Qed.
