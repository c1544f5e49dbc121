(** C33: messages between client and server. *)
From Coq Require Import ZArith List Bool Arith Lia.
From Verif Require Import CBase CrcModel CrcSpec CrcProofs CrcProps DigestModel NetModel NetSpec NetProofs.
Import ListNotations.
Open Scope Z_scope.

(** Whatever the calls of writev return, fio_net_send_cmd puts a prefix of the message on the wire, and all of it when it reports
    success. *)
Theorem C33_send opcode tag buf script wire : 0 <= opcode < 2 ^ 16 -> 0 <= tag < 2 ^ 64 -> bytes buf ->
  exists m ret w sc, message opcode tag buf m /\ send_cmd opcode tag buf script wire = Some (ret, wire ++ w, sc) /\ prefix w m /\ (ret = 0 -> w = m).
Proof. intros O T B. apply send_loop_ok; auto. Qed.
(** The vectored variant does so as long as no call of writev stops inside a frame; the buffers arrive as one payload. *)
Theorem C33_send_vector opcode tag bufs script wire : 0 <= opcode < 2 ^ 16 -> 0 <= tag < 2 ^ 64 -> bufs <> [] -> Forall (fun b => bytes b /\ b <> []) bufs -> whole script ->
  exists m ret w sc, message opcode tag (concat bufs) m /\ send_vec opcode tag bufs script wire = Some (ret, wire ++ w, sc) /\ 0 <= ret /\ (ret = 0 -> w = m).
Proof. intros. apply send_vec_ok; auto. Qed.

Lemma recv_finish opcode tag payload c (stream : list Z) (sc : list (rres * bool)) extra : h_opcode c = opcode -> h_tag c = tag -> h_flags c = 0 \/ h_flags c = 1 -> h_len c = u32 (zlen payload) -> zlen payload <= 2 ^ 31 + 998 -> text_header opcode payload ->
  exists x, match (if h_len c =? 0 then Some (payload ++ [extra])
                 else if h_opcode c =? CMD_TEXT then terminate 4 24 (payload ++ [extra])
                 else if h_opcode c =? CMD_JOB then terminate 0 8 (payload ++ [extra])
                 else Some (payload ++ [extra])) with
      | Some mem => Some (Some (mkCmd (h_opcode c) (Z.land (h_flags c) (2 ^ 32 - 1 - F_MORE)) (h_tag c) (h_len c) mem), stream, sc)
      | None => None end
    = Some (Some (mkCmd opcode 0 tag (zlen payload) (payload ++ [x])), stream, sc).
Proof.
  intros O T F L Lz (Tx & Jb). unfold u32 in L. pose proof (zlen_nonneg payload). rewrite Z.mod_small in L by lia. rewrite O, T, L.
  assert (Fz : Z.land (h_flags c) (2 ^ 32 - 1 - F_MORE) = 0) by (destruct F as [-> | ->]; reflexivity). rewrite Fz.
  destruct (zlen payload =? 0); [exists extra; reflexivity|]. unfold CMD_TEXT, CMD_JOB. destruct (Z.eqb_spec opcode 5) as [E|E].
  - destruct (Tx E) as (a & l & t & Ep & La & (_ & Ll & Nl) & Rg). exists 0. rewrite Ep in *. rewrite (terminate_ok 4 24 l a t extra); auto; try lia. unfold zlen. rewrite La. reflexivity.
  - destruct (Z.eqb_spec opcode 3) as [E'|E']; [|exists extra; reflexivity]. destruct (Jb E') as (l & t & Ep & (_ & Ll & Nl) & Rg). exists 0. rewrite Ep in *. pose proof (terminate_ok 0 8 l [] t extra) as Q. cbn [app] in Q. rewrite Q; auto; lia.
Qed.

(** A message of any payload up to 2 GiB + 998 bytes, followed by anything: however recv cuts the stream and whether or not it fails, the
    receiver returns either nothing or exactly the opcode, the tag and the payload, and leaves what follows unread. If every call brings
    something it returns the message. *)
Theorem C33_intact_or_rejected opcode tag payload m rest wait extra script : message opcode tag payload m -> zlen payload <= 2 ^ 31 + 998 -> text_header opcode payload ->
  (exists s sc, recv_cmd wait extra (m ++ rest) script = Some (None, s, sc)) \/
  (exists x sc, recv_cmd wait extra (m ++ rest) script = Some (Some (mkCmd opcode 0 tag (zlen payload) (payload ++ [x])), rest, sc)).
Proof.
  intros M L T. destruct (recv_message opcode tag payload m M None 0 [] rest script (S (len script)) wait I ltac:(lia)) as [((ret & c & p & s & sc & E & N) & _)|(_ & c & sc & E & C1 & C2 & C3 & C4)]; unfold recv_cmd; rewrite E.
  - left. exists s, sc. destruct ret; [congruence| |]; reflexivity.
  - right. cbn [app]. destruct (recv_finish opcode tag payload c rest sc extra C1 C2 C3 C4 L T) as (x & X). exists x, sc. exact X.
Qed.
Theorem C33_delivered opcode tag payload m rest wait extra script : message opcode tag payload m -> zlen payload <= 2 ^ 31 + 998 -> text_header opcode payload ->
  clean script -> (length m <= length script)%nat ->
  exists x sc, recv_cmd wait extra (m ++ rest) script = Some (Some (mkCmd opcode 0 tag (zlen payload) (payload ++ [x])), rest, sc).
Proof.
  intros M L T C Ls. destruct (recv_message opcode tag payload m M None 0 [] rest script (S (len script)) wait I ltac:(lia)) as [(_ & [X|X])|(_ & c & sc & E & C1 & C2 & C3 & C4)]; [cbn [base] in X; lia|exfalso; apply X; auto|].
  unfold recv_cmd; rewrite E. cbn [app]. destruct (recv_finish opcode tag payload c rest sc extra C1 C2 C3 C4 L T) as (x & X). exists x, sc. exact X.
Qed.
(** Both ends: what a successful send put on the wire. *)
Theorem C33_end_to_end opcode tag payload s1 sc1 w rest wait extra script : 0 <= opcode < 2 ^ 16 -> 0 <= tag < 2 ^ 64 -> bytes payload -> zlen payload <= 2 ^ 31 + 998 -> text_header opcode payload ->
  send_cmd opcode tag payload s1 [] = Some (0, w, sc1) ->
  (exists s sc, recv_cmd wait extra (w ++ rest) script = Some (None, s, sc)) \/
  (exists x sc, recv_cmd wait extra (w ++ rest) script = Some (Some (mkCmd opcode 0 tag (zlen payload) (payload ++ [x])), rest, sc)).
Proof.
  intros O T B L Tx E. destruct (C33_send opcode tag payload s1 [] O T B) as (m & ret & w' & sc & M & E' & _ & R). rewrite E in E'. injection E' as E1 E2 _. rewrite E2. cbn [app]. rewrite (R (eq_sym E1)). apply C33_intact_or_rejected; assumption.
Qed.
(** A longer payload is refused. *)
Theorem C33_too_long opcode tag payload m rest wait extra script : message opcode tag payload m -> 2 ^ 31 + 998 < zlen payload -> exists s sc, recv_cmd wait extra (m ++ rest) script = Some (None, s, sc).
Proof.
  intros M L. destruct (recv_message opcode tag payload m M None 0 [] rest script (S (len script)) wait I ltac:(lia)) as [((ret & c & p & s & sc & E & N) & _)|(X & _)]; [|cbn [base] in X; lia].
  unfold recv_cmd; rewrite E. exists s, sc. destruct ret; [congruence| |]; reflexivity.
Qed.

(** Any bytes whatever: what is accepted was a sequence of frames whose checksums, version and lengths are right, with the same opcode; the
    payload of the command is theirs, in order (for opcodes without text). *)
Theorem C33_accepted_was_checked wait extra stream script c rest sc : bytes stream -> recv_cmd wait extra stream script = Some (Some c, rest, sc) ->
  exists f frs b bss, framed f b /\ Forall2 framed frs bss /\ stream = (b ++ concat bss) ++ rest /\ accepted (c_opcode c) (f :: frs) /\ c_tag c = f_tag f /\
    (plain (c_opcode c) -> c_mem c = (f_pdu f ++ concat (map f_pdu frs)) ++ [extra]).
Proof.
  intros B H. unfold recv_cmd in H. destruct (recv_loop _ wait None 0 [] stream script) as [[[[[ret cr] pl] s] sc']|] eqn:E; [|discriminate]. destruct ret; [|discriminate|discriminate]. destruct cr as [h|]; [|discriminate].
  destruct (recv_sound wait _ None 0 [] stream script h pl s sc' B E) as (f & frs & b & bss & F & Fs & Es & Ep & Acc & (T & _) & _). cbn [app] in Ep.
  match type of H with (match ?e with _ => _ end) = _ => destruct e as [mem|] eqn:Em; [|discriminate] end. injection H as <- <- <-. cbn [c_opcode c_tag c_mem].
  exists f, frs, b, bss. split; [exact F|]. split; [exact Fs|]. split; [exact Es|]. split; [exact Acc|]. split; [exact T|]. intros (P5 & P3). unfold CMD_TEXT, CMD_JOB in Em. apply Z.eqb_neq in P5, P3. rewrite P5, P3 in Em. rewrite <- Ep. destruct (h_len h =? 0); injection Em as <-; reflexivity.
Qed.
(** Nothing undefined happens except for a text or job command. *)
Theorem C33_no_fault wait extra stream script : bytes stream -> recv_cmd wait extra stream script = None ->
  exists b rest f, stream = b ++ rest /\ (f_opcode f = 5 \/ f_opcode f = 3) /\ exists b0 r0, framed f b0 /\ b = b0 ++ r0.
Proof.
  intros B H. unfold recv_cmd in H. destruct (recv_total wait (S (len script)) None 0 [] stream script B) as (r & E). rewrite E in H. destruct r as [[[[ret cr] pl] s] sc']. destruct ret; [|discriminate|discriminate]. destruct cr as [h|]; [|discriminate].
  destruct (recv_sound wait _ None 0 [] stream script h pl s sc' B E) as (f & frs & b & bss & F & Fs & Es & Ep & Acc & _).
  exists (b ++ concat bss), s, f. split; [exact Es|]. split; [|exists b, (concat bss); auto]. assert (Of : f_opcode f = h_opcode h) by (inversion Acc; assumption). rewrite Of.
  destruct (h_len h =? 0); [discriminate|]. destruct (Z.eqb_spec (h_opcode h) CMD_TEXT); [left; assumption|]. destruct (Z.eqb_spec (h_opcode h) CMD_JOB); [right; assumption|discriminate].
Qed.
(** One burst of up to 16 changed bits in the fields or in the payload of any frame of a command makes the receiver refuse it. *)
Theorem C33_damage_rejected opcode frs bss f bs bad rest wait extra script : Forall2 framed frs bss -> Forall (fun g => f_opcode g = opcode /\ has_more g /\ f_pdu g <> []) frs -> framed f bs -> damaged bs bad ->
  exists s sc, recv_cmd wait extra ((concat bss ++ bad) ++ rest) script = Some (None, s, sc).
Proof.
  intros F Fo Ff D. destruct (recv_bad_later opcode f bs bad rest wait Ff D frs bss F Fo None 0 [] script (len script) I) as (ret & c & p & s & sc & E & N). unfold recv_cmd. rewrite E. exists s, sc. destruct ret; [congruence| |]; reflexivity.
Qed.

(** Concrete cases: a payload of 1500 bytes goes out as two frames and comes back although the calls move 1 to 40 bytes. *)
Definition long : list Z := map (fun i => Z.of_nat (i mod 251)) (seq 0 1500).
Definition one (n : nat) : list (sres * bool) := repeat (SSent n, false) 200.
Definition wire1500 : list Z := match send_cmd 17 0x1122334455667788 long (one 40) [] with Some (_, w, _) => w | None => [] end.
Example ex_send : option_map (fun '(r, w, _) => (r, length w)) (send_cmd 17 0x1122334455667788 long (one 40) []) = Some (0, 1548%nat).
Proof. vm_compute. reflexivity. Qed.
Example ex_recv : option_map fst (recv_cmd true 7 (wire1500 ++ [1; 2; 3]) (repeat (RGot 33, false) 100)) = Some (Some (mkCmd 17 0 0x1122334455667788 1500 (long ++ [7])), [1; 2; 3]).
Proof. vm_compute. reflexivity. Qed.
Example ex_damage : option_map (fun '(c, _, _) => c) (recv_cmd true 7 (upd wire1500 1100 9) (repeat (RGot 33, false) 100)) = Some None /\
  option_map (fun '(c, _, _) => c) (recv_cmd true 7 (upd wire1500 1 9) (repeat (RGot 33, false) 100)) = Some None.
Proof. split; vm_compute; reflexivity. Qed.
Example ex_vector : option_map (fun '(r, w, _) => (r, option_map fst (recv_cmd true 0 w (repeat (RGot 1000, false) 20)))) (send_vec 17 1 [[1; 2]; [3]; [4; 5; 6]] (one 1048) []) =
  Some (0, Some (Some (mkCmd 17 0 1 6 [1; 2; 3; 4; 5; 6; 0]), [])).
Proof. vm_compute. reflexivity. Qed.
Example ex_text : text_header 5 ([0; 0; 0; 0] ++ [2; 0; 0; 0] ++ repeat 0 16 ++ [104; 105]).
Proof.
  split; [|discriminate]. intros _. exists [0; 0; 0; 0], [2; 0; 0; 0], (repeat 0 16 ++ [104; 105]). split; [reflexivity|]. split; [reflexivity|]. split; [|cbn; lia]. split; [|split; reflexivity].
  unfold bytes. repeat (apply Forall_cons; [unfold byte; lia|]). apply Forall_nil.
Qed.

(** When writev stops exactly behind the header or inside the payload, fio_sendv_data moves to the next entry of the vector but keeps the
    count: the next call reads an entry behind the array. *)
Theorem C33_vector_overrun_refuted : exists opcode tag buf script, 0 <= opcode < 2 ^ 16 /\ 0 <= tag < 2 ^ 64 /\ bytes buf /\ clean (map (fun x => (match fst x with SSent k => RGot k | _ => REof end, snd x)) script) /\ send_vec opcode tag [buf] script [] = None.
Proof.
  exists 17, 1, [1; 2; 3], [(SSent 25, false); (SSent 10, false)]. split; [lia|]. split; [lia|]. split; [unfold bytes; repeat (apply Forall_cons; [unfold byte; lia|]); apply Forall_nil|]. split; [|vm_compute; reflexivity].
  cbn [map fst snd]. apply Forall_cons; [exists 24%nat; reflexivity|]. apply Forall_cons; [exists 9%nat; reflexivity|]. apply Forall_nil.
Qed.
(** An empty buffer in the middle of a vector ends the command for the receiver, although it carries F_MORE. *)
Theorem C33_empty_part_refuted : exists bufs w sc script, bytes (concat bufs) /\ send_vec 17 1 bufs (one 1048) [] = Some (0, w, sc) /\ concat bufs = [1; 2; 3] /\
  exists rest sc', recv_cmd true 0 w script = Some (Some (mkCmd 17 0 1 2 [1; 2; 0]), rest, sc') /\ rest <> [].
Proof.
  exists [[1; 2]; []; [3]]. eexists. eexists. exists (repeat (RGot 1000, false) 20). split; [unfold bytes; repeat (apply Forall_cons; [unfold byte; lia|]); apply Forall_nil|]. split; [vm_compute; reflexivity|]. split; [reflexivity|]. eexists. eexists. split; [vm_compute; reflexivity|discriminate].
Qed.
(** A text command with correct checksums whose length field is too large makes the receiver write a zero outside the buffer. *)
Theorem C33_text_length_refuted : exists payload w sc script, bytes payload /\ send_cmd 5 0 payload (one 1048) [] = Some (0, w, sc) /\ recv_cmd true 0 w script = None.
Proof.
  exists (repeat 0 4 ++ [255; 255; 0; 0] ++ repeat 0 16). eexists. eexists. exists (repeat (RGot 1000, false) 20). split; [unfold bytes; cbn; repeat (apply Forall_cons; [unfold byte; lia|]); apply Forall_nil|]. split; [vm_compute; reflexivity|]. vm_compute. reflexivity.
Qed.
(** Fragments of two messages with different tags are put together. *)
Theorem C33_mixed_tags_refuted : exists f g bf bg script c rest sc, framed f bf /\ framed g bg /\ f_tag f <> f_tag g /\ recv_cmd true 0 (bf ++ bg) script = Some (Some c, rest, sc) /\ c_mem c = f_pdu f ++ f_pdu g ++ [0].
Proof.
  destruct (head_framed 17 1 100 [1; 2] ltac:(lia) ltac:(lia) ltac:(lia) ltac:(unfold bytes; repeat (apply Forall_cons; [unfold byte; lia|]); apply Forall_nil) ltac:(cbn; lia)) as (h & E & _ & F).
  destruct (head_framed 17 0 200 [3] ltac:(lia) ltac:(lia) ltac:(lia) ltac:(unfold bytes; repeat (apply Forall_cons; [unfold byte; lia|]); apply Forall_nil) ltac:(cbn; lia)) as (h' & E' & _ & F').
  exists (mkFrame 17 1 100 [1; 2]), (mkFrame 17 0 200 [3]), (h ++ [1; 2]), (h' ++ [3]), (repeat (RGot 1000, false) 20). vm_compute in E, E'. injection E as <-. injection E' as <-. eexists. eexists. eexists. split; [exact F|]. split; [exact F'|]. split; [discriminate|]. split; [vm_compute; reflexivity|reflexivity].
Qed.

Print Assumptions C33_send.
Print Assumptions C33_send_vector.
Print Assumptions C33_intact_or_rejected.
Print Assumptions C33_delivered.
Print Assumptions C33_end_to_end.
Print Assumptions C33_too_long.
Print Assumptions C33_accepted_was_checked.
Print Assumptions C33_no_fault.
Print Assumptions C33_damage_rejected.
