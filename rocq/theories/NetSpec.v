(** Vocabulary for C33: the wire format. *)
From Coq Require Import ZArith List Bool.
From Verif Require Import CBase CrcSpec.
Import ListNotations.
Open Scope Z_scope.

(** The number that bytes stand for, lowest byte first. *)
Fixpoint number (bs : list Z) : Z := match bs with [] => 0 | b :: r => b + 256 * number r end.
(** [bs] are the [n] bytes of [v]. *)
Definition encodes (n : nat) (v : Z) (bs : list Z) : Prop := bytes bs /\ length bs = n /\ number bs = v.
(** The 16 bit checksum: reflected CRC with generator x^16 + x^15 + x^2 + 1. *)
Definition crc16_of (buf : list Z) (c : Z) : Prop := exists r, c = reflect 16 r /\ is_crc 16 0x8005 0 (lsb_first buf) r.

(** A frame: version, opcode, flags, tag and length under a checksum, then the checksum of the payload, then the payload of at most 1024
    bytes. *)
Record frame := mkFrame { f_opcode : Z; f_flags : Z; f_tag : Z; f_pdu : list Z }.
Definition framed (f : frame) (bs : list Z) : Prop :=
  exists v o fl t l c d cv dv,
    bs = (v ++ o ++ fl ++ t ++ l) ++ c ++ d ++ f_pdu f /\
    encodes 2 121 v /\ encodes 2 (f_opcode f) o /\ encodes 4 (f_flags f) fl /\ encodes 8 (f_tag f) t /\ encodes 4 (zlen (f_pdu f)) l /\
    encodes 2 cv c /\ crc16_of (v ++ o ++ fl ++ t ++ l) cv /\ encodes 2 dv d /\ (f_pdu f <> [] -> crc16_of (f_pdu f) dv) /\
    bytes (f_pdu f) /\ zlen (f_pdu f) <= 1024.
Definition has_more (f : frame) : Prop := Z.testbit (f_flags f) 0 = true.

(** A message: frames that carry the payload in order, all but the last marked, all with the same opcode and tag and no empty one
    before the last. *)
Inductive message (opcode tag : Z) : list Z -> list Z -> Prop :=
| Last pdu bs : framed (mkFrame opcode 0 tag pdu) bs -> message opcode tag pdu bs
| More pdu rest bs bs' : pdu <> [] -> rest <> [] -> framed (mkFrame opcode 1 tag pdu) bs -> message opcode tag rest bs' -> message opcode tag (pdu ++ rest) (bs ++ bs').

(** Text and job commands carry the length of their text behind a header; the sender sets it to the rest of the payload. *)
Definition text_header (opcode : Z) (payload : list Z) : Prop :=
  (opcode = 5 -> exists a l t, payload = a ++ l ++ t /\ length a = 4%nat /\ encodes 4 (zlen payload - 24) l /\ 24 <= zlen payload < 2 ^ 31) /\
  (opcode = 3 -> exists l t, payload = l ++ t /\ encodes 4 (zlen payload - 8) l /\ 8 <= zlen payload < 2 ^ 31).
Definition plain (opcode : Z) : Prop := opcode <> 5 /\ opcode <> 3.

Definition prefix {A} (a b : list A) : Prop := exists r, b = a ++ r.
(** The frames that a receiver may take for one command: the same opcode throughout, F_MORE and a payload in all but the last. *)
Inductive accepted (opcode : Z) : list frame -> Prop :=
| AOne f : f_opcode f = opcode -> ~ has_more f \/ f_pdu f = [] -> accepted opcode [f]
| AMore f fs : f_opcode f = opcode -> has_more f -> f_pdu f <> [] -> accepted opcode fs -> accepted opcode (f :: fs).
(** [bad] is the frame [bs] with one burst of at most 16 bits changed, in the fields under the first checksum or in the payload. *)
Definition damaged (bs bad : list Z) : Prop :=
  exists pre a b post, bs = pre ++ a ++ post /\ bad = pre ++ b ++ post /\ bytes b /\ length a = length b /\ burst 16 (lsb_first a) (lsb_first b) /\
    ((pre = [] /\ length a = 20%nat) \/ (length pre = 24%nat /\ post = [])).
