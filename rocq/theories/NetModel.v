(** Model of the messages between client and server: sending (server.c:181-200, 213-268, 499-560, 1227-1266, 1286-1310) and receiving
    (server.c:292-459). The connection is a reliable stream of bytes; how many bytes a call of writev or recv moves, and when it fails, is
    a script. Left out: the bookkeeping of replies and a failing realloc. *)
From Coq Require Import ZArith List Bool Arith.
From Verif Require Import CBase CrcModel DigestModel.
Import ListNotations.
Open Scope Z_scope.

(** server.h:54-108. *)
Definition VER := 121.
Definition MAX_PDU := 1024%nat.
Definition F_MORE := 1.
Definition CMD_JOB := 3.
Definition CMD_TEXT := 5.

(** struct fio_net_cmd in memory and on the wire, little endian, server.h:31-44: 20 bytes under the checksum ... *)
Definition fields (opcode flags tag len : Z) : list Z := le_bytes 2 VER ++ le_bytes 2 opcode ++ le_bytes 4 flags ++ le_bytes 8 tag ++ le_bytes 4 len.
(** ... and the two checksums: __fio_init_net_cmd and fio_net_cmd_crc_pdu, server.c:181-190, 499-507. *)
Definition head (opcode flags tag : Z) (pdu : list Z) : option (list Z) :=
  let f := fields opcode flags tag (zlen pdu) in
  do c <- fio_crc16 f;
  do d <- fio_crc16 pdu;
  Some (f ++ le_bytes 2 c ++ le_bytes 2 d).

(** What a call of writev does, and exit_backend after it. *)
Inductive sres := SSent (k : nat) | SZero | SAgain | SErr.
(** Moving the vector past [ret] bytes, server.c:235-243; beyond the array is None. *)
Fixpoint advance (iov : list (list Z)) (ret : nat) : option (list (list Z)) :=
  match ret with
  | O => Some iov
  | _ => match iov with
         | [] => None
         | v :: r => if (List.length v <=? ret)%nat then advance r (ret - List.length v) else Some (skipn ret v :: r)
         end
  end.
(** fio_sendv_data, server.c:225-259. [iov] is the rest of the array from the pointer on; writev takes [count] entries of it, which is
    undefined when fewer are left. [wire] collects what was sent. The end of the script is a call that never returns. *)
Fixpoint sendv (script : list (sres * bool)) (iov : list (list Z)) (count total : nat) (wire : list Z) : option (Z * list Z * list (sres * bool)) :=
  match script with
  | [] => Some (1, wire, [])
  | (r, ex) :: script =>
      if (List.length iov <? count)%nat then None
      else
        let stop w t := Some (if (t =? 0)%nat then 0 else 1, w, script) in
        let all := concat (firstn count iov) in
        match r with
        | SSent k =>
            let k := Nat.min k (List.length all) in
            if (k =? 0)%nat then stop wire total
            else
              let wire := wire ++ firstn k all in
              let total := (total - k)%nat in
              if (total =? 0)%nat then Some (0, wire, script)
              else do iov <- advance iov k; if ex : bool then stop wire total else sendv script iov count total wire
        | SZero => stop wire total
        | SAgain => if ex : bool then stop wire total else sendv script iov count total wire
        | SErr => stop wire total
        end
  end.
(** fio_send_data, server.c:261-268. *)
Definition send_data (script : list (sres * bool)) (p wire : list Z) : option (Z * list Z * list (sres * bool)) :=
  if (24 + MAX_PDU <? List.length p)%nat then None else sendv script [p] 1 (List.length p) wire.

Definition more {A} (l : list A) : Z := match l with [] => 0 | _ => F_MORE end.
(** The loop of fio_net_send_cmd, server.c:530-551; [fuel] bounds the fragments. *)
Fixpoint send_loop (fuel : nat) (opcode tag : Z) (buf : list Z) (script : list (sres * bool)) (wire : list Z) : option (Z * list Z * list (sres * bool)) :=
  match fuel with
  | O => None
  | S fuel =>
      let this := firstn MAX_PDU buf in
      let rest := skipn MAX_PDU buf in
      do h <- head opcode (more rest) tag this;
      do r <- send_data script (h ++ this) wire;
      let '(ret, wire, script) := r in
      if negb (ret =? 0) then Some r
      else match rest with [] => Some r | _ => send_loop fuel opcode tag rest script wire end
  end.
Definition send_cmd (opcode tag : Z) (buf : list Z) (script : list (sres * bool)) (wire : list Z) := send_loop (S (List.length buf)) opcode tag buf script wire.
(** fio_send_cmd_ext_pdu, server.c:1231-1266: header and payload as two entries of a vector. *)
Fixpoint ext_loop (fuel : nat) (opcode flags tag : Z) (buf : list Z) (script : list (sres * bool)) (wire : list Z) : option (Z * list Z * list (sres * bool)) :=
  match fuel with
  | O => None
  | S fuel =>
      let this := firstn MAX_PDU buf in
      let rest := skipn MAX_PDU buf in
      do h <- head opcode (Z.lor flags (more rest)) tag this;
      do r <- sendv script [h; this] 2 (24 + List.length this) wire;
      let '(ret, wire, script) := r in
      if negb (ret =? 0) then Some r
      else match rest with [] => Some r | _ => ext_loop fuel opcode flags tag rest script wire end
  end.
Definition send_ext (opcode flags tag : Z) (buf : list Z) (script : list (sres * bool)) (wire : list Z) := ext_loop (S (List.length buf)) opcode flags tag buf script wire.
(** send_vec_entry, server.c:1286-1310: all entries go out under the first one's command, each but the last with F_MORE. *)
Fixpoint send_vec (opcode tag : Z) (bufs : list (list Z)) (script : list (sres * bool)) (wire : list Z) : option (Z * list Z * list (sres * bool)) :=
  match bufs with
  | [] => Some (0, wire, script)
  | b :: bufs =>
      do r <- send_ext opcode (more bufs) tag b script wire;
      let '(ret, wire, script) := r in
      do r <- send_vec opcode tag bufs script wire;
      let '(ret', wire, script) := r in
      Some (ret + ret', wire, script)
  end.

(** What a call of recv does, and exit_backend after it. *)
Inductive rres := RGot (k : nat) | REof | RAgain | RErr.
(** fio_recv_data, server.c:292-325: status, the bytes read, what is left in the stream. *)
Fixpoint recv_data (script : list (rres * bool)) (wait : bool) (len : nat) (stream got : list Z) : Z * list Z * list Z * list (rres * bool) :=
  match script with
  | [] => (-1, got, stream, [])
  | (r, ex) :: script =>
      let stop g s l := (if (l =? 0)%nat then 0 else -1, g, s, script) in
      match r with
      | RGot k =>
          let k := Nat.min k (Nat.min len (List.length stream)) in
          if (k =? 0)%nat then stop got stream len
          else
            let got := got ++ firstn k stream in
            let stream := skipn k stream in
            let len := (len - k)%nat in
            if (len =? 0)%nat then (0, got, stream, script)
            else if ex : bool then stop got stream len else recv_data script wait len stream got
      | REof => stop got stream len
      | RAgain => if wait then if ex : bool then stop got stream len else recv_data script wait len stream got else stop got stream len
      | RErr => stop got stream len
      end
  end.

(** A field of the header. *)
Definition fld (h : list Z) (p n : nat) : Z := le_word (firstn n (skipn p h)).
Record hdr := mkHdr { h_opcode : Z; h_flags : Z; h_tag : Z; h_len : Z; h_pcrc : Z }.
(** verify_convert_cmd, server.c:327-365: None is refused. The outer option is that of the checksum. *)
Definition verify_convert_cmd (h : list Z) : option (option hdr) :=
  do crc <- fio_crc16 (firstn 20 h);
  if negb (crc =? fld h 20 2) then Some None
  else if negb (fld h 0 2 =? VER) then Some None
  else if Z.of_nat MAX_PDU <? fld h 16 4 then Some None
  else Some (Some (mkHdr (fld h 2 2) (fld h 4 4) (fld h 8 8) (fld h 16 4) (fld h 22 2))).

(** The loop of fio_net_recv_cmd, server.c:378-436: ret, the command so far, its payload, the rest of the stream. [fuel] bounds the
    fragments; a fragment takes at least one call of recv. *)
Fixpoint recv_loop (fuel : nat) (wait : bool) (cmdret : option hdr) (cmd_size : Z) (payload stream : list Z) (script : list (rres * bool))
  : option (Z * option hdr * list Z * list Z * list (rres * bool)) :=
  match fuel with
  | O => Some (-1, cmdret, payload, stream, script)
  | S fuel =>
      let '(ret, h, stream, script) := recv_data script wait 24 stream [] in
      if negb (ret =? 0) then Some (ret, cmdret, payload, stream, script)
      else
        do v <- verify_convert_cmd h;
        match v with
        | None => Some (1, cmdret, payload, stream, script)
        | Some cmd =>
            let cmd_size := u64 (match cmdret with None => 24 + h_len cmd + 1 | Some _ => cmd_size + h_len cmd end) in
            if 2048 * 1024 <? cmd_size / 1024 then Some (1, cmdret, payload, stream, script)
            else
              let bad := match cmdret with None => false | Some c => negb (h_opcode c =? h_opcode cmd) end in
              if bad then Some (1, cmdret, payload, stream, script)
              else
                let c := match cmdret with None => cmd | Some c => c end in
                if h_len cmd =? 0 then Some (0, Some c, payload, stream, script)
                else
                  let '(ret, pdu, stream, script) := recv_data script wait (Z.to_nat (h_len cmd)) stream [] in
                  if negb (ret =? 0) then Some (ret, Some c, payload, stream, script)
                  else
                    do crc <- fio_crc16 pdu;
                    if negb (crc =? h_pcrc cmd) then Some (1, Some c, payload, stream, script)
                    else
                      let c := match cmdret with None => c | Some c => mkHdr (h_opcode c) (h_flags c) (h_tag c) (u32 (h_len c + h_len cmd)) (h_pcrc c) end in
                      if Z.land (h_flags cmd) F_MORE =? 0 then Some (0, Some c, payload ++ pdu, stream, script)
                      else recv_loop fuel wait (Some c) cmd_size (payload ++ pdu) stream script
        end
  end.
(** buf[len] = 0 behind a header of [hd] bytes whose length field is at [p], server.c:442-455. The memory behind the payload is the one
    byte that was allocated for it, of unknown content; an access outside is None, also below the text. *)
Definition terminate (p hd : Z) (mem : list Z) : option (list Z) :=
  if zlen mem <? p + 4 then None
  else let v := fld mem (Z.to_nat p) 4 in
       let len := if v <? 2 ^ 31 then v else v - 2 ^ 32 in
       if len <? 0 then None else zupd mem (hd + len) 0.
(** The command that fio_net_recv_cmd returns: the payload is followed by the extra byte. *)
Record cmd := mkCmd { c_opcode : Z; c_flags : Z; c_tag : Z; c_len : Z; c_mem : list Z }.
Definition recv_cmd (wait : bool) (extra : Z) (stream : list Z) (script : list (rres * bool)) : option (option cmd * list Z * list (rres * bool)) :=
  do r <- recv_loop (S (List.length script)) wait None 0 [] stream script;
  let '(ret, cmdret, payload, stream, script) := r in
  match ret, cmdret with
  | 0, Some c =>
      let mem := payload ++ [extra] in
      do mem <- (if h_len c =? 0 then Some mem
                 else if h_opcode c =? CMD_TEXT then terminate 4 24 mem
                 else if h_opcode c =? CMD_JOB then terminate 0 8 mem
                 else Some mem);
      Some (Some (mkCmd (h_opcode c) (Z.land (h_flags c) (2 ^ 32 - 1 - F_MORE)) (h_tag c) (h_len c) mem), stream, script)
  | _, _ => Some (None, stream, script)
  end.
