(** Model of the write history used by verification: log_io_piece, unlog_io_piece, trim_io_piece, get_next_verify,
    get_next_trim, prune_io_piece_log and the completion step. Pieces are identified by their address; the rb_node
    embedded in a piece has the same address. A dereference of a freed piece, an assertion failure and a loop that
    does not end are [None]. Not modelled: block_infos (iolog.c:374-386) and opening the file (verify.c:1476-1489,
    trim.c:47-59). *)
From Coq Require Import ZArith List Bool.
From Verif Require Import CBase RbModel.
Import ListNotations.
Open Scope Z_scope.

(** struct io_piece, iolog.h:254-271; the flag bits IP_F_* as booleans; [pmark] is 1 for IP_F_ZEROED, 2 for
    IP_F_ERRORED, else 0. [pfile] is the address of the file. *)
Record piece := mkP { pfile : Z; poff : Z; plen : Z; pnum : Z; pmark : Z;
                      flying : bool; onrb : bool; onlist : bool; ptrim : bool }.
Definition set_flying b p := mkP (pfile p) (poff p) (plen p) (pnum p) (pmark p) b (onrb p) (onlist p) (ptrim p).
Definition set_onrb b p := mkP (pfile p) (poff p) (plen p) (pnum p) (pmark p) (flying p) b (onlist p) (ptrim p).
Definition set_onlist b p := mkP (pfile p) (poff p) (plen p) (pnum p) (pmark p) (flying p) (onrb p) b (ptrim p).
Definition set_ptrim b p := mkP (pfile p) (poff p) (plen p) (pnum p) (pmark p) (flying p) (onrb p) (onlist p) b.
Definition set_plen n p := mkP (pfile p) (poff p) n (pnum p) (pmark p) (flying p) (onrb p) (onlist p) (ptrim p).

(** The history part of struct thread_data (fio.h:462-485) and the heap of pieces; [trimq] is td->trim_list,
    [hlist] is td->io_hist_list, [live x] says that x is allocated. *)
Record hist := mkH { htree : rbs; hlist : list Z; hlen : Z; trimq : list Z; tents : Z; pc : Z -> piece; live : Z -> bool }.
Definition w_tree v h := mkH v (hlist h) (hlen h) (trimq h) (tents h) (pc h) (live h).
Definition w_list v h := mkH (htree h) v (hlen h) (trimq h) (tents h) (pc h) (live h).
Definition w_len v h := mkH (htree h) (hlist h) v (trimq h) (tents h) (pc h) (live h).
Definition w_trim q n h := mkH (htree h) (hlist h) (hlen h) q n (pc h) (live h).
Definition w_pc v h := mkH (htree h) (hlist h) (hlen h) (trimq h) (tents h) v (live h).
Definition w_live v h := mkH (htree h) (hlist h) (hlen h) (trimq h) (tents h) (pc h) v.
Definition fupd {A} (f : Z -> A) (x : Z) (v : A) : Z -> A := fun i => if i =? x then v else f i.

Definition deref (h : hist) (x : Z) : option piece := if live h x then Some (pc h x) else None.
Definition modify (x : Z) (f : piece -> piece) (h : hist) : option hist :=
  do p <- deref h x; Some (w_pc (fupd (pc h) x (f p)) h).
Definition release (x : Z) (h : hist) : option hist :=
  do _ <- deref h x; Some (w_live (fupd (live h) x false) h).

Definition mem (x : Z) (l : list Z) : bool := existsb (Z.eqb x) l.
Definition unlink (x : Z) (l : list Z) : list Z := filter (fun y => negb (x =? y)) l.

(** remove_trim_entry, trim.h:18-24. *)
Definition remove_trim_entry (x : Z) (h : hist) : option hist :=
  do _ <- deref h x;
  if mem x (trimq h) then Some (w_trim (unlink x (trimq h)) (u64 (tents h - 1)) h) else Some h.

(** One comparison of the search in log_io_piece, iolog.c:331-346: the direction (left = true, None: equal), and overlap. *)
Definition compare (p q : piece) : option bool * bool :=
  if pfile p <? pfile q then (Some true, false)
  else if pfile q <? pfile p then (Some false, false)
  else if poff p <? poff q then (Some true, poff q <? u64 (poff p + plen p))
  else if poff q <? poff p then (Some false, poff p <? u64 (poff q + plen q))
  else (None, true).

Inductive found := Overlap (x : Z) | Slot (parent : Z) (l : link).
(** The inner loop, iolog.c:325-347. *)
Fixpoint walk (fuel : nat) (p : piece) (cur parent : Z) (l : link) (h : hist) : option found :=
  match fuel with
  | O => None
  | S fuel =>
      if cur =? 0 then Some (Slot parent l)
      else
        do q <- deref h cur;
        let (dir, ov) := compare p q in
        if ov then Some (Overlap cur)
        else do n <- get (htree h) cur;
             match dir with
             | Some true => walk fuel p (lft n) cur LLeft h
             | Some false => walk fuel p (rgt n) cur LRight h
             | None => None
             end
  end.

(** restart ... rb_insert_color, iolog.c:321-368. *)
Fixpoint place (rounds fuel : nat) (x : Z) (h : hist) : option hist :=
  match rounds with
  | O => None
  | S rounds =>
      do p <- deref h x;
      do f <- walk fuel p (top (htree h)) 0 LTop h;
      match f with
      | Overlap y =>
          let h := w_len (u64 (hlen h - 1)) h in
          do t <- erase fuel y (htree h);
          let h := w_tree t h in
          do h <- modify y (set_onrb false) h;
          do h <- remove_trim_entry y h;
          do q <- deref h y;
          do h <- (if flying q then Some h else release y h);
          place rounds fuel x h
      | Slot parent l =>
          do t <- link_node x parent l (htree h);
          do t <- insert_color fuel x t;
          do h <- modify x (set_onrb true) (w_tree t h);
          Some (w_len (u64 (hlen h + 1)) h)
      end
  end.

(** log_io_piece, iolog.c:283-368. [risk] is fio_offset_overlap_risk, [trim] is io_u_should_trim; [x] is what calloc
    returns. *)
Definition log_piece (fuel : nat) (risk : bool) (x file off len num mark : Z) (trim : bool) (h : hist) : option hist :=
  if live h x then None
  else
    let h := w_pc (fupd (pc h) x (mkP file off len num mark true false false false)) (w_live (fupd (live h) x true) h) in
    let h := if trim then w_trim (trimq h ++ [x]) (u64 (tents h + 1)) h else h in
    if risk then place fuel fuel x h
    else do h <- modify x (set_onlist true) (w_list (hlist h ++ [x]) h);
         Some (w_len (u64 (hlen h + 1)) h).

(** unlog_io_piece, iolog.c:370-396, for a piece that the request still points to. *)
Definition unlog_piece (fuel : nat) (x : Z) (h : hist) : option hist :=
  do p <- deref h x;
  do h <- (if onrb p then do t <- erase fuel x (htree h); Some (w_tree t h)
           else if onlist p then Some (w_list (unlink x (hlist h)) h) else Some h);
  do h <- release x h;
  Some (w_len (u64 (hlen h - 1)) h).

(** trim_io_piece, iolog.c:398-406; [n] is xfer_buflen - resid. *)
Definition trim_piece (x n : Z) (h : hist) : option hist := modify x (set_plen n) h.

(** Successful completion, io_u.c:2209-2222. *)
Definition completed (x : Z) (h : hist) : option hist :=
  do p <- deref h x;
  if negb (onrb p || onlist p) then release x h else modify x (set_flying false) h.

(** while (n) { ...; n = rb_next(n) }, verify.c:1434-1439. *)
Fixpoint first_done (steps fuel : nat) (n : Z) (h : hist) : option Z :=
  if n =? 0 then Some 0
  else match steps with
       | O => None
       | S steps =>
           do p <- deref h n;
           if negb (flying p) then Some n else do m <- rb_next fuel n (htree h); first_done steps fuel m h
       end.

(** get_next_verify, verify.c:1415-1506: the piece to read back, if any. *)
Definition next_verify (fuel : nat) (h : hist) : option (option piece * hist) :=
  do xh <- (if negb (top (htree h) =? 0)
            then do n <- rb_first fuel (htree h);
                 do x <- first_done fuel fuel n h;
                 if x =? 0 then Some (0, h)
                 else do t <- erase fuel x (htree h);
                      do p <- deref h x;
                      if onrb p then do h <- modify x (set_onrb false) (w_tree t h); Some (x, h) else None
            else match hlist h with
                 | [] => Some (0, h)
                 | x :: l =>
                     do p <- deref h x;
                     if flying p then Some (0, h)
                     else if onlist p then do h <- modify x (set_onlist false) (w_list l h); Some (x, h) else None
                 end);
  let (x, h) := xh in
  if x =? 0 then Some (None, h)
  else
    let h := w_len (u64 (hlen h - 1)) h in
    do p <- deref h x;
    do h <- remove_trim_entry x h;
    do h <- release x h;
    Some (Some p, h).

(** get_next_trim, trim.c:11-63; [zero] is the trim_verify_zero option. *)
Definition next_trim (fuel : nat) (zero : bool) (h : hist) : option (option piece * hist) :=
  match trimq h with
  | [] => Some (None, h)
  | x :: _ =>
      if tents h =? 0 then None
      else
        do h <- remove_trim_entry x h;
        do p <- deref h x;
        if zero then do h <- modify x (set_ptrim true) h; Some (Some p, h)
        else
          do h <- (if onlist p then Some (w_list (unlink x (hlist h)) h)
                   else if onrb p then do t <- erase fuel x (htree h); Some (w_tree t h) else None);
          let h := w_len (u64 (hlen h - 1)) h in
          do h <- release x h;
          Some (Some p, h)
  end.

(** prune_io_piece_log, iolog.c:258-278. *)
Fixpoint prune_tree (steps fuel : nat) (h : hist) : option hist :=
  match steps with
  | O => None
  | S steps =>
      do n <- rb_first fuel (htree h);
      if n =? 0 then Some h
      else do t <- erase fuel n (htree h);
           do h <- remove_trim_entry n (w_tree t h);
           do h <- release n (w_len (u64 (hlen h - 1)) h);
           prune_tree steps fuel h
  end.
Fixpoint prune_list (l : list Z) (h : hist) : option hist :=
  match l with
  | [] => Some (w_list [] h)
  | x :: l =>
      do h <- remove_trim_entry x (w_list l h);
      do h <- release x (w_len (u64 (hlen h - 1)) h);
      prune_list l h
  end.
Definition prune (fuel : nat) (h : hist) : option hist :=
  do h <- prune_tree fuel fuel h; prune_list (hlist h) h.
