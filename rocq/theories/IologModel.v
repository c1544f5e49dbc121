(** Model of the I/O log of version 3: writing (iolog.c:42-79, 771-806) and reading (iolog.c:458-677, 718-766, and the choice of the next
    I/O of a replay, iolog.c:195-256). Texts are lists of character codes. Left out: version 2 logs, chunked reading, replay_time_scale
    other than 100, block traces, and the opening, closing and waiting that a replay does. *)
From Coq Require Import ZArith List Bool String.
From Verif Require Import CBase CStr UnitsModel.
Import ListNotations.
Open Scope Z_scope.

(** enum fio_ddir and io_ddir_name, io_ddir.h:4-40. *)
Inductive ddir := DRead | DWrite | DTrim | DSync | DDatasync | DSyncFileRange | DSyncfs | DWait | DInval.
Definition ddir_name (d : ddir) : list Z :=
  chars match d with DRead => "read" | DWrite => "write" | DTrim => "trim" | DSync => "sync" | DDatasync => "datasync"
        | DSyncFileRange => "sync_file_range" | DSyncfs => "syncfs" | DWait => "wait" | DInval => "invalid" end.
(** enum file_log_act and log_file, iolog.c:57-79. *)
Inductive fact := FAdd | FOpen | FClose.
Definition act_name (a : fact) : list Z := chars match a with FAdd => "add" | FOpen => "open" | FClose => "close" end.
(** What a job logs, with the time since the start of the log: I/Os (log_io_u) and openings and closings of files (log_file). *)
Inductive event := EIo (t : Z) (name : list Z) (d : ddir) (off len : Z) | EFile (t : Z) (name : list Z) (a : fact).
Definition line (e : event) : list Z :=
  match e with
  | EIo t n d off len => dec t ++ 32 :: n ++ 32 :: ddir_name d ++ 32 :: dec off ++ 32 :: dec len ++ [10]       (* iolog.c:50-53 *)
  | EFile t n a => dec t ++ 32 :: n ++ 32 :: act_name a ++ [10]                                                (* iolog.c:76-78 *)
  end.
Definition ver3 : list Z := chars "fio version 3 iolog".
(** init_iolog_write, iolog.c:771-806, and the events of the run; [ts] are the times of the add lines. *)
Definition write_log (files : list (Z * list Z)) (es : list event) : list Z :=
  ver3 ++ [10] ++ flat_map line (map (fun '(t, n) => EFile t n FAdd) files) ++ flat_map line es.

(** fgets(buffer, size, f): at most size - 1 characters, up to and including the next newline; None at the end of the file. *)
Fixpoint fgets (room : nat) (s : list Z) : list Z * list Z :=
  match room, s with
  | S k, c :: t => if c =? 10 then ([c], t) else let (a, b) := fgets k t in (c :: a, b)
  | _, _ => ([], s)
  end.

(** The conversions of sscanf (C11 7.21.6.2) that the reader uses. %llu and %u: white space, an optional sign, digits; the value is that
    of strtoull, limited to 64 bits; for %u it is cut to 32 bits, as glibc does. *)
Definition scan_num (s : list Z) : option (Z * list Z) :=
  let s := snd (span isspace s) in
  let '(neg, s) := match s with c :: t => if c =? 45 then (true, t) else if c =? 43 then (false, t) else (false, s) | [] => (false, s) end in
  let '(ds, r) := span digit s in
  match ds with
  | [] => None
  | _ => let v := dval ds in Some (if 2 ^ 64 <=? v then 2 ^ 64 - 1 else if neg : bool then u64 (- v) else v, r)
  end.
(** %256s *)
Fixpoint take_word (room : nat) (s : list Z) : list Z * list Z :=
  match room, s with
  | S k, c :: t => if isspace c then ([], s) else let (a, b) := take_word k t in (c :: a, b)
  | _, _ => ([], s)
  end.
Definition scan_word (s : list Z) : option (list Z * list Z) :=
  match take_word 256 (snd (span isspace s)) with ([], _) => None | (w, r) => Some (w, r) end.
(** The variables of read_iolog that outlive a line; those without an initial value start arbitrary (iolog.c:460-464, 489). *)
Record vars := mkVars { v_ttime : Z; v_rfname : list Z; v_act : list Z; v_offset : Z; v_bytes : Z; v_fileno : Z; v_action : fact }.
(** sscanf(p, "%llu %256s %256s %llu %u", ...), iolog.c:492-493: the number of conversions and what was stored. *)
Definition sscanf5 (v : vars) (p : list Z) : Z * vars :=
  match scan_num p with
  | None => (0, v)
  | Some (t, p) =>
      let v := mkVars t (v_rfname v) (v_act v) (v_offset v) (v_bytes v) (v_fileno v) (v_action v) in
      match scan_word p with
      | None => (1, v)
      | Some (n, p) =>
          let v := mkVars t n (v_act v) (v_offset v) (v_bytes v) (v_fileno v) (v_action v) in
          match scan_word p with
          | None => (2, v)
          | Some (a, p) =>
              let v := mkVars t n a (v_offset v) (v_bytes v) (v_fileno v) (v_action v) in
              match scan_num p with
              | None => (3, v)
              | Some (o, p) =>
                  let v := mkVars t n a o (v_bytes v) (v_fileno v) (v_action v) in
                  match scan_num p with
                  | None => (4, v)
                  | Some (b, _) => (5, mkVars t n a o (u32 b) (v_fileno v) (v_action v))
                  end
              end
          end
      end
  end.

(** struct io_piece. *)
Record piece := mkPiece { p_ddir : ddir; p_fileno : Z; p_offset : Z; p_len : Z; p_delay : Z; p_action : fact }.
(** Options of the replaying job: replay_skip as a set of directions, replay_scale, replay_align (a power of two or 0), --readonly,
    replay_no_stall, and the directory that add_file puts in front of every name. *)
Record ropts := mkRopts { o_redirect : option (list Z); o_skip : ddir -> bool; o_scale : Z; o_align : Z; o_readonly : bool; o_no_stall : bool; o_directory : list Z }.
Record rstate := mkRs { r_files : list (list Z); r_pieces : list piece; r_last : Z; r_total : Z; r_vars : vars; r_reads : Z; r_writes : Z; r_trims : Z; r_waits : Z }.

(** get_fileno, filesetup.c:2148-2158. *)
Fixpoint find_name (i : Z) (files : list (list Z)) (n : list Z) : Z :=
  match files with [] => -1 | f :: r => if same f n then i else find_name (i + 1) r n end.
Definition get_fileno (files : list (list Z)) (n : list Z) : Z := find_name 0 files n.
(** delay_since_ttime, iolog.c:177-193, for replay_time_scale=100. *)
Definition delay_since_ttime (o : ropts) (last time : Z) : Z := if (last =? 0) || o_no_stall o || (time <? last) then 0 else u64 (time - last).
(** The action of an I/O line, iolog.c:514-538: None is "continue". *)
Definition io_action (o : ropts) (act : list Z) : option ddir :=
  if same act (chars "wait") then Some DWait
  else if same act (chars "read") then if o_skip o DRead then None else Some DRead
  else if same act (chars "write") then if o_skip o DWrite then None else Some DWrite
  else if same act (chars "sync") then if o_skip o DSync then None else Some DSync
  else if same act (chars "datasync") then Some DDatasync
  else if same act (chars "trim") then if o_skip o DTrim then None else Some DTrim
  else None.
(** ipo_bytes_align, iolog.h:335-341. *)
Definition bytes_align (align off : Z) : Z := if align =? 0 then off else Z.land off (not64 (align - 1)).
(** iolog.c:567-593: the counters, and whether the line is kept. *)
Definition count (o : ropts) (s : rstate) (rw : ddir) : option rstate :=
  let 'mkRs f p l t v r w tr wa := s in
  match rw with
  | DRead => Some (mkRs f p l t v (r + 1) w tr wa)
  | DWrite => if o_readonly o then None else Some (mkRs f p l t v r (w + 1) tr wa)
  | DTrim => if o_readonly o then None else Some (mkRs f p l t v r w (tr + 1) wa)
  | DWait => if o_no_stall o then None else Some (mkRs f p l t v r w tr (wa + 1))
  | _ => Some s
  end.
(** iolog.c:595-622. *)
Definition queue (o : ropts) (s : rstate) (rw : ddir) (delay : Z) : rstate :=
  let v := r_vars s in
  let p := match rw with
           | DWait => mkPiece rw 0 0 0 (v_offset v) FAdd
           | _ => let off := if o_scale o =? 0 then v_offset v else v_offset v / o_scale o in
                  mkPiece rw (v_fileno v) (bytes_align (o_align o) off) (v_bytes v) delay (v_action v)
           end in
  mkRs (r_files s) (r_pieces s ++ [p]) (r_last s) (u64 (r_total s + p_len p)) v (r_reads s) (r_writes s) (r_trims s) (r_waits s).
Definition set_vars (s : rstate) (v : vars) : rstate := mkRs (r_files s) (r_pieces s) (r_last s) (r_total s) v (r_reads s) (r_writes s) (r_trims s) (r_waits s).
Definition set_file (v : vars) (fileno : Z) (a : fact) : vars := mkVars (v_ttime v) (v_rfname v) (v_act v) (v_offset v) (v_bytes v) fileno a.
(** One line, iolog.c:486-622. *)
Definition read_line (o : ropts) (s : rstate) (p : list Z) : rstate :=
  let '(r, v) := sscanf5 (r_vars s) p in
  let delay := delay_since_ttime o (r_last s) (v_ttime v) in
  let s := mkRs (r_files s) (r_pieces s) (v_ttime v) (r_total s) v (r_reads s) (r_writes s) (r_trims s) (r_waits s) in
  if same (v_act v) (chars "wait") then s
  else
    let fname := match o_redirect o with Some n => n | None => v_rfname v end in
    if r =? 5 then
      match io_action o (v_act v) with
      | None => s
      | Some rw =>
          let s' := set_vars s (set_file v (get_fileno (r_files s) fname) (v_action v)) in
          match count o s' rw with None => s' | Some s => queue o s rw delay end
      end
    else if r =? 3 then
      if same (v_act v) (chars "add") then
        match o_redirect o with
        | Some _ => if negb (get_fileno (r_files s) fname =? -1) then queue o s DInval delay
                    else queue o (set_vars (mkRs (r_files s ++ [o_directory o ++ fname]) (r_pieces s) (r_last s) (r_total s) v (r_reads s) (r_writes s) (r_trims s) (r_waits s)) (set_file v (Z.of_nat (List.length (r_files s))) FAdd)) DInval delay
        | None => queue o (set_vars (mkRs (r_files s ++ [o_directory o ++ fname]) (r_pieces s) (r_last s) (r_total s) v (r_reads s) (r_writes s) (r_trims s) (r_waits s)) (set_file v (Z.of_nat (List.length (r_files s))) FAdd)) DInval delay
        end
      else if same (v_act v) (chars "open") then queue o (set_vars s (set_file v (get_fileno (r_files s) fname) FOpen)) DInval delay
      else if same (v_act v) (chars "close") then queue o (set_vars s (set_file v (get_fileno (r_files s) fname) FClose)) DInval delay
      else s
    else s.
(** The loop; [fuel] bounds the number of lines. *)
Fixpoint read_lines (fuel : nat) (o : ropts) (s : rstate) (text : list Z) : rstate :=
  match fuel, text with
  | S k, _ :: _ => let '(l, rest) := fgets 4095 text in read_lines k o (read_line o s l) rest
  | _, _ => s
  end.
(** init_iolog_read and read_iolog: None when the log is refused. [v] are the variables before their first assignment. *)
Definition read_log (o : ropts) (v : vars) (text : list Z) : option rstate :=
  let '(l, rest) := fgets 255 text in
  match text with
  | [] => None
  | _ =>
      if negb (starts ver3 l) then None
      else
        let s := read_lines (List.length rest) o (mkRs [] [] 0 0 v 0 0 0 0) rest in
        if (r_reads s =? 0) && (r_writes s =? 0) && (r_waits s =? 0) && (r_trims s =? 0) then None else Some s
  end.
(** read_iolog_get, iolog.c:195-256: the I/Os of the replay in order; td->files[fileno] outside the array is None. *)
Definition name_of (files : list (list Z)) (i : Z) : option (list Z) := if i <? 0 then None else nth_error files (Z.to_nat i).
Fixpoint replay (files : list (list Z)) (ps : list piece) : option (list (list Z * ddir * Z * Z)) :=
  match ps with
  | [] => Some []
  | p :: ps =>
      match p_ddir p with
      | DWait => replay files ps
      | d =>
          do n <- name_of files (p_fileno p);
          do l <- replay files ps;
          match d with DInval => Some l | d => Some ((n, d, p_offset p, p_len p) :: l) end
      end
  end.
