(** Model of the choice of files by a job, of their references and of their opening and closing:
    [io_u.c], [ioengines.c], [filesetup.c].

    Simplifications:
    - the outcome of opening a file, of drawing a file at random and of filling in an I/O
      ([fill_io_u]) are inputs;
    - timeouts while an I/O is filled in (io_u.c:1564-1565) end the job and are left out;
    - file locks, logs, disk utilisation and [fsync] on close are left out;
    - a draw of the skewed distributions is below the number of files. *)
From Coq Require Import ZArith List Lia Bool.
From Verif Require Import CBase FloatZ.
Import ListNotations.
Open Scope Z_scope.

(** file.h:53-59: round robin, sequential, random, and the three skewed distributions. *)
Inductive kind := RR | Seq | Uniform | Skewed.

(** [nr_files], [open_files] (init.c:839-840), [file_service_nr] (options.c:1101-1113). *)
Record cfg := Cfg { knd : kind; nr : nat; limit : Z; serve : Z }.

(** The flags of a file (file.h), its references, and whether it has a descriptor. *)
Record file := F { op : bool; cl : bool; dn : bool; refs : Z; fd : bool }.

(** fio.h:239-242, 490-492. *)
Record td := Td { files : list file; nopen : Z; ndone : Z; next : nat; cur : option nat; left_ : Z }.

Fixpoint upd {A} (l : list A) (i : nat) (x : A) : list A :=
  match l, i with
  | [], _ => []
  | _ :: l', O => x :: l'
  | y :: l', S i' => y :: upd l' i' x
  end.

Definition setf (s : td) (i : nat) (f : file) (o : Z) : td :=
  Td (upd (files s) i f) o (ndone s) (next s) (cur s) (left_ s).

(** filesetup.c:1963-1968 [get_file]; [None] is a failing assertion or an access out of bounds. *)
Definition get_file (s : td) (i : nat) : option td :=
  match nth_error (files s) i with
  | None => None
  | Some f => if op f then Some (setf s i (F true (cl f) (dn f) (refs f + 1) (fd f)) (nopen s)) else None
  end.

(** filesetup.c:1970-2007 [put_file]. *)
Definition put_file (s : td) (i : nat) : option td :=
  match nth_error (files s) i with
  | None => None
  | Some f =>
    if op f then
      if refs f =? 0 then None
      else if refs f - 1 =? 0 then Some (setf s i (F false false (dn f) 0 false) (nopen s - 1))
      else Some (setf s i (F true (cl f) (dn f) (refs f - 1) (fd f)) (nopen s))
    else Some s
  end.

(** ioengines.c:644-655 [td_io_close_file]. *)
Definition close_file (s : td) (i : nat) : option td :=
  match nth_error (files s) i with
  | None => None
  | Some f => put_file (setf s i (F (op f) true (dn f) (refs f) (fd f)) (nopen s)) i
  end.

(** What comes of opening a file: it is open; the engine could not open it; it was opened, but what
    came after failed (ioengines.c:636-641). *)
Inductive opening := Opened | Refused | Half.

(** ioengines.c:529-641 [td_io_open_file], with whether it reports an error. *)
Definition open_file (s : td) (i : nat) (o : opening) : option (td * bool) :=
  match nth_error (files s) i with
  | None => None
  | Some f =>
    if cl f then
      match get_file (setf s i (F (op f) false (dn f) (refs f) (fd f)) (nopen s)) i with
      | Some s' => Some (s', false)
      | None => None
      end
    else if op f then None
    else match o with
         | Refused => Some (s, true)
         | Opened => Some (setf s i (F true false (dn f) (refs f + 1) true) (nopen s + 1), false)
         | Half => Some (setf s i (F true false (dn f) (refs f + 1) false) (nopen s + 1), true)
         end
  end.

(** The file to use; none; [-EBUSY]; the inputs do not reach to the end of the choice. *)
Inductive pick := File (i : nat) | Nothing | Busy | Hungry.

(** The draw of a file, and what comes of opening it. *)
Definition input : Type := nat * opening.

(** io_u.c:1419-1438, 1463-1488: one file is tried; [inl]: the choice ends, [inr]: try the next. *)
Definition try (c : cfg) (s : td) (i : nat) (ins : list input) : option ((td * pick) + (td * list input)) :=
  match nth_error (files s) i with
  | None => None
  | Some f =>
    if dn f then Some (inr (s, ins))
    else if op f then
      if cl f then Some (inr (s, ins)) else Some (inl (s, File i))
    else if limit c <=? nopen s then Some (inl (s, Busy))
    else match ins with
         | [] => Some (inl (s, Hungry))
         | (_, o) :: ins' =>
           match open_file s i o with
           | None => None
           | Some (s', true) => Some (inr (s', ins'))
           | Some (s', false) =>
             match nth_error (files s') i with
             | None => None
             | Some f' =>
               if op f' && negb (cl f') then Some (inl (s', File i))
               else match close_file s' i with Some s'' => Some (inr (s'', ins')) | None => None end
             end
           end
         end
  end.

Definition advance (c : cfg) (s : td) : td :=
  Td (files s) (nopen s) (ndone s) (if (nr c <=? S (next s))%nat then O else S (next s)) (cur s) (left_ s).

(** io_u.c:1443-1493 [get_next_file_rr]; [n] bounds the rounds of the loop. *)
Fixpoint rr (n : nat) (c : cfg) (s : td) (old : nat) (ins : list input) : option (td * pick) :=
  match n with
  | O => Some (s, Hungry)
  | S n' =>
    match try c (advance c s) (next s) ins with
    | None => None
    | Some (inl r) => Some r
    | Some (inr (s', ins')) => if (next s' =? old)%nat then Some (s', Nothing) else rr n' c s' old ins'
    end
  end.

(** io_u.c:1372-1441 [get_next_file_rand]: the draws are inputs. *)
Fixpoint rand (c : cfg) (s : td) (ins : list input) : option (td * pick) :=
  match ins with
  | [] => Some (s, Hungry)
  | x :: ins' =>
    match try c s (fst x) [x] with
    | None => None
    | Some (inl r) => Some r
    | Some (inr (s', _)) => rand c s' ins'
    end
  end.

(** io_u.c:1379-1383: a uniform draw, with a generator of 32 and of 64 bits; the quotients are
    exact, as the divisors are 2^32 and (after rounding) 2^64. *)
Definition draw32 (files r : Z) : Z := rne53 (files * r) / 2 ^ 32.
Definition draw64 (files r : Z) : Z := rne53 (files * rne53 r) / 2 ^ 64.

(** io_u.c:1397, init.c:1149: a skewed draw is among [nr_files << 10] values. *)
Definition draw_skewed (v : Z) : Z := Z.shiftr v 10.

Definition usable (s : td) (i : nat) : bool :=
  match nth_error (files s) i with Some f => op f && negb (cl f) | None => false end.

(** io_u.c:1495-1536 [__get_next_file]. *)
Definition get_next_file (c : cfg) (s : td) (ins : list input) : option (td * pick) :=
  let choose :=
    match (match knd c with
           | RR | Seq => rr (nr c) c s (next s) ins
           | Uniform | Skewed => rand c s ins
           end) with
    | None => None
    | Some (s', p) =>
      let l := u32 (serve c - 1) in
      match p with
      | File i => Some (Td (files s') (nopen s') (ndone s') (next s') (Some i) l, p)
      | Nothing => Some (Td (files s') (nopen s') (ndone s') (next s') None l, p)
      | _ => Some (s', p)
      end
    end in
  if Z.of_nat (nr c) <=? ndone s then Some (s, Nothing)
  else match cur s with
       | Some i =>
         if usable s i then
           match knd c with
           | Seq => Some (s, File i)
           | _ => if left_ s =? 0 then choose
                  else Some (Td (files s) (nopen s) (ndone s) (next s) (cur s) (left_ s - 1), File i)
           end
         else choose
       | None => choose
       end.

(** io_u.c:1543-1580 [set_io_u_file], one round of its loop; [fits]: [fill_io_u] found an offset. *)
Definition ask (c : cfg) (s : td) (ins : list input) (fits : bool) : option (td * pick) :=
  match get_next_file c s ins with
  | None => None
  | Some (s1, File i) =>
    match get_file s1 i with
    | None => None
    | Some s2 =>
      if fits then Some (s2, File i)
      else
        match put_file s2 i with
        | None => None
        | Some s3 =>
          match close_file s3 i with
          | None => None
          | Some s4 =>
            match knd c with
            | Skewed => Some (s4, Nothing)
            | _ =>
              match nth_error (files s4) i with
              | None => None
              | Some f => Some (Td (upd (files s4) i (F (op f) (cl f) true (refs f) (fd f))) (nopen s4)
                                   (ndone s4 + 1) (next s4) (cur s4) (left_ s4), Nothing)
              end
            end
          end
        end
    end
  | Some r => Some r
  end.

(** verify.c:1479-1489 (and trim.c:48-57): a written block is to be read back. *)
Definition again (s : td) (i : nat) (o : opening) : option (td * pick) :=
  match nth_error (files s) i with
  | None => None
  | Some f =>
    if op f then match get_file s i with Some s' => Some (s', File i) | None => None end
    else match open_file s i o with
         | None => None
         | Some (s', true) => Some (s', Nothing)
         | Some (s', false) => match get_file s' i with Some s'' => Some (s'', File i) | None => None end
         end
  end.

(** Before a job starts. *)
Definition start (c : cfg) : td := Td (repeat (F false false false 0 false) (nr c)) 0 0 0 None 0.
