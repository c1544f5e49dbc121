(** Model of the merging of block traces: [blktrace.c].

    Simplifications:
    - a trace file is a list of records; a record is what fio replays or is skipped (its action is
      not QUEUE or it has no direction), has a time, the length of its payload, and a body;
    - reading from the middle of a payload, and using a cursor that was never filled in, is [None];
    - files open and records are read without I/O errors;
    - scale factors and numbers of rounds are integers. *)
From Coq Require Import ZArith List Lia Bool.
From Verif Require Import CBase.
Import ListNotations.
Open Scope Z_scope.

Record rec := Rec { useful : bool; time : Z; pdu : Z; body : Z }.

(** blktrace.h:11-20 [struct blktrace_cursor]; [rest] is what is left of [file]; [rewound]: the file is
    at its start again, and [t] is from its end. *)
Record cursor := Cur { file : list rec; rest : list rec; rewound : bool; t : rec; scalar : Z; nr_iter : Z; iter : Z; len : Z }.

(** blktrace.c:606-626 [init_merge_param_list]. *)
Fixpoint count_vals (vals : list Z) : list Z :=
  match vals with [] => [] | v :: l => if v =? 0 then [] else v :: count_vals l end.
Definition params (vals : list Z) (n : nat) (def : Z) : option (list Z) :=
  let l := count_vals vals in
  match l with
  | [] => Some (repeat def n)
  | _ => if (length l =? n)%nat then Some l else None
  end.

(** blktrace.c:694, in [__u64]. *)
Definition scaled (c : cursor) (x : Z) : Z := u64 (u64 (x + u64 (iter c * len c)) * u64 (scalar c)) / 100.

(** blktrace.c:660-697 [read_trace]: whether there was a record. *)
Fixpoint read_rest (l : list rec) (c : cursor) : cursor * bool :=
  match l with
  | [] => (Cur (file c) [] false (t c) (scalar c) (nr_iter c) (iter c) (if len c =? 0 then time (t c) else len c), false)
  | r :: l' =>
    if useful r then (Cur (file c) l' false (Rec true (scaled c (time r)) (pdu r) (body r)) (scalar c) (nr_iter c) (iter c) (len c), true)
    else read_rest l' (Cur (file c) l' false r (scalar c) (nr_iter c) (iter c) (len c))
  end.
Definition read_trace (c : cursor) : cursor * bool := read_rest (rest c) c.

(** blktrace.c:628-641 [find_earliest_io]. *)
Fixpoint earliest_from (cs : list cursor) (i : nat) (best : Z) (idx : nat) : nat :=
  match cs with
  | [] => idx
  | c :: l => if time (t c) <? best then earliest_from l (S i) (time (t c)) i else earliest_from l (S i) best idx
  end.
Definition earliest (cs : list cursor) : nat := earliest_from cs 0 (2 ^ 64 - 1) 0.

Fixpoint upd {A} (l : list A) (i : nat) (x : A) : list A :=
  match l, i with
  | [], _ => []
  | _ :: l', O => x :: l'
  | y :: l', S i' => y :: upd l' i' x
  end.

(** blktrace.c:643-658 [merge_finish_file]: the last file takes the place of one that has ended. *)
Definition finish (cs : list cursor) (i : nat) (c : cursor) : list cursor :=
  let c' := Cur (file c) (rest c) (rewound c) (t c) (scalar c) (nr_iter c) (iter c + 1) (len c) in
  if iter c' <? nr_iter c' then upd cs i (Cur (file c) (file c) true (t c) (scalar c) (nr_iter c) (iter c + 1) (len c))
  else match rev cs with
       | [] => []
       | x :: _ => removelast (upd cs i x)
       end.

(** blktrace.c:699-704 [write_trace]. *)
Definition written (r : rec) : rec := Rec (useful r) (time r) 0 (body r).

(** blktrace.c:773-793: the loop of [merge_blktrace_iologs], at most [n] rounds. *)
Fixpoint merge (n : nat) (cs : list cursor) : option (list rec) :=
  match cs with
  | [] => Some []
  | _ =>
    match n with
    | O => None
    | S n' =>
      let i := earliest cs in
      match nth_error cs i with
      | None => None
      | Some c =>
        if rewound c && negb (pdu (t c) =? 0) then None
        else
          let w := written (t c) in
          let c1 := Cur (file c) (rest c) (rewound c) w (scalar c) (nr_iter c) (iter c) (len c) in
          let (c2, got) := read_trace c1 in
          match merge n' (if got then upd cs i c2 else finish cs i c2) with
          | Some out => Some (w :: out)
          | None => None
          end
      end
    end
  end.

(** blktrace.c:743-771: files are opened one after the other. A file without a record to replay gives
    its place, with what is there, to the next one. [blank]: what memory held. *)
Fixpoint setup (files : list (list rec)) (slots : list cursor) (done : list cursor) : option (list cursor) :=
  match files, slots with
  | [], _ => Some done
  | f :: files', c :: slots' =>
    let (c', got) := read_trace (Cur f f false (t c) (scalar c) (nr_iter c) (iter c) (len c)) in
    if got then setup files' slots' (done ++ [c'])
    else
      let c'' := Cur f [] false (t c') (scalar c') (nr_iter c') (iter c' + 1) (len c') in
      if iter c'' <? nr_iter c'' then None
      else setup files' (c'' :: slots') done
  | _, [] => None
  end.

(** blktrace.c:706-811 [merge_blktrace_iologs]; the cursors come from malloc: [iter0] and [len0] are
    what memory held. *)
Definition merge_logs (n : nat) (iter0 len0 : Z) (scalars iters : list Z) (files : list (list rec)) : option (list rec) :=
  match params scalars (length files) 100, params iters (length files) 1 with
  | Some ss, Some ns =>
    let slots := map (fun p => Cur [] [] false (Rec false 0 0 0) (fst p) (snd p) iter0 len0) (combine ss ns) in
    match setup files slots [] with
    | Some cs => merge n cs
    | None => None
    end
  | _, _ => None
  end.
