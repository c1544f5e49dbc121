(** What the choice of files is to do. *)
From Coq Require Import ZArith List Lia Bool.
From Verif Require Import CBase FloatZ FselModel.
Import ListNotations.
Open Scope Z_scope.

(** I/Os in flight for each file. *)
Definition flight := nat -> Z.
Definition more (fl : flight) (i : nat) (d : Z) : flight := fun j => if (j =? i)%nat then fl j + d else fl j.

(** How many files have a flag. *)
Definition howmany (p : file -> bool) (l : list file) : Z := Z.of_nat (length (filter p l)).

(** Draws are files of the job. *)
Definition drawn (c : cfg) (ins : list input) : Prop := Forall (fun x => (fst x < nr c)%nat) ins.

(** The states a job can get to: it asks for files, its I/Os end, and it reads blocks back (only if
    [verify]); [half] are the outcomes of openings that occur. *)
Definition outcomes := opening -> Prop.
Inductive reach (c : cfg) (verify : bool) (half : outcomes) : td -> flight -> Prop :=
| R_start : reach c verify half (start c) (fun _ => 0)
| R_ask s fl ins fits s' p : reach c verify half s fl -> drawn c ins -> Forall (fun x => half (snd x)) ins ->
    ask c s ins fits = Some (s', p) -> p <> Hungry ->
    reach c verify half s' (match p with File i => more fl i 1 | _ => fl end)
| R_end s fl i s' : reach c verify half s fl -> 0 < fl i -> put_file s i = Some s' ->
    reach c verify half s' (more fl i (-1))
| R_again s fl i o s' p : reach c verify half s fl -> verify = true -> (i < nr c)%nat -> half o ->
    again s i o = Some (s', p) ->
    reach c verify half s' (match p with File _ => more fl i 1 | _ => fl end).

(** A file has one reference for each I/O in flight, and one more while it is open for use; it is
    open as long as there are references. *)
Definition file_ok (f : file) (n : Z) : Prop :=
  0 <= n /\ refs f = n + (if op f && negb (cl f) then 1 else 0) /\ (op f = true <-> 0 < refs f) /\ (cl f = true -> op f = true).

(** Successive requests whose I/Os all find an offset. *)
Fixpoint asks (n : nat) (c : cfg) (s : td) : list pick :=
  match n with
  | O => []
  | S n' => match ask c s [] true with Some (s', p) => p :: asks n' c s' | None => [] end
  end.

(** Requests for a file until the answer is not [Busy]. *)
Fixpoint tries (n : nat) (c : cfg) (s : td) (ins : list input) : option (td * pick) :=
  match n with
  | O => Some (s, Busy)
  | S n' => match get_next_file c s ins with Some (s', Busy) => tries n' c s' ins | r => r end
  end.
