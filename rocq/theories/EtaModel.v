(** Model of the strings of the status line: eta.c:19-155 and 738-743.

    Simplifications: strings are lists of character codes without the NUL at their end; the letters of all jobs are given as a list. *)
From Coq Require Import ZArith List Bool.
From Verif Require Import CBase.
Import ListNotations.
Open Scope Z_scope.

(** printf's %u. *)
Fixpoint pr (k : nat) (n : Z) : list Z := match k with O => [] | S k' => (if n <? 10 then [] else pr k' (n / 10)) ++ [48 + n mod 10] end.
Definition pu (n : Z) : list Z := pr 10 (u32 n).
(** printf's %02u. *)
Definition pu2 (n : Z) : list Z := if u32 n <? 10 then 48 :: pu n else pu n.

(** eta.c:19-35: the loop, inside a run of [nr] letters [c]. *)
Fixpoint condense (l : list Z) (c nr : Z) : list Z :=
  match l with
  | [] => c :: 40 :: pu nr ++ [41; 44]
  | x :: l' => if c =? x then condense l' c (nr + 1) else c :: 40 :: pu nr ++ 41 :: 44 :: condense l' x 1
  end.
Definition condensed (l : list Z) : list Z := match l with [] => [] | c :: l' => removelast (condense l' c 1) end.

(** Runstates of fio.h:635-652 that are shown. *)
Inductive runstate := NotCreated | Created | Initialized | SettingUp | Ramp | Running | PreReading | Verifying | Fsyncing | Finishing | Exited | Reaped.
Record td := Td { rs : runstate; err : bool; sig : bool; rd : bool; wr : bool; random : bool; mix_read : Z; mix_write : Z }.
(** eta.c:40-117. *)
Definition letter (t : td) : Z :=
  match rs t with
  | Reaped => if err t then 88 else if sig t then 75 else 95
  | Exited => 69
  | Ramp => 47
  | Running =>
    if rd t && wr t then
      if random t then if mix_read t =? 100 then 114 else if mix_write t =? 100 then 119 else 109
      else if mix_read t =? 100 then 82 else if mix_write t =? 100 then 87 else 77
    else if rd t then if random t then 114 else 82
    else if wr t then if random t then 119 else 87
    else if random t then 100 else 68
  | PreReading => 112
  | Verifying => 86
  | Fsyncing => 70
  | Finishing => 102
  | Created => 67
  | Initialized | SettingUp => 73
  | NotCreated => 80
  end.

(** eta.c:126-155. *)
Definition eta_to_str (eta : Z) : list Z :=
  if eta =? 2 ^ 64 - 1 then [45; 45]
  else
    let s := eta mod 60 in let e := eta / 60 in
    let m := e mod 60 in let e := e / 60 in
    let h := e mod 24 in let d := u32 (e / 24) in
    (if d =? 0 then [] else pu2 d ++ [100; 58]) ++ (if (h =? 0) && (d =? 0) then [] else pu2 h ++ [104; 58]) ++ pu2 m ++ [109; 58] ++ pu2 s ++ [115].
