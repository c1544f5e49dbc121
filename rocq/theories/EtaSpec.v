(** Readers of the status line, for C59. *)
From Coq Require Import ZArith List.
Import ListNotations.
Open Scope Z_scope.

Definition is_digit (c : Z) : bool := (48 <=? c) && (c <=? 57).
(** Reading "c(n),c(n)": a letter, its number, and what separates them. *)
Inductive place := Start | Letter (c : Z) | Number (c n : Z) | After.
Fixpoint expand (l : list Z) (p : place) : option (list Z) :=
  match l with
  | [] => match p with After => Some [] | _ => None end
  | x :: l' =>
    match p with
    | Start => expand l' (Letter x)
    | Letter c => if x =? 40 then expand l' (Number c 0) else None
    | Number c n =>
      if is_digit x then expand l' (Number c (n * 10 + (x - 48)))
      else if x =? 41 then match expand l' After with Some r => Some (repeat c (Z.to_nat n) ++ r) | None => None end else None
    | After => if x =? 44 then expand l' Start else None
    end
  end.
(** Reading "01d:02h:03m:04s": numbers with units, [n] is the number so far and [t] the seconds before. *)
Fixpoint seconds (l : list Z) (n t : Z) : Z :=
  match l with
  | [] => t
  | c :: l' =>
    if is_digit c then seconds l' (n * 10 + (c - 48)) t
    else if c =? 100 then seconds l' 0 (t + n * 86400)
    else if c =? 104 then seconds l' 0 (t + n * 3600)
    else if c =? 109 then seconds l' 0 (t + n * 60)
    else if c =? 115 then seconds l' 0 (t + n)
    else seconds l' 0 t
  end.
