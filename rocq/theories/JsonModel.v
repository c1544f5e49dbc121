(** Model of the JSON writer, json.c:53-74 and 272-381. Strings are lists of character codes without the final NUL. Left out: failing
    allocations, and the parent pointers, whose only use is the nesting level (json.c:276-302): the level is handed down instead. *)
From Coq Require Import ZArith List Bool.
From Verif Require Import CBase CStr.
Import ListNotations.
Open Scope Z_scope.

(** A double as the conversion f of printf sees it (C11 7.21.6.1): a sign and the magnitude rounded to millionths, or infinity, or a NaN. *)
Inductive dbl := Fin (neg : bool) (millionths : Z) | Inf (neg : bool) | NaN (neg : bool).
(** struct json_value with its object or array, json.h:12-49. *)
Inductive value :=
| VStr (s : list Z)
| VInt (n : Z)
| VFlo (d : dbl)
| VObj (ps : list (list Z * value))
| VArr (vs : list value).

(** strdup_escape, json.c:53-74. First the count of characters to escape, backslash and double quote, found by strpbrk; then the copy into a block of
    strlen(str) + escapes + 1 bytes; None is a write outside the block. *)
Definition special (c : Z) : bool := (c =? 92) || (c =? 34).
Fixpoint escapes (s : list Z) : Z := match s with [] => 0 | c :: t => (if special c then 1 else 0) + escapes t end.
Fixpoint escape_copy (s : list Z) : list Z :=
  match s with [] => [] | c :: t => (if (c =? 92) || (c =? 34) then [92; c] else [c]) ++ escape_copy t end.
Definition strdup_escape (s : list Z) : option (list Z) :=
  let room := Z.of_nat (length s) + escapes s + 1 in
  let p := escape_copy s in
  if Z.of_nat (length p) + 1 <=? room then Some p else None.

(** printf conversions lld and f. *)
Definition fmt_lld (n : Z) : list Z := if n <? 0 then 45 :: dec (- n) else dec n.
Fixpoint padded (k : nat) (n : Z) : list Z := match k with O => [] | S k => padded k (n / 10) ++ [48 + n mod 10] end.
Definition fmt_f (d : dbl) : list Z :=
  match d with
  | Fin neg m => (if neg then [45] else []) ++ dec (m / 1000000) ++ [46] ++ padded 6 (m mod 1000000)
  | Inf neg => (if neg then [45] else []) ++ [105; 110; 102]
  | NaN neg => (if neg then [45] else []) ++ [110; 97; 110]
  end.
(** json_print_level, json.c:304-308. *)
Definition indent (level : nat) : list Z := repeat 32 (2 * level).
Definition obind {A B} (x : option A) (f : A -> option B) : option B := match x with Some a => f a | None => None end.
(** json_print_object, json_print_pair, json_print_array and json_print_value, json.c:313-381. *)
Fixpoint print_value (level : nat) (v : value) {struct v} : option (list Z) :=
  match v with
  | VStr s => obind (strdup_escape s) (fun e => Some (34 :: e ++ [34]))
  | VInt n => Some (fmt_lld n)
  | VFlo d => Some (fmt_f d)
  | VObj ps =>
      obind ((fix pairs (first : bool) (l : list (list Z * value)) : option (list Z) :=
                match l with
                | [] => Some []
                | (name, x) :: l =>
                    obind (print_value (S level) x) (fun a => obind (pairs false l) (fun b =>
                      Some ((if first then [] else [44; 10]) ++ indent (S level) ++ 34 :: name ++ [34; 32; 58; 32] ++ a ++ b)))
                end) true ps)
        (fun body => Some ([123; 10] ++ body ++ [10] ++ indent level ++ [125]))
  | VArr vs =>
      obind ((fix elems (first : bool) (l : list value) : option (list Z) :=
                match l with
                | [] => Some []
                | x :: l =>
                    obind (print_value (S level) x) (fun a => obind (elems false l) (fun b =>
                      Some ((if first then [] else [44; 10]) ++ indent (S level) ++ a ++ b)))
                end) true vs)
        (fun body => Some ([91; 10] ++ body ++ [10] ++ indent level ++ [93]))
  end.
(** json_print_object of the root, whose level is 0. *)
Definition json_print_object (ps : list (list Z * value)) : option (list Z) := print_value 0 (VObj ps).
