(** Model of the reading of numbers with unit suffixes, parse.c:159-414. A string is the list of its character codes without the final
    NUL. Left out: expressions in parentheses (evaluate_arithmetic_expression, parse.c:363-374), so the model describes the strings that
    do not start with an opening parenthesis; characters are those of the C locale. *)
From Coq Require Import ZArith List Bool String Ascii.
From Verif Require Import CBase CStr.
Import ListNotations.
Open Scope Z_scope.

(** The characters of a literal. *)
Fixpoint chars (s : string) : list Z := match s with EmptyString => [] | String c s => Z.of_nat (nat_of_ascii c) :: chars s end.
Definition isalpha (c : Z) : bool := ((65 <=? c) && (c <=? 90)) || ((97 <=? c) && (c <=? 122)).
Definition isspace (c : Z) : bool := (c =? 32) || ((9 <=? c) && (c <=? 13)).
Definition tolower (c : Z) : Z := if (65 <=? c) && (c <=? 90) then c + 32 else c.
(** strncmp(lit, s, strlen(lit)) == 0 *)
Fixpoint starts (lit s : list Z) : bool :=
  match lit, s with [], _ => true | a :: l, b :: t => (a =? b) && starts l t | _ :: _, [] => false end.
(** strcmp(lit, s) == 0 *)
Fixpoint same (a b : list Z) : bool := match a, b with [], [] => true | x :: a, y :: b => (x =? y) && same a b | _, _ => false end.
(** strstr(s, lit) != NULL *)
Fixpoint has (lit s : list Z) : bool := starts lit s || match s with [] => false | _ :: t => has lit t end.
(** The conversion of unsigned long long to long long. *)
Definition s64 (z : Z) : Z := if u64 z <? 2 ^ 63 then u64 z else u64 z - 2 ^ 64.

(** strtoll, C11 7.22.1.4, for the bases 10 and 16: value, number of characters consumed (0 when there is no number), and whether the
    value was out of range and therefore limited. *)
Definition hexdigit (c : Z) : bool := digit c || ((65 <=? c) && (c <=? 70)) || ((97 <=? c) && (c <=? 102)).
Definition hval (c : Z) : Z := if digit c then c - 48 else tolower c - 87.
Definition nval (base : Z) (ds : list Z) : Z := fold_left (fun a c => a * base + hval c) ds 0.
Definition strtoll (s : list Z) (base : Z) : Z * bool * bool :=
  let s := snd (span isspace s) in
  let '(neg, s) := match s with c :: t => if c =? 45 then (true, t) else if c =? 43 then (false, t) else (false, s) | [] => (false, s) end in
  let s := match s with
           | z :: x :: d :: t => if (base =? 16) && (z =? 48) && (tolower x =? 120) && hexdigit d then d :: t else s
           | _ => s
           end in
  let ds := fst (span (if base =? 16 then hexdigit else digit) s) in
  let v := nval base ds in
  let v := if neg then - v else v in
  match ds with
  | [] => (0, false, false)
  | _ => if v <? - 2 ^ 63 then (- 2 ^ 63, true, true) else if 2 ^ 63 - 1 <? v then (2 ^ 63 - 1, true, true) else (v, true, false)
  end.

(** get_mult_time, parse.c:159-202. *)
Fixpoint skip_time (s : list Z) : list Z :=
  match s with c :: t => if negb (digit c) && negb (c =? 43) && negb (c =? 45) then s else skip_time t | [] => [] end.
Definition get_mult_time (s : list Z) (is_seconds : bool) : Z :=
  let p := skip_time s in
  match p with
  | c :: _ =>
      if negb (isalpha c) then if is_seconds then 1000000 else 1
      else
        let c := map tolower p in
        if starts (chars "us") c || starts (chars "usec") c then 1
        else if starts (chars "ms") c || starts (chars "msec") c then 1000
        else if same (chars "s") c then 1000000
        else if same (chars "m") c then 60 * 1000000
        else if same (chars "h") c then 60 * 60 * 1000000
        else if same (chars "d") c then 24 * 60 * 60 * 1000000
        else 1
  | [] => if is_seconds then 1000000 else 1
  end.

(** is_separator, parse.c:204-215. *)
Definition is_separator (c : Z) : bool := (c =? 58) || (c =? 45) || (c =? 44) || (c =? 47).
(** The lower-case copy up to the first separator, parse.c:228-236. *)
Fixpoint lower_cut (s : list Z) : list Z :=
  match s with c :: t => let c := tolower c in if is_separator c then [] else c :: lower_cut t | [] => [] end.
(** while (pow--) ret *= mult, parse.c:287-288. *)
Fixpoint powm (pow : nat) (mult ret : Z) : Z := match pow with O => ret | S n => powm n mult (u64 (ret * mult)) end.
(** __get_mult_bytes, parse.c:217-292, with kb_base already fetched: the multiplier, and whether the number is a percentage. *)
Definition opposite (kb_base : Z) : Z := if kb_base =? 1000 then 1024 else if kb_base =? 1024 then 1000 else kb_base.
Definition get_mult_bytes_ (p : option (list Z)) (kb_base : Z) : Z * bool :=
  match p with
  | None => (1, false)
  | Some p =>
      let c := lower_cut p in
      if starts (chars "pib") c then (powm 5 (opposite kb_base) 1, false)
      else if starts (chars "tib") c then (powm 4 (opposite kb_base) 1, false)
      else if starts (chars "gib") c then (powm 3 (opposite kb_base) 1, false)
      else if starts (chars "mib") c then (powm 2 (opposite kb_base) 1, false)
      else if starts (chars "kib") c then (powm 1 (opposite kb_base) 1, false)
      else if starts (chars "p") c || starts (chars "pb") c then (powm 5 kb_base 1, false)
      else if starts (chars "t") c || starts (chars "tb") c then (powm 4 kb_base 1, false)
      else if starts (chars "g") c || starts (chars "gb") c then (powm 3 kb_base 1, false)
      else if starts (chars "m") c || starts (chars "mb") c then (powm 2 kb_base 1, false)
      else if starts (chars "k") c || starts (chars "kb") c then (powm 1 kb_base 1, false)
      else if starts (chars "%") c then (1, true)
      else (1, false)
  end.
(** get_mult_bytes, parse.c:294-318. *)
Fixpoint skip_bytes (seen : bool) (s : list Z) : list Z :=
  match s with
  | c :: t => if negb (digit c) && ((negb (c =? 43) && negb (c =? 45)) || seen) then s else skip_bytes (seen || digit c) t
  | [] => []
  end.
Definition get_mult_bytes (s : list Z) (kb_base : Z) : Z * bool :=
  if Z.of_nat (List.length s) <? 2 then get_mult_bytes_ (Some s) kb_base
  else
    match skip_bytes false s with
    | c :: t => get_mult_bytes_ (if negb (isalpha c) && negb (c =? 37) then None else Some (c :: t)) kb_base
    | [] => get_mult_bytes_ None kb_base
    end.
(** fio_get_kb_base, options.c:6279-6300, for options of the job itself. *)
Definition fio_get_kb_base (o_kb_base : Z) : Z := if o_kb_base =? 0 then 1024 else o_kb_base.

(** str_to_decimal, parse.c:348-404; [stale] says that errno was ERANGE before the call, which nothing resets. None is the error return. *)
Definition str_to_decimal (s : list Z) (kilo : bool) (kb_base : Z) (is_seconds stale : bool) : option Z :=
  match s with
  | [] => None
  | _ =>
      let base := if has (chars "0x") s || has (chars "0X") s then 16 else 10 in
      let '(v, any, erange) := strtoll s base in
      if (v =? 0) && negb any then None
      else if (v =? 2 ^ 63 - 1) && (erange || stale) then None
      else if kilo then
        let '(mult, perc) := get_mult_bytes s kb_base in
        if perc then Some (s64 (-1 - v)) else Some (s64 (v * mult))
      else Some (s64 (v * get_mult_time s is_seconds))
  end.
(** check_str_bytes and check_str_time, parse.c:406-414. *)
Definition check_str_bytes (s : list Z) (o_kb_base : Z) (stale : bool) : option Z := str_to_decimal s true (fio_get_kb_base o_kb_base) false stale.
Definition check_str_time (s : list Z) (is_seconds stale : bool) : option Z := str_to_decimal s false 1024 is_seconds stale.
