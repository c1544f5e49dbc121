(** A reader of JSON texts after RFC 8259, for C42: values, and a function that reads a value and returns the rest of the text. *)
From Coq Require Import ZArith List Bool.
From Verif Require Import JsonModel.
Import ListNotations.
Open Scope Z_scope.

(** Numbers are m * 10^e. *)
Inductive json := Jstring (s : list Z) | Jnumber (m e : Z) | Jobject (l : list (list Z * json)) | Jarray (l : list json) | Jtrue | Jfalse | Jnull.

Definition is_ws (c : Z) : bool := (c =? 32) || (c =? 9) || (c =? 10) || (c =? 13).
Fixpoint skipws (s : list Z) : list Z := match s with c :: t => if is_ws c then skipws t else s | [] => [] end.
(** Section 7, without the form \uXXXX, which is refused. The opening quote has been read. *)
Definition unescape (c : Z) : option Z :=
  if (c =? 34) || (c =? 92) || (c =? 47) then Some c else if c =? 98 then Some 8 else if c =? 102 then Some 12
  else if c =? 110 then Some 10 else if c =? 114 then Some 13 else if c =? 116 then Some 9 else None.
Fixpoint read_string (s : list Z) : option (list Z * list Z) :=
  match s with
  | [] => None
  | c :: t =>
      if c =? 34 then Some ([], t)
      else if c =? 92 then
        match t with
        | e :: t => match unescape e, read_string t with Some x, Some (l, r) => Some (x :: l, r) | _, _ => None end
        | [] => None
        end
      else if c <? 32 then None
      else match read_string t with Some (l, r) => Some (c :: l, r) | None => None end
  end.
(** Section 6. *)
Definition is_dig (c : Z) : bool := (48 <=? c) && (c <=? 57).
Fixpoint read_digits (acc count : Z) (s : list Z) : Z * Z * list Z :=
  match s with c :: t => if is_dig c then read_digits (acc * 10 + (c - 48)) (count + 1) t else (acc, count, s) | [] => (acc, count, s) end.
Definition read_int (s : list Z) : option (Z * list Z) :=
  match s with
  | c :: t => if c =? 48 then (match t with d :: _ => if is_dig d then None else Some (0, t) | [] => Some (0, t) end)
              else if is_dig c then let '(n, _, r) := read_digits 0 0 s in Some (n, r) else None
  | [] => None
  end.
Definition read_frac (n : Z) (s : list Z) : option (Z * Z * list Z) :=
  match s with
  | c :: t => if c =? 46 then let '(m, k, r) := read_digits n 0 t in if k =? 0 then None else Some (m, - k, r) else Some (n, 0, s)
  | [] => Some (n, 0, s)
  end.
Definition read_exp (s : list Z) : option (Z * list Z) :=
  match s with
  | c :: t =>
      if (c =? 101) || (c =? 69) then
        let '(neg, t) := match t with d :: u => if d =? 45 then (true, u) else if d =? 43 then (false, u) else (false, t) | [] => (false, t) end in
        let '(n, k, r) := read_digits 0 0 t in if k =? 0 then None else Some (if neg : bool then - n else n, r)
      else Some (0, s)
  | [] => Some (0, s)
  end.
Definition read_number (s : list Z) : option (json * list Z) :=
  let '(neg, s) := match s with c :: t => if c =? 45 then (true, t) else (false, s) | [] => (false, s) end in
  match read_int s with
  | None => None
  | Some (n, s) =>
      match read_frac n s with
      | None => None
      | Some (m, e, s) => match read_exp s with None => None | Some (x, r) => Some (Jnumber (if neg : bool then - m else m) (e + x), r) end
      end
  end.
Fixpoint strip (lit s : list Z) : option (list Z) :=
  match lit, s with [], _ => Some s | a :: l, b :: t => if a =? b then strip l t else None | _ :: _, [] => None end.
(** Sections 3 to 5; [f] bounds the depth of the recursion. *)
Fixpoint read_value (f : nat) (s : list Z) {struct f} : option (json * list Z) :=
  match f with
  | O => None
  | S f =>
      match skipws s with
      | [] => None
      | c :: t =>
          if c =? 34 then match read_string t with Some (x, r) => Some (Jstring x, r) | None => None end
          else if c =? 123 then
            match skipws t with
            | d :: r => if d =? 125 then Some (Jobject [], r) else match read_members f t with Some (l, r) => Some (Jobject l, r) | None => None end
            | [] => None
            end
          else if c =? 91 then
            match skipws t with
            | d :: r => if d =? 93 then Some (Jarray [], r) else match read_elements f t with Some (l, r) => Some (Jarray l, r) | None => None end
            | [] => None
            end
          else if c =? 116 then match strip [114; 117; 101] t with Some r => Some (Jtrue, r) | None => None end
          else if c =? 102 then match strip [97; 108; 115; 101] t with Some r => Some (Jfalse, r) | None => None end
          else if c =? 110 then match strip [117; 108; 108] t with Some r => Some (Jnull, r) | None => None end
          else read_number (c :: t)
      end
  end
with read_members (f : nat) (s : list Z) {struct f} : option (list (list Z * json) * list Z) :=
  match f with
  | O => None
  | S f =>
      match skipws s with
      | [] => None
      | c :: t =>
          if negb (c =? 34) then None
          else match read_string t with
               | None => None
               | Some (n, r) =>
                   match skipws r with
                   | [] => None
                   | c :: r =>
                       if negb (c =? 58) then None
                       else match read_value f r with
                            | None => None
                            | Some (x, r) =>
                                match skipws r with
                                | [] => None
                                | c :: r =>
                                    if c =? 125 then Some ([(n, x)], r)
                                    else if c =? 44 then match read_members f r with Some (l, r) => Some ((n, x) :: l, r) | None => None end
                                    else None
                                end
                            end
                   end
               end
      end
  end
with read_elements (f : nat) (s : list Z) {struct f} : option (list json * list Z) :=
  match f with
  | O => None
  | S f =>
      match read_value f s with
      | None => None
      | Some (x, r) =>
          match skipws r with
          | [] => None
          | c :: r =>
              if c =? 93 then Some ([x], r)
              else if c =? 44 then match read_elements f r with Some (l, r) => Some (x :: l, r) | None => None end
              else None
          end
      end
  end.
(** A whole text: one value and white space. *)
Definition read (s : list Z) : option json :=
  match read_value (S (length s)) s with Some (v, r) => match skipws r with [] => Some v | _ => None end | None => None end.

(** What a value of the report means. *)
Fixpoint meaning (v : value) : json :=
  match v with
  | VStr s => Jstring s
  | VInt n => Jnumber n 0
  | VFlo (Fin neg m) => Jnumber (if neg then - m else m) (-6)
  | VFlo _ => Jnull
  | VObj ps => Jobject (map (fun '(n, x) => (n, meaning x)) ps)
  | VArr vs => Jarray (map meaning vs)
  end.
(** The values of the claim: strings without control characters, names in which nothing needs an escape, finite numbers. *)
Fixpoint plain (v : value) : Prop :=
  match v with
  | VStr s => Forall (fun c => 32 <= c) s
  | VInt n => True
  | VFlo (Fin neg m) => 0 <= m
  | VFlo _ => False
  | VObj ps => fold_right (fun '(n, x) rest => Forall (fun c => 32 <= c /\ c <> 34 /\ c <> 92) n /\ plain x /\ rest) True ps
  | VArr vs => fold_right (fun x rest => plain x /\ rest) True vs
  end.
