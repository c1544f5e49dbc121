(** What the write history should be: the set of the recorded writes, each not overwritten by a later one. *)
From Coq Require Import ZArith List Bool Sorting.Sorted.
Import ListNotations.
Open Scope Z_scope.

(** A recorded write. [edone]: the request completed; [etrim]: the range was trimmed later. *)
Record ent := mkE { eid : Z; efile : Z; eoff : Z; elen : Z; enum : Z; emark : Z; edone : bool; etrim : bool }.

(** Two writes touch a common byte. *)
Definition touch (a b : ent) : Prop :=
  efile a = efile b /\ exists k, eoff a <= k < eoff a + elen a /\ eoff b <= k < eoff b + elen b.
Definition touchb (a b : ent) : bool :=
  (efile a =? efile b) && (eoff a <? eoff b + elen b) && (eoff b <? eoff a + elen a).
(** Order of verification. *)
Definition before (a b : ent) : Prop := efile a < efile b \/ efile a = efile b /\ eoff a < eoff b.

(** What happens to a job: a write is issued and recorded, completes, fails (or is refused by the engine), is cut
    short; the verifier asks for a range to check; the trimmer asks for a range to trim. *)
Inductive ev :=
| Log (x file off len num mark : Z) (trim : bool)
| Done (x : Z) | Fail (x : Z) | Short (x n : Z)
| Next | Trim.
(** What the verifier or trimmer gets: file, offset, length, number, mark, trimmed. *)
Definition out := option (Z * Z * Z * Z * Z * bool).
Definition view (e : ent) : Z * Z * Z * Z * Z * bool := (efile e, eoff e, elen e, enum e, emark e, etrim e).

(** [recs]: the recorded writes; [fly]: requests in flight; [tq]: writes waiting to be trimmed, oldest first;
    [lost]: how often a write failed after a later write had already replaced it. *)
Record sst := mkT { recs : list ent; fly : list Z; tq : list Z; lost : Z }.
Definition sinit := mkT [] [] [] 0.
Definition ids (l : list ent) : list Z := map eid l.
Definition drop (x : Z) (l : list ent) : list ent := filter (fun e => negb (eid e =? x)) l.
Definition upd_ent (x : Z) (f : ent -> ent) (l : list ent) : list ent := map (fun e => if eid e =? x then f e else e) l.
Definition done_ent e := mkE (eid e) (efile e) (eoff e) (elen e) (enum e) (emark e) true (etrim e).
Definition cut_ent n e := mkE (eid e) (efile e) (eoff e) n (enum e) (emark e) (edone e) (etrim e).
Definition trim_ent e := mkE (eid e) (efile e) (eoff e) (elen e) (enum e) (emark e) (edone e) true.
Definition del (x : Z) (l : list Z) : list Z := filter (fun y => negb (y =? x)) l.

(** What may happen when. [risk]: offsets may repeat, so later writes replace earlier ones. *)
Definition pre (s : sst) (e : ev) : Prop :=
  match e with
  | Log x file off len num mark trim => x <> 0 /\ ~ In x (ids (recs s)) /\ ~ In x (fly s) /\ 0 <= off /\ 0 < len /\ off + len < 2 ^ 64
  | Done x => In x (fly s)
  | Fail x => In x (fly s) /\ ~ In x (tq s)
  | Short x n => In x (fly s) /\ 0 < n /\ (forall e, In e (recs s) -> eid e = x -> n <= elen e)
  | Next | Trim => True
  end.

Definition new_ent x file off len num mark := mkE x file off len num mark false false.

Inductive sstep (risk : bool) (s : sst) : ev -> out -> sst -> Prop :=
| s_log_over x file off len num mark trim : risk = true ->
    let e := new_ent x file off len num mark in
    let kept := filter (fun f => negb (touchb e f)) (recs s) in
    let gone := filter (fun f => touchb e f) (recs s) in
    sstep risk s (Log x file off len num mark trim) None
      (mkT (e :: kept) (x :: fly s)
           (filter (fun y => negb (existsb (Z.eqb y) (ids gone))) (tq s) ++ (if trim then [x] else [])) (lost s))
| s_log_list x file off len num mark trim : risk = false ->
    sstep risk s (Log x file off len num mark trim) None
      (mkT (recs s ++ [new_ent x file off len num mark]) (x :: fly s) (tq s ++ (if trim then [x] else [])) (lost s))
| s_done x : sstep risk s (Done x) None (mkT (upd_ent x done_ent (recs s)) (del x (fly s)) (tq s) (lost s))
| s_fail x : sstep risk s (Fail x) None
    (mkT (drop x (recs s)) (del x (fly s)) (tq s) (lost s + if existsb (Z.eqb x) (ids (recs s)) then 0 else 1))
| s_short x n : sstep risk s (Short x n) None (mkT (upd_ent x (cut_ent n) (recs s)) (fly s) (tq s) (lost s))
(** the first completed write in the order of verification *)
| s_next_over e : risk = true -> In e (recs s) -> edone e = true ->
    (forall f, In f (recs s) -> edone f = true -> f = e \/ before e f) ->
    sstep risk s Next (Some (view e)) (mkT (drop (eid e) (recs s)) (fly s) (del (eid e) (tq s)) (lost s))
| s_next_none : risk = true -> (forall e, In e (recs s) -> edone e = false) -> sstep risk s Next None s
(** the oldest write, once it completed *)
| s_next_list e l : risk = false -> recs s = e :: l -> edone e = true ->
    sstep risk s Next (Some (view e)) (mkT l (fly s) (del (eid e) (tq s)) (lost s))
| s_next_wait : risk = false -> match recs s with [] => True | e :: _ => edone e = false end -> sstep risk s Next None s
| s_trim e q : tq s = eid e :: q -> In e (recs s) ->
    sstep risk s Trim (Some (view e)) (mkT (upd_ent (eid e) trim_ent (recs s)) (fly s) q (lost s))
| s_trim_none : tq s = [] -> sstep risk s Trim None s.

Inductive sruns (risk : bool) : sst -> list ev -> list out -> sst -> Prop :=
| sr_nil s : sruns risk s [] [] s
| sr_cons s e o s' evs outs s'' : sstep risk s e o s' -> sruns risk s' evs outs s'' -> sruns risk s (e :: evs) (o :: outs) s''.

(** A sequence of events that can happen. *)
Fixpoint legal (risk : bool) (s : sst) (evs : list ev) : Prop :=
  match evs with
  | [] => True
  | e :: evs => pre s e /\ forall o s', sstep risk s e o s' -> legal risk s' evs
  end.
