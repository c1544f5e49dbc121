(** What a search for a queue depth is to do. *)
From Coq Require Import ZArith List Lia Bool.
From Verif Require Import CBase FloatZ LatModel.
Import ListNotations.
Open Scope Z_scope.

(** Depths and bounds make sense. *)
Definition sane (c : cfg) (s : st) : Prop :=
  1 <= low s <= qd s /\ qd s <= iodepth c /\ qd s <= high s <= iodepth c + 2 /\ 0 <= stable s <= 2.

(** One latency window on a device that meets the target exactly up to depth [T]. *)
Definition window (c : cfg) (T : Z) (s : st) : st := if qd s <=? T then success c s else snd (fail s).

Definition windows (c : cfg) (T : Z) (n : nat) (s : st) : st := Nat.iter n (window c T) s.

(** The search has settled around [T]. *)
Definition settled (c : cfg) (T : Z) (s : st) : Prop :=
  (qd s = T /\ high s = T + 1 /\ 1 <= low s <= T /\ 0 <= stable s <= 2) \/
  (T < qd s <= T + 2 /\ high s = T + 2 /\ low s = T /\ 0 <= stable s <= 2).
