(** What a CRC is: the remainder of a polynomial division over GF(2). A polynomial is a non-negative
    integer whose bit i is the coefficient of x^i; addition is exclusive or. *)
From Coq Require Import ZArith List Bool.
From Verif Require Import CBase.
Import ListNotations.
Open Scope Z_scope.

(** The product of the polynomial with coefficients [q] (lowest first) and the polynomial [g]. *)
Fixpoint pmul (q : list bool) (g : Z) : Z :=
  match q with
  | [] => 0
  | b :: q' => Z.lxor (if b then g else 0) (2 * pmul q' g)
  end.

(** [r] is the remainder of [m] divided by [g], a polynomial of degree [w]. *)
Definition is_rem (w g m r : Z) : Prop := 0 <= r < 2 ^ w /\ exists q, Z.lxor m r = pmul q g.

(** The polynomial of a bit stream, first bit as highest coefficient. *)
Definition stream_poly (bs : list bool) : Z := fold_left (fun a b => 2 * a + Z.b2z b) bs 0.

(** The bits of the bytes of a buffer, most (least) significant bit of each byte first. *)
Definition msb_first (buf : list Z) : list bool :=
  flat_map (fun b => map (Z.testbit b) [7; 6; 5; 4; 3; 2; 1; 0]) buf.
Definition lsb_first (buf : list Z) : list bool :=
  flat_map (fun b => map (Z.testbit b) [0; 1; 2; 3; 4; 5; 6; 7]) buf.

(** The CRC of width [w] with generator x^w + [p] and initial register [init]: the remainder of the
    stream followed by w zero bits, with the register added to the first w bits. *)
Definition is_crc (w p init : Z) (bs : list bool) (r : Z) : Prop :=
  is_rem w (2 ^ w + p) (Z.lxor (stream_poly bs * 2 ^ w) (init * 2 ^ zlen bs)) r.

(** The [w]-bit word with the bits of [r] in reverse order. *)
Definition reflect (w : nat) (r : Z) : Z := stream_poly (map (fun i => Z.testbit r (Z.of_nat i)) (seq 0 w)).

(** The instruction CRC32 on an n-bit operand (Intel SDM, CRC32): reflected CRC of the operand's bits,
    lowest first, with generator 0x11EDC6F41, continuing from the register [crc]. *)
Definition low_first (n : nat) (q : Z) : list bool := map (fun i => Z.testbit q (Z.of_nat i)) (seq 0 n).
Definition crc32_insn (n : nat) (hw : Z -> Z -> Z) : Prop :=
  forall crc q, 0 <= crc < 2 ^ 32 -> 0 <= q < 2 ^ Z.of_nat n ->
    exists r, hw crc q = reflect 32 r /\ is_crc 32 0x1EDC6F41 (reflect 32 crc) (low_first n q) r.

Definition byte (b : Z) : Prop := 0 <= b < 2 ^ 8.
Definition bytes (buf : list Z) : Prop := Forall byte buf.

(** Two bit streams that differ, and only inside a window of at most [w] bits. *)
Definition burst (w : nat) (a b : list bool) : Prop :=
  exists pre x y post, a = pre ++ x ++ post /\ b = pre ++ y ++ post /\
    length x = length y /\ (length x <= w)%nat /\ x <> y.
