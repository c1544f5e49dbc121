(** Certificates that every row of the tap table gives a register of maximal period: the prime
    factorisations of 2^m - 1 for m = 3..63, with the primality of each factor proved. *)
From Coq Require Import ZArith Znumtheory List Lia Bool.
From Verif Require Import CBase Orbit LfsrModel LfsrAlgebra.
Import ListNotations.
Open Scope Z_scope.

Lemma prime_524287 : prime 524287.
Proof.
  apply pock_ok with (a := 3) (r := 378) (l := [73; 19]).
  - repeat apply Forall_cons; try apply Forall_nil; first [apply prime_small_ok; vm_compute; reflexivity].
  - vm_compute. reflexivity.
Qed.

Lemma prime_599479 : prime 599479.
Proof.
  apply pock_ok with (a := 3) (r := 66) (l := [293; 31]).
  - repeat apply Forall_cons; try apply Forall_nil; first [apply prime_small_ok; vm_compute; reflexivity].
  - vm_compute. reflexivity.
Qed.

Lemma prime_649657 : prime 649657.
Proof.
  apply pock_ok with (a := 3) (r := 504) (l := [1289]).
  - repeat apply Forall_cons; try apply Forall_nil; first [apply prime_small_ok; vm_compute; reflexivity].
  - vm_compute. reflexivity.
Qed.

Lemma prime_1212847 : prime 1212847.
Proof.
  apply pock_ok with (a := 3) (r := 114) (l := [10639]).
  - repeat apply Forall_cons; try apply Forall_nil; first [apply prime_small_ok; vm_compute; reflexivity].
  - vm_compute. reflexivity.
Qed.

Lemma prime_2099863 : prime 2099863.
Proof.
  apply pock_ok with (a := 3) (r := 774) (l := [2713]).
  - repeat apply Forall_cons; try apply Forall_nil; first [apply prime_small_ok; vm_compute; reflexivity].
  - vm_compute. reflexivity.
Qed.

Lemma prime_2796203 : prime 2796203.
Proof.
  apply pock_ok with (a := 3) (r := 46) (l := [683; 89]).
  - repeat apply Forall_cons; try apply Forall_nil; first [apply prime_small_ok; vm_compute; reflexivity].
  - vm_compute. reflexivity.
Qed.

Lemma prime_3033169 : prime 3033169.
Proof.
  apply pock_ok with (a := 3) (r := 1392) (l := [2179]).
  - repeat apply Forall_cons; try apply Forall_nil; first [apply prime_small_ok; vm_compute; reflexivity].
  - vm_compute. reflexivity.
Qed.

Lemma prime_13264529 : prime 13264529.
Proof.
  apply pock_ok with (a := 3) (r := 496) (l := [569; 47]).
  - repeat apply Forall_cons; try apply Forall_nil; first [apply prime_small_ok; vm_compute; reflexivity].
  - vm_compute. reflexivity.
Qed.

Lemma prime_15790321 : prime 15790321.
Proof.
  apply pock_ok with (a := 3) (r := 720) (l := [241; 13; 7]).
  - repeat apply Forall_cons; try apply Forall_nil; first [apply prime_small_ok; vm_compute; reflexivity].
  - vm_compute. reflexivity.
Qed.

Lemma prime_20394401 : prime 20394401.
Proof.
  apply pock_ok with (a := 3) (r := 800) (l := [53; 37; 13]).
  - repeat apply Forall_cons; try apply Forall_nil; first [apply prime_small_ok; vm_compute; reflexivity].
  - vm_compute. reflexivity.
Qed.

Lemma prime_164511353 : prime 164511353.
Proof.
  apply pock_ok with (a := 3) (r := 328) (l := [8501; 59]).
  - repeat apply Forall_cons; try apply Forall_nil; first [apply prime_small_ok; vm_compute; reflexivity].
  - vm_compute. reflexivity.
Qed.

Lemma prime_616318177 : prime 616318177.
Proof.
  apply pock_ok with (a := 3) (r := 3552) (l := [1039; 167]).
  - repeat apply Forall_cons; try apply Forall_nil; first [apply prime_small_ok; vm_compute; reflexivity].
  - vm_compute. reflexivity.
Qed.

Lemma prime_715827883 : prime 715827883.
Proof.
  apply pock_ok with (a := 3) (r := 14322) (l := [331; 151]).
  - repeat apply Forall_cons; try apply Forall_nil; first [apply prime_small_ok; vm_compute; reflexivity].
  - vm_compute. reflexivity.
Qed.

Lemma prime_2147483647 : prime 2147483647.
Proof.
  apply pock_ok with (a := 3) (r := 42966) (l := [331; 151]).
  - repeat apply Forall_cons; try apply Forall_nil; first [apply prime_small_ok; vm_compute; reflexivity].
  - vm_compute. reflexivity.
Qed.

Lemma prime_8060489 : prime 8060489.
Proof.
  apply pock_ok with (a := 2) (r := 184) (l := [617; 71]).
  - repeat apply Forall_cons; try apply Forall_nil; first [apply prime_small_ok; vm_compute; reflexivity].
  - vm_compute. reflexivity.
Qed.

Lemma prime_3203431780337 : prime 3203431780337.
Proof.
  apply pock_ok with (a := 3) (r := 397424) (l := [8060489]).
  - repeat apply Forall_cons; try apply Forall_nil; first [exact prime_8060489 | apply prime_small_ok; vm_compute; reflexivity].
  - vm_compute. reflexivity.
Qed.

Lemma prime_4432676798593 : prime 4432676798593.
Proof.
  apply pock_ok with (a := 3) (r := 56448) (l := [5419; 337; 43]).
  - repeat apply Forall_cons; try apply Forall_nil; first [apply prime_small_ok; vm_compute; reflexivity].
  - vm_compute. reflexivity.
Qed.

Lemma prime_2305843009213693951 : prime 2305843009213693951.
Proof.
  apply pock_ok with (a := 3) (r := 572521950) (l := [1321; 331; 151; 61]).
  - repeat apply Forall_cons; try apply Forall_nil; first [apply prime_small_ok; vm_compute; reflexivity].
  - vm_compute. reflexivity.
Qed.

Definition big_primes : list Z :=
  [524287; 599479; 649657; 1212847; 2099863; 2796203; 3033169; 13264529; 15790321; 20394401; 164511353; 616318177; 715827883; 2147483647; 8060489; 3203431780337; 4432676798593; 2305843009213693951].
Lemma big_primes_ok : Forall prime big_primes.
Proof.
  repeat apply Forall_cons; try apply Forall_nil.
  - exact prime_524287.
  - exact prime_599479.
  - exact prime_649657.
  - exact prime_1212847.
  - exact prime_2099863.
  - exact prime_2796203.
  - exact prime_3033169.
  - exact prime_13264529.
  - exact prime_15790321.
  - exact prime_20394401.
  - exact prime_164511353.
  - exact prime_616318177.
  - exact prime_715827883.
  - exact prime_2147483647.
  - exact prime_8060489.
  - exact prime_3203431780337.
  - exact prime_4432676798593.
  - exact prime_2305843009213693951.
Qed.

Definition small_primes : list Z :=
  [3; 5; 7; 11; 13; 17; 19; 23; 29; 31; 37; 41; 43; 47; 53; 59; 61; 71; 73; 79; 89; 97; 103; 109; 113; 127; 151; 157; 223; 233; 241; 251; 257; 331; 337; 397; 431; 601; 631; 673; 683; 881; 1103; 1321; 1613; 1801; 2089; 2113; 2143; 2351; 2731; 3191; 4051; 4513; 5419; 6361; 8191; 9719; 11119; 13367; 23311; 32377; 43691; 61681; 65537; 69431; 87211; 92737; 121369; 122921; 131071; 174763; 178481; 179951; 201961; 262657].
Lemma small_primes_ok : forallb prime_small small_primes = true.
Proof. vm_compute. reflexivity. Qed.

(** Row k: the prime factors, with repetition, of 2^(k+3) - 1. *)
Definition mersenne_factors : list (list Z) :=
  [[7];
   [3; 5];
   [31];
   [3; 3; 7];
   [127];
   [3; 5; 17];
   [7; 73];
   [3; 11; 31];
   [23; 89];
   [3; 3; 5; 7; 13];
   [8191];
   [3; 43; 127];
   [7; 31; 151];
   [3; 5; 17; 257];
   [131071];
   [3; 3; 3; 7; 19; 73];
   [524287];
   [3; 5; 5; 11; 31; 41];
   [7; 7; 127; 337];
   [3; 23; 89; 683];
   [47; 178481];
   [3; 3; 5; 7; 13; 17; 241];
   [31; 601; 1801];
   [3; 2731; 8191];
   [7; 73; 262657];
   [3; 5; 29; 43; 113; 127];
   [233; 1103; 2089];
   [3; 3; 7; 11; 31; 151; 331];
   [2147483647];
   [3; 5; 17; 257; 65537];
   [7; 23; 89; 599479];
   [3; 43691; 131071];
   [31; 71; 127; 122921];
   [3; 3; 3; 5; 7; 13; 19; 37; 73; 109];
   [223; 616318177];
   [3; 174763; 524287];
   [7; 79; 8191; 121369];
   [3; 5; 5; 11; 17; 31; 41; 61681];
   [13367; 164511353];
   [3; 3; 7; 7; 43; 127; 337; 5419];
   [431; 9719; 2099863];
   [3; 5; 23; 89; 397; 683; 2113];
   [7; 31; 73; 151; 631; 23311];
   [3; 47; 178481; 2796203];
   [2351; 4513; 13264529];
   [3; 3; 5; 7; 13; 17; 97; 241; 257; 673];
   [127; 4432676798593];
   [3; 11; 31; 251; 601; 1801; 4051];
   [7; 103; 2143; 11119; 131071];
   [3; 5; 53; 157; 1613; 2731; 8191];
   [6361; 69431; 20394401];
   [3; 3; 3; 3; 7; 19; 73; 87211; 262657];
   [23; 31; 89; 881; 3191; 201961];
   [3; 5; 17; 29; 43; 113; 127; 15790321];
   [7; 32377; 524287; 1212847];
   [3; 59; 233; 1103; 2089; 3033169];
   [179951; 3203431780337];
   [3; 3; 5; 5; 7; 11; 13; 31; 41; 61; 151; 331; 1321];
   [2305843009213693951];
   [3; 715827883; 2147483647];
   [7; 7; 73; 127; 337; 92737; 649657]].

Definition known (q : Z) : bool := existsb (Z.eqb q) small_primes || existsb (Z.eqb q) big_primes.

Lemma known_prime q : known q = true -> prime q.
Proof.
  unfold known. rewrite orb_true_iff, !existsb_exists. intros [(x & I & E)|(x & I & E)];
    apply Z.eqb_eq in E; subst q.
  - apply prime_small_ok. pose proof small_primes_ok as H. rewrite forallb_forall in H. auto.
  - pose proof big_primes_ok as H. rewrite Forall_forall in H. auto.
Qed.

Definition taps_of (m : nat) : list Z := nth m lfsr_taps [].
Definition check_width (m : nat) : bool :=
  let l := nth (m - 3) mersenne_factors [] in
  forallb known l && cert (Z.of_nat m) (lfsr_create_xormask (taps_of m)) l &&
  match taps_of m with t :: _ => t =? Z.of_nat m | [] => false end.

Lemma widths_ok : forallb check_width (seq 3 61) = true.
Proof. vm_compute. reflexivity. Qed.

Lemma width_ok m : (3 <= m <= 63)%nat ->
  (exists l, Forall prime l /\ cert (Z.of_nat m) (lfsr_create_xormask (taps_of m)) l = true) /\
  znth (taps_of m) 0 = Some (Z.of_nat m).
Proof.
  intros Hm. pose proof widths_ok as H. rewrite forallb_forall in H.
  specialize (H m ltac:(apply in_seq; lia)). unfold check_width in H.
  apply andb_true_iff in H. destruct H as [H H3]. apply andb_true_iff in H. destruct H as [H1 H2].
  split.
  - exists (nth (m - 3) mersenne_factors []). split; auto.
    apply Forall_forall. intros q I. apply known_prime. rewrite forallb_forall in H1. auto.
  - destruct (taps_of m); [discriminate|]. apply Z.eqb_eq in H3. subst z. reflexivity.
Qed.
