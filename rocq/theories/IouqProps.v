(** Property C07: the free list and the requeue ring never lose or duplicate an I/O unit. *)
From Coq Require Import ZArith List Lia Bool.
From Verif Require Import CBase IouqModel IouqSpec IouqProofs.
Import ListNotations.
Open Scope Z_scope.

(** C07, free list.  For every capacity and every history the array behaves as a bounded stack; the
    assertion fails exactly when the stack would exceed its bound. *)
Theorem C07_stack : forall nr os, 0 <= nr < 2 ^ 32 ->
  option_map snd (q_run (io_u_qinit nr) os) = option_map snd (stack_run nr [] os).
Proof.
  intros nr os H. pose proof (q_run_ok os _ _ (qinit_abs nr H)) as R.
  change (q_max (io_u_qinit nr)) with nr in R.
  destruct (stack_run nr [] os) as [[s r]|].
  - destruct R as (q' & E & _). rewrite E. reflexivity.
  - rewrite R. reflexivity.
Qed.
Print Assumptions C07_stack.

(** The emptiness query agrees with the stack. *)
Theorem C07_stack_empty : forall nr os s r, 0 <= nr < 2 ^ 32 -> stack_run nr [] os = Some (s, r) ->
  match q_run (io_u_qinit nr) os with
  | Some (q, r') => r' = r /\ (io_u_qempty q = true <-> s = [])
  | None => False
  end.
Proof.
  intros nr os s r H E. pose proof (q_run_ok os _ _ (qinit_abs nr H)) as R.
  change (q_max (io_u_qinit nr)) with nr in R. rewrite E in R.
  destruct R as (q' & E' & (_ & _ & Hn & _) & _). rewrite E'. split; auto. unfold io_u_qempty.
  rewrite Hn, Z.eqb_eq. destruct s; [split; reflexivity|].
  split; [unfold zlen; simpl length; lia|discriminate].
Qed.
Print Assumptions C07_stack_empty.

(** C07, requeue ring.  For every size the ring was created for and every history in which at most
    that many units are inside at once, units come out in the order they went in. *)
Theorem C07_ring : forall nr os s out, 1 <= nr < 2 ^ 31 -> queue_run nr [] os = Some (s, out) ->
  match r_run (io_u_rinit nr) os with
  | Some (r, out') => out' = out /\ (io_u_rempty r = true <-> s = [])
  | None => False
  end.
Proof.
  intros nr os s out H E. pose proof (r_run_ok nr os _ _ (rinit_abs nr H)) as R. rewrite E in R.
  destruct R as (r' & E' & ((k & Hk & Hm) & _ & Hh & Ht & Hc & Hs & Hhd & _)). rewrite E'.
  split; auto. unfold io_u_rempty. rewrite Z.eqb_eq, Hhd.
  destruct s as [|x s].
  - change (zlen (@nil Z)) with 0. rewrite Z.add_0_r, Z.mod_small by lia. tauto.
  - split; [|discriminate]. intros E2. exfalso.
    assert (ZS : zlen (x :: s) = zlen s + 1) by (unfold zlen; simpl length; lia).
    pose proof (zlen_nonneg s).
    assert (E3 : (r_tail r' + zlen (x :: s)) mod r_max r' = (r_tail r' + 0) mod r_max r')
      by (rewrite E2, Z.add_0_r, Z.mod_small; lia).
    apply mod_inj in E3; lia.
Qed.
Print Assumptions C07_ring.

(** Cases that meet the hypotheses. *)
Example C07_nonvacuous :
  queue_run 3 [] [Push 1; Push 2; Pop; Push 3; Push 4; Pop; Push 5; Pop; Pop; Pop; Pop] =
    Some ([], [Some 1; Some 2; Some 3; Some 4; Some 5; None]) /\
  stack_run 2 [] [Push 1; Push 2; Pop; Push 3; Pop; Pop; Pop] =
    Some ([], [Some 2; Some 3; Some 1; None]).
Proof. split; reflexivity. Qed.

(** Finding.  The overflow check of the ring compares head + 1 before it is reduced, so pushing one
    unit too many on a ring that has not been popped is not caught: every unit is silently lost. *)
Theorem C07_ring_overflow_undetected_refuted :
  option_map snd (r_run (io_u_rinit 3) [Push 1; Push 2; Push 3; Push 4; Pop]) = Some [None].
Proof. vm_compute. reflexivity. Qed.
Print Assumptions C07_ring_overflow_undetected_refuted.
