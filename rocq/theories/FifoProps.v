(** Property C06: the byte FIFO delivers the bytes put, in order, without loss. *)
From Coq Require Import ZArith List Lia Bool.
From Verif Require Import CBase FifoModel FifoSpec FifoProofs.
Import ListNotations.
Open Scope Z_scope.

(** C06.  For every power-of-two capacity up to 2^31 and every history of calls, the ring buffer
    answers exactly as a bounded queue does, and never copies out of bounds. *)
Theorem C06_queue : forall k junk os, 0 <= k <= 31 -> zlen junk = 2 ^ k -> Forall op_ok os ->
  exists f', f_run (fifo_alloc (2 ^ k) junk) os = Some (f', snd (q_run (2 ^ k) [] os)) /\
    fifo_len f' = zlen (fst (q_run (2 ^ k) [] os)) /\
    fifo_room f' = 2 ^ k - zlen (fst (q_run (2 ^ k) [] os)).
Proof.
  intros k junk os Hk HJ HO. pose proof (alloc_inv k junk Hk HJ) as I.
  destruct (run_ok os _ I HO) as (f' & E & I' & S & A). rewrite alloc_abs in *. exists f'.
  change (size (fifo_alloc (2 ^ k) junk)) with (2 ^ k) in *.
  split; [exact E|]. rewrite <- A, abs_len. split; [reflexivity|].
  rewrite room_ok, S by auto. reflexivity.
Qed.
Print Assumptions C06_queue.

(** C06, conservation.  Everything accepted is what came out followed by what is still inside. *)
Theorem C06_no_loss : forall k junk os f' rs, 0 <= k <= 31 -> zlen junk = 2 ^ k -> Forall op_ok os ->
  Forall no_drop os -> f_run (fifo_alloc (2 ^ k) junk) os = Some (f', rs) ->
  exists rest, zlen rest = fifo_len f' /\ accepted os rs = delivered rs ++ rest /\
    match fifo_get f' true (fifo_len f') with Some (_, d, _) => d = rest | None => False end.
Proof.
  intros k junk os f' rs Hk HJ HO HN E. pose proof (alloc_inv k junk Hk HJ) as I.
  destruct (run_ok os _ I HO) as (f2 & E2 & I' & S & A). rewrite alloc_abs in *.
  change (size (fifo_alloc (2 ^ k) junk)) with (2 ^ k) in *.
  rewrite E in E2. inversion E2; subst f2 rs. exists (abs f').
  split; [apply abs_len|]. split.
  - pose proof (q_history (2 ^ k) os [] HN) as H. cbn [app] in H. rewrite A. exact H.
  - assert (R : 0 <= fifo_len f' < 2 ^ 32) by (apply used_range).
    destruct (step_ok f' (Get (fifo_len f')) I' R) as (f3 & E3 & _).
    cbn [f_step q_step snd] in E3. destruct (fifo_get f' true (fifo_len f')) as [[[? d] n]|]; [|discriminate].
    destruct (n =? zlen d); [|discriminate]. inversion E3. rewrite abs_len.
    change (fifo_len f') with (used f'). rewrite Z.min_id. apply firstn_all2.
    pose proof (abs_len f') as L. unfold zlen in L. lia.
Qed.
Print Assumptions C06_no_loss.

(** A case that meets the hypotheses: the ring wraps and a put is cut short. *)
Example C06_nonvacuous :
  let os := [Put [1; 2; 3]; Get 2; Put [4; 5; 6; 7]; Get 9] in
  Forall op_ok os /\
  option_map snd (f_run (fifo_alloc (2 ^ 2) [0; 0; 0; 0]) os) =
    Some [Accepted 3; Got [1; 2]; Accepted 3; Got [3; 4; 5; 6]].
Proof.
  split; [|vm_compute; reflexivity].
  repeat (apply Forall_cons; [cbn; unfold zlen; cbn [length]; lia|]). apply Forall_nil.
Qed.

(** Finding.  fifo_alloc takes any size, but only powers of two work: with three bytes the second
    byte put overwrites the first. *)
Theorem C06_size_not_power_of_two_refuted :
  option_map snd (f_run (fifo_alloc 3 [0; 0; 0]) [Put [1]; Put [2]; Get 2]) <>
  Some (snd (q_run 3 [] [Put [1]; Put [2]; Get 2])).
Proof. vm_compute. discriminate. Qed.
Print Assumptions C06_size_not_power_of_two_refuted.
