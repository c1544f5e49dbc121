(** Property C58: a job thinks when and for as long as it was told to. *)
From Coq Require Import ZArith List Lia Bool.
From Verif Require Import CBase ThinkModel ThinkSpec ThinkProofs.
Import ListNotations.
Open Scope Z_scope.

(** When: after thinktime_iotime, or after thinktime_blocks if they were given or there is no thinktime_iotime. *)
Theorem C58_when o s e : opts_ok o -> - blocks o <= last_blocks s < 2 ^ 62 -> 0 <= last_time s <= t_start e ->
  ((exists w, snd (handle o s e) = Some w) <-> (iotime o <> 0 /\ iotime o <= t_start e - last_time s) \/ ((iotime o = 0 \/ blocks_set o = true) /\ blocks o <= cnt e - last_blocks s)).
Proof.
  intros (_ & _ & B & I & _) L T. assert (ST : stalls o s e = true <-> (iotime o <> 0 /\ iotime o <= t_start e - last_time s) \/ ((iotime o = 0 \/ blocks_set o = true) /\ blocks o <= cnt e - last_blocks s)).
  { unfold stalls, since. destruct (Z.ltb_spec (t_start e) (last_time s)); [lia|]. rewrite u64_id by lia. destruct (Z.eqb_spec (iotime o) 0) as [Z0|NZ]; cbn [negb andb].
    - rewrite Z.leb_le. split; [right; split; [auto|lia]|intros [(N & _)|(_ & X)]; [contradiction|lia]].
    - destruct (Z.leb_spec (iotime o) (t_start e - last_time s)); [split; auto|]. destruct (blocks_set o); cbn [negb]; [rewrite Z.leb_le; split; [right; split; [auto|lia]|intros [(_ & X)|(_ & X)]; lia]|]. split; [discriminate|]. intros [(_ & X)|([X|X] & _)]; [lia|contradiction|discriminate]. }
  rewrite <- ST. split.
  - intros (w & W). destruct (stalls o s e) eqn:E; [reflexivity|]. rewrite (handle_not o s e E) in W. discriminate.
  - intros E. destruct (handle_stalled o s e E) as (w & W & _). eauto.
Qed.
(** thinktime_blocks for any number of calls: never fewer blocks in between, and at most what is done between two calls too many. *)
Theorem C58_blocks o d l : opts_ok o -> iotime o = 0 -> 0 <= d -> counts_up d 0 l ->
  let n := waits (snd (calls o (TState 0 0 0 0) l)) in let b := end_count 0 l in n * blocks o <= b < n * (blocks o - 1 + d) + blocks o.
Proof.
  intros K I D C. cbv zeta. destruct K as (K0 & K1 & K2 & K3). pose proof (calls_waits o (conj K0 (conj K1 (conj K2 K3))) I d l (TState 0 0 0 0) 0 C D) as Q. cbv zeta in Q. cbn [last_blocks] in Q. specialize (Q ltac:(lia) ltac:(lia) ltac:(lia)). lia.
Qed.
(** If it is called for every block it waits after exactly every thinktime_blocks. *)
Theorem C58_every o l : opts_ok o -> iotime o = 0 -> counts_up 1 0 l -> waits (snd (calls o (TState 0 0 0 0) l)) = end_count 0 l / blocks o.
Proof.
  intros K I C. pose proof (C58_blocks o 1 l K I ltac:(lia) C) as Q. cbv zeta in Q. destruct K as (_ & _ & K2 & _). apply Z.div_unique with (end_count 0 l - waits (snd (calls o (TState 0 0 0 0) l)) * blocks o); lia.
Qed.
(** How long without a runtime: it spins for thinktime_spin, and sleeps for what is left of thinktime. *)
Theorem C58_long o s e s' w : opts_ok o -> timeout o = 0 -> 0 <= spun e -> handle o s e = (s', Some w) ->
  spin_for w = spin o /\ sleep_for w = Z.max 0 (thinktime o - (if spin o =? 0 then 0 else spun e)).
Proof.
  intros (K0 & K1 & _) T SP H. unfold handle in H. destruct (stalls o s e); [|discriminate]. unfold limit in H. rewrite T in H. cbn [Z.eqb] in H. rewrite (i32_id (spin o)) in H by lia. cbv zeta in H. destruct (account _ _ _) as [x y]. injection H as _ <-. cbn [spin_for sleep_for]. rewrite u32_id by lia. split; [reflexivity|].
  set (p := if spin o =? 0 then 0 else spun e). assert (0 <= p) by (unfold p; destruct (spin o =? 0); lia). destruct (Z.ltb_spec p (thinktime o)); [rewrite (u64_id (thinktime o - p)), i32_id, u64_id by lia|change (u64 0) with 0]; lia.
Qed.
(** So all of thinktime passes, and no more if the spinning is on time. *)
Theorem C58_total o s e s' w : opts_ok o -> timeout o = 0 -> 0 <= spun e -> handle o s e = (s', Some w) ->
  let p := if spin_for w =? 0 then 0 else spun e in thinktime o <= p + sleep_for w /\ (p <= thinktime o -> p + sleep_for w = thinktime o).
Proof. intros K T SP H. destruct (C58_long o s e s' w K T SP H) as (-> & ->). cbv zeta. destruct (spin o =? 0); lia. Qed.
(** With a runtime it does not wait beyond its end. *)
Theorem C58_runtime o s e s' w : opts_ok o -> 0 < timeout o -> 0 <= t_spin e <= timeout o -> 0 <= t_sleep e <= timeout o -> 0 <= spun e -> handle o s e = (s', Some w) ->
  spin_for w = Z.min (spin o) (timeout o - t_spin e) /\ sleep_for w = Z.min (Z.max 0 (thinktime o - (if spin_for w =? 0 then 0 else spun e))) (timeout o - t_sleep e).
Proof.
  intros (K0 & K1 & _ & _ & K4) T A B SP H. unfold handle in H. destruct (stalls o s e); [|discriminate]. rewrite (i32_id (spin o)) in H by lia. rewrite (limit_cases o (spin o)) in H by lia. destruct (Z.eqb_spec (timeout o) 0) as [|NZ]; [lia|]. cbv zeta in H. set (m := Z.min (spin o) (timeout o - t_spin e)) in *. assert (M : 0 <= m < 2 ^ 31) by (unfold m; lia).
  set (p := if m =? 0 then 0 else spun e) in *. assert (0 <= p) by (unfold p; destruct (m =? 0); lia).
  assert (LE : (if p <? thinktime o then i32 (u64 (thinktime o - p)) else 0) = Z.max 0 (thinktime o - p)) by (destruct (Z.ltb_spec p (thinktime o)); [rewrite (u64_id (thinktime o - p)), i32_id by lia|]; lia). rewrite LE in H.
  rewrite (limit_cases o (Z.max 0 (thinktime o - p))) in H by lia. destruct (Z.eqb_spec (timeout o) 0) as [|_]; [lia|]. destruct (account _ _ _) as [x y]. injection H as _ <-. cbn [spin_for sleep_for]. rewrite u32_id by lia. rewrite u64_id by lia. split; reflexivity.
Qed.
(** rate_ignore_thinktime: what the rate allows in the time that was waited counts as done, up to a block; and nothing without it. *)
Theorem C58_rate o s total : 0 < rate o -> 0 < bs o -> 0 < total -> rate o * total < 2 ^ 63 -> bs o * 1000000 < 2 ^ 63 -> bs o <= issue_bytes s < 2 ^ 62 -> 0 <= last_usec s < 2 ^ 62 -> total < 2 ^ 62 -> ign o = true ->
  let '(bytes, usec) := account o s total in usec = last_usec s + total /\ issue_bytes s + rate o * total / 1000000 - bs o <= bytes <= issue_bytes s + rate o * total / 1000000.
Proof.
  intros R B T RT BM IB LU TL G. unfold account. destruct (Z.eqb_spec total 0); [lia|]. destruct (Z.eqb_spec (rate o) 0); [lia|]. rewrite G. cbn [negb andb]. cbv zeta. assert (0 <= rate o * total) by nia. rewrite (u64_id (rate o * total)) by lia. rewrite (u64_id (bs o * 1000000)) by lia.
  set (m := rate o * total / 1000000). assert (M : 0 <= m < 2 ^ 63) by (unfold m; split; [apply Z.div_pos; lia|apply Z.div_lt_upper_bound; lia]). rewrite i64_pos by lia. split; [reflexivity|].
  assert (ADD : forall v, 0 <= v <= bs o -> u64 (issue_bytes s + u64 (m - v)) = issue_bytes s + m - v) by (intros v V; unfold u64; rewrite Zplus_mod_idemp_r, Z.mod_small; lia).
  destruct (Z.leb_spec (bs o * 1000000 / rate o) total); [rewrite ADD by lia; lia|]. rewrite (Z.div_small (_ - total)) by lia. rewrite Z.mul_0_l. change (u64 0) with 0. rewrite ADD by lia. lia.
Qed.
Theorem C58_no_rate o s e s' w : (rate o = 0 \/ ign o = false) -> handle o s e = (s', w) -> issue_bytes s' = issue_bytes s /\ last_usec s' = last_usec s.
Proof.
  intros N H. unfold handle in H. destruct (stalls o s e); [|injection H as <- <-; auto]. cbv zeta in H. unfold account in H.
  assert (G : forall t, negb (t =? 0) && negb (rate o =? 0) && ign o = false) by (intros t; destruct N as [-> | ->]; [destruct (t =? 0); reflexivity|apply andb_false_r]). rewrite G in H. injection H as <- <-. auto.
Qed.
(** When the statistics are reset the blocks since the last time still count. *)
Theorem C58_reset o s b e : opts_ok o -> iotime o = 0 -> 0 <= last_blocks s <= b -> b < 2 ^ 62 -> b - last_blocks s <= blocks o -> 0 <= cnt e < 2 ^ 62 ->
  ((exists w, snd (handle o (reset s b) e) = Some w) <-> blocks o <= (b - last_blocks s) + cnt e).
Proof.
  intros K I L B D C. assert (K' := K). destruct K as (_ & _ & K2 & _). assert (RL : last_blocks (reset s b) = last_blocks s - b) by (cbn [reset last_blocks]; apply i64_id; lia).
  assert (ST := stalls_blocks o (reset s b) e K' I ltac:(lia) ltac:(lia)). rewrite RL in ST. split.
  - intros (w & W). destruct (stalls o (reset s b) e) eqn:E; [symmetry in ST; apply Z.leb_le in ST; lia|]. rewrite (handle_not _ _ _ E) in W. discriminate.
  - intros G. assert (E : stalls o (reset s b) e = true) by (rewrite ST; apply Z.leb_le; lia). destruct (handle_stalled _ _ _ E) as (w & W & _). eauto.
Qed.
(** Sleeping: all of the time, but if the job is terminated or nanosleep fails; in requests of less than two seconds that end before. *)
Theorem C58_sleep gran usec reads l rs t y : 0 <= gran -> 0 <= usec -> Forall (fun x => 0 <= x < 2 ^ 32) reads -> Forall (fun x => match x with Took d _ => 0 <= d < 2 ^ 32 | Fails => True end) l -> Z.of_nat (List.length l) < 2 ^ 31 ->
  usleep gran usec 0 reads l = (rs, Some (t, y)) -> y = Spun \/ y = Slept -> usec <= t.
Proof. intros G U R F N H Y. destruct (usleep_all gran reads G R l usec 0 rs t y F U ltac:(lia) ltac:(lia) H) as (A & _). specialize (A Y). lia. Qed.
Theorem C58_requests gran usec reads l rs r : 0 <= gran -> Forall (fun x => match x with Took d _ => 0 <= d | Fails => True end) l -> usleep gran usec 0 reads l = (rs, r) -> Forall (fun q => 0 <= micro q < 2000000 /\ micro q <= usec - gran /\ 0 <= snd q < 10 ^ 9) rs.
Proof. intros G F H. exact (usleep_requests gran reads G l usec 0 rs r F H). Qed.

(** Cases. *)
Definition ev (b : Z) : seen := Seen b (b * 10) (b * 10) 21 (b * 10 + 21) 80 (b * 10 + 101).
Example C58_ex_ok : opts_ok (Topts 100 20 3 true 0 0 1000000 4096 true).
Proof. unfold opts_ok. cbn. lia. Qed.
Example C58_ex_calls : calls (Topts 100 20 3 true 0 0 0 4096 true) (TState 0 0 0 0) (map ev [1; 2; 3; 4; 5; 6; 7]) = (TState 6 0 0 0, [None; None; Some (Wait 20 79); None; None; Some (Wait 20 79); None]).
Proof. vm_compute. reflexivity. Qed.
Example C58_ex_up : counts_up 1 0 (map ev [1; 2; 3; 4; 5; 6; 7]).
Proof. cbn. lia. Qed.
(** thinktime_iotime=50 and no thinktime_blocks; a runtime that ends while it sleeps. *)
Example C58_ex_iotime : map (fun e => snd (handle (Topts 100 20 1 false 50 110 0 4096 true) (TState 0 0 0 0) e)) [ev 4; ev 5] = [None; Some (Wait 20 39)].
Proof. vm_compute. reflexivity. Qed.
Example C58_ex_rate : fst (handle (Topts 100 20 3 true 0 0 1000000000 4096 true) (TState 0 0 12288 7) (ev 3)) = TState 3 0 (12288 + 101000 - 4096) 108.
Proof. vm_compute. reflexivity. Qed.
Example C58_ex_sleep : usleep 60 3000100 0 [10; 90] [Took 1000090 false; Took 1000060 false; Took 999900 false] = ([(1, 40000); (1, 999950000); (0, 999890000)], Some (3000140, Spun)).
Proof. vm_compute. reflexivity. Qed.

(** Two of three blocks are done at the reset, so it is one more. *)
Example C58_ex_reset : snd (calls (Topts 100 20 3 true 0 0 0 4096 false) (reset (TState 3 0 0 0) 5) (map ev [0; 1; 2; 3; 4])) = [None; Some (Wait 20 79); None; None; Some (Wait 20 79)].
Proof. vm_compute. reflexivity. Qed.

(** Not so: thinktime of an hour without a runtime; int does not hold its microseconds and it sleeps for more than 500000 years. *)
Theorem C58_hour_refuted : ~ (forall o s e s' w, 0 < thinktime o < 2 ^ 32 -> spin o = 0 -> timeout o = 0 -> handle o s e = (s', Some w) -> sleep_for w <= thinktime o).
Proof.
  intros H. specialize (H (Topts 3600000000 0 1 false 0 0 0 4096 false) (TState 0 0 0 0) (ev 1)). destruct (handle _ _ _) as [s' [w|]] eqn:E; [|vm_compute in E; discriminate]. specialize (H s' w ltac:(cbn; lia) eq_refl eq_refl eq_refl). vm_compute in E. injection E as <- <-. vm_compute in H. apply H. reflexivity.
Qed.
(** Not so: that it does not think after the end of the runtime, once that has passed. *)
Theorem C58_late_refuted : ~ (forall o s e s' w, opts_ok o -> 0 < timeout o <= t_spin e -> t_spin e <= t_sleep e -> handle o s e = (s', Some w) -> sleep_for w = 0).
Proof.
  intros H. specialize (H (Topts 1000000 0 1 false 0 5 0 4096 false) (TState 0 0 0 0) (ev 1)). destruct (handle _ _ _) as [s' [w|]] eqn:E; [|vm_compute in E; discriminate]. specialize (H s' w ltac:(unfold opts_ok; cbn; lia) ltac:(cbn; lia) ltac:(cbn; lia) eq_refl). vm_compute in E. injection E as <- <-. vm_compute in H. discriminate.
Qed.
(** Not so: that a reset never stops it. If more than thinktime_blocks are done at the reset (those that were in flight while it waited are
    not counted as waited for) it does not think again. *)
Theorem C58_never_again o s b l : opts_ok o -> iotime o = 0 -> 0 <= last_blocks s -> blocks o < b - last_blocks s -> b < 2 ^ 62 -> counts_up (2 ^ 62) 0 l -> waits (snd (calls o (reset s b) l)) = 0.
Proof.
  intros (_ & _ & K2 & _) I L D B C. assert (RL : last_blocks (reset s b) = last_blocks s - b) by (cbn [reset last_blocks]; apply i64_id; lia). enough (G : forall l c, counts_up (2 ^ 62) c l -> waits (snd (calls o (reset s b) l)) = 0) by exact (G l 0 C). clear l C. induction l as [|e l IH]; intros c C; [reflexivity|]. cbn [counts_up] in C. destruct C as (_ & CM & C).
  assert (E : stalls o (reset s b) e = false).
  { unfold stalls. rewrite I, RL. cbn [Z.eqb negb andb]. apply Z.leb_gt. unfold u64. rewrite <- (Z.mod_add _ 1) by lia. rewrite Z.mod_small by lia. lia. }
  cbn [calls]. rewrite (handle_not _ _ _ E). pose proof (IH _ C) as Q. destruct (calls o (reset s b) l) as [s2 ws]. exact Q.
Qed.
Theorem C58_reset_refuted : ~ (forall o s b l, opts_ok o -> iotime o = 0 -> 0 <= last_blocks s <= b -> b < 2 ^ 62 -> counts_up 1 0 l -> blocks o <= end_count 0 l -> 0 < waits (snd (calls o (reset s b) l))).
Proof.
  intros H. specialize (H (Topts 100 0 1 false 0 0 0 4096 false) (TState 8 0 0 0) 15 [ev 1; ev 2; ev 3]). specialize (H ltac:(unfold opts_ok; cbn; lia) eq_refl ltac:(cbn; lia) ltac:(lia) ltac:(cbn; lia) ltac:(cbn; lia)). vm_compute in H. discriminate.
Qed.

Print Assumptions C58_when. Print Assumptions C58_blocks. Print Assumptions C58_every. Print Assumptions C58_long. Print Assumptions C58_total. Print Assumptions C58_runtime. Print Assumptions C58_rate. Print Assumptions C58_no_rate. Print Assumptions C58_reset. Print Assumptions C58_sleep. Print Assumptions C58_requests.
Print Assumptions C58_hour_refuted. Print Assumptions C58_late_refuted. Print Assumptions C58_never_again. Print Assumptions C58_reset_refuted.
