(** Proofs about thinktime, for C58. *)
From Coq Require Import ZArith List Lia Bool.
From Verif Require Import CBase ThinkModel ThinkSpec.
Import ListNotations.
Open Scope Z_scope.

Lemma u64_id x : 0 <= x < 2 ^ 64 -> u64 x = x.
Proof. intros. apply Z.mod_small. lia. Qed.
Lemma u32_id x : 0 <= x < 2 ^ 32 -> u32 x = x.
Proof. intros. apply Z.mod_small. lia. Qed.
Lemma i32_id x : 0 <= x < 2 ^ 31 -> i32 x = x.
Proof. intros. unfold i32. rewrite u32_id by lia. cbv zeta. destruct (Z.ltb_spec x (2 ^ 31)); lia. Qed.
Lemma i64_pos x : 0 <= x < 2 ^ 63 -> i64 x = x.
Proof. intros. unfold i64. rewrite u64_id by lia. cbv zeta. destruct (Z.ltb_spec x (2 ^ 63)); lia. Qed.
Lemma i64_neg x : - 2 ^ 63 <= x < 0 -> i64 x = x.
Proof. intros. unfold i64. assert (E : u64 x = x + 2 ^ 64) by (unfold u64; replace x with (x + 2 ^ 64 + (-1) * 2 ^ 64) at 1 by lia; rewrite Z.mod_add by lia; apply Z.mod_small; lia). rewrite E. cbv zeta. destruct (Z.ltb_spec (x + 2 ^ 64) (2 ^ 63)); lia. Qed.
Lemma i64_id x : - 2 ^ 63 <= x < 2 ^ 63 -> i64 x = x.
Proof. intros. destruct (Z_lt_dec x 0); [apply i64_neg|apply i64_pos]; lia. Qed.

(** The time to wait is cut at the end of the runtime. *)
Lemma limit_cases o left now : 0 <= left < 2 ^ 31 -> 0 <= timeout o < 2 ^ 63 -> 0 <= now -> (timeout o <> 0 -> now <= timeout o) -> limit o left now = if timeout o =? 0 then left else Z.min left (timeout o - now).
Proof.
  intros L T N R. unfold limit. destruct (Z.eqb_spec (timeout o) 0) as [|NZ]; [reflexivity|]. specialize (R NZ). cbv zeta. rewrite (u64_id (timeout o - now)) by lia. rewrite (u64_id left) by lia. destruct (Z.ltb_spec (timeout o - now) left); [rewrite i32_id by lia|]; lia.
Qed.
(** Blocks alone, with the state that calls leave. *)
Lemma stalls_blocks o s e : opts_ok o -> iotime o = 0 -> - 2 ^ 32 <= - blocks o <= last_blocks s -> last_blocks s < 2 ^ 62 -> stalls o s e = (last_blocks s + blocks o <=? cnt e).
Proof. intros (_ & _ & B & _) I L H. unfold stalls. rewrite I. cbn [Z.eqb negb andb]. rewrite u64_id by lia. reflexivity. Qed.
Lemma handle_stalled o s e : stalls o s e = true -> exists w, snd (handle o s e) = Some w /\ last_blocks (fst (handle o s e)) = i64 (cnt e) /\ last_time (fst (handle o s e)) = (if iotime o =? 0 then last_time s else t_end e).
Proof. intros E. unfold handle. rewrite E. cbv zeta. destruct (account _ _ _) as [a b]. eexists. cbn [fst snd last_blocks last_time]. auto. Qed.
Lemma handle_not o s e : stalls o s e = false -> handle o s e = (s, None).
Proof. intros E. unfold handle. rewrite E. reflexivity. Qed.

Lemma end_count_cons b e l : end_count b (e :: l) = end_count (cnt e) l.
Proof. unfold end_count. cbn [rev]. destruct (rev l); reflexivity. Qed.
(** Every [blocks] blocks, and with steps of one exactly then. *)
Lemma calls_waits o : opts_ok o -> iotime o = 0 -> forall d l s b, counts_up d b l -> 0 <= d -> - blocks o <= last_blocks s <= b -> 0 <= b < 2 ^ 62 -> b - last_blocks s < blocks o ->
  let s' := fst (calls o s l) in last_blocks s <= last_blocks s' <= end_count b l /\ end_count b l - last_blocks s' < blocks o /\
  waits (snd (calls o s l)) * blocks o <= last_blocks s' - last_blocks s <= waits (snd (calls o s l)) * (blocks o - 1 + d).
Proof.
  intros K I d. cbv zeta. induction l as [|e l IH]; intros s b C D L B R; [cbn; unfold end_count; cbn; lia|]. cbn [counts_up] in C. destruct C as (CB & CM & C). rewrite end_count_cons. destruct K as (K0 & K1 & K2 & K3 & K4).
  assert (ST := stalls_blocks o s e (conj K0 (conj K1 (conj K2 (conj K3 K4)))) I ltac:(lia) ltac:(lia)). cbn [calls]. destruct (stalls o s e) eqn:E.
  - destruct (handle_stalled o s e E) as (w & W & LB & _). destruct (handle o s e) as [s1 w1]. cbn [fst snd] in W, LB. subst w1. rewrite i64_pos in LB by lia. symmetry in ST. apply Z.leb_le in ST.
    pose proof (IH s1 (cnt e) C D ltac:(lia) ltac:(lia) ltac:(lia)) as Q. destruct (calls o s1 l) as [s2 ws]. cbn [fst snd waits] in *. lia.
  - rewrite (handle_not o s e E). symmetry in ST. apply Z.leb_gt in ST. pose proof (IH s (cnt e) C D ltac:(lia) ltac:(lia) ltac:(lia)) as Q. destruct (calls o s l) as [s2 ws]. cbn [fst snd waits] in *. lia.
Qed.

Lemma request_micro ts : 0 <= ts -> 0 <= micro (request ts) <= ts /\ micro (request ts) < 2000000 /\ 0 <= snd (request ts) < 10 ^ 9.
Proof.
  intros H. unfold request, micro. destruct (Z.leb_spec 1000000 ts); cbn [fst snd].
  - pose proof (Z.div_mod ts 1000000 ltac:(lia)). pose proof (Z.mod_pos_bound ts 1000000 ltac:(lia)). rewrite Z.div_mul by lia. assert (1 <= ts / 1000000) by (apply Z.div_le_lower_bound; lia). lia.
  - rewrite Z.div_mul by lia. lia.
Qed.
Lemma uspin_all usec : forall l t, uspin usec l = Some t -> usec <= t /\ In t l.
Proof. induction l as [|x l IH]; intros t H; cbn [uspin] in H; [discriminate|]. destruct (Z.ltb_spec x usec); [destruct (IH t H); split; [auto|right; auto]|injection H as <-; split; [auto|left; auto]]. Qed.
(** All the time it was asked for is waited, but if the job is terminated or nanosleep fails. *)
Lemma usleep_all gran reads : 0 <= gran -> Forall (fun x => 0 <= x < 2 ^ 32) reads -> forall l usec t rs t' y, Forall (fun x => match x with Took d _ => 0 <= d < 2 ^ 32 | Fails => True end) l -> 0 <= usec -> 0 <= t -> t + (Z.of_nat (List.length l) + 1) * 2 ^ 32 < 2 ^ 64 ->
  usleep gran usec t reads l = (rs, Some (t', y)) -> (y = Spun \/ y = Slept -> t + usec <= t') /\ t <= t'.
Proof.
  intros G SB. induction l as [|x l IH]; intros usec t rs t' y F U T B H; cbn [usleep] in H; (destruct (Z.ltb_spec usec gran) as [LT|]; [destruct (uspin usec reads) as [x0|] eqn:SP; [|discriminate]; injection H as <- <- <-; destruct (uspin_all _ _ _ SP) as (S1 & S2); rewrite Forall_forall in SB; specialize (SB x0 S2); cbv beta in SB; cbn [List.length] in B; rewrite u64_id by lia; lia|]); [discriminate|].
  pose proof (Forall_inv F) as F0. pose proof (Forall_inv_tail F) as FT. cbv beta in F0. cbn [List.length] in B. destruct x as [|d term].
  - injection H as <- <- <-. split; [intros [|]; discriminate|lia].
  - rewrite u64_id in H by lia. destruct (Z.leb_spec usec d); [injection H as <- <- <-; lia|]. destruct term; [injection H as <- <- <-; split; [intros [|]; discriminate|lia]|].
    destruct (usleep gran (usec - d) (t + d) reads l) as [rs2 r] eqn:E. injection H as <- ->. destruct (IH (usec - d) (t + d) rs2 t' y FT ltac:(lia) ltac:(lia) ltac:(lia) E) as (A1 & A2). split; [intros Y; specialize (A1 Y); lia|lia].
Qed.
Lemma usleep_requests gran reads : 0 <= gran -> forall l usec t rs r, Forall (fun x => match x with Took d _ => 0 <= d | Fails => True end) l -> usleep gran usec t reads l = (rs, r) -> Forall (fun q => 0 <= micro q < 2000000 /\ micro q <= usec - gran /\ 0 <= snd q < 10 ^ 9) rs.
Proof.
  intros G. induction l as [|x l IH]; intros usec t rs r F H; cbn [usleep] in H; (destruct (Z.ltb_spec usec gran) as [LT|]; [injection H as <- <-; constructor|]); [injection H as <- <-; constructor|].
  pose proof (request_micro (usec - gran) ltac:(lia)) as Q. pose proof (Forall_inv F) as F0. pose proof (Forall_inv_tail F) as FT. cbv beta in F0. destruct x as [|d term]; [injection H as <- <-; constructor; [lia|constructor]|].
  destruct (Z.leb_spec usec d); [injection H as <- <-; constructor; [lia|constructor]|]. destruct term; [injection H as <- <-; constructor; [lia|constructor]|].
  destruct (usleep gran (usec - d) _ reads l) as [rs2 r2] eqn:E. injection H as <- <-. constructor; [lia|]. eapply Forall_impl; [|eapply IH; [exact FT|exact E]]. cbv beta. intros q ?. lia.
Qed.
