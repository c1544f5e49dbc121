(** Byte buffers: bounds-checked copies, shared by the component models. *)
From Coq Require Import ZArith List Lia Bool.
From Verif Require Import CBase.
Import ListNotations.
Open Scope Z_scope.

(** memcpy(buf + off, d, |d|); [None] when the destination range is not inside [buf]. *)
Definition blit {A} (buf : list A) (off : nat) (d : list A) : option (list A) :=
  if (off + length d <=? length buf)%nat
  then Some (firstn off buf ++ d ++ skipn (off + length d) buf)
  else None.

(** The [len] elements at [off]; [None] when the range is not inside [buf]. *)
Definition slice {A} (buf : list A) (off len : nat) : option (list A) :=
  if (off + len <=? length buf)%nat then Some (firstn len (skipn off buf)) else None.

Lemma nth_error_skipn {A} (l : list A) : forall n i, nth_error (skipn n l) i = nth_error l (n + i).
Proof.
  induction l as [|x l IH]; intros [|n] i; simpl; auto. destruct i; auto.
Qed.

Lemma nth_error_firstn {A} (l : list A) : forall n i,
  nth_error (firstn n l) i = if (i <? n)%nat then nth_error l i else None.
Proof.
  induction l as [|x l IH]; intros n i.
  - rewrite firstn_nil. destruct i, (_ <? n)%nat; reflexivity.
  - destruct n as [|n]; simpl.
    + destruct i; reflexivity.
    + destruct i as [|i]; simpl; auto. rewrite IH. reflexivity.
Qed.

Lemma nth_skipn {A} (l : list A) d n i : nth i (skipn n l) d = nth (n + i) l d.
Proof.
  revert n i. induction l as [|x l IH]; intros [|n] i; simpl; auto. destruct i; auto.
Qed.

Lemma nth_firstn {A} (l : list A) d n i : (i < n)%nat -> nth i (firstn n l) d = nth i l d.
Proof.
  revert n i. induction l as [|x l IH]; intros n i H.
  - rewrite firstn_nil. auto.
  - destruct n as [|n]; [lia|]. destruct i; simpl; auto. apply IH. lia.
Qed.

Lemma blit_some {A} (buf : list A) off d : (off + length d <= length buf)%nat ->
  exists b, blit buf off d = Some b.
Proof. intros H. unfold blit. apply Nat.leb_le in H. rewrite H. eauto. Qed.

Lemma blit_length {A} (buf b : list A) off d : blit buf off d = Some b -> length b = length buf.
Proof.
  unfold blit. destruct (Nat.leb_spec (off + length d) (length buf)); [|discriminate].
  intros E; inversion E; subst. rewrite !app_length, firstn_length, skipn_length. lia.
Qed.

Lemma blit_nth {A} (buf b : list A) off d x i : blit buf off d = Some b ->
  nth i b x = if ((off <=? i) && (i <? off + length d))%nat then nth (i - off) d x else nth i buf x.
Proof.
  unfold blit. destruct (Nat.leb_spec (off + length d) (length buf)); [|discriminate].
  intros E; inversion E; subst. clear E.
  destruct (Nat.leb_spec off i), (Nat.ltb_spec i (off + length d)); cbn [andb].
  - rewrite app_nth2; rewrite firstn_length_le by lia; [|lia]. rewrite app_nth1 by lia. auto.
  - rewrite app_nth2; rewrite firstn_length_le by lia; [|lia]. rewrite app_nth2 by lia.
    rewrite nth_skipn. f_equal. lia.
  - rewrite app_nth1 by (rewrite firstn_length_le; lia). apply nth_firstn. auto.
  - rewrite app_nth1 by (rewrite firstn_length_le; lia). apply nth_firstn. auto.
Qed.

Lemma slice_some {A} (buf : list A) off len : (off + len <= length buf)%nat ->
  slice buf off len = Some (firstn len (skipn off buf)).
Proof. intros H. unfold slice. apply Nat.leb_le in H. rewrite H. auto. Qed.

Lemma slice_length {A} (buf s : list A) off len : slice buf off len = Some s -> length s = len.
Proof.
  unfold slice. destruct (Nat.leb_spec (off + len) (length buf)); [|discriminate].
  intros E; inversion E; subst. rewrite firstn_length, skipn_length. lia.
Qed.

Lemma slice_nth {A} (buf s : list A) off len x i : slice buf off len = Some s -> (i < len)%nat ->
  nth i s x = nth (off + i) buf x.
Proof.
  unfold slice. destruct (Nat.leb_spec (off + len) (length buf)); [|discriminate].
  intros E Hi; inversion E; subst. rewrite nth_firstn by auto. apply nth_skipn.
Qed.

Lemma list_ext {A} (x : A) (a b : list A) : length a = length b ->
  (forall i, (i < length a)%nat -> nth i a x = nth i b x) -> a = b.
Proof. intros. apply nth_ext with x x; auto. Qed.

Lemma map_seq_nth {A} (f : nat -> A) d n i : (i < n)%nat -> nth i (map f (seq 0 n)) d = f i.
Proof.
  intros H. rewrite nth_indep with (d' := f 0%nat) by (rewrite map_length, seq_length; auto).
  rewrite map_nth, seq_nth by auto. auto.
Qed.

Lemma skipn_skipn' {A} (l : list A) : forall a b, skipn a (skipn b l) = skipn (b + a) l.
Proof.
  intros a b. revert l. induction b; intros l; simpl; auto. destruct l; auto. rewrite skipn_nil. auto.
Qed.
