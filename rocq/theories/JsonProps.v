(** C42: the JSON report reads back as the values it was made from. *)
From Coq Require Import ZArith List Bool Lia String Ascii.
From Verif Require Import CBase CStr JsonModel JsonSpec JsonProofs.
Import ListNotations.
Open Scope Z_scope.

(** For every object, however deep and wide, of strings without control characters, integers and finite floats, under names in which
    nothing needs an escape: printing succeeds and a JSON reader recovers the object, floats to six places. *)
Theorem C42_report_reads_back ps : plain (VObj ps) -> exists t, json_print_object ps = Some t /\ read t = Some (meaning (VObj ps)).
Proof.
  intros P. exists (ptext 0 (VObj ps)). split; [apply print_ok|]. unfold read. pose proof (all_read (VObj ps) (S (List.length (ptext 0 (VObj ps)))) 0%nat 0%nat [] ltac:(pose proof (need_length (VObj ps) 0 P); lia) P) as R.
  cbn [repeat app] in R. rewrite app_nil_r in R. rewrite R; [reflexivity|]. intros c t E. discriminate.
Qed.

(** The same for a value at any nesting level inside a text: the reader stops exactly behind it. *)
Theorem C42_value_reads_back v level r : plain v -> ends r -> exists t, print_value level v = Some t /\ forall f, (List.length t <= f)%nat -> read_value f (t ++ r) = Some (meaning v, r).
Proof.
  intros P E. exists (ptext level v). split; [apply print_ok|]. intros f F. apply (all_read v f level 0%nat r); auto. pose proof (need_length v level P). lia.
Qed.

(** Every string without control characters is quoted so that the reader recovers it; the reader stops at the closing quote. *)
Theorem C42_string_reads_back s r : Forall (fun c => 32 <= c) s -> exists e, strdup_escape s = Some e /\ read_string (e ++ 34 :: r) = Some (s, r).
Proof. intros H. exists (escape_copy s). split; [apply strdup_ok|]. apply read_escaped. auto. Qed.

(** For every string at all the copy stays within the block that was allocated for it, and fills it. *)
Theorem C42_escape_stays_in_its_block s : exists e, strdup_escape s = Some e /\ Z.of_nat (List.length e) + 1 = Z.of_nat (List.length s) + escapes s + 1.
Proof. exists (escape_copy s). split; [apply strdup_ok|]. rewrite escape_length. lia. Qed.

(** Different reports never print the same text. *)
Theorem C42_no_two_reports_alike a b t : plain (VObj a) -> plain (VObj b) -> json_print_object a = Some t -> json_print_object b = Some t -> meaning (VObj a) = meaning (VObj b).
Proof.
  intros A B Ha Hb. destruct (C42_report_reads_back a A) as (ta & E1 & R1). destruct (C42_report_reads_back b B) as (tb & E2 & R2). congruence.
Qed.

(** Printing never fails. *)
Theorem C42_always_prints v level : exists t, print_value level v = Some t.
Proof. eexists. apply print_ok. Qed.

(** Names are printed without escapes (json.c:331), control characters are not escaped, and infinities and NaNs have no JSON form: in each
    of these cases the reader refuses the text. *)
Fixpoint text (s : string) : list Z := match s with EmptyString => [] | String c s => Z.of_nat (nat_of_ascii c) :: text s end.
Theorem C42_name_refuted : exists t, json_print_object [([97; 34; 98], VInt 1)] = Some t /\ read t = None.
Proof. eexists. split; [apply print_ok|]. vm_compute. reflexivity. Qed.
Theorem C42_control_character_refuted : exists t, json_print_object [(text "desc", VStr [97; 9; 98])] = Some t /\ read t = None.
Proof. eexists. split; [apply print_ok|]. vm_compute. reflexivity. Qed.
Theorem C42_not_a_number_refuted neg : exists t, json_print_object [(text "mean", VFlo (NaN neg))] = Some t /\ read t = None.
Proof. eexists. split; [apply print_ok|]. destruct neg; vm_compute; reflexivity. Qed.
Theorem C42_infinity_refuted neg : exists t, json_print_object [(text "mean", VFlo (Inf neg))] = Some t /\ read t = None.
Proof. eexists. split; [apply print_ok|]. destruct neg; vm_compute; reflexivity. Qed.

(** A case: nested objects and arrays, quotes and backslashes, negative numbers, empty containers. *)
Definition sample : list (list Z * value) :=
  [(text "fio version", VStr (text "fio-3.\""q\x")); (text "jobs", VArr [VObj [(text "error", VInt (-5)); (text "bw", VFlo (Fin true 1500007))]; VArr []; VInt 0]); (text "x", VObj [])].
Example C42_sample_plain : plain (VObj sample).
Proof. vm_compute. repeat (split || constructor); discriminate. Qed.
Example C42_sample_text : json_print_object [(text "a", VStr [34]); (text "b", VArr [VFlo (Fin false 1500007)])] =
  Some (text "{" ++ [10] ++ text "  " ++ [34; 97; 34] ++ text " : " ++ [34; 92; 34; 34; 44; 10] ++ text "  " ++ [34; 98; 34] ++ text " : [" ++ [10] ++ text "    1.500007" ++ [10] ++ text "  ]" ++ [10] ++ text "}").
Proof. vm_compute. reflexivity. Qed.
Example C42_sample_reads : exists t, json_print_object sample = Some t /\ read t = Some (meaning (VObj sample)).
Proof. exact (C42_report_reads_back sample C42_sample_plain). Qed.
Print Assumptions C42_report_reads_back.
Print Assumptions C42_value_reads_back.
Print Assumptions C42_string_reads_back.
Print Assumptions C42_escape_stays_in_its_block.
Print Assumptions C42_no_two_reports_alike.
