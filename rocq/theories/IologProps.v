(** C32: replaying a logged job. *)
From Coq Require Import ZArith List Bool Lia String.
From Verif Require Import CBase UnitsModel IologModel IologSpec IologProofs.
Import ListNotations.
Open Scope Z_scope.

(** The log of any run over files with names without white space and of at most 256 characters, whose I/Os are reads, writes, trims,
    syncs and data syncs of less than 4 GiB, at least one of them moving data: the reader accepts it whatever its uninitialised
    variables held, registers the files in order, and the replay issues exactly the logged I/Os. *)
Theorem C32_replay_reproduces o v files es : default o -> Forall (fun '(t, n) => 0 <= t < 2 ^ 64 /\ good_name n) files -> Forall (good_event (map snd files)) es -> transfers es ->
  exists s, read_log o v (write_log files es) = Some s /\ r_files s = map snd files /\ replay (r_files s) (r_pieces s) = Some (ios es).
Proof. intros A B C D. destruct (round_trip o v files es A B C D) as (s & S1 & S2 & S3 & _). exists s. auto. Qed.
(** With times that do not go back, the pause before each entry is the time since the entry before it. *)
Theorem C32_pauses o v files es : default o -> Forall (fun '(t, n) => 0 <= t < 2 ^ 64 /\ good_name n) files -> Forall (good_event (map snd files)) es -> transfers es ->
  o_no_stall o = false -> ordered 0 (map (fun '(t, n) => EFile t n FAdd) files ++ es) ->
  exists s, read_log o v (write_log files es) = Some s /\ map p_delay (r_pieces s) = pauses 0 (map (fun '(t, n) => EFile t n FAdd) files ++ es).
Proof. intros A B C D E F. destruct (round_trip o v files es A B C D) as (s & S1 & _ & _ & S4). exists s. split; [exact S1|]. apply (S4 E F). Qed.

(** Any text whatever, accepted as a log under any options: what the options forbid is not in the replay. *)
Theorem C32_readonly o v text s p : read_log o v text = Some s -> In p (r_pieces s) -> o_readonly o = true -> p_ddir p <> DWrite /\ p_ddir p <> DTrim.
Proof. intros H I. apply read_log_ok in H. rewrite Forall_forall in H. exact (proj1 (H p I)). Qed.
Theorem C32_skip o v text s p d : read_log o v text = Some s -> In p (r_pieces s) -> In d [DRead; DWrite; DTrim; DSync] -> o_skip o d = true -> p_ddir p <> d.
Proof. intros H I. apply read_log_ok in H. rewrite Forall_forall in H. exact (proj1 (proj2 (H p I)) d). Qed.
Theorem C32_no_stall o v text s p : read_log o v text = Some s -> In p (r_pieces s) -> o_no_stall o = true -> p_delay p = 0.
Proof. intros H I. apply read_log_ok in H. rewrite Forall_forall in H. exact (proj1 (proj2 (proj2 (H p I)))). Qed.
Theorem C32_align o v text s p k : read_log o v text = Some s -> In p (r_pieces s) -> 0 <= k <= 63 -> o_align o = 2 ^ k -> p_offset p mod 2 ^ k = 0.
Proof. intros H I. apply read_log_ok in H. rewrite Forall_forall in H. exact (proj2 (proj2 (proj2 (H p I))) k). Qed.

(** A concrete run meeting the hypotheses. *)
Definition plain : ropts := mkRopts None (fun _ => false) 0 0 false false [].
Definition junk (b : Z) : vars := mkVars 5 [120] [121] 77 b 3 FClose.
Definition fa := chars "/tmp/a".
Definition fb := chars "b-1".
Definition run : list event :=
  [EFile 3 fa FOpen; EIo 4 fa DWrite 0 4096; EFile 4 fb FOpen; EIo 9 fb DRead (2 ^ 40) (2 ^ 32 - 1); EIo 10 fa DSync 0 0; EIo 12 fa DTrim 8192 512; EIo 15 fb DDatasync 0 0; EFile 20 fa FClose].
Example run_default : default plain.
Proof. unfold default, plain. cbn. repeat split; reflexivity. Qed.
Example name_a : good_name fa.
Proof. split; [discriminate|]. split; [vm_compute; lia|]. vm_compute. repeat (apply Forall_cons; [unfold blank; intros [X|X]; [discriminate X|destruct X as [X Y]; first [apply X; reflexivity|apply Y; reflexivity]]|]). apply Forall_nil. Qed.
Example name_b : good_name fb.
Proof. split; [discriminate|]. split; [vm_compute; lia|]. vm_compute. repeat (apply Forall_cons; [unfold blank; intros [X|X]; [discriminate X|destruct X as [X Y]; first [apply X; reflexivity|apply Y; reflexivity]]|]). apply Forall_nil. Qed.
Example run_good : Forall (fun '(t, n) => 0 <= t < 2 ^ 64 /\ good_name n) [(1, fa); (2, fb)] /\ Forall (good_event (map snd [(1, fa); (2, fb)])) run /\ transfers run.
Proof.
  split; [apply Forall_cons; [split; [lia|apply name_a]|]; apply Forall_cons; [split; [lia|apply name_b]|]; apply Forall_nil|]. split.
  - unfold run. cbn [map snd]. repeat (apply Forall_cons; [cbn [good_event]; unfold known; cbn [In]; first [split; [lia|]; split; [tauto|]; discriminate | split; [lia|]; split; [tauto|]; split; [tauto|]; lia]|]). apply Forall_nil.
  - exists 4, fa, DWrite, 0, 4096. split; [right; left; reflexivity|tauto].
Qed.
Example run_replayed : option_map (fun s => (replay (r_files s) (r_pieces s), map p_delay (r_pieces s))) (read_log plain (junk 0) (write_log [(1, fa); (2, fb)] run)) =
  Some (Some [(fa, DWrite, 0, 4096); (fb, DRead, 2 ^ 40, 2 ^ 32 - 1); (fa, DSync, 0, 0); (fa, DTrim, 8192, 512); (fb, DDatasync, 0, 0)], [0; 1; 1; 1; 0; 5; 1; 2; 3; 5]).
Proof. vm_compute. reflexivity. Qed.
Example run_restricted : option_map (fun s => replay (r_files s) (r_pieces s)) (read_log (mkRopts None (fun d => match d with DSync => true | _ => false end) 0 0 true true []) (junk 0) (write_log [(1, fa); (2, fb)] run)) =
  Some (Some [(fb, DRead, 2 ^ 40, 2 ^ 32 - 1); (fb, DDatasync, 0, 0)]).
Proof. vm_compute. reflexivity. Qed.

(** Outside the hypotheses the log is not reproduced. The log can hold sync_file_range and syncfs, which the reader drops. *)
Theorem C32_range_sync_refuted : exists o v files es s, default o /\ Forall (fun '(t, n) => good_name n) files /\ transfers es /\
  read_log o v (write_log files es) = Some s /\ replay (r_files s) (r_pieces s) <> Some (ios es).
Proof.
  exists plain, (junk 0), [(0, fa)], [EIo 1 fa DWrite 0 4096; EIo 2 fa DSyncFileRange 0 4096]. eexists. split; [apply run_default|]. split; [apply Forall_cons; [apply name_a|apply Forall_nil]|]. split; [exists 1, fa, DWrite, 0, 4096; split; [left; reflexivity|tauto]|]. split; [vm_compute; reflexivity|]. vm_compute. discriminate.
Qed.
(** A length of 4 GiB or more loses its high bits. *)
Theorem C32_long_io_refuted : exists o v files es s, default o /\ Forall (fun '(t, n) => good_name n) files /\ transfers es /\
  (forall t n d off len, In (EIo t n d off len) es -> known d /\ In n (map snd files) /\ 0 <= len < 2 ^ 63) /\
  read_log o v (write_log files es) = Some s /\ replay (r_files s) (r_pieces s) = Some [(fa, DWrite, 0, 1)].
Proof.
  exists plain, (junk 0), [(0, fa)], [EIo 1 fa DWrite 0 (2 ^ 32 + 1)]. eexists. split; [apply run_default|]. split; [apply Forall_cons; [apply name_a|apply Forall_nil]|]. split; [exists 1, fa, DWrite, 0, (2 ^ 32 + 1); split; [left; reflexivity|tauto]|]. split.
  - intros t n d off len [X|[]]. injection X as <- <- <- <- <-. split; [unfold known; tauto|]. split; [left; reflexivity|lia].
  - split; [vm_compute; reflexivity|]. vm_compute. reflexivity.
Qed.
(** A file name with a blank makes the log unreadable. *)
Theorem C32_blank_name_refuted : exists o files es, default o /\ transfers es /\ (forall t n d off len, In (EIo t n d off len) es -> known d /\ In n (map snd files) /\ 0 <= len < 2 ^ 32) /\
  forall b, read_log o (junk b) (write_log files es) = None.
Proof.
  exists plain, [(0, chars "a b")], [EIo 1 (chars "a b") DWrite 0 512]. split; [apply run_default|]. split; [exists 1, (chars "a b"), DWrite, 0, 512; split; [left; reflexivity|tauto]|]. split.
  - intros t n d off len [X|[]]. injection X as <- <- <- <- <-. split; [unfold known; tauto|]. split; [left; reflexivity|lia].
  - intros b. vm_compute. reflexivity.
Qed.
(** A run that only synced is refused, even though its log is well formed. *)
Theorem C32_only_syncs_refuted : exists o v files es, default o /\ Forall (fun '(t, n) => good_name n) files /\ Forall (good_event (map snd files)) es /\ es <> [] /\ read_log o v (write_log files es) = None.
Proof.
  exists plain, (junk 0), [(0, fa)], [EIo 1 fa DSync 0 0]. split; [apply run_default|]. split; [apply Forall_cons; [apply name_a|apply Forall_nil]|]. split; [apply Forall_cons; [|apply Forall_nil]; cbn; unfold known; split; [lia|]; split; [tauto|]; split; [tauto|lia]|]. split; [discriminate|]. vm_compute. reflexivity.
Qed.
(** With a directory, names are put in it twice when added and once when used: the replay indexes the file table with -1. *)
Theorem C32_directory_refuted : exists o v files es s, o_directory o = chars "d/" /\ Forall (fun '(t, n) => good_name n) files /\ Forall (good_event (map snd files)) es /\ transfers es /\
  read_log o v (write_log files es) = Some s /\ replay (r_files s) (r_pieces s) = None.
Proof.
  exists (mkRopts None (fun _ => false) 0 0 false false (chars "d/")), (junk 0), [(0, fa)], [EIo 1 fa DWrite 0 512]. eexists. split; [reflexivity|]. split; [apply Forall_cons; [apply name_a|apply Forall_nil]|]. split; [apply Forall_cons; [|apply Forall_nil]; cbn; unfold known; split; [lia|]; split; [tauto|]; split; [tauto|lia]|]. split; [exists 1, fa, DWrite, 0, 512; split; [left; reflexivity|tauto]|]. split; [vm_compute; reflexivity|]. vm_compute. reflexivity.
Qed.
(** The size of the replay (td->total_io_size) counts what happened to be in an uninitialised variable. *)
Theorem C32_total_refuted : exists o files es s s', default o /\ Forall (fun '(t, n) => good_name n) files /\ Forall (good_event (map snd files)) es /\ transfers es /\
  read_log o (junk 0) (write_log files es) = Some s /\ read_log o (junk 1000) (write_log files es) = Some s' /\ r_total s = 512 /\ r_total s' = 1512.
Proof.
  exists plain, [(0, fa)], [EIo 1 fa DWrite 0 512]. eexists. eexists. split; [apply run_default|]. split; [apply Forall_cons; [apply name_a|apply Forall_nil]|]. split; [apply Forall_cons; [|apply Forall_nil]; cbn; unfold known; split; [lia|]; split; [tauto|]; split; [tauto|lia]|]. split; [exists 1, fa, DWrite, 0, 512; split; [left; reflexivity|tauto]|]. split; [vm_compute; reflexivity|]. split; [vm_compute; reflexivity|]. split; vm_compute; reflexivity.
Qed.

Print Assumptions C32_replay_reproduces.
Print Assumptions C32_pauses.
Print Assumptions C32_readonly.
Print Assumptions C32_skip.
Print Assumptions C32_no_stall.
Print Assumptions C32_align.
