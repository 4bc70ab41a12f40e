(* Streams as Arrow files. *)
From Verif Require Import Common Model_rec Model_strm Spec_strm Model_pyerr Spec_pyerr Proof_pyerr Model_arrow Spec_arrow Proof_arrow.
From Coq Require Import ZArith Lia.
Local Open Scope Z_scope.

(* ---------------- C88 ---------------- *)

(* C88. The answers to any calls with sensible arguments are those of a file with the stream's content and one cursor. *)
Theorem C88_history : forall k content sched ops,
  (N.of_nat (length content) < 2 ^ 63)%N -> Forall (sensible content) ops ->
  file_history k content ops (Some 0) (f_run ops (opened k content sched)).
Proof. intros k content sched ops Hs Hm. exact (f_history k content ops _ _ Hs Hm (opened_cursor k content sched)). Qed.
Print Assumptions C88_history.

(* C88. Over a memory block or an S3 object, reading at a place in the content delivers exactly the bytes there, whatever was called
   before. *)
Theorem C88_read_at : forall k content sched ops p n,
  k <> K_file -> (N.of_nat (length content) < 2 ^ 63)%N -> Forall (sensible content) (ops ++ [F_read_at p n]) ->
  ~ In F_close ops -> p <= Z.of_nat (length content) ->
  exists rs, f_run (ops ++ [F_read_at p n]) (opened k content sched) = rs ++ [Bytes (part content p n)] /\ length rs = length ops.
Proof. exact read_at_exact. Qed.
Print Assumptions C88_read_at.

(* C88. What a failing stream throws reaches Arrow as the status of its kind. *)
Theorem C88_status : forall e,
  (derives (class_of e) Stream_error -> boundary (Throw e) = Error St_io_error) /\
  (derives (class_of e) Not_supported_error -> boundary (Throw e) = Error St_not_implemented) /\
  (derives (class_of e) Invalid_argument_error -> boundary (Throw e) = Error St_invalid) /\
  exists s, boundary (Throw e) = Error s.
Proof.
  intro e. repeat split; [intro H; apply isa_derives in H; destruct e; try discriminate H; reflexivity..|].
  eexists. reflexivity.
Qed.
Print Assumptions C88_status.

Example C88_status_case : derives (class_of Inflate_err) Stream_error /\ derives (class_of Not_supported) Not_supported_error.
Proof. split; apply isa_derives; reflexivity. Qed.

Definition C88_ops : list fop :=
  [F_size; F_read_buffer 2; F_tell; F_seek 9; F_tell; F_read 1; F_read_at 1 2; F_tell; F_close; F_tell].
Lemma C88_ops_sensible : Forall (sensible [1; 2; 3; 4]%N) C88_ops.
Proof. unfold C88_ops. repeat (apply Forall_cons; [cbn [sensible length]; try exact I; lia|]). constructor. Qed.
Example C88_history_case :
  Forall (sensible [1; 2; 3; 4]%N) C88_ops /\
  f_run C88_ops (opened K_memory [1; 2; 3; 4]%N []) =
    [Number 4; Bytes [1; 2]%N; Number 2; Done; Number 4; Bytes []; Bytes [2; 3]%N; Number 3; Done; Error St_invalid] /\
  f_run C88_ops (opened K_file [1; 2; 3; 4]%N [1; 1; 1]%nat) =
    [Number 4; Bytes [1]%N; Number 1; Done; Number 4; Bytes []; Bytes [2]%N; Number 2; Done; Error St_invalid] /\
  f_run [F_read 3; F_seek 9; F_tell] (opened K_s3 [1; 2; 3; 4]%N []) = [Bytes [1; 2; 3]%N; Error St_unknown; Number 3].
Proof.
  split; [exact C88_ops_sensible|]. split; [|split]; vm_compute; reflexivity.
Qed.

Example C88_read_at_case :
  K_s3 <> K_file /\ Forall (sensible [1; 2; 3; 4]%N) ([F_seek 3; F_read 9] ++ [F_read_at 1 2]) /\
  ~ In F_close [F_seek 3; F_read 9] /\ part [1; 2; 3; 4]%N 1 2 = [2; 3]%N.
Proof.
  split; [discriminate|]. split; [|split; [cbn; intuition discriminate|reflexivity]].
  cbn [app]. repeat (apply Forall_cons; [cbn [sensible length]; lia|]). constructor.
Qed.

(* C88. Over a local file, a read may deliver fewer bytes than asked for although there are more: Arrow's own files deliver fewer
   only at the end, and Arrow's readers take fewer bytes for a truncated file. *)
Theorem C88_short_refuted : exists content sched p n,
  sensible content (F_read_at p n) /\ p + n <= Z.of_nat (length content) /\
  f_run [F_read_at p n] (opened K_file content sched) <> [Bytes (part content p n)].
Proof. exists [1; 2; 3]%N, [1]%nat, 0, 3. split; [cbn [sensible length]; lia|]. split; [discriminate|]. vm_compute. discriminate. Qed.
Print Assumptions C88_short_refuted.

(* C88. A negative place is not refused: over a memory block the cursor leaves the block, and the next read is undefined. *)
Theorem C88_negative_refuted : exists content p n,
  f_run [F_seek p; F_read n] (opened K_memory content []) = [Done; Undefined] /\ sensible content (F_read n).
Proof. exists [1; 2; 3]%N, (-1), 2. split; [vm_compute; reflexivity|cbn [sensible length]; lia]. Qed.
Print Assumptions C88_negative_refuted.

(* C88. A place beyond the end is refused for S3 objects only, and as an unknown error rather than an input/output error. *)
Theorem C88_beyond_end_refuted : exists content p,
  sensible content (F_seek p) /\ f_run [F_seek p] (opened K_s3 content []) = [Error St_unknown] /\
  f_run [F_seek p] (opened K_file content []) = [Done] /\ f_run [F_seek p] (opened K_memory content []) = [Done].
Proof. exists [1]%N, 2. split; [cbn [sensible length]; lia|]. vm_compute. auto. Qed.
Print Assumptions C88_beyond_end_refuted.
