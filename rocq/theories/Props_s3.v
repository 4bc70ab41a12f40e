(* S3 objects that are written while they are read; clients and their credentials. *)
From Verif Require Import Common Model_s3 Spec_s3 Proof_s3.

(* C81. A stream opened with a version id shows the bytes of that version, whatever is written to the object meanwhile,
   however reads and failures interleave; a failed read reports the error of the service and can be repeated. *)
Theorem C81_version : forall w v content history,
  version w v content -> ~ In (W_remove v) history -> (N.of_nat (length content) < 2 ^ 64)%N ->
  exists x, open_stream w v None = R_ok x /\ sees content 0 false history (run history w x).
Proof. exact C81_version_l. Qed.
Print Assumptions C81_version.

Example C81_version_case :
  let w := [([7], Content [1; 2; 3; 4])]%N in
  let h := [C_read 2 None; W_put [8]%N [9; 9]%N; C_read 1 (Some E_timeout); C_read 1 None; W_delete [10]%N; C_read 5 None] in
  version w [7]%N [1; 2; 3; 4]%N /\ ~ In (W_remove [7]%N) h /\
  (exists x, open_stream w [7]%N None = R_ok x /\
     run h w x = [R_ok (O_bytes [1; 2]%N); R_system timed_out; R_ok (O_bytes [3]%N); R_ok (O_bytes [4]%N)]).
Proof.
  split; [|split].
  - split; [discriminate|]. split; [left; reflexivity|]. repeat constructor. intros [].
  - cbn. intuition discriminate.
  - eexists. split; [reflexivity|]. reflexivity.
Qed.

(* C81. Without a version id the same holds as long as nobody writes the object. *)
Theorem C81_newest : forall w v content history,
  newest w v content -> Forall (quiet v) history -> (N.of_nat (length content) < 2 ^ 64)%N ->
  exists x, open_stream w [] None = R_ok x /\ sees content 0 false history (run history w x).
Proof. exact C81_newest_l. Qed.
Print Assumptions C81_newest.

Example C81_newest_case :
  let w := [([8], Content [5; 6; 7]); ([7], Content [1; 2])]%N in
  let h := [C_read 2 None; W_remove [7]%N; C_seek 1; C_read 9 None; C_close; C_read 1 None] in
  newest w [8]%N [5; 6; 7]%N /\ Forall (quiet [8]%N) h /\
  (exists x, open_stream w [] None = R_ok x /\
     run h w x = [R_ok (O_bytes [5; 6]%N); R_ok O_unit; R_ok (O_bytes [6; 7]%N); R_ok O_unit; R_stream_error]).
Proof.
  split; [|split].
  - split; [|eexists; reflexivity]. repeat constructor; cbn; intuition discriminate.
  - repeat constructor; cbn; discriminate.
  - eexists. split; reflexivity.
Qed.

(* C81. These answers are the only ones that show the content. *)
Theorem C81_only_answer : forall content pos closed history answers answers',
  sees content pos closed history answers -> sees content pos closed history answers' -> answers = answers'.
Proof. intros content pos closed l r1 r2. apply sees_det. Qed.
Print Assumptions C81_only_answer.

Example C81_only_answer_case :
  sees [1; 2]%N 0 false [C_read 1 None; C_size] [R_ok (O_bytes [1]%N); R_ok (O_number 2)].
Proof.
  apply sees_read with (rest := [2]%N); [left; reflexivity|reflexivity|cbn; lia|cbn; lia|].
  apply sees_size. constructor.
Qed.

(* C81 fails without a version id when the object is replaced: bytes of two contents are delivered as one, with no error. *)
Theorem C81_overwritten_refuted : exists w id new history x first second,
  open_stream w [] None = R_ok x /\ history = [C_read 2 None; W_put id new; C_read 2 None] /\
  run history w x = [R_ok (O_bytes first); R_ok (O_bytes second)] /\
  (forall v c, In (v, Content c) ((id, Content new) :: w) -> first ++ second <> c).
Proof.
  exists [([7], Content [1; 2; 3; 4])]%N, [8]%N, [5; 6; 7; 8]%N.
  do 4 eexists. split; [reflexivity|]. split; [reflexivity|]. split; [reflexivity|].
  intros v c [H|[H|[]]]; injection H as <- <-; discriminate.
Qed.
Print Assumptions C81_overwritten_refuted.

(* C81. A stream is not opened if the service fails or has no such object, and the error says which. *)
Theorem C81_open_error : forall w v e,
  exists c, open_stream w v (Some e) = R_system c /\ reported e c.
Proof. intros w v e. exists (error_code e). split; [reflexivity|apply error_reported]. Qed.
Print Assumptions C81_open_error.

Theorem C81_deleted : forall w id v content,
  newest w v content -> ~ In id (map fst w) -> open_stream (world_step (W_delete id) w) [] None = R_system no_such_file_or_directory.
Proof.
  intros w id v content _ F. cbn [world_step]. unfold put. destruct (known w id) eqn:K; [|reflexivity].
  apply known_in in K. contradiction.
Qed.
Print Assumptions C81_deleted.

Example C81_error_case :
  open_stream [([7], Content [1])]%N [] (Some E_denied) = R_system permission_denied /\
  open_stream [] [] None = R_system no_such_file_or_directory /\
  open_stream (world_step (W_delete [8]%N) [([7], Content [1])]%N) [] None = R_system no_such_file_or_directory /\
  newest [([7], Content [1])]%N [7]%N [1]%N.
Proof. repeat split; try (eexists; reflexivity). repeat constructor. intros []. Qed.

(* C81. Of an object one byte more than asked for is transferred at most; one more is, whenever it is there. *)
Theorem C81_transfer : forall w v offset n body,
  (offset + n < 2 ^ 64)%N -> answer_body w v offset n None = inr body -> (N.of_nat (length body) <= n + 1)%N.
Proof.
  intros w v offset n body H E. unfold answer_body, svc_get in E. destruct (lookup w v) as [|c]; [discriminate|].
  rewrite N.mod_small in E by exact H. destruct (offset + n <? offset)%N eqn:L; [apply N.ltb_lt in L; lia|].
  destruct (N.of_nat (length c) <=? offset)%N; [discriminate|]. injection E as <-. rewrite firstn_length. lia.
Qed.
Print Assumptions C81_transfer.

Theorem C81_transfer_refuted : exists w v offset n body,
  (offset + n < 2 ^ 64)%N /\ answer_body w v offset n None = inr body /\ (n < N.of_nat (length body))%N.
Proof. exists [([7], Content [1; 2; 3])]%N, [7]%N, 0%N, 1%N. eexists. split; [lia|]. split; [reflexivity|reflexivity]. Qed.
Print Assumptions C81_transfer_refuted.

(* C82. Every client of a process has the keys it was asked for with, or those found, as long as no client without keys is
   made after another one without keys was made. *)
Theorem C82_clients_partial : forall requests,
  (forall before q after, requests = before ++ q :: after -> without_keys q -> q_throws q = false ->
     Forall (fun p => ~ without_keys p) after) ->
  Forall2 (fun q r => (exists k, r = Ok k /\ proper_client q k) \/
                      (without_keys q /\ q_throws q = true /\ r = Throw Other_err))
    requests (make_clients false requests).
Proof. exact clients_fine. Qed.
Print Assumptions C82_clients_partial.

Definition C82_plain := mk_opts [] [] [] [] [4]%N true.
Definition C82_keyed := mk_opts [1]%N [2]%N [3]%N [5]%N [] false.
Definition C82_found := mk_cred [11]%N [12]%N [].

Example C82_case :
  make_clients false [mk_request C82_keyed C82_found false; mk_request C82_plain C82_found true;
                      mk_request C82_plain C82_found false; mk_request C82_keyed C82_found false] =
    [Ok (mk_cred [1]%N [2]%N [3]%N, mk_config (Some [5]%N) None false); Throw Other_err;
     Ok (C82_found, mk_config None (Some [4]%N) true); Ok (mk_cred [1]%N [2]%N [3]%N, mk_config (Some [5]%N) None false)].
Proof. reflexivity. Qed.

(* C82 fails for the second client without keys, in every process that makes two: a null pointer is dereferenced. *)
Theorem C82_second_default_refuted : forall a q b p c,
  Forall (fun r => ~ without_keys r) a -> Forall (fun r => ~ without_keys r) b ->
  without_keys q -> q_throws q = false -> without_keys p ->
  exists rs, make_clients false (a ++ q :: b ++ p :: c) = rs ++ [UB] /\ length rs = length a + 1 + length b.
Proof. exact second_ub. Qed.
Print Assumptions C82_second_default_refuted.

Example C82_second_case :
  without_keys (mk_request C82_plain C82_found false) /\ ~ without_keys (mk_request C82_keyed C82_found false) /\
  make_clients false [mk_request C82_plain C82_found false; mk_request C82_keyed C82_found false; mk_request C82_plain C82_found false] =
    [Ok (C82_found, mk_config None (Some [4]%N) true); Ok (mk_cred [1]%N [2]%N [3]%N, mk_config (Some [5]%N) None false); UB].
Proof. split; [split; reflexivity|]. split; [|reflexivity]. intros [H _]; discriminate H. Qed.
