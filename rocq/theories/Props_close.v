(* C116: closing a stream closes its source, and what is made of it, for good. *)
From Verif Require Import Common Model_close Spec_close Proof_close.
From Coq Require Import List Arith Lia Bool.
Import ListNotations.

(* Any program: what each call gives is what it means for sources that are open or closed. *)
Theorem C116_meaning : forall p, forallb obedient p = true -> snd (run [] p) = meanings world0 p.
Proof. intros p H. apply run_ok; auto using rel0. Qed.
Print Assumptions C116_meaning.

Definition fine : oracle := mk_oracle None true.
Definition small : oracle := mk_oracle None false.

Example C116_case :
  let p := [C_base K_file; C_gzip 0; C_utf8 1 false; C_read 2 fine; C_base K_memory; C_close 2; C_read 2 small; C_read 1 fine; C_read 0 fine;
            C_closed 0; C_read 3 fine; C_tell 0 fine; C_seek 2 fine] in
  forallb obedient p = true /\
  snd (run [] p) = [Ok A_nothing; Ok A_nothing; Ok A_nothing; Ok A_data; Ok A_nothing; Ok A_nothing; Throw Stream_err; Throw Stream_err;
                    Throw Stream_err; Ok (A_bool true); Ok A_data; Throw Stream_err; Throw Not_supported].
Proof. vm_compute. auto. Qed.

(* No null inflater, converter or buffer is used, and no block that is gone. *)
Theorem C116_defined : forall p, forallb obedient p = true -> ~ In UB (snd (run [] p)).
Proof. intros p H. rewrite C116_meaning by auto. apply meaning_defined. Qed.
Print Assumptions C116_defined.

Example C116_case_defined :
  let p := [C_base K_memory; C_gzip 0; C_close 1; C_read 1 fine; C_close 1; C_read 0 small; C_closed 1] in
  forallb obedient p = true /\
  snd (run [] p) = [Ok A_nothing; Ok A_nothing; Ok A_nothing; Throw Stream_err; Ok A_nothing; Throw Stream_err; Ok (A_bool true)].
Proof. vm_compute. auto. Qed.

(* Once any stream over a source was closed, every stream over the source, made before or after, is closed and cannot be read, whatever
   the program does in between. *)
Theorem C116_for_good : forall p i q j o,
  forallb obedient (p ++ C_close i :: q) = true -> i < made p -> j < made (p ++ C_close i :: q) ->
  source (p ++ C_close i :: q) j = source p i ->
  result ((p ++ C_close i :: q) ++ [C_read j o]) = Throw Stream_err /\
  result ((p ++ C_close i :: q) ++ [C_closed j]) = Ok (A_bool true).
Proof.
  intros p i q j o O I J S. unfold result, made, source in *.
  rewrite !C116_meaning by (rewrite forallb_app, O; reflexivity). rewrite !last_meaning.
  assert (SH : shut (world_after world0 (p ++ C_close i :: q)) i).
  { rewrite after_app. cbn [world_after]. apply shut_after. set (w := world_after world0 p) in *.
    unfold meaning. destruct (i <? length (w_descs w)) eqn:Q; [|apply Nat.ltb_ge in Q; lia]. split; [exact I|].
    cbn. change (source_of (mk_w (w_descs w) (mark (w_closed w) (source_of w i))) i) with (source_of w i). apply mark_same. }
  assert (SI : source_of (world_after world0 (p ++ C_close i :: q)) i = source_of (world_after world0 p) i).
  { rewrite after_app. apply source_after. exact I. }
  destruct SH as [_ C]. rewrite SI, <- S in C. apply Nat.ltb_lt in J. unfold meaning. rewrite J. cbn [snd]. rewrite C. auto.
Qed.
Print Assumptions C116_for_good.

(* The inner stream is closed by the outer one; a stream that is made of it later is closed, too. *)
Example C116_case_for_good :
  let p := [C_base K_pipe; C_gzip 0; C_read 1 fine] in let q := [C_base K_file; C_utf8 0 true] in
  forallb obedient (p ++ C_close 1 :: q) = true /\ 1 < made p /\ 3 < made (p ++ C_close 1 :: q) /\
  source (p ++ C_close 1 :: q) 3 = source p 1 /\ result ((p ++ C_close 1 :: q) ++ [C_read 3 fine]) = Throw Stream_err /\
  result ((p ++ C_close 1 :: q) ++ [C_read 2 fine]) = Ok A_data.
Proof. vm_compute. repeat split; auto. Qed.

(* And not otherwise: a read that nothing else prevents fails only if the program closed a stream over the same source. *)
Theorem C116_otherwise_open : forall p j fill,
  forallb obedient p = true -> j < made p ->
  (forall p1 k p2, p = p1 ++ C_close k :: p2 -> k < made p1 -> source p1 k <> source p j) ->
  result (p ++ [C_read j (mk_oracle None fill)]) = Ok A_data /\ result (p ++ [C_closed j]) = Ok (A_bool false).
Proof.
  intros p j fill O J H. unfold result, made, source in *.
  rewrite !C116_meaning by (rewrite forallb_app, O; reflexivity). rewrite !last_meaning.
  apply Nat.ltb_lt in J. unfold meaning. rewrite J. cbn [snd].
  destruct (w_closed (world_after world0 p) (source_of (world_after world0 p) j)) eqn:C; [|auto].
  destruct (why _ _ _ C) as [E | (p1 & k & p2 & E & K & S)]; [discriminate|]. exfalso. exact (H p1 k p2 E K S).
Qed.
Print Assumptions C116_otherwise_open.

Example C116_case_otherwise_open :
  let p := [C_base K_file; C_gzip 0; C_base K_s3; C_close 1] in
  forallb obedient p = true /\ 2 < made p /\
  (forall p1 k p2, p = p1 ++ C_close k :: p2 -> k < made p1 -> source p1 k <> source p 2) /\
  result (p ++ [C_read 2 fine]) = Ok A_data.
Proof.
  cbv zeta. split; [reflexivity|]. split; [vm_compute; lia|]. split; [|reflexivity].
  intros p1 k p2 E _. do 3 (destruct p1 as [|? p1]; [discriminate|injection E as <- E]).
  destruct p1 as [|? p1]; [injection E as <- <-; vm_compute; discriminate|]. injection E as <- E. destruct p1; discriminate.
Qed.

(* A stream class of the program whose closed() does not say so: after the stream made of it was closed, a read uses the inflater or
   the converter that close() let go. *)
Theorem C116_foreign_refuted : exists p, In UB (snd (run [] p)).
Proof. exists [C_base (K_foreign false); C_gzip 0; C_close 1; C_read 1 fine]. vm_compute. auto 10. Qed.
Print Assumptions C116_foreign_refuted.

(* All uses of a closed stream fail: not so for the size and the position of an S3 stream. *)
Theorem C116_size_refuted : exists p i, i < made p /\ result (p ++ [C_closed i]) = Ok (A_bool true) /\
  result (p ++ [C_tell i fine]) = Ok A_number.
Proof. exists [C_base K_s3; C_close 0], 0. vm_compute. auto. Qed.
Print Assumptions C116_size_refuted.

(* The others do fail. *)
Theorem C116_size_partial : forall p i o k,
  forallb obedient p = true -> i < made p -> nth_error (w_descs (world_after world0 p)) i = Some (D_source k) -> k <> K_s3 -> k <> K_pipe ->
  result (p ++ [C_closed i]) = Ok (A_bool true) ->
  result (p ++ [C_tell i o]) = Throw Stream_err /\ result (p ++ [C_seek i o]) = Throw Stream_err.
Proof.
  intros p i o k O I D S P. unfold result, made in *.
  rewrite !C116_meaning by (rewrite forallb_app, O; reflexivity). rewrite !last_meaning.
  apply Nat.ltb_lt in I. unfold meaning, seekable. rewrite I, D. cbn [snd]. intros C. injection C as C. rewrite C.
  destruct k; try congruence; auto.
Qed.
Print Assumptions C116_size_partial.

Example C116_case_size :
  let p := [C_base K_file; C_gzip 0; C_close 1] in
  forallb obedient p = true /\ 0 < made p /\ nth_error (w_descs (world_after world0 p)) 0 = Some (D_source K_file) /\
  result (p ++ [C_closed 0]) = Ok (A_bool true) /\ result (p ++ [C_tell 0 fine]) = Throw Stream_err.
Proof. vm_compute. repeat split; auto. Qed.
