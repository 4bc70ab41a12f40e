(* Theorems about datasets of TensorFlow made of a data reader. *)
From Verif Require Import Common Model_iter Model_tf Spec_tf Proof_tf.
From Coq Require Import List Arith Lia Bool.
Import ListNotations.

(* The first loop over the dataset of a new reader: the elements for all examples, in their order and with exactly the features that were asked for;
   then the end of the data or the error of the reader; then nothing more. *)
Theorem C117_first : forall s d, typed s -> (forall x, In x (ds_items d 0) -> complete s x) ->
  exists es, Forall2 (element_of s) (ds_items d 0) es /\
  forall m, snd (run s (start d) (loop 0 (length (ds_items d 0) + S m))) = map R_element es ++ ending d 0 :: repeat R_stop m.
Proof. exact first_l. Qed.

(* Iterators of the dataset, in any number and however their calls and those of the reader alternate, share the examples: without reset, each example
   is given at most once, in their order, and with its own features. *)
Theorem C117_at_most_once : forall s d p, forallb no_reset p = true ->
  exists xs, some_of xs (ds_items d 0) /\ Forall2 (shows s) (filter delivers (snd (run s (start d) p))) xs.
Proof. intros s d p N. exact (any_ok s d 0 p 0 _ [] (stands_at d 0 0) N). Qed.

(* None is left out, if the arguments fit and the examples have the features. *)
Theorem C117_no_gaps : forall s d p, typed s -> (forall x, In x (ds_items d 0) -> complete s x) -> forallb no_reset p = true ->
  exists j, Forall2 (shows s) (filter delivers (snd (run s (start d) p))) (firstn j (ds_items d 0)).
Proof. intros s d p T C N. exact (all_ok s d 0 T C p 0 _ [] (stands_at d 0 0) N). Qed.

(* Looking at the next example beforehand changes nothing: after any program, peek_example() shows what read_example() then gives, and
   read_example() gives what it would have given. *)
Theorem C117_peek : forall s d p, exists o o', snd (run s (start d) (p ++ [T_peek; T_read])) = snd (run s (start d) p) ++ [o; o'] /\
  snd (run s (start d) (p ++ [T_read])) = snd (run s (start d) p) ++ [o'] /\
  match o' with R_item x => o = R_peek x | _ => o = o' /\ delivers o = false end.
Proof. exact peek_l. Qed.

(* A dataset of TensorFlow can be iterated as often as one likes; this one cannot: whatever the reader has, a second loop is empty. *)
Theorem C117_again_refuted : forall s d n, typed s -> (forall x, In x (ds_items d 0) -> complete s x) -> ds_tail d 0 = None ->
  exists first, length first = S (length (ds_items d 0)) /\
  snd (run s (start d) (loop 0 (S (length (ds_items d 0))) ++ loop 1 (S n))) = first ++ repeat R_stop (S n).
Proof. exact again_l. Qed.

(* It can if the program resets the reader after each loop. *)
Theorem C117_again_partial : forall s d n, typed s -> (forall e x, In x (ds_items d e) -> complete s x) ->
  exists f : item -> dict, (forall e x, In x (ds_items d e) -> element_of s x (f x)) /\
  snd (run s (start d) (epochs d 0 n)) = concat (map (fun e => map (fun x => R_element (f x)) (ds_items d e) ++ [ending d e]) (seq 0 n)).
Proof. exact epochs_l. Qed.

(* An example without one of the features: the loop ends with KeyError, and the example is lost.  The next read goes on after it. *)
Theorem C117_missing : forall s d k x y n, nth_error (ds_items d 0) k = Some x -> nth_error (ds_items d 0) (S k) = Some y ->
  In n (p_features s) -> (forall v, ~ has (p_content s x) n v) ->
  snd (run s (start d) (repeat T_read k ++ [T_iter; T_next 0; T_next 0; T_read])) =
  map R_item (firstn k (ds_items d 0)) ++ [R_raise X_key; R_stop; R_item y].
Proof. exact missing_l. Qed.

(* Fewer types than features: make_tf_dataset accepts the arguments, and then no program ever gets an element. *)
Theorem C117_types_refuted : forall s d p, ~ typed s -> forall e, ~ In (R_element e) (snd (run s (start d) p)).
Proof. exact untyped_l. Qed.

(* ---------------- concrete cases ---------------- *)

(* Features 5 and 7 of examples that have 5, 6 and 7; the second epoch has other examples. *)
Definition tf_case : setup := mk_setup [5; 7] [1; 2] (fun x => [(5, x); (6, 0); (7, x + 100)]).
Definition tf_data : dataset := mk_ds (fun e => [10 + e; 20 + e; 30 + e]) (fun _ => None).

Example C117_typed_case : typed tf_case.
Proof. intros n I. exact I. Qed.
Example C117_complete_case : forall e x, In x (ds_items tf_data e) -> complete tf_case x.
Proof. intros e x _ n [<- | [<- | []]]; unfold has; cbn; eauto. Qed.
Example C117_first_case : snd (run tf_case (start tf_data) (loop 0 5)) =
  [R_element [(5, 10); (7, 110)]; R_element [(5, 20); (7, 120)]; R_element [(5, 30); (7, 130)]; R_stop; R_stop].
Proof. reflexivity. Qed.
Example C117_first_error_case : snd (run tf_case (start (mk_ds (fun _ => [10]) (fun _ => Some Corrupt_record))) (loop 0 3)) =
  [R_element [(5, 10); (7, 110)]; R_raise (X_reader Corrupt_record); R_stop].
Proof. reflexivity. Qed.
Example C117_at_most_once_case : snd (run tf_case (start tf_data) [T_iter; T_iter; T_next 1; T_read; T_next 0; T_next 1; T_read]) =
  [R_element [(5, 10); (7, 110)]; R_item 20; R_element [(5, 30); (7, 130)]; R_stop; R_none].
Proof. reflexivity. Qed.
Example C117_peek_case : snd (run tf_case (start tf_data) [T_peek; T_iter; T_next 0; T_peek; T_peek; T_read; T_reset; T_peek; T_next 0]) =
  [R_peek 10; R_element [(5, 10); (7, 110)]; R_peek 20; R_peek 20; R_item 20; R_peek 11; R_element [(5, 11); (7, 111)]].
Proof. reflexivity. Qed.
Example C117_no_gaps_case : forallb no_reset [T_peek; T_iter; T_iter; T_next 1; T_peek; T_read; T_next 0] = true.
Proof. reflexivity. Qed.
Example C117_again_case : snd (run tf_case (start tf_data) (loop 0 4 ++ loop 1 2)) =
  [R_element [(5, 10); (7, 110)]; R_element [(5, 20); (7, 120)]; R_element [(5, 30); (7, 130)]; R_stop; R_stop; R_stop].
Proof. reflexivity. Qed.
Example C117_epochs_case : snd (run tf_case (start tf_data) (epochs tf_data 0 2)) =
  [R_element [(5, 10); (7, 110)]; R_element [(5, 20); (7, 120)]; R_element [(5, 30); (7, 130)]; R_stop;
   R_element [(5, 11); (7, 111)]; R_element [(5, 21); (7, 121)]; R_element [(5, 31); (7, 131)]; R_stop].
Proof. reflexivity. Qed.
Example C117_missing_case : snd (run (mk_setup [5; 8] [1; 2] (fun x => if x =? 20 then [(5, x)] else [(5, x); (8, 0)])) (start tf_data)
    [T_read; T_iter; T_next 0; T_next 0; T_read]) = [R_item 10; R_raise X_key; R_stop; R_item 30].
Proof. reflexivity. Qed.
Example C117_types_case : ~ typed (mk_setup [5; 7] [1] (p_content tf_case)) /\
  snd (run (mk_setup [5; 7] [1] (p_content tf_case)) (start tf_data) [T_iter; T_next 0; T_next 0; T_read]) = [R_raise X_type; R_stop; R_item 20].
Proof. split; [|reflexivity]. intros H. destruct (H 7 (or_intror (or_introl eq_refl))) as [E | []]. discriminate E. Qed.

Print Assumptions C117_first.
Print Assumptions C117_at_most_once.
Print Assumptions C117_no_gaps.
Print Assumptions C117_peek.
Print Assumptions C117_again_refuted.
Print Assumptions C117_again_partial.
Print Assumptions C117_missing.
Print Assumptions C117_types_refuted.
