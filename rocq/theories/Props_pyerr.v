(* Errors as Python programs see them. *)
From Verif Require Import Common Model_pyerr Spec_pyerr Proof_pyerr.

(* ---------------- C87 ---------------- *)

(* C87. An error of MLIO or of the system, with causes of these kinds, reaches Python with its class, message, error number and all
   its causes. *)
Theorem C87_mirrored : forall e, native e -> mirrors e (to_python e).
Proof. exact python_mirrors. Qed.
Print Assumptions C87_mirrored.

(* C87. An except clause takes an error if and only if the catch clause for the C++ class of that name would. *)
Theorem C87_except : forall e d q, native e -> counterpart d = Some q ->
  (derives (e_cls e) d <-> py_derives (py_class (to_python e)) q).
Proof. exact python_caught. Qed.
Print Assumptions C87_except.

(* C87. Every error of MLIO is a RuntimeError to Python, so that a handler that knows nothing of MLIO takes it. *)
Theorem C87_runtime_error : forall e, native e -> derives (e_cls e) Mlio_error -> py_derives (py_class (to_python e)) P_RuntimeError.
Proof.
  intros e N D. apply (C87_except e Mlio_error P_MLIOError N eq_refl) in D.
  remember P_MLIOError as m eqn:Em. induction D as [c|c b d E D IH]; [subst c|econstructor; [exact E|exact (IH Em)]].
  econstructor; [reflexivity|]. constructor.
Qed.
Print Assumptions C87_runtime_error.

Definition C87_chain : exc :=
  Exc Data_reader_error [1]%N 0 (Some (Exc Corrupt_header_error [2]%N 0 (Some (Exc System_error [3]%N 5 None)))).
Example C87_mirrored_case :
  native C87_chain /\
  to_python C87_chain =
    Py_exc P_DataReaderError [1]%N None
      (Some (Py_exc P_CorruptHeaderError [2]%N None (Some (Py_exc P_OSError [3]%N (Some 5%Z) None)))) /\
  counterpart Mlio_error = Some P_MLIOError.
Proof. split; [repeat (econstructor; try reflexivity)|]. split; reflexivity. Qed.

(* C87. What goes wrong with a data store of records - opening it, its header, its records - reaches Python as a DataReaderError
   whose cause tells the error, or whose message tells that the store does not exist or must not be read. *)
Theorem C87_records : forall text missing denied place e, native e -> data_error (e_cls e) ->
  place = In_record \/ place = In_open \/ place = In_header ->
  let p := to_python (reported text missing denied place e) in
  about p e \/ (place <> In_record /\ not_opened p missing denied e).
Proof. exact record_places. Qed.
Print Assumptions C87_records.

Example C87_records_case :
  native (Exc Inflate_error [7]%N 0 None) /\ data_error Inflate_error /\ data_error Corrupt_footer_error /\
  to_python (reported (fun _ => [9]%N) [1]%N [2]%N In_header (Exc Corrupt_footer_error [7]%N 0 None)) =
    Py_exc P_SchemaError [9]%N None (Some (Py_exc P_CorruptFooterError [7]%N None None)) /\
  to_python (reported (fun _ => [9]%N) [1]%N [2]%N In_open (Exc System_error [7]%N 2 None)) = Py_exc P_DataReaderError [1]%N None None.
Proof.
  split; [econstructor; reflexivity|].
  split; [right; right; left; apply isa_derives; reflexivity|].
  split; [right; left; apply isa_derives; reflexivity|]. split; reflexivity.
Qed.

(* C87. Likewise for reading a data store that is one instance, ... *)
Theorem C87_instances : forall text missing denied e, native e ->
  derives (e_cls e) Stream_error \/ derives (e_cls e) Not_supported_error \/ derives (e_cls e) System_error ->
  about (to_python (reported text missing denied In_instance e)) e.
Proof. exact instance_errors. Qed.
Print Assumptions C87_instances.

Example C87_instances_case :
  native (Exc Inflate_error [7]%N 0 None) /\ derives Inflate_error Stream_error.
Proof. split; [econstructor; reflexivity|]. apply isa_derives. reflexivity. Qed.

(* ... but C87 fails for opening it: all errors but two reach Python bare, without the name of the data store, and no except clause for
   DataReaderError takes a system error. *)
Theorem C87_instance_open_refuted : forall text missing denied e, native e -> ~ known_code e ->
  let p := to_python (reported text missing denied In_instance_open e) in
  mirrors e p /\ (~ derives (e_cls e) Data_reader_error -> ~ py_derives (py_class p) P_DataReaderError).
Proof.
  intros text missing denied e N K. cbn zeta. split; [apply instance_open; auto|]. cbn [reported]. rewrite open_other by auto.
  intros D P. apply D. apply (C87_except e Data_reader_error P_DataReaderError N eq_refl). exact P.
Qed.
Print Assumptions C87_instance_open_refuted.

(* Too many open files. *)
Example C87_instance_open_case :
  let e := Exc System_error [7]%N 24 None in
  native e /\ ~ known_code e /\ ~ derives (e_cls e) Data_reader_error.
Proof.
  cbn zeta. split; [econstructor; reflexivity|]. split.
  - intros [_ [H|H]]; discriminate.
  - intro H. apply isa_derives in H. discriminate.
Qed.

(* C87. Errors of other classes reach Python as pybind11's counterparts: a wrong argument as ValueError, lack of memory as
   MemoryError. *)
Theorem C87_others : forall w k n,
  to_python (Exc Invalid_argument_error w k n) = Py_exc P_ValueError w None None /\
  to_python (Exc Bad_alloc w k n) = Py_exc P_MemoryError w None None /\
  to_python (Exc Out_of_range w k n) = Py_exc P_IndexError w None None /\
  to_python (Exc Runtime_error w k n) = Py_exc P_RuntimeError w None None.
Proof. intros. rewrite !others by reflexivity. repeat split. Qed.
Print Assumptions C87_others.

(* C87 fails for an error whose cause is of another class: the cause is shown instead of the error.  (No such error is made by
   MLIO itself.) *)
Theorem C87_foreign_cause_refuted : forall c p w k e, counterpart c = Some p -> counterpart (e_cls e) = None ->
  to_python (Exc c w k (Some e)) = default_translate e.
Proof. exact foreign_cause. Qed.
Print Assumptions C87_foreign_cause_refuted.

Example C87_foreign_case :
  to_python (Exc Data_reader_error [1]%N 0 (Some (Exc Bad_alloc [2]%N 0 None))) = Py_exc P_MemoryError [2]%N None None.
Proof. reflexivity. Qed.
