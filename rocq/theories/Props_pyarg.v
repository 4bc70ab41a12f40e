(* The arguments of the Python classes: C111. *)
From Coq Require Import String List NArith ZArith Bool Lia.
From Verif Require Import Common Model_pyarg Spec_pyarg Proof_pyarg Proof_pyarg2 Proof_pyarg3 Proof_pyarg4.
From Verif Require Model_inst Model_csv Model_num Model_image Model_names.
Import ListNotations.
Local Open Scope Z_scope.
Local Open Scope string_scope.
Local Open Scope list_scope.

(* A call is accepted exactly if its arguments have a meaning, and then every C++ parameter has the value that the argument of that name
   stands for, or else the default of the C++ library. *)
Theorem C111_reader : forall (F : Type) (narrow : N -> F) (float_of : Z -> option F) c p, python_call c ->
  (new_reader F narrow float_of c = Some p <-> meant narrow float_of reader_fields ["dataset"; "batch_size"] (cpp_reader F) c p).
Proof. intros F narrow float_of. exact (reader_meant narrow float_of). Qed.
Print Assumptions C111_reader.
Theorem C111_csv : forall (F : Type) (narrow : N -> F) (float_of : Z -> option F) c p, python_call c ->
  (new_csv c = Some p <-> meant narrow float_of csv_fields [] cpp_csv c p).
Proof. intros F narrow float_of. exact (csv_meant narrow float_of). Qed.
Print Assumptions C111_csv.
(* The dimensions have to be given. *)
Theorem C111_image : forall (F : Type) (narrow : N -> F) (float_of : Z -> option F) c p, python_call c ->
  (new_image c = Some p <-> meant narrow float_of image_fields ["image_dimensions"] cpp_image c p).
Proof. intros F narrow float_of. exact (image_meant narrow float_of). Qed.
Print Assumptions C111_image.
Theorem C111_parser : forall (F : Type) (narrow : N -> F) (float_of : Z -> option F) c p, python_call c ->
  (new_parser c = Some p <-> meant narrow float_of parser_fields [] cpp_parser c p).
Proof. intros F narrow float_of. exact (parser_meant narrow float_of). Qed.
Print Assumptions C111_parser.

(* The data stores. *)
Theorem C111_file : forall (F : Type) (narrow : N -> F) (float_of : Z -> option F) c p, python_call c ->
  (new_file c = Some p <-> meant narrow float_of file_fields ["path"] plain_file c p).
Proof. intros F narrow float_of. exact (file_meant narrow float_of). Qed.
Print Assumptions C111_file.
Theorem C111_memory : forall (F : Type) (narrow : N -> F) (float_of : Z -> option F) c p, python_call c ->
  (new_memory c = Some p <-> meant narrow float_of memory_fields ["buf"] plain_memory c p).
Proof. intros F narrow float_of. exact (memory_meant narrow float_of). Qed.
Print Assumptions C111_memory.
Theorem C111_object : forall (F : Type) (narrow : N -> F) (float_of : Z -> option F) c p, python_call c ->
  (new_object c = Some p <-> meant narrow float_of object_fields ["client"; "uri"] plain_object c p).
Proof. intros F narrow float_of. exact (object_meant narrow float_of). Qed.
Print Assumptions C111_object.
(* Timeouts of whole seconds. *)
Theorem C111_pipe : forall (F : Type) (narrow : N -> F) (float_of : Z -> option F) c p, python_call c ->
  (forall d s us, passed pipe_names c "timeout" (PDelta d s us) -> exists n, (d * 86400 + s) * 1000000 + us = 1000000 * n) ->
  (new_pipe c = Some p <-> meant narrow float_of pipe_fields ["path"] plain_pipe c p).
Proof. intros F narrow float_of. exact (pipe_meant narrow float_of). Qed.
Print Assumptions C111_pipe.
(* Other timeouts are cut off: less than a second is no time at all. *)
Theorem C111_timeout_refuted : forall path us, 0 < us < 1000000 ->
  new_pipe (mk_call [PStr path; PDelta 0 0 us] []) = new_pipe (mk_call [PStr path; PDelta 0 0 0] []) /\
  forall p, new_pipe (mk_call [PStr path; PDelta 0 0 us] []) = Some p -> q_timeout p = 0.
Proof.
  intros path us L. assert (C : c_seconds (PDelta 0 0 us) = Some 0) by (cbn [c_seconds]; rewrite Z.quot_small by lia; reflexivity).
  unfold new_pipe. cbn -[c_seconds c_str]. rewrite C. split; [reflexivity|].
  intros p E. apply obind_some in E as (s & _ & E). cbn -[c_str] in E. apply some_inj in E. subst p. reflexivity.
Qed.
Print Assumptions C111_timeout_refuted.

(* An assignment is accepted exactly if the value has a meaning; it changes this parameter and no other. *)
Theorem C111_assign_reader : forall (F : Type) (narrow : N -> F) (float_of : Z -> option F) name v p p', name <> "warn_bad_instances" ->
  (assign_reader F narrow float_of name v p = Some p' <-> assigned narrow float_of reader_fields name v p p').
Proof. intros F narrow float_of name v p p' N. rewrite (reader_assigned narrow float_of name v p p'). tauto. Qed.
Print Assumptions C111_assign_reader.
Theorem C111_assign_csv : forall (F : Type) (narrow : N -> F) (float_of : Z -> option F) name v p p',
  name <> "encoding" -> ~ (name = "parser_options" /\ v = PNone) ->
  (assign_csv name v p = Some p' <-> assigned narrow float_of csv_fields name v p p').
Proof. intros F narrow float_of name v p p' N M. apply (csv_assigned narrow float_of name v p p'). split; assumption. Qed.
Print Assumptions C111_assign_csv.
Theorem C111_assign_image : forall (F : Type) (narrow : N -> F) (float_of : Z -> option F) name v p p',
  assign_image name v p = Some p' <-> assigned narrow float_of image_fields name v p p'.
Proof. intros F narrow float_of. exact (image_assigned narrow float_of). Qed.
Print Assumptions C111_assign_image.
Theorem C111_assign_parser : forall (F : Type) (narrow : N -> F) (float_of : Z -> option F) name v p p',
  assign_parser name v p = Some p' <-> assigned narrow float_of parser_fields name v p p'.
Proof. intros F narrow float_of. exact (parser_assigned narrow float_of). Qed.
Print Assumptions C111_assign_parser.

(* The parameter warn_bad_instances can't be assigned, and encoding only None. *)
Theorem C111_warn_refuted : forall (F : Type) (narrow : N -> F) (float_of : Z -> option F) v p,
  assign_reader F narrow float_of "warn_bad_instances" v p = None.
Proof. intros F narrow float_of v p. destruct p. reflexivity. Qed.
Print Assumptions C111_warn_refuted.
Theorem C111_encoding_refuted : forall v p p', assign_csv "encoding" v p = Some p' -> v = PNone /\ encoding p' = None.
Proof. intros v p p' E. destruct p. destruct v; cbn in E; try discriminate. apply some_inj in E. subst p'. auto. Qed.
Print Assumptions C111_encoding_refuted.

(* What the documentation says and the classes refuse: the default None for lists, sets, maps and dimensions; the names pathname and
   parser_params. *)
Theorem C111_documented_refuted : forall c, python_call c ->
  (forall name, In name ["column_names"; "use_columns"; "use_columns_by_index"; "column_types"; "column_types_by_index"] ->
     passed csv_names c name PNone -> new_csv c = None) /\
  ((exists v, In ("parser_params", v) (c_kw c)) -> new_csv c = None) /\
  ((exists v, In ("pathname", v) (c_kw c)) -> new_file c = None /\ new_pipe c = None) /\
  ((forall v, ~ passed image_names c "image_dimensions" v) \/ passed image_names c "image_dimensions" PNone -> new_image c = None).
Proof.
  assert (Un : forall names c name v, In (name, v) (c_kw c) -> ~ In name names -> fits names c = false).
  { intros names c name v I N. destruct (fits names c) eqn:Fi; [|reflexivity]. exfalso. apply fits_proper in Fi as (_ & K).
    destruct (K _ _ I) as (i & E & _). apply nth_error_In in E. auto. }
  intros c Py. split; [|split; [|split]].
  - intros name I P. destruct (new_csv c) as [p|] eqn:E; [|reflexivity]. exfalso.
    apply (C111_csv unit (fun _ => tt) (fun _ => None) c p Py) in E as (_ & _ & Fd).
    assert (N : forall get, In (name, get) csv_fields -> stands (fun _ => tt) (fun _ => None) PNone (get p)) by (intros get J; exact (proj1 (Fd name get J) PNone P)).
    clear Fd P. cbn [In] in I. destruct I as [<-|[<-|[<-|[<-|[<-|[]]]]]].
    + specialize (N _ ltac:(member)). inversion N.
    + specialize (N _ ltac:(member)). inversion N.
    + specialize (N _ ltac:(member)). inversion N.
    + specialize (N _ ltac:(member)). inversion N.
    + specialize (N _ ltac:(member)). inversion N.
  - intros (v & I). unfold new_csv. rewrite (Un csv_names c _ v I); [reflexivity|]. cbn. intuition discriminate.
  - intros (v & I). unfold new_file, new_pipe. rewrite (Un file_names c _ v I) by (cbn; intuition discriminate).
    rewrite (Un pipe_names c _ v I) by (cbn; intuition discriminate). auto.
  - intros H. destruct (new_image c) as [p|] eqn:E; [|reflexivity]. exfalso.
    apply (C111_image unit (fun _ => tt) (fun _ => None) c p Py) in E as (_ & Rq & Fd). destruct H as [H|P].
    + destruct (Rq _ (or_introl eq_refl)) as (v & P). exact (H v P).
    + pose proof (proj1 (Fd "image_dimensions" (fun p => V_sizes (image_dimensions p)) ltac:(member)) PNone P) as N. inversion N.
Qed.
Print Assumptions C111_documented_refuted.

(* In every program, the parameters of an object are what was said about each last. *)
Theorem C111_history : forall (F : Type) (narrow : N -> F) (float_of : Z -> option F) ops k p name get,
  (forall c, In (New c) ops -> python_call c) -> nth_error (objects F (run F narrow float_of ops)) k = Some p -> In (name, get) reader_fields ->
  last_word narrow float_of ops k name get p.
Proof. intros F narrow float_of. exact (history narrow float_of). Qed.
Print Assumptions C111_history.
(* A reader keeps the parameters as they were when it was made, whatever happens to the object later. *)
Theorem C111_copied : forall (F : Type) (narrow : N -> F) (float_of : Z -> option F) pre k post p,
  nth_error (objects F (run F narrow float_of pre)) k = Some p ->
  nth_error (readers F (run F narrow float_of (pre ++ Make k :: post))) (List.length (readers F (run F narrow float_of pre))) = Some p.
Proof. intros F narrow float_of. exact (made narrow float_of). Qed.
Print Assumptions C111_copied.

(* Examples. *)
Definition whole (z : Z) : option N := Some (Z.to_N z).
Definition args : call :=
  mk_call [PList [PStore 3; PStore 1]; PInt 200] [("sample_ratio", PFloat 7); ("num_shards", PInt 4); ("warn_bad_instances", PBool true)].
Example C111_case_reader :
  python_call args /\
  new_reader N (fun d => d) whole args =
    Some (mk_reader N [Some 3; Some 1]%nat 200 0 0 Model_inst.last_none Model_csv.B_error true 0 None 0 4 (Some 7%N) false 0 None true).
Proof. split; [unfold python_call; cbn; distinct|reflexivity]. Qed.
(* An enumerator in the place of a number is not noticed. *)
Example C111_case_enum :
  option_map (batch_size N) (new_reader N (fun d => d) whole (mk_call [PList []; PEnum (E_last Model_inst.last_pad)] [])) = Some 3%N.
Proof. reflexivity. Qed.
Example C111_case_refused :
  new_reader N (fun d => d) whole (mk_call [PList []; PInt (-1)] []) = None /\
  new_reader N (fun d => d) whole (mk_call [PList []; PFloat 8] []) = None /\
  new_reader N (fun d => d) whole (mk_call [PList []; PInt 8] [("batch_size", PInt 8)]) = None /\
  new_reader N (fun d => d) whole (mk_call [PList []] []) = None /\
  new_reader N (fun d => d) whole (mk_call [PList []; PInt 8] [("shard", PInt 8)]) = None.
Proof. repeat split; reflexivity. Qed.
(* An e with an acute accent as the delimiter, a semicolon, a name in UTF-8, and two characters. *)
Example C111_case_csv :
  option_map delimiter (new_csv (mk_call [] [("delimiter", PStr [233%N])])) = Some 233%N /\
  option_map delimiter (new_csv (mk_call [] [("delimiter", PStr [59%N])])) = Some 59%N /\
  option_map use_columns (new_csv (mk_call [] [("use_columns", PSet [PStr [8364%N]])])) = Some [[226; 130; 172]%N] /\
  new_csv (mk_call [] [("delimiter", PStr [59; 59]%N)]) = None /\
  new_csv (mk_call [] [("delimiter", PStr [8364%N])]) = None.
Proof. repeat split; vm_compute; reflexivity. Qed.
Example C111_case_image :
  new_image (mk_call [] [("image_dimensions", PList [PInt 3; PInt 28; PInt 28])]) = Some (mk_image Model_image.F_none None [3; 28; 28]%N false) /\
  new_image (mk_call [] []) = None.
Proof. split; reflexivity. Qed.
Example C111_case_parser : new_parser (mk_call [PSet [PStr [120%N]]] [("number_base", PInt 16)]) = Some (mk_parser [[120%N]] 16).
Proof. reflexivity. Qed.
Example C111_case_stores :
  new_file (mk_call [PStr [97%N]] [("memory_map", PBool false)]) = Some (mk_file [97%N] false Model_names.Co_infer) /\
  new_memory (mk_call [PBuffer 5] [("compression", PEnum (E_comp Model_names.Co_gzip))]) = Some (mk_memory 5 Model_names.Co_gzip) /\
  new_object (mk_call [PClient 1; PStr [97%N]] []) = Some (mk_object (Some 1%nat) [97%N] [] Model_names.Co_infer) /\
  new_pipe (mk_call [PStr [97%N]] [("timeout", PDelta 0 90 0); ("fifo_id", PInt 2)]) = Some (mk_pipe [97%N] 90 (Some 2%N) Model_names.Co_none) /\
  new_pipe (mk_call [PStr [97%N]; PDelta 0 0 500000] []) = Some (mk_pipe [97%N] 0 None Model_names.Co_none).
Proof. repeat split; reflexivity. Qed.
Example C111_case_assign p :
  option_map delimiter (assign_csv "delimiter" (PStr [9%N]) p) = Some 9%N /\
  option_map quote_char (assign_csv "delimiter" (PStr [9%N]) p) = Some (quote_char p) /\
  assign_csv "encoding" (PStr [97%N]) p = None /\ assign_csv "no_such_thing" PNone p = None.
Proof. destruct p. repeat split; reflexivity. Qed.
Example C111_case_assign_image : assign_image "resize" (PInt 64) cpp_image = Some (mk_image Model_image.F_none (Some 64%N) [] false).
Proof. reflexivity. Qed.
Example C111_case_assign_parser : assign_parser "number_base" (PInt 8) cpp_parser = Some (mk_parser [] 8) /\ assign_parser "base" (PInt 8) cpp_parser = None.
Proof. split; reflexivity. Qed.
(* Two readers from one object, which is changed in between and afterwards; a refused assignment and an append have no effect. *)
Definition script : list op :=
  [New args; Assign 0 "batch_size" (PInt 10); Make 0; Assign 0 "batch_size" (PInt 20); Assign 0 "batch_size" PNone; Append 0 "dataset" (PStore 9);
   Make 0; Assign 0 "batch_size" (PInt 30)].
Example C111_case_history :
  (forall c, In (New c) script -> python_call c) /\
  map (fun p => (dataset N p, batch_size N p)) (readers N (run N (fun d => d) whole script)) = [([Some 3; Some 1]%nat, 10%N); ([Some 3; Some 1]%nat, 20%N)] /\
  map (fun p => batch_size N p) (objects N (run N (fun d => d) whole script)) = [30%N].
Proof.
  split; [|split; vm_compute; reflexivity]. intros c I. cbn [In script] in I. repeat (destruct I as [I|I]; [inversion I; subst; clear I|]); [|destruct I].
  exact (proj1 C111_case_reader).
Qed.
