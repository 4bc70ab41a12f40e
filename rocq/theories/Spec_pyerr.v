(* Specification for C87: the Python counterparts of C++ exceptions. *)
From Verif Require Import Common Model_pyerr.

(* The Python class with the name of the C++ class; OSError for system errors. *)
Definition counterpart (c : cls) : option pycls :=
  match c with
  | Mlio_error => Some P_MLIOError
  | Not_supported_error => Some P_NotSupportedError
  | Data_reader_error => Some P_DataReaderError
  | Schema_error => Some P_SchemaError
  | Invalid_instance_error => Some P_InvalidInstanceError
  | Record_error => Some P_RecordError
  | Corrupt_record_error => Some P_CorruptRecordError
  | Corrupt_header_error => Some P_CorruptHeaderError
  | Corrupt_footer_error => Some P_CorruptFooterError
  | Record_too_large_error => Some P_RecordTooLargeError
  | Stream_error => Some P_StreamError
  | Inflate_error => Some P_InflateError
  | System_error => Some P_OSError
  | _ => None
  end.

(* [p] tells what [e] tells: class, message, error number, and the same of the cause. *)
Inductive mirrors : exc -> pyexc -> Prop :=
| mirrors_last c w k p : counterpart c = Some p ->
    mirrors (Exc c w k None) (Py_exc p w (if cls_eqb c System_error then Some k else None) None)
| mirrors_more c w k p e q : counterpart c = Some p -> mirrors e q ->
    mirrors (Exc c w k (Some e)) (Py_exc p w (if cls_eqb c System_error then Some k else None) (Some q)).

(* Exceptions of MLIO's classes and system errors, with causes of the same kind. *)
Inductive native : exc -> Prop :=
| native_last c w k p : counterpart c = Some p -> native (Exc c w k None)
| native_more c w k p e : counterpart c = Some p -> native e -> native (Exc c w k (Some e)).

(* Derivation in C++, along the headers. *)
Inductive derives : cls -> cls -> Prop :=
| derives_refl c : derives c c
| derives_base c b d : base c = Some b -> derives b d -> derives c d.

(* Derivation in Python. *)
Inductive py_derives : pycls -> pycls -> Prop :=
| py_derives_refl c : py_derives c c
| py_derives_base c b d : py_base c = Some b -> py_derives b d -> py_derives c d.

Definition py_class (p : pyexc) : pycls := let '(Py_exc c _ _ _) := p in c.
Definition py_cause (p : pyexc) : option pyexc := let '(Py_exc _ _ _ q) := p in q.

(* The kinds of errors that damaged, unreadable or vanishing data lead to. *)
Definition data_error (c : cls) : Prop :=
  derives c Record_too_large_error \/ derives c Corrupt_record_error \/ derives c Stream_error \/
  derives c Not_supported_error \/ derives c System_error.

(* [p] is an error of the reader about [e]. *)
Definition about (p : pyexc) (e : exc) : Prop :=
  py_derives (py_class p) P_DataReaderError /\ exists q, py_cause p = Some q /\ mirrors e q.

(* The two error numbers that have their own messages. *)
Definition known_code (e : exc) : Prop := derives (e_cls e) System_error /\ (e_code e = ENOENT \/ e_code e = EACCES).

(* A data store that does not exist or must not be read. *)
Definition not_opened (p : pyexc) (missing denied : list byte) (e : exc) : Prop :=
  derives (e_cls e) System_error /\
  ((e_code e = ENOENT /\ p = Py_exc P_DataReaderError missing None None) \/
   (e_code e = EACCES /\ p = Py_exc P_DataReaderError denied None None)).
