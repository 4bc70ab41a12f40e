(* How C++ exceptions become Python exceptions, and how readers wrap the errors of data stores. *)
From Verif Require Import Common.

(* The exception classes: include/mlio/mlio_error.h:25, not_supported_error.h:24, data_reader_error.h:27-57,
   record_readers/record_error.h:27-87, streams/stream_error.h:27-42, and those of the standard library that MLIO throws. *)
Inductive cls :=
| Mlio_error | Not_supported_error
| Data_reader_error | Schema_error | Invalid_instance_error
| Record_error | Corrupt_record_error | Corrupt_header_error | Corrupt_footer_error | Record_too_large_error
| Stream_error | Inflate_error
| System_error | Runtime_error | Invalid_argument_error | Out_of_range | Logic_error | Bad_alloc | Std_exception.

Definition cls_eq_dec : forall a b : cls, {a = b} + {a <> b}.
Proof. decide equality. Defined.
Definition cls_eqb (a b : cls) : bool := if cls_eq_dec a b then true else false.

(* The base class: the same headers; <stdexcept>, <system_error>, <new>. *)
Definition base (c : cls) : option cls :=
  match c with
  | Mlio_error => Some Runtime_error
  | Not_supported_error | Data_reader_error | Record_error | Stream_error => Some Mlio_error
  | Schema_error | Invalid_instance_error => Some Data_reader_error
  | Corrupt_record_error | Record_too_large_error => Some Record_error
  | Corrupt_header_error | Corrupt_footer_error => Some Corrupt_record_error
  | Inflate_error => Some Stream_error
  | System_error => Some Runtime_error
  | Invalid_argument_error | Out_of_range => Some Logic_error
  | Runtime_error | Logic_error | Bad_alloc => Some Std_exception
  | Std_exception => None
  end.

(* A catch clause for [d] takes an exception of class [c].  The hierarchy is less than 8 classes deep. *)
Fixpoint isa_up (n : nat) (c d : cls) : bool :=
  cls_eqb c d ||
  match n with
  | O => false
  | S n' => match base c with Some b => isa_up n' b d | None => false end
  end.
Definition isa (c d : cls) : bool := isa_up 8 c d.

(* An exception object: class, what(), the value of code() of system errors, and what std::throw_with_nested keeps. *)
Inductive exc := Exc (c : cls) (what : list byte) (code : Z) (nested : option exc).
Definition e_cls (e : exc) := let '(Exc c _ _ _) := e in c.
Definition e_what (e : exc) := let '(Exc _ w _ _) := e in w.
Definition e_code (e : exc) := let '(Exc _ _ k _) := e in k.
Definition e_nested (e : exc) := let '(Exc _ _ _ n) := e in n.

(* ---------------- Python ---------------- *)

(* src/mlio-py/mlio/core/error.cc:130-162: the classes that are registered; then those of Python. *)
Inductive pycls :=
| P_MLIOError | P_NotSupportedError | P_DataReaderError | P_SchemaError | P_InvalidInstanceError
| P_RecordError | P_CorruptRecordError | P_CorruptHeaderError | P_CorruptFooterError | P_RecordTooLargeError
| P_StreamError | P_InflateError
| P_OSError | P_RuntimeError | P_ValueError | P_IndexError | P_LookupError | P_MemoryError | P_Exception.

Definition pycls_eq_dec : forall a b : pycls, {a = b} + {a <> b}.
Proof. decide equality. Defined.
Definition pycls_eqb (a b : pycls) : bool := if pycls_eq_dec a b then true else false.

(* error.cc:130-162: the bases given to register_exception. *)
Definition py_base (c : pycls) : option pycls :=
  match c with
  | P_MLIOError => Some P_RuntimeError
  | P_StreamError => Some P_MLIOError
  | P_InflateError => Some P_StreamError
  | P_RecordError => Some P_MLIOError
  | P_CorruptRecordError => Some P_RecordError
  | P_CorruptHeaderError => Some P_CorruptRecordError
  | P_CorruptFooterError => Some P_CorruptRecordError
  | P_RecordTooLargeError => Some P_RecordError
  | P_DataReaderError => Some P_MLIOError
  | P_SchemaError => Some P_DataReaderError
  | P_InvalidInstanceError => Some P_DataReaderError
  | P_NotSupportedError => Some P_MLIOError
  | P_IndexError => Some P_LookupError
  | P_OSError | P_RuntimeError | P_ValueError | P_LookupError | P_MemoryError => Some P_Exception
  | P_Exception => None
  end.

(* An except clause for [d] takes an exception of class [c]. *)
Fixpoint py_isa_up (n : nat) (c d : pycls) : bool :=
  pycls_eqb c d ||
  match n with
  | O => false
  | S n' => match py_base c with Some b => py_isa_up n' b d | None => false end
  end.
Definition py_isa (c d : pycls) : bool := py_isa_up 8 c d.

(* A Python exception: class, message, errno of OSError, __cause__. *)
Inductive pyexc := Py_exc (c : pycls) (msg : list byte) (errno : option Z) (cause : option pyexc).

(* error.cc:67-105 and 175-213: the catch clauses, in their order.  (The two lists are the same.) *)
Definition clauses : list (cls * pycls) :=
  [(Not_supported_error, P_NotSupportedError);
   (Invalid_instance_error, P_InvalidInstanceError);
   (Schema_error, P_SchemaError);
   (Data_reader_error, P_DataReaderError);
   (Record_too_large_error, P_RecordTooLargeError);
   (Corrupt_footer_error, P_CorruptFooterError);
   (Corrupt_header_error, P_CorruptHeaderError);
   (Corrupt_record_error, P_CorruptRecordError);
   (Record_error, P_RecordError);
   (Inflate_error, P_InflateError);
   (Stream_error, P_StreamError);
   (Mlio_error, P_MLIOError);
   (System_error, P_OSError)].

Fixpoint first_clause (l : list (cls * pycls)) (c : cls) : option pycls :=
  match l with
  | [] => None
  | (d, p) :: r => if isa c d then Some p else first_clause r c
  end.

(* error.cc:62-106 throw_nested_error, 41-60 set_nested_error and set_nested_system_error; 108-126 set_error and
   set_system_error; 167-214.  inr: the exception that leaves the function, one that no clause takes. *)
Fixpoint set_error (e : exc) : pyexc + exc :=
  let '(Exc c w k n) := e in
  match first_clause clauses c with
  | None => inr e
  | Some p =>
    let errno := match p with P_OSError => Some k | _ => None end in
    match n with
    | None => inl (Py_exc p w errno None)
    | Some e' =>
      match set_error e' with
      | inl cause => inl (Py_exc p w errno (Some cause))
      | inr e'' => inr e''
      end
    end
  end.

(* pybind11 2.4 translate_exception, the translator of the library itself: it does not look at nested exceptions. *)
Definition default_clauses : list (cls * pycls) :=
  [(Bad_alloc, P_MemoryError); (Invalid_argument_error, P_ValueError); (Out_of_range, P_IndexError);
   (Std_exception, P_RuntimeError)].
Definition default_translate (e : exc) : pyexc :=
  match first_clause default_clauses (e_cls e) with
  | Some p => Py_exc p (e_what e) None None
  | None => Py_exc P_RuntimeError (e_what e) None None
  end.

(* pybind11's dispatcher: the translators are tried, the one registered last first; an exception that leaves a translator
   is passed to the next one. *)
Definition to_python (e : exc) : pyexc :=
  match set_error e with inl p => p | inr e' => default_translate e' end.

(* ---------------- readers ---------------- *)

(* std::throw_with_nested.  The texts of MLIO's own messages are left open. *)
Definition wrap (c : cls) (text : list byte) (e : exc) : exc := Exc c text 0 (Some e).

Section Readers.
  Variable text : cls -> list byte.   (* the message for an error of a class *)
  Variables missing denied : list byte.

  Definition ENOENT : Z := 2.
  Definition EACCES : Z := 13.

  (* src/mlio/instance_readers/core_instance_reader.cc:70-102 handle_errors *)
  Definition core_handle_errors (e : exc) : exc :=
    let c := e_cls e in
    if isa c Record_too_large_error then wrap Data_reader_error (text Record_too_large_error) e
    else if isa c Corrupt_record_error then wrap Data_reader_error (text Corrupt_record_error) e
    else if isa c Stream_error then wrap Data_reader_error (text Stream_error) e
    else if isa c Not_supported_error then wrap Data_reader_error (text Not_supported_error) e
    else if isa c System_error then wrap Data_reader_error (text System_error) e
    else e.

  (* core_instance_reader.cc:212-227 and instance.cc:39-55: opening a data store.  std::errc compares codes of the
     generic category. *)
  Definition open_errors (e : exc) : exc :=
    if isa (e_cls e) System_error then
      if Z.eqb (e_code e) ENOENT then Exc Data_reader_error missing 0 None
      else if Z.eqb (e_code e) EACCES then Exc Data_reader_error denied 0 None
      else e
    else e.

  (* src/mlio/instance.cc:127-147 handle_errors *)
  Definition instance_handle_errors (e : exc) : exc :=
    let c := e_cls e in
    if isa c Stream_error then wrap Data_reader_error (text Stream_error) e
    else if isa c Not_supported_error then wrap Data_reader_error (text Not_supported_error) e
    else if isa c System_error then wrap Data_reader_error (text System_error) e
    else e.

  (* src/mlio/csv_reader.cc:129-151: the header row. *)
  Definition header_errors (e : exc) : exc :=
    if isa (e_cls e) Corrupt_record_error then wrap Schema_error (text Schema_error) e else e.

  (* Where an exception comes from in a data reader:
     - reading a record (core_instance_reader.cc:46-54),
     - opening the next data store of records (210-227), within the same try block,
     - the header row of a CSV file, read while opening,
     - opening a data store that is an instance (instance.cc:39-55),
     - reading it (57-64, 106-112). *)
  Inductive place := In_record | In_open | In_header | In_instance_open | In_instance.
  Definition reported (p : place) (e : exc) : exc :=
    match p with
    | In_record => core_handle_errors e
    | In_open => core_handle_errors (open_errors e)
    | In_header => core_handle_errors (open_errors (header_errors e))
    | In_instance_open => open_errors e
    | In_instance => instance_handle_errors e
    end.
End Readers.

(* ---------------- Arrow ---------------- *)

(* src/mlio-py/mlio/integ/arrow/arrow_util.h:34-57 convert_exception *)
Inductive status := St_out_of_memory | St_invalid | St_io_error | St_not_implemented | St_unknown.
Definition convert_exception (c : cls) : status :=
  if isa c Bad_alloc then St_out_of_memory
  else if isa c Invalid_argument_error then St_invalid
  else if isa c Stream_error then St_io_error
  else if isa c Not_supported_error then St_not_implemented
  else St_unknown.
