(* Data stores, streams and readers written in Python: how MLIO calls their methods. *)
From Verif Require Import Common.
From Coq Require String Ascii.
Import String.StringSyntax.
Local Open Scope string_scope.

(* The virtual functions a Python class can implement: src/mlio-py/mlio/core/data_store.cc:31-39,
   src/mlio-py/mlio/core/stream.cc:30-53, src/mlio-py/mlio/core/data_reader.cc:58-70. *)
Inductive slot :=
| Open_read | Id
| Read | Read_slice | Seek | Close | Size | Position | Seekable | Closed
| Read_example | Peek_example | Read_schema | Reset | Num_bytes_read.

(* The name under which the function is looked up: PYBIND11_OVERLOAD_PURE makes a string literal of its third argument.  In
   core/data_store.cc:41-65 and core/data_reader.cc:72-110 this is the name; in core/stream.cc:55-133 it already is a literal, and the
   name becomes one with quotation marks.  Read_slice (core/stream.cc:74-77) calls nothing. *)
Definition key (m : slot) : option String.string :=
  match m with
  | Open_read => Some "open_read"
  | Id => Some "id"
  | Read => Some """read"""
  | Read_slice => None
  | Seek => Some """seek"""
  | Close => Some """close"""
  | Size => Some """size"""
  | Position => Some """position"""
  | Seekable => Some """seekable"""
  | Closed => Some """closed"""
  | Read_example => Some "read_example"
  | Peek_example => Some "peek_example"
  | Read_schema => Some "read_schema"
  | Reset => Some "reset"
  | Num_bytes_read => Some "num_bytes_read"
  end.

(* The functions that turn every exception into std::terminate: core/data_store.cc:56-65, core/stream.cc:79-99 and
   113-133, core/data_reader.cc:90-110. *)
Definition guarded (m : slot) : bool :=
  match m with
  | Id | Seek | Close | Seekable | Closed | Reset | Num_bytes_read => true
  | _ => false
  end.

Section Tramp.
  Variable V : Type.

  (* What a Python function does when it is called: it returns something of the right type, something else, or raises. *)
  Inductive result := Returns (v : V) | Wrong_type | Raises.

  (* What a class defines under a name. *)
  Inductive member := Method (r : result) | Property (r : result).
  Definition pyclass := String.string -> option member.

  (* What the caller in C++ sees: a value, an exception, the end of the process, undefined behavior; V_empty is the empty memory
     slice. *)
  Inductive seen := Value (v : V) | V_empty | V_exception | V_terminated | V_undefined.

  Definition cast (r : result) : seen :=
    match r with Returns v => Value v | Wrong_type | Raises => V_exception end.

  (* pybind11 2.4.2 (third-party/CMakeLists.txt:158-160): get_overload and PYBIND11_OVERLOAD_PURE for the Python object of class [c],
     None if there is none any more.
     - Without an object, or if the attribute is missing or is a function of C++, pybind11_fail throws.
     - A property is evaluated; if it raises, the attribute counts as missing; otherwise its value is called, and that fails: the
       values documented for properties (strings, numbers, truth values) cannot be called.
     - A property of the base class (core/data_store.cc:119-120, core/data_reader.cc:617-625) calls the virtual function again, until the interpreter refuses: the attribute is missing. *)
  Definition overload (o : option pyclass) (n : String.string) : seen :=
    match o with
    | None => V_exception
    | Some c =>
        match c n with
        | Some (Method r) => cast r
        | Some (Property _) => V_exception
        | None => V_exception
        end
    end.

  (* A call of the virtual function.  Read uses the interpreter without the lock first (core/stream.cc:55-72, see Model_gil.v). *)
  Definition call (o : option pyclass) (m : slot) : seen :=
    match m, key m with
    | Read, _ => V_undefined
    | _, None => V_empty
    | _, Some n =>
        match overload o n with
        | V_exception => if guarded m then V_terminated else V_exception
        | s => s
        end
    end.

  (* The life of an object: how many references Python programs have, how many MLIO has (Intrusive_ptr), and the Python object,
     if there is one: pybind11 destroys it with its last Python reference and then gives up its own Intrusive_ptr.  A later
     conversion to Python makes a new object of the base class. *)
  Record life := mk_life { l_python : nat; l_mlio : nat; l_object : option pyclass }.
  Inductive event :=
  | E_keep                 (* the program makes another reference *)
  | E_drop                 (* it drops one *)
  | E_hand                 (* it hands the object to MLIO: a data set, a reader's parameters *)
  | E_release              (* MLIO gives up a reference *)
  | E_show                 (* MLIO hands the object to the program *)
  | E_call (m : slot).     (* MLIO calls a function *)
  Definition base_class : pyclass := fun _ => None.

  (* src/mlio-py/mlio/core/module.h:27: the holder of pybind11 is an Intrusive_ptr.  None: not possible in this state. *)
  Definition live (l : life) (e : event) : option (life * list seen) :=
    let '(mk_life p q o) := l in
    match e with
    | E_keep => if p =? 0 then None else Some (mk_life (S p) q o, [])
    | E_drop => match p with 0 => None | 1 => Some (mk_life 0 q None, []) | S p' => Some (mk_life p' q o, []) end
    | E_hand => if p =? 0 then None else Some (mk_life p (S q) o, [])
    | E_release => match q with 0 => None | S q' => Some (mk_life p q' o, []) end
    | E_show => if q =? 0 then None else Some (mk_life (S p) q (match o with Some c => Some c | None => Some base_class end), [])
    | E_call m => if q =? 0 then None else Some (l, [call o m])
    end.
  Fixpoint lives (l : life) (es : list event) : option (life * list seen) :=
    match es with
    | [] => Some (l, [])
    | e :: es' =>
        match live l e with
        | None => None
        | Some (l', r) => match lives l' es' with None => None | Some (l'', r') => Some (l'', (r ++ r')%list) end
        end
    end.
  (* The program makes an object of its class. *)
  Definition new_object (c : pyclass) : life := mk_life 1 0 (Some c).
End Tramp.
Arguments Returns {V}. Arguments Wrong_type {V}. Arguments Raises {V}. Arguments Method {V}. Arguments Property {V}.
Arguments Value {V}. Arguments V_empty {V}. Arguments V_exception {V}. Arguments V_terminated {V}. Arguments V_undefined {V}.
Arguments overload {V}. Arguments call {V}. Arguments mk_life {V}. Arguments l_python {V}. Arguments l_mlio {V}. Arguments l_object {V}.
Arguments base_class {V}. Arguments live {V}. Arguments lives {V}. Arguments new_object {V}. Arguments cast {V}.
