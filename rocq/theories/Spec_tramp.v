(* What a class written in Python promises. *)
From Verif Require Import Common Model_tramp.
From Coq Require Import String.
Local Open Scope string_scope.
Local Open Scope list_scope.

(* The documented names (doc/python/data_store.md, stream.md, data_reader.md). *)
Definition documented (m : slot) : string :=
  match m with
  | Open_read => "open_read" | Id => "id"
  | Read | Read_slice => "read" | Seek => "seek" | Close => "close" | Size => "size" | Position => "position" | Seekable => "seekable"
  | Closed => "closed"
  | Read_example => "read_example" | Peek_example => "peek_example" | Read_schema => "read_schema" | Reset => "reset"
  | Num_bytes_read => "num_bytes_read"
  end.
Definition of_stream (m : slot) : Prop :=
  match m with Read | Read_slice | Seek | Close | Size | Position | Seekable | Closed => True | _ => False end.

(* The functions that cannot report an error. *)
Definition no_error (m : slot) : Prop :=
  match m with Id | Seek | Close | Seekable | Closed | Reset | Num_bytes_read => True | _ => False end.

(* A class whose members have names Python's syntax allows: no quotation mark in them. *)
Definition no_quotes (n : string) : Prop := forall k, String.get k n <> Some (Ascii.ascii_of_nat 34).
Definition ordinary {V} (c : pyclass V) : Prop := forall n, c n <> None -> no_quotes n.

(* The references of the program to its object after a history: one in the beginning. *)
Fixpoint made (es : list event) : nat := match es with [] => 1 | (E_keep | E_show) :: es' => S (made es') | _ :: es' => made es' end.
Fixpoint dropped (es : list event) : nat := match es with [] => 0 | E_drop :: es' => S (dropped es') | _ :: es' => dropped es' end.
Definition kept (es : list event) : Prop := forall es1 es2, es = es1 ++ es2 -> dropped es1 < made es1.

(* The calls of MLIO in a history. *)
Fixpoint calls (es : list event) : list slot :=
  match es with [] => [] | E_call m :: es' => m :: calls es' | _ :: es' => calls es' end.

Definition no_value {V} (s : seen V) : Prop := forall v, s <> Value v.
