(* Datasets of TensorFlow made of a data reader: src/mlio-py/mlio/integ/tensorflow.py:35-44 make_tf_dataset.
   Names, tensors and TensorFlow types are numbers.  The reader is that of Model_iter. *)
From Verif Require Import Common Model_iter.
From Coq Require Import List Arith Bool.
Import ListNotations.

Definition name := nat.
Definition value := nat.

(* A Python dictionary: its entries in the order of insertion; no name twice. *)
Definition dict := list (name * value).

Fixpoint find_entry (d : dict) (n : name) : option value :=
  match d with [] => None | (m, v) :: d' => if n =? m then Some v else find_entry d' n end.

(* d[n] = v *)
Fixpoint set_entry (d : dict) (n : name) (v : value) : dict :=
  match d with [] => [(n, v)] | (m, w) :: d' => if n =? m then (m, v) :: d' else (m, w) :: set_entry d' n v end.

(* tensorflow.py:39-40 with mlio-py/mlio/core/example.cc:28-36 get_feature: a name that the example does not have raises KeyError
   (None).  ex has the features of the example with their names (find_feature is in Model_tsr). *)
Fixpoint pick (fs : list name) (ex : list (name * value)) (d : dict) : option dict :=
  match fs with
  | [] => Some d
  | f :: fs' => match find_entry ex f with Some v => pick fs' ex (set_entry d f v) | None => None end
  end.

(* tensorflow.py:43: zip stops with the shorter list. *)
Fixpoint zip_types (features dtypes : list nat) (d : dict) : dict :=
  match features, dtypes with
  | f :: fs, t :: ts => zip_types fs ts (set_entry d f t)
  | _, _ => d
  end.

(* What next() on an iterator of the dataset, or read_example() (R_item) or peek_example() (R_peek) of the reader, gives. *)
Inductive raised := X_key | X_type | X_reader (x : exn).
Inductive out := R_element (d : dict) | R_item (x : item) | R_peek (x : item) | R_none | R_stop | R_raise (x : raised).

(* The arguments of make_tf_dataset besides the reader, and the features of the examples. *)
Record setup := mk_setup { p_features : list name; p_dtypes : list nat; p_content : item -> list (name * value) }.

(* TensorFlow's from_generator (not part of the repository): an element must have the names of output_types, all of them and no others; otherwise
   the iterator raises a TypeError. *)
Definition same_names (a b : dict) : bool :=
  forallb (fun e => match find_entry b (fst e) with Some _ => true | None => false end) a &&
  forallb (fun e => match find_entry a (fst e) with Some _ => true | None => false end) b.

(* tensorflow.py:36-41: next() on a generator.  The generator makes an iterator of the reader when it is first asked (37); Py_data_iterator::next
   (mlio-py/mlio/core/data_reader.cc:37-51) reads an example.  A generator that ended or raised is finished (false). *)
Definition gen_next (s : setup) (r : reader) : out * reader * bool :=
  let (g, r') := read_reader r in
  match g with
  | G_item x =>
      match pick (p_features s) (p_content s x) [] with
      | Some d => if same_names d (zip_types (p_features s) (p_dtypes s) []) then (R_element d, r', true) else (R_raise X_type, r', false)
      | None => (R_raise X_key, r', false)
      end
  | G_end => (R_stop, r', false)
  | G_error x => (R_raise (X_reader x), r', false)
  end.

(* What a program does with the dataset and with its reader: iter(dataset) calls the generator function anew (tensorflow.py:44), next() on the
   i-th iterator, and the reader's own methods. *)
Inductive act := T_iter | T_next (i : nat) | T_read | T_peek | T_reset.

(* The reader, and which of the iterators are not finished. *)
Record state := mk_state { t_reader : reader; t_alive : list bool }.

Definition step (s : setup) (t : state) (a : act) : state * list out :=
  match a with
  | T_iter => (mk_state (t_reader t) (t_alive t ++ [true]), [])
  | T_next i =>
      match nth_error (t_alive t) i with
      | None => (t, [])
      | Some false => (t, [R_stop])
      | Some true => let '(o, r, b) := gen_next s (t_reader t) in (mk_state r (put (t_alive t) i b), [o])
      end
  | T_read =>
      let (g, r) := read_reader (t_reader t) in
      (mk_state r (t_alive t), [match g with G_item x => R_item x | G_end => R_none | G_error x => R_raise (X_reader x) end])
  | T_peek =>
      let (g, r) := peek_reader (t_reader t) in
      (mk_state r (t_alive t), [match g with G_item x => R_peek x | G_end => R_none | G_error x => R_raise (X_reader x) end])
  | T_reset => (mk_state (reset_reader (t_reader t)) (t_alive t), [])
  end.

Fixpoint run (s : setup) (t : state) (p : list act) : state * list out :=
  match p with
  | [] => (t, [])
  | a :: p' => let (t1, o) := step s t a in let (t2, os) := run s t1 p' in (t2, o ++ os)
  end.

(* A new reader. *)
Definition start (d : dataset) : state := mk_state (mk_reader true d 0 0 None) [].
