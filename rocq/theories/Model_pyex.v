(* Examples and schemas in the hands of Python programs, and examples as pandas tables. *)
From Verif Require Import Common Model_num Model_tsr.
From Coq Require Import ZArith.
Local Open Scope Z_scope.

(* What a Python expression yields. *)
Inductive pyerror := KeyError | TypeError | IndexError.
Inductive pyvalue (T : Type) :=
| V_number (n : nat)
| V_bool (b : bool)
| V_none
| V_feature (t : T)
| V_features (l : list T)
| V_names (l : list (list byte))
| V_text (l : list (list byte * T))       (* repr of an example: the names and features in it *)
| V_error (e : pyerror)
| V_undefined.
Arguments V_number {T}. Arguments V_bool {T}. Arguments V_none {T}. Arguments V_feature {T}. Arguments V_features {T}.
Arguments V_names {T}. Arguments V_text {T}. Arguments V_error {T}. Arguments V_undefined {T}.

(* What a program does with an example and its schema.  Numbers are Python's. *)
Inductive pyop :=
| P_len                            (* len(example) *)
| P_get_name (n : list byte)       (* example[name] *)
| P_get_index (i : Z)              (* example[i] *)
| P_has_name (n : list byte)       (* name in example *)
| P_has_index (i : Z)              (* i in example *)
| P_iterate                        (* list(example) *)
| P_schema_index (n : list byte)   (* example.schema.get_index(name) *)
| P_names                          (* [a.name for a in example.schema.attributes] *)
| P_repr                           (* repr(example) *)
| P_append (a : attribute)         (* example.schema.attributes.append(a) *)
| P_delete (i : Z)                 (* del example.schema.attributes[i] *)
| P_clear                          (* example.schema.attributes.clear() *)
| P_assign (i : Z) (a : attribute).  (* example.schema.attributes[i] = a *)

Section Example_.
  Variable T : Type.

  (* A Python integer as std::size_t: pybind11 takes no negative number and none from 2^64 on; no overload is left then. *)
  Definition as_index (i : Z) : option Z := if (0 <=? i) && (i <? 2 ^ 64) then Some i else None.

  (* src/mlio/example.cc:50-77 repr: the zip iterator ends with the attributes; a feature beyond the last is undefined. *)
  Fixpoint zip_text (attrs : list attribute) (features : list T) : option (list (list byte * T)) :=
    match attrs, features with
    | [], _ => Some []
    | a :: attrs', t :: features' =>
      match zip_text attrs' features' with Some l => Some ((a_name a, t) :: l) | None => None end
    | _ :: _, [] => None
    end.

  (* The positions of a Python list: negative ones count from the end (pybind11's bind_vector). *)
  Definition position (i : Z) (size : nat) : option nat :=
    let i' := if i <? 0 then i + Z.of_nat size else i in
    if (0 <=? i') && (i' <? Z.of_nat size) then Some (Z.to_nat i') else None.

  Definition replace_at (i : nat) (x : list attribute) (l : list attribute) : list attribute := firstn i l ++ x ++ skipn (S i) l.

  (* src/mlio-py/mlio/core/schema.cc:79-95: the property [attributes] returns a reference to the vector inside the schema,
     module.h:29 makes the vector opaque and schema.cc:75 binds it as a list that can be changed. *)
  Definition with_attributes (e : example T) (attrs : list attribute) : example T :=
    mk_example (mk_schema attrs (s_index (e_schema e))) (e_features e) (e_padding e).

  (* src/mlio-py/mlio/core/example.cc:28-97 *)
  Definition py_do (o : pyop) (e : example T) : pyvalue T * example T :=
    let attrs := s_attributes (e_schema e) in
    match o with
    | P_len => (V_number (length (e_features e)), e)
    | P_get_name n =>
      (match find_feature e n with
       | Ok (Some t) => V_feature t
       | Ok None => V_error KeyError
       | _ => V_undefined
       end, e)
    | P_get_index i =>
      (match as_index i with
       | None => V_error TypeError
       | Some i => if Z.of_nat (length (e_features e)) <=? i then V_error KeyError
                   else match nth_error (e_features e) (Z.to_nat i) with Some t => V_feature t | None => V_undefined end
       end, e)
    | P_has_name n => (V_bool match get_index (e_schema e) n with Some _ => true | None => false end, e)
    | P_has_index i =>
      (match as_index i with
       | None => V_error TypeError
       | Some i => V_bool (i <? Z.of_nat (length (e_features e)))
       end, e)
    | P_iterate => (V_features (e_features e), e)
    | P_schema_index n => (match get_index (e_schema e) n with Some i => V_number i | None => V_none end, e)
    | P_names => (V_names (map a_name attrs), e)
    | P_repr => (match zip_text attrs (e_features e) with Some l => V_text l | None => V_undefined end, e)
    | P_append a => (V_none, with_attributes e (attrs ++ [a]))
    | P_clear => (V_none, with_attributes e [])
    | P_delete i =>
      match position i (length attrs) with
      | Some k => (V_none, with_attributes e (replace_at k [] attrs))
      | None => (V_error IndexError, e)
      end
    | P_assign i a =>
      match position i (length attrs) with
      | Some k => (V_none, with_attributes e (replace_at k [a] attrs))
      | None => (V_error IndexError, e)
      end
    end.

  Fixpoint py_run (ops : list pyop) (e : example T) : list (pyvalue T) :=
    match ops with
    | [] => []
    | o :: rest => let (v, e') := py_do o e in v :: py_run rest e'
    end.
End Example_.
Arguments zip_text {T}. Arguments with_attributes {T}. Arguments py_do {T}. Arguments py_run {T}.

(* ---------------- pandas ---------------- *)

Section Pandas.
  Variable V : Type.

  (* A feature: a dense tensor, with its item at every index, or a sparse one. *)
  Inductive feature := Dense (shape : list Z) (item : list Z -> V) | Sparse.

  (* numpy.ndarray.flatten: the items in row-major order. *)
  Fixpoint numbers (from : Z) (n : nat) : list Z :=
    match n with O => [] | S n' => from :: numbers (from + 1) n' end.
  Fixpoint indices_of (shape : list Z) : list (list Z) :=
    match shape with
    | [] => [[]]
    | d :: shape' => flat_map (fun i => map (cons i) (indices_of shape')) (numbers 0 (Z.to_nat d))
    end.
  Definition flatten (shape : list Z) (item : list Z -> V) : list V := map item (indices_of shape).

  (* A Python dict keeps the place of a key that is given again. *)
  Fixpoint dict_set (k : list byte) (v : list V) (d : list (list byte * list V)) : list (list byte * list V) :=
    match d with
    | [] => [(k, v)]
    | (k', v') :: d' => if bytes_eqb k k' then (k, v) :: d' else (k', v') :: dict_set k v d'
    end.

  (* src/mlio-py/mlio/integ/pandas.py:19-26 to_pandas; numpy.py:19-27 as_numpy refuses sparse tensors. *)
  Fixpoint columns_of (attrs : list attribute) (features : list feature) (d : list (list byte * list V))
    : res (list (list byte * list V)) :=
    match attrs, features with
    | a :: attrs', Dense shape item :: features' => columns_of attrs' features' (dict_set (a_name a) (flatten shape item) d)
    | _ :: _, Sparse :: _ => Throw Invalid_argument
    | _, _ => Ok d
    end.

  (* pandas.DataFrame(dict): all arrays have the same length. *)
  Definition data_frame (d : list (list byte * list V)) : res (list (list byte * list V)) :=
    match d with
    | [] => Ok []
    | (_, c) :: d' => if forallb (fun kc => Nat.eqb (length (snd kc)) (length c)) d' then Ok d else Throw Invalid_argument
    end.

  Definition to_pandas (e : example feature) : res (list (list byte * list V)) :=
    let* d := columns_of (s_attributes (e_schema e)) (e_features e) [] in
    data_frame d.
End Pandas.
Arguments Dense {V}. Arguments Sparse {V}. Arguments flatten {V}. Arguments dict_set {V}. Arguments columns_of {V}.
Arguments data_frame {V}. Arguments to_pandas {V}.
