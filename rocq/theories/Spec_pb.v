(* Vocabulary for the properties of the RecordIO-protobuf reader. *)
From Coq Require Export Permutation.
From Verif Require Import Common Model_num Model_tsr Spec_tsr Model_csv Model_pb.
Local Open Scope Z_scope.

Section Spec_pb.
  Variable V : Type.

  (* The data type and the tensor of a value. *)
  Definition tensor_of (v : pvalue V) : option (dtype * ptensor V) :=
    match v with
    | P_float32 _ t => Some (D_float32, t)
    | P_float64 _ t => Some (D_float64, t)
    | P_int32 _ t => Some (D_int i32, t)
    | P_bytes _ | P_unset _ => None
    end.

  (* A tensor is sparse if it has keys, or if it has a shape but no values. *)
  Definition tensor_sparse (t : ptensor V) : Prop :=
    t_keys _ t <> [] \/ (t_values _ t = [] /\ t_shape _ t <> []).

  (* The shape of one instance is the attribute's; a tensor without shape has one dimension. *)
  Definition shape_fits (a : attribute) (t : ptensor V) : Prop :=
    (t_shape _ t <> [] /\ tl (a_shape a) = t_shape _ t) \/
    (t_shape _ t = [] /\ tl (a_shape a) = [Z.of_nat (length (t_values _ t))]).

  (* A value has the attribute's type, sparsity and shape, and the right number of values. *)
  Definition framed (a : attribute) (v : pvalue V) : Prop :=
    exists t, tensor_of v = Some (a_type a, t) /\ (a_sparse a = true <-> tensor_sparse t) /\ shape_fits a t /\
      (a_sparse a = true -> length (t_keys _ t) = length (t_values _ t)) /\
      (a_sparse a = false -> Z.of_nat (length (t_values _ t)) = volume (tl (a_shape a))).

  (* Moreover the keys of a sparse value are positions in the shape. *)
  Definition conforms (a : attribute) (v : pvalue V) : Prop :=
    framed a v /\ (a_sparse a = true -> forall dt t, tensor_of v = Some (dt, t) -> Forall (fun k => k < volume (tl (a_shape a))) (t_keys _ t)).

  (* The message has exactly one value for every attribute, and it conforms. *)
  Definition fits (s : schema) (m : message V) : Prop :=
    Permutation (map fst (m_entries _ m)) (map a_name (s_attributes s)) /\
    forall name v a, In (name, v) (m_entries _ m) -> In a (s_attributes s) -> a_name a = name -> conforms a v.

  (* The names are different (a feature may have the name of a label with the prefix), keys are not negative. *)
  Definition clean_message (m : message V) : Prop :=
    NoDup (map fst (m_entries _ m)) /\
    forall name v dt t, In (name, v) (m_entries _ m) -> tensor_of v = Some (dt, t) -> Forall (fun k => 0 <= k) (t_keys _ t).
  Definition clean (i : instance V) : Prop := forall m, i = Some m -> clean_message m.

  (* An attribute of the schema of a reader with the batch size [batch]. *)
  Definition usable (batch : Z) (a : attribute) : Prop :=
    (exists dims, a_shape a = batch :: dims /\ dims <> [] /\ (a_sparse a = true -> positive dims)) /\
    reasonable (a_shape a) /\
    new_attribute (a_name a) (a_type a) (a_shape a) [] (a_sparse a) = Ok a.
  (* A schema of the reader, and a batch of [size] instances at most. *)
  Definition usable_schema (size : nat) (s : schema) : Prop :=
    new_schema (s_attributes s) = Ok s /\
    exists batch, Z.of_nat size <= batch < 2 ^ 63 /\ Forall (usable batch) (s_attributes s).

  (* The good instances of a batch. *)
  Definition good (s : schema) (i : instance V) : Prop := exists m, i = Some m /\ fits s m.
  Inductive goods (s : schema) : list (instance V) -> list (message V) -> Prop :=
  | G_none : goods s [] []
  | G_good m is ms : fits s m -> goods s is ms -> goods s (Some m :: is) (m :: ms)
  | G_bad i is ms : ~ good s i -> goods s is ms -> goods s (i :: is) ms.

  (* The tensor of a name in a message. *)
  Definition tensor_in (m : message V) (name : list byte) : ptensor V :=
    match find (fun e => bytes_eqb (fst e) name) (m_entries _ m) with
    | Some (_, v) => match tensor_of v with Some (_, t) => t | None => mk_pt V [] [] [] end
    | None => mk_pt V [] [] []
    end.
  Definition row_in (m : message V) (name : list byte) : sparse_row V :=
    combine (t_keys _ (tensor_in m name)) (t_values _ (tensor_in m name)).

  (* Row [i] of an array with [n] elements per row. *)
  Definition row_of (n i : nat) (data : list V) : list V := firstn n (skipn (i * n) data).

  (* The feature of the attribute [a] holds the messages [ms], one per row; its first dimension is [size]. *)
  Definition holds_rows (size : nat) (ms : list (message V)) (a : attribute) (f : feature V) : Prop :=
    let dims := tl (a_shape a) in
    if a_sparse a then
      exists o, f = F_coo V o /\ o_shape o = Z.of_nat size :: dims /\
        holds_entries dims (o_data o) (o_coords o) (entries 0 (map (fun m => row_in m (a_name a)) ms))
    else
      exists data, f = F_dense V (Z.of_nat size :: dims) data /\ Z.of_nat (length data) = Z.of_nat size * volume dims /\
        forall i m, nth_error ms i = Some m ->
          row_of (Z.to_nat (volume dims)) i data = t_values _ (tensor_in m (a_name a)).
  (* The rows after the first [n] are zero. *)
  Definition zero_after (vzero : V) (n : nat) (a : attribute) (f : feature V) : Prop :=
    match f with
    | F_dense _ _ data => forall j v, nth_error data j = Some v -> (n * Z.to_nat (volume (tl (a_shape a))) <= j)%nat -> v = vzero
    | F_coo _ _ => True
    end.

  (* A bad instance whose fault is found before anything is appended to a sparse feature: its bytes are not a
     message, or all entries before the first one that is not framed belong to dense attributes. *)
  Definition found_early (s : schema) (i : instance V) : Prop :=
    forall m, i = Some m ->
      exists pre post, m_entries _ m = pre ++ post /\
        Forall (fun e => exists a, In a (s_attributes s) /\ a_name a = fst e /\ a_sparse a = false /\ conforms a (snd e)) pre /\
        match post with
        | [] => True
        | e :: _ => forall a, In a (s_attributes s) -> a_name a = fst e -> ~ framed a (snd e)
        end.

  (* The shape of a value, and the attribute that describes it in a reader with the batch size [batch]. *)
  Definition value_shape (t : ptensor V) : list Z :=
    match t_shape _ t with [] => [Z.of_nat (length (t_values _ t))] | sh => sh end.
  Definition describes (batch : Z) (e : list byte * pvalue V) (a : attribute) : Prop :=
    exists t, tensor_of (snd e) = Some (a_type a, t) /\ a_name a = fst e /\ a_shape a = batch :: value_shape t /\
      (a_sparse a = true <-> tensor_sparse t).
  (* The names of the attributes of a message: those of its labels after "label_", then those of its features. *)
  Definition entry_names (m : message V) : list (list byte) :=
    map (fun e => [108; 97; 98; 101; 108; 95]%N ++ fst e) (m_labels _ m) ++ map fst (m_features _ m).
  (* A value an attribute can describe: a tensor, with a shape if it is sparse. *)
  Definition describable (batch : Z) (v : pvalue V) : Prop :=
    exists dt t, tensor_of v = Some (dt, t) /\ (t_keys _ t <> [] -> t_shape _ t <> []) /\
      reasonable (batch :: value_shape t) /\ (tensor_sparse t -> positive (value_shape t)).
  (* Its values fill the shape. *)
  Definition filled (v : pvalue V) : Prop :=
    forall dt t, tensor_of v = Some (dt, t) ->
      (tensor_sparse t -> length (t_keys _ t) = length (t_values _ t) /\ Forall (fun k => k < volume (value_shape t)) (t_keys _ t)) /\
      (~ tensor_sparse t -> Z.of_nat (length (t_values _ t)) = volume (value_shape t)).
End Spec_pb.
