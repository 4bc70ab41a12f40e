(* What should be said about bad instances of a RecordIO-protobuf dataset. *)
From Verif Require Import Common Model_num Model_tsr Spec_tsr Model_csv Model_pb Spec_pb Model_report.
From Coq Require String DecimalString.
Import String.StringSyntax.
Local Open Scope string_scope.
Local Open Scope list_scope.
Local Open Scope Z_scope.

(* What is wrong with an instance. *)
Inductive problem :=
| Corrupt                                          (* it is no message *)
| Unknown (name : str)                             (* a feature the schema does not have *)
| Untyped (name : str)                             (* a feature that is no tensor *)
| Mistyped (name : str) (got expected : dtype)
| Density (name : str) (sparse : bool)             (* the feature is sparse and should be dense, or the other way round *)
| Misshaped (name : str) (got expected : list Z)
| Misfilled (name : str) (values : nat) (dims : list Z)   (* the number of values is not that of the shape *)
| Unpaired (name : str) (keys values : nat)        (* not as many keys as values *)
| Bad_keys (name : str)                            (* a key outside the shape *)
| Number (features expected : nat).                (* not as many features as the schema has *)

Definition numeral (n : Z) : str := tx (DecimalString.NilEmpty.string_of_uint (N.to_uint (Z.to_N n))).
Definition count (n : nat) : str := numeral (Z.of_nat n).
Definition listed (ds : list Z) : str :=
  match ds with [] => [] | d :: r => numeral d ++ concat (map (fun x => tx ", " ++ numeral x) r) end.
Definition type_name (dt : dtype) : str :=
  match dt with
  | D_size => tx "size" | D_float16 => tx "float16" | D_float32 => tx "float32" | D_float64 => tx "float64" | D_string => tx "string"
  | D_int i8 => tx "int8" | D_int i16 => tx "int16" | D_int i32 => tx "int32" | D_int i64 => tx "int64"
  | D_int u8 => tx "uint8" | D_int u16 => tx "uint16" | D_int u32 => tx "uint32" | D_int u64 => tx "uint64"
  end.

(* The sentence about the problem of the instance [nr] of the data store [store]. *)
Definition sentence (store : str) (nr : nat) (q : problem) : str :=
  let instance := tx "The instance #" ++ count nr ++ tx " in the data store '" ++ store ++ tx "' " in
  let feature name := tx "The feature '" ++ name ++ tx "' of the instance #" ++ count nr ++ tx " in the data store '" ++ store ++ tx "' " in
  let sparse name := tx "The sparse feature '" ++ name ++ tx "' of the instance #" ++ count nr ++ tx " in the data store '" ++ store ++ tx "' " in
  match q with
  | Corrupt => instance ++ tx "contains a corrupt RecordIO-protobuf message."
  | Unknown name => instance ++ tx "has an unknown feature named '" ++ name ++ tx "'."
  | Untyped name => feature name ++ tx "has an unexpected data type."
  | Mistyped name got expected =>
      feature name ++ tx "has the data type " ++ type_name got ++ tx " while it is expected to have the data type " ++ type_name expected ++ tx "."
  | Density name true => feature name ++ tx "is sparse while it is expected to be dense."
  | Density name false => feature name ++ tx "is dense while it is expected to be sparse."
  | Misshaped name got expected =>
      feature name ++ tx "has the shape (" ++ listed got ++ tx ") while it is expected to have the shape (" ++ listed expected ++ tx ")."
  | Misfilled name n dims => feature name ++ tx "has " ++ count n ++ tx " values(s) but a shape of (" ++ listed dims ++ tx ")."
  | Unpaired name k v => sparse name ++ tx "has " ++ count k ++ tx " key(s) but " ++ count v ++ tx " value(s)."
  | Bad_keys name => sparse name ++ tx "has one or more invalid keys."
  | Number n e => instance ++ tx "has " ++ count n ++ tx " feature(s) while it is expected to have " ++ count e ++ tx " features."
  end.

Section Spec.
  Context (V : Type) (s : schema).
  Notation attrs := (s_attributes s).

  (* What is wrong with a value of the attribute [a]: the first that applies of type, density, shape, number of values, keys. *)
  Inductive Fault (a : attribute) (v : pvalue V) : problem -> Prop :=
  | F_untyped : tensor_of V v = None -> Fault a v (Untyped (a_name a))
  | F_type dt t : tensor_of V v = Some (dt, t) -> dt <> a_type a -> Fault a v (Mistyped (a_name a) dt (a_type a))
  | F_sparse t : tensor_of V v = Some (a_type a, t) -> a_sparse a = false -> tensor_sparse V t -> Fault a v (Density (a_name a) true)
  | F_dense t : tensor_of V v = Some (a_type a, t) -> a_sparse a = true -> ~ tensor_sparse V t -> Fault a v (Density (a_name a) false)
  | F_shape t : tensor_of V v = Some (a_type a, t) -> (a_sparse a = true <-> tensor_sparse V t) -> ~ shape_fits V a t ->
      Fault a v (Misshaped (a_name a) (value_shape V t) (tl (a_shape a)))
  | F_filled t : tensor_of V v = Some (a_type a, t) -> ~ tensor_sparse V t -> a_sparse a = false -> shape_fits V a t ->
      Z.of_nat (length (t_values _ t)) <> volume (tl (a_shape a)) -> Fault a v (Misfilled (a_name a) (length (t_values _ t)) (tl (a_shape a)))
  | F_unpaired t : tensor_of V v = Some (a_type a, t) -> tensor_sparse V t -> a_sparse a = true -> shape_fits V a t ->
      length (t_keys _ t) <> length (t_values _ t) -> Fault a v (Unpaired (a_name a) (length (t_keys _ t)) (length (t_values _ t)))
  | F_keys : framed V a v -> a_sparse a = true -> ~ conforms V a v -> Fault a v (Bad_keys (a_name a)).

  (* The first problem among the labels and features of a message, in their order. *)
  Inductive Tells : list (str * pvalue V) -> option problem -> Prop :=
  | T_end : Tells [] None
  | T_unknown name v rest : ~ In name (map a_name attrs) -> Tells ((name, v) :: rest) (Some (Unknown name))
  | T_fault name v rest a q : In a attrs -> a_name a = name -> Fault a v q -> Tells ((name, v) :: rest) (Some q)
  | T_fine name v rest a q : In a attrs -> a_name a = name -> conforms V a v -> Tells rest q -> Tells ((name, v) :: rest) q.

  Inductive tells : instance V -> option problem -> Prop :=
  | I_corrupt : tells None (Some Corrupt)
  | I_feature m q : Tells (m_entries V m) (Some q) -> tells (Some m) (Some q)
  | I_number m : Tells (m_entries V m) None -> length (m_entries V m) <> length attrs ->
      tells (Some m) (Some (Number (length (m_entries V m)) (length attrs)))
  | I_good m : Tells (m_entries V m) None -> length (m_entries V m) = length attrs -> tells (Some m) None.

  (* Keys are unsigned numbers. *)
  Definition unsigned_keys (i : instance V) : Prop :=
    forall m name v dt t, i = Some m -> In (name, v) (m_entries V m) -> tensor_of V v = Some (dt, t) -> Forall (fun k => 0 <= k) (t_keys _ t).
End Spec.

Definition not_density (q : option problem) : Prop := forall name b, q <> Some (Density name b).
Definition faulty (q : option problem) : bool := match q with Some _ => true | None => false end.

(* What is to be logged about the instance [nr] with the problem [q]. *)
Definition logged (warn : bool) (store : str) (nr : nat) (q : option problem) : list str :=
  match q with Some q => if warn then [sentence store nr q] else [] | None => [] end.

Definition skipped_sentence (example : nat) : str :=
  tx "The example #" ++ count example ++ tx " has been skipped as it had at least one bad instance.".
Definition padded_sentence (example bad : nat) : str :=
  tx "The example #" ++ count example ++ tx " has been padded as it had " ++ count bad ++ tx " bad instance(s).".
