(* Tensors, the COO tensor builder, schemas and examples.  Sizes and indices (size_t) are integers in [0, 2^64),
   strides (ptrdiff_t) integers in [-2^63, 2^63).  The elements of an array have the type V. *)
From Verif Require Import Common Model_num.
Local Open Scope Z_scope.

(* include/mlio/util/cast.h:45-55 as_size, as_ssize: conversions between size_t and ptrdiff_t on a 64-bit machine. *)
Definition as_size (z : Z) : Z := z mod 2 ^ 64.
Definition as_ssize (z : Z) : Z := if z <? 2 ^ 63 then z else z - 2 ^ 64.
Definition in_ssize (z : Z) : bool := (- 2 ^ 63 <=? z) && (z <? 2 ^ 63).

(* src/mlio/tensor.cc:57-71 Tensor::default_strides.  The loop runs over the dimensions from the last to the
   second; the product is signed, its overflow is undefined. *)
Fixpoint default_strides (shape : list Z) : res (list Z) :=
  match shape with
  | [] => Ok []
  | _ :: rest =>
      match rest with
      | [] => Ok [1]
      | d :: _ =>
          let* ss := default_strides rest in
          let p := hd 1 ss * as_ssize d in
          if in_ssize p then Ok (p :: ss) else UB
      end
  end.

(* src/mlio/tensor.cc:45-55 Tensor::Tensor: the strides of the tensor.  src/mlio/schema.cc:33-51
   Attribute::Attribute does the same. *)
Definition tensor_strides (shape strides : list Z) : res (list Z) :=
  match strides with
  | [] => default_strides shape
  | _ :: _ => if Nat.eqb (length strides) (length shape) then Ok strides else Throw Invalid_argument
  end.

(* src/mlio/tensor.cc:96-116 Dense_tensor::validate_data_size: the loop over the dimensions.  size_t arithmetic
   is modulo 2^64; std::abs of the smallest ptrdiff_t is undefined. *)
Fixpoint last_index (shape strides : list Z) (last : Z) : res Z :=
  match shape, strides with
  | d :: shape', s :: strides' =>
      if s =? - 2 ^ 63 then UB
      else last_index shape' strides' (as_size (last + as_size (d - 1) * as_size (Z.abs s)))
  | [], _ => Ok last
  | _ :: _, [] => UB
  end.
Definition validate_data_size (shape strides : list Z) (size : Z) : res unit :=
  match shape with
  | [] => Ok tt
  | _ :: _ =>
      let* last := last_index shape strides 0 in
      if as_size (last + 1) >? size then Throw Invalid_argument else Ok tt
  end.

(* src/mlio/tensor.cc:73-79 Dense_tensor::Dense_tensor for an array of [size] elements; yields the strides. *)
Definition dense_tensor (shape : list Z) (size : Z) (strides : list Z) : res (list Z) :=
  let* ss := tensor_strides shape strides in
  let* _ := validate_data_size shape ss size in
  Ok ss.

(* src/mlio/tensor.cc:118-136 Coo_tensor::Coo_tensor for an array of [size] elements and coordinate vectors of
   the given sizes. *)
Definition coo_tensor (shape : list Z) (size : nat) (coordinates : list nat) : res (list Z) :=
  let* ss := tensor_strides shape [] in
  if negb (Nat.eqb (length shape) (length coordinates)) then Throw Invalid_argument
  else if forallb (Nat.eqb size) coordinates then Ok ss else Throw Invalid_argument.

(* src/mlio/tensor.cc:153-188 Csr_tensor::Csr_tensor.  The arguments are the sizes of the arrays.  Line 160 moves
   the parameter [indptr] into the member; line 184 then reads the size through the parameter, which is null by
   then (a unique_ptr that has been moved from). *)
Definition csr_tensor (shape : list Z) (data indices indptr : nat) : res (list Z) :=
  let* ss := tensor_strides shape [] in
  let parameter : option nat := None in
  if Nat.ltb 2 (length shape) then Throw Invalid_argument
  else if negb (Nat.eqb data indices) then Throw Invalid_argument
  else
    let num_rows := match shape with [] => 0 | [_] => 1 | d :: _ => d end in
    match parameter with
    | None => UB
    | Some n => if Z.of_nat n =? as_size (num_rows + 1) then Ok ss else Throw Invalid_argument
    end.

(* src/mlio/coo_tensor_builder.cc:53-68: the coordinates of one key, one vector per dimension after the batch
   dimension.  The boolean is false if the loop returned false; the vectors then keep what was appended. *)
Fixpoint append_key (dims strides : list Z) (cs : list (list Z)) (idx : Z) : res (list (list Z) * bool) :=
  match dims, strides, cs with
  | d :: dims', s :: strides', c :: cs' =>
      let stride := as_size s in
      if stride =? 0 then UB
      else
        let q := idx / stride in
        if q >=? d then Ok (cs, false)
        else
          let* (cs'', ok) := append_key dims' strides' cs' (idx mod stride) in
          Ok ((c ++ [q]) :: cs'', ok)
  | _, _, _ => Ok (cs, true)
  end.

(* src/mlio/coo_tensor_builder.cc:43-69: the loop over the keys.  size_t has 64 bits, so that the conversion of
   line 47 succeeds. *)
Fixpoint append_keys (dims strides : list Z) (row : Z) (rows : list Z) (cs : list (list Z)) (keys : list Z)
  : res (list Z * list (list Z) * bool) :=
  match keys with
  | [] => Ok (rows, cs, true)
  | k :: keys' =>
      let* (cs', ok) := append_key dims strides cs k in
      if ok then append_keys dims strides row (rows ++ [row]) cs' keys' else Ok (rows ++ [row], cs', false)
  end.

Section Builder.
  Variable V : Type.

  (* src/mlio/coo_tensor_builder.h:57-61 and 76: the data and the coordinates of the builder, those of the batch
     dimension apart, and the row. *)
  Record builder := mk_builder {
    b_data : list V;
    b_rows : list Z;
    b_coords : list (list Z);
    b_row : Z
  }.

  (* src/mlio/coo_tensor_builder.h:36-38: a builder for an attribute with [n] dimensions after the batch
     dimension. *)
  Definition new_builder (n : nat) : builder := mk_builder [] [] (repeat [] n) 0.

  (* src/mlio/coo_tensor_builder.h:79-86 append and coo_tensor_builder.cc:26-74 append_indices, for an attribute
     with the shape [shape] and the strides [strides]. *)
  Definition append (shape strides : list Z) (b : builder) (values : list V) (keys : list Z)
    : res (builder * bool) :=
    let data := b_data b ++ values in
    let* (rc, ok) := append_keys (tl shape) (tl strides) (b_row b) (b_rows b) (b_coords b) keys in
    let (rows, coords) := rc in
    Ok (mk_builder data rows coords (if ok then as_size (b_row b + 1) else b_row b), ok).

  (* A COO tensor: shape, data and the coordinate vectors, the one of the batch dimension first. *)
  Record coo := mk_coo { o_shape : list Z; o_data : list V; o_coords : list (list Z) }.

  (* src/mlio/coo_tensor_builder.cc:76-94 build_core and coo_tensor_builder.h:88-94 build. *)
  Definition build (shape : list Z) (batch_size : Z) (b : builder) : res coo :=
    let shape' := batch_size :: tl shape in
    let coords := b_rows b :: b_coords b in
    let* _ := coo_tensor shape' (length (b_data b)) (map (@length Z) coords) in
    Ok (mk_coo shape' (b_data b) coords).
End Builder.
Arguments mk_builder {V}.
Arguments b_data {V}.
Arguments b_rows {V}.
Arguments b_coords {V}.
Arguments b_row {V}.
Arguments new_builder {V}.
Arguments append {V}.
Arguments mk_coo {V}.
Arguments o_shape {V}.
Arguments o_data {V}.
Arguments o_coords {V}.
Arguments build {V}.

(* include/mlio/schema.h:40-83 Attribute. *)
Record attribute := mk_attribute {
  a_name : list byte;
  a_type : dtype;
  a_shape : list Z;
  a_strides : list Z;
  a_sparse : bool
}.

(* src/mlio/schema.cc:33-51 Attribute::Attribute. *)
Definition new_attribute (name : list byte) (t : dtype) (shape strides : list Z) (sparse : bool) : res attribute :=
  let* ss := tensor_strides shape strides in
  Ok (mk_attribute name t shape ss sparse).

Definition bytes_eqb (a b : list byte) : bool := if list_eq_dec N.eq_dec a b then true else false.
Definition zs_eqb (a b : list Z) : bool := if list_eq_dec Z.eq_dec a b then true else false.
Definition ity_eqb (a b : ity) : bool :=
  match a, b with
  | i8, i8 | i16, i16 | i32, i32 | i64, i64 | u8, u8 | u16, u16 | u32, u32 | u64, u64 => true
  | _, _ => false
  end.
Definition dtype_eqb (a b : dtype) : bool :=
  match a, b with
  | D_size, D_size | D_float16, D_float16 | D_float32, D_float32 | D_float64, D_float64 | D_string, D_string => true
  | D_int t, D_int u => ity_eqb t u
  | _, _ => false
  end.

(* src/mlio/schema.cc:64-69: equality of attributes. *)
Definition attribute_eqb (a b : attribute) : bool :=
  bytes_eqb (a_name a) (a_name b) && dtype_eqb (a_type a) (a_type b) && Bool.eqb (a_sparse a) (a_sparse b) &&
  zs_eqb (a_shape a) (a_shape b) && zs_eqb (a_strides a) (a_strides b).

(* include/mlio/schema.h:102-119 Schema: the attributes and the map from names to positions (a hash map, here an
   association list). *)
Record schema := mk_schema { s_attributes : list attribute; s_index : list (list byte * nat) }.

Fixpoint find_name (name : list byte) (m : list (list byte * nat)) : option nat :=
  match m with
  | [] => None
  | (n, i) :: m' => if bytes_eqb name n then Some i else find_name name m'
  end.

(* src/mlio/schema.cc:71-83 Schema::Schema: the loop; emplace fails if the name is present. *)
Fixpoint index_names (attrs : list attribute) (idx : nat) (m : list (list byte * nat)) : res (list (list byte * nat)) :=
  match attrs with
  | [] => Ok m
  | a :: rest =>
      match find_name (a_name a) m with
      | Some _ => Throw Invalid_argument
      | None => index_names rest (S idx) (m ++ [(a_name a, idx)])
      end
  end.
Definition new_schema (attrs : list attribute) : res schema :=
  let* m := index_names attrs 0 [] in
  Ok (mk_schema attrs m).

(* src/mlio/schema.cc:85-92 Schema::get_index. *)
Definition get_index (s : schema) (name : list byte) : option nat := find_name name (s_index s).

(* src/mlio/schema.cc:99-102: equality of schemas (std::vector's operator==). *)
Fixpoint attributes_eqb (a b : list attribute) : bool :=
  match a, b with
  | [], [] => true
  | x :: a', y :: b' => attribute_eqb x y && attributes_eqb a' b'
  | _, _ => false
  end.
Definition schema_eqb (a b : schema) : bool := attributes_eqb (s_attributes a) (s_attributes b).

Section Example_.
  Variable T : Type.

  (* include/mlio/example.h:42-82 Example with features of the type T. *)
  Record example := mk_example { e_schema : schema; e_features : list T; e_padding : Z }.

  (* src/mlio/example.cc:32-39 Example::Example; the padding is zero until the reader sets it. *)
  Definition new_example (s : schema) (features : list T) : res example :=
    if Nat.eqb (length (s_attributes s)) (length features) then Ok (mk_example s features 0)
    else Throw Invalid_argument.

  (* src/mlio/example.cc:41-48 find_feature: the feature, or null.  Indexing beyond the end is undefined. *)
  Definition find_feature (e : example) (name : list byte) : res (option T) :=
    match get_index (e_schema e) name with
    | None => Ok None
    | Some i => match nth_error (e_features e) i with Some t => Ok (Some t) | None => UB end
    end.
End Example_.
Arguments mk_example {T}.
Arguments e_schema {T}.
Arguments e_features {T}.
Arguments e_padding {T}.
Arguments new_example {T}.
Arguments find_feature {T}.
