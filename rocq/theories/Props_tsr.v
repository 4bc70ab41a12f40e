From Verif Require Import Common Model_num Model_tsr Spec_tsr Proof_tsr.
Local Open Scope Z_scope.

Ltac by_numbers := repeat constructor; cbn; lia.

(* ---------------- C40 ---------------- *)

(* With default strides a tensor is accepted exactly if the data has room for all its elements.  Then every index in
   range has its row-major place, which is inside the data; different indices have different places and every
   element is reached. *)
Theorem C40_standard_layout : forall shape size, reasonable shape -> shape <> [] ->
  (volume shape <= size -> exists ss, dense_tensor shape size [] = Ok ss /\
     (forall idx, in_range shape idx -> place ss idx = row_major shape idx /\ 0 <= place ss idx < size) /\
     (forall a b, in_range shape a -> in_range shape b -> place ss a = place ss b -> a = b) /\
     (forall n, 0 <= n < volume shape -> exists idx, in_range shape idx /\ place ss idx = n)) /\
  (size < volume shape -> dense_tensor shape size [] = Throw Invalid_argument).
Proof. exact dense_standard. Qed.
Print Assumptions C40_standard_layout.

Example C40_case : reasonable [2; 3; 4] /\ dense_tensor [2; 3; 4] 24 [] = Ok [12; 4; 1] /\
  dense_tensor [2; 3; 4] 23 [] = Throw Invalid_argument /\ in_range [2; 3; 4] [1; 2; 3] /\ place [12; 4; 1] [1; 2; 3] = 23 /\
  reasonable [5; 0; 3] /\ dense_tensor [5; 0; 3] 0 [] = Ok [0; 3; 1].
Proof. repeat split; try by_numbers. Qed.

(* With given strides: an accepted tensor without empty dimensions whose reach is representable has all its elements
   within a window of [size] places; if no stride is negative, within the data. *)
Theorem C40_given_strides : forall shape size strides ss, shape <> [] -> positive shape ->
  Forall (fun s => - 2 ^ 63 < s < 2 ^ 63) strides -> reach shape strides + 1 < 2 ^ 64 ->
  strides <> [] -> dense_tensor shape size strides = Ok ss ->
  ss = strides /\
  (forall a b, in_range shape a -> in_range shape b -> Z.abs (place ss a - place ss b) < size) /\
  (Forall (fun s => 0 <= s) strides -> forall idx, in_range shape idx -> 0 <= place ss idx < size).
Proof. exact dense_strided. Qed.
Print Assumptions C40_given_strides.

(* Such a tensor is accepted exactly if its reach is inside the data. *)
Theorem C40_given_strides_accepted : forall shape size strides, shape <> [] -> positive shape ->
  Forall (fun s => - 2 ^ 63 < s < 2 ^ 63) strides -> reach shape strides + 1 < 2 ^ 64 ->
  strides <> [] -> length strides = length shape ->
  dense_tensor shape size strides = if reach shape strides <? size then Ok strides else Throw Invalid_argument.
Proof. exact strided_accepts. Qed.
Print Assumptions C40_given_strides_accepted.

(* A transposed matrix, and a column of it. *)
Example C40_case_strided : positive [3; 2] /\ reach [3; 2] [1; 3] + 1 < 2 ^ 64 /\
  dense_tensor [3; 2] 6 [1; 3] = Ok [1; 3] /\ dense_tensor [3; 2] 5 [1; 3] = Throw Invalid_argument /\
  dense_tensor [3; 2] 6 [1; -3] = Ok [1; -3].
Proof. repeat split; try by_numbers. Qed.

(* The size computation wraps around: a tensor of 2^32 times 2^32 elements is accepted without any data. *)
Theorem C40_wrap_refuted : exists shape ss idx,
  dense_tensor shape 0 [] = Ok ss /\ in_range shape idx /\ ~ place ss idx < 0.
Proof.
  exists [2 ^ 32; 2 ^ 32], [2 ^ 32; 1], [0; 0]. repeat split; try reflexivity.
  - repeat constructor; cbn; lia.
  - cbn. lia.
Qed.
Print Assumptions C40_wrap_refuted.

(* A negative stride leads before the beginning of the data. *)
Theorem C40_negative_stride_refuted : exists shape size strides ss idx,
  dense_tensor shape size strides = Ok ss /\ in_range shape idx /\ place ss idx < 0.
Proof. exists [3], 3, [-1], [-1], [2]. repeat split; try by_numbers. Qed.
Print Assumptions C40_negative_stride_refuted.

(* A tensor without dimensions has one element, but is accepted without data. *)
Theorem C40_scalar_refuted : exists ss, dense_tensor [] 0 [] = Ok ss /\ in_range [] [] /\ ~ place ss [] < 0.
Proof. exists []. repeat split; [constructor|cbn; lia]. Qed.
Print Assumptions C40_scalar_refuted.

(* An empty tensor with given strides is rejected for lack of data. *)
Theorem C40_empty_strided_refuted : exists shape strides,
  volume shape = 0 /\ length strides = length shape /\ dense_tensor shape 0 strides = Throw Invalid_argument.
Proof. exists [0; 3], [1; 1]. repeat split. Qed.
Print Assumptions C40_empty_strided_refuted.

(* ---------------- C67 ---------------- *)

(* No CSR tensor can be constructed, whatever its arrays. *)
Theorem C67_csr_refuted : exists shape data indices indptr,
  data = indices /\ shape = [Z.of_nat indptr - 1; 5] /\ csr_tensor shape data indices indptr = UB.
Proof. exists [2; 5], 4%nat, 4%nat, 3%nat. repeat split. Qed.
Print Assumptions C67_csr_refuted.

Theorem C67_csr_never_constructed : forall shape data indices indptr ss, csr_tensor shape data indices indptr <> Ok ss.
Proof. exact csr_never. Qed.
Print Assumptions C67_csr_never_constructed.

(* ---------------- C41 ---------------- *)

(* The keys of a row are accepted exactly if they are positions in the shape.  The coordinates appended are then in
   range and recompose to the keys, one per key and in their order, with the row number and the values. *)
Theorem C41_coordinates : forall V name t batch dims sp a (b : builder V) values keys idxs,
  positive dims -> dims <> [] -> reasonable (batch :: dims) -> new_attribute name t (batch :: dims) [] sp = Ok a ->
  Forall (fun k => 0 <= k) keys -> columns (length dims) (b_coords b) idxs ->
  (Forall (fun k => k < volume dims) keys ->
     exists b' new, append (a_shape a) (a_strides a) b values keys = Ok (b', true) /\
       b_data b' = b_data b ++ values /\ b_rows b' = b_rows b ++ repeat (b_row b) (length keys) /\
       b_row b' = (b_row b + 1) mod 2 ^ 64 /\
       columns (length dims) (b_coords b') (idxs ++ new) /\
       Forall2 (fun k idx => in_range dims idx /\ row_major dims idx = k) keys new) /\
  (Exists (fun k => volume dims <= k) keys ->
     exists b', append (a_shape a) (a_strides a) b values keys = Ok (b', false) /\ b_row b' = b_row b).
Proof. exact attribute_coordinates. Qed.
Print Assumptions C41_coordinates.

(* Rows appended one after the other to a new builder give a tensor that holds exactly their entries. *)
Theorem C41_built_tensor : forall V name t batch n dims sp a (b : builder V) rs,
  positive dims -> dims <> [] -> reasonable (batch :: dims) -> reasonable (n :: dims) ->
  new_attribute name t (batch :: dims) [] sp = Ok a ->
  Forall (Forall (fun kv => 0 <= fst kv)) rs -> Z.of_nat (length rs) < 2 ^ 64 ->
  appended a (new_builder (length dims)) rs b ->
  exists o, build (a_shape a) n b = Ok o /\ o_shape o = n :: dims /\ holds_entries dims (o_data o) (o_coords o) (entries 0 rs).
Proof. exact built_entries. Qed.
Print Assumptions C41_built_tensor.

Definition at_3_4 : attribute := mk_attribute [97%N] D_float32 [2; 3; 4] [12; 4; 1] true.
Example C41_case :
  positive [3; 4] /\ reasonable [2; 3; 4] /\ new_attribute [97%N] D_float32 [2; 3; 4] [] true = Ok at_3_4 /\
  columns 2 [[]; []] [] /\
  append [2; 3; 4] [12; 4; 1] (new_builder 2) [8; 9]%nat [7; 11] = Ok (mk_builder [8; 9]%nat [0; 0] [[1; 2]; [3; 3]] 1, true) /\
  append [2; 3; 4] [12; 4; 1] (new_builder 2) [8; 9]%nat [7; 12] = Ok (mk_builder [8; 9]%nat [0; 0] [[1]; [3]] 0, false).
Proof.
  repeat split; try by_numbers. intros j c H. destruct j as [|[|[|j]]]; cbn in H; now inversion H.
Qed.
Example C41_case_build : exists b,
  appended at_3_4 (new_builder 2) [[(7, 8%nat); (11, 9%nat)]; []; [(0, 5%nat)]] b /\
  build (a_shape at_3_4) 3 b = Ok (mk_coo [3; 3; 4] [8; 9; 5]%nat [[0; 0; 2]; [1; 2; 0]; [3; 3; 0]]).
Proof.
  eexists. split.
  - apply (A_more at_3_4 _ [[(7, 8%nat); (11, 9%nat)]; []] [(0, 5%nat)]
      (mk_builder [8; 9]%nat [0; 0] [[1; 2]; [3; 3]] 2)); [|reflexivity].
    apply (A_more at_3_4 _ [[(7, 8%nat); (11, 9%nat)]] [] (mk_builder [8; 9]%nat [0; 0] [[1; 2]; [3; 3]] 1)); [|reflexivity].
    apply (A_more at_3_4 _ [] [(7, 8%nat); (11, 9%nat)] (new_builder 2)); [constructor|reflexivity].
  - reflexivity.
Qed.

(* If a dimension after the first is empty, a key is not rejected: the code divides by zero. *)
Theorem C41_empty_dimension_refuted : exists dims a (b : builder nat) k,
  new_attribute [] D_float32 (1 :: dims) [] true = Ok a /\ b = new_builder (length dims) /\ volume dims <= k /\
  append (a_shape a) (a_strides a) b [5%nat] [k] = UB.
Proof.
  exists [2; 0], (mk_attribute [] D_float32 [1; 2; 0] [0; 0; 1] true). do 2 eexists. split; [reflexivity|].
  split; [reflexivity|]. split; [|reflexivity]. cbn. apply Z.le_refl.
Qed.
Print Assumptions C41_empty_dimension_refuted.

(* ---------------- C44 ---------------- *)

(* A schema can be made exactly if the names of the attributes are different. *)
Theorem C44_made : forall attrs, (exists s, new_schema attrs = Ok s) <-> NoDup (map a_name attrs).
Proof. exact schema_made. Qed.
Print Assumptions C44_made.
Theorem C44_duplicates_rejected : forall attrs, ~ NoDup (map a_name attrs) -> new_schema attrs = Throw Invalid_argument.
Proof. exact schema_rejected. Qed.
Print Assumptions C44_duplicates_rejected.

(* Looking up a name gives the position of the attribute with the name, and nothing for other names. *)
Theorem C44_lookup : forall attrs s, new_schema attrs = Ok s ->
  s_attributes s = attrs /\ NoDup (map a_name attrs) /\
  forall name i, get_index s name = Some i <-> exists a, nth_error attrs i = Some a /\ a_name a = name.
Proof. exact schema_lookup. Qed.
Print Assumptions C44_lookup.

(* An example has as many features as attributes; the feature of a name is the one at the position of the attribute. *)
Theorem C44_find_feature : forall T attrs s (fs : list T) e name, new_schema attrs = Ok s -> new_example s fs = Ok e ->
  length fs = length attrs /\
  (forall i a t, nth_error attrs i = Some a -> nth_error fs i = Some t -> a_name a = name -> find_feature e name = Ok (Some t)) /\
  (~ In name (map a_name attrs) -> find_feature e name = Ok None) /\
  (exists o, find_feature e name = Ok o).
Proof. exact find_feature_spec. Qed.
Print Assumptions C44_find_feature.

(* Attributes and schemas are equal to the library exactly if they are the same. *)
Theorem C44_attribute_equality : forall a b, attribute_eqb a b = true <-> a = b.
Proof. exact attribute_eqb_eq. Qed.
Print Assumptions C44_attribute_equality.
Theorem C44_schema_equality : forall a b, schema_eqb a b = true <-> s_attributes a = s_attributes b.
Proof. exact schema_eqb_eq. Qed.
Print Assumptions C44_schema_equality.

Definition at_1 (c : byte) : attribute := mk_attribute [c] D_float32 [2; 1] [1; 1] false.
Example C44_case : exists s e, new_schema [at_1 97%N; at_1 98%N] = Ok s /\ get_index s [98%N] = Some 1%nat /\
  get_index s [99%N] = None /\ new_example s [5; 6]%nat = Ok e /\ find_feature e [98%N] = Ok (Some 6%nat) /\
  new_example s [5]%nat = Throw Invalid_argument /\ new_schema [at_1 97%N; at_1 97%N] = Throw Invalid_argument /\
  schema_eqb s s = true.
Proof. do 2 eexists. repeat split. Qed.
