(* Sparse tensors as SciPy matrices and TensorFlow tensors.  Values are integers: sums of duplicates are exact, the rounding of
   floating-point sums is not modelled. *)
From Verif Require Import Common Model_num Model_tsr.
From Coq Require Import ZArith.
Local Open Scope Z_scope.

(* include/mlio/tensor.h:160-168 Coo_tensor::indices, and src/mlio-py/mlio/core/tensor.cc:157-163.  The function is noexcept and
   calls std::vector::at: if the dimension does not exist the process is terminated, here UB. *)
Definition indices (t : coo Z) (dim : nat) : res (list Z) :=
  match nth_error (o_coords t) dim with Some c => Ok c | None => UB end.

(* scipy.sparse.coo_matrix: the shape and the entries. *)
Record matrix := mk_matrix { x_rows : Z; x_cols : Z; x_row : list Z; x_col : list Z; x_data : list Z }.

(* coo_matrix((data, (row, col)), (m, n)): the arrays must have the same length and the indices must be in range. *)
Definition coo_matrix (m n : Z) (row col data : list Z) : res matrix :=
  if negb (Nat.eqb (length row) (length data) && Nat.eqb (length col) (length data)) then Throw Invalid_argument
  else if forallb (fun i => (0 <=? i) && (i <? m)) row && forallb (fun j => (0 <=? j) && (j <? n)) col
  then Ok (mk_matrix m n row col data)
  else Throw Invalid_argument.

(* src/mlio-py/mlio/integ/scipy.py:20-41 to_coo_matrix.  (A shape without dimensions ends at tensor.indices(0) before SciPy could
   refuse the shape.) *)
Definition to_coo_matrix (t : coo Z) : res matrix :=
  if Nat.ltb 2 (length (o_shape t)) then Throw Invalid_argument
  else
    let s := if Nat.eqb (length (o_shape t)) 1 then 1 :: o_shape t else o_shape t in
    let* rows := indices t 0 in
    let* cols := indices t 1 in
    match s with
    | [m; n] => coo_matrix m n rows cols (o_data t)
    | _ => Throw Invalid_argument
    end.

(* scipy.py:44-58 to_tensor and tensor.cc:48-61 make_coo_tensor. *)
Definition to_tensor (x : matrix) : res (coo Z) :=
  let shape := [x_rows x; x_cols x] in
  let coords := [x_row x; x_col x] in
  let* _ := coo_tensor shape (length (x_data x)) (map (@length Z) coords) in
  Ok (mk_coo shape (x_data x) coords).

(* coo_matrix.tocsr(): the rows one after the other, each with its columns in order, duplicates summed, zeros kept. *)
Fixpoint add_entry (i j v : Z) (l : list (Z * Z * Z)) : list (Z * Z * Z) :=
  match l with
  | [] => [(i, j, v)]
  | (i', j', v') :: r =>
    if (i =? i') && (j =? j') then (i', j', v' + v) :: r
    else if (i <? i') || ((i =? i') && (j <? j')) then (i, j, v) :: l
    else (i', j', v') :: add_entry i j v r
  end.
Fixpoint triples (row col data : list Z) : list (Z * Z * Z) :=
  match row, col, data with
  | i :: row', j :: col', v :: data' => (i, j, v) :: triples row' col' data'
  | _, _, _ => []
  end.
Definition tocsr (x : matrix) : list (Z * Z * Z) :=
  fold_left (fun l e => let '(i, j, v) := e in add_entry i j v l) (triples (x_row x) (x_col x) (x_data x)) [].

(* tf.SparseTensor(indices, values, dense_shape): as many indices as values. *)
Record sparse := mk_sparse { y_indices : list (Z * Z); y_values : list Z; y_shape : Z * Z }.
Definition sparse_tensor (idx : list (Z * Z)) (values : list Z) (shape : Z * Z) : res sparse :=
  if Nat.eqb (length idx) (length values) then Ok (mk_sparse idx values shape) else Throw Invalid_argument.

(* src/mlio-py/mlio/integ/tensorflow.py:22-32 to_tf for a CooTensor.  csr_matrix.nonzero() leaves out the stored zeros. *)
Definition to_tf (t : coo Z) : res sparse :=
  let* x := to_coo_matrix t in
  let csr := tocsr x in
  let nonzero := filter (fun e => negb (snd e =? 0)) csr in
  sparse_tensor (map fst nonzero) (map snd csr) (x_rows x, x_cols x).
