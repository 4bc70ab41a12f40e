(* Specification for C89: matrices as lists of entries, row, column and value. *)
From Verif Require Import Common Model_num Model_tsr Model_sparse.
From Coq Require Import ZArith Sorted.
Local Open Scope Z_scope.

Definition row_of (e : Z * Z * Z) : Z := fst (fst e).
Definition col_of (e : Z * Z * Z) : Z := snd (fst e).
Definition val_of (e : Z * Z * Z) : Z := snd e.

(* The tensor with the shape [m; n] stores these entries in this order; and so does the SciPy matrix. *)
Definition stores (t : coo Z) (m n : Z) (es : list (Z * Z * Z)) : Prop :=
  o_shape t = [m; n] /\ o_data t = map val_of es /\ o_coords t = [map row_of es; map col_of es].
Definition is_matrix (x : matrix) (m n : Z) (es : list (Z * Z * Z)) : Prop :=
  x_rows x = m /\ x_cols x = n /\ x_row x = map row_of es /\ x_col x = map col_of es /\ x_data x = map val_of es.

Definition in_bounds (m n : Z) (es : list (Z * Z * Z)) : Prop :=
  Forall (fun e => 0 <= row_of e < m /\ 0 <= col_of e < n) es.

(* The values stored for a cell, and what they mean together. *)
Definition cell (es : list (Z * Z * Z)) (i j : Z) : list Z :=
  map val_of (filter (fun e => (row_of e =? i) && (col_of e =? j)) es).
Definition total (vs : list Z) : Z := fold_right Z.add 0 vs.

(* Row after row, in each row column after column. *)
Definition before (a b : Z * Z) : Prop := fst a < fst b \/ (fst a = fst b /\ snd a < snd b).

(* A sparse tensor of TensorFlow that means the same. *)
Definition same_sparse (y : sparse) (m n : Z) (es : list (Z * Z * Z)) : Prop :=
  y_shape y = (m, n) /\ length (y_indices y) = length (y_values y) /\ StronglySorted before (y_indices y) /\
  forall i j v, In ((i, j), v) (combine (y_indices y) (y_values y)) <-> cell es i j <> [] /\ v = total (cell es i j).
