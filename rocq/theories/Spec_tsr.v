(* Vocabulary for the properties of tensors, sparse coordinates and schemas. *)
From Verif Require Import Common Model_num Model_tsr.
Local Open Scope Z_scope.

(* The number of elements of a shape. *)
Definition volume (shape : list Z) : Z := fold_right Z.mul 1 shape.

(* Dimensions are never negative, and the number of elements is representable even if empty dimensions are
   counted as one. *)
Definition reasonable (shape : list Z) : Prop :=
  Forall (fun d => 0 <= d) shape /\ volume (map (Z.max 1) shape) < 2 ^ 63.

(* No dimension is empty. *)
Definition positive (shape : list Z) : Prop := Forall (fun d => 1 <= d) shape.

(* An index is in range if each of its components is. *)
Definition in_range (shape idx : list Z) : Prop := Forall2 (fun d i => 0 <= i < d) shape idx.

(* The place of an element: the sum of index times stride. *)
Fixpoint place (strides idx : list Z) : Z :=
  match strides, idx with
  | s :: strides', i :: idx' => i * s + place strides' idx'
  | _, _ => 0
  end.

(* The position of an index in row-major order (Horner's scheme). *)
Definition row_major (shape idx : list Z) : Z :=
  fold_left (fun acc di => acc * fst di + snd di) (combine shape idx) 0.

(* The reach of an index: the sum over the dimensions of (d - 1) times |stride|. *)
Fixpoint reach (shape strides : list Z) : Z :=
  match shape, strides with
  | d :: shape', s :: strides' => (d - 1) * Z.abs s + reach shape' strides'
  | _, _ => 0
  end.

(* One sparse row: values with their keys. *)
Definition sparse_row (V : Type) : Type := list (Z * V).

(* The entries of a sequence of sparse rows, numbered from [i]: row, key, value. *)
Fixpoint entries {V : Type} (i : Z) (rs : list (sparse_row V)) : list (Z * Z * V) :=
  match rs with
  | [] => []
  | r :: rest => map (fun kv => (i, fst kv, snd kv)) r ++ entries (i + 1) rest
  end.

(* The coordinate vectors [cs] (one per dimension) describe the list of indices [idxs]. *)
Definition columns (n : nat) (cs : list (list Z)) (idxs : list (list Z)) : Prop :=
  length cs = n /\ forall j c, nth_error cs j = Some c -> c = map (fun idx => nth j idx 0) idxs.

(* A COO tensor with the shape [batch :: dims], the data [data] and the coordinate vectors [cs] holds the entries
   [es]: the n-th value is the n-th entry's, its index is the entry's row followed by an index in range whose
   row-major position is the entry's key. *)
Definition holds_entries {V : Type} (dims : list Z) (data : list V) (cs : list (list Z)) (es : list (Z * Z * V)) : Prop :=
  data = map snd es /\
  exists idxs,
    columns (S (length dims)) cs idxs /\
    Forall2 (fun e idx => exists rest, idx = fst (fst e) :: rest /\ in_range dims rest /\ row_major dims rest = snd (fst e))
      es idxs.

(* Every key of a sparse row is a position in the shape. *)
Definition good_sparse (dims : list Z) {V : Type} (r : sparse_row V) : Prop :=
  Forall (fun kv => 0 <= fst kv < volume dims) r.

(* The rows [rs] are appended to the builder [b] of the attribute [a] one after the other, all accepted, and give
   the builder [b']. *)
Inductive appended {V : Type} (a : attribute) (b : builder V) : list (sparse_row V) -> builder V -> Prop :=
| A_none : appended a b [] b
| A_more rs r b1 b2 : appended a b rs b1 ->
    append (a_shape a) (a_strides a) b1 (map snd r) (map fst r) = Ok (b2, true) ->
    appended a b (rs ++ [r]) b2.
