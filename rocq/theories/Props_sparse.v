(* Sparse tensors as SciPy matrices and TensorFlow tensors. *)
From Verif Require Import Common Model_num Model_tsr Spec_tsr Proof_tsr Model_sparse Spec_sparse Proof_sparse.
From Coq Require Import ZArith Lia Sorted.
Local Open Scope Z_scope.

(* ---------------- C89 ---------------- *)

(* C89. A two-dimensional tensor becomes a matrix with the same shape and entries; indices outside the shape are an error. *)
Theorem C89_scipy : forall t m n es, stores t m n es ->
  (in_bounds m n es -> exists x, to_coo_matrix t = Ok x /\ is_matrix x m n es) /\
  (~ in_bounds m n es -> to_coo_matrix t = Throw Invalid_argument).
Proof. intros t m n es S. split; [apply scipy_entries; exact S|apply scipy_refused; exact S]. Qed.
Print Assumptions C89_scipy.

(* C89. The tensor of a batch of sparse rows becomes the matrix whose rows are those rows. *)
Theorem C89_batch : forall name ty batch n d sp a (b : builder Z) rs,
  1 <= d -> reasonable [batch; d] -> reasonable [n; d] -> new_attribute name ty [batch; d] [] sp = Ok a ->
  Forall (Forall (fun kv => 0 <= fst kv < d)) rs -> Z.of_nat (length rs) <= n ->
  appended a (new_builder 1) rs b ->
  exists t x, build (a_shape a) n b = Ok t /\ to_coo_matrix t = Ok x /\ is_matrix x n d (entries 0 rs).
Proof.
  intros name ty batch n d sp a b rs Hd R1 R2 A F L Ap.
  assert (Hn : n < 2 ^ 63).
  { destruct R2 as [F2 V]. unfold volume in V. cbn [map fold_right] in V. nia. }
  assert (F0 : Forall (Forall (fun kv : Z * Z => 0 <= fst kv)) rs).
  { eapply Forall_impl; [|exact F]. intros r Fr. eapply Forall_impl; [|exact Fr]. cbn. lia. }
  assert (P : Spec_tsr.positive [d]) by (repeat constructor; assumption).
  assert (NE : [d] <> []) by discriminate.
  destruct (built_entries Z name ty batch n [d] sp a b rs P NE R1 R2 A F0 ltac:(lia) Ap) as (t & B & Sh & H).
  destruct (scipy_entries t n d _ (built_stores _ _ _ _ Sh H) (entries_bounds d rs 0 n (Z.le_refl 0) L F)) as (x & E & X).
  exists t, x. auto.
Qed.
Print Assumptions C89_batch.

(* C89. A matrix becomes a tensor with the same shape and entries, and that one becomes the same matrix. *)
Theorem C89_back : forall x m n es, is_matrix x m n es -> in_bounds m n es -> reasonable [m; n] ->
  exists t, to_tensor x = Ok t /\ stores t m n es /\ to_coo_matrix t = Ok x.
Proof.
  intros x m n es X B R. destruct (back_ok x m n es X R) as (t & E & S). exists t. split; [exact E|]. split; [exact S|].
  rewrite (scipy_ok t m n es S B). f_equal. symmetry. apply is_matrix_eq. exact X.
Qed.
Print Assumptions C89_back.

Definition C89_entries : list (Z * Z * Z) := [(1, 2, 5); (0, 1, 7); (1, 2, -3)].
Definition C89_tensor : coo Z := mk_coo [2; 3] [5; 7; -3] [[1; 0; 1]; [2; 1; 2]].
Example C89_scipy_case :
  stores C89_tensor 2 3 C89_entries /\ in_bounds 2 3 C89_entries /\ ~ in_bounds 2 2 C89_entries /\
  to_coo_matrix C89_tensor = Ok (mk_matrix 2 3 [1; 0; 1] [2; 1; 2] [5; 7; -3]) /\
  to_coo_matrix (mk_coo [2; 2] [5; 7; -3] [[1; 0; 1]; [2; 1; 2]]) = Throw Invalid_argument /\
  reasonable [2; 3].
Proof.
  split; [repeat split|]. split; [repeat constructor; cbn; lia|]. split.
  - intros B. inversion B as [|? ? [_ H] _]; subst. cbn in H. lia.
  - split; [reflexivity|]. split; [reflexivity|]. split; [repeat constructor; lia|]. cbn. lia.
Qed.

Definition C89_attribute : attribute := mk_attribute [97%N] D_float32 [2; 3] [3; 1] true.
Example C89_batch_case : exists b,
  new_attribute [97%N] D_float32 [2; 3] [] true = Ok C89_attribute /\
  Forall (Forall (fun kv => 0 <= fst kv < 3)) [[(2, 5); (0, 8)]; [(1, 7)]] /\
  appended C89_attribute (new_builder 1) [[(2, 5); (0, 8)]; [(1, 7)]] b.
Proof.
  eexists. split; [reflexivity|]. split; [repeat constructor; cbn; lia|].
  apply (A_more C89_attribute _ [[(2, 5); (0, 8)]] [(1, 7)] (mk_builder [5; 8] [0; 0] [[2; 0]] 1)); [|reflexivity].
  apply (A_more C89_attribute _ [] [(2, 5); (0, 8)] (new_builder 1)); [constructor|reflexivity].
Qed.

(* C89. If no stored cell means zero, the TensorFlow tensor has one value for every stored cell, in row-major order. *)
Theorem C89_tensorflow_partial : forall t m n es, stores t m n es -> in_bounds m n es ->
  (forall i j, cell es i j <> [] -> total (cell es i j) <> 0) -> exists y, to_tf t = Ok y /\ same_sparse y m n es.
Proof. exact tf_ok. Qed.
Print Assumptions C89_tensorflow_partial.

Example C89_tensorflow_case :
  (forall i j, cell C89_entries i j <> [] -> total (cell C89_entries i j) <> 0) /\
  to_tf C89_tensor = Ok (mk_sparse [(0, 1); (1, 2)] [7; 2] (2, 3)).
Proof.
  split; [|reflexivity]. intros i j. unfold cell, C89_entries, row_of, col_of. cbn [filter fst snd].
  destruct ((1 =? i) && (2 =? j)), ((0 =? i) && (1 =? j)); cbn; try lia; congruence.
Qed.

(* C89 fails for TensorFlow if a stored value is zero, or stored values of a cell add up to zero: the conversion fails. *)
Theorem C89_zero_refuted : forall t m n es i j, stores t m n es -> in_bounds m n es ->
  cell es i j <> [] -> total (cell es i j) = 0 -> to_tf t = Throw Invalid_argument.
Proof. exact tf_zero. Qed.
Print Assumptions C89_zero_refuted.

Example C89_zero_case :
  stores (mk_coo [1; 2] [0; 4] [[0; 0]; [1; 0]]) 1 2 [(0, 1, 0); (0, 0, 4)] /\
  in_bounds 1 2 [(0, 1, 0); (0, 0, 4)] /\ cell [(0, 1, 0); (0, 0, 4)] 0 1 = [0].
Proof. split; [repeat split|]. split; [repeat constructor; cbn; lia|reflexivity]. Qed.

(* C89 fails for one-dimensional tensors, which the error message says are supported: the process ends. *)
Theorem C89_one_dimension_refuted : forall t n, coo_tensor (o_shape t) (length (o_data t)) (map (@length Z) (o_coords t)) <> Throw Invalid_argument ->
  o_shape t = [n] -> to_coo_matrix t = UB /\ to_tf t = UB.
Proof.
  intros t n C E. assert (U : to_coo_matrix t = UB).
  { unfold to_coo_matrix, indices. rewrite E in *. cbn [length Nat.ltb Nat.leb Nat.eqb].
    unfold coo_tensor in C. cbn in C. destruct (o_coords t) as [|c [|c' cs]]; cbn in *; congruence. }
  split; [exact U|]. unfold to_tf. rewrite U. reflexivity.
Qed.
Print Assumptions C89_one_dimension_refuted.

Example C89_one_dimension_case : coo_tensor [3] 2 [2%nat] = Ok [1] /\ to_coo_matrix (mk_coo [3] [5; 6] [[0; 2]]) = UB.
Proof. split; reflexivity. Qed.

(* C89. Asking for the indices of a dimension that exists gives them; of another one, the process ends instead of an error. *)
Theorem C89_indices_refuted : forall t k,
  ((k < length (o_coords t))%nat -> exists c, indices t k = Ok c /\ nth_error (o_coords t) k = Some c) /\
  ((length (o_coords t) <= k)%nat -> indices t k = UB).
Proof.
  intros t k. unfold indices. destruct (nth_error (o_coords t) k) as [c|] eqn:E; split; intros H; try reflexivity.
  - eauto.
  - assert (k < length (o_coords t))%nat by (apply nth_error_Some; congruence). lia.
  - apply nth_error_None in E. lia.
Qed.
Print Assumptions C89_indices_refuted.
