(* Examples and schemas in the hands of Python programs, and examples as pandas tables. *)
From Verif Require Import Common Model_num Model_tsr Spec_tsr Model_pyex Spec_pyex Proof_pyex.
From Coq Require Import ZArith Lia.
Local Open Scope Z_scope.

(* ---------------- C90 ---------------- *)

(* C90. Whatever a program that only looks asks, in whatever order, it is answered as by the list of named features. *)
Theorem C90_looks_partial : forall T attrs s (fs : list T) e ops, new_schema attrs = Ok s -> new_example s fs = Ok e ->
  Forall looks_only ops ->
  Forall2 (expected (combine (map a_name attrs) fs)) ops (py_run ops e).
Proof. intros T attrs s fs e ops S E F. exact (looks_ok attrs s fs e S E ops F). Qed.
Print Assumptions C90_looks_partial.

Definition C90_attr (n : N) : attribute := mk_attribute [n] D_float32 [2; 1] [1; 1] false.
Definition C90_schema : schema := mk_schema [C90_attr 97; C90_attr 98] [([97%N], 0%nat); ([98%N], 1%nat)].
Definition C90_example : example nat := mk_example C90_schema [5; 6]%nat 0.
Example C90_looks_case :
  new_schema [C90_attr 97; C90_attr 98] = Ok C90_schema /\ new_example C90_schema [5; 6]%nat = Ok C90_example /\
  py_run [P_len; P_get_name [98]%N; P_get_name [99]%N; P_get_index 0; P_get_index 2; P_get_index (-1); P_has_name [97]%N; P_repr] C90_example =
    [V_number 2; V_feature 6%nat; V_error KeyError; V_feature 5%nat; V_error KeyError; V_error TypeError; V_bool true;
     V_text [([97]%N, 5%nat); ([98]%N, 6%nat)]].
Proof. repeat split. Qed.

(* C90. The list of attributes is a Python list: every operation has the effect on it that Python's lists have, and no other effect on
   the example. *)
Theorem C90_list : forall T o (e : example T), let e' := snd (py_do o e) in
  list_effect (s_attributes (e_schema e)) o (s_attributes (e_schema e')) (fst (py_do o e)) /\
  e_features e' = e_features e /\ e_padding e' = e_padding e /\ s_index (e_schema e') = s_index (e_schema e).
Proof.
  intros T o [[l m] fs p] e'. subst e'. cbn [e_schema s_attributes].
  assert (K : forall i, (exists l1 x l2, l = l1 ++ x :: l2 /\ at_position i (length l) (length l1) /\ position i (length l) = Some (length l1)) \/
     (outside i (length l) /\ position i (length l) = None)).
  { intros i. unfold position. set (j := if i <? 0 then i + Z.of_nat (length l) else i).
    destruct (Z.leb_spec 0 j) as [H|H]; [destruct (Z.ltb_spec j (Z.of_nat (length l))) as [H'|H']|]; cbn [andb].
    - left. destruct (nth_error l (Z.to_nat j)) as [x|] eqn:E; [|apply nth_error_None in E; lia].
      destruct (nth_error_split _ _ E) as (l1 & l2 & -> & L). exists l1, x, l2. split; [reflexivity|]. rewrite L. split; [|reflexivity].
      unfold at_position, j in *. destruct (Z.ltb_spec i 0); lia.
    - right. split; [|reflexivity]. unfold outside, j in *. destruct (Z.ltb_spec i 0); lia.
    - right. split; [|reflexivity]. unfold outside, j in *. destruct (Z.ltb_spec i 0); lia. }
  assert (R : forall l1 (x : attribute) y l2, replace_at (length l1) y (l1 ++ x :: l2) = l1 ++ y ++ l2).
  { intros l1 x y l2. unfold replace_at. rewrite firstn_app, Nat.sub_diag, firstn_all. cbn [firstn]. rewrite app_nil_r. f_equal. f_equal.
    rewrite skipn_app, skipn_all2 by lia. replace (S (length l1) - length l1)%nat with 1%nat by lia. reflexivity. }
  destruct o; cbn -[position replace_at]; try (repeat split; reflexivity).
  - destruct (K i) as [(l1 & x & l2 & E & A & ->)|[A ->]]; cbn -[replace_at]; (split; [|repeat split]).
    + left. exists l1, x, l2. rewrite E at 3. rewrite R. auto.
    + right. auto.
  - destruct (K i) as [(l1 & x & l2 & E & A & ->)|[A ->]]; cbn -[replace_at]; (split; [|repeat split]).
    + left. exists l1, x, l2. rewrite E at 3. rewrite R. auto.
    + right. auto.
Qed.
Print Assumptions C90_list.

(* C90 fails for programs that change the list of attributes they were given: the names in the list and the positions of the names
   disagree from then on, ... *)
Theorem C90_positions_refuted : forall T attrs s (fs : list T) e n, new_schema attrs = Ok s -> new_example s fs = Ok e ->
  In n (map a_name attrs) ->
  exists k, py_run [P_clear; P_names; P_schema_index n; P_has_name n] e = [V_none; V_names []; V_number k; V_bool true].
Proof.
  intros T attrs s fs e n S E I. destruct (found attrs s fs e S E n I) as (k & t & G & _).
  destruct (shape_of_example attrs s fs e S E) as (-> & _). exists k. cbn. unfold get_index in *. cbn. rewrite G. reflexivity.
Qed.
Print Assumptions C90_positions_refuted.

(* ... and an example with an attribute more than features is shown with undefined behavior. *)
Theorem C90_append_refuted : forall T attrs s (fs : list T) e a, new_schema attrs = Ok s -> new_example s fs = Ok e ->
  py_run [P_append a; P_repr] e = [V_none; V_undefined].
Proof.
  intros T attrs s fs e a S E. destruct (shape_of_example attrs s fs e S E) as (-> & L & SA). cbn. rewrite SA.
  assert (X : zip_text (attrs ++ [a]) fs = None).
  { clear - L. revert fs L. induction attrs as [|b l IH]; intros [|t l'] L; cbn in *; try discriminate; [reflexivity|].
    rewrite IH by lia. reflexivity. }
  rewrite X. reflexivity.
Qed.
Print Assumptions C90_append_refuted.

(* C90. If all features are dense and have the same number of items, the table has one column for every attribute, with its name and
   its items in row-major order. *)
Theorem C90_pandas : forall V attrs s (fs : list (feature V)) e k, new_schema attrs = Ok s -> new_example s fs = Ok e ->
  Forall (dense_of k) fs ->
  exists frame, to_pandas e = Ok frame /\ map fst frame = map a_name attrs /\
    Forall2 (fun f c => exists shape item, f = Dense shape item /\ column_holds (snd c) shape item) fs frame.
Proof. intros V attrs s fs e k S E F. exact (pandas_ok attrs s fs e S E k F). Qed.
Print Assumptions C90_pandas.

(* C90. If moreover the features have one item per instance, row r of the table holds the items of instance r. *)
Theorem C90_pandas_rows : forall V attrs s (fs : list (feature V)) e n, new_schema attrs = Ok s -> new_example s fs = Ok e ->
  0 <= n -> Forall (fun f => exists item, f = Dense [n; 1] item) fs ->
  exists frame, to_pandas e = Ok frame /\ map fst frame = map a_name attrs /\
    Forall2 (fun f c => Z.of_nat (length (snd c)) = n /\ forall item r, f = Dense [n; 1] item -> 0 <= r < n ->
      nth_error (snd c) (Z.to_nat r) = Some (item [r; 0])) fs frame.
Proof.
  intros V attrs s fs e n S E Hn F.
  assert (D : Forall (dense_of n) fs).
  { eapply Forall_impl; [|exact F]. intros f (item & ->). exists [n; 1], item. split; [reflexivity|].
    split; [repeat constructor; lia|]. unfold volume. cbn [fold_right]. lia. }
  destruct (pandas_ok attrs s fs e S E n D) as (frame & -> & N & H). exists frame. split; [reflexivity|]. split; [exact N|].
  clear - H F. induction H as [|f c fs' frame' (sh & it & -> & L & C) H IH]; [constructor|].
  inversion F as [|? ? (it' & X) F']; subst. injection X as -> <-. constructor; [|exact (IH F')]. split.
  - rewrite L. unfold volume. cbn [fold_right]. lia.
  - intros item r X R. injection X as <-. assert (I : in_range [n; 1] [r; 0]) by (repeat constructor; lia).
    rewrite <- (C _ I). f_equal. f_equal. unfold row_major. cbn. lia.
Qed.
Print Assumptions C90_pandas_rows.

(* C90. Sparse features, and features with different numbers of items, are errors. *)
Theorem C90_pandas_refused : forall V attrs s (fs : list (feature V)) e, new_schema attrs = Ok s -> new_example s fs = Ok e ->
  (In Sparse fs -> to_pandas e = Throw Invalid_argument) /\
  (forall j k f g vf vg, Forall (fun f => exists v, dense_of v f) fs ->
     nth_error fs j = Some f -> nth_error fs k = Some g -> dense_of vf f -> dense_of vg g -> vf <> vg ->
     to_pandas e = Throw Invalid_argument).
Proof.
  intros V attrs s fs e S E. split.
  - exact (to_pandas_sparse attrs s fs e S E).
  - intros j k f g vf vg F J K Df Dg N. exact (pandas_lengths attrs s fs e S E j k f g vf vg F J K Df Dg N).
Qed.
Print Assumptions C90_pandas_refused.

Definition C90_table : example (feature Z) :=
  mk_example C90_schema [Dense [2; 1] (fun idx => nth 0 idx 0 + 10); Dense [2; 1] (fun idx => nth 0 idx 0 + 20)] 0.
Example C90_pandas_case :
  new_example C90_schema (e_features C90_table) = Ok C90_table /\
  to_pandas C90_table = Ok [([97]%N, [10; 11]); ([98]%N, [20; 21])] /\
  Forall (fun f => exists item, f = Dense [2; 1] item) (e_features C90_table) /\
  to_pandas (mk_example C90_schema [Dense [2; 1] (fun _ => 0); Dense [2; 3] (fun _ => 0)] 0) = Throw Invalid_argument /\
  to_pandas (mk_example C90_schema [Dense [2; 1] (fun _ => 0); Sparse] 0) = Throw Invalid_argument.
Proof. repeat split; repeat constructor; eauto. Qed.

(* C90 fails for features with several items per instance, for instance images: the table has a row for every item, not for every
   instance. *)
Theorem C90_pandas_rows_refuted : forall V a s (item : list Z -> V) e n d, new_schema [a] = Ok s ->
  new_example s [Dense [n; d] item] = Ok e -> 1 <= n -> 2 <= d ->
  exists c, to_pandas e = Ok [(a_name a, c)] /\ Z.of_nat (length c) = n * d /\ Z.of_nat (length c) <> n.
Proof.
  intros V a s item e n d S E Hn Hd.
  assert (P : Forall (fun x => 0 <= x) [n; d]) by (repeat constructor; lia).
  rewrite (to_pandas_dense [a] s _ e S E) by (repeat constructor; discriminate). cbn.
  eexists. split; [reflexivity|]. destruct (flatten_holds [n; d] item P) as [L _]. cbn in L. split; [|]; unfold flatten in *; rewrite L; nia.
Qed.
Print Assumptions C90_pandas_rows_refuted.
