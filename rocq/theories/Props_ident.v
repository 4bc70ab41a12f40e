(* Equality and hash values: C101 and C102. *)
From Verif Require Import Common Model_num Model_tsr Model_names Spec_names Model_ident Spec_ident Model_pyex Proof_tsr Proof_names2 Proof_ident Props_names.
From Coq Require Import ZArith Lia.

(* C101. Equal attributes, schemas and devices have equal hash values, whatever the hash functions of the C++ library are. *)
Theorem C101_hash : forall h_string h_type h_bool h_number,
  (forall a b, attribute_eqb a b = true ->
     attribute_hash h_string h_type h_bool h_number a = attribute_hash h_string h_type h_bool h_number b) /\
  (forall s t, schema_eqb s t = true ->
     schema_hash h_string h_type h_bool h_number s = schema_hash h_string h_type h_bool h_number t) /\
  (forall d e, device_eqb d e = true -> device_hash h_string h_number d = device_hash h_string h_number e).
Proof.
  intros h_string h_type h_bool h_number. split; [|split].
  - intros a b H. apply attribute_eqb_eq in H. congruence.
  - intros s t H. apply schema_eqb_eq in H. unfold schema_hash. congruence.
  - intros [k i] [k' i'] H. unfold device_eqb in H. cbn in H. apply andb_true_iff in H. destruct H as [H1 H2].
    apply bytes_eqb_eq in H1. apply Z.eqb_eq in H2. congruence.
Qed.
Print Assumptions C101_hash.

(* C101. Devices are equal if kind and number are. *)
Theorem C101_device : forall d e, device_eqb d e = true <-> d = e.
Proof.
  intros [k i] [k' i']. unfold device_eqb. cbn. rewrite andb_true_iff, bytes_eqb_eq, Z.eqb_eq. split; [intros [-> ->]; reflexivity|].
  intros H. injection H as -> ->. auto.
Qed.
Print Assumptions C101_device.

(* C101. Equal schemas have every name at the same place. *)
Theorem C101_lookup : forall l m s t, new_schema l = Ok s -> new_schema m = Ok t -> schema_eqb s t = true ->
  l = m /\ forall n, get_index s n = get_index t n.
Proof.
  intros l m s t S T E. apply schema_eqb_eq in E. destruct (schema_lookup l s S) as (A & _), (schema_lookup m t T) as (B & _).
  assert (l = m) as <- by congruence. split; [reflexivity|]. congruence.
Qed.
Print Assumptions C101_lookup.

(* C101 fails for schemas changed by a Python program: after exchanging two entries of the list of attributes a schema equals
   another one that has the names at other places. *)
Theorem C101_lookup_refuted : forall T a b s t (fs : list T) e, a_name a <> a_name b -> new_schema [a; b] = Ok s -> new_schema [b; a] = Ok t ->
  new_example s fs = Ok e ->
  let changed := e_schema (snd (py_do (P_assign 1 a) (snd (py_do (P_assign 0 b) e)))) in
  schema_eqb changed t = true /\ get_index changed (a_name a) = Some 0 /\ get_index t (a_name a) = Some 1.
Proof.
  intros T a b s t fs e D S U E. destruct (schema_lookup _ _ S) as (A & _ & G), (schema_lookup _ _ U) as (B & _ & H).
  unfold new_example in E. destruct (length (s_attributes s) =? length fs); [|discriminate]. injection E as <-. intros changed.
  assert (C : changed = mk_schema [b; a] (s_index s)).
  { unfold changed. cbn [py_do e_schema]. rewrite A. cbn [length position]. reflexivity. }
  rewrite C. split; [|split].
  - apply schema_eqb_eq. cbn. congruence.
  - apply (proj2 (G (a_name a) 0)). exists a. split; reflexivity.
  - apply (proj2 (H (a_name a) 1)). exists a. split; reflexivity.
Qed.
Print Assumptions C101_lookup_refuted.

Definition C101_a (c : byte) : attribute := mk_attribute [c] D_float32 [2; 1]%Z [1; 1]%Z false.
Example C101_case : (exists s t e, new_schema [C101_a 97%N; C101_a 98%N] = Ok s /\ new_schema [C101_a 98%N; C101_a 97%N] = Ok t /\
    schema_eqb s s = true /\ schema_eqb s t = false /\ new_example s [5; 6] = Ok e) /\
  attribute_eqb (C101_a 97%N) (C101_a 97%N) = true /\ a_name (C101_a 97%N) <> a_name (C101_a 98%N) /\
  attribute_hash (fun l => N.of_nat (length l)) (fun _ => 3%N) (fun b => if b then 1%N else 0%N) Z.to_N (C101_a 97%N) = 6807154933396586713%N /\
  device_eqb (mk_device [99%N] 1%Z) (mk_device [99%N] 1%Z) = true /\ device_eqb (mk_device [99%N] 1%Z) (mk_device [99%N] 2%Z) = false.
Proof.
  split; [do 3 eexists; repeat split|]. split; [reflexivity|]. split; [discriminate|]. split; [vm_compute; reflexivity|]. split; reflexivity.
Qed.

(* C102. Two stores of the same class are equal exactly if they name the same thing: the same path, the same memory, the same object
   in the same version. *)
Theorem C102_same : forall w,
  (forall p m c q n d, store_eq w (S_file p m c) (S_file q n d) = Some true <-> p = q) /\
  (forall p f c q g d, store_eq w (S_pipe p f c) (S_pipe q g d) = Some true <-> p = q) /\
  (forall a n c b m d, regular (S_memory a n c) -> regular (S_memory b m d) ->
     (store_eq w (S_memory a n c) (S_memory b m d) = Some true <-> a = b /\ n = m)) /\
  (forall u v c x y d, regular (S_object u v c) -> regular (S_object x y d) ->
     (store_eq w (S_object u v c) (S_object x y d) = Some true <-> u = x /\ v = y)).
Proof.
  intros w. split; [|split; [|split]]; intros; rewrite store_eq_ident by exact I; cbn [ident]; try reflexivity.
  - cbn in *. split; [apply memory_id; tauto|]. intros [-> ->]. reflexivity.
  - cbn in *. split; [apply object_id_inj; tauto|]. intros [-> ->]. reflexivity.
Qed.
Print Assumptions C102_same.

(* C102. Hence equal stores of the same class and with the same compression deliver the same bytes. *)
Theorem C102_contents : forall gunzip w a b, regular a -> regular b -> same_sort a b -> store_eq w a b = Some true ->
  contents gunzip w a = contents gunzip w b.
Proof.
  intros gunzip w a b A B S E. apply same_contents; auto. apply (store_eq_ident w); auto using regular_native.
Qed.
Print Assumptions C102_contents.

(* C102. Equality is an equivalence on the stores of MLIO, never ends the process, and equal stores have equal hash values. *)
Theorem C102_equivalence : forall h_string w,
  (forall a b, native a -> native b -> store_eq w a b <> None) /\
  (forall a, native a -> store_eq w a a = Some true) /\
  (forall a b, native a -> native b -> store_eq w a b = store_eq w b a) /\
  (forall a b c, native a -> native b -> native c -> store_eq w a b = Some true -> store_eq w b c = Some true -> store_eq w a c = Some true) /\
  (forall a b, native a -> native b -> store_eq w a b = Some true -> store_hash h_string w a = store_hash h_string w b).
Proof.
  intros h_string w. split; [|split; [|split; [|split]]].
  - intros a b A B. rewrite store_eq_native by auto. discriminate.
  - intros a A. apply store_eq_ident; auto.
  - intros a b A B. rewrite !store_eq_native by auto. f_equal. apply Bool.eq_iff_eq_true. rewrite !bytes_eqb_eq. split; auto.
  - intros a b c A B C H K. apply store_eq_ident in H; auto. apply store_eq_ident in K; auto. apply store_eq_ident; auto. congruence.
  - intros a b A B H. apply store_eq_ident in H; auto. unfold store_hash. rewrite !id_of_native by auto. cbn [deref]. congruence.
Qed.
Print Assumptions C102_equivalence.

(* C102 fails if the compression is not the same: the stores are equal, but one delivers the bytes of the file and the other the
   bytes compressed in it. *)
Theorem C102_compression_refuted : forall gunzip w path m a b, new_file path m Co_none = Ok a -> new_file path m Co_gzip = Ok b ->
  store_eq w a b = Some true /\ contents gunzip w a = Ok (w_file w path) /\ contents gunzip w b = gunzip (w_file w path).
Proof.
  intros gunzip w path m a b A B. unfold new_file in *. destruct (validate_file_path path); try discriminate. cbn in A, B.
  injection A as <-. injection B as <-. split; [|split; reflexivity]. apply C102_same. reflexivity.
Qed.
Print Assumptions C102_compression_refuted.

(* C102 fails for a version of an object and the object with the name of both, ... *)
Theorem C102_version_refuted : forall gunzip w uri v a, v <> [] -> new_object uri v Co_none = Ok a ->
  exists b, new_object (uri ++ [64%N] ++ v) [] Co_none = Ok b /\ store_eq w a b = Some true /\
    contents gunzip w a = Ok (w_object w uri (Some v)) /\ contents gunzip w b = Ok (w_object w (uri ++ [64%N] ++ v) None).
Proof.
  intros gunzip w uri v a V A. unfold new_object, validate_s3_object_uri in *.
  destruct (C54_key_l uri) as [(b & k & B & N & K & E & _)|[_ X]]; [|rewrite X in A; discriminate].
  destruct (C54_key_l (uri ++ [64%N] ++ v)) as [(b' & k' & _ & _ & _ & _ & X)|[X _]].
  - rewrite X. cbn [rmap bind settle]. eexists. split; [reflexivity|].
    destruct (split_bucket_key uri); try discriminate. cbn in A. injection A as <-. split; [|split; [|reflexivity]].
    + apply store_eq_ident; try exact I. cbn [ident object_id]. destruct v; [contradiction|reflexivity].
    + destruct v; [contradiction|reflexivity].
  - exfalso. apply (X b (k ++ [64%N] ++ v)); auto.
    + destruct k; [contradiction|discriminate].
    + rewrite E. rewrite <- !app_assoc. reflexivity.
Qed.
Print Assumptions C102_version_refuted.

(* ... and for a file that has the name of an object or a channel. *)
Theorem C102_class_refuted : forall gunzip w name m fifo a b c, new_file name m Co_none = Ok a -> new_object name [] Co_none = Ok b ->
  new_pipe name fifo Co_none = Ok c ->
  store_eq w a b = Some true /\ store_eq w a c = Some true /\ contents gunzip w a = Ok (w_file w name) /\
  contents gunzip w b = Ok (w_object w name None) /\ contents gunzip w c = Ok (w_pipe w name).
Proof.
  intros gunzip w name m fifo a b c A B C. unfold new_file, new_pipe, new_object in *. destruct (validate_file_path name); try discriminate.
  destruct (validate_s3_object_uri name); try discriminate. cbn in A, B, C.
  injection A as <-. injection B as <-. injection C as <-. repeat split; apply store_eq_ident; try exact I; reflexivity.
Qed.
Print Assumptions C102_class_refuted.

(* C102 fails for stores written in Python: any two of them are equal, whatever their identifiers and hash values are, and an
   exception in the method id ends the process. *)
Theorem C102_python_refuted : forall h_string w k l i j, w_id w k = Some i -> w_id w l = Some j ->
  store_eq w (S_python k) (S_python l) = Some true /\ store_hash h_string w (S_python k) = Some (h_string i) /\
  store_hash h_string w (S_python l) = Some (h_string j) /\
  forall m a, w_id w m = None -> store_eq w (S_python m) a = None /\ store_hash h_string w (S_python m) = None.
Proof.
  intros h_string w k l i j K L. unfold store_eq, store_hash. cbn [id_of]. rewrite K, L. cbn [deref].
  split; [f_equal; apply bytes_eqb_refl|]. split; [reflexivity|]. split; [reflexivity|]. intros m a M. rewrite M. auto.
Qed.
Print Assumptions C102_python_refuted.

From Coq Require Import String.
Local Open Scope string_scope.
Local Open Scope list_scope.
Definition C102_w : world := mk_world (fun _ => [1%N]) (fun _ n => [n]) (fun u v => match v with None => [2%N] | Some _ => [3%N] end)
  (fun _ => [4%N]) (fun k => match k with 0 => Some [97%N] | 1 => Some [98%N] | _ => None end).
Example C102_case :
  id_of C102_w (S_memory 140737353986048%N 7%N Co_none) [] = Some (Own (lit "0x7ffff7fdb000+0x07"), []) /\
  id_of C102_w (S_object (lit "s3://b/k") (lit "v1") Co_none) [] = Some (Own (lit "s3://b/k@v1"), []) /\
  (exists a b, new_object (lit "s3://b/k") (lit "v1") Co_none = Ok a /\ new_object (lit "s3://b/k@v1") [] Co_none = Ok b /\ a <> b /\ regular a /\ ~ regular b) /\
  (exists a b c, new_file (lit "s3://b/k") true Co_none = Ok a /\ new_object (lit "s3://b/k") [] Co_none = Ok b /\
     new_pipe (lit "s3://b/k") None Co_none = Ok c) /\
  regular (S_memory 140737353986048%N 7%N Co_none) /\
  store_eq C102_w (S_memory 16 7 Co_none) (S_memory 16 8 Co_none) = Some false /\
  store_eq C102_w (S_python 0) (S_python 1) = Some true /\ store_hash (fun l => nth 0 l 0%N) C102_w (S_python 0) = Some 97%N /\
  store_hash (fun l => nth 0 l 0%N) C102_w (S_python 1) = Some 98%N /\ store_eq C102_w (S_python 2) (S_python 1) = None.
Proof.
  split; [vm_compute; reflexivity|]. split; [reflexivity|].
  split; [do 2 eexists; split; [reflexivity|]; split; [reflexivity|]; split; [discriminate|]; split; cbn; intuition discriminate|].
  split; [do 3 eexists; repeat split|]. split; [split; reflexivity|]. split; [vm_compute; reflexivity|]. repeat split.
Qed.
