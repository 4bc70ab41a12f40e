(* Exchanging data with Python. *)
From Verif Require Import Common Model_num Model_tsr Spec_tsr Proof_tsr Model_exch Spec_exch Proof_exch Proof_exch2.
Local Open Scope Z_scope.

Ltac by_numbers := repeat constructor; cbn; lia.

(* ---------------- C83: from NumPy ---------------- *)

(* C83. A NumPy array of 8-byte items without gaps (row-major, column-major or any other order of its dimensions) becomes a
   tensor that shows NumPy the same array again.  A copied tensor keeps the items of the moment ([mem]); a wrapped one shows
   those of the array's memory at any later time. *)
Theorem C83_compact_partial : forall mem writable b cpy dt later,
  get_data_type b = Some dt -> dt <> D_size -> dt <> D_string -> cpy = true \/ writable = true ->
  i_item b = 8 -> compact mem b -> length later = length mem ->
  exists t, numpy_to_tensor mem writable b cpy = Ok t /\
    let '(m, b') := tensor_to_buffer later t in same (if cpy then mem else later) b m b'.
Proof. intros; apply numpy_compact with (dt := dt); tauto. Qed.
Print Assumptions C83_compact_partial.

(* A row-major and a column-major matrix of two times three doubles. *)
Definition C83_mem : list byte := map N.of_nat (seq 0 56).
Definition C83_rows := mk_info 8 8 [100]%N [2; 3] [24; 8].
Definition C83_columns := mk_info 8 8 [61; 81]%N [2; 3] [8; 16].
Example C83_compact_case :
  get_data_type C83_rows = Some D_float64 /\ get_data_type C83_columns = Some (D_int u64) /\
  compact C83_mem C83_rows /\ compact C83_mem C83_columns /\
  (exists t, numpy_to_tensor C83_mem false C83_columns true = Ok t /\
     item_of (fst (tensor_to_buffer [] t)) (snd (tensor_to_buffer [] t)) [1; 2] = Some (map N.of_nat (seq 48 8))).
Proof.
  repeat split; try (cbn; lia); try (repeat constructor; cbn; lia).
  - repeat constructor; try lia; [exists 3; reflexivity|exists 1; reflexivity].
  - repeat constructor; try lia; [exists 1; reflexivity|exists 2; reflexivity].
  - eexists. split; reflexivity.
Qed.

(* C83 fails for items of fewer than 8 bytes (float32, int32, ...): every item of a vector is taken for the first. *)
Theorem C83_small_items_refuted : forall mem writable b cpy dt n later,
  get_data_type b = Some dt -> dt <> D_string -> cpy = true \/ writable = true ->
  i_item b < 8 -> i_shape b = [n] -> i_strides b = [i_item b] -> compact mem b -> length later = length mem ->
  exists t, numpy_to_tensor mem writable b cpy = Ok t /\ t_shape t = [n] /\
    forall i, 0 <= i < n -> tensor_item later t [i] = item_of (if cpy then mem else later) b [0].
Proof. intros; apply numpy_small with (dt := dt); tauto. Qed.
Print Assumptions C83_small_items_refuted.

Example C83_small_case :
  let b := mk_info 0 4 [102]%N [3] [4] in
  get_data_type b = Some D_float32 /\ compact C83_mem b /\
  (exists t, numpy_to_tensor C83_mem false b true = Ok t /\
     map (fun i => tensor_item [] t [i]) [0; 1; 2] = [Some [0; 1; 2; 3]; Some [0; 1; 2; 3]; Some [0; 1; 2; 3]]%N /\
     map (fun i => item_of C83_mem b [i]) [0; 1; 2] = [Some [0; 1; 2; 3]; Some [4; 5; 6; 7]; Some [8; 9; 10; 11]]%N).
Proof.
  repeat split; try (cbn; lia); try (repeat constructor; cbn; lia).
  - repeat constructor; try lia. exists 1; reflexivity.
  - eexists. repeat split; reflexivity.
Qed.

(* C83. An array with gaps is refused. *)
Theorem C83_gaps : forall mem writable b cpy dt,
  get_data_type b = Some dt -> dt <> D_string -> cpy = true \/ writable = true ->
  i_item b = 8 -> positive (i_shape b) -> 0 <= i_ptr b -> readable mem b ->
  Forall (fun s => 0 <= s < 2 ^ 63 /\ (8 | s)) (i_strides b) ->
  volume (i_shape b) * 8 <= reach (i_shape b) (i_strides b) < 2 ^ 63 ->
  numpy_to_tensor mem writable b cpy = Throw Invalid_argument.
Proof. intros; apply numpy_gaps with (dt := dt); tauto. Qed.
Print Assumptions C83_gaps.

(* Every second item of a vector. *)
Example C83_gaps_case :
  let b := mk_info 0 8 [100]%N [3] [16] in
  readable C83_mem b /\ volume (i_shape b) * 8 <= reach (i_shape b) (i_strides b) < 2 ^ 63 /\
  numpy_to_tensor C83_mem true b true = Throw Invalid_argument.
Proof.
  split; [|split; [cbn; lia|reflexivity]]. split; [reflexivity|].
  intros idx H. inversion H as [|d i l l' Hi Hl]; subst. inversion Hl; subst. unfold item_of, bytes_at. cbn [i_ptr i_strides i_item place].
  change (Z.of_nat (length C83_mem)) with 56. destruct (_ && _) eqn:E; [discriminate|]. lia.
Qed.

(* C83 fails for arrays with repeated or reversed items, although every item is in memory: memory beyond the array is read. *)
Theorem C83_broadcast_refuted : exists mem b,
  readable mem b /\ i_strides b = [0] /\ numpy_to_tensor mem true b true = UB.
Proof.
  exists (map N.of_nat (seq 0 8)), (mk_info 0 8 [100]%N [3] [0]). split; [|split; reflexivity]. split; [reflexivity|].
  intros idx H. inversion H as [|d i l l' Hi Hl]; subst. inversion Hl; subst. unfold item_of, bytes_at. cbn [i_ptr i_strides i_item place].
  change (Z.of_nat (length (map N.of_nat (seq 0 8)))) with 8. destruct (_ && _) eqn:E; [discriminate|]. lia.
Qed.
Print Assumptions C83_broadcast_refuted.

Theorem C83_reversed_refuted : exists mem b,
  readable mem b /\ i_strides b = [- i_item b] /\ numpy_to_tensor mem true b true = UB.
Proof.
  exists (map N.of_nat (seq 0 16)), (mk_info 8 8 [100]%N [2] [-8]). split; [|split; reflexivity]. split; [reflexivity|].
  intros idx H. inversion H as [|d i l l' Hi Hl]; subst. inversion Hl; subst. unfold item_of, bytes_at. cbn [i_ptr i_strides i_item place].
  change (Z.of_nat (length (map N.of_nat (seq 0 16)))) with 16. destruct (_ && _) eqn:E; [discriminate|]. lia.
Qed.
Print Assumptions C83_reversed_refuted.

(* C83. A tensor made without strides from a row-major buffer of any item size, in any shape with the same number of items,
   has the items in row-major order. *)
Theorem C83_default_layout : forall mem writable shape b cpy dt later,
  get_data_type b = Some dt -> dt <> D_string -> cpy = true \/ writable = true -> row_major_buffer mem b ->
  positive shape -> volume shape = volume (i_shape b) -> volume shape < 2 ^ 63 -> length later = length mem ->
  exists t, make_dense_tensor mem writable shape b None cpy = Ok t /\ t_type t = dt /\ t_shape t = shape /\
    forall idx idx', in_range shape idx -> in_range (i_shape b) idx' -> row_major shape idx = row_major (i_shape b) idx' ->
      tensor_item later t idx = item_of (if cpy then mem else later) b idx'.
Proof. intros; apply default_layout; tauto. Qed.
Print Assumptions C83_default_layout.

(* Six float32 items as a matrix of three times two. *)
Example C83_default_case :
  let b := mk_info 0 4 [102]%N [6] [4] in
  row_major_buffer C83_mem b /\
  (exists t, make_dense_tensor C83_mem true [3; 2] b None false = Ok t /\
     tensor_item C83_mem t [2; 0] = Some [16; 17; 18; 19]%N /\ row_major [3; 2] [2; 0] = row_major [6] [4]).
Proof.
  split.
  - split; [by_numbers|]. split; [cbn; lia|]. split; [cbn; lia|]. split; [|cbn; lia].
    intros idx H. inversion H as [|d i l l' Hi Hl]; subst. inversion Hl; subst. cbn. lia.
  - eexists. repeat split; reflexivity.
Qed.

(* C83. The type of the tensor is of the kind and size the format of the buffer says.  Every format of the struct module with
   items of the right size is accepted, but n (and objects without copying); other formats are refused. *)
Theorem C83_type : forall mem writable b cpy,
  (forall dt a, make_device_array mem writable b cpy = Ok (dt, a) ->
     format_kind (i_format b) = Some (type_kind dt) /\ item_size dt = i_item b) /\
  (forall k, format_kind (i_format b) = Some k -> In (i_item b) (format_sizes (i_format b)) -> last (i_format b) 0%N <> 110%N ->
     cpy = true \/ writable = true /\ k <> Objects -> forall e, make_device_array mem writable b cpy <> Throw e) /\
  (format_kind (i_format b) = None -> exists e, make_device_array mem writable b cpy = Throw e).
Proof.
  intros mem writable b cpy. unfold make_device_array. destruct (negb cpy && negb writable) eqn:W.
  - split; [discriminate|]. split; [|eauto]. intros k _ _ _ O e. destruct cpy, writable; try discriminate W. destruct O as [O|[O _]]; discriminate O.
  - destruct (get_data_type b) as [t|] eqn:G.
    + pose proof (type_of_format b t G) as K. split; [|split; [|intros N; destruct K; congruence]].
      * intros dt a H. assert (dt = t); [|subst; exact K].
        destruct cpy; [destruct (items_at _ _ _ _); congruence|destruct t; congruence].
      * intros k F _ _ O e. destruct cpy; [destruct (items_at _ _ _ _); discriminate|].
        destruct O as [|[_ O]]; [discriminate|]. destruct K as [K _]. destruct t; try discriminate. cbn in K. congruence.
    + split; [discriminate|]. split; [|eauto].
      intros k F I N _. destruct (type_of_format_complete b k F I N) as [dt [D _]]. congruence.
Qed.
Print Assumptions C83_type.

Example C83_type_case :
  format_kind [61; 108]%N = Some Signed /\ In 4 (format_sizes [61; 108]%N) /\
  make_device_array C83_mem true (mk_info 0 4 [61; 108]%N [2] [4]) false = Ok (D_int i32, Shared 0 4 2) /\
  format_kind [62; 105]%N = None /\ make_device_array C83_mem true (mk_info 0 4 [62; 105]%N [2] [4]) false = Throw Invalid_argument.
Proof. repeat split. right; left; reflexivity. Qed.

(* ---------------- C84: to NumPy and DLPack ---------------- *)

(* C84. NumPy sees the dimensions, the item size and the items of a tensor, in a format of that size, and for all types but [size]
   of that kind. *)
Theorem C84_numpy : forall mem t later,
  proper_tensor mem t -> t_type t <> D_string -> length later = length mem ->
  let '(m, b) := tensor_to_buffer later t in
  i_shape b = t_shape t /\ i_item b = item_size (t_type t) /\ In (i_item b) (format_sizes (i_format b)) /\
  (t_type t <> D_size -> format_kind (i_format b) = Some (type_kind (t_type t))) /\
  forall idx, in_range (t_shape t) idx -> item_of m b idx = tensor_item later t idx /\ tensor_item later t idx <> None.
Proof.
  intros mem t later P _ L. pose proof (buffer_shows mem t P later (or_introl L)) as B.
  destruct (tensor_to_buffer later t) as [m b]. destruct B as [B1 [B2 [B3 B4]]]. split; [exact B1|]. split; [exact B2|].
  split; [rewrite B2, B3; apply export_size|]. split; [rewrite B3; apply export_kind|exact B4].
Qed.
Print Assumptions C84_numpy.

(* C84 fails for the type [size]: its items are unsigned, NumPy takes them for signed ones; a tensor that comes back has
   another type. *)
Theorem C84_size_refuted : exists mem t,
  proper_tensor mem t /\ type_kind (t_type t) = Unsigned /\
  format_kind (i_format (snd (tensor_to_buffer mem t))) = Some Signed /\
  exists t', numpy_to_tensor (fst (tensor_to_buffer mem t)) true (snd (tensor_to_buffer mem t)) true = Ok t' /\ t_type t' <> t_type t.
Proof.
  exists [], (mk_tensor D_size [1] [1] (Owned [repeat 255%N 8])). split; [|split; [reflexivity|split; [reflexivity|]]].
  - repeat split; try (repeat constructor; cbn; lia).
  - eexists. split; [reflexivity|discriminate].
Qed.
Print Assumptions C84_size_refuted.

(* C84. Users of DLPack see the dimensions, the kind and size of the items, and the items of the tensor. *)
Theorem C84_dlpack : forall mem t, proper_tensor mem t -> t_type t <> D_string ->
  Forall (fun d => d < 2 ^ 63) (t_shape t) -> Z.of_nat (length (t_shape t)) < 2 ^ 31 ->
  exists d, as_dlpack (Dense t) 16 = Ok d /\ dl_dims d = t_shape t /\ d_ndim d = Z.of_nat (length (t_shape t)) /\
    dl_kind (d_code d) = type_kind (t_type t) /\ d_bits d * d_lanes d = 8 * item_size (t_type t) /\
    forall later, length later = length mem \/ (exists l, t_array t = Owned l) ->
    let '(m, b) := tensor_to_buffer later t in
    forall idx, in_range (t_shape t) idx ->
      dl_item m (i_ptr b) d idx = tensor_item later t idx /\ tensor_item later t idx <> None.
Proof. exact dlpack_shows. Qed.
Print Assumptions C84_dlpack.

Example C84_case :
  let t := mk_tensor D_float16 [2; 2] [1; 2] (Owned [[1; 2]; [3; 4]; [5; 6]; [7; 8]]%N) in
  proper_tensor [] t /\
  item_of (fst (tensor_to_buffer [] t)) (snd (tensor_to_buffer [] t)) [0; 1] = Some [5; 6]%N /\
  (exists d, as_dlpack (Dense t) 16 = Ok d /\ dl_item [1; 2; 3; 4; 5; 6; 7; 8]%N 0 d [0; 1] = Some [5; 6]%N).
Proof.
  split; [repeat split; try (repeat constructor; cbn; lia)|]. split; [reflexivity|]. eexists. split; reflexivity.
Qed.

(* C84. Tensors of strings, sparse tensors and other versions of DLPack are refused. *)
Theorem C84_dlpack_refused :
  (forall t, t_type t = D_string -> as_dlpack (Dense t) 16 = Throw Not_supported) /\
  as_dlpack Sparse 16 = Throw Invalid_argument /\
  (forall x v, v <> 16 -> as_dlpack x v = Throw Not_supported).
Proof.
  split; [|split].
  - intros t E. unfold as_dlpack. rewrite E. reflexivity.
  - reflexivity.
  - intros x v N. unfold as_dlpack. destruct (Z.eqb_spec v 16); [contradiction|reflexivity].
Qed.
Print Assumptions C84_dlpack_refused.

(* C84. Whatever the order in which Python drops the tensor, capsules are made, taken over by consumers and collected, and
   consumers call the deleter: the tensor is there exactly as long as someone needs it, and is freed then; nothing is freed
   twice. *)
Theorem C84_lifetime : forall events r, life_run born events = Some r ->
  exists s, r = Ok s /\ (l_freed s = false <-> l_holder s = true \/ Exists needs (l_exports s)).
Proof. exact life_l. Qed.
Print Assumptions C84_lifetime.

(* C84. The same from the outside: the tensor is freed exactly when Python has dropped it and every capsule that was made was
   either taken by a consumer that has called the deleter, or collected without having been taken. *)
Theorem C84_freed : forall events r, life_run born events = Some r ->
  exists s, r = Ok s /\ (l_freed s = true <-> In L_drop events /\ forall k, (k < exported events)%nat -> over events k).
Proof. exact freed_l. Qed.
Print Assumptions C84_freed.

Example C84_lifetime_case :
  life_run born [L_export false; L_export true; L_export false; L_take 0; L_drop; L_collect 0; L_collect 1] =
    Some (Ok (mk_life false 1 false [mk_export false false false; mk_export false true true])) /\
  life_run born [L_export false; L_take 0; L_drop; L_collect 0; L_done 0] =
    Some (Ok (mk_life false 0 true [mk_export false false true])).
Proof. split; reflexivity. Qed.

(* ---------------- C85: strings ---------------- *)

(* C85. An array of valid UTF-8 strings is shown to Python as these strings, every time, and they give the array back. *)
Theorem C85_strings : forall valid strings n, forallb valid strings = true ->
  looks valid n (mk_view strings []) = repeat (Ok (map (fun s => Py_str (Some s)) strings)) n /\
  make_string_array (map (fun s => Py_str (Some s)) strings) true = Ok strings.
Proof. intros valid strings n V. split; [apply looks_ok; exact V|apply (import_back valid); exact V]. Qed.
Print Assumptions C85_strings.

(* C85. If the first string is not valid UTF-8, every use is an error. *)
Theorem C85_first_invalid : forall valid s strings n, valid s = false ->
  looks valid n (mk_view (s :: strings) []) = repeat (Throw Other_err) n.
Proof. exact looks_first. Qed.
Print Assumptions C85_first_invalid.

(* C85 fails if a later string is not valid: the first use is an error, the second reads beyond a buffer. *)
Theorem C85_retry_refuted : forall valid before s after n, before <> [] -> forallb valid before = true -> valid s = false ->
  looks valid (S (S n)) (mk_view (before ++ s :: after) []) = [Throw Other_err; UB].
Proof. exact looks_later. Qed.
Print Assumptions C85_retry_refuted.

(* C85. Objects become strings one by one; an object that is no string, or has no UTF-8 form, is an error.  Without copying,
   objects are refused. *)
Theorem C85_from_python : forall objs,
  (forall l, Forall2 (fun o s => characters o = Some s) objs l -> make_string_array objs true = Ok l) /\
  (Exists (fun o => characters o = None) objs -> make_string_array objs true = Throw Other_err) /\
  make_string_array objs false = Throw Invalid_argument.
Proof. intros objs. destruct (import_strings objs) as [A B]. repeat split; assumption. Qed.
Print Assumptions C85_from_python.

Definition C85_ascii (s : list byte) : bool := forallb (fun b => (b <? 128)%N) s.
Example C85_case :
  looks C85_ascii 2 (mk_view [[65]; [66; 67]]%N []) =
    [Ok [Py_str (Some [65]%N); Py_str (Some [66; 67]%N)]; Ok [Py_str (Some [65]%N); Py_str (Some [66; 67]%N)]] /\
  looks C85_ascii 3 (mk_view [[200]; [65]]%N []) = [Throw Other_err; Throw Other_err; Throw Other_err] /\
  looks C85_ascii 3 (mk_view [[65]; [200]]%N []) = [Throw Other_err; UB] /\
  make_string_array [Py_str (Some [65]%N); Py_bytes [200]%N] true = Ok [[65]; [200]]%N /\
  make_string_array [Py_str (Some [65]%N); Py_str None] true = Throw Other_err.
Proof. repeat split. Qed.
