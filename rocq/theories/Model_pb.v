(* The RecordIO-protobuf reader: schema inference and decoding.  V is the type of the elements of a tensor
   (float, double or int32_t; the data type is kept beside the values). *)
From Verif Require Import Common Model_num Model_tsr Model_csv.
Local Open Scope Z_scope.

Section Pb.
  Variable V : Type.
  Variable vzero : V.

  (* src/mlio/detail/protobuf/recordio_protobuf.proto: the messages.  A map is the list of its entries in the order in which the
     protobuf library iterates over it.  The library's parser is not modelled: an instance is the message it gives,
     or None if the bytes are not a message (src/mlio/recordio_protobuf_reader.cc:415-421 parse_proto). *)
  Record ptensor := mk_pt { t_values : list V; t_keys : list Z; t_shape : list Z }.
  Inductive pvalue := P_float32 (t : ptensor) | P_float64 (t : ptensor) | P_int32 (t : ptensor) | P_bytes | P_unset.
  Record message := mk_message { m_labels : list (list byte * pvalue); m_features : list (list byte * pvalue) }.
  Definition instance := option message.

  (* recordio_protobuf_reader.cc:142-150 and 492-505: the names are those of the features and those of the labels
     with the prefix "label_"; the labels come first. *)
  Definition label_prefix : list byte := [108; 97; 98; 101; 108; 95]%N.
  Definition m_entries (m : message) : list (list byte * pvalue) :=
    map (fun e => (label_prefix ++ fst e, snd e)) (m_labels m) ++ m_features m.

  (* recordio_protobuf_reader.cc:194-263 make_attribute (for a tensor) and copy_shape; size_t has 64 bits. *)
  Definition attribute_of_tensor (batch : Z) (name : list byte) (dt : dtype) (t : ptensor) : res attribute :=
    match t_keys t, t_shape t with
    | [], [] => new_attribute name dt [batch; Z.of_nat (length (t_values t))] [] false
    | [], sh => new_attribute name dt (batch :: sh) [] (match t_values t with [] => true | _ => false end)
    | _ :: _, [] => Throw Schema_err
    | _ :: _, sh => new_attribute name dt (batch :: sh) [] true
    end.
  (* recordio_protobuf_reader.cc:166-192 make_attribute. *)
  Definition attribute_of (batch : Z) (name : list byte) (v : pvalue) : res attribute :=
    match v with
    | P_float32 t => attribute_of_tensor batch name D_float32 t
    | P_float64 t => attribute_of_tensor batch name D_float64 t
    | P_int32 t => attribute_of_tensor batch name (D_int i32) t
    | P_bytes => Throw Not_supported
    | P_unset => Throw Schema_err
    end.
  Fixpoint attributes_of (batch : Z) (es : list (list byte * pvalue)) : res (list attribute) :=
    match es with
    | [] => Ok []
    | (name, v) :: rest =>
        let* a := attribute_of batch name v in
        let* l := attributes_of batch rest in
        Ok (a :: l)
    end.
  (* recordio_protobuf_reader.cc:125-164 infer_schema.  has_sparse_feature_ and num_values_per_instance_ are
     the functions of the schema below (an attempt that throws may have set the former already).  *)
  Definition infer (batch : Z) (i : option instance) : res (option schema) :=
    match i with
    | None => Ok None
    | Some None => Throw Schema_err
    | Some (Some m) =>
        let* attrs := attributes_of batch (m_entries m) in
        let* s := new_schema attrs in
        Ok (Some s)
    end.
  Definition has_sparse (s : schema) : bool := existsb a_sparse (s_attributes s).
  Definition num_values (s : schema) : Z :=
    fold_left (fun n a => if a_sparse a then n else as_size (n + as_size (hd 0 (a_strides a)))) (s_attributes s) 0.

  (* The tensor or the builder of one attribute. *)
  Inductive store := S_dense (data : list V) | S_coo (b : builder V).

  (* recordio_protobuf_reader.cc:432-477 init_state, init_tensor, init_coo_tensor_builder. *)
  Definition init_store (size : Z) (a : attribute) : res store :=
    if a_sparse a then Ok (S_coo (new_builder (length (a_shape a) - 1)))
    else
      let n := as_size (size * as_size (hd 0 (a_strides a))) in
      let* _ := dense_tensor (size :: tl (a_shape a)) n [] in
      Ok (S_dense (repeat vzero (Z.to_nat n))).
  Fixpoint init_stores (size : Z) (attrs : list attribute) : res (list store) :=
    match attrs with
    | [] => Ok []
    | a :: rest => let* x := init_store size a in let* l := init_stores size rest in Ok (x :: l)
    end.

  (* recordio_protobuf_reader.cc:715-722 is_sparse. *)
  Definition is_sparse (t : ptensor) : bool :=
    match t_keys t with
    | [] => match t_values t, t_shape t with [], _ :: _ => true | _, _ => false end
    | _ :: _ => true
    end.
  (* recordio_protobuf_reader.cc:724-758 shape_equals. *)
  Definition shape_equals (a : attribute) (t : ptensor) : bool :=
    match t_shape t with
    | [] => match a_shape a with [_; d] => d =? Z.of_nat (length (t_values t)) | _ => false end
    | sh => zs_eqb (tl (a_shape a)) sh
    end.

  (* What decode_feature does once all its checks have succeeded. *)
  Inductive action := A_copy (idx : nat) (values : list V) | A_append (idx : nat) (values : list V) (keys : list Z).

  Section Decoder.
    (* error_bad_example of the decoder state (recordio_protobuf_reader.cc:427).  The warnings are not modelled. *)
    Variable err : bool.
    Variable s : schema.

    (* Lines 515-532, 543-558, 568-584 and so on: the instance is bad. *)
    Definition bad {A : Type} (a : A) : res A := if err then Throw Invalid_instance else Ok a.

    (* recordio_protobuf_reader.cc:625-713, 764-788 and 804-824: the checks of decode_feature for a tensor and those
       at the beginning of copy_to_tensor and append_to_builder. *)
    Definition check_tensor (idx : nat) (a : attribute) (dt : dtype) (t : ptensor) : res (option action) :=
      if negb (dtype_eqb (a_type a) dt) then bad None
      else if negb (Bool.eqb (is_sparse t) (a_sparse a)) then bad None
      else if negb (shape_equals a t) then bad None
      else if a_sparse a then
        if Nat.eqb (length (t_keys t)) (length (t_values t)) then Ok (Some (A_append idx (t_values t) (t_keys t))) else bad None
      else if hd 0 (a_strides a) =? Z.of_nat (length (t_values t)) then Ok (Some (A_copy idx (t_values t))) else bad None.

    (* recordio_protobuf_reader.cc:561-623: the checks of decode_feature. *)
    Definition check_feature (name : list byte) (v : pvalue) : res (option action) :=
      match get_index s name with
      | None => bad None
      | Some idx =>
          match nth_error (s_attributes s) idx with
          | None => UB
          | Some a =>
              match v with
              | P_float32 t => check_tensor idx a D_float32 t
              | P_float64 t => check_tensor idx a D_float64 t
              | P_int32 t => check_tensor idx a (D_int i32) t
              | P_bytes | P_unset => bad None
              end
          end
      end.

    Fixpoint replace {A : Type} (n : nat) (x : A) (l : list A) : list A :=
      match l, n with
      | [], _ => []
      | _ :: l', O => x :: l'
      | y :: l', S n' => y :: replace n' x l'
      end.

    (* recordio_protobuf_reader.cc:790-798: std::copy_n into the tensor's data. *)
    Definition copy_n (data : list V) (offset : nat) (values : list V) : res (list V) :=
      if Nat.leb (offset + length values) (length data)
      then Ok (firstn offset data ++ values ++ skipn (offset + length values) data)
      else UB.

    (* recordio_protobuf_reader.cc:760-850: the effect of copy_to_tensor and append_to_builder after their checks. *)
    Definition perform (row : nat) (x : action) (st : list store) : res (list store * bool) :=
      match x with
      | A_copy idx values =>
          match nth_error st idx with
          | Some (S_dense data) =>
              let* data' := copy_n data (row * length values) values in
              Ok (replace idx (S_dense data') st, true)
          | _ => UB
          end
      | A_append idx values keys =>
          match nth_error st idx, nth_error (s_attributes s) idx with
          | Some (S_coo b), Some a =>
              let* (b', ok) := append (a_shape a) (a_strides a) b values keys in
              if ok then Ok (replace idx (S_coo b') st, true) else bad (replace idx (S_coo b') st, false)
          | _, _ => UB
          end
      end.

    (* recordio_protobuf_reader.cc:492-505: the loops of decode. *)
    Fixpoint decode_features (row : nat) (es : list (list byte * pvalue)) (st : list store) : res (list store * bool) :=
      match es with
      | [] => Ok (st, true)
      | (name, v) :: rest =>
          let* x := check_feature name v in
          match x with
          | None => Ok (st, false)
          | Some x =>
              let* (st', ok) := perform row x st in
              if ok then decode_features row rest st' else Ok (st', false)
          end
      end.

    (* recordio_protobuf_reader.cc:479-533 Decoder::decode. *)
    Definition decode_instance (row : nat) (i : instance) (st : list store) : res (list store * bool) :=
      match i with
      | None => bad (st, false)
      | Some m =>
          let* (st', ok) := decode_features row (m_entries m) st in
          if ok then
            if Nat.eqb (length (m_entries m)) (length (s_attributes s)) then Ok (st', true) else bad (st', false)
          else Ok (st', false)
      end.
  End Decoder.

  Section Reader.
    Variable h : beh.
    Variable s : schema.
    Definition h_error : bool := match h with B_error => true | _ => false end.
    Definition h_skip : bool := match h with B_skip | B_skip_warn => true | _ => false end.
    Definition h_pad : bool := match h with B_pad | B_pad_warn => true | _ => false end.

    (* recordio_protobuf_reader.cc:343-368 decode_serial.  In the mode error decode throws instead of returning
       false; line 362 throws if it does not. *)
    Fixpoint decode_serial (is : list instance) (row : nat) (st : list store) : res (option (nat * list store)) :=
      match is with
      | [] => Ok (Some (row, st))
      | i :: rest =>
          let* (st', ok) := decode_instance h_error s row i st in
          if ok then decode_serial rest (S row) st'
          else if h_skip then Ok None
          else if h_pad then decode_serial rest row st'
          else Throw Invalid_argument
      end.

    (* recordio_protobuf_reader.cc:388-404: what the worker of decode_parallel does for one instance: the values it
       copies (attribute, row, values) and how it ends.  The schema has no sparse attribute, hence no A_append. *)
    Definition write : Type := nat * nat * list V.
    Fixpoint instance_writes (row : nat) (es : list (list byte * pvalue)) : list write * verdict :=
      match es with
      | [] => ([], V_good)
      | (name, v) :: rest =>
          match check_feature h_error s name v with
          | Ok None => ([], V_bad)
          | Ok (Some (A_copy idx values)) => let (w, o) := instance_writes row rest in ((idx, row, values) :: w, o)
          | Ok (Some (A_append _ _ _)) => ([], V_ub)
          | Throw e => ([], V_throw e)
          | UB => ([], V_ub)
          | Fuel => ([], V_fuel)
          end
      end.
    Definition bad_verdict : verdict := if h_error then V_throw Invalid_instance else V_bad.
    Definition instance_run (row : nat) (i : instance) : list write * verdict :=
      match i with
      | None => ([], bad_verdict)
      | Some m =>
          let (w, o) := instance_writes row (m_entries m) in
          match o with
          | V_good => (w, if Nat.eqb (length (m_entries m)) (length (s_attributes s)) then V_good else bad_verdict)
          | _ => (w, o)
          end
      end.
    (* recordio_protobuf_reader.cc:388-404: the worker on a sub-range (V_bad: skip_example has been set). *)
    Fixpoint pb_worker (is : list (nat * instance)) : list write * verdict :=
      match is with
      | [] => ([], V_good)
      | (row, i) :: rest =>
          let (w, o) := instance_run row i in
          match o with
          | V_good => let (w', o') := pb_worker rest in (w ++ w', o')
          | V_bad => (w, if h_skip then V_bad else V_throw Invalid_argument)
          | _ => (w, o)
          end
      end.
    Fixpoint do_writes (ws : list write) (st : list store) : res (list store) :=
      match ws with
      | [] => Ok st
      | (idx, row, values) :: rest =>
          let* (st', _) := perform h_error s row (A_copy idx values) st in
          do_writes rest st'
      end.
    (* recordio_protobuf_reader.cc:370-413 decode_parallel.  The instances are divided into consecutive sub-ranges in
       any way, the workers run concurrently; if some of them throw, one of the exceptions is thrown. *)
    Inductive decode_parallel (is : list instance) (st : list store) : res (option (nat * list store)) -> Prop :=
    | par_done parts out :
        concat parts = combine (seq 0 (length is)) is ->
        Forall (fun q => snd (pb_worker q) = V_good) parts ->
        Merge (map (fun q => fst (pb_worker q)) parts) out ->
        decode_parallel is st (let* st' := do_writes out st in Ok (Some (length is, st')))
    | par_skip parts :
        concat parts = combine (seq 0 (length is)) is ->
        Forall (fun q => snd (pb_worker q) = V_good \/ snd (pb_worker q) = V_bad) parts ->
        Exists (fun q => snd (pb_worker q) = V_bad) parts ->
        decode_parallel is st (Ok None)
    | par_throw parts e :
        concat parts = combine (seq 0 (length is)) is ->
        Exists (fun q => snd (pb_worker q) = V_throw e) parts ->
        decode_parallel is st (Throw e)
    | par_ub parts :
        concat parts = combine (seq 0 (length is)) is ->
        Exists (fun q => snd (pb_worker q) = V_ub) parts ->
        decode_parallel is st UB.

    (* A feature of the example. *)
    Inductive feature := F_dense (shape : list Z) (data : list V) | F_coo (o : coo V).

    (* recordio_protobuf_reader.cc:316-334: the tensors are completed. *)
    Definition finish_store (size : Z) (a : attribute) (x : store) : res feature :=
      match x with
      | S_dense data => Ok (F_dense (size :: tl (a_shape a)) data)
      | S_coo b => let* o := build (a_shape a) size b in Ok (F_coo o)
      end.
    Fixpoint finish_stores (size : Z) (attrs : list attribute) (st : list store) : res (list feature) :=
      match attrs, st with
      | a :: attrs', x :: st' => let* f := finish_store size a x in let* l := finish_stores size attrs' st' in Ok (f :: l)
      | _, _ => Ok []
      end.

    (* recordio_protobuf_reader.cc:271-287: whether to decode serially. *)
    Definition decodes_serially (num_instances : nat) : bool :=
      has_sparse s || h_pad || (as_size (num_values s * Z.of_nat num_instances) <? 10000000).

    (* recordio_protobuf_reader.cc:297-340: from the decoded instances to the example. *)
    Definition finish (size : nat) (r : res (option (nat * list store))) : res (option (example feature)) :=
      let* o := r in
      match o with
      | None => Ok None
      | Some (n, st) =>
          let* fs := finish_stores (Z.of_nat size) (s_attributes s) st in
          let* e := new_example s fs in
          Ok (Some (mk_example (e_schema e) (e_features e) (Z.of_nat size - Z.of_nat n)))
      end.

    (* recordio_protobuf_reader.cc:265-341 decode: the possible outcomes for a batch. *)
    Inductive decode_batch (size : nat) (is : list instance) : res (option (example feature)) -> Prop :=
    | db_serial : decodes_serially (length is) = true ->
        decode_batch size is
          (let* st := init_stores (Z.of_nat size) (s_attributes s) in finish size (decode_serial is 0 st))
    | db_parallel st r : decodes_serially (length is) = false ->
        init_stores (Z.of_nat size) (s_attributes s) = Ok st -> decode_parallel is st r ->
        decode_batch size is (finish size r)
    | db_init : decodes_serially (length is) = false ->
        (forall st, init_stores (Z.of_nat size) (s_attributes s) <> Ok st) ->
        decode_batch size is (let* _ := init_stores (Z.of_nat size) (s_attributes s) in Ok None).
  End Reader.
End Pb.
