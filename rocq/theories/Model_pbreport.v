(* What the RecordIO-protobuf reader says about bad instances: warnings and the texts of errors. *)
From Verif Require Import Common Model_num Model_tsr Model_csv Model_pb Model_report.
From Coq Require String DecimalString.
Import String.StringSyntax.
Local Open Scope string_scope.
Local Open Scope Z_scope.

(* A number that is not negative as fmt writes it ({} and {:n} in the "C" locale): the standard library's decimal numerals. *)
Definition dec (n : Z) : str := tx (DecimalString.NilEmpty.string_of_uint (N.to_uint (Z.to_N n))).
(* fmt::join(..., ", ") of numbers. *)
Fixpoint joined (ds : list Z) : str :=
  match ds with
  | [] => []
  | [d] => dec d
  | d :: rest => (dec d ++ tx ", " ++ joined rest)%list
  end.

(* include/mlio/data_type.h:169-215 operator<<, by which fmt writes a Data_type. *)
Definition type_text (dt : dtype) : str :=
  match dt with
  | D_size => tx "size"
  | D_float16 => tx "float16"
  | D_float32 => tx "float32"
  | D_float64 => tx "float64"
  | D_int i8 => tx "int8"
  | D_int i16 => tx "int16"
  | D_int i32 => tx "int32"
  | D_int i64 => tx "int64"
  | D_int u8 => tx "uint8"
  | D_int u16 => tx "uint16"
  | D_int u32 => tx "uint32"
  | D_int u64 => tx "uint64"
  | D_string => tx "string"
  end.

Section Report.
  Context (V : Type).
  (* warn_bad_instance and error_bad_example of the decoder state (recordio_protobuf_reader.cc:423-430), the schema, the identifier of the
     data store and the index of the instance. *)
  Context (warn err : bool) (s : schema) (store : str).

  (* recordio_protobuf_reader.cc:516-521 *)
  Definition miscounted (nr : nat) (read expected : nat) : str :=
    format "The instance #{1:n} in the data store '{0}' has {2:n} feature(s) while it is expected to have {3:n} features."
      [store; dec (Z.of_nat nr); dec (Z.of_nat read); dec (Z.of_nat expected)].
  (* recordio_protobuf_reader.cc:544-547 *)
  Definition corrupt (nr : nat) : str :=
    format "The instance #{1:n} in the data store '{0}' contains a corrupt RecordIO-protobuf message." [store; dec (Z.of_nat nr)].
  (* recordio_protobuf_reader.cc:569-573 *)
  Definition unknown (nr : nat) (name : str) : str :=
    format "The instance #{1:n} in the data store '{0}' has an unknown feature named '{2}'." [store; dec (Z.of_nat nr); name].
  (* recordio_protobuf_reader.cc:607-611 *)
  Definition unexpected (nr : nat) (name : str) : str :=
    format "The feature '{2}' of the instance #{1:n} in the data store '{0}' has an unexpected data type." [store; dec (Z.of_nat nr); name].
  (* recordio_protobuf_reader.cc:630-636 *)
  Definition mistyped (nr : nat) (name : str) (dt expected : dtype) : str :=
    format "The feature '{2}' of the instance #{1:n} in the data store '{0}' has the data type {3} while it is expected to have the data type {4}."
      [store; dec (Z.of_nat nr); name; type_text dt; type_text expected].
  (* recordio_protobuf_reader.cc:652-662; [attr_sparse] is attr_->sparse(). *)
  Definition misdense (nr : nat) (name : str) (attr_sparse : bool) : str :=
    format (if attr_sparse
            then "The feature '{2}' of the instance #{1:n} in the data store '{0}' is sparse while it is expected to be dense."
            else "The feature '{2}' of the instance #{1:n} in the data store '{0}' is dense while it is expected to be sparse.")
      [store; dec (Z.of_nat nr); name].
  (* recordio_protobuf_reader.cc:678-695 *)
  Definition misshaped (nr : nat) (name : str) (t : ptensor V) (shape : list Z) : str :=
    let shape_str := match t_shape _ t with [] => dec (Z.of_nat (length (t_values _ t))) | sh => joined sh end in
    format "The feature '{2}' of the instance #{1:n} in the data store '{0}' has the shape ({3}) while it is expected to have the shape ({4})."
      [store; dec (Z.of_nat nr); name; shape_str; joined (tl shape)].
  (* recordio_protobuf_reader.cc:768-776 *)
  Definition misfilled (nr : nat) (name : str) (values : nat) (shape : list Z) : str :=
    format "The feature '{2}' of the instance #{1:n} in the data store '{0}' has {3:n} values(s) but a shape of ({4:n})."
      [store; dec (Z.of_nat nr); name; dec (Z.of_nat values); joined (tl shape)].
  (* recordio_protobuf_reader.cc:806-812 *)
  Definition unpaired (nr : nat) (name : str) (keys values : nat) : str :=
    format "The sparse feature '{2}' of the instance #{1:n} in the data store '{0}' has {3:n} key(s) but {4:n} value(s)."
      [store; dec (Z.of_nat nr); name; dec (Z.of_nat keys); dec (Z.of_nat values)].
  (* recordio_protobuf_reader.cc:834-838 *)
  Definition misplaced (nr : nat) (name : str) : str :=
    format "The sparse feature '{2}' of the instance #{1:n} in the data store '{0}' has one or more invalid keys." [store; dec (Z.of_nat nr); name].

  (* What a function says, what it returns, and the text of the error if it ends with one of these. *)
  Definition said (A : Type) : Type := list str * res A * option str.
  Definition silent {A : Type} (r : res A) : said A := ([], r, None).
  (* recordio_protobuf_reader.cc:515-532 and the like *)
  Definition complain {A : Type} (m : str) (a : A) : said A :=
    (if warn then [m] else [], if err then Throw Invalid_instance else Ok a, if err then Some m else None).
  Definition andthen {A B : Type} (x : said A) (k : A -> said B) : said B :=
    let '(ws, r, e) := x in
    match r with
    | Ok a => let '(ws', r', e') := k a in ((ws ++ ws')%list, r', e')
    | Throw t => (ws, Throw t, e)
    | UB => (ws, UB, e)
    | Fuel => (ws, Fuel, e)
    end.

  (* recordio_protobuf_reader.cc:625-713, 760-788 and 800-824 *)
  Definition tensor_says (nr idx : nat) (a : attribute) (dt : dtype) (t : ptensor V) : said (option (action V)) :=
    if negb (dtype_eqb (a_type a) dt) then complain (mistyped nr (a_name a) dt (a_type a)) None
    else if negb (Bool.eqb (is_sparse V t) (a_sparse a)) then complain (misdense nr (a_name a) (a_sparse a)) None
    else if negb (shape_equals V a t) then complain (misshaped nr (a_name a) t (a_shape a)) None
    else if a_sparse a then
      if Nat.eqb (length (t_keys _ t)) (length (t_values _ t)) then silent (Ok (Some (A_append V idx (t_values _ t) (t_keys _ t))))
      else complain (unpaired nr (a_name a) (length (t_keys _ t)) (length (t_values _ t))) None
    else if hd 0 (a_strides a) =? Z.of_nat (length (t_values _ t)) then silent (Ok (Some (A_copy V idx (t_values _ t))))
    else complain (misfilled nr (a_name a) (length (t_values _ t)) (a_shape a)) None.

  (* recordio_protobuf_reader.cc:561-623 *)
  Definition feature_says (nr : nat) (name : str) (v : pvalue V) : said (option (action V)) :=
    match get_index s name with
    | None => complain (unknown nr name) None
    | Some idx =>
        match nth_error (s_attributes s) idx with
        | None => silent UB
        | Some a =>
            match v with
            | P_float32 _ t => tensor_says nr idx a D_float32 t
            | P_float64 _ t => tensor_says nr idx a D_float64 t
            | P_int32 _ t => tensor_says nr idx a (D_int i32) t
            | P_bytes _ | P_unset _ => complain (unexpected nr (a_name a)) None
            end
        end
    end.

  (* recordio_protobuf_reader.cc:790-798 and 826-850 *)
  Definition perform_says (nr row : nat) (x : action V) (st : list (Model_pb.store V)) : said (list (Model_pb.store V) * bool) :=
    match x with
    | A_copy _ _ _ => silent (perform V err s row x st)
    | A_append _ idx values keys =>
        match nth_error st idx, nth_error (s_attributes s) idx with
        | Some (S_coo _ b), Some a =>
            andthen (silent (append (a_shape a) (a_strides a) b values keys)) (fun '(b', ok) =>
              if ok then silent (Ok (replace idx (S_coo V b') st, true))
              else complain (misplaced nr (a_name a)) (replace idx (S_coo V b') st, false))
        | _, _ => silent UB
        end
    end.

  (* recordio_protobuf_reader.cc:492-505 *)
  Fixpoint features_say (nr row : nat) (es : list (str * pvalue V)) (st : list (Model_pb.store V)) : said (list (Model_pb.store V) * bool) :=
    match es with
    | [] => silent (Ok (st, true))
    | (name, v) :: rest =>
        andthen (feature_says nr name v) (fun x =>
          match x with
          | None => silent (Ok (st, false))
          | Some x => andthen (perform_says nr row x st) (fun '(st', ok) => if ok then features_say nr row rest st' else silent (Ok (st', false)))
          end)
    end.

  (* recordio_protobuf_reader.cc:479-533 Decoder::decode and 535-559 parse_proto *)
  Definition instance_says (nr row : nat) (i : instance V) (st : list (Model_pb.store V)) : said (list (Model_pb.store V) * bool) :=
    match i with
    | None => complain (corrupt nr) (st, false)
    | Some m =>
        andthen (features_say nr row (m_entries V m) st) (fun '(st', ok) =>
          if ok then
            if Nat.eqb (length (m_entries V m)) (length (s_attributes s)) then silent (Ok (st', true))
            else complain (miscounted nr (length (m_entries V m)) (length (s_attributes s))) (st', false)
          else silent (Ok (st', false)))
    end.
End Report.

Section Batch.
  Context (V : Type) (warn : bool) (h : beh) (s : schema) (store : str).

  (* recordio_protobuf_reader.cc:343-368 decode_serial: the instances with their indices. *)
  Fixpoint serial_says (is : list (nat * instance V)) (row : nat) (st : list (Model_pb.store V)) : said (option (nat * list (Model_pb.store V))) :=
    match is with
    | [] => silent (Ok (Some (row, st)))
    | (nr, i) :: rest =>
        andthen (instance_says V warn (h_error h) s store nr row i st) (fun '(st', ok) =>
          if ok then serial_says rest (S row) st'
          else if h_skip h then silent (Ok None)
          else if h_pad h then serial_says rest row st'
          else silent (Throw Invalid_argument))
    end.

  (* recordio_protobuf_reader.cc:299-302 and 308-311 *)
  Definition skipped_text (batch : nat) : str :=
    format "The example #{0:n} has been skipped as it had at least one bad instance." [dec (Z.of_nat batch)].
  Definition padded_text (batch bad : nat) : str :=
    format "The example #{0:n} has been padded as it had {1:n} bad instance(s)." [dec (Z.of_nat batch); dec (Z.of_nat bad)].
  (* recordio_protobuf_reader.cc:297-314 *)
  Definition conclude (batch n : nat) (x : said (option (nat * list (Model_pb.store V)))) : said (option (nat * list (Model_pb.store V))) :=
    andthen x (fun o =>
      match o with
      | None => (match h with B_skip_warn => [skipped_text batch] | _ => [] end, Ok o, None)
      | Some (read, _) =>
          (if Nat.eqb n read then [] else match h with B_pad_warn => [padded_text batch (n - read)] | _ => [] end, Ok o, None)
      end).

  (* recordio_protobuf_reader.cc:387-404: the worker of decode_parallel on a sub-range.  The schema has no sparse attribute; what is said
     does not depend on the tensors. *)
  Fixpoint entries_say (nr : nat) (es : list (str * pvalue V)) : list str * verdict * option str :=
    match es with
    | [] => ([], V_good, None)
    | (name, v) :: rest =>
        let '(ws, r, e) := feature_says V warn (h_error h) s store nr name v in
        match r with
        | Ok None => (ws, V_bad, e)
        | Ok (Some (A_copy _ _ _)) => let '(ws', o, e') := entries_say nr rest in ((ws ++ ws')%list, o, e')
        | Ok (Some (A_append _ _ _ _)) => (ws, V_ub, e)
        | Throw t => (ws, V_throw t, e)
        | UB => (ws, V_ub, e)
        | Fuel => (ws, V_fuel, e)
        end
    end.
  Definition refuse (m : str) : list str * verdict * option str :=
    (if warn then [m] else [], bad_verdict h, if h_error h then Some m else None).
  Definition run_says (nr : nat) (i : instance V) : list str * verdict * option str :=
    match i with
    | None => refuse (corrupt store nr)
    | Some m =>
        let '(ws, o, e) := entries_say nr (m_entries V m) in
        match o with
        | V_good =>
            if Nat.eqb (length (m_entries V m)) (length (s_attributes s)) then (ws, V_good, e)
            else let '(ws', o', e') := refuse (miscounted store nr (length (m_entries V m)) (length (s_attributes s))) in ((ws ++ ws')%list, o', e')
        | _ => (ws, o, e)
        end
    end.
  Fixpoint worker_says (is : list (nat * instance V)) : list str * verdict * option str :=
    match is with
    | [] => ([], V_good, None)
    | (nr, i) :: rest =>
        let '(ws, o, e) := run_says nr i in
        match o with
        | V_good => let '(ws', o', e') := worker_says rest in ((ws ++ ws')%list, o', e')
        | V_bad => (ws, if h_skip h then V_bad else V_throw Invalid_argument, e)
        | _ => (ws, o, e)
        end
    end.
End Batch.
