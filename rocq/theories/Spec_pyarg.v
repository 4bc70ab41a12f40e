(* What the arguments of the Python classes should mean: C111.  Tables of the parameters as the documentation lists them
   (doc/python/data_reader.md, doc/python/data_store.md), with the C++ parameter that each stands for. *)
From Verif Require Import Common Model_pyarg.
From Verif Require Model_names.
From Coq Require Import List NArith ZArith String.
Import ListNotations.
Local Open Scope Z_scope.
Local Open Scope list_scope.
Local Open Scope string_scope.

(* ---- Calls ---- *)
(* The call gives v for the parameter. *)
Definition passed (names : list string) (c : call) (name : string) (v : pv) : Prop :=
  (exists i, nth_error names i = Some name /\ nth_error (c_pos c) i = Some v) \/ In (name, v) (c_kw c).
(* A call that Python and the class accept by the names of the arguments: no keyword twice, not too many arguments, none given twice,
   no unknown keyword. *)
Definition python_call (c : call) : Prop := NoDup (map fst (c_kw c)).
Definition proper (names : list string) (c : call) : Prop :=
  (List.length (c_pos c) <= List.length names)%nat /\
  forall name v, In (name, v) (c_kw c) -> exists i, nth_error names i = Some name /\ (List.length (c_pos c) <= i)%nat.

(* ---- Values ---- *)
(* UTF-8 *)
Inductive char_bytes : N -> list byte -> Prop :=
| One c : (c < 128)%N -> char_bytes c [c]
| Two a b : (b < 64 -> 128 <= 64 * a + b < 2048 -> char_bytes (64 * a + b) [192 + a; 128 + b])%N
| Three a b d : (b < 64 -> d < 64 -> 2048 <= 4096 * a + 64 * b + d < 65536 -> ~ (55296 <= 4096 * a + 64 * b + d < 57344) ->
    char_bytes (4096 * a + 64 * b + d) [224 + a; 128 + b; 128 + d])%N
| Four a b d e : (b < 64 -> d < 64 -> e < 64 -> 65536 <= 262144 * a + 4096 * b + 64 * d + e < 1114112 ->
    char_bytes (262144 * a + 4096 * b + 64 * d + e) [240 + a; 128 + b; 128 + d; 128 + e])%N.
Inductive text : pv -> list byte -> Prop :=
| T_str cs bss : Forall2 char_bytes cs bss -> text (PStr cs) (List.concat bss)
| T_bytes bs : text (PBytes bs) bs.
Definition number (v : pv) (z : Z) : Prop := v = PInt z \/ exists b : bool, v = PBool b /\ z = if b then 1 else 0.
(* Enumerators pass for their numbers. *)
Definition integer (v : pv) (z : Z) : Prop := number v z \/ exists e, v = PEnum e /\ z = ordinal e.
Definition size (v : pv) (n : N) : Prop := integer v (Z.of_N n) /\ (n < 2 ^ 64)%N.
Definition maybe {A : Type} (R : pv -> A -> Prop) (v : pv) (o : option A) : Prop :=
  match o with None => v = PNone | Some a => v <> PNone /\ R v a end.
(* A character: the code point, if it is below 256; or a bytes object. *)
Inductive character : pv -> byte -> Prop :=
| C_str c : (c < 256)%N -> character (PStr [c]) c
| C_byte b : character (PBytes [b]) b
| C_bytes a b : (a < 4)%N -> character (PBytes [192 + a; b]%N) (a * 64 + b mod 64)%N.
(* A truth value. *)
Inductive truth : pv -> bool -> Prop :=
| U_bool b : truth (PBool b) b
| U_none : truth PNone false
| U_zero : truth (PInt 0) false
| U_int z : z <> 0 -> truth (PInt z) true
| U_float_zero d : (d mod 2 ^ 63 = 0)%N -> truth (PFloat d) false
| U_float d : (d mod 2 ^ 63 <> 0)%N -> truth (PFloat d) true
| U_no_time : truth (PDelta 0 0 0) false
| U_time d s us : ~ (d = 0 /\ s = 0 /\ us = 0) -> truth (PDelta d s us) true.

(* What data stores are like without further arguments; the parameters that have to be given do not matter. *)
Definition plain_file : file := mk_file [] true Model_names.Co_infer.
Definition plain_memory : memory := mk_memory 0 Model_names.Co_none.
Definition plain_object : object := mk_object None [] [] Model_names.Co_infer.
Definition plain_pipe : pipe := mk_pipe [] 60 None Model_names.Co_none.

Section Spec.
  Context {F : Type} (narrow : N -> F) (float_of : Z -> option F).

  (* The values that C++ parameters have. *)
  Inductive fval :=
  | V_stores (l : list (option nat)) | V_size (n : N) | V_osize (o : option N) | V_last (l : last_handling) | V_bad (b : beh)
  | V_bool (b : bool) | V_oratio (o : option F) | V_strs (l : list (list byte)) | V_str (s : list byte) | V_strset (l : list (list byte))
  | V_sizeset (l : list N) | V_otype (o : option dtype) | V_types (l : list (list byte * dtype)) | V_itypes (l : list (N * dtype))
  | V_char (b : byte) | V_ochar (o : option byte) | V_ostr (o : option (list byte)) | V_mfl (m : mfl) | V_parser (q : parser)
  | V_frame (f : frame) | V_sizes (l : list N) | V_int (z : Z) | V_comp (k : compression) | V_buffer (k : nat) | V_client (k : option nat)
  | V_seconds (z : Z).
  Definition ratio (v : pv) (x : F) : Prop := (exists d, v = PFloat d /\ x = narrow d) \/ exists z, number v z /\ float_of z = Some x.
  Definition typ (v : pv) (d : dtype) : Prop := v = PEnum (E_dtype d).

  (* The Python value stands for the C++ value. *)
  Inductive stands : pv -> fval -> Prop :=
  | S_stores l ks : Forall2 (fun v k => match k with Some k => v = PStore k | None => v = PNone end) l ks -> stands (PList l) (V_stores ks)
  | S_size v n : size v n -> stands v (V_size n)
  | S_osize v o : maybe size v o -> stands v (V_osize o)
  | S_last l : stands (PEnum (E_last l)) (V_last l)
  | S_bad b : stands (PEnum (E_bad b)) (V_bad b)
  | S_bool v b : truth v b -> stands v (V_bool b)
  | S_oratio v o : maybe ratio v o -> stands v (V_oratio o)
  | S_strs l ss : Forall2 text l ss -> stands (PList l) (V_strs ss)
  | S_str v s : text v s -> stands v (V_str s)
  | S_strset l ss : Forall2 text l ss -> stands (PSet l) (V_strset ss)
  | S_sizeset l ns : Forall2 size l ns -> stands (PSet l) (V_sizeset ns)
  | S_otype v o : maybe typ v o -> stands v (V_otype o)
  | S_types l ts : Forall2 (fun v t => text (fst v) (fst t) /\ typ (snd v) (snd t)) l ts -> stands (PDict l) (V_types ts)
  | S_itypes l ts : Forall2 (fun v t => size (fst v) (fst t) /\ typ (snd v) (snd t)) l ts -> stands (PDict l) (V_itypes ts)
  | S_char v c : character v c -> stands v (V_char c)
  | S_ochar v o : maybe character v o -> stands v (V_ochar o)
  | S_ostr v o : maybe text v o -> stands v (V_ostr o)
  | S_mfl m : stands (PEnum (E_mfl m)) (V_mfl m)
  | S_parser q : stands (PParser q) (V_parser q)
  | S_no_parser : stands PNone (V_parser (mk_parser [] 10))
  | S_frame f : stands (PEnum (E_frame f)) (V_frame f)
  | S_sizes l ns : Forall2 size l ns -> stands (PList l) (V_sizes ns)
  | S_int v z : integer v z -> - 2 ^ 31 <= z < 2 ^ 31 -> stands v (V_int z)
  | S_comp k : stands (PEnum (E_comp k)) (V_comp k)
  | S_buffer k : stands (PBuffer k) (V_buffer k)
  | S_client k : stands (PClient k) (V_client (Some k))
  | S_no_client : stands PNone (V_client None)
  | S_seconds d s us n : (d * 86400 + s) * 1000000 + us = 1000000 * n -> stands (PDelta d s us) (V_seconds n).

  (* ---- Parameters: the name in Python and the C++ parameter ---- *)
  Definition reader_fields : list (string * (reader_params F -> fval)) :=
    [("dataset", fun p => V_stores (dataset F p)); ("batch_size", fun p => V_size (batch_size F p));
     ("num_prefetched_examples", fun p => V_size (num_prefetched_examples F p)); ("num_parallel_reads", fun p => V_size (num_parallel_reads F p));
     ("last_example_handling", fun p => V_last (last_example_handling F p)); ("bad_example_handling", fun p => V_bad (bad_example_handling F p));
     ("warn_bad_instances", fun p => V_bool (warn_bad_instances F p)); ("num_instances_to_skip", fun p => V_size (num_instances_to_skip F p));
     ("num_instances_to_read", fun p => V_osize (num_instances_to_read F p)); ("shard_index", fun p => V_size (shard_index F p));
     ("num_shards", fun p => V_size (num_shards F p)); ("sample_ratio", fun p => V_oratio (sample_ratio F p));
     ("shuffle_instances", fun p => V_bool (shuffle_instances F p)); ("shuffle_window", fun p => V_size (shuffle_window F p));
     ("shuffle_seed", fun p => V_osize (shuffle_seed F p)); ("reshuffle_each_epoch", fun p => V_bool (reshuffle_each_epoch F p))].
  Definition csv_fields : list (string * (csv_params -> fval)) :=
    [("column_names", fun p => V_strs (column_names p)); ("name_prefix", fun p => V_str (name_prefix p));
     ("use_columns", fun p => V_strset (use_columns p)); ("use_columns_by_index", fun p => V_sizeset (use_columns_by_index p));
     ("default_data_type", fun p => V_otype (default_data_type p)); ("column_types", fun p => V_types (column_types p));
     ("column_types_by_index", fun p => V_itypes (column_types_by_index p)); ("header_row_index", fun p => V_osize (header_row_index p));
     ("has_single_header", fun p => V_bool (has_single_header p)); ("dedupe_column_names", fun p => V_bool (dedupe_column_names p));
     ("delimiter", fun p => V_char (delimiter p)); ("quote_char", fun p => V_char (quote_char p));
     ("comment_char", fun p => V_ochar (comment_char p)); ("allow_quoted_new_lines", fun p => V_bool (allow_quoted_new_lines p));
     ("skip_blank_lines", fun p => V_bool (skip_blank_lines p)); ("encoding", fun p => V_ostr (encoding p));
     ("max_field_length", fun p => V_osize (max_field_length p)); ("max_field_length_handling", fun p => V_mfl (max_field_length_handling p));
     ("max_line_length", fun p => V_osize (max_line_length p)); ("parser_options", fun p => V_parser (parser_options p))].
  Definition image_fields : list (string * (image_params -> fval)) :=
    [("image_frame", fun p => V_frame (image_frame p)); ("resize", fun p => V_osize (resize p));
     ("image_dimensions", fun p => V_sizes (image_dimensions p)); ("to_rgb", fun p => V_bool (to_rgb p))].
  Definition parser_fields : list (string * (parser -> fval)) :=
    [("nan_values", fun q => V_strset (nan_values q)); ("number_base", fun q => V_int (base q))].
  Definition file_fields : list (string * (file -> fval)) :=
    [("path", fun f => V_str (f_path f)); ("memory_map", fun f => V_bool (f_map f)); ("compression", fun f => V_comp (f_comp f))].
  Definition memory_fields : list (string * (memory -> fval)) := [("buf", fun m => V_buffer (m_buf m)); ("compression", fun m => V_comp (m_comp m))].
  Definition object_fields : list (string * (object -> fval)) :=
    [("client", fun o => V_client (o_client o)); ("uri", fun o => V_str (o_uri o)); ("version_id", fun o => V_str (o_version o));
     ("compression", fun o => V_comp (o_comp o))].
  Definition pipe_fields : list (string * (pipe -> fval)) :=
    [("path", fun q => V_str (q_path q)); ("timeout", fun q => V_seconds (q_timeout q)); ("fifo_id", fun q => V_osize (q_fifo q));
     ("compression", fun q => V_comp (q_comp q))].

  (* The parameters are what the call says; those that it doesn't give are as in [dflt]; some have to be given. *)
  Definition meant {P : Type} (fields : list (string * (P -> fval))) (required : list string) (dflt : P) (c : call) (p : P) : Prop :=
    proper (map fst fields) c /\
    (forall name, In name required -> exists v, passed (map fst fields) c name v) /\
    forall name get, In (name, get) fields ->
      (forall v, passed (map fst fields) c name v -> stands v (get p)) /\
      ((forall v, ~ passed (map fst fields) c name v) -> get p = get dflt).
  (* An assignment changes one parameter. *)
  Definition assigned {P : Type} (fields : list (string * (P -> fval))) (name : string) (v : pv) (p p' : P) : Prop :=
    (exists get, In (name, get) fields /\ stands v (get p')) /\
    forall other get, In (other, get) fields -> other <> name -> get p' = get p.

  (* Programs that make objects of parameters, change them and make readers.  The last word about a parameter of object k: it is what the
     last assignment that was not refused says; if there is none, what the call that made the object says. *)
  Definition refused (get : reader_params F -> fval) (v : pv) : Prop := forall q, ~ stands v (get q).
  Definition last_word (ops : list op) (k : nat) (name : string) (get : reader_params F -> fval) (p : reader_params F) : Prop :=
    (name <> "warn_bad_instances" /\ exists pre v post, (ops = pre ++ Assign k name v :: post)%list /\ stands v (get p) /\
       forall w, In (Assign k name w) post -> refused get w) \/
    (exists pre c post p0, (ops = pre ++ New c :: post)%list /\ List.length (objects F (run F narrow float_of pre)) = k /\
       meant reader_fields ["dataset"; "batch_size"] (cpp_reader F) c p0 /\ get p = get p0 /\
       (name <> "warn_bad_instances" -> forall w, In (Assign k name w) post -> refused get w)).
End Spec.
Arguments fval : clear implicits.
