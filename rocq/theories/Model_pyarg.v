(* The arguments of the Python classes: how calls and assignments in Python become the parameters of the C++ library.
   src/mlio-py/mlio/core/data_reader.cc (dr below) and data_store.cc (ds below); the conversions are those of pybind11 2.4.2
   (third-party/CMakeLists.txt:158-160).  The outcome None is an exception of Python (TypeError, ValueError or AttributeError);
   which one is raised if several arguments are at fault is not modelled. *)
From Verif Require Import Common.
From Verif Require Model_csv Model_inst Model_num Model_image Model_names.
From Coq Require Import List NArith ZArith Bool String.
Import ListNotations.
Local Open Scope Z_scope.
Local Open Scope list_scope.

Notation str := (list byte).
Notation last_handling := Model_inst.last_handling.
Notation beh := Model_csv.beh.
Notation mfl := Model_csv.mfl.
Notation dtype := Model_num.dtype.
Notation frame := Model_image.frame.
Notation compression := Model_names.compression.

Definition obind {A B : Type} (m : option A) (k : A -> option B) : option B := match m with Some a => k a | None => None end.
Notation "'let?' x := m 'in' k" := (obind m (fun x => k)) (at level 200, x pattern, right associativity).

(* The values of the enumerations bound in dr:250-303 and ds:96-101, and of DataType. *)
Inductive enum := E_last (l : last_handling) | E_bad (b : beh) | E_mfl (m : mfl) | E_frame (f : frame) | E_dtype (d : dtype) | E_comp (c : compression).

(* include/mlio/parser.h:33-40 *)
Record parser := mk_parser { nan_values : list str; base : Z }.

(* Python values.  Strings are lists of code points; floating-point numbers are given by the bits of the double; stores, buffers and
   clients by a number; durations by days, seconds and microseconds. *)
Inductive pv :=
| PNone | PBool (b : bool) | PInt (z : Z) | PFloat (d : N) | PStr (cs : list N) | PBytes (bs : str)
| PList (l : list pv) | PSet (l : list pv) | PDict (l : list (pv * pv))
| PEnum (e : enum) | PStore (k : nat) | PBuffer (k : nat) | PClient (k : nat) | PParser (q : parser)
| PDelta (days seconds micros : Z)
| POther.

(* A call: positional arguments and keywords. *)
Record call := mk_call { c_pos : list pv; c_kw : list (string * pv) }.

(* ---- pybind11 ---- *)
Fixpoint assoc (name : string) (kw : list (string * pv)) : option pv :=
  match kw with
  | [] => None
  | (n, v) :: kw => if String.eqb name n then Some v else assoc name kw
  end.
Fixpoint index (name : string) (names : list string) : option nat :=
  match names with
  | [] => None
  | n :: names => if String.eqb name n then Some 0%nat else option_map S (index name names)
  end.
(* pybind11.h, cpp_function::dispatcher: at most as many positional arguments as there are parameters; all keywords are names of further
   parameters. *)
Definition fits (names : list string) (c : call) : bool :=
  Nat.leb (List.length (c_pos c)) (List.length names) &&
  forallb (fun kw => existsb (String.eqb (fst kw)) (skipn (List.length (c_pos c)) names)) (c_kw c).
(* The argument for a parameter: positional, by keyword, or the default. *)
Definition given (names : list string) (c : call) (name : string) : option pv :=
  match index name names with
  | None => None
  | Some i => match nth_error (c_pos c) i with Some v => Some v | None => assoc name (c_kw c) end
  end.
Definition arg {A : Type} (cast : pv -> option A) (names : list string) (c : call) (name : string) (dflt : option pv) : option A :=
  match given names c name with
  | Some v => cast v
  | None => match dflt with Some v => cast v | None => None end
  end.

(* CPython: a string in UTF-8; lone surrogates have no encoding. *)
Definition utf8_char (c : N) : option str :=
  (if c <? 128 then Some [c]
   else if c <? 2048 then Some [192 + c / 64; 128 + c mod 64]
   else if (55296 <=? c) && (c <? 57344) then None
   else if c <? 65536 then Some [224 + c / 4096; 128 + c / 64 mod 64; 128 + c mod 64]
   else if c <? 1114112 then Some [240 + c / 262144; 128 + c / 4096 mod 64; 128 + c / 64 mod 64; 128 + c mod 64]
   else None)%N.
Fixpoint utf8 (cs : list N) : option str :=
  match cs with
  | [] => Some []
  | c :: cs => let? b := utf8_char c in let? bs := utf8 cs in Some (b ++ bs)
  end.

(* The numbers of enumerators: include/mlio/data_reader.h:38-77, csv_reader.h:38-42, image_reader.h:38-41, data_type.h:35-49,
   data_stores/compression.h:31. *)
Definition ordinal (e : enum) : Z :=
  match e with
  | E_last l => match l with Model_inst.last_none => 0 | Model_inst.last_drop => 1 | Model_inst.last_drop_warn => 2 | Model_inst.last_pad => 3 | Model_inst.last_pad_warn => 4 end
  | E_bad b => match b with Model_csv.B_error => 0 | Model_csv.B_skip => 1 | Model_csv.B_skip_warn => 2 | Model_csv.B_pad => 3 | Model_csv.B_pad_warn => 4 end
  | E_mfl m => match m with Model_csv.treat_as_bad => 0 | Model_csv.truncate => 1 | Model_csv.truncate_warn => 2 end
  | E_frame f => match f with Model_image.F_none => 0 | Model_image.F_recordio => 1 end
  | E_dtype d =>
      match d with
      | Model_num.D_size => 0 | Model_num.D_float16 => 1 | Model_num.D_float32 => 2 | Model_num.D_float64 => 3
      | Model_num.D_int t =>
          match t with
          | Model_num.i8 => 4 | Model_num.i16 => 5 | Model_num.i32 => 6 | Model_num.i64 => 7
          | Model_num.u8 => 8 | Model_num.u16 => 9 | Model_num.u32 => 10 | Model_num.u64 => 11
          end
      | Model_num.D_string => 12
      end
  | E_comp c => match c with Model_names.Co_none => 0 | Model_names.Co_infer => 1 | Model_names.Co_gzip => 2 | Model_names.Co_bzip2 => 3 | Model_names.Co_zip => 4 end
  end.
(* cast.h: the casters. Integers: no floating-point numbers; True and False are 1 and 0; enumerators have __int__; out of range is
   refused. *)
Definition as_int (v : pv) : option Z :=
  match v with PInt z => Some z | PBool b => Some (if b then 1 else 0) | PEnum e => Some (ordinal e) | _ => None end.
Definition c_size (v : pv) : option N := let? z := as_int v in if (0 <=? z) && (z <? 2 ^ 64) then Some (Z.to_N z) else None.
Definition c_int (v : pv) : option Z := let? z := as_int v in if (- 2 ^ 31 <=? z) && (z <? 2 ^ 31) then Some z else None.
(* Booleans: None is false, numbers and durations by their truth value; objects without the slot nb_bool are refused, also str, list,
   set and dict. *)
Definition c_bool (v : pv) : option bool :=
  match v with
  | PBool b => Some b
  | PNone => Some false
  | PInt z => Some (negb (z =? 0))
  | PFloat d => Some (negb (N.eqb (d mod 2 ^ 63) 0))
  | PDelta d s us => Some (negb ((d =? 0) && (s =? 0) && (us =? 0)))
  | _ => None
  end.
Definition c_str (v : pv) : option str := match v with PStr cs => utf8 cs | PBytes bs => Some bs | _ => None end.
Definition c_opt {A : Type} (cast : pv -> option A) (v : pv) : option (option A) :=
  match v with PNone => Some None | _ => option_map Some (cast v) end.
Fixpoint c_all {A : Type} (cast : pv -> option A) (l : list pv) : option (list A) :=
  match l with
  | [] => Some []
  | v :: l => let? a := cast v in let? r := c_all cast l in Some (a :: r)
  end.
Definition c_list {A : Type} (cast : pv -> option A) (v : pv) : option (list A) := match v with PList l => c_all cast l | _ => None end.
Definition c_set {A : Type} (cast : pv -> option A) (v : pv) : option (list A) := match v with PSet l => c_all cast l | _ => None end.
Fixpoint c_pairs {A B : Type} (ca : pv -> option A) (cb : pv -> option B) (l : list (pv * pv)) : option (list (A * B)) :=
  match l with
  | [] => Some []
  | (x, y) :: l => let? a := ca x in let? b := cb y in let? r := c_pairs ca cb l in Some ((a, b) :: r)
  end.
Definition c_map {A B : Type} (ca : pv -> option A) (cb : pv -> option B) (v : pv) : option (list (A * B)) :=
  match v with PDict l => c_pairs ca cb l | _ => None end.
Definition c_last (v : pv) : option last_handling := match v with PEnum (E_last l) => Some l | _ => None end.
Definition c_bad (v : pv) : option beh := match v with PEnum (E_bad b) => Some b | _ => None end.
Definition c_mfl (v : pv) : option mfl := match v with PEnum (E_mfl m) => Some m | _ => None end.
Definition c_frame (v : pv) : option frame := match v with PEnum (E_frame f) => Some f | _ => None end.
Definition c_dtype (v : pv) : option dtype := match v with PEnum (E_dtype d) => Some d | _ => None end.
Definition c_comp (v : pv) : option compression := match v with PEnum (E_comp c) => Some c | _ => None end.
Definition c_parser (v : pv) : option parser := match v with PParser q => Some q | _ => None end.
(* An optional parser, and dr:195-197: without one, that of C++. *)
Definition c_oparser (v : pv) : option parser :=
  match v with PNone => Some (mk_parser [] 10) | _ => c_parser v end.
(* A pointer to a class: None is the null pointer. *)
Definition c_store (v : pv) : option (option nat) := match v with PStore k => Some (Some k) | PNone => Some None | _ => None end.
Definition c_client (v : pv) : option (option nat) := match v with PClient k => Some (Some k) | PNone => Some None | _ => None end.
Definition c_buffer (v : pv) : option nat := match v with PBuffer k => Some k | _ => None end.
(* Characters: one byte, or two bytes in UTF-8 that stand for a code point below 256.  (In the code: v0 & 0xE0 is 0xC0 and v0 & 0xFC is
   0xC0, and the value is ((v0 & 3) << 6) + (v1 & 0x3F).) *)
Definition c_char (v : pv) : option byte :=
  let? s := c_str v in
  match s with
  | [b] => Some b
  | [b0; b1] => if (192 <=? b0)%N && (b0 <? 196)%N then Some ((b0 - 192) * 64 + b1 mod 64)%N else None
  | _ => None
  end.

Section Arguments.
  (* The conversion of a double (by its bits) or an integer to float. *)
  Context (F : Type) (narrow : N -> F) (float_of : Z -> option F).
  Definition c_float (v : pv) : option F :=
    match v with PFloat d => Some (narrow d) | PInt z => float_of z | PBool b => float_of (if b then 1 else 0) | _ => None end.

  (* chrono.h: a timedelta, or a number of seconds as float (not modelled), to whole seconds (duration_cast cuts off). *)
  Definition c_seconds (v : pv) : option Z :=
    match v with PDelta d s us => Some (Z.quot ((d * 86400 + s) * 1000000 + us) 1000000) | _ => None end.

  (* ---- DataReaderParams ---- *)
  (* include/mlio/data_reader.h:81-136 *)
  Record reader_params := mk_reader {
    dataset : list (option nat); batch_size : N; num_prefetched_examples : N; num_parallel_reads : N;
    last_example_handling : last_handling; bad_example_handling : beh; warn_bad_instances : bool;
    num_instances_to_skip : N; num_instances_to_read : option N; shard_index : N; num_shards : N;
    sample_ratio : option F; shuffle_instances : bool; shuffle_window : N; shuffle_seed : option N; reshuffle_each_epoch : bool }.
  Definition cpp_reader : reader_params :=
    mk_reader [] 0 0 0 Model_inst.last_none Model_csv.B_error false 0 None 0 0 None false 0 None true.

  (* dr:316-332, the names *)
  Definition reader_names : list string :=
    ["dataset"; "batch_size"; "num_prefetched_examples"; "num_parallel_reads"; "last_example_handling"; "bad_example_handling";
     "warn_bad_instances"; "num_instances_to_skip"; "num_instances_to_read"; "shard_index"; "num_shards"; "sample_ratio";
     "shuffle_instances"; "shuffle_window"; "shuffle_seed"; "reshuffle_each_epoch"]%string.
  (* dr:316-332, the defaults, and dr:112-149 make_data_reader_params *)
  Definition new_reader (c : call) : option reader_params :=
    if fits reader_names c then
      let? dataset := arg (c_list c_store) reader_names c "dataset" None in
      let? batch_size := arg c_size reader_names c "batch_size" None in
      let? num_prefetched_examples := arg c_size reader_names c "num_prefetched_examples" (Some (PInt 0)) in
      let? num_parallel_reads := arg c_size reader_names c "num_parallel_reads" (Some (PInt 0)) in
      let? last_example_handling := arg c_last reader_names c "last_example_handling" (Some (PEnum (E_last Model_inst.last_none))) in
      let? bad_example_handling := arg c_bad reader_names c "bad_example_handling" (Some (PEnum (E_bad Model_csv.B_error))) in
      let? warn_bad_instances := arg c_bool reader_names c "warn_bad_instances" (Some (PBool false)) in
      let? num_instances_to_skip := arg c_size reader_names c "num_instances_to_skip" (Some (PInt 0)) in
      let? num_instances_to_read := arg (c_opt c_size) reader_names c "num_instances_to_read" (Some PNone) in
      let? shard_index := arg c_size reader_names c "shard_index" (Some (PInt 0)) in
      let? num_shards := arg c_size reader_names c "num_shards" (Some (PInt 0)) in
      let? sample_ratio := arg (c_opt c_float) reader_names c "sample_ratio" (Some PNone) in
      let? shuffle_instances := arg c_bool reader_names c "shuffle_instances" (Some (PBool false)) in
      let? shuffle_window := arg c_size reader_names c "shuffle_window" (Some (PInt 0)) in
      let? shuffle_seed := arg (c_opt c_size) reader_names c "shuffle_seed" (Some PNone) in
      let? reshuffle_each_epoch := arg c_bool reader_names c "reshuffle_each_epoch" (Some (PBool true)) in
      Some (mk_reader dataset batch_size num_prefetched_examples num_parallel_reads last_example_handling bad_example_handling
        warn_bad_instances num_instances_to_skip num_instances_to_read shard_index num_shards sample_ratio shuffle_instances
        shuffle_window shuffle_seed reshuffle_each_epoch)
    else None.

  (* dr:390-404: params.name = v *)
  Definition assign_reader (name : string) (v : pv) (p : reader_params) : option reader_params :=
    let 'mk_reader d b np pr la ba wa sk re si ns sr sh sw se rs := p in
    if String.eqb name "dataset" then let? x := c_list c_store v in Some (mk_reader x b np pr la ba wa sk re si ns sr sh sw se rs)
    else if String.eqb name "batch_size" then let? x := c_size v in Some (mk_reader d x np pr la ba wa sk re si ns sr sh sw se rs)
    else if String.eqb name "num_prefetched_examples" then let? x := c_size v in Some (mk_reader d b x pr la ba wa sk re si ns sr sh sw se rs)
    else if String.eqb name "num_parallel_reads" then let? x := c_size v in Some (mk_reader d b np x la ba wa sk re si ns sr sh sw se rs)
    else if String.eqb name "last_example_handling" then let? x := c_last v in Some (mk_reader d b np pr x ba wa sk re si ns sr sh sw se rs)
    else if String.eqb name "bad_example_handling" then let? x := c_bad v in Some (mk_reader d b np pr la x wa sk re si ns sr sh sw se rs)
    else if String.eqb name "num_instances_to_skip" then let? x := c_size v in Some (mk_reader d b np pr la ba wa x re si ns sr sh sw se rs)
    else if String.eqb name "num_instances_to_read" then let? x := c_opt c_size v in Some (mk_reader d b np pr la ba wa sk x si ns sr sh sw se rs)
    else if String.eqb name "shard_index" then let? x := c_size v in Some (mk_reader d b np pr la ba wa sk re x ns sr sh sw se rs)
    else if String.eqb name "num_shards" then let? x := c_size v in Some (mk_reader d b np pr la ba wa sk re si x sr sh sw se rs)
    else if String.eqb name "sample_ratio" then let? x := c_opt c_float v in Some (mk_reader d b np pr la ba wa sk re si ns x sh sw se rs)
    else if String.eqb name "shuffle_instances" then let? x := c_bool v in Some (mk_reader d b np pr la ba wa sk re si ns sr x sw se rs)
    else if String.eqb name "shuffle_window" then let? x := c_size v in Some (mk_reader d b np pr la ba wa sk re si ns sr sh x se rs)
    else if String.eqb name "shuffle_seed" then let? x := c_opt c_size v in Some (mk_reader d b np pr la ba wa sk re si ns sr sh sw x rs)
    else if String.eqb name "reshuffle_each_epoch" then let? x := c_bool v in Some (mk_reader d b np pr la ba wa sk re si ns sr sh sw se x)
    else None.

  (* ---- CsvParams ---- *)
  (* include/mlio/csv_reader.h:48-118; the encoding by its name *)
  Record csv_params := mk_csv {
    header_row_index : option N; has_single_header : bool; dedupe_column_names : bool; column_names : list str; name_prefix : str;
    use_columns : list str; use_columns_by_index : list N; default_data_type : option dtype; column_types : list (str * dtype);
    column_types_by_index : list (N * dtype); delimiter : byte; quote_char : byte; comment_char : option byte;
    allow_quoted_new_lines : bool; skip_blank_lines : bool; encoding : option str; max_field_length : option N;
    max_field_length_handling : mfl; max_line_length : option N; parser_options : parser }.
  Definition cpp_csv : csv_params :=
    mk_csv (Some 0%N) false true [] [] [] [] None [] [] 44 34 None false true None None Model_csv.treat_as_bad None (mk_parser [] 10).

  (* dr:409-428 *)
  Definition csv_names : list string :=
    ["column_names"; "name_prefix"; "use_columns"; "use_columns_by_index"; "default_data_type"; "column_types"; "column_types_by_index";
     "header_row_index"; "has_single_header"; "dedupe_column_names"; "delimiter"; "quote_char"; "comment_char"; "allow_quoted_new_lines";
     "skip_blank_lines"; "encoding"; "max_field_length"; "max_field_length_handling"; "max_line_length"; "parser_options"]%string.
  (* dr:409-428, and dr:151-200 make_csv_reader_params *)
  Definition new_csv (c : call) : option csv_params :=
    if fits csv_names c then
      let? column_names := arg (c_list c_str) csv_names c "column_names" (Some (PList [])) in
      let? name_prefix := arg c_str csv_names c "name_prefix" (Some (PStr [])) in
      let? use_columns := arg (c_set c_str) csv_names c "use_columns" (Some (PSet [])) in
      let? use_columns_by_index := arg (c_set c_size) csv_names c "use_columns_by_index" (Some (PSet [])) in
      let? default_data_type := arg (c_opt c_dtype) csv_names c "default_data_type" (Some PNone) in
      let? column_types := arg (c_map c_str c_dtype) csv_names c "column_types" (Some (PDict [])) in
      let? column_types_by_index := arg (c_map c_size c_dtype) csv_names c "column_types_by_index" (Some (PDict [])) in
      let? header_row_index := arg (c_opt c_size) csv_names c "header_row_index" (Some (PInt 0)) in
      let? has_single_header := arg c_bool csv_names c "has_single_header" (Some (PBool false)) in
      let? dedupe_column_names := arg c_bool csv_names c "dedupe_column_names" (Some (PBool true)) in
      let? delimiter := arg c_char csv_names c "delimiter" (Some (PStr [44%N])) in
      let? quote_char := arg c_char csv_names c "quote_char" (Some (PStr [34%N])) in
      let? comment_char := arg (c_opt c_char) csv_names c "comment_char" (Some PNone) in
      let? allow_quoted_new_lines := arg c_bool csv_names c "allow_quoted_new_lines" (Some (PBool false)) in
      let? skip_blank_lines := arg c_bool csv_names c "skip_blank_lines" (Some (PBool true)) in
      let? encoding := arg (c_opt c_str) csv_names c "encoding" (Some PNone) in
      let? max_field_length := arg (c_opt c_size) csv_names c "max_field_length" (Some PNone) in
      let? max_field_length_handling := arg c_mfl csv_names c "max_field_length_handling" (Some (PEnum (E_mfl Model_csv.treat_as_bad))) in
      let? max_line_length := arg (c_opt c_size) csv_names c "max_line_length" (Some PNone) in
      let? parser_options := arg c_oparser csv_names c "parser_options" (Some PNone) in
      Some (mk_csv header_row_index has_single_header dedupe_column_names column_names name_prefix use_columns use_columns_by_index
        default_data_type column_types column_types_by_index delimiter quote_char comment_char allow_quoted_new_lines skip_blank_lines
        encoding max_field_length max_field_length_handling max_line_length
        parser_options)
    else None.

  (* dr:520-539.  The type of encoding, Text_encoding, is not known to Python: only None can be assigned. *)
  Definition assign_csv (name : string) (v : pv) (p : csv_params) : option csv_params :=
    let 'mk_csv hr sh de cn np uc ui dd ct ci dl qu co qn bl en ml mh ll po := p in
    if String.eqb name "column_names" then let? x := c_list c_str v in Some (mk_csv hr sh de x np uc ui dd ct ci dl qu co qn bl en ml mh ll po)
    else if String.eqb name "name_prefix" then let? x := c_str v in Some (mk_csv hr sh de cn x uc ui dd ct ci dl qu co qn bl en ml mh ll po)
    else if String.eqb name "use_columns" then let? x := c_set c_str v in Some (mk_csv hr sh de cn np x ui dd ct ci dl qu co qn bl en ml mh ll po)
    else if String.eqb name "use_columns_by_index" then let? x := c_set c_size v in Some (mk_csv hr sh de cn np uc x dd ct ci dl qu co qn bl en ml mh ll po)
    else if String.eqb name "default_data_type" then let? x := c_opt c_dtype v in Some (mk_csv hr sh de cn np uc ui x ct ci dl qu co qn bl en ml mh ll po)
    else if String.eqb name "column_types" then let? x := c_map c_str c_dtype v in Some (mk_csv hr sh de cn np uc ui dd x ci dl qu co qn bl en ml mh ll po)
    else if String.eqb name "column_types_by_index" then let? x := c_map c_size c_dtype v in Some (mk_csv hr sh de cn np uc ui dd ct x dl qu co qn bl en ml mh ll po)
    else if String.eqb name "header_row_index" then let? x := c_opt c_size v in Some (mk_csv x sh de cn np uc ui dd ct ci dl qu co qn bl en ml mh ll po)
    else if String.eqb name "has_single_header" then let? x := c_bool v in Some (mk_csv hr x de cn np uc ui dd ct ci dl qu co qn bl en ml mh ll po)
    else if String.eqb name "dedupe_column_names" then let? x := c_bool v in Some (mk_csv hr sh x cn np uc ui dd ct ci dl qu co qn bl en ml mh ll po)
    else if String.eqb name "delimiter" then let? x := c_char v in Some (mk_csv hr sh de cn np uc ui dd ct ci x qu co qn bl en ml mh ll po)
    else if String.eqb name "quote_char" then let? x := c_char v in Some (mk_csv hr sh de cn np uc ui dd ct ci dl x co qn bl en ml mh ll po)
    else if String.eqb name "comment_char" then let? x := c_opt c_char v in Some (mk_csv hr sh de cn np uc ui dd ct ci dl qu x qn bl en ml mh ll po)
    else if String.eqb name "allow_quoted_new_lines" then let? x := c_bool v in Some (mk_csv hr sh de cn np uc ui dd ct ci dl qu co x bl en ml mh ll po)
    else if String.eqb name "skip_blank_lines" then let? x := c_bool v in Some (mk_csv hr sh de cn np uc ui dd ct ci dl qu co qn x en ml mh ll po)
    else if String.eqb name "encoding" then let? x := c_opt (fun _ => None) v in Some (mk_csv hr sh de cn np uc ui dd ct ci dl qu co qn bl x ml mh ll po)
    else if String.eqb name "max_field_length" then let? x := c_opt c_size v in Some (mk_csv hr sh de cn np uc ui dd ct ci dl qu co qn bl en x mh ll po)
    else if String.eqb name "max_field_length_handling" then let? x := c_mfl v in Some (mk_csv hr sh de cn np uc ui dd ct ci dl qu co qn bl en ml x ll po)
    else if String.eqb name "max_line_length" then let? x := c_opt c_size v in Some (mk_csv hr sh de cn np uc ui dd ct ci dl qu co qn bl en ml mh x po)
    else if String.eqb name "parser_options" then let? x := c_parser v in Some (mk_csv hr sh de cn np uc ui dd ct ci dl qu co qn bl en ml mh ll x)
    else None.

  (* ---- ImageReaderParams and ParserParams ---- *)
  (* include/mlio/image_reader.h:43-54 *)
  Record image_params := mk_image { image_frame : frame; resize : option N; image_dimensions : list N; to_rgb : bool }.
  Definition cpp_image : image_params := mk_image Model_image.F_none None [] false.
  Definition image_names : list string := ["image_frame"; "resize"; "image_dimensions"; "to_rgb"]%string.
  (* dr:543-547 and dr:202-213 make_image_reader_params.  The default of image_dimensions is None, which is no list. *)
  Definition new_image (c : call) : option image_params :=
    if fits image_names c then
      let? image_frame := arg c_frame image_names c "image_frame" (Some (PEnum (E_frame Model_image.F_none))) in
      let? resize := arg (c_opt c_size) image_names c "resize" (Some PNone) in
      let? image_dimensions := arg (c_list c_size) image_names c "image_dimensions" (Some PNone) in
      let? to_rgb := arg c_bool image_names c "to_rgb" (Some (PBool false)) in
      Some (mk_image image_frame resize image_dimensions to_rgb)
    else None.
  (* dr:563-566 *)
  Definition assign_image (name : string) (v : pv) (p : image_params) : option image_params :=
    let 'mk_image f r d t := p in
    if String.eqb name "image_frame" then let? x := c_frame v in Some (mk_image x r d t)
    else if String.eqb name "resize" then let? x := c_opt c_size v in Some (mk_image f x d t)
    else if String.eqb name "image_dimensions" then let? x := c_list c_size v in Some (mk_image f r x t)
    else if String.eqb name "to_rgb" then let? x := c_bool v in Some (mk_image f r d x)
    else None.

  Definition cpp_parser : parser := mk_parser [] 10.
  Definition parser_names : list string := ["nan_values"; "number_base"]%string.
  (* dr:569-571 and dr:215-223 make_parser_options *)
  Definition new_parser (c : call) : option parser :=
    if fits parser_names c then
      let? nan_values := arg (c_set c_str) parser_names c "nan_values" (Some (PSet [])) in
      let? base := arg c_int parser_names c "number_base" (Some (PInt 10)) in
      Some (mk_parser nan_values base)
    else None.
  (* dr:586-587 *)
  Definition assign_parser (name : string) (v : pv) (p : parser) : option parser :=
    let 'mk_parser n b := p in
    if String.eqb name "nan_values" then let? x := c_set c_str v in Some (mk_parser x b)
    else if String.eqb name "number_base" then let? x := c_int v in Some (mk_parser n x)
    else None.

  (* ---- Data stores ---- *)
  (* ds:122-127; include/mlio/data_stores/file.h *)
  Record file := mk_file { f_path : str; f_map : bool; f_comp : compression }.
  Definition file_names : list string := ["path"; "memory_map"; "compression"]%string.
  Definition new_file (c : call) : option file :=
    if fits file_names c then
      let? path := arg c_str file_names c "path" None in
      let? map := arg c_bool file_names c "memory_map" (Some (PBool true)) in
      let? comp := arg c_comp file_names c "compression" (Some (PEnum (E_comp Model_names.Co_infer))) in
      Some (mk_file path map comp)
    else None.
  (* ds:142-146, 67-70 *)
  Record memory := mk_memory { m_buf : nat; m_comp : compression }.
  Definition memory_names : list string := ["buf"; "compression"]%string.
  Definition new_memory (c : call) : option memory :=
    if fits memory_names c then
      let? buf := arg c_buffer memory_names c "buf" None in
      let? comp := arg c_comp memory_names c "compression" (Some (PEnum (E_comp Model_names.Co_none))) in
      Some (mk_memory buf comp)
    else None.
  (* ds:156-162 *)
  Record object := mk_object { o_client : option nat; o_uri : str; o_version : str; o_comp : compression }.
  Definition object_names : list string := ["client"; "uri"; "version_id"; "compression"]%string.
  Definition new_object (c : call) : option object :=
    if fits object_names c then
      let? client := arg c_client object_names c "client" None in
      let? uri := arg c_str object_names c "uri" None in
      let? version := arg c_str object_names c "version_id" (Some (PStr [])) in
      let? comp := arg c_comp object_names c "compression" (Some (PEnum (E_comp Model_names.Co_infer))) in
      Some (mk_object client uri version comp)
    else None.
  (* ds:176-182; the default timeout: include/mlio/streams/sagemaker_pipe_input_stream.h:88 *)
  Record pipe := mk_pipe { q_path : str; q_timeout : Z; q_fifo : option N; q_comp : compression }.
  Definition pipe_names : list string := ["path"; "timeout"; "fifo_id"; "compression"]%string.
  Definition new_pipe (c : call) : option pipe :=
    if fits pipe_names c then
      let? path := arg c_str pipe_names c "path" None in
      let? timeout := arg c_seconds pipe_names c "timeout" (Some (PDelta 0 60 0)) in
      let? fifo := arg (c_opt c_size) pipe_names c "fifo_id" (Some PNone) in
      let? comp := arg c_comp pipe_names c "compression" (Some (PEnum (E_comp Model_names.Co_none))) in
      Some (mk_pipe path timeout fifo comp)
    else None.

  (* ---- Programs ---- *)
  (* Objects of DataReaderParams and the readers made from them.  dr:225-249: a reader gets a copy. *)
  Record program := mk_program { objects : list reader_params; readers : list reader_params }.
  Inductive op :=
  | New (c : call)                              (* DataReaderParams(...) *)
  | Assign (k : nat) (name : string) (v : pv)   (* params.name = v *)
  | Append (k : nat) (name : string) (v : pv)   (* params.name.append(v): a list that was made for the answer *)
  | Make (k : nat).                             (* TextLineReader(params) and the like *)
  Fixpoint replace {A : Type} (k : nat) (a : A) (l : list A) : list A :=
    match l, k with
    | [], _ => []
    | _ :: l, O => a :: l
    | b :: l, S k => b :: replace k a l
    end.
  (* An exception leaves everything as it was. *)
  Definition step (s : program) (o : op) : program :=
    match o with
    | New c => match new_reader c with Some p => mk_program (objects s ++ [p]) (readers s) | None => s end
    | Assign k name v =>
        match nth_error (objects s) k with
        | Some p => match assign_reader name v p with Some p' => mk_program (replace k p' (objects s)) (readers s) | None => s end
        | None => s
        end
    | Append _ _ _ => s
    | Make k => match nth_error (objects s) k with Some p => mk_program (objects s) (readers s ++ [p]) | None => s end
    end.
  Definition run (ops : list op) : program := fold_left step ops (mk_program [] []).
End Arguments.
