(* Model of the CSV reader: header handling, schema inference and decoding of batches.
   /repo/src/mlio/csv_reader.cc, include/mlio/csv_reader.h. *)
From Verif Require Import Common Model_csvtok Model_num.

(* A string (a column name or the text of a cell). *)
Definition str := list byte.
Definition str_eqb (a b : str) : bool := if list_eq_dec N.eq_dec a b then true else false.

(* fmt::to_string of an unsigned number: its decimal digits. *)
Fixpoint dec_go (fuel n : nat) (acc : str) : str :=
  let d := N.of_nat (48 + n mod 10) in
  match fuel with
  | O => d :: acc
  | S fuel' => if n <? 10 then d :: acc else dec_go fuel' (n / 10) (d :: acc)
  end.
Definition to_string (n : nat) : str := dec_go n n [].

(* csv_reader.h:38-42 Max_field_length_handling; include/mlio/data_reader.h:65-77
   Bad_example_handling.  Values outside the enumerations are not modelled. *)
Inductive mfl := treat_as_bad | truncate | truncate_warn.
Inductive beh := B_error | B_skip | B_skip_warn | B_pad | B_pad_warn.

Section Csv.
  Context (F : Type) (atof atod : list byte -> option F) (is_inf : F -> bool) (qnan fzero : F).

  (* csv_reader.h:48-118 Csv_params and the relevant Data_reader_params.  The sets and maps
     are lists (of pairs); a map has each key once. *)
  Record csv_params := mk_params {
    p_delim : byte;
    p_quote : byte;
    p_maxlen : option nat;
    p_mfl : mfl;
    p_nans : list str;
    p_base : Z;
    p_bad : beh;
    p_warn : bool;                       (* warn_bad_instances, and the logger is enabled *)
    p_header : option nat;               (* header_row_index *)
    p_single : bool;                     (* has_single_header *)
    p_dedupe : bool;
    p_names : list str;                  (* column_names *)
    p_prefix : str;                      (* name_prefix *)
    p_use_names : list str;
    p_use_index : list nat;
    p_default : option dtype;
    p_types : list (str * dtype);
    p_types_index : list (nat * dtype);
    (* Not in the code: [true] if forming references with a past-the-end iterator is
       harmless, as with the usual compilers; [false] if it is undefined, as the C++ standard says. *)
    p_lenient : bool }.
  Context (p : csv_params).

  Definition val := Model_num.val F.
  Definition cell (dt : dtype) (s : str) : res (presult val) :=
    parse_cell F atof atod is_inf qnan dt (p_nans p) (p_base p) s.

  (* ------------------------------------------------------------------ *)
  (* Decoding                                                            *)
  (* ------------------------------------------------------------------ *)

  (* One element of the zipped column vectors, csv_reader.cc:504-527 make_column_iterators.
     The parser of a column that is not ignored is the one of its data type (cc:362-363). *)
  Record col := mk_col { c_type : dtype; c_ignore : bool }.

  (* What decoding of a row ends with: true, false, an exception, undefined behaviour. *)
  Inductive verdict := V_good | V_bad | V_throw (e : exn) | V_ub | V_fuel.

  Definition is_error : bool := match p_bad p with B_error => true | _ => false end.

  (* csv_reader.cc:666-676 and 697-719: a bad cell *)
  Definition bad_verdict : verdict := if is_error then V_throw Invalid_instance else V_bad.

  (* csv_reader.cc:722-754: after the loop.  [cols] are the columns from col_pos on. *)
  Definition row_end (cols : list col) (t : tok) : verdict :=
    match cols, t_eof t with
    | [], true => V_good
    | _, _ =>
        if p_warn p || is_error then
          (* cc:730 dereferences col_pos *)
          if match cols with [] => negb (p_lenient p) | _ => false end then V_ub
          else
            (* cc:731-733 counts the remaining fields *)
            match tok_all (p_delim p) (p_quote p) (p_maxlen p) (length (t_text t) + 2) t with
            | Ok _ => bad_verdict
            | Throw e => V_throw e
            | UB => V_ub
            | Fuel => V_fuel
            end
        else V_bad
    end.

  (* csv_reader.cc:635-720: the loop over the fields; every turn but the last one takes one
     column.  [k] is the index of the next tensor.  The result is the list of the values
     stored, with the index of the tensor, and the verdict. *)
  Fixpoint row_loop (cols : list col) (k : nat) (t : tok) : list (nat * val) * verdict :=
    match tok_next (p_delim p) (p_quote p) (p_maxlen p) t with
    | Ok (more, t') =>
        if more then
          match cols with
          | [] => ([], row_end [] t')
          | c :: rest =>
              if c_ignore c then row_loop rest k t'
              else if t_truncated t' && match p_mfl p with treat_as_bad => true | _ => false end
              then ([], bad_verdict)
              else
                match cell (c_type c) (t_value t') with
                | Ok (P_ok v) => let (w, o) := row_loop rest (S k) t' in ((k, v) :: w, o)
                | Ok _ => ([], bad_verdict)
                | Throw e => ([], V_throw e)
                | UB => ([], V_ub)
                | Fuel => ([], V_fuel)
                end
          end
        else ([], row_end cols t')
    | Throw e => ([], V_throw e)
    | UB => ([], V_ub)
    | Fuel => ([], V_fuel)
    end.

  (* csv_reader.cc:626-755 Decoder::decode.  The tokenizer is reused from row to row; reset()
     (csv_record_tokenizer.cc:144-153) and next() leave nothing of the previous row. *)
  Definition row_run (cols : list col) (text : str) : list (nat * val) * verdict :=
    row_loop cols 0 (tok_new text).

  (* csv_reader.cc:472-502 make_tensors: one array of [size] value-initialised elements for
     each column that is not ignored. *)
  Definition zero_of (dt : dtype) : val :=
    match dt with
    | D_float16 | D_float32 | D_float64 => V_float F fzero
    | D_string => V_string F []
    | _ => V_int F 0
    end.
  Definition tensors := list (list val).
  Definition make_tensors (cols : list col) (size : nat) : tensors :=
    map (fun c => repeat (zero_of (c_type c)) size) (filter (fun c => negb (c_ignore c)) cols).

  Fixpoint set_nth {A : Type} (l : list A) (i : nat) (a : A) : list A :=
    match l, i with
    | [], _ => []
    | _ :: r, O => a :: r
    | x :: r, S i' => x :: set_nth r i' a
    end.
  (* parser.cc:30-34: the assignment to element [i] of tensor [k]; not checked. *)
  Definition store (T : tensors) (k i : nat) (v : val) : res tensors :=
    match nth_error T k with
    | Some a => if i <? length a then Ok (set_nth T k (set_nth a i v)) else UB
    | None => UB
    end.
  Fixpoint store_all (T : tensors) (ws : list (nat * nat * val)) : res tensors :=
    match ws with
    | [] => Ok T
    | (k, i, v) :: ws' => let* T' := store T k i v in store_all T' ws'
    end.
  Definition at_row (i : nat) (ws : list (nat * val)) : list (nat * nat * val) :=
    map (fun kv => (fst kv, i, snd kv)) ws.

  Definition is_skip : bool := match p_bad p with B_skip | B_skip_warn => true | _ => false end.
  Definition is_pad : bool := match p_bad p with B_pad | B_pad_warn => true | _ => false end.

  (* csv_reader.cc:529-558 decode_ser.  [i] is row_idx. *)
  Fixpoint decode_ser (cols : list col) (rows : list str) (i : nat) (T : tensors)
    : res (option (nat * tensors)) :=
    match rows with
    | [] => Ok (Some (i, T))
    | r :: rest =>
        let (ws, v) := row_run cols r in
        let* T' := store_all T (at_row i ws) in
        match v with
        | V_good => decode_ser cols rest (S i) T'
        | V_bad =>
            if is_skip then Ok None
            else if is_pad then decode_ser cols rest i T'
            else Throw Invalid_argument
        | V_throw e => Throw e
        | V_ub => UB
        | V_fuel => Fuel
        end
    end.

  (* csv_reader.cc:578-607: the worker of decode_prl on a sub-range; its assignments in
     program order, and how it ends (V_bad: skip_example has been set). *)
  Fixpoint worker (cols : list col) (rows : list (nat * str)) : list (nat * nat * val) * verdict :=
    match rows with
    | [] => ([], V_good)
    | (i, r) :: rest =>
        let (ws, v) := row_run cols r in
        match v with
        | V_good => let (ws', v') := worker cols rest in (at_row i ws ++ ws', v')
        | V_bad => (at_row i ws, if is_skip then V_bad else V_throw Invalid_argument)
        | _ => (at_row i ws, v)
        end
    end.

  (* Interleavings of several sequences. *)
  Inductive Merge {A : Type} : list (list A) -> list A -> Prop :=
  | M_done ls : Forall (fun l => l = []) ls -> Merge ls []
  | M_step pre x l post out : Merge (pre ++ l :: post) out -> Merge (pre ++ (x :: l) :: post) (x :: out).

  (* csv_reader.cc:560-616 decode_prl.  tbb::parallel_for divides the rows into consecutive
     sub-ranges in any way and runs the workers concurrently.  If some of them throw, one of
     the exceptions is thrown. *)
  Definition numbered (rows : list str) : list (nat * str) := combine (seq 0 (length rows)) rows.
  Inductive decode_prl (cols : list col) (rows : list str) (T : tensors)
    : res (option (nat * tensors)) -> Prop :=
  | prl_done parts out :
      concat parts = numbered rows ->
      Forall (fun q => snd (worker cols q) = V_good) parts ->
      Merge (map (fun q => fst (worker cols q)) parts) out ->
      decode_prl cols rows T (let* T' := store_all T out in Ok (Some (length rows, T')))
  | prl_skip parts :
      concat parts = numbered rows ->
      Forall (fun q => snd (worker cols q) = V_good \/ snd (worker cols q) = V_bad) parts ->
      Exists (fun q => snd (worker cols q) = V_bad) parts ->
      decode_prl cols rows T (Ok None)
  | prl_throw parts e :
      concat parts = numbered rows ->
      Exists (fun q => snd (worker cols q) = V_throw e) parts ->
      decode_prl cols rows T (Throw e)
  | prl_ub parts :
      concat parts = numbered rows ->
      Exists (fun q => snd (worker cols q) = V_ub) parts ->
      decode_prl cols rows T UB.

  (* An example: its tensors and its padding. *)
  Definition finish_example (size : nat) (r : res (option (nat * tensors)))
    : res (option (tensors * nat)) :=
    let* o := r in
    match o with
    | None => Ok None
    | Some (n, T) => Ok (Some (T, size - n))
    end.

  (* csv_reader.cc:426-436 *)
  Definition runs_serial (cols : list col) (rows : list str) : bool :=
    is_pad || (N.of_nat (length cols) * N.of_nat (length rows) <? 10000000)%N.

  (* csv_reader.cc:416-470 decode: the possible outcomes for a batch. *)
  Definition decode (cols : list col) (rows : list str) (size : nat)
      (out : res (option (tensors * nat))) : Prop :=
    let T := make_tensors cols size in
    if runs_serial cols rows
    then out = finish_example size (decode_ser cols rows 0 T)
    else exists r, decode_prl cols rows T r /\ out = finish_example size r.

  (* ------------------------------------------------------------------ *)
  (* Schema                                                              *)
  (* ------------------------------------------------------------------ *)

  (* csv_reader.h:187-191: the members of the reader.  The parsers are determined by the types. *)
  Record reader := mk_reader {
    r_names : list str;
    r_types : list dtype;
    r_ignores : list bool;
    r_should_read_header : bool }.

  (* csv_reader.cc:82-86 *)
  Definition new_reader : reader := mk_reader (p_names p) [] [] true.

  Definition attr : Type := str * dtype.

  (* csv_reader.cc:209-218: the fields that next() delivers before it ends or throws. *)
  Fixpoint tok_run (fuel : nat) (t : tok) : list str * res unit :=
    match fuel with
    | O => ([], Fuel)
    | S fuel' =>
        match tok_next (p_delim p) (p_quote p) (p_maxlen p) t with
        | Ok (true, t') => let (fs, r) := tok_run fuel' t' in (t_value t' :: fs, r)
        | Ok (false, _) => ([], Ok tt)
        | Throw e => ([], Throw e)
        | UB => ([], UB)
        | Fuel => ([], Fuel)
        end
    end.

  (* infer_data_type always returns (Proof_num.infer_parses); the other outcomes are there for totality. *)
  Definition cell_type (s : str) : dtype :=
    match p_default p with
    | Some d => d
    | None => match infer_data_type F atod is_inf qnan s with Ok d => d | _ => D_string end
    end.
  Definition default_type : dtype := match p_default p with Some d => d | None => D_string end.

  (* csv_reader.cc:188-226 infer_column_types: the types appended, and how it ends. *)
  Definition infer_column_types (r : reader) (inst : option str) : list dtype * res unit :=
    match inst with
    | None => (map (fun _ => default_type) (r_names r), Ok tt)
    | Some text =>
        let (fs, o) := tok_run (length text + 2) (tok_new text) in
        (map cell_type fs, match o with Throw Corrupt_record => Throw Schema_err | _ => o end)
    end.

  (* csv_reader.cc:228-254 set_or_validate_column_names *)
  Definition set_or_validate (names : list str) (types : list dtype) (inst : option str)
    : list str * res unit :=
    match names with
    | [] => (map (fun i => p_prefix p ++ to_string i) (seq 1 (length types)), Ok tt)
    | _ =>
        (names,
         if length names =? length types then Ok tt
         else match inst with
              | Some _ => Throw Schema_err
              | None => UB           (* cc:248 instance->data_store() without an instance *)
              end)
    end.

  Fixpoint lookup {K V : Type} (eqb : K -> K -> bool) (k : K) (m : list (K * V)) : option V :=
    match m with
    | [] => None
    | (k', v) :: m' => if eqb k k' then Some v else lookup eqb k m'
    end.
  Fixpoint erase {K V : Type} (eqb : K -> K -> bool) (k : K) (m : list (K * V)) : list (K * V) :=
    match m with
    | [] => []
    | (k', v) :: m' => if eqb k k' then m' else (k', v) :: erase eqb k m'
    end.

  (* csv_reader.cc:275-282 and 301-308: one pass over the columns, by index or by name.
     [keys] are the indices or the names.  The result is the new types and the overrides that are left. *)
  Fixpoint override_pass {K : Type} (eqb : K -> K -> bool) (keys : list K) (types : list dtype)
      (m : list (K * dtype)) : list dtype * list (K * dtype) :=
    match keys, types with
    | k :: keys', t :: types' =>
        match lookup eqb k m with
        | Some d =>
            let (ts, m') := override_pass eqb keys' types' (erase eqb k m) in (d :: ts, m')
        | None => let (ts, m') := override_pass eqb keys' types' m in (t :: ts, m')
        end
    | _, _ => (types, m)
    end.

  (* csv_reader.cc:256-323 apply_column_type_overrides *)
  Definition apply_overrides (names : list str) (types : list dtype) : list dtype * res unit :=
    let (types1, left1) := override_pass Nat.eqb (seq 0 (length names)) types (p_types_index p) in
    match left1 with
    | _ :: _ => (types1, Throw Invalid_argument)
    | [] =>
        let (types2, left2) := override_pass str_eqb names types1 (p_types p) in
        (types2, match left2 with _ :: _ => Throw Invalid_argument | [] => Ok tt end)
    end.

  (* csv_reader.cc:397-414 should_skip *)
  Definition should_skip (idx : nat) (name : str) : bool :=
    (match p_use_index p with [] => false | l => negb (existsb (Nat.eqb idx) l) end) ||
    (match p_use_names p with [] => false | l => negb (existsb (str_eqb name) l) end).

  (* csv_reader.cc:370-375: the renaming loop.  [counts] is name_counts.  The name grows in
     every turn, so that at most as many turns as there are names fail. *)
  Fixpoint bump (k : str) (m : list (str * nat)) : list (str * nat) :=
    match m with
    | [] => []
    | (k', n) :: m' => if str_eqb k k' then (k', S n) :: m' else (k', n) :: bump k m'
    end.
  Fixpoint dedupe_loop (fuel : nat) (name : str) (counts : list (str * nat)) : res (str * list (str * nat)) :=
    match lookup str_eqb name counts with
    | None => Ok (name, (name, 1) :: counts)
    | Some n =>
        match fuel with
        | O => Fuel
        | S fuel' => dedupe_loop fuel' (name ++ [95%N] ++ to_string n) (bump name counts)
        end
    end.

  (* csv_reader.cc:350-379: the loop over the columns; the flags appended to column_ignores_
     and the attributes. *)
  Fixpoint init_loop (idx : nat) (names : list str) (types : list dtype) (counts : list (str * nat))
    : res (list bool * list attr) :=
    match names, types with
    | n :: names', t :: types' =>
        if should_skip idx n then
          let* r := init_loop (S idx) names' types' counts in
          Ok (true :: fst r, snd r)
        else if p_dedupe p then
          let* d := dedupe_loop (length counts) n counts in
          let* r := init_loop (S idx) names' types' (snd d) in
          Ok (false :: fst r, (fst d, t) :: snd r)
        else
          let* r := init_loop (S idx) names' types' counts in
          Ok (false :: fst r, (n, t) :: snd r)
    | _, _ => Ok ([], [])
    end.

  (* schema.cc:71-83: the constructor rejects duplicate names; csv_reader.cc:381-394. *)
  Fixpoint has_duplicates (l : list str) : bool :=
    match l with
    | [] => false
    | x :: r => existsb (str_eqb x) r || has_duplicates r
    end.

  (* csv_reader.cc:171-186 infer_schema.  The new state of the reader is returned also if an exception is thrown. *)
  Definition infer_schema (r : reader) (inst : option str) : reader * res (option (list attr)) :=
    match inst, r_names r with
    | None, [] => (r, Ok None)
    | _, _ =>
        let (ts, o1) := infer_column_types r inst in
        let types := r_types r ++ ts in
        let r1 := mk_reader (r_names r) types (r_ignores r) (r_should_read_header r) in
        match o1 with
        | Throw e => (r1, Throw e) | UB => (r1, UB) | Fuel => (r1, Fuel)
        | Ok _ =>
            let (names, o2) := set_or_validate (r_names r) types inst in
            let r2 := mk_reader names types (r_ignores r) (r_should_read_header r) in
            match o2 with
            | Throw e => (r2, Throw e) | UB => (r2, UB) | Fuel => (r2, Fuel)
            | Ok _ =>
                let (types', o3) := apply_overrides names types in
                let r3 := mk_reader names types' (r_ignores r) (r_should_read_header r) in
                match o3 with
                | Throw e => (r3, Throw e) | UB => (r3, UB) | Fuel => (r3, Fuel)
                | Ok _ =>
                    match init_loop 0 names types' [] with
                    | Throw e => (r3, Throw e) | UB => (r3, UB) | Fuel => (r3, Fuel)
                    | Ok (ign, attrs) =>
                        (mk_reader names types' (r_ignores r ++ ign) (r_should_read_header r),
                         if has_duplicates (map fst attrs) then Throw Schema_err else Ok (Some attrs))
                    end
                end
            end
        end
    end.

  (* The columns as the decoder sees them after schema inference, csv_reader.cc:504-527. *)
  Definition columns_of (r : reader) : list col :=
    map (fun tc => mk_col (fst tc) (snd tc)) (combine (r_types r) (r_ignores r)).

  (* ------------------------------------------------------------------ *)
  (* Headers                                                             *)
  (* ------------------------------------------------------------------ *)

  (* A data store, as the record reader presents it: its rows, or the error that
     read_record throws instead of a row (after which nothing is read any more). *)
  Definition row := res str.

  (* csv_reader.cc:160-169 skip_to_header_row: the rows that are left. *)
  Fixpoint skip_rows (n : nat) (rows : list row) : res (list row) :=
    match n, rows with
    | O, _ => Ok rows
    | S _, [] => Ok []
    | S n', Ok _ :: rest => skip_rows n' rest
    | S n', Throw e :: _ => Throw e
    | S n', UB :: _ => UB
    | S n', Fuel :: _ => Fuel
    end.

  (* csv_reader.cc:125-158 read_names_from_header: the names appended to column_names_ (also
     if an exception is thrown) and the rows left. *)
  Definition read_names_from_header (h : nat) (rows : list row) : list str * res (list row) :=
    match skip_rows h rows with
    | Ok [] => ([], Ok [])
    | Ok (Ok text :: rest) =>
        let (fs, o) := tok_run (length text + 2) (tok_new text) in
        let names := map (fun f => p_prefix p ++ f) fs in
        match o with
        | Ok _ => (match names with [] => [p_prefix p] | _ => names end, Ok rest)
        | Throw Corrupt_record => (names, Throw Schema_err)
        | Throw e => (names, Throw e)
        | UB => (names, UB)
        | Fuel => (names, Fuel)
        end
    | Ok (Throw Corrupt_record :: _) => ([], Throw Schema_err)
    | Ok (Throw e :: _) => ([], Throw e)
    | Ok (UB :: _) => ([], UB)
    | Ok (Fuel :: _) => ([], Fuel)
    | Throw e => ([], Throw e)
    | UB => ([], UB)
    | Fuel => ([], Fuel)
    end.

  (* csv_reader.cc:112-117 *)
  Definition discard_header (h : nat) (rows : list row) : res (list row) :=
    let* rows1 := skip_rows h rows in
    match rows1 with
    | [] => Ok []
    | Ok _ :: rest => Ok rest
    | Throw e :: _ => Throw e
    | UB :: _ => UB
    | Fuel :: _ => Fuel
    end.

  (* csv_reader.cc:100-123 make_record_reader: the state of the reader (also if an exception
     is thrown) and the rows left to read in the store. *)
  Definition open_store (r : reader) (rows : list row) : reader * res (list row) :=
    match p_header p with
    | None => (r, Ok rows)
    | Some h =>
        let (names, o) :=
          match r_names r with
          | [] => read_names_from_header h rows
          | _ =>
              (r_names r, if r_should_read_header r || negb (p_single p) then discard_header h rows else Ok rows)
          end in
        (mk_reader names (r_types r) (r_ignores r)
           (match o with Ok _ => false | _ => r_should_read_header r end), o)
    end.

  (* csv_reader.cc:93-98 reset *)
  Definition csv_reset (r : reader) : reader :=
    mk_reader (r_names r) (r_types r) (r_ignores r) true.

  (* Opening the stores of the dataset one after the other, as the core reader does
     (instance_readers/core_instance_reader.cc:196-235); the rows delivered, store by store. *)
  Fixpoint open_stores (r : reader) (stores : list (list row)) : reader * res (list (list row)) :=
    match stores with
    | [] => (r, Ok [])
    | s :: rest =>
        let (r1, o) := open_store r s in
        match o with
        | Ok rows => let (r2, o2) := open_stores r1 rest in (r2, rmap (cons rows) o2)
        | Throw e => (r1, Throw e)
        | UB => (r1, UB)
        | Fuel => (r1, Fuel)
        end
    end.
End Csv.
