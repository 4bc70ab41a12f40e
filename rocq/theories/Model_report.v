(* What the CSV reader says about bad rows: warnings and the texts of errors. *)
From Verif Require Import Common Model_csvtok Model_num Model_csv.
From Coq Require String Ascii.
Import String.StringSyntax.
Local Open Scope string_scope.

Definition tx (x : String.string) : str := map Ascii.N_of_ascii (String.list_ascii_of_string x).

(* fmt::format of fmt 6.0.0 (third-party/CMakeLists.txt:66-80), as far as the messages below need it: fields {i}, {i:n} (the digits of a
   number; the "C" locale groups none) and {i:.64} (the first 64 chars, that is bytes).  [None]: outside a field; [Some acc]:
   inside, with the characters so far, last first. *)
Definition field (args : list str) (f : str) : str :=
  match f with
  | [] => []
  | d :: spec =>
      match nth_error args (N.to_nat (d - 48)%N) with
      | Some a => if str_eqb spec (tx ":.64") then firstn 64 a else a
      | None => []
      end
  end.
Fixpoint format_go (args : list str) (st : option str) (s : str) : str :=
  match s, st with
  | [], _ => []
  | c :: r, None => if (c =? 123)%N then format_go args (Some []) r else c :: format_go args None r
  | c :: r, Some acc => if (c =? 125)%N then field args (rev acc) ++ format_go args None r else format_go args (Some (c :: acc)) r
  end.
Definition format (s : String.string) (args : list str) : str := format_go args None (tx s).

Section Report.
  Context (F : Type) (atof atod : list byte -> option F) (is_inf : F -> bool) (qnan fzero : F).
  Context (p : csv_params).
  (* The identifier of the data store, the text of a data type, the number of columns. *)
  Context (store : str) (type_text : dtype -> str).

  (* A column with its name: csv_reader.cc:504-527. *)
  Definition ncol : Type := str * col.

  (* csv_reader.cc:653-658, with the arguments in the order of the code. *)
  Definition too_long (row : nat) (name value : str) : str :=
    format "The column '{2}' of the row #{1:n} in the data store '{0}' is too long. Its truncated value is '{3:.64}'."
      [store; to_string row; name; value].
  (* csv_reader.cc:702-708 *)
  Definition unparsable (row : nat) (name : str) (dt : dtype) (value : str) : str :=
    format "The column '{2}' of the row #{1:n} in the data store '{0}' cannot be parsed as {3}. Its string value is '{4:.64}'."
      [store; to_string row; name; type_text dt; value].
  (* csv_reader.cc:738-743 *)
  Definition miscounted (row actual expected : nat) : str :=
    format "The row #{1:n} in the data store '{0}' has {2:n} column(s) while it is expected to have {3:n} column(s)."
      [store; to_string row; to_string actual; to_string expected].

  (* What decoding a row says: the warnings, how it ends, and the text of the error if it ends with one of these. *)
  Definition said : Type := list str * verdict * option str.
  Definition complain (m : str) : said := (if p_warn p then [m] else [], bad_verdict p, if is_error p then Some m else None).
  Definition also (ws : list str) (r : said) : said := let '(ws', v, e) := r in (ws ++ ws', v, e)%list.

  (* csv_reader.cc:722-754.  [i] is the index of col_pos. *)
  Definition end_says (n row : nat) (cols : list ncol) (i : nat) (t : tok) : said :=
    match cols, t_eof t with
    | [], true => ([], V_good, None)
    | _, _ =>
        if p_warn p || is_error p then
          if match cols with [] => negb (p_lenient p) | _ => false end then ([], V_ub, None)
          else
            match tok_all (p_delim p) (p_quote p) (p_maxlen p) (length (t_text t) + 2) t with
            | Ok fs => complain (miscounted row (i + length fs + match cols with [] => 1 | _ => 0 end) n)
            | Throw e => ([], V_throw e, None)
            | UB => ([], V_ub, None)
            | Fuel => ([], V_fuel, None)
            end
        else ([], V_bad, None)
    end.

  (* csv_reader.cc:635-720 *)
  Fixpoint loop_says (n row : nat) (cols : list ncol) (i : nat) (t : tok) : said :=
    match tok_next (p_delim p) (p_quote p) (p_maxlen p) t with
    | Ok (more, t') =>
        if more then
          match cols with
          | [] => end_says n row [] i t'
          | (name, c) :: rest =>
              if c_ignore c then loop_says n row rest (S i) t'
              else
                let long := too_long row name (t_value t') in
                if t_truncated t' && match p_mfl p with treat_as_bad => true | _ => false end then complain long
                else
                  also (if t_truncated t' && match p_mfl p with truncate_warn => true | _ => false end then [long] else [])
                    (match parse_cell F atof atod is_inf qnan (c_type c) (p_nans p) (p_base p) (t_value t') with
                     | Ok (P_ok v) => loop_says n row rest (S i) t'
                     | Ok _ => complain (unparsable row name (c_type c) (t_value t'))
                     | Throw e => ([], V_throw e, None)
                     | UB => ([], V_ub, None)
                     | Fuel => ([], V_fuel, None)
                     end)
          end
        else end_says n row cols i t'
    | Throw e => ([], V_throw e, None)
    | UB => ([], V_ub, None)
    | Fuel => ([], V_fuel, None)
    end.
  (* csv_reader.cc:626-755 *)
  Definition row_says (cols : list ncol) (row : nat) (text : str) : said := loop_says (length cols) row cols 0 (tok_new text).

  (* csv_reader.cc:529-558 decode_ser: the rows with their numbers; the result is the number of good rows, or None. *)
  Inductive ending := E_rows (good : nat) | E_skipped | E_error (text : option str) (v : verdict).
  Fixpoint rows_say (cols : list ncol) (rows : list (nat * str)) (good : nat) : list str * ending :=
    match rows with
    | [] => ([], E_rows good)
    | (row, r) :: rest =>
        let '(ws, v, e) := row_says cols row r in
        match v with
        | V_good => let (ws', x) := rows_say cols rest (S good) in ((ws ++ ws')%list, x)
        | V_bad =>
            if is_skip p then (ws, E_skipped)
            else if is_pad p then let (ws', x) := rows_say cols rest good in ((ws ++ ws')%list, x)
            else (ws, E_error None (V_throw Invalid_argument))
        | _ => (ws, E_error e v)
        end
    end.

  (* csv_reader.cc:446-463 *)
  Definition skipped_text (batch : nat) : str :=
    format "The example #{0:n} has been skipped as it had at least one bad instance." [to_string batch].
  Definition padded_text (batch bad : nat) : str :=
    format "The example #{0:n} has been padded as it had {1:n} bad instance(s)." [to_string batch; to_string bad].
  Definition example_says (cols : list ncol) (batch : nat) (rows : list (nat * str)) : list str * ending :=
    let (ws, x) := rows_say cols rows 0 in
    match x with
    | E_skipped => ((ws ++ match p_bad p with B_skip_warn => [skipped_text batch] | _ => [] end)%list, x)
    | E_rows good =>
        ((ws ++ if Nat.eqb (length rows) good then [] else match p_bad p with B_pad_warn => [padded_text batch (length rows - good)] | _ => [] end)%list, x)
    | E_error _ _ => (ws, x)
    end.
End Report.
