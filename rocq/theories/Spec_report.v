(* What should be said about bad rows of a CSV dataset. *)
From Verif Require Import Common Model_num Model_csv Spec_csv Model_report.
From Coq Require String.
Import String.StringSyntax.
Local Open Scope string_scope.
Local Open Scope list_scope.

Section Spec.
  Context (F : Type) (atof atod : list byte -> option F) (is_inf : F -> bool) (qnan : F).
  Context (p : csv_params) (store : str) (type_text : dtype -> str).

  (* What is wrong with a row. *)
  Inductive problem :=
  | Long (name value : str)                 (* the field of this column is too long *)
  | Wrong (name : str) (dt : dtype) (value : str)   (* the field of this column is no value of the type *)
  | Count.                                  (* not as many fields as columns *)

  (* At most 64 bytes of a value are quoted. *)
  Definition quoted (v : str) : str := firstn 64 v.
  Definition long_sentence (row : nat) (name value : str) : str :=
    tx "The column '" ++ name ++ tx "' of the row #" ++ to_string row ++ tx " in the data store '" ++ store ++
    tx "' is too long. Its truncated value is '" ++ quoted value ++ tx "'.".
  (* [fields], [columns]: how many there are. *)
  Definition sentence (row fields columns : nat) (q : problem) : str :=
    match q with
    | Long name value => long_sentence row name value
    | Wrong name dt value =>
        tx "The column '" ++ name ++ tx "' of the row #" ++ to_string row ++ tx " in the data store '" ++ store ++
        tx "' cannot be parsed as " ++ type_text dt ++ tx ". Its string value is '" ++ quoted value ++ tx "'."
    | Count =>
        tx "The row #" ++ to_string row ++ tx " in the data store '" ++ store ++ tx "' has " ++ to_string fields ++
        tx " column(s) while it is expected to have " ++ to_string columns ++ tx " column(s)."
    end.

  (* The notice about a field that is used although it has been cut. *)
  Definition notice (row : nat) (name : str) (f : str * bool) : list str :=
    if snd f then match p_mfl p with truncate_warn => [long_sentence row name (fst f)] | _ => [] end else [].

  (* [Tells row cols fs ws q]: reading the fields from left to right, the first problem is q (None: there is none), and ws are the
     notices up to there. *)
  Inductive Tells (row : nat) : list ncol -> list (str * bool) -> list str -> option problem -> Prop :=
  | T_end : Tells row [] [] [] None
  | T_more f fs : Tells row [] (f :: fs) [] (Some Count)
  | T_fewer c cols : Tells row (c :: cols) [] [] (Some Count)
  | T_ignored n c cols f fs ws q : c_ignore c = true -> Tells row cols fs ws q -> Tells row ((n, c) :: cols) (f :: fs) ws q
  | T_long n c cols f fs : c_ignore c = false -> snd f = true -> p_mfl p = treat_as_bad ->
      Tells row ((n, c) :: cols) (f :: fs) [] (Some (Long n (fst f)))
  | T_wrong n c cols f fs : c_ignore c = false -> ~ (snd f = true /\ p_mfl p = treat_as_bad) ->
      (forall v, parse_cell F atof atod is_inf qnan (c_type c) (p_nans p) (p_base p) (fst f) <> Ok (P_ok v)) ->
      Tells row ((n, c) :: cols) (f :: fs) (notice row n f) (Some (Wrong n (c_type c) (fst f)))
  | T_right n c cols f fs v ws q : c_ignore c = false -> ~ (snd f = true /\ p_mfl p = treat_as_bad) ->
      parse_cell F atof atod is_inf qnan (c_type c) (p_nans p) (p_base p) (fst f) = Ok (P_ok v) ->
      Tells row cols fs ws q -> Tells row ((n, c) :: cols) (f :: fs) (notice row n f ++ ws) q.

  (* A row of the dataset, with its number: the notices, and the sentence about its problem if it has one. *)
  Definition tells (cols : list ncol) (nr : nat * str) (t : list str * option str) : Prop :=
    exists fs q, fields_of p (snd nr) fs /\ Tells (fst nr) cols fs (fst t) q /\
      snd t = option_map (sentence (fst nr) (length fs) (length cols)) q.

  (* What is to be logged about a row. *)
  Definition logged (t : list str * option str) : list str :=
    fst t ++ match snd t with Some m => if p_warn p then [m] else [] | None => [] end.

  Definition faulty (t : list str * option str) : bool := match snd t with Some _ => true | None => false end.

  Definition skipped_sentence (example : nat) : str :=
    tx "The example #" ++ to_string example ++ tx " has been skipped as it had at least one bad instance.".
  Definition padded_sentence (example bad : nat) : str :=
    tx "The example #" ++ to_string example ++ tx " has been padded as it had " ++ to_string bad ++ tx " bad instance(s).".
End Spec.
