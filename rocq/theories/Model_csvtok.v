(* Model of the CSV record tokenizer.
   /repo/src/mlio/csv_record_tokenizer.{h,cc}. *)
From Verif Require Import Common.

Section Tokenizer.
  (* csv_record_tokenizer.h:35-40  delimiter_, quote_char_, max_field_length_ *)
  Context (delim quote : byte) (maxlen : option nat).

  (* csv_record_tokenizer.h:68-76.  [t_text] is the text from text_pos_ to text_.end(). *)
  Record tok := mk_tok {
    t_text : list byte;
    t_value : list byte;
    t_truncated : bool;
    t_finished : bool;
    t_eof : bool }.

  (* csv_record_tokenizer.cc:144-153 (and the constructor, .h:35-40).
     reset() leaves value_ and truncated_ alone; next() clears them first thing. *)
  Definition tok_reset (t : tok) (text : list byte) : tok :=
    mk_tok text (t_value t) (t_truncated t) false false.
  Definition tok_new (text : list byte) : tok := mk_tok text [] false false false.

  (* csv_record_tokenizer.cc:134-142 push_char, on (value_, truncated_). *)
  Definition push_char (vt : list byte * bool) (c : byte) : list byte * bool :=
    let (v, tr) := vt in
    match maxlen with
    | Some m => if length v =? m then (v, true) else (v ++ [c], tr)
    | None => (v ++ [c], tr)
    end.

  (* csv_record_tokenizer.h:62 Parser_state *)
  Inductive pstate := new_field | in_field | in_quoted_field | quote_in_quoted_field.

  (* csv_record_tokenizer.cc:38-119: the goto loop.  The result is
     (value_, truncated_), whether the end of the text was reached (finished_), and the
     text after text_pos_.  The loop consumes one character per step, so
     it is structural recursion over the text. *)
  Fixpoint scan (st : pstate) (text : list byte) (vt : list byte * bool)
    : res ((list byte * bool) * bool * list byte) :=
    match text with
    | [] => (* end_line, cc:105-115 *)
        match st with
        | in_quoted_field => Throw Corrupt_record
        | _ => Ok (vt, true, [])
        end
    | c :: rest =>
        match st with
        | new_field => (* cc:41-54 *)
            if N.eqb c delim then Ok (vt, false, rest)
            else if N.eqb c quote then scan in_quoted_field rest vt
            else scan in_field rest (push_char vt c)
        | in_field => (* cc:56-69 *)
            if N.eqb c delim then Ok (vt, false, rest)
            else scan in_field rest (push_char vt c)
        | in_quoted_field => (* cc:71-84 *)
            if N.eqb c quote then scan quote_in_quoted_field rest vt
            else scan in_quoted_field rest (push_char vt c)
        | quote_in_quoted_field => (* cc:86-103 *)
            if N.eqb c delim then Ok (vt, false, rest)
            else if N.eqb c quote then scan in_quoted_field rest (push_char vt c)
            else scan in_field rest (push_char vt c)
        end
    end.

  (* csv_record_tokenizer.cc:24-119 next() *)
  Definition tok_next (t : tok) : res (bool * tok) :=
    if t_finished t then Ok (false, mk_tok (t_text t) [] false true true)
    else
      let* r := scan new_field (t_text t) ([], false) in
      let '(v, tr, fin, rest) := r in
      Ok (true, mk_tok rest v tr fin (t_eof t)).

  (* The way every client drives the tokenizer: while (next()) consume value()/truncated().
     (csv_reader.cc:125-158, 188-226 and 626-755.)  *)
  Fixpoint tok_all (fuel : nat) (t : tok) : res (list (list byte * bool)) :=
    match fuel with
    | O => Fuel
    | S fuel' =>
        let* r := tok_next t in
        let '(more, t') := r in
        if more then
          let* fs := tok_all fuel' t' in
          Ok ((t_value t', t_truncated t') :: fs)
        else Ok []
    end.

  (* All fields of a row: reset(blob) followed by the loop. *)
  Definition tokenize (text : list byte) : res (list (list byte * bool)) :=
    tok_all (length text + 2) (tok_new text).
End Tokenizer.
