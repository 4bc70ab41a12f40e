(* What a CSV row is, written without reference to the tokenizer. *)
From Verif Require Import Common.

Section Grammar.
  Context (delim quote : byte).

  (* Writing a row. *)
  Definition double_quotes (f : list byte) : list byte :=
    flat_map (fun c => if N.eqb c quote then [quote; quote] else [c]) f.
  (* [true]: enclosed in quotes, [false]: verbatim *)
  Definition render_field (fq : list byte * bool) : list byte :=
    let (f, quoted) := fq in
    if quoted then quote :: double_quotes f ++ [quote] else f.
  Fixpoint render_row (fs : list (list byte * bool)) : list byte :=
    match fs with
    | [] => []
    | [f] => render_field f
    | f :: rest => render_field f ++ delim :: render_row rest
    end.
  (* A field may be written verbatim if it has no delimiter and does not start with a quote. *)
  Definition verbatim_ok (f : list byte) : Prop :=
    ~ In delim f /\ hd_error f <> Some quote.
  Definition writable (fq : list byte * bool) : Prop :=
    snd fq = true \/ verbatim_ok (fst fq).

  (* Reading a row: the grammar.
     [Quoted_body b v]: b is the text between the quotes, v its value. *)
  Inductive Quoted_body : list byte -> list byte -> Prop :=
  | QB_nil : Quoted_body [] []
  | QB_char c b v : c <> quote -> Quoted_body b v -> Quoted_body (c :: b) (c :: v)
  | QB_quote b v : Quoted_body b v -> Quoted_body (quote :: quote :: b) (quote :: v).

  (* A field is plain text, or a quoted part followed by plain text. *)
  Inductive Field : list byte -> list byte -> Prop :=
  | F_plain f : verbatim_ok f -> Field f f
  | F_quoted b v tail :
      delim <> quote -> Quoted_body b v -> verbatim_ok tail ->
      Field (quote :: b ++ quote :: tail) (v ++ tail).

  Inductive Row : list byte -> list (list byte) -> Prop :=
  | R_last t v : Field t v -> Row t [v]
  | R_cons t v rest vs : Field t v -> Row rest vs -> Row (t ++ delim :: rest) (v :: vs).

  (* The row ends inside a quoted field that is never closed. *)
  Inductive Unclosed : list byte -> Prop :=
  | U_last b v : delim <> quote -> Quoted_body b v -> Unclosed (quote :: b)
  | U_cons t v rest : Field t v -> Unclosed rest -> Unclosed (t ++ delim :: rest).
End Grammar.
