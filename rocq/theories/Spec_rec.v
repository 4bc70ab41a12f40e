(* What text lines, CSV rows with quoted line ends, RecordIO files and Parquet framing are,
   written without reference to the readers. *)
From Verif Require Import Common Spec_csvtok.

(* ---------------- lines ---------------- *)

Inductive eol := eol_lf | eol_cr | eol_crlf.
Definition eol_bytes (e : eol) : list byte :=
  match e with eol_lf => [LF] | eol_cr => [CR] | eol_crlf => [CR; LF] end.

(* Terminated lines followed by a possibly empty unterminated last line. *)
Definition render_lines (ls : list (list byte * eol)) (last : list byte) : list byte :=
  flat_map (fun l => fst l ++ eol_bytes (snd l)) ls ++ last.

Definition no_eol (l : list byte) : Prop := ~ In LF l /\ ~ In CR l.

(* A CR line end must not be followed by a LF, that would be a CR LF line end. *)
Fixpoint eols_ok (ls : list (list byte * eol)) (last : list byte) : Prop :=
  match ls with
  | [] => True
  | (_, e) :: rest => (e = eol_cr -> hd_error (render_lines rest last) <> Some LF) /\ eols_ok rest last
  end.

(* The lines of a text: the unterminated last line counts unless it is empty. *)
Definition lines_of (ls : list (list byte * eol)) (last : list byte) : list (list byte) :=
  map fst ls ++ match last with [] => [] | _ => [last] end.

Definition utf8_bom : list byte := [239; 187; 191]%N.
Definition starts_with (pre l : list byte) : Prop := exists t, l = pre ++ t.
Definition contains (sub l : list byte) : Prop := exists a b, l = a ++ sub ++ b.

Definition blank (l : list byte) : bool := match l with [] => true | _ => false end.

(* The line without a BOM sequence at its start. *)
Definition without_bom (l : list byte) : list byte :=
  match l with
  | a :: b :: c :: rest => if (a =? 239)%N && (b =? 187)%N && (c =? 191)%N then rest else l
  | _ => l
  end.

(* What is delivered if a BOM sequence is removed whenever the search for the next line to deliver begins: at the start of
   the text (fresh) and after every line that has been delivered, but not after one that has been dropped.  An unterminated
   last line that is empty then is not delivered. *)
Fixpoint lines_seen (dropped : list byte -> bool) (fresh : bool) (ls : list (list byte)) (last : list byte) : list (list byte) :=
  match ls with
  | [] => let l := if fresh then without_bom last else last in if blank l || dropped l then [] else [l]
  | l0 :: rest =>
      let l := if fresh then without_bom l0 else l0 in
      if dropped l then lines_seen dropped false rest last else l :: lines_seen dropped true rest last
  end.

(* The lines, with or without an empty line added after each that ends with CR LF. *)
Inductive crlf_split : list (list byte * eol) -> list (list byte) -> Prop :=
| cs_nil : crlf_split [] []
| cs_line t e ls out : crlf_split ls out -> crlf_split ((t, e) :: ls) (t :: out)
| cs_extra t ls out : crlf_split ls out -> crlf_split ((t, eol_crlf) :: ls) (t :: [] :: out).

(* ---------------- CSV rows with line ends inside quotes ---------------- *)

Section Rows.
  Context (delim quote : byte).
  (* The same grammar as Spec_csvtok.Row, with no line end outside quotes. *)
  Inductive Line_field : list byte -> list byte -> Prop :=
  | LF_plain f : verbatim_ok delim quote f -> no_eol f -> Line_field f f
  | LF_quoted b v tail :
      delim <> quote -> Quoted_body quote b v -> verbatim_ok delim quote tail -> no_eol tail ->
      Line_field (quote :: b ++ quote :: tail) (v ++ tail).
  Inductive Line_row : list byte -> list (list byte) -> Prop :=
  | LR_last t v : Line_field t v -> Line_row t [v]
  | LR_cons t v rest vs : Line_field t v -> Line_row rest vs -> Line_row (t ++ delim :: rest) (v :: vs).
  (* A row that ends inside a quoted field *)
  Inductive Line_unclosed : list byte -> Prop :=
  | LU_last b v : delim <> quote -> Quoted_body quote b v -> Line_unclosed (quote :: b)
  | LU_cons t v rest : Line_field t v -> Line_unclosed rest -> Line_unclosed (t ++ delim :: rest).
End Rows.

(* ---------------- RecordIO ---------------- *)

(* little-endian 32-bit *)
Definition le32 (n : N) : list byte :=
  [n mod 256; (n / 256) mod 256; (n / 65536) mod 256; (n / 16777216) mod 256]%N.

Definition rio_magic : list byte := [10; 35; 215; 206]%N.

(* magic, (kind, length) word, payload, padding to a multiple of four *)
Definition rio_encode1 (kind : N) (pl pad : list byte) : list byte :=
  rio_magic ++ le32 (kind * 2 ^ 29 + N.of_nat (length pl)) ++ pl ++ pad.
Definition rio_wf (kind : N) (pl pad : list byte) : Prop :=
  (kind < 8)%N /\ (N.of_nat (length pl) < 2 ^ 29)%N /\
  length pad < 4 /\ (length pl + length pad) mod 4 = 0.

(* ---------------- Parquet framing ---------------- *)

Definition par1 : list byte := [80; 65; 82; 49]%N.

(* The bytes [f] are a framed file: PAR1 at both ends, the last one preceded by the size of
   the metadata, which lies inside the file behind the first magic, is at least nine bytes long, starts with a struct
   field header and ends with a stop field. *)
Definition framed (f : list byte) : Prop :=
  exists body meta sz,
    f = par1 ++ body ++ meta ++ le32 sz ++ par1 /\
    sz = N.of_nat (length meta) /\ (9 <= sz < 2 ^ 32)%N /\
    (exists m : list byte, meta = m ++ [0%N]) /\
    (exists (b : byte) (m : list byte), meta = b :: m /\ In b [21; 41; 54; 73; 89; 104; 121]%N).

(* Splitting a byte string into shortest framed files. *)
Definition shortest_framed (f rest : list byte) : Prop :=
  framed f /\ forall f' g', f ++ rest = f' ++ g' -> framed f' -> length f <= length f'.

Inductive par_files : list byte -> list (list byte) -> list byte -> Prop :=
| pf_nil xs : par_files xs [] xs
| pf_cons f rest fs tl : shortest_framed f rest -> par_files rest fs tl -> par_files (f ++ rest) (f :: fs) tl.
