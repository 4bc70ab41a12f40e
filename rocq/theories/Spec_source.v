(* What an input stream delivers, and compressed files every piece of which carries data. *)
From Verif Require Import Common Model_rec Spec_rec Model_gzip Spec_gzip Spec_utf8 Model_source.

(* How the data of a stream ends. *)
Inductive fate := Ends | Fails (errs : exn -> Prop).

Section Feeds.
  Variable Src : Type.
  Variable rd : Src -> N -> res (list byte) * Src.
  (* Read with any sizes below [lim], the stream delivers [data] in order and nothing else.  It returns nothing only at the end of the
     data, and if it is to fail it never does. *)
  Definition feeds (lim : N) (s : Src) (data : list byte) (f : fate) : Prop :=
    exists I : Src -> list byte -> Prop, I s data /\
      forall s data n, I s data -> (0 < n < lim)%N ->
        match rd s n with
        | (Ok bs, s') => (N.of_nat (length bs) <= n)%N /\ (exists data', data = bs ++ data' /\ I s' data') /\ (bs = [] -> data = [] /\ f = Ends)
        | (Throw x, _) => exists P, f = Fails P /\ P x
        | _ => False
        end.
End Feeds.

(* The pieces in which a stream delivers its bytes if it is read in blocks of 512 KiB. *)
Inductive pieces : stream -> list (list byte) -> Prop :=
| P_nil s : s_rest s = [] -> pieces s []
| P_cons s b s' bs : stream_read s (512 * 1024) = (b, s') -> b <> [] -> pieces s' bs -> pieces s (b :: bs).

Section Lively.
  Variable Z : Type.
  Variable z_init : Z.
  Variable z_step : Z -> byte -> list byte * znext Z.
  Notation decodes := (decodes Z z_step).

  (* inflate leaves input unread when the output is full only if the next byte yields data. *)
  Definition eager (z_stops : Z -> bool) : Prop := forall s c, z_stops s = true -> fst (z_step s c) <> [].
  (* The last byte of a member belongs to the checksum. *)
  Definition checked : Prop := forall s c o, z_step s c = (o, Z_fin) -> o = [].

  (* Compressed content in pieces: from the state [s] (at the beginning of a member if [fresh]) the rest [buf] of the current piece and
     the pieces [bs] decompress to [data], and end with [f].  Every part of a member in a piece yields data, unless nothing is to come. *)
  Inductive lively : Z -> bool -> list byte -> list (list byte) -> list byte -> fate -> Prop :=
  | L_end : lively z_init true [] [] [] Ends
  | L_truncated s : lively s false [] [] [] (Fails (eq Inflate_err))
  | L_piece s fresh b bs data f : b <> [] -> lively s fresh b bs data f -> lively s fresh [] (b :: bs) data f
  | L_part s fresh b o s' bs data f : b <> [] -> decodes s b o (Z_go s') -> o <> [] \/ data = [] /\ f = Ends ->
      lively s' false [] bs data f -> lively s fresh b bs (o ++ data) f
  | L_member s fresh m o b bs data f : decodes s m o Z_fin -> o <> [] \/ data = [] /\ f = Ends ->
      lively z_init true b bs data f -> lively s fresh (m ++ b) bs (o ++ data) f
  | L_corrupt s fresh m o b bs : decodes s m o Z_bad -> lively s fresh (m ++ b) bs o (Fails (eq Inflate_err)).
  Definition lively_file (content : list byte) (sched : list nat) (data : list byte) (f : fate) : Prop :=
    exists bs, pieces (mk_stream content sched) bs /\ lively z_init true [] bs data f.
End Lively.

(* A decoder of records that asks for chunks of at most [h] bytes. *)
Definition hints_within (h : N) (D : decoder) : Prop := forall chunk b r rest v, D chunk b = Ok (r, rest, Some v) -> (v <= h)%N.
(* A decoder takes the records from the beginning of the chunk. *)
Definition tame (D : decoder) : Prop := forall chunk b r rest h, D chunk b = Ok (r, rest, h) ->
  (exists taken, chunk = taken ++ rest) /\ (r <> None -> length rest < length chunk).

(* ---------------- records ---------------- *)

(* The records of data that lies in memory, and how they end. *)
Definition whole (D : decoder) (data : list byte) : list rec * res unit := records D true [] 1 data.

(* What a reader delivers ([got]) if the data has the records [all] and the stream ends with [f]: all of them; or some of the first ones,
   and then an error. *)
Definition delivered (f : fate) (got all : list rec * res unit) : Prop :=
  match f with
  | Ends => got = all
  | Fails errs => exists xs ys x e, got = (xs, Throw x) /\ all = (xs ++ ys, e) /\ (errs x \/ ys = [] /\ e = Throw x)
  end.

(* The end of a text: if the stream has ended with [f] and the text it carries with [t]. *)
Definition outcome (f : fate) (t : text_end) : fate :=
  match t with
  | T_complete => f
  | _ => match f with Ends => Fails (eq Stream_err) | Fails P => Fails (fun x => P x \/ x = Stream_err) end
  end.

(* Text the records of which do not depend on how it is read (C05, C06): no byte order mark except at the beginning; and where a CR LF
   could be taken for two line ends, either blank lines are skipped or there is none. *)
Definition one_bom (text : list byte) : Prop :=
  (forall ys, text = utf8_bom ++ ys -> ~ contains utf8_bom ys) /\ (~ starts_with utf8_bom text -> ~ contains utf8_bom text).
Definition skips_blank (p : csv_rparams) : Prop :=
  cp_skip_blank_lines p = true /\ cp_max_line_length p = None /\
  (cp_allow_quoted_new_lines p = true -> cp_delimiter p <> LF /\ cp_quote p <> LF).
Inductive text_format : decoder -> list byte -> Prop :=
| F_lines skip_blank text : one_bom text -> skip_blank = true \/ ~ contains [CR; LF] text -> text_format (text_line_decode skip_blank) text
| F_csv p text : one_bom text ->
    cp_allow_quoted_new_lines p = true /\ cp_comment p = None \/ skips_blank p \/ ~ contains [CR; LF] text -> text_format (csv_decode p) text.
