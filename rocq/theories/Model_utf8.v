(* The stream that converts text to UTF-8. *)
From Verif Require Import Common Model_rec.

(* text_encoding.cc:22-29: the encodings the code treats specially, and any other name. *)
Inductive encoding := E_latin1 | E_utf8 | E_utf16_le | E_utf16_be | E_utf32_le | E_utf32_be | E_other (name : list byte).
Definition encoding_eqb (a b : encoding) : bool :=
  match a, b with
  | E_latin1, E_latin1 | E_utf8, E_utf8 | E_utf16_le, E_utf16_le | E_utf16_be, E_utf16_be => true
  | E_utf32_le, E_utf32_le | E_utf32_be, E_utf32_be => true
  | E_other x, E_other y => if list_eq_dec N.eq_dec x y then true else false
  | _, _ => false
  end.

(* What a converter makes of the beginning of its input: it turns [n] bytes into [out] (a character, or a shift sequence
   without output) and goes on in the state [s]; or it needs more input; or the input is invalid. *)
Inductive cres (St : Type) := Cv_unit (n : nat) (out : list byte) (s : St) | Cv_incomplete | Cv_invalid.
Arguments Cv_unit {St}. Arguments Cv_incomplete {St}. Arguments Cv_invalid {St}.

Section Utf8.
  (* iconv is not modelled: [iconv_open e] is the initial state of the converter from e to UTF-8, if the platform has one;
     [cv] is what it does with the input that is left. *)
  Variable St : Type.
  Variable iconv_open : encoding -> option St.
  Variable cv : encoding -> St -> list byte -> cres St.

  (* streams/detail/iconv.h *)
  Inductive istatus := I_ok | I_incomplete | I_leftover.

  (* streams/detail/iconv.cc:58-97 convert and ::iconv as in POSIX: convert as much as possible into [room] bytes.  The results are
     the output, the input that is left, the state and the status. *)
  Fixpoint iconv (fuel : nat) (e : encoding) (s : St) (inp : list byte) (room : nat)
    : res (list byte * list byte * St * istatus) :=
    match fuel with
    | O => Fuel
    | S fuel' =>
        match inp with
        | [] => Ok ([], [], s, I_ok)
        | _ =>
            match cv e s inp with
            | Cv_incomplete => Ok ([], inp, s, I_incomplete)
            | Cv_invalid => Throw Stream_err
            | Cv_unit n out s' =>
                if (length out <=? room)%nat then
                  let* r := iconv fuel' e s' (skipn n inp) (room - length out) in
                  let '(outs, inp', s'', st) := r in
                  Ok (out ++ outs, inp', s'', st)
                else Ok ([], inp, s, I_leftover)
            end
        end
    end.

  (* streams/utf8_input_stream.h.  [u_held] is the part of buffer_ before buffer_pos_ if should_fill_buffer_ is set, and the part
     between buffer_pos_ and buffer_end_ if not; [u_end] is the offset of buffer_end_.  Closing is not modelled. *)
  Record ustream := mk_u {
    u_inner : stream;
    u_enc : encoding;
    u_conv : St;
    u_fill : bool;
    u_held : list byte;
    u_end : N;
    u_rem : list byte }.
  Definition is_utf8 (u : ustream) : bool := encoding_eqb (u_enc u) E_utf8.

  (* streams/utf8_input_stream.cc:119: 32 MiB *)
  Definition u_block : N := 33554432%N.

  (* streams/utf8_input_stream.cc:187-194 fill_buffer, with 39-52. *)
  Definition u_fill_buffer (u : ustream) : res (list byte * stream) :=
    let* r := fill (S (length (s_rest (u_inner u)))) (u_inner u) (u_end u - N.of_nat (length (u_held u))) (u_held u) in
    let '(held, inner, _) := r in Ok (held, inner).

  (* streams/utf8_input_stream.cc:125-185 convert into a destination of [room] bytes; the loop goes on only if nothing has been
     written to it.  std::copy in line 163 moves bytes to the beginning of the buffer; if they are there already it is taken to do
     nothing. *)
  Fixpoint u_convert (fuel : nat) (room : nat) (u : ustream) : res (list byte * ustream) :=
    match fuel with
    | O => Fuel
    | S fuel' =>
        let go (u1 : ustream) :=
          let* r := iconv (S (length (u_held u1))) (u_enc u1) (u_conv u1) (u_held u1) room in
          let '(outs, inp, conv, st) := r in
          let u2 :=
            match st with
            | I_incomplete => mk_u (u_inner u1) (u_enc u1) conv true inp (u_end u1) (u_rem u1)
            | I_leftover => mk_u (u_inner u1) (u_enc u1) conv false inp (u_end u1) (u_rem u1)
            | I_ok => mk_u (u_inner u1) (u_enc u1) conv true [] (u_end u1) (u_rem u1)
            end in
          match outs with
          | [] => u_convert fuel' room u2
          | _ => Ok (outs, u2)
          end in
        if u_fill u then
          let* r := u_fill_buffer u in
          let '(held, inner) := r in
          if (length held =? length (u_held u))%nat then
            match held with
            | [] => Ok ([], mk_u inner (u_enc u) (u_conv u) true [] 0 (u_rem u))
            | _ => Throw Stream_err
            end
          else go (mk_u inner (u_enc u) (u_conv u) false held (N.of_nat (length held)) (u_rem u))
        else go u
    end.

  (* streams/utf8_input_stream.cc:196-205 copy_from_remainder *)
  Definition u_copy (u : ustream) (n : nat) : res (list byte * ustream) :=
    let k := Nat.min (length (u_rem u)) n in
    Ok (firstn k (u_rem u), mk_u (u_inner u) (u_enc u) (u_conv u) (u_fill u) (u_held u) (u_end u) (skipn k (u_rem u))).

  (* streams/utf8_input_stream.cc:59-94 read into a destination of [n] bytes. *)
  Definition u_read (u : ustream) (n : nat) : res (list byte * ustream) :=
    if (n =? 0)%nat then Ok ([], u)
    else
      match u_rem u with
      | [] =>
          if is_utf8 u then
            let (bs, inner) := stream_read (u_inner u) (N.of_nat n) in
            Ok (bs, mk_u inner (u_enc u) (u_conv u) (u_fill u) (u_held u) (u_end u) [])
          else
            let fuel := length (s_rest (u_inner u)) + 3 in
            if (4 <=? n)%nat then u_convert fuel n u
            else
              let* r := u_convert fuel 4 u in
              let '(bs, u') := r in
              match bs with
              | [] => Ok ([], u')
              | _ => u_copy (mk_u (u_inner u') (u_enc u') (u_conv u') (u_fill u') (u_held u') (u_end u') bs) n
              end
      | _ => u_copy u n
      end.

  (* streams/utf8_input_stream.cc:251-282 infer_bom_encoding *)
  Definition infer_bom (preamble : list byte) : option encoding :=
    let n := length preamble in
    let is (i : nat) (v : byte) := match nth_error preamble i with Some c => (c =? v)%N | None => false end in
    if (3 <=? n)%nat && (is 0 239%N && is 1 187%N && is 2 191%N) then Some E_utf8
    else if (n =? 4)%nat && (is 0 0%N && is 1 0%N && is 2 254%N && is 3 255%N) then Some E_utf32_be
    else if (n =? 4)%nat && (is 0 255%N && is 1 254%N && is 2 0%N && is 3 0%N) then Some E_utf32_le
    else if (2 <=? n)%nat && (is 0 254%N && is 1 255%N) then Some E_utf16_be
    else if (2 <=? n)%nat && (is 0 255%N && is 1 254%N) then Some E_utf16_le
    else None.

  (* A stream as it is handed to make_utf8_stream: at its beginning; [i_content] is kept for seeking. *)
  Record source := mk_source { i_content : list byte; i_seekable : bool; i_sched : list nat }.
  (* The result: the stream itself or a stream around it. *)
  Inductive made := M_same (s : stream) | M_wrapped (u : ustream).
  Definition m_read (m : made) (n : nat) : res (list byte * made) :=
    match m with
    | M_same s => let (bs, s') := stream_read s (N.of_nat n) in Ok (bs, M_same s')
    | M_wrapped u => let* r := u_read u n in let '(bs, u') := r in Ok (bs, M_wrapped u')
    end.

  (* streams/utf8_input_stream.cc:110-123; the converter and the buffer exist only if the encoding is not UTF-8. *)
  Definition new_ustream (inner : stream) (e : encoding) (default : St) : res ustream :=
    if encoding_eqb e E_utf8 then Ok (mk_u inner e default true [] 0 [])
    else
      match iconv_open e with
      | None => Throw System_err
      | Some s => Ok (mk_u inner e s true [] u_block [])
      end.
  (* streams/utf8_input_stream.cc:207-223 *)
  Definition set_preamble (u : ustream) (preamble : list byte) : ustream :=
    if is_utf8 u then mk_u (u_inner u) (u_enc u) (u_conv u) (u_fill u) (u_held u) (u_end u) preamble
    else mk_u (u_inner u) (u_enc u) (u_conv u) (u_fill u) preamble (u_end u) (u_rem u).

  (* streams/utf8_input_stream.cc:287-335.  [default] stands for the null converter of a UTF-8 stream. *)
  Definition make_utf8_stream (default : St) (src : source) (given : option encoding) : res made :=
    let at_begin sched := mk_stream (i_content src) sched in
    let wrap (inner : stream) (e : encoding) (preamble : list byte) :=
      let* u := new_ustream inner e default in
      if i_seekable src then
        Ok (M_wrapped (mk_u (at_begin (s_sched inner)) (u_enc u) (u_conv u) (u_fill u) (u_held u) (u_end u) (u_rem u)))
      else Ok (M_wrapped (set_preamble u preamble)) in
    match given with
    | Some e =>
        if encoding_eqb e E_utf8 || encoding_eqb e E_latin1 then Ok (M_same (at_begin (i_sched src)))
        else wrap (at_begin (i_sched src)) e []
    | None =>
        let* r := fill (S (length (i_content src))) (at_begin (i_sched src)) 4 [] in
        let '(preamble, inner, _) := r in
        match infer_bom preamble with
        | None =>
            if i_seekable src then Ok (M_same (at_begin (s_sched inner)))
            else wrap inner E_utf8 preamble
        | Some e => wrap inner e preamble
        end
    end.

  (* A client that reads with the sizes [ns] until an exception. *)
  Fixpoint m_reads (ns : list nat) (m : made) : list (res (list byte)) :=
    match ns with
    | [] => []
    | n :: ns' =>
        match m_read m n with
        | Ok (bs, m') => Ok bs :: m_reads ns' m'
        | Throw e => [Throw e]
        | UB => [UB]
        | Fuel => [Fuel]
        end
    end.
End Utf8.
