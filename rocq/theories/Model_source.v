(* Record readers and the conversion to UTF-8 on an input stream of any kind. *)
From Verif Require Import Common Model_rec Model_gzip Model_utf8 Model_names.

Section Source.
  (* include/mlio/streams/input_stream.h: an input stream that cannot seek.  [rd s n] is read with a destination of n bytes: the
     bytes that were written to it, or an exception. *)
  Variable Src : Type.
  Variable rd : Src -> N -> res (list byte) * Src.

  (* record_readers/detail/default_chunk_reader.cc:74-84, and streams/utf8_input_stream.cc:39-52: read until the destination is full
     or a read returns nothing. *)
  Fixpoint sfill (fuel : nat) (s : Src) (room : N) (acc : list byte) : res (list byte * Src * bool) :=
    match fuel with
    | O => Fuel
    | S fuel' =>
        if (room =? 0)%N then Ok (acc, s, false)
        else
          let (r, s') := rd s room in
          let* bs := r in
          match bs with
          | [] => Ok (acc, s', true)
          | _ => sfill fuel' s' (room - N.of_nat (length bs)) (acc ++ bs)
          end
    end.

  (* record_readers/detail/default_chunk_reader.h:53-56, as in Model_rec. *)
  Record schunk := mk_schunk { sc_stream : Src; sc_next : N; sc_block : option N; sc_eof : bool }.

  (* record_readers/detail/default_chunk_reader.cc:29-95, as in Model_rec.  Here and below [fuel] bounds the loops. *)
  Definition schunk_read (fuel : nat) (c : schunk) (leftover : list byte) : res (list byte * schunk) :=
    if sc_eof c then Ok ([], c)
    else
      let ll := N.of_nat (length leftover) in
      let next :=
        match sc_block c with
        | Some b => if (b =? ll)%N && (b =? sc_next c)%N then (2 * sc_next c)%N else sc_next c
        | None => sc_next c
        end in
      if (next <? ll)%N then UB
      else
        let* r := sfill fuel (sc_stream c) (next - ll) leftover in
        let '(bs, s', eof) := r in
        Ok (bs, mk_schunk s' next (if eof then None else Some next) eof).

  (* record_readers/detail/default_chunk_reader.cc:97-102 *)
  Definition schunk_hint (c : schunk) (value : N) : schunk :=
    mk_schunk (sc_stream c) (double_until (N.size_nat value) (sc_next c) value) (sc_block c) (sc_eof c).

  (* record_readers/stream_record_reader.cc:45-62 *)
  Fixpoint sread_record (D : decoder) (fuel fuel1 : nat) (c : schunk) (chunk : list byte) : res (option rec * schunk * list byte) :=
    match fuel1 with
    | O => Fuel
    | S fuel1' =>
        let* d := D chunk (negb (sc_eof c)) in
        let '(record, chunk1, hint) := d in
        let c1 := match hint with Some h => schunk_hint c h | None => c end in
        match record with
        | Some _ => Ok (record, c1, chunk1)
        | None =>
            let* r := schunk_read fuel c1 chunk1 in
            let '(chunk2, c2) := r in
            match chunk2 with
            | [] => Ok (None, c2, chunk2)
            | _ => sread_record D fuel fuel1' c2 chunk2
            end
        end
    end.

  (* Reading to the end: the records, then the end or the error. *)
  Fixpoint sread_all (D : decoder) (fuel fuel1 : nat) (c : schunk) (chunk : list byte) : list rec * res unit :=
    match fuel1 with
    | O => ([], Fuel)
    | S fuel1' =>
        match sread_record D fuel fuel c chunk with
        | Ok (Some x, c', chunk') => let (xs, e) := sread_all D fuel fuel1' c' chunk' in (x :: xs, e)
        | Ok (None, _, _) => ([], Ok tt)
        | Throw e => ([], Throw e)
        | UB => ([], UB)
        | Fuel => ([], Fuel)
        end
    end.
  (* record_readers/detail/chunk_reader.cc:30-47 for a stream without zero copy. *)
  Definition srecords (D : decoder) (fuel : nat) (size : N) (s : Src) : list rec * res unit :=
    sread_all D fuel fuel (mk_schunk s size None false) [].

End Source.

(* ---------------- conversion to UTF-8 ---------------- *)
Section Convert.
  Variable Src : Type.
  Variable rd : Src -> N -> res (list byte) * Src.
  Variable St : Type.
  Variable iconv_open : encoding -> option St.
  Variable cv : encoding -> St -> list byte -> cres St.

  (* streams/utf8_input_stream.h, as in Model_utf8. *)
  Record cstream := mk_c { c_inner : Src; c_enc : encoding; c_conv : St; c_fill : bool; c_held : list byte; c_end : N; c_rem : list byte }.
  Definition c_is_utf8 (u : cstream) : bool := encoding_eqb (c_enc u) E_utf8.

  (* streams/utf8_input_stream.cc:125-194 convert and fill_buffer, as in Model_utf8. *)
  Fixpoint c_convert (fuel fuel1 : nat) (room : nat) (u : cstream) : res (list byte * cstream) :=
    match fuel1 with
    | O => Fuel
    | S fuel1' =>
        let go (u1 : cstream) :=
          let* r := iconv St cv (S (length (c_held u1))) (c_enc u1) (c_conv u1) (c_held u1) room in
          let '(outs, inp, conv, st) := r in
          let u2 :=
            match st with
            | I_incomplete => mk_c (c_inner u1) (c_enc u1) conv true inp (c_end u1) (c_rem u1)
            | I_leftover => mk_c (c_inner u1) (c_enc u1) conv false inp (c_end u1) (c_rem u1)
            | I_ok => mk_c (c_inner u1) (c_enc u1) conv true [] (c_end u1) (c_rem u1)
            end in
          match outs with
          | [] => c_convert fuel fuel1' room u2
          | _ => Ok (outs, u2)
          end in
        if c_fill u then
          let* r := sfill Src rd fuel (c_inner u) (c_end u - N.of_nat (length (c_held u))) (c_held u) in
          let '(held, inner, _) := r in
          if (length held =? length (c_held u))%nat then
            match held with
            | [] => Ok ([], mk_c inner (c_enc u) (c_conv u) true [] 0 (c_rem u))
            | _ => Throw Stream_err
            end
          else go (mk_c inner (c_enc u) (c_conv u) false held (N.of_nat (length held)) (c_rem u))
        else go u
    end.

  (* streams/utf8_input_stream.cc:196-205 copy_from_remainder *)
  Definition c_copy (u : cstream) (n : nat) : res (list byte * cstream) :=
    let k := Nat.min (length (c_rem u)) n in
    Ok (firstn k (c_rem u), mk_c (c_inner u) (c_enc u) (c_conv u) (c_fill u) (c_held u) (c_end u) (skipn k (c_rem u))).

  (* streams/utf8_input_stream.cc:59-94 read into a destination of [n] bytes. *)
  Definition c_read (fuel : nat) (u : cstream) (n : nat) : res (list byte * cstream) :=
    if (n =? 0)%nat then Ok ([], u)
    else
      match c_rem u with
      | [] =>
          if c_is_utf8 u then
            let (r, inner) := rd (c_inner u) (N.of_nat n) in
            let* bs := r in
            Ok (bs, mk_c inner (c_enc u) (c_conv u) (c_fill u) (c_held u) (c_end u) [])
          else if (4 <=? n)%nat then c_convert fuel fuel n u
          else
            let* r := c_convert fuel fuel 4 u in
            let '(bs, u') := r in
            match bs with
            | [] => Ok ([], u')
            | _ => c_copy (mk_c (c_inner u') (c_enc u') (c_conv u') (c_fill u') (c_held u') (c_end u') bs) n
            end
      | _ => c_copy u n
      end.

  (* The result of make_utf8_stream: the stream itself or a stream around it. *)
  Inductive cmade := N_same (s : Src) | N_wrapped (u : cstream).
  (* As an input stream; after an exception its state does not matter. *)
  Definition n_read (fuel : nat) (m : cmade) (n : N) : res (list byte) * cmade :=
    match m with
    | N_same s => let (r, s') := rd s n in (r, N_same s')
    | N_wrapped u =>
        match c_read fuel u (N.to_nat n) with
        | Ok (bs, u') => (Ok bs, N_wrapped u')
        | Throw e => (Throw e, m)
        | UB => (UB, m)
        | Fuel => (Fuel, m)
        end
    end.

  (* streams/utf8_input_stream.cc:110-123 *)
  Definition new_cstream (inner : Src) (e : encoding) (default : St) : res cstream :=
    if encoding_eqb e E_utf8 then Ok (mk_c inner e default true [] 0 [])
    else
      match iconv_open e with
      | None => Throw System_err
      | Some s => Ok (mk_c inner e s true [] u_block [])
      end.
  (* streams/utf8_input_stream.cc:207-223 *)
  Definition c_set_preamble (u : cstream) (preamble : list byte) : cstream :=
    if c_is_utf8 u then mk_c (c_inner u) (c_enc u) (c_conv u) (c_fill u) (c_held u) (c_end u) preamble
    else mk_c (c_inner u) (c_enc u) (c_conv u) (c_fill u) preamble (c_end u) (c_rem u).

  (* streams/utf8_input_stream.cc:287-335 for a stream that cannot seek. *)
  Definition make_cstream (fuel : nat) (default : St) (s : Src) (given : option encoding) : res cmade :=
    match given with
    | Some e =>
        if encoding_eqb e E_utf8 || encoding_eqb e E_latin1 then Ok (N_same s)
        else
          let* u := new_cstream s e default in
          Ok (N_wrapped (c_set_preamble u []))
    | None =>
        let* r := sfill Src rd fuel s 4 [] in
        let '(preamble, inner, _) := r in
        let e := match infer_bom preamble with Some e => e | None => E_utf8 end in
        let* u := new_cstream inner e default in
        Ok (N_wrapped (c_set_preamble u preamble))
    end.
End Convert.

(* ---------------- data stores ---------------- *)

(* The streams of the other models as input streams. *)
Definition plain_rd (s : stream) (n : N) : res (list byte) * stream := let (bs, s') := stream_read s n in (Ok bs, s').
(* If read claims to have written more than it has, the caller goes on with bytes that are indeterminate: UB. *)
Definition gzip_rd {St} (z_init : St) z_step z_stops (g : gstream St) (n : N) : res (list byte) * gstream St :=
  let (r, g') := g_read St z_init z_step z_stops g n in
  (let* p := r in if (fst p =? N.of_nat (length (snd p)))%N then Ok (snd p) else UB, g').
Definition made_rd {St} (cv : encoding -> St -> list byte -> cres St) (m : made St) (n : N) : res (list byte) * made St :=
  match m_read St cv m (N.to_nat n) with
  | Ok (bs, m') => (Ok bs, m')
  | Throw e => (Throw e, m)
  | UB => (UB, m)
  | Fuel => (Fuel, m)
  end.

Section Stores.
  Variable Z : Type.
  Variable z_init : Z.
  Variable z_step : Z -> byte -> list byte * znext Z.
  Variable z_stops : Z -> bool.
  Variable St : Type.
  Variable iconv_open : encoding -> option St.
  Variable cv : encoding -> St -> list byte -> cres St.
  Variable default : St.

  (* A data store: its compression, its bytes, how much the reads return, and whether the stream that is opened on it can seek and
     supports zero copy. *)
  Record dstore := mk_dstore { d_comp : compression; d_bytes : list byte; d_sched : list nat; d_seekable : bool; d_zero_copy : bool }.

  (* recordio_protobuf_reader.cc:120-123 and image_reader.cc:66-68 with open_read (data_stores/file.cc:43-60, in_memory_store.cc:38-50,
     s3_object.cc:52-64, sagemaker_pipe.cc:45-56) and data_stores/compression.cc:28-45. *)
  Definition store_records (D : decoder) (fuel : nat) (size : N) (d : dstore) : list rec * res unit :=
    match d_comp d with
    | Co_none | Co_infer =>
        if d_zero_copy d then records D true [] size (d_bytes d)
        else srecords stream plain_rd D fuel size (mk_stream (d_bytes d) (d_sched d))
    | Co_gzip => srecords (gstream Z) (gzip_rd z_init z_step z_stops) D fuel size (g_open Z z_init (mk_stream (d_bytes d) (d_sched d)))
    | Co_bzip2 | Co_zip => ([], Throw Not_supported)
    end.

  (* text_line_reader.cc:44-48 and csv_reader.cc:100-104 *)
  Definition text_records (D : decoder) (fuel : nat) (size : N) (given : option encoding) (d : dstore) : list rec * res unit :=
    let on {A} (r : res A) (k : A -> list rec * res unit) :=
      match r with Ok a => k a | Throw e => ([], Throw e) | UB => ([], UB) | Fuel => ([], Fuel) end in
    match d_comp d with
    | Co_none | Co_infer =>
        on (make_utf8_stream St iconv_open default (mk_source (d_bytes d) (d_seekable d) (d_sched d)) given) (fun m =>
          match m with
          | M_same _ s => if d_zero_copy d then records D true [] size (s_rest s) else srecords stream plain_rd D fuel size s
          | M_wrapped _ _ => srecords (made St) (made_rd cv) D fuel size m
          end)
    | Co_gzip =>
        on (make_cstream (gstream Z) (gzip_rd z_init z_step z_stops) St iconv_open fuel default
              (g_open Z z_init (mk_stream (d_bytes d) (d_sched d))) given) (fun m =>
          srecords _ (n_read (gstream Z) (gzip_rd z_init z_step z_stops) St cv fuel) D fuel size m)
    | Co_bzip2 | Co_zip => ([], Throw Not_supported)
    end.
End Stores.
