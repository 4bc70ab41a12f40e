(* Model of record splitting: chunk readers, stream record reader, and the
   text line, CSV, RecordIO and Parquet record decoders.
   /repo/src/mlio/record_readers/. *)
From Verif Require Import Common.

(* include/mlio/record_readers/record.h:28-74.  The kind is kept as the 3-bit number found in
   a RecordIO header (complete 0, begin 1, middle 2, end 3); static_cast produces the values 4-7 too. *)
Record rec := mk_rec { payload : list byte; kind : N }.

Definition kComplete : N := 0.
Definition kBegin : N := 1.
Definition kMiddle : N := 2.
Definition kEnd : N := 3.

(* decode_record(Memory_slice &chunk, bool ignore_leftover): the record if any, what is left of
   the chunk, and the argument of set_record_size_hint if it was called.
   Simplification: the chunk left behind by a throwing call is not modelled; no caller
   continues with it (core_instance_reader.cc:46-92, data readers stop at the error). *)
Definition decoded : Type := option rec * list byte * option N.
Definition decoder : Type := list byte -> bool -> res decoded.

(* ------------------------------------------------------------------ *)
(* Text lines                                                           *)

(* detail/text_line.cc:46-68: the loop over the chunk.  Returns (pos, has_carriage, pos == end).
   The read of the byte at chars.end() done by the loop header when no line end is found
   (line 50, [chr = *pos] after the last increment) is recorded in [lscan_touched] below. *)
Fixpoint lscan (cs : list byte) (pos : nat) : nat * bool * bool :=
  match cs with
  | [] => (pos, false, true)
  | c :: rest =>
      if N.eqb c LF then (pos, false, false)
      else if N.eqb c CR then
        match rest with
        | c2 :: _ => if N.eqb c2 LF then (S pos, true, false) else (pos, false, false)
        | [] => (pos, false, false)
        end
      else lscan rest (S pos)
  end.

(* detail/text_line.cc:50,60: the indices dereferenced by that loop, in order. *)
Fixpoint lscan_touched (cs : list byte) (pos : nat) : list nat :=
  pos :: match cs with
         | [] => []
         | c :: rest =>
             if N.eqb c LF then []
             else if N.eqb c CR then match rest with [] => [] | _ => [S pos] end
             else lscan_touched rest (S pos)
         end.

(* detail/text_line.cc:33-104 read_line.  Result: record payload (None = nullopt), rest of chunk. *)
Definition read_line (chunk : list byte) (ignore_leftover : bool) (max_line_length : option nat)
  : res (option (list byte) * list byte) :=
  match chunk with
  | [] => if ignore_leftover then Ok (None, chunk) else Throw Corrupt_record
  | _ =>
      let '(pos, has_carriage, at_end) := lscan chunk 0 in
      let too_large := match max_line_length with Some m => m <=? pos | None => false end in
      if too_large then Throw Record_too_large
      else if at_end && ignore_leftover then Ok (None, chunk)
      else
        let p := if has_carriage then firstn (pos - 1) chunk else firstn pos chunk in
        let chunk' := if at_end then [] else skipn (S pos) chunk in
        Ok (Some p, chunk')
  end.

(* text_record_reader.cc:45-59 skip_utf8_bom: None = false. *)
Definition skip_utf8_bom (chunk : list byte) (ignore_leftover : bool) : option (list byte) :=
  match chunk with
  | a :: b :: c :: rest =>
      if N.eqb a 239 && N.eqb b 187 && N.eqb c 191 then Some rest else Some chunk
  | _ => if ignore_leftover then None else Some chunk
  end.

(* text_record_reader.cc:32-43 *)
Definition text_decode_record (decode_text_record : decoder) : decoder :=
  fun chunk ignore_leftover =>
    match chunk with
    | [] => Ok (None, chunk, None)
    | _ =>
        match skip_utf8_bom chunk ignore_leftover with
        | Some chunk' => decode_text_record chunk' ignore_leftover
        | None => Ok (None, chunk, None)
        end
    end.

(* text_line_record_reader.cc:37-46: the skip_blank_ loop. *)
Fixpoint text_line_loop (fuel : nat) (chunk : list byte) (ignore_leftover : bool) : res decoded :=
  match fuel with
  | O => Fuel
  | S fuel' =>
      match chunk with
      | [] => Ok (None, chunk, None)
      | _ =>
          let* r := read_line chunk ignore_leftover None in
          match r with
          | (None, chunk') => Ok (None, chunk', None)
          | (Some p, chunk') =>
              match p with
              | [] => text_line_loop fuel' chunk' ignore_leftover
              | _ => Ok (Some (mk_rec p kComplete), chunk', None)
              end
          end
      end
  end.

(* text_line_record_reader.cc:30-49 *)
Definition text_line_decode_text (skip_blank : bool) : decoder :=
  fun chunk ignore_leftover =>
    match chunk with
    | [] => Ok (None, chunk, None)
    | _ =>
        if skip_blank then text_line_loop (length chunk + 1) chunk ignore_leftover
        else
          let* r := read_line chunk ignore_leftover None in
          let '(p, chunk') := r in
          Ok (option_map (fun p => mk_rec p kComplete) p, chunk', None)
    end.

Definition text_line_decode (skip_blank : bool) : decoder :=
  text_decode_record (text_line_decode_text skip_blank).

(* ------------------------------------------------------------------ *)
(* CSV                                                                  *)

(* include/mlio/csv_reader.h:48-118, the members used for record splitting. *)
Record csv_rparams := mk_csv_rparams {
  cp_delimiter : byte;
  cp_quote : byte;
  cp_comment : option byte;
  cp_allow_quoted_new_lines : bool;
  cp_skip_blank_lines : bool;
  cp_max_line_length : option nat }.

(* csv_record_reader.h Parser_state *)
Inductive qstate := q_new_field | q_in_field | q_in_quoted_field | q_quote_in_quoted_field | q_has_carriage.

(* csv_record_reader.cc:86-187: the goto loop.  Result: state, pos, and whether a line end was reached. *)
Fixpoint qscan (delim quote : byte) (st : qstate) (cs : list byte) (pos : nat) : qstate * nat * bool :=
  match cs with
  | [] => (st, pos, false)
  | c :: rest =>
      let next st' := qscan delim quote st' rest (S pos) in
      match st with
      | q_new_field => (* 92-113 *)
          if N.eqb c delim then next q_new_field
          else if N.eqb c quote then next q_in_quoted_field
          else if N.eqb c LF then (st, S pos, true)
          else if N.eqb c CR then next q_has_carriage
          else next q_in_field
      | q_in_field => (* 115-133 *)
          if N.eqb c delim then next q_new_field
          else if N.eqb c LF then (st, S pos, true)
          else if N.eqb c CR then next q_has_carriage
          else next q_in_field
      | q_in_quoted_field => (* 135-147 *)
          if N.eqb c quote then next q_quote_in_quoted_field
          else next q_in_quoted_field
      | q_quote_in_quoted_field => (* 149-170 *)
          if N.eqb c delim then next q_new_field
          else if N.eqb c quote then next q_in_quoted_field
          else if N.eqb c LF then (st, S pos, true)
          else if N.eqb c CR then next q_has_carriage
          else next q_in_field
      | q_has_carriage => (* 172-187; the character read after a lone CR is put back *)
          if N.eqb c LF then (q_has_carriage, S pos, true)
          else (q_new_field, pos, true)
      end
  end.

(* csv_record_reader.cc:255-264 *)
Definition check_line_length (m : option nat) (pos : nat) : res unit :=
  match m with
  | Some m => if m <=? pos then Throw Record_too_large else Ok tt
  | None => Ok tt
  end.

(* csv_record_reader.cc:75-238 Csv_record_reader::read_line *)
Definition csv_read_line (p : csv_rparams) (chunk : list byte) (ignore_leftover : bool)
  : res (option (list byte) * list byte) :=
  match chunk with
  | [] => if ignore_leftover then Ok (None, chunk) else Throw Corrupt_record
  | _ =>
      let '(st, pos, new_line) := qscan (cp_delimiter p) (cp_quote p) q_new_field chunk 0 in
      let* _ := check_line_length (cp_max_line_length p) pos in
      if new_line then (* 189-207 *)
        let pl := match st with
                  | q_has_carriage => firstn (pos - 2) chunk
                  | _ => firstn (pos - 1) chunk
                  end in
        Ok (Some pl, skipn pos chunk)
      else if ignore_leftover then Ok (None, chunk)
      else (* 218-237 *)
        match st with
        | q_in_quoted_field => Throw Corrupt_record
        | q_has_carriage => Ok (Some (firstn (length chunk - 1) chunk), [])
        | _ => Ok (Some chunk, [])
        end
  end.

(* csv_record_reader.cc:65-73 *)
Definition is_comment_line (p : csv_rparams) (chunk : list byte) : bool :=
  match cp_comment p, chunk with
  | Some cc, c :: _ => N.eqb c cc
  | _, _ => false
  end.

(* csv_record_reader.cc:34-63: the while loop. *)
Fixpoint csv_loop (fuel : nat) (p : csv_rparams) (chunk : list byte) (ignore_leftover : bool)
  : res decoded :=
  match fuel with
  | O => Fuel
  | S fuel' =>
      match chunk with
      | [] => Ok (None, chunk, None)
      | _ =>
          if is_comment_line p chunk then
            let* r := read_line chunk ignore_leftover None in
            match r with
            | (None, chunk') => Ok (None, chunk', None)
            | (Some _, chunk') => csv_loop fuel' p chunk' ignore_leftover
            end
          else
            let* r := if cp_allow_quoted_new_lines p then csv_read_line p chunk ignore_leftover
                      else read_line chunk ignore_leftover (cp_max_line_length p) in
            match r with
            | (None, chunk') => Ok (None, chunk', None)
            | (Some pl, chunk') =>
                if negb (cp_skip_blank_lines p) || negb (length pl =? 0)
                then Ok (Some (mk_rec pl kComplete), chunk', None)
                else csv_loop fuel' p chunk' ignore_leftover
            end
      end
  end.

Definition csv_decode_text (p : csv_rparams) : decoder :=
  fun chunk ignore_leftover => csv_loop (length chunk + 1) p chunk ignore_leftover.

Definition csv_decode (p : csv_rparams) : decoder := text_decode_record (csv_decode_text p).

(* ------------------------------------------------------------------ *)
(* RecordIO                                                             *)

(* Little-endian 32-bit load.  The host is assumed little-endian (include/mlio/endian.h:50-62). *)
Definition u32 (a b c d : byte) : N := a + 256 * b + 65536 * c + 16777216 * d.

(* Load of 4 bytes at index i; None = out of bounds. *)
Definition load32 (bits : list byte) (i : nat) : option N :=
  match skipn i bits with
  | a :: b :: c :: d :: _ => Some (u32 a b c d)
  | _ => None
  end.
Definition load8 (bits : list byte) (i : nat) : option N := nth_error bits i.

Definition recordio_magic : N := 3470205706. (* 0xced7230a, recordio_header.cc:35-36 *)

(* detail/recordio_header.cc:26-45 *)
Definition decode_recordio_header (bits : list byte) : res (option N) :=
  if length bits / 4 <? 2 then Ok None
  else match load32 bits 0, load32 bits 4 with
       | Some m, Some data =>
           if negb (N.eqb m recordio_magic) then Throw Corrupt_header else Ok (Some data)
       | _, _ => UB
       end.

(* detail/recordio_header.h:36-51 *)
Definition header_kind (data : N) : N := N.land (N.shiftr data 29) 7.
Definition header_payload_size (data : N) : N := N.land data (N.shiftl 1 29 - 1).
Definition header_size : N := 8.

(* detail/util.h:24-27 *)
Definition align (s alignment : N) : N := N.ldiff (s + alignment - 1) (alignment - 1).

(* recordio_record_reader.cc:32-75 *)
Definition recordio_decode : decoder :=
  fun chunk ignore_leftover =>
    match chunk with
    | [] => Ok (None, chunk, None)
    | _ =>
        let* header := decode_recordio_header chunk in
        match header with
        | None => if ignore_leftover then Ok (None, chunk, None) else Throw Corrupt_header
        | Some data =>
            let payload_size := header_payload_size data in
            let record_size := (header_size + align payload_size 4)%N in
            if (N.of_nat (length chunk) <? record_size)%N then
              if ignore_leftover then Ok (None, chunk, Some record_size) else Throw Corrupt_header
            else
              let pl := firstn (N.to_nat payload_size) (skipn 8 chunk) in
              Ok (Some (mk_rec pl (header_kind data)), skipn (N.to_nat record_size) chunk, None)
        end
    end.

(* ------------------------------------------------------------------ *)
(* Parquet                                                              *)

Definition parquet_magic : N := 827474256. (* 0x31524150 "PAR1", parquet_record_reader.cc:94 *)

(* parquet_record_reader.cc:138-153 *)
Definition is_file_metadata_begin (b : N) : bool :=
  existsb (N.eqb b) [21; 41; 54; 73; 89; 104; 121]%N.

(* parquet_record_reader.cc:97-136; pos is an index into the chunk.  Unaligned loads are taken as ordinary loads. *)
Definition is_footer (chunk : list byte) (pos : nat) : res bool :=
  if pos <? 4 then UB else
  let metadata_end := pos - 4 in
  match load32 chunk metadata_end with
  | None => UB
  | Some metadata_size =>
      if (metadata_size <? 9)%N then Ok false
      else if (N.of_nat metadata_end <? 4 + metadata_size)%N then Ok false
      else
        match load8 chunk (metadata_end - 1) with
        | None => UB
        | Some stop_field =>
            if negb (N.eqb stop_field 0) then Ok false
            else match load8 chunk (metadata_end - N.to_nat metadata_size) with
                 | None => UB
                 | Some b => Ok (is_file_metadata_begin b)
                 end
        end
  end.

(* parquet_record_reader.cc:92-95 *)
Definition is_magic_number (chunk : list byte) (pos : nat) : res bool :=
  match load32 chunk pos with
  | None => UB
  | Some m => Ok (N.eqb m parquet_magic)
  end.

(* parquet_record_reader.cc:73-83: the scan; n is the number of positions left to try. *)
Fixpoint parquet_scan (chunk : list byte) (n pos : nat) : res (option nat) :=
  match n with
  | O => Ok None
  | S n' =>
      let* m := is_magic_number chunk pos in
      if m then
        let* f := is_footer chunk pos in
        if f then Ok (Some (pos + 4)) else parquet_scan chunk n' (S pos)
      else parquet_scan chunk n' (S pos)
  end.

(* parquet_record_reader.cc:27-90 *)
Definition parquet_decode : decoder :=
  fun chunk ignore_leftover =>
    match chunk with
    | [] => Ok (None, chunk, None)
    | _ =>
        if length chunk <? 4 then
          if ignore_leftover then Ok (None, chunk, None) else Throw Corrupt_header
        else
          let* m := is_magic_number chunk 0 in
          if negb m then Throw Corrupt_header
          else if length chunk <? 12 then
            if ignore_leftover then Ok (None, chunk, None) else Throw Corrupt_footer
          else
            (* positions 8 .. length - 4 *)
            let* f := parquet_scan chunk (length chunk - 11) 8 in
            match f with
            | Some e => Ok (Some (mk_rec (firstn e chunk) kComplete), skipn e chunk, None)
            | None => if ignore_leftover then Ok (None, chunk, None) else Throw Corrupt_footer
            end
    end.

(* ------------------------------------------------------------------ *)
(* Streams and chunk readers                                            *)

(* A byte source together with the environment's choice of how much each read call
   returns (the read contract of include/mlio/streams/input_stream.h: between 1 and n
   bytes, or 0 at the end of the stream).  When the schedule is exhausted, reads are served fully. *)
Record stream := mk_stream { s_rest : list byte; s_sched : list nat }.

Definition stream_read (s : stream) (n : N) : list byte * stream :=
  let avail := N.to_nat (N.min n (N.of_nat (length (s_rest s)))) in
  let want := match s_sched s with [] => avail | k :: _ => Nat.max 1 k end in
  let k := Nat.min want avail in
  (firstn k (s_rest s), mk_stream (skipn k (s_rest s)) (tl (s_sched s))).

(* detail/default_chunk_reader.h:53-56.  [cr_block] is the size of the block chunk_ points to.
   Which block is used (re-used or newly allocated) has no influence on the bytes; the model of
   block identity and reference counts is Model_chunk. *)
Record dchunk := mk_dchunk {
  cr_stream : stream;
  cr_next : N;
  cr_block : option N;
  cr_eof : bool }.

(* detail/default_chunk_reader.cc:74-84: fill the rest of the block. *)
Fixpoint fill (fuel : nat) (s : stream) (room : N) (acc : list byte) : res (list byte * stream * bool) :=
  match fuel with
  | O => Fuel
  | S fuel' =>
      if (room =? 0)%N then Ok (acc, s, false)
      else
        let '(bs, s') := stream_read s room in
        match bs with
        | [] => Ok (acc, s', true)
        | _ => fill fuel' s' (room - N.of_nat (length bs)) (acc ++ bs)
        end
  end.

(* detail/default_chunk_reader.cc:29-95.  next_chunk_size_ <<= 1 is multiplication by two: the
   wrap-around at 2^64 would need a record of 2^63 bytes and is not modelled. *)
Definition dchunk_read (c : dchunk) (leftover : list byte) : res (list byte * dchunk) :=
  if cr_eof c then Ok ([], c)
  else
    let ll := N.of_nat (length leftover) in
    let next :=
      match cr_block c with
      | Some b => if (b =? ll)%N && (b =? cr_next c)%N then (2 * cr_next c)%N else cr_next c
      | None => cr_next c
      end in
    if (next <? ll)%N then UB (* std::copy / subspan beyond the block *)
    else
      let* r := fill (length (s_rest (cr_stream c)) + 2) (cr_stream c) (next - ll) leftover in
      let '(bs, s', eof) := r in
      Ok (bs, mk_dchunk s' next (if eof then None else Some next) eof).

(* detail/default_chunk_reader.cc:97-102.  The loop doubles until value <= next; it needs at
   most as many steps as value has bits when next > 0 (proved), and does not terminate for next = 0. *)
Fixpoint double_until (fuel : nat) (next value : N) : N :=
  match fuel with
  | O => next
  | S fuel' => if (next <? value)%N then double_until fuel' (2 * next) value else next
  end.
Definition dchunk_hint (c : dchunk) (value : N) : dchunk :=
  mk_dchunk (cr_stream c) (double_until (N.size_nat value) (cr_next c) value) (cr_block c) (cr_eof c).

(* detail/chunk_reader.h; in_memory_chunk_reader.{h,cc} *)
Inductive chunk_reader :=
| CR_default (c : dchunk)
| CR_memory (chunk : list byte).

Definition cr_is_eof (c : chunk_reader) : bool :=
  match c with
  | CR_default d => cr_eof d
  | CR_memory [] => true
  | CR_memory _ => false
  end.
Definition cr_read (c : chunk_reader) (leftover : list byte) : res (list byte * chunk_reader) :=
  match c with
  | CR_default d => let* r := dchunk_read d leftover in Ok (fst r, CR_default (snd r))
  | CR_memory m => Ok (m, CR_memory [])
  end.
Definition cr_hint (c : chunk_reader) (v : N) : chunk_reader :=
  match c with
  | CR_default d => CR_default (dchunk_hint d v)
  | CR_memory m => CR_memory m
  end.

Definition default_chunk_size : N := 33554432. (* 0x2000000, default_chunk_reader.h:54 *)

(* detail/chunk_reader.cc:30-47.  [zero_copy]: supports_zero_copy() and the whole content was returned. *)
Definition make_chunk_reader (zero_copy : bool) (content : list byte) (sched : list nat) (size : N) : chunk_reader :=
  if zero_copy then CR_memory content
  else CR_default (mk_dchunk (mk_stream content sched) size None false).

(* ------------------------------------------------------------------ *)
(* Stream_record_reader                                                 *)

(* stream_record_reader.h: chunk_reader_, chunk_ *)
Record sreader := mk_sreader { sr_cr : chunk_reader; sr_chunk : list byte }.

(* stream_record_reader.cc:45-62 *)
Fixpoint read_record_core (D : decoder) (fuel : nat) (r : sreader) : res (option rec * sreader) :=
  match fuel with
  | O => Fuel
  | S fuel' =>
      let* d := D (sr_chunk r) (negb (cr_is_eof (sr_cr r))) in
      let '(record, chunk, hint) := d in
      let cr := match hint with Some h => cr_hint (sr_cr r) h | None => sr_cr r end in
      match record with
      | Some _ => Ok (record, mk_sreader cr chunk)
      | None =>
          let* c := cr_read cr chunk in
          let '(chunk', cr') := c in
          match chunk' with
          | [] => Ok (None, mk_sreader cr' chunk')
          | _ => read_record_core D fuel' (mk_sreader cr' chunk')
          end
      end
  end.

Definition cr_bytes_left (c : chunk_reader) : nat :=
  match c with
  | CR_default d => length (s_rest (cr_stream d))
  | CR_memory m => length m
  end.

(* One call of read_record_core with enough fuel: every iteration but the last takes at least one byte
   from the stream (proved: never Fuel). *)
Definition read_record (D : decoder) (r : sreader) : res (option rec * sreader) :=
  read_record_core D (cr_bytes_left (sr_cr r) + 3) r.

(* Reading to the end: the records delivered, then end of data (Ok tt) or the error. *)
Fixpoint read_all (D : decoder) (fuel : nat) (r : sreader) : list rec * res unit :=
  match fuel with
  | O => ([], Fuel)
  | S fuel' =>
      match read_record D r with
      | Ok (Some x, r') => let (xs, e) := read_all D fuel' r' in (x :: xs, e)
      | Ok (None, _) => ([], Ok tt)
      | Throw e => ([], Throw e)
      | UB => ([], UB)
      | Fuel => ([], Fuel)
      end
  end.

(* All records of a store: [zero_copy] chooses in-memory reading, otherwise the content is
   read in blocks starting with [size] bytes with short reads given by [sched]. *)
Definition records (D : decoder) (zero_copy : bool) (sched : list nat) (size : N) (content : list byte)
  : list rec * res unit :=
  read_all D (length content + 1) (mk_sreader (make_chunk_reader zero_copy content sched size) []).

(* A caller of the chunk reader (stream_record_reader.cc:45-62 is one): from every chunk it takes some
   bytes off the front, [choose chunk] of them, and passes the rest as leftover to the next call.  It stops
   at the first empty chunk.  Result after at most n calls: all bytes taken so far, the bytes
   not yet taken, the reader, and whether an empty chunk was seen. *)
Fixpoint drive (choose : list byte -> nat) (n : nat) (d : dchunk) (left acc : list byte)
  : res (list byte * list byte * dchunk * bool) :=
  match n with
  | O => Ok (acc, left, d, false)
  | S n' =>
      let* r := dchunk_read d left in
      let '(chunk, d') := r in
      match chunk with
      | [] => Ok (acc, left, d', true)
      | _ => let k := Nat.min (choose chunk) (length chunk) in
             drive choose n' d' (skipn k chunk) (acc ++ firstn k chunk)
      end
  end.
