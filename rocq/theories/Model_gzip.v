(* The stream that decompresses gzip and zlib content. *)
From Verif Require Import Common Model_rec.

Section Gzip.
  (* What zlib does with the next byte of a member: the bytes that can be decoded once it is known, and whether the member
     goes on, ends or is found to be invalid. zlib itself is not modelled: its states and their meaning are arbitrary. *)
  Inductive znext (St : Type) := Z_go (s : St) | Z_fin | Z_bad.
  Arguments Z_go {St}. Arguments Z_fin {St}. Arguments Z_bad {St}.
  Variable St : Type.
  Variable z_init : St.
  Variable z_step : St -> byte -> list byte * znext St.
  (* Whether ::inflate returns in this state when the output is full, or goes on consuming input until the next output. *)
  Variable z_stops : St -> bool.

  (* ::z_stream: output that is decoded but not yet delivered, and what comes after it. *)
  Record zst := mk_z { z_pend : list byte; z_next : znext St }.
  (* ::inflateInit2 and ::inflateReset *)
  Definition z_new : zst := mk_z [] (Z_go z_init).

  (* The return codes Z_OK, Z_STREAM_END, Z_DATA_ERROR (or Z_NEED_DICT) and Z_BUF_ERROR; Z_MEM_ERROR is not modelled. *)
  Inductive zret := ZR_ok | ZR_end | ZR_data | ZR_buf.

  (* ::inflate as documented in zlib.h, with the input [inp] and an output of [room] bytes: consume and deliver as much as
     possible.  The results are the output, the input that is left, the new state and the return code. *)
  Fixpoint z_loop (inp : list byte) (z : zst) (room : N) : list byte * list byte * zst * zret :=
    let k := Nat.min (N.to_nat (N.min room (N.of_nat (length (z_pend z))))) (length (z_pend z)) in
    let out := firstn k (z_pend z) in
    let room' := (room - N.of_nat k)%N in
    match skipn k (z_pend z) with
    | (_ :: _) as pend => (out, inp, mk_z pend (z_next z), ZR_ok)
    | [] =>
        match z_next z with
        | Z_bad => (out, inp, mk_z [] Z_bad, ZR_data)
        | Z_fin => (out, inp, mk_z [] Z_fin, ZR_end)
        | Z_go s =>
            if (room' =? 0)%N && z_stops s then (out, inp, mk_z [] (Z_go s), ZR_ok)
            else
              match inp with
              | [] => (out, [], mk_z [] (Z_go s), ZR_ok)
              | c :: inp' =>
                  let (o, nx) := z_step s c in
                  let '(out', inp'', z', r) := z_loop inp' (mk_z o nx) room' in
                  (out ++ out', inp'', z', r)
              end
        end
    end.
  Definition z_inflate (inp : list byte) (z : zst) (room : N) : list byte * list byte * zst * zret :=
    let '(out, inp', z', r) := z_loop inp z room in
    let r' :=
      match r with
      | ZR_ok => if (length out =? 0)%nat && (length inp' =? length inp)%nat then ZR_buf else ZR_ok
      | _ => r
      end in
    (out, inp', z', r').

  (* streams/detail/zlib.h:50-51 *)
  Record inflater := mk_inflater { i_stream : zst; i_state : zret }.
  Definition new_inflater : inflater := mk_inflater z_new ZR_end.
  Definition i_eof (i : inflater) : bool := match i_state i with ZR_end => true | _ => false end.

  (* streams/detail/zlib.cc:78-94 validate_state; an assertion that fails is UB. *)
  Definition validate_state (r : zret) : res unit :=
    match r with
    | ZR_ok | ZR_end => Ok tt
    | ZR_data => Throw Inflate_err
    | ZR_buf => UB
    end.

  (* streams/detail/zlib.cc:50-76 inflate into a span of [room] bytes: the bytes written, the rest of the input, the number of
     bytes that are left of the span, and the new state.  avail_out is a 32-bit number; so is avail_in, but the input has at
     most 512 KiB. *)
  Definition i_inflate (i : inflater) (inp : list byte) (room : N) : res (list byte * list byte * N) * inflater :=
    match validate_state (i_state i) with
    | Ok _ =>
        let avail_out := (room mod 2 ^ 32)%N in
        let '(out, inp', z, r) := z_inflate inp (i_stream i) avail_out in
        match validate_state r with
        | Ok _ =>
            let z' := match r with ZR_end => z_new | _ => z end in
            (Ok (out, inp', (avail_out - N.of_nat (length out))%N), mk_inflater z' r)
        | Throw e => (Throw e, mk_inflater z r)
        | UB => (UB, mk_inflater z r)
        | Fuel => (Fuel, i)
        end
    | Throw e => (Throw e, i)
    | UB => (UB, i)
    | Fuel => (Fuel, i)
    end.

  (* streams/gzip_inflate_stream.h: [g_buf] is the part of buffer_ from buffer_pos_ on. Closing is not modelled. *)
  Record gstream := mk_g { g_inner : stream; g_inflater : inflater; g_buf : list byte }.
  (* streams/gzip_inflate_stream.cc:30-34 *)
  Definition g_open (inner : stream) : gstream := mk_g inner new_inflater [].

  (* streams/gzip_inflate_stream.cc:47: 512 KiB *)
  Definition g_block : N := 524288%N.

  (* streams/gzip_inflate_stream.cc:63-71 *)
  Definition g_deliver (g : gstream) (n : N) : res (N * list byte) * gstream :=
    let (r, i) := i_inflate (g_inflater g) (g_buf g) n in
    match r with
    | Ok (out, inp, unused) => (Ok ((n - unused)%N, out), mk_g (g_inner g) i inp)
    | Throw e => (Throw e, mk_g (g_inner g) i (g_buf g))
    | UB => (UB, mk_g (g_inner g) i (g_buf g))
    | Fuel => (Fuel, mk_g (g_inner g) i (g_buf g))
    end.

  (* streams/gzip_inflate_stream.cc:38-72 read into a destination of [n] bytes: the number that is returned and the bytes that
     were written. *)
  Definition g_read (g : gstream) (n : N) : res (N * list byte) * gstream :=
    if (n =? 0)%N then (Ok (0%N, []), g)
    else
      match g_buf g with
      | [] =>
          let (bs, inner) := stream_read (g_inner g) g_block in
          match bs with
          | [] =>
              if i_eof (g_inflater g) then (Ok (0%N, []), mk_g inner (g_inflater g) [])
              else (Throw Inflate_err, mk_g inner (g_inflater g) [])
          | _ => g_deliver (mk_g inner (g_inflater g) bs) n
          end
      | _ => g_deliver g n
      end.

  (* A client that reads with the sizes [ns], whatever happens. *)
  Fixpoint g_reads (ns : list N) (g : gstream) : list (res (N * list byte)) :=
    match ns with
    | [] => []
    | n :: ns' => let (r, g') := g_read g n in r :: g_reads ns' g'
    end.
End Gzip.
Arguments Z_go {St}. Arguments Z_fin {St}. Arguments Z_bad {St}.
