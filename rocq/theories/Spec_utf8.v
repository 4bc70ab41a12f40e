(* Text in an encoding, and what it is in UTF-8. *)
From Verif Require Import Common Model_utf8.

(* How a text ends: after a complete character, within a character, or with bytes that are invalid. *)
Inductive text_end := T_complete | T_incomplete | T_invalid.

Section Spec.
  Variable St : Type.
  Variable iconv_open : encoding -> option St.
  Variable cv : encoding -> St -> list byte -> cres St.

  (* [inp] converts to [out]. *)
  Inductive converts (e : encoding) : St -> list byte -> list byte -> text_end -> Prop :=
  | V_complete s : converts e s [] [] T_complete
  | V_incomplete s inp : inp <> [] -> cv e s inp = Cv_incomplete -> converts e s inp [] T_incomplete
  | V_invalid s inp : inp <> [] -> cv e s inp = Cv_invalid -> converts e s inp [] T_invalid
  | V_unit s inp n o s' out t : inp <> [] -> cv e s inp = Cv_unit n o s' -> converts e s' (skipn n inp) out t -> converts e s inp (o ++ out) t.

  (* A converter: it consumes something and writes at most 4 bytes at a time, further input does not change what it has decided, and
     an incomplete character is not as long as the buffer of 32 MiB. *)
  Definition converter : Prop := forall e s inp, inp <> [] ->
    match cv e s inp with
    | Cv_unit n o s' => 0 < n <= length inp /\ length o <= 4 /\ forall more, cv e s (inp ++ more) = Cv_unit n o s'
    | Cv_invalid => forall more, cv e s (inp ++ more) = Cv_invalid
    | Cv_incomplete => (N.of_nat (length inp) < 32 * 1024 * 1024)%N
    end.

  Definition begins (p content : list byte) : bool := if list_eq_dec N.eq_dec (firstn (length p) content) p then true else false.
  (* The encoding the byte order mark declares; without one, UTF-8. *)
  Definition declared (content : list byte) : encoding :=
    if begins [239; 187; 191]%N content then E_utf8
    else if begins [0; 0; 254; 255]%N content then E_utf32_be
    else if begins [255; 254; 0; 0]%N content then E_utf32_le
    else if begins [254; 255]%N content then E_utf16_be
    else if begins [255; 254]%N content then E_utf16_le
    else E_utf8.
  Definition effective (given : option encoding) (content : list byte) : encoding :=
    match given with Some e => e | None => declared content end.

  (* The content of a stream in UTF-8. *)
  Definition in_utf8 (e : encoding) (content out : list byte) (t : text_end) : Prop :=
    if encoding_eqb e E_utf8 then out = content /\ t = T_complete
    else exists s, iconv_open e = Some s /\ converts e s content out t.

  Definition answer_ok (n : nat) (r : res (list byte)) : Prop := exists bs, r = Ok bs /\ length bs <= n.
  Fixpoint got (rs : list (res (list byte))) : list byte :=
    match rs with Ok bs :: rs' => bs ++ got rs' | _ :: rs' => got rs' | [] => [] end.
  (* The answers [rs] to reads with the sizes [ns] deliver [out], a text that ends with [t]: never anything else; an empty answer means
     that there is no more; a text that is incomplete or invalid is reported, and after enough reads everything has arrived. *)
  Definition delivers (out : list byte) (t : text_end) (ns : list nat) (rs : list (res (list byte))) : Prop :=
    exists ns1 ns2 rs1, ns = ns1 ++ ns2 /\ Forall2 answer_ok ns1 rs1 /\ (exists more, out = got rs1 ++ more) /\
      (rs = rs1 /\ ns2 = [] \/ rs = rs1 ++ [Throw Stream_err] /\ ns2 <> [] /\ t <> T_complete) /\
      (forall i, nth_error rs i = Some (Ok []) -> got (firstn i rs) = out /\ t = T_complete) /\
      (length out <= length ns -> t = T_complete -> got rs = out) /\
      (length out < length ns -> t <> T_complete -> exists rs', rs = rs' ++ [Throw Stream_err]).
End Spec.
