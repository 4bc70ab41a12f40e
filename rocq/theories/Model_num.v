(* Model of the number and cell parsers and of the data type inference.
   /repo/src/mlio/util/number.cc, src/mlio/util/string.cc, src/mlio/parser.cc,
   src/mlio/data_type.cc. *)
From Verif Require Import Common.
Local Open Scope Z_scope.

(* include/mlio/parser.h:31 Parse_result, together with the value stored. *)
Inductive presult (A : Type) : Type :=
| P_ok (a : A)
| P_failed
| P_overflowed.
Arguments P_ok {A} a.
Arguments P_failed {A}.
Arguments P_overflowed {A}.

(* The integer types: signedness and width.  size_t is taken to be 64 bits wide. *)
Inductive ity := i8 | i16 | i32 | i64 | u8 | u16 | u32 | u64.
Definition signed (t : ity) : bool :=
  match t with i8 | i16 | i32 | i64 => true | _ => false end.
Definition bits (t : ity) : Z :=
  match t with i8 | u8 => 8 | i16 | u16 => 16 | i32 | u32 => 32 | i64 | u64 => 64 end.
Definition imin (t : ity) : Z := if signed t then - 2 ^ (bits t - 1) else 0.
Definition imax (t : ity) : Z := if signed t then 2 ^ (bits t - 1) - 1 else 2 ^ bits t - 1.

(* absl::ascii_isspace and std::isspace in the "C" locale. *)
Definition is_space (c : byte) : bool := N.eqb c 32 || (N.leb 9 c && N.leb c 13).

(* absl::SimpleAtoi is not part of /repo (src/mlio/util/number.cc:47-50 refers to it).
   The next definitions transcribe its implementation, absl/strings/numbers.cc, for base 10:
   safe_parse_sign_and_base, safe_parse_positive_int, safe_parse_negative_int,
   safe_int_internal and safe_uint_internal.  The result is the returned flag and the
   final content of the output variable. *)
Definition digit (c : byte) : option Z :=
  if N.leb 48 c && N.leb c 57 then Some (Z.of_N c - 48) else None.

Fixpoint drop_space (s : list byte) : list byte :=
  match s with
  | c :: r => if is_space c then drop_space r else s
  | [] => []
  end.
Definition strip (s : list byte) : list byte := rev (drop_space (rev (drop_space s))).

(* None: no number; otherwise whether there is a minus sign, and the rest. *)
Definition sign_of (s : list byte) : option (bool * list byte) :=
  match strip s with
  | [] => None
  | c :: r =>
      if N.eqb c 45 || N.eqb c 43
      then match r with [] => None | _ => Some (N.eqb c 45, r) end
      else Some (false, c :: r)
  end.

Fixpoint parse_positive (vmax : Z) (v : Z) (s : list byte) : bool * Z :=
  match s with
  | [] => (true, v)
  | c :: r =>
      match digit c with
      | None => (false, v)
      | Some d =>
          if v >? vmax / 10 then (false, vmax)
          else if v * 10 >? vmax - d then (false, vmax)
          else parse_positive vmax (v * 10 + d) r
      end
  end.

Fixpoint parse_negative (vmin : Z) (v : Z) (s : list byte) : bool * Z :=
  match s with
  | [] => (true, v)
  | c :: r =>
      match digit c with
      | None => (false, v)
      | Some d =>
          if v <? Z.quot vmin 10 then (false, vmin)
          else if v * 10 <? vmin + d then (false, vmin)
          else parse_negative vmin (v * 10 - d) r
      end
  end.

Definition simple_atoi (t : ity) (s : list byte) : bool * Z :=
  match sign_of s with
  | None => (false, 0)
  | Some (neg, r) =>
      if neg
      then if signed t then parse_negative (imin t) 0 r else (false, 0)
      else parse_positive (imax t) 0 r
  end.

(* number.cc:81-99 try_parse_int_core for types of four bytes or more. *)
Definition parse_wide (t : ity) (s : list byte) : presult Z :=
  let (ok, v) := simple_atoi t s in
  if ok then P_ok v
  else if (v =? imax t) || (v =? imin t) then P_overflowed else P_failed.

(* number.cc:101-121 try_parse_int_core for the types of one or two bytes. *)
Definition parse_narrow (t : ity) (s : list byte) : presult Z :=
  match parse_wide (if signed t then i32 else u32) s with
  | P_ok v => if (v <? imin t) || (v >? imax t) then P_overflowed else P_ok v
  | r => r
  end.

(* number.cc:142-147 try_parse_int.  The options (the base) are not used. *)
Definition try_parse_int (t : ity) (base : Z) (s : list byte) : presult Z :=
  match t with
  | i8 | i16 | u8 | u16 => parse_narrow t s
  | _ => parse_wide t s
  end.

(* number.cc:177-180 *)
Definition try_parse_size_t (s : list byte) : presult Z := try_parse_int u64 0 s.

(* include/mlio/data_type.h:35-49 Data_type *)
Inductive dtype := D_size | D_float16 | D_float32 | D_float64 | D_int (t : ity) | D_string.

(* util/string.cc:27-60 trim.  The characters are plain (signed) chars converted to int,
   so std::isspace is called with a negative number, which is undefined, for every
   character from 128 on that it looks at. *)
Fixpoint ltrim (s : list byte) : res (list byte) :=
  match s with
  | [] => Ok []
  | c :: r => if N.leb 128 c then UB else if is_space c then ltrim r else Ok s
  end.
Definition trim (s : list byte) : res (list byte) :=
  let* a := ltrim s in
  let* b := ltrim (rev a) in
  Ok (rev b).

Section Cells.
  (* Floating-point numbers are abstract: a type of values, absl::SimpleAtof and
     absl::SimpleAtod (None when they return false), the test for infinity, and NaN. *)
  Context (F : Type) (atof atod : list byte -> option F) (is_inf : F -> bool) (qnan : F).

  (* number.cc:54-79 try_parse_float_core.  [nans] is the set of NaN spellings. *)
  Definition try_parse_float (conv : list byte -> option F) (nans : list (list byte))
      (s : list byte) : res (presult F) :=
    match conv s with
    | None =>
        match nans with
        | [] => Ok P_failed
        | _ =>
            let* w := trim s in
            if existsb (fun n => if list_eq_dec N.eq_dec n w then true else false) nans
            then Ok (P_ok qnan) else Ok P_failed
        end
    | Some v => if is_inf v then Ok P_overflowed else Ok (P_ok v)
    end.

  (* A value stored in a cell of a tensor. *)
  Inductive val := V_int (z : Z) | V_float (f : F) | V_string (s : list byte).

  Definition pmap {A B : Type} (f : A -> B) (r : presult A) : presult B :=
    match r with P_ok a => P_ok (f a) | P_failed => P_failed | P_overflowed => P_overflowed end.

  (* parser.cc:36-99 make_parser: the parser of a data type. *)
  Definition parse_cell (dt : dtype) (nans : list (list byte)) (base : Z) (s : list byte)
    : res (presult val) :=
    match dt with
    | D_size => Ok (pmap V_int (try_parse_size_t s))
    | D_float16 => Ok P_failed
    | D_float32 => rmap (pmap V_float) (try_parse_float atof nans s)
    | D_float64 => rmap (pmap V_float) (try_parse_float atod nans s)
    | D_int t => Ok (pmap V_int (try_parse_int t base s))
    | D_string => Ok (P_ok (V_string s))
    end.

  (* data_type.cc:24-51 infer_data_type *)
  Definition infer_data_type (s : list byte) : res dtype :=
    match s with
    | [] => Ok D_string
    | _ =>
        let try_double :=
          let* r := try_parse_float atod [] s in
          match r with P_ok _ => Ok D_float64 | _ => Ok D_string end in
        match try_parse_int i64 0 s with
        | P_ok _ => Ok (D_int i64)
        | P_overflowed =>
            match try_parse_int u64 0 s with
            | P_ok _ => Ok (D_int u64)
            | _ => try_double
            end
        | P_failed => try_double
        end
    end.
End Cells.
