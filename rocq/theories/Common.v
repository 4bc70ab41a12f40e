(* Shared vocabulary of the model: outcomes of C++ calls, bytes, list helpers. *)
From Coq Require Export List Arith NArith ZArith Lia Bool.
From Coq Require Export ZifyBool ZifyNat ZifyN.
Export ListNotations.

(* Exceptions thrown by the modelled code.  One constructor per C++ exception
   class (include/mlio/*_error.h, include/mlio/data_reader_error.h and the std:: classes used). *)
Inductive exn : Set :=
| Corrupt_record        (* mlio::Corrupt_record_error *)
| Corrupt_header        (* mlio::Corrupt_header_error *)
| Corrupt_footer        (* mlio::Corrupt_footer_error *)
| Record_too_large      (* mlio::Record_too_large_error *)
| Invalid_instance      (* mlio::Invalid_instance_error *)
| Schema_err            (* mlio::Schema_error *)
| Stream_err            (* mlio::Stream_error *)
| Inflate_err           (* mlio::Inflate_error *)
| Not_supported         (* mlio::Not_supported_error *)
| Invalid_argument      (* std::invalid_argument *)
| System_err            (* std::system_error *)
| Other_err.            (* any other exception *)

(* Outcome of a call.  [UB] is undefined behaviour, [Fuel] the artificial
   outcome of an exhausted recursion bound in the model. *)
Inductive res (A : Type) : Type :=
| Ok (a : A)
| Throw (e : exn)
| UB
| Fuel.
Arguments Ok {A} a.
Arguments Throw {A} e.
Arguments UB {A}.
Arguments Fuel {A}.

Definition bind {A B : Type} (m : res A) (k : A -> res B) : res B :=
  match m with
  | Ok a => k a
  | Throw e => Throw e
  | UB => UB
  | Fuel => Fuel
  end.

Definition rmap {A B : Type} (f : A -> B) (m : res A) : res B := bind m (fun a => Ok (f a)).

Declare Scope res_scope.
Notation "'let*' x := m 'in' k" := (bind m (fun x => k))
  (at level 200, x pattern, m at level 100, k at level 200, right associativity) : res_scope.
Open Scope res_scope.

(* A byte or character.  Bytes proper are the values below 256. *)
Definition byte := N.
Bind Scope N_scope with byte.
Definition is_byte (b : byte) : Prop := (b < 256)%N.

Definition LF : byte := 10%N.
Definition CR : byte := 13%N.
