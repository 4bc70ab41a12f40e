(* What a decimal integer is, independently of how it is parsed. *)
From Verif Require Import Common Model_num.
Local Open Scope Z_scope.

Definition is_digit (c : byte) : Prop := (48 <= c <= 57)%N.
Definition space (c : byte) : Prop := (c = 32 \/ 9 <= c <= 13)%N.

(* The value of a string of digits: each further digit multiplies by ten. *)
Fixpoint value_from (a : Z) (ds : list byte) : Z :=
  match ds with
  | [] => a
  | c :: r => value_from (10 * a + (Z.of_N c - 48)) r
  end.
Definition value (ds : list byte) : Z := value_from 0 ds.

(* An optional sign: nothing, + or -. *)
Definition sign_text (sg : list byte) (neg : bool) : Prop :=
  (sg = [] /\ neg = false) \/ (sg = [43%N] /\ neg = false) \/ (sg = [45%N] /\ neg = true).

Definition with_sign (neg : bool) (v : Z) : Z := if neg then - v else v.

(* [written s neg z]: s is white space, an optional sign, at least one digit, white space,
   and denotes z; [neg] tells whether there is a minus sign. *)
Definition written (s : list byte) (neg : bool) (z : Z) : Prop :=
  exists w sg ds w' : list byte,
    s = w ++ sg ++ ds ++ w' /\ Forall space w /\ sign_text sg neg /\
    ds <> [] /\ Forall is_digit ds /\ Forall space w' /\ z = with_sign neg (value ds).

Definition malformed (s : list byte) : Prop := forall neg z, ~ written s neg z.

Definition in_range (t : ity) (z : Z) : Prop :=
  match t with
  | i8 => -128 <= z <= 127
  | i16 => -32768 <= z <= 32767
  | i32 => -2147483648 <= z <= 2147483647
  | i64 => -9223372036854775808 <= z <= 9223372036854775807
  | u8 => 0 <= z <= 255
  | u16 => 0 <= z <= 65535
  | u32 => 0 <= z <= 4294967295
  | u64 => 0 <= z <= 18446744073709551615
  end.

(* Strictly inside the range of the type in which the conversion is done. *)
Definition inside (t : ity) (z : Z) : Prop :=
  match t with
  | i8 | i16 | i32 => -2147483648 < z < 2147483647
  | i64 => -9223372036854775808 < z < 9223372036854775807
  | u8 | u16 | u32 => 0 < z < 4294967295
  | u64 => 0 < z < 18446744073709551615
  end.

Definition starts_with_digit (s : list byte) : Prop :=
  exists c r, s = c :: r /\ is_digit c.

Definition no_sign (c : byte) : Prop := c <> 45%N /\ c <> 43%N.

(* Digits in a base up to 36, and the number they denote. *)
Definition digit_in (c : byte) : Z :=
  if N.leb 97 c then Z.of_N c - 87 else if N.leb 65 c then Z.of_N c - 55 else Z.of_N c - 48.
Fixpoint value_in (base a : Z) (ds : list byte) : Z :=
  match ds with
  | [] => a
  | c :: r => value_in base (base * a + digit_in c) r
  end.
