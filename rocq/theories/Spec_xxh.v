(* Words for the properties of the hash behind the cardinality sketches. *)
From Verif Require Import Common Model_insights Spec_insights Model_xxh.
Import List.
Local Open Scope N_scope.

(* Strings are made of bytes. *)
Definition bytes (s : list byte) : Prop := Forall (fun c => c < 256) s.

(* A number that fits in a 32 bit register. *)
Definition word (x : N) : Prop := x < 4294967296.
