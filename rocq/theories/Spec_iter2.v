(* The pipeline behind a data reader as the kind of reader that Model_iter.v assumes. *)
From Verif Require Import Common Model_par Model_iter.
From Coq Require Import List Arith.
Import ListNotations.

(* The same result, where the item i stands for the i-th of the examples es. *)
Definition same_out {E} (es : list E) (g : got) (o : @Model_par.out E) : Prop :=
  match g, o with
  | G_item i, Model_par.O_example e => nth_error es i = Some e
  | G_end, Model_par.O_end => True
  | G_error x, Model_par.O_error y => x = y
  | _, _ => False
  end.
