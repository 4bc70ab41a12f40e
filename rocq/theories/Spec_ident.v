(* What equality of data stores means. *)
From Verif Require Import Common Model_names Model_ident.

(* Two stores of the same class and with the same compression. *)
Definition same_sort (a b : dstore) : Prop :=
  match a, b with
  | S_file _ _ c, S_file _ _ d | S_memory _ _ c, S_memory _ _ d | S_object _ _ c, S_object _ _ d | S_pipe _ _ c, S_pipe _ _ d => c = d
  | _, _ => False
  end.

(* A store of MLIO itself. *)
Definition native (a : dstore) : Prop := match a with S_python _ => False | _ => True end.

(* One in a process with 64 bits; the URI of an object has no at sign (64). *)
Definition regular (a : dstore) : Prop :=
  match a with
  | S_memory p n _ => (p < 2 ^ 64)%N /\ (n < 2 ^ 64)%N
  | S_object u _ _ => ~ In 64%N u
  | S_python _ => False
  | _ => True
  end.
