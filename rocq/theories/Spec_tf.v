(* What a dataset of TensorFlow should give. *)
From Verif Require Import Common Model_iter Model_tf.
From Coq Require Import List Arith Bool.
Import ListNotations.

(* The value that goes with a name. *)
Definition has (ex : list (name * value)) (n : name) (v : value) : Prop := find_entry ex n = Some v.

(* The element for an example: the features that were asked for, with their values, and no others. *)
Definition element_of (s : setup) (x : item) (d : dict) : Prop :=
  forall n v, has d n v <-> In n (p_features s) /\ has (p_content s x) n v.

(* The arguments fit: there is a type for each feature that was asked for. *)
Definition typed (s : setup) : Prop := forall n, In n (p_features s) -> In n (firstn (length (p_dtypes s)) (p_features s)).

(* An example has all features that were asked for. *)
Definition complete (s : setup) (x : item) : Prop := forall n, In n (p_features s) -> exists v, has (p_content s x) n v.

(* What an observer sees of the examples. *)
Definition shows (s : setup) (o : out) (x : item) : Prop :=
  match o with R_element d => element_of s x d | R_item y => y = x | _ => False end.
Definition delivers (o : out) : bool := match o with R_element _ | R_item _ => true | _ => false end.

(* The end of the data of an epoch, for a loop. *)
Definition ending (d : dataset) (epoch : nat) : out := match ds_tail d epoch with None => R_stop | Some x => R_raise (X_reader x) end.

(* A loop over the dataset with iterator i: iter(), and next() n times. *)
Definition loop (i n : nat) : list act := T_iter :: repeat (T_next i) n.
Definition no_reset (a : act) : bool := match a with T_reset => false | _ => true end.

(* Some of the elements of a list, in their order. *)
Inductive some_of {A} : list A -> list A -> Prop :=
| so_nil : forall l, some_of [] l
| so_take : forall a x l, some_of a l -> some_of (x :: a) (x :: l)
| so_skip : forall a x l, some_of a l -> some_of a (x :: l).

(* n loops over the dataset, each to its end, with a reset after each. *)
Fixpoint epochs (d : dataset) (e n : nat) : list act :=
  match n with 0 => [] | S n' => loop e (S (length (ds_items d e))) ++ T_reset :: epochs d (S e) n' end.
