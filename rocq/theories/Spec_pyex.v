(* Specification for C90: an example is a list of named features. *)
From Verif Require Import Common Model_num Model_tsr Spec_tsr Model_pyex.
From Coq Require Import ZArith.
Local Open Scope Z_scope.

(* Programs that only look. *)
Definition looks_only (o : pyop) : Prop :=
  match o with P_append _ | P_delete _ | P_clear | P_assign _ _ => False | _ => True end.

(* What an expression has to yield for the named features [nf]. *)
Definition expected {T} (nf : list (list byte * T)) (o : pyop) (v : pyvalue T) : Prop :=
  let size := Z.of_nat (length nf) in
  match o with
  | P_len => v = V_number (length nf)
  | P_get_name n => (exists t, In (n, t) nf /\ v = V_feature t) \/ (~ In n (map fst nf) /\ v = V_error KeyError)
  | P_get_index i =>
      (0 <= i < size /\ exists n t, nth_error nf (Z.to_nat i) = Some (n, t) /\ v = V_feature t) \/
      (size <= i < 2 ^ 64 /\ v = V_error KeyError) \/ ((i < 0 \/ 2 ^ 64 <= i) /\ v = V_error TypeError)
  | P_has_name n => (In n (map fst nf) /\ v = V_bool true) \/ (~ In n (map fst nf) /\ v = V_bool false)
  | P_has_index i =>
      (0 <= i < size /\ v = V_bool true) \/ (size <= i < 2 ^ 64 /\ v = V_bool false) \/
      ((i < 0 \/ 2 ^ 64 <= i) /\ v = V_error TypeError)
  | P_iterate => v = V_features (map snd nf)
  | P_schema_index n =>
      (exists k t, nth_error nf k = Some (n, t) /\ v = V_number k) \/ (~ In n (map fst nf) /\ v = V_none)
  | P_names => v = V_names (map fst nf)
  | P_repr => v = V_text nf
  | _ => True
  end.

(* The rows of a table: the items of the column at each place. *)
Definition column_holds {V} (c : list V) (shape : list Z) (item : list Z -> V) : Prop :=
  Z.of_nat (length c) = volume shape /\
  forall idx, in_range shape idx -> nth_error c (Z.to_nat (row_major shape idx)) = Some (item idx).

(* A dense feature with [k] items. *)
Definition dense_of {V} (k : Z) (f : feature V) : Prop :=
  exists shape item, f = Dense shape item /\ Forall (fun d => 0 <= d) shape /\ volume shape = k.

(* What changing the list of attributes [l] does to it, as a Python list: positions below zero count from the end. *)
Definition at_position (i : Z) (size : nat) (k : nat) : Prop := Z.of_nat k = i \/ (i < 0 /\ Z.of_nat k = i + Z.of_nat size).
Definition outside (i : Z) (size : nat) : Prop := i < - Z.of_nat size \/ Z.of_nat size <= i.
Definition list_effect {T} (l : list attribute) (o : pyop) (l' : list attribute) (v : pyvalue T) : Prop :=
  match o with
  | P_append a => l' = l ++ [a] /\ v = V_none
  | P_clear => l' = [] /\ v = V_none
  | P_delete i =>
      (exists l1 x l2, l = l1 ++ x :: l2 /\ at_position i (length l) (length l1) /\ l' = l1 ++ l2 /\ v = V_none) \/
      (outside i (length l) /\ l' = l /\ v = V_error IndexError)
  | P_assign i a =>
      (exists l1 x l2, l = l1 ++ x :: l2 /\ at_position i (length l) (length l1) /\ l' = l1 ++ a :: l2 /\ v = V_none) \/
      (outside i (length l) /\ l' = l /\ v = V_error IndexError)
  | _ => l' = l
  end.
