(* What is expected of counted pointers. *)
From Verif Require Import Common Model_ptr.

(* All references to objects: from variables, from raw pointers that own a count, from members of objects that exist. *)
Definition referenced (s : rstate) (o : nat) : Prop :=
  In (Some (Some o)) (r_roots s) \/ In (Some o) (r_raws s) \/
  exists i b, nth_error (r_heap s) i = Some b /\ o_dels b = 0 /\ In (Some o) (o_fields b).

(* Every object exists as long as something refers to it, and is deleted once when nothing does any more. *)
Definition exact (s : rstate) : Prop :=
  (forall o, referenced s o -> exists b, nth_error (r_heap s) o = Some b /\ o_dels b = 0) /\
  (forall o b, nth_error (r_heap s) o = Some b -> (o_dels b = 1 <-> ~ referenced s o) /\ o_dels b <= 1).

(* A pointer that a program may touch while the one at d changes: a variable, or a member of an object that a variable
   (not d itself) points to. *)
Definition within_reach (s : rstate) (d : option slot) (x : slot) : Prop :=
  match x with
  | Root r => exists v, nth_error (r_roots s) r = Some (Some v)
  | Field o k =>
    (exists r, nth_error (r_roots s) r = Some (Some (Some o)) /\ d <> Some (Root r)) /\
    exists b, nth_error (r_heap s) o = Some b /\ k < length (o_fields b)
  end.

(* An operation a program may perform. *)
Definition proper (s : rstate) (o : rop) : Prop :=
  match o with
  | R_make _ | R_null => True
  | R_copy x | R_move x | R_reset x | R_release x => within_reach s None x
  | R_assign d x | R_move_assign d x => within_reach s None d /\ within_reach s (Some d) x
  | R_destroy r => within_reach s None (Root r)
  | R_adopt i _ => i < length (r_raws s)
  | R_use x => within_reach s None x /\ get_slot s x <> Ok None
  end.
Fixpoint proper_run (s : rstate) (ops : list rop) : Prop :=
  match ops with
  | [] => True
  | o :: t => proper s o /\ forall s1, r_step s o = Ok s1 -> proper_run s1 t
  end.

(* The same for the steps of several threads: a pointer is null before it is given a value. *)
Definition proper_k (k : kstate) (o : kop) : Prop :=
  let s := k_state k in
  match o with
  | K_null => True
  | K_make d _ => within_reach s None d /\ get_slot s d = Ok None
  | K_copy d x | K_move d x => within_reach s None d /\ get_slot s d = Ok None /\ within_reach s None x
  | K_drop d => within_reach s None d
  | K_work i => i < length (k_due k)
  end.
Fixpoint proper_sched (k : kstate) (ops : list kop) : Prop :=
  match ops with
  | [] => True
  | o :: t => proper_k k o /\ forall k1, k_step k o = Ok k1 -> proper_sched k1 t
  end.
