(* What iterating over readers should mean.  In the specification nothing is ever destroyed and nothing is buffered: an
   object is a reader, which has a position in its data, or an iterator over a reader. *)
From Verif Require Import Common Model_iter.
From Coq Require Import List Arith.
Import ListNotations.

Inductive thing := T_reader (data : bool) (d : dataset) (epoch pos : nat) | T_iter (reader : nat).

(* The objects in the order in which they were made, and the variables. *)
Record world := mk_world { w_things : list thing; w_vars : nat -> option nat }.
Definition world0 : world := mk_world [] (fun _ => None).

Definition bound (f : nat -> option nat) (v : nat) (x : option nat) : nat -> option nat :=
  fun w => if w =? v then x else f w.

(* What a reader with this data has at this position. *)
Definition at_pos (d : dataset) (epoch pos : nat) (stop : seen) : seen :=
  match nth_error (ds_items d epoch) pos with
  | Some x => V_item x
  | None => match ds_tail d epoch with None => stop | Some x => V_raise x end
  end.

(* The position after one item was taken: it does not go beyond the last item. *)
Definition after (d : dataset) (epoch pos : nat) : nat := if pos <? length (ds_items d epoch) then S pos else pos.

Definition upd_thing (w : world) (i : nat) (t : thing) : world := mk_world (put (w_things w) i t) (w_vars w).

Definition meaning (w : world) (c : stmt) : world * seen :=
  let thing_of v := match w_vars w v with None => None | Some i => nth_error (w_things w) i end in
  match c with
  | S_new v data d => (mk_world (w_things w ++ [T_reader data d 0 0]) (bound (w_vars w) v (Some (length (w_things w)))), V_nothing)
  | S_copy v u =>
      match w_vars w u with None => (w, V_name_error) | Some i => (mk_world (w_things w) (bound (w_vars w) v (Some i)), V_nothing) end
  | S_iter v u =>
      match w_vars w u, thing_of u with
      | Some i, Some (T_reader _ _ _ _) =>
          (mk_world (w_things w ++ [T_iter i]) (bound (w_vars w) v (Some (length (w_things w)))), V_nothing)
      | Some i, Some (T_iter _) => (mk_world (w_things w) (bound (w_vars w) v (Some i)), V_nothing)
      | _, _ => (w, V_name_error)
      end
  | S_next v =>
      match thing_of v with
      | Some (T_iter i) =>
          match nth_error (w_things w) i with
          | Some (T_reader b d ep pos) => (upd_thing w i (T_reader b d ep (after d ep pos)), at_pos d ep pos V_stop)
          | _ => (w, V_type_error)
          end
      | Some (T_reader _ _ _ _) => (w, V_type_error)
      | None => (w, V_name_error)
      end
  | S_read v =>
      match w_vars w v, thing_of v with
      | Some i, Some (T_reader b d ep pos) => (upd_thing w i (T_reader b d ep (after d ep pos)), at_pos d ep pos V_none)
      | _, Some (T_iter _) => (w, V_type_error)
      | _, _ => (w, V_name_error)
      end
  | S_peek v =>
      match thing_of v with
      | Some (T_reader _ d ep pos) => (w, at_pos d ep pos V_none)
      | Some (T_iter _) => (w, V_type_error)
      | None => (w, V_name_error)
      end
  | S_reset v =>
      match w_vars w v, thing_of v with
      | Some i, Some (T_reader true d ep _) => (upd_thing w i (T_reader true d (S ep) 0), V_nothing)
      | Some _, Some _ => (w, V_type_error)
      | _, _ => (w, V_name_error)
      end
  | S_del v => match w_vars w v with None => (w, V_name_error) | Some _ => (mk_world (w_things w) (bound (w_vars w) v None), V_nothing) end
  end.

Fixpoint meanings (w : world) (p : list stmt) : list seen :=
  match p with [] => [] | c :: p' => let (w', x) := meaning w c in x :: meanings w' p' end.

(* Statements that are not a reset. *)
Definition no_reset (c : stmt) : bool := match c with S_reset _ => false | _ => true end.

(* ---------------- Several Python threads ---------------- *)

(* Every call finds the reader to itself: a thread may begin a call only when no other thread is inside one. *)
Definition inside (p : pc) : bool := match p with P_idle => false | _ => true end.
Fixpoint one_at_a_time (t : tstate) (sched : list nat) : Prop :=
  match sched with
  | [] => True
  | i :: l =>
      (nth_error (t_pcs t) i = Some P_idle -> existsb inside (t_pcs t) = false) /\
      (forall t', tstep t i = Ok t' -> one_at_a_time t' l)
  end.

(* A reader before its first call by n threads: an example may have been peeked, none of the swaps brings nothing. *)
Definition ready (n : nat) (peeked : option item) (batches : list (list item)) : tstate :=
  mk_t peeked [] (map (map Some) batches) (repeat P_idle n) [].

Definition all_items (peeked : option item) (batches : list (list item)) : list item :=
  match peeked with Some x => [x] | None => [] end ++ concat batches.

(* Statements that give the variable v another value. *)
Definition assigns (v : nat) (c : stmt) : bool :=
  match c with S_new u _ _ | S_iter u _ | S_copy u _ | S_del u => u =? v | _ => false end.
