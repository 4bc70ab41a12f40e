(* What the parallel reader should do, in terms of decoding the batches one after the other. *)
From Verif Require Import Common Model_par.

(* the examples of a single-threaded reader, up to the first batch that cannot be decoded *)
Fixpoint sequential {B E} (decode : B -> dres E) (bs : list B) : list E :=
  match bs with
  | [] => []
  | b :: r =>
      match decode b with
      | D_example e => e :: sequential decode r
      | D_skip => sequential decode r
      | D_fail _ => []
      end
  end.

Definition decodable {B E} (decode : B -> dres E) (b : B) : Prop := forall x, decode b <> D_fail x.

(* the size of the batches that became examples *)
Fixpoint total_bytes {B E} (decode : B -> dres E) (size : B -> nat) (bs : list B) : nat :=
  match bs with
  | [] => 0
  | b :: r => match decode b with D_example _ => size b | _ => 0 end + total_bytes decode size r
  end.

(* the examples the client has received *)
Fixpoint delivered {E} (l : list (@out E)) : list E :=
  match l with
  | [] => []
  | O_example e :: r => e :: delivered r
  | _ :: r => delivered r
  end.

(* the steps of the threads, the client's included when it is inside a call; the others are the client's calls *)
Definition internal (a : action) : bool :=
  match a with A_read | A_stop | A_reset => false | _ => true end.

Section Spec.
  Context {B E : Type} (decode : B -> dres E) (size_bytes : B -> nat).
  Context (src : nat -> list B) (src_end : nat -> option exn) (prefetch reads : nat).

  (* the states that some interleaving leads to *)
  Definition reachable (s : @st E) : Prop :=
    exists l, exec decode size_bytes src src_end prefetch reads (init 0) l = Some s.

  (* the error x can be raised in epoch ep: by the reading of the batches or the decoding of one *)
  Definition error_of (ep : nat) (x : exn) : Prop :=
    src_end ep = Some x \/ exists b, In b (src ep) /\ decode b = D_fail x.
End Spec.

Definition opt_len {X} (o : option X) : nat := match o with Some _ => 1 | None => 0 end.

(* batches being decoded or decoded, and examples, that the client has not received *)
Definition in_decoding {E} (s : @st E) : nat := length (d_list s).
Definition undelivered {E} (s : @st E) : nat :=
  length (d_list s) + length (o_buf s) + length (q_pend s) + opt_len (q_run s) + length (fillq s) + length (readq s).

(* Whatever the threads do next, a state with P is reached; the client makes no other call in between. *)
Inductive inevitable {E} (step : @st E -> action -> option st) (P : st -> Prop) (s : st) : Prop :=
| now : P s -> inevitable step P s
| later : (exists a s', internal a = true /\ step s a = Some s') ->
    (forall a s', internal a = true -> step s a = Some s' -> inevitable step P s') -> inevitable step P s.

(* number of steps of the threads and of calls in a run *)
Definition internal_steps (l : list action) : nat := length (filter internal l).
Definition calls (l : list action) : nat := length (filter (fun a => negb (internal a)) l).
