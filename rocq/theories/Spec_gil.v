(* Specification for C86: programs that use a reader from Python. *)
From Verif Require Import Common Model_gil.

(* No thread can take a step. *)
Definition stuck (cap : nat) (s : state) : Prop := forall t, step cap t s = Blocked.

(* [n] steps of some threads lead from one state to another. *)
Inductive moves (cap : nat) : nat -> state -> state -> Prop :=
| moves_none s : moves cap 0 s s
| moves_more n t s s1 s2 : step cap t s = Next s1 -> moves cap n s1 s2 -> moves cap (S n) s s2.

(* The Python thread has executed the whole program. *)
Definition finished (s : state) : Prop := main s = [].

(* Whatever the scheduler does, the program comes to its end: there is a bound on the number of steps, and as long as the program
   is not finished, some thread can take one; no step crashes. *)
Definition always_finishes (cap : nat) (s : state) : Prop :=
  exists bound, forall n s', moves cap n s s' ->
    (n <= bound)%nat /\ (stuck cap s' -> finished s') /\ (forall t, step cap t s' <> Crash).

(* The log handler is only changed while the reader is not running: before the first read, or after a reset or deletion. *)
Fixpoint handlers_when_idle (running : bool) (calls : list call) : Prop :=
  match calls with
  | [] => True
  | (Call_set_handler | Call_clear_handler) :: r => running = false /\ handlers_when_idle running r
  | Call_read _ :: r => handlers_when_idle true r
  | (Call_reset | Call_delete) :: r => handlers_when_idle false r
  | _ :: r => handlers_when_idle running r
  end.

(* Somewhere in the background work of some epoch. *)
Definition occurs (o : wop) (epochs : list (list (list wop))) : Prop := exists e p, In e epochs /\ In p e /\ In o p.

(* The background work never calls Python. *)
Definition silent (calls : list call) (epochs : list (list (list wop))) : Prop :=
  ~ occurs W_store epochs /\ (~ occurs W_log epochs \/ ~ In Call_set_handler calls).

(* No stream implemented in Python is involved. *)
Definition no_py_stream (calls : list call) (epochs : list (list (list wop))) : Prop :=
  ~ occurs W_stream epochs /\ ~ In Call_py_stream calls.
