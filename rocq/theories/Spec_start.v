(* Starting the background thread: what a user expects. *)
From Verif Require Import Common Model_par Model_start.

(* The system granted every thread that was asked for. *)
Definition granted (a : hact) : Prop := match a with H_read Granted | H_act _ => True | _ => False end.
(* The same history for the reader alone. *)
Definition plain (a : hact) : action := match a with H_read _ => A_read | H_act a => a end.
