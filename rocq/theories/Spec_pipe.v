(* What a program relies on when it reads a SageMaker channel through streams. *)
From Verif Require Import Common Model_pipe.

Local Open Scope Z_scope.

(* A stream holds its channel from its construction until it is closed. *)
Definition holds (p : path) (st : pstream) : bool :=
  (if path_dec (ps_path st) p then true else false) &&
  match ps_phase st with Ph_made => true | Ph_ready => ps_fd st | Ph_dead => false end.
(* A stream exists from its construction until it is destroyed. *)
Definition exists_on (p : path) (st : pstream) : bool :=
  (if path_dec (ps_path st) p then true else false) && match ps_phase st with Ph_dead => false | _ => true end.
Definition holders (p : path) (s : pstate) : nat := length (filter (holds p) (pp_streams s)).
Definition existing (p : path) (s : pstate) : nat := length (filter (exists_on p) (pp_streams s)).

(* The FIFOs of a channel are opened in sequence from [next] on, except where a program asks for a certain one. *)
Fixpoint in_sequence (p : path) (next : Z) (tr : list pevent) : Prop :=
  match tr with
  | [] => True
  | Ev_start q i :: t => if path_dec q p then in_sequence p i t else in_sequence p next t
  | Ev_open q i :: t => if path_dec q p then i = next /\ in_sequence p (i + 1) t else in_sequence p next t
  end.
(* The numbers of the FIFOs of a channel that were opened, in order. *)
Fixpoint opened_of (p : path) (tr : list pevent) : list Z :=
  match tr with
  | [] => []
  | Ev_open q i :: t => if path_dec q p then i :: opened_of p t else opened_of p t
  | Ev_start _ _ :: t => opened_of p t
  end.

(* A path can name a FIFO if it is not empty and does not end like that of a directory, with / or \. *)
Definition names_file (p : path) : Prop := exists d c, p = d ++ [c] /\ c <> 47%N /\ c <> 92%N.

(* The channel an operation tries to acquire. *)
Definition acquires (s : pstate) (o : pop) : option path :=
  match o with
  | P_acquire p _ => Some p
  | P_store k => option_map fst (nth_error (pp_stores s) k)
  | _ => None
  end.
(* A history is tidy if no channel is asked for while a closed stream of that channel still exists. *)
Definition tidy_at (s : pstate) (o : pop) : Prop :=
  forall p, acquires s o = Some p -> forall st, In st (pp_streams s) -> exists_on p st = true -> holds p st = true.
Fixpoint tidy (s : pstate) (ops : list pop) : Prop :=
  match ops with
  | [] => True
  | o :: t => tidy_at s o /\ tidy (snd (p_step s o)) t
  end.

(* The numbers programs ask for are numbers a file name can have. *)
Definition sane_id (e : option N) : Prop := match e with Some n => (n < 2 ^ 63)%N | None => True end.
Definition sane_op (o : pop) : Prop := match o with P_acquire _ e => sane_id e | _ => True end.
Definition sane_stores (stores : list (path * option N)) : Prop := Forall (fun x => sane_id (snd x)) stores.

(* Nobody asks for a certain FIFO. *)
Definition plain_op (o : pop) : Prop := match o with P_acquire _ e => e = None | _ => True end.
Definition plain_stores (stores : list (path * option N)) : Prop := Forall (fun x => snd x = None) stores.

(* Closing is left to destruction. *)
Definition never_closes (o : pop) : Prop := match o with P_close _ => False | _ => True end.

(* The bytes of the successful reads, in order. *)
Fixpoint delivered (rs : list (res (list byte))) : list byte :=
  match rs with [] => [] | Ok l :: t => l ++ delivered t | _ :: t => delivered t end.
