(* What happens to a whole reader: its runs, and what they should deliver. *)
From Coq Require Import Permutation.
From Verif Require Import Common Model_rec Model_inst Spec_inst Model_par Spec_par Model_text Spec_text Model_whole.

Section Spec.
  Context {A E : Type} (M : machine A) (size : nat) (last : last_handling).
  Context (decode : batch A -> dres E) (size_bytes : batch A -> nat) (prefetch reads : nat).

  (* the states that some sequence of calls and some interleaving of the threads lead to *)
  Definition w_reachable (w : wst E M) : Prop :=
    exists l, wexec M size last decode size_bytes prefetch reads (w_init M) l = Ok (Some w).

  (* The same when no look at the first instance has failed. *)
  Inductive w_calm : wst E M -> Prop :=
  | wc_init : w_calm (w_init M)
  | wc_step w a w' : w_calm w -> wstep M size last decode size_bytes prefetch reads w a = Ok (Some w') ->
      (forall ok, a = W_schema ok -> exists x, fst (b_peek M (snd (w_reader w))) = Ok (Some x)) -> w_calm w'.

  (* The same when the client calls reset only in states with R. *)
  Inductive w_resets (R : wst E M -> Prop) : wst E M -> Prop :=
  | wr_init : w_resets R (w_init M)
  | wr_step w a w' : w_resets R w -> wstep M size last decode size_bytes prefetch reads w a = Ok (Some w') ->
      (a = W_act A_reset -> R w) -> w_resets R w'.

  (* Whatever the threads do next, a state with P is reached, without undefined behaviour; the client makes no other call in between. *)
  Inductive w_inevitable (P : wst E M -> Prop) (w : wst E M) : Prop :=
  | w_now : P w -> w_inevitable P w
  | w_later :
      (exists a w', internal a = true /\ wstep M size last decode size_bytes prefetch reads w (W_act a) = Ok (Some w')) ->
      (forall a, internal a = true ->
         (exists o, wstep M size last decode size_bytes prefetch reads w (W_act a) = Ok o)) ->
      (forall a w', internal a = true -> wstep M size last decode size_bytes prefetch reads w (W_act a) = Ok (Some w') -> w_inevitable P w') ->
      w_inevitable P w.
End Spec.

(* The results of the calls of an epoch, when its examples are es: the first ones of es, and no other; after all of them, end of
   data.  (Unless end of data has been reported, the last result may be an error.) *)
Definition receives {E} (es : list E) (l : list (@out E)) : Prop :=
  exists rest, delivered l ++ rest = es /\ (In O_end l -> rest = [] /\ exists n, l = map O_example es ++ repeat O_end (S n)).

(* Nothing of what the epoch drew from the random engine depends on how far the background thread got: end of data was reported; or
   the instances are not shuffled; or the window holds all n instances, and an example was received. *)
Definition settled {E} (window n : nat) (l : list (@out E)) : Prop :=
  In O_end l \/ window = 1 \/ (window = 0 \/ n < window) /\ delivered l <> [].

(* The client's calls in a run. *)
Definition client (l : list waction) : list waction :=
  filter (fun a => match a with W_schema _ => true | W_act a => negb (internal a) end) l.
