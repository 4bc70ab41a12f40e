(* What closing means: a stream is over a source; sources are open or closed, for good. *)
From Verif Require Import Common Model_close.
From Coq Require Import List Arith.
Import ListNotations.

(* What a stream is: its source, and whether it is made of another stream. *)
Inductive desc := D_source (k : kind) | D_over (source : nat) .

(* The streams that were made, and which sources were closed. *)
Record world := mk_w { w_descs : list desc; w_closed : nat -> bool }.
Definition world0 : world := mk_w [] (fun _ => false).

Definition source_of (w : world) (i : nat) : nat :=
  match nth_error (w_descs w) i with Some (D_over s) => s | _ => i end.

Definition mark (f : nat -> bool) (s : nat) : nat -> bool := fun x => if x =? s then true else f x.

(* An open stream does what its data and the system let it do. *)
Definition open_answer (o : oracle) (a : answer) : res answer := match o_fault o with Some x => Throw x | None => Ok a end.

Definition seekable (w : world) (i : nat) : option kind :=
  match nth_error (w_descs w) i with Some (D_source K_pipe) => None | Some (D_source k) => Some k | _ => None end.

Definition meaning (w : world) (c : call) : world * res answer :=
  let n := length (w_descs w) in
  let known i r := if i <? n then r else (w, Ok A_nothing) in
  let is_closed i := w_closed w (source_of w i) in
  match c with
  | C_base k => (mk_w (w_descs w ++ [D_source k]) (w_closed w), Ok A_nothing)
  | C_gzip i | C_utf8 i _ => known i (mk_w (w_descs w ++ [D_over (source_of w i)]) (w_closed w), Ok A_nothing)
  | C_read i o => known i (w, if is_closed i then Throw Stream_err else open_answer o A_data)
  | C_seek i o =>
      known i (w, match seekable w i with
                  | None => Throw Not_supported
                  | Some _ => if is_closed i then Throw Stream_err else open_answer o A_nothing
                  end)
  | C_tell i o =>
      known i (w, match seekable w i with
                  | None => Throw Not_supported
                  | Some K_s3 => Ok A_number
                  | Some _ => if is_closed i then Throw Stream_err else open_answer o A_number
                  end)
  | C_close i => known i (mk_w (w_descs w) (mark (w_closed w) (source_of w i)), Ok A_nothing)
  | C_closed i => known i (w, Ok (A_bool (is_closed i)))
  end.

Fixpoint meanings (w : world) (p : list call) : list (res answer) :=
  match p with [] => [] | c :: p' => let (w', r) := meaning w c in r :: meanings w' p' end.

(* The world when the calls are made. *)
Fixpoint world_after (w : world) (p : list call) : world :=
  match p with [] => w | c :: p' => world_after (fst (meaning w c)) p' end.

(* How many streams there are then. *)
Definition made (p : list call) : nat := length (w_descs (world_after world0 p)).

(* The source of stream i after the calls. *)
Definition source (p : list call) (i : nat) : nat := source_of (world_after world0 p) i.

(* What the last of the calls of a program gives. *)
Definition result (p : list call) : res answer := last (snd (run [] p)) UB.

(* The program's own streams say that they are closed once they are. *)
Definition obedient (c : call) : bool := match c with C_base (K_foreign b) => b | _ => true end.
