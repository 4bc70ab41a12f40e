(* What should be held when: by the objects that exist, and by nothing else. *)
From Verif Require Import Common Model_fd.
From Coq Require Import ZArith Permutation.
Local Open Scope nat_scope.

(* The descriptor in a File_descriptor, if any. *)
Definition fds (x : Z) : list nat := if (x =? -1)%Z then [] else [Z.to_nat x].
Definition of_slot (x : option Z) : list nat := match x with Some fd => fds fd | None => [] end.

(* The descriptors and mappings an object needs: an open stream its descriptor, a block its memory, and a resizable one its file. *)
Definition held (x : option object) : list nat :=
  match x with
  | Some (Stream fd) | Some (Pipe fd) | Some (Backed fd _ _) => fds fd
  | Some (Mapped _ _) | None => []
  end.
Definition mapped (x : option object) : list (nat * nat) :=
  match x with
  | Some (Mapped (Some p) size) | Some (Backed _ (Some p) size) => [(p, size)]
  | _ => []
  end.

(* The kernel knows exactly these descriptors and mappings of MLIO, each one once; nothing was closed or unmapped wrongly; and no descriptor is
   MLIO's and another thread's at once. *)
Definition accounts (k : kernel) (hs : list nat) (ms : list (nat * nat)) : Prop :=
  Permutation (k_mine k) hs /\ NoDup (k_mine k) /\
  Permutation (k_maps k) ms /\ NoDup (map fst (k_maps k)) /\
  k_faults k = 0 /\ forall n, In n (k_mine k) -> ~ In n (k_others k).

(* The descriptors of pipes are below FD_SETSIZE. *)
Definition low (a : answer) : Prop := forall n, a_value a = Some n -> n < 1024.
Definition low_pipes (o : op) : Prop := match o with New_pipe a1 a2 a3 _ => low a1 /\ low a2 /\ low a3 | _ => True end.

(* Preparing the temporary file succeeds, once it exists. *)
Definition works (a : answer) : Prop := a_value a <> None.
Definition prepared (o : op) : Prop := match o with New_backed _ _ _ truncated unlinked _ => works truncated /\ works unlinked | _ => True end.
