From Verif Require Import Common Model_fd Spec_fd Proof_fd.
From Coq Require Import ZArith Permutation.
Local Open Scope nat_scope.

(* C107. File_descriptor: after any program of making, moving, assigning (also to itself), resetting and destroying these objects, among other
   threads that open and close files, MLIO has open exactly the descriptors in the objects that exist, each one in one object, and has never
   closed a descriptor twice or one of another thread. *)
Theorem C107_descriptors : forall h, let (l, k) := fd_run h in accounts k (flat_map of_slot l) [].
Proof. intro h. destruct (fd_run_inv h) as [_ H]. destruct (fd_run h) as [l k]. exact H. Qed.
Print Assumptions C107_descriptors.

Definition ok (n : nat) : answer := mk_answer [] (Some n).
Definition busy (o : other) (n : nat) : answer := mk_answer [o] (Some n).
Definition no : answer := mk_answer [] None.

Example C107_case_descriptors :
  fd_run [F_open (ok 3); F_open (busy (O_open 4) 5); F_open (ok 5); F_open no; F_move 0; F_assign 1 4; F_assign 1 1; F_open (ok 3); F_other (O_close 4); F_destroy 5] =
    ([Some (-1); Some (-1); Some (-1); Some (-1); Some (-1); None]%Z, mk_kernel [] [] [] [] 0) /\
  fst (fd_run [F_open (ok 3); F_move 0; F_default; F_assign 2 1]) = [Some (-1); Some (-1); Some 3]%Z.
Proof. split; reflexivity. Qed.

(* C107. Streams of files and pipes, mapped files and resizable blocks: whatever system calls fail, and whatever the other threads do in
   between, MLIO holds exactly the descriptors of the open streams and of the blocks that exist, and exactly the mappings of the blocks, with
   their sizes. *)
Theorem C107_objects : forall h, Forall low_pipes h -> exists s, run h start = Ok s /\
  accounts (s_kernel s) (flat_map held (s_objects s)) (flat_map mapped (s_objects s)).
Proof. intros h F. destruct (run_inv h start start_inv F) as (s & E & _ & A). eauto. Qed.
Print Assumptions C107_objects.

Definition C107_history : list op :=
  [New_stream (ok 3); New_mapped (busy (O_open 4) 5) (ok 100) (ok 7); New_mapped (ok 5) (ok 100) no; New_backed 1 0 (ok 5) (ok 0) (ok 0) no;
   Resize 2 10 (ok 0) (ok 8); Resize 2 20 (ok 0) no; Resize 2 30 (ok 0) (ok 9); New_pipe no no (ok 6) (ok 1); New_pipe (ok 8) no no (ok 0); Read_wait 3 no;
   Close 0; Close 0; New_stream (ok 3); New_stream (ok 3)].
Example C107_case_objects : Forall low_pipes C107_history /\
  run C107_history start =
    Ok (mk_state [Some (Stream (-1)%Z); Some (Mapped (Some 7) 100); Some (Backed 5%Z (Some 9) 30); Some (Pipe 6%Z); Some (Stream 3%Z)]
          (mk_kernel [3; 6; 5] [4] [(9, 30); (7, 100)] [] 0)).
Proof.
  split; [|reflexivity]. unfold C107_history.
  repeat match goal with |- Forall _ (_ :: _) => apply Forall_cons | |- Forall _ [] => apply Forall_nil end; cbn;
    try exact I; unfold low; cbn; repeat split; intros n E; inversion E; lia.
Qed.

(* C107. When all objects are destroyed nothing is left. *)
Theorem C107_released : forall h s, Forall low_pipes h -> run h start = Ok s ->
  exists s', run (h ++ map Destroy (seq 0 (length (s_objects s)))) start = Ok s' /\
    k_mine (s_kernel s') = [] /\ k_maps (s_kernel s') = [] /\ k_faults (s_kernel s') = 0.
Proof.
  intros h s F E. destruct (run_inv h start start_inv F) as (s0 & E0 & J). assert (s0 = s) by congruence. subst s0.
  destruct (destroy_all_run _ s eq_refl J) as (s' & E' & N & J'). exists s'. split; [now rewrite (run_app _ _ _ _ E)|].
  destruct J' as [_ (A & _ & C & _ & D & _)].
  assert (Z : flat_map held (s_objects s') = [] /\ flat_map mapped (s_objects s') = []).
  { clear - N. induction N as [|x l -> N [IH1 IH2]]; cbn; [auto|]. auto. }
  destruct Z as [Z1 Z2]. rewrite Z1 in A. rewrite Z2 in C. split; [now apply Permutation_sym, Permutation_nil in A|].
  split; [now apply Permutation_sym, Permutation_nil in C|exact D].
Qed.
Print Assumptions C107_released.

Example C107_case_released : run (C107_history ++ map Destroy (seq 0 5)) start = Ok (mk_state [None; None; None; None; None] (mk_kernel [] [4] [] [] 0)).
Proof. reflexivity. Qed.

(* C107. An operation that fails leaves all objects as they were, with what they hold, and makes none. *)
Theorem C107_failed : forall h o s e s', Forall low_pipes h -> low_pipes o -> run h start = Ok s -> step s o = (Throw e, s') ->
  s_objects s' = s_objects s /\ Permutation (k_mine (s_kernel s')) (k_mine (s_kernel s)) /\ Permutation (k_maps (s_kernel s')) (k_maps (s_kernel s)).
Proof.
  intros h o s e s' F L E S. destruct (run_inv h start start_inv F) as (s0 & E0 & J). assert (s0 = s) by congruence. subst s0.
  destruct (step_good s o J L) as (J' & _ & _ & K). rewrite S in *. cbn [fst snd] in *. assert (Q : s_objects s' = s_objects s) by (apply K; discriminate).
  split; [exact Q|]. destruct J as [_ (A & _ & C & _)], J' as [_ (A' & _ & C' & _)]. rewrite Q in *. split; [now rewrite A, A'|now rewrite C, C'].
Qed.
Print Assumptions C107_failed.

Example C107_case_failed : step start (New_backed 1 10 (ok 3) (ok 0) (ok 0) no) = (Throw System_err, mk_state [] (mk_kernel [] [] [] [] 0)) /\
  step start (New_mapped (ok 3) no no) = (Throw System_err, start).
Proof. split; reflexivity. Qed.

(* C107. Temporary files have no name left after any operation, if preparing them worked: nothing stays in /tmp, even after a crash. *)
Theorem C107_names : forall h s, Forall prepared h -> run h start = Ok s -> k_names (s_kernel s) = [].
Proof. intros h s F E. exact (run_names h start s F eq_refl E). Qed.
Print Assumptions C107_names.

Example C107_case_names : Forall prepared C107_history.
Proof. repeat constructor; discriminate. Qed.

(* C107. But if the file cannot be given its size (a full disk, say), it stays in /tmp for good. *)
Theorem C107_names_refuted : exists o s' e, low_pipes o /\ step start o = (Throw e, s') /\ k_names (s_kernel s') <> [].
Proof. exists (New_backed 1 10 (ok 3) no (ok 0) no). eexists. eexists. split; [exact I|]. split; [reflexivity|discriminate]. Qed.
Print Assumptions C107_names_refuted.

(* C107. A SageMaker pipe whose descriptor is 1024 or more: memory behind the set of descriptors is written. *)
Theorem C107_many_refuted : forall n, 1024 <= n -> fst (step start (New_pipe (ok n) no no (ok 1))) = UB.
Proof.
  intros n H. cbn [step start s_objects s_kernel new_pipe open_fifo]. unfold sys_open. cbn [ok a_value before a_before fold_left boot k_mine k_others has existsb orb].
  rewrite fd_set_eq, destroy_none. destruct (Z.eqb_spec (Z.of_nat n) (-1)); [lia|]. cbn [negb]. unfold wait_for_data.
  destruct (Z.leb_spec 1024 (Z.of_nat n)); [reflexivity|lia].
Qed.
Print Assumptions C107_many_refuted.

Example C107_case_many : step start (New_pipe no (ok 7) no (ok 1)) = (Ok tt, mk_state [Some (Pipe 7%Z)] (mk_kernel [7] [] [] [] 0)).
Proof. reflexivity. Qed.
