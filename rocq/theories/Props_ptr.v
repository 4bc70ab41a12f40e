(* Counted pointers. *)
From Verif Require Import Common Model_ptr Spec_ptr Proof_ptr.

(* C50. After every history of proper operations - in an assignment, the assigned pointer is not a member of an object
   that only the overwritten pointer holds - no deleted object was touched and exactly the objects that nothing refers to
   are deleted, once each. *)
Theorem C50_exact_partial : forall ops, proper_run r_start ops -> exists s, r_run r_start ops = Ok s /\ exact s.
Proof. exact C50_exact_l. Qed.
Print Assumptions C50_exact_partial.

(* C50. The same for threads whose accesses to the counts are interleaved in any way; a decrement that is due counts as
   a reference. *)
Theorem C50_threads : forall ops, proper_sched k_start ops -> exists k, k_run k_start ops = Ok k /\
  (forall o, referenced (k_state k) o \/ In o (k_due k) -> exists b, nth_error (r_heap (k_state k)) o = Some b /\ o_dels b = 0) /\
  (forall o b, nth_error (r_heap (k_state k)) o = Some b ->
     (o_dels b = 1 <-> ~ (referenced (k_state k) o \/ In o (k_due k))) /\ o_dels b <= 1).
Proof. exact C50_threads_l. Qed.
Print Assumptions C50_threads.

(* C50. From every state the decrements that are due come to an end. *)
Theorem C50_ends : forall ops k, proper_sched k_start ops -> k_run k_start ops = Ok k ->
  exists works, (forall w, In w works -> w = K_work 0) /\ exists k1, k_run k works = Ok k1 /\ k_due k1 = [] /\ exact (k_state k1).
Proof. exact C50_ends_l. Qed.
Print Assumptions C50_ends.

Ltac reach :=
  match goal with
  | |- True => exact I
  | |- _ /\ _ => split; reach
  | |- within_reach _ _ (Root _) => eexists; reflexivity
  | |- within_reach _ _ (Field _ _) => split; [eexists; split; [reflexivity|discriminate]|eexists; split; [reflexivity|cbn; lia]]
  | |- _ <> _ => discriminate
  | |- _ < _ => cbn; lia
  | |- _ = _ => reflexivity
  end.
Ltac one_step := split; [cbn [proper proper_k k_state k_due]; reach|let H := fresh in intros ? H; vm_compute in H; injection H as <-].

(* A chain 0 -> 1 -> 2; a raw pointer owns a reference to 1; 0 goes away, then the reference of the raw pointer is taken
   over and dropped, and with it 1 and 2 go. *)
Example C50_case :
  let ops := [R_make 1; R_make 1; R_make 0; R_copy (Root 0); R_copy (Root 1); R_move_assign (Field 1 0) (Root 2); R_assign (Field 0 0) (Root 1);
              R_release (Root 1); R_destroy 4; R_assign (Root 0) (Root 0); R_use (Field 0 0); R_destroy 0; R_reset (Root 3)] in
  let rest := [R_adopt 0 false; R_move (Root 5); R_destroy 6] in
  proper_run r_start (ops ++ rest) /\
  (exists s, r_run r_start ops = Ok s /\ map (fun b => (o_cnt b, o_dels b)) (r_heap s) = [(0, 1); (1, 0); (1, 0)]) /\
  exists s, r_run r_start (ops ++ rest) = Ok s /\ map (fun b => (o_cnt b, o_dels b)) (r_heap s) = [(0, 1); (0, 1); (0, 1)].
Proof.
  cbv zeta. split; [|split; eexists; (split; [vm_compute; reflexivity|vm_compute; reflexivity])]. cbn [app].
  do 5 one_step.
  split; [split; [split; [exists 1; split; [reflexivity|discriminate]|eexists; split; [reflexivity|cbn; lia]]|eexists; reflexivity]|].
  intros ? H; vm_compute in H; injection H as <-.
  split; [split; [split; [exists 0; split; [reflexivity|discriminate]|eexists; split; [reflexivity|cbn; lia]]|eexists; reflexivity]|].
  intros ? H; vm_compute in H; injection H as <-.
  do 3 one_step.
  split; [split; [split; [exists 0; split; [reflexivity|discriminate]|eexists; split; [reflexivity|cbn; lia]]|discriminate]|].
  intros ? H; vm_compute in H; injection H as <-.
  do 5 one_step. exact I.
Qed.

(* Two threads hold one object each by its own pointer; both drop it; the second decrement deletes it. *)
Example C50_threads_case :
  let ops := [K_null; K_null; K_make (Root 0) 1; K_copy (Root 1) (Root 0); K_make (Field 0 0) 0; K_drop (Root 1); K_drop (Root 0);
              K_work 1; K_work 0; K_work 0] in
  proper_sched k_start ops /\
  exists k, k_run k_start ops = Ok k /\ k_due k = [] /\ map (fun b => (o_cnt b, o_dels b)) (r_heap (k_state k)) = [(0, 1); (0, 1)].
Proof.
  cbv zeta. split; [|eexists; split; [vm_compute; reflexivity|split; reflexivity]].
  do 4 one_step.
  split; [split; [split; [exists 0; split; [reflexivity|discriminate]|eexists; split; [reflexivity|cbn; lia]]|reflexivity]|].
  intros ? H; vm_compute in H; injection H as <-.
  do 5 one_step. exact I.
Qed.

(* C50. p = p->next, by copying or by moving, uses a deleted object if p is the only pointer to its object. *)
Theorem C50_from_member_refuted : exists before,
  (exists s, r_run r_start before = Ok s /\ exact s /\ get_slot s (Root 0) = Ok (Some 0) /\ get_slot s (Field 0 0) = Ok (Some 1)) /\
  r_run r_start (before ++ [R_assign (Root 0) (Field 0 0)]) = UB /\
  r_run r_start (before ++ [R_move_assign (Root 0) (Field 0 0)]) = UB.
Proof.
  set (before := [R_make 1; R_make 0; R_move_assign (Field 0 0) (Root 1)]). exists before.
  split; [|split; vm_compute; reflexivity].
  destruct (C50_exact_l before) as (s & E & X).
  { do 2 one_step.
    split; [split; [split; [exists 0; split; [reflexivity|discriminate]|eexists; split; [reflexivity|cbn; lia]]|eexists; reflexivity]|].
    intros ? H; vm_compute in H; injection H as <-. exact I. }
  exists s. split; [exact E|]. split; [exact X|]. vm_compute in E. injection E as <-. split; reflexivity.
Qed.
Print Assumptions C50_from_member_refuted.
