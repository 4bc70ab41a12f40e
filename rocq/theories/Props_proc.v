(* What the library keeps for the whole process: C109. *)
From Verif Require Import Common Model_proc Spec_proc Proof_proc.

(* A program of one thread is well defined exactly if each of its operations is allowed after those before it. *)
Theorem C109_defined : forall h,
  (exists p, snd (run fresh h) = Ok p) <-> forall a o b, h = a ++ o :: b -> allowed a o.
Proof.
  intro h. pose proof (run_spec h [] fresh inv_fresh) as R. destruct (run fresh h) as (t & [q| | |]); try contradiction; cbn [snd app] in *.
  - split; [|intros _; exists q; reflexivity]. intros _ a o b E. exact (proj1 (proj1 R a o b E)).
  - destruct R as (a & o & b & E & _ & N). split; [intros (p & [=])|]. intro A. destruct (N (A a o b E)).
Qed.
Print Assumptions C109_defined.

(* Operations do what the history says: in particular an allocation is served by the allocator installed last, the library and the SDK
   are initialized once however often this is asked for, and deallocating an SDK that isn't up does nothing. *)
Theorem C109_does : forall h p, snd (run fresh h) = Ok p ->
  forall a o b, h = a ++ o :: b -> exists es, nth_error (fst (run fresh h)) (length a) = Some es /\ does a o es.
Proof.
  intros h p E a o b ->. pose proof (run_spec (a ++ o :: b) [] fresh inv_fresh) as R.
  destruct (run fresh (a ++ o :: b)) as (t & q). cbn [fst snd app] in *. subst q. exact (proj2 (proj1 R a o b eq_refl)).
Qed.
Print Assumptions C109_does.

(* The allocator in use is one at most, so the theorem above says which. *)
Theorem C109_one_allocator : forall h a b, in_use h a -> in_use h b -> a = b.
Proof. exact in_use_fun. Qed.
Print Assumptions C109_one_allocator.

(* Whatever the program does, well defined or not: as long as it runs, the SDK is initialized and shut down in turn. *)
Theorem C109_in_turn : forall h, in_turn false (filter is_call (concat (fst (run fresh h)))).
Proof. intro h. exact (run_in_turn h fresh eq_refl). Qed.
Print Assumptions C109_in_turn.

(* The same for any number of Python threads under any schedule. *)
Theorem C109_threads : forall calls sched, in_turn false (h_calls (fst (play true sched (threads calls)))).
Proof. intros calls sched. exact (proj1 (play_held sched _ (threads_held calls))). Qed.
Print Assumptions C109_threads.

(* Not so for threads of C++: two of them that initialize the SDK can both do so. *)
Theorem C109_race_refuted : exists calls sched, ~ in_turn false (h_calls (fst (play false sched (threads calls)))).
Proof.
  exists [[true]; [true]], [0; 1; 0; 1; 0; 1]%nat. change (~ in_turn false [Sdk_init; Sdk_init]). intro T. inversion T; subst. match goal with H : in_turn true _ |- _ => inversion H end.
Qed.
Print Assumptions C109_race_refuted.

(* A program that installs an allocator need not get it: initializing the library afterwards replaces it, without a word. *)
Theorem C109_replaced_refuted : exists h n, ~ In (Set_allocator None) h /\ (forall k, In (Set_allocator (Some k)) h -> k = Custom n) /\
  In (Set_allocator (Some (Custom n))) h /\ ~ in_use h (Some (Custom n)) /\ in_use h (Some Default).
Proof.
  exists [Set_allocator (Some (Custom 1)); Initialize], 1%nat. assert (U : in_use [Set_allocator (Some (Custom 1)); Initialize] (Some Default)).
  { exists [Set_allocator (Some (Custom 1))], Initialize, []. repeat split.
    - constructor. intros [[=]|[]].
    - intros [|? ?] ? ? ? [=]. }
  repeat split; auto.
  - intros [[=]|[[=]|[]]].
  - intros k [[= <-]|[[=]|[]]]; reflexivity.
  - left. reflexivity.
  - intro V. discriminate (in_use_fun _ _ _ U V).
Qed.
Print Assumptions C109_replaced_refuted.

(* Examples: a session with two clients, the SDK started twice. *)
Definition session : list op :=
  [Initialize; Allocate; Initialize_aws; Initialize_aws; Make_client true; Make_client false; Use_client 1; Drop_client 0; Drop_client 1;
   Deallocate_aws; Deallocate_aws; Set_allocator (Some (Custom 4)); Initialize; Allocate; Initialize_aws; Make_client false; Use_client 2].
Example C109_case_session : fst (run fresh session) =
  [[]; [Asked Default]; [Sdk_init]; [Warned]; [Sdk_used]; [Sdk_used]; [Sdk_used]; [Sdk_used]; [Sdk_used]; [Sdk_shutdown]; []; []; [Warned];
   [Asked (Custom 4)]; [Sdk_init]; [Sdk_used]; [Sdk_used]] /\ exists p, snd (run fresh session) = Ok p.
Proof. split; [reflexivity|]. eexists. vm_compute. reflexivity. Qed.
(* A client that outlives the SDK, a second client with the default keys, an allocation before the library is initialized. *)
Example C109_case_undefined :
  snd (run fresh [Initialize_aws; Make_client false; Deallocate_aws; Initialize_aws; Drop_client 0]) = UB /\
  snd (run fresh [Initialize_aws; Make_client true; Make_client true]) = UB /\ snd (run fresh [Allocate]) = UB.
Proof. repeat split. Qed.
(* Three Python threads. *)
Example C109_case_threads :
  h_calls (fst (play true [0; 1; 0; 2; 0; 1; 2; 2; 2; 1; 1; 1]%nat (threads [[true]; [true; false]; [false]]))) = [Sdk_init; Sdk_shutdown].
Proof. reflexivity. Qed.
