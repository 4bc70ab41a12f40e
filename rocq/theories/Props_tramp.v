(* Data stores, streams and readers written in Python: C103. *)
From Verif Require Import Common Model_tramp Spec_tramp Proof_tramp.
From Coq Require Import String Lia.
Local Open Scope string_scope.
Local Open Scope list_scope.

(* C103. What a method of a data store or reader returns is what MLIO gets; ... *)
Theorem C103_methods : forall V (c : pyclass V) m v, ~ of_stream m -> c (documented m) = Some (Method (Returns v)) ->
  call (Some c) m = Value v.
Proof. intros V c m v N H. destruct m; cbn in *; try (exfalso; apply N; exact I); rewrite H; reflexivity. Qed.
Print Assumptions C103_methods.

(* ... an exception, or a result of the wrong type, is an error of open_read, read_example, peek_example and read_schema. *)
Theorem C103_errors : forall V (c : pyclass V) m r, ~ of_stream m -> ~ no_error m -> c (documented m) = Some (Method r) ->
  r = Raises \/ r = Wrong_type -> call (Some c) m = V_exception.
Proof. intros V c m r N E H R. destruct m; cbn in *; try tauto; rewrite H; destruct R as [-> | ->]; reflexivity. Qed.
Print Assumptions C103_errors.

(* In the other methods it ends the process. *)
Theorem C103_errors_refuted : forall V (c : pyclass V) m r, m = Id \/ m = Reset \/ m = Num_bytes_read -> c (documented m) = Some (Method r) ->
  r = Raises \/ r = Wrong_type -> call (Some c) m = V_terminated.
Proof. intros V c m r [-> | [-> | ->]] H [-> | ->]; cbn in *; rewrite H; reflexivity. Qed.
Print Assumptions C103_errors_refuted.

(* C103. This goes on, whatever else happens, as long as the program has a reference to the object. *)
Theorem C103_kept : forall V (c : pyclass V) es l r, lives (new_object c) es = Some (l, r) -> kept es ->
  r = map (call (Some c)) (calls es).
Proof.
  intros V c es l r H K. apply (kept_run V c es 1 0 l r); auto. intros es1 es2 X. specialize (K es1 es2 X). lia.
Qed.
Print Assumptions C103_kept.

(* C103 fails once the program has dropped its last reference, although MLIO still uses the object: no call of MLIO gets a value any
   more, even if the object is handed back to the program. *)
Theorem C103_collected_refuted : forall V (c : pyclass V) es1 es2 l r, lives (new_object c) (es1 ++ es2) = Some (l, r) ->
  made es1 <= dropped es1 -> exists r1 r2, r = r1 ++ r2 /\ List.length r2 = List.length (calls es2) /\ Forall no_value r2.
Proof.
  intros V c es1 es2 l r H D. destruct (run_split _ _ _ _ _ _ H) as (l1 & r1 & r2 & A & B & ->). exists r1, r2. split; [reflexivity|]. split.
  - clear - B. revert l1 l r2 B. induction es2 as [|e es IH]; intros [p q o] l r H; cbn [lives] in H.
    + injection H as <- <-. reflexivity.
    + destruct (live (mk_life p q o) e) as [[l1 r1]|] eqn:X; [|discriminate]. destruct (lives l1 es) as [[l2 r2]|] eqn:E; [|discriminate].
      injection H as <- <-. rewrite app_length, (IH _ _ _ E). destruct e; cbn [live calls] in *.
      * destruct (p =? 0)%nat; inversion X; subst. reflexivity.
      * destruct p as [|[|p]]; inversion X; subst; reflexivity.
      * destruct (p =? 0)%nat; inversion X; subst. reflexivity.
      * destruct q; inversion X; subst. reflexivity.
      * destruct (q =? 0)%nat; inversion X; subst. reflexivity.
      * destruct (q =? 0)%nat; inversion X; subst. reflexivity.
  - apply (lost_run V es2 l1 l r2); [|exact B]. pose proof (run_count _ _ _ _ _ A) as N. cbn [new_object l_python] in N.
    assert (X : l_object l1 = None). { apply (unreferenced V es1 (new_object c) l1 r1); [discriminate|exact A|lia]. }
    rewrite X. exact I.
Qed.
Print Assumptions C103_collected_refuted.

(* C103 fails for the documented properties: a class that has id or num_bytes_read as a property ends the process. *)
Theorem C103_property_refuted : forall V (c : pyclass V) m r, m = Id \/ m = Num_bytes_read -> c (documented m) = Some (Property r) ->
  call (Some c) m = V_terminated.
Proof. intros V c m r [-> | ->] H; cbn in *; rewrite H; reflexivity. Qed.
Print Assumptions C103_property_refuted.

(* C103 fails for all streams: whatever the class defines, its methods are never called. *)
Theorem C103_streams_refuted : forall V (c : pyclass V), ordinary c ->
  call (Some c) Read = V_undefined /\ call (Some c) Read_slice = V_empty /\
  call (Some c) Size = V_exception /\ call (Some c) Position = V_exception /\
  call (Some c) Seek = V_terminated /\ call (Some c) Close = V_terminated /\ call (Some c) Seekable = V_terminated /\
  call (Some c) Closed = V_terminated.
Proof.
  intros V c O.
  assert (Q : forall n, String.get 0 n = Some (Ascii.ascii_of_nat 34) -> c n = None).
  { intros n G. destruct (c n) eqn:E; [|reflexivity]. exfalso. apply (O n ltac:(congruence) 0 G). }
  cbn [call key overload guarded]. rewrite !Q by reflexivity. repeat split.
Qed.
Print Assumptions C103_streams_refuted.

(* A store with a method open_read and the documented property id, kept and not kept by the program, and a stream. *)
Definition C103_store : pyclass nat := fun n => if String.eqb n "open_read" then Some (Method (Returns 7))
  else if String.eqb n "id" then Some (Property (Returns 8)) else None.
Definition C103_stream : pyclass nat := fun n => if existsb (String.eqb n) ["read"; "size"; "close"] then Some (Method (Returns 1)) else None.
Example C103_case :
  (exists l, lives (new_object C103_store) [E_hand; E_call Open_read; E_keep; E_drop; E_call Open_read] = Some (l, [Value 7; Value 7])) /\
  kept [E_hand; E_call Open_read; E_keep; E_drop; E_call Open_read] /\
  (exists l, lives (new_object C103_store) [E_hand; E_call Open_read; E_drop; E_call Open_read; E_show; E_call Open_read]
     = Some (l, [Value 7; V_exception; V_exception])) /\
  made [E_hand; E_call Open_read; E_drop] <= dropped [E_hand; E_call Open_read; E_drop] /\
  call (Some C103_store) Id = V_terminated /\ ordinary C103_stream /\ call (Some C103_stream) Size = V_exception.
Proof.
  split; [eexists; reflexivity|]. split.
  { intros es1 es2 H. do 5 (destruct es1 as [|? es1]; [cbn; lia|injection H as <- H]). destruct es1; [cbn; lia|discriminate]. }
  split; [eexists; reflexivity|]. split; [cbn; lia|]. split; [reflexivity|]. split; [|reflexivity].
  intros n H k. unfold C103_stream in H. destruct (existsb (String.eqb n) ["read"; "size"; "close"]) eqn:E; [|congruence].
  apply existsb_exists in E. destruct E as (x & I & E). apply String.eqb_eq in E. subst x.
  destruct I as [<- | [<- | [<- | []]]]; do 6 (destruct k as [|k]; [discriminate|]); discriminate.
Qed.
