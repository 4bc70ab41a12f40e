(* C113: buffers of Python objects given to the library. *)
From Verif Require Import Common Model_pymem Spec_pymem Proof_pymem Proof_pymem2 Proof_pymem3 Proof_pymem4.
From Coq Require Import Lia.
Import List.
Local Open Scope nat_scope.
Local Open Scope list_scope.

(* A program of the examples: a store over a bytearray, a stream, a slice and a memoryview of
   it; the bytearray, the store and the stream are dropped and the memory is looked at. *)
Definition case_program : list op :=
  [ New_owner false [10; 20; 30; 40]%N; New_store 0; Open 0; Read 1 3; View 2; Resize 0 [];
    Put 0 1 99%N; Del_owner 0; Del 0; Close 1; Del 1; Del 2; Look 3 ].

(* Every program gets the answers of the reference semantics: no access is to freed memory,
   whatever the order in which owners, stores, streams, slices and views are dropped. *)
Theorem C113_expected : forall (p : list op),
  exists s, run false start p = Ok (s, snd (expect_all empty_world p)).
Proof.
  intro p. destruct start_ok as [I R]. destruct (run_ok false p start empty_world I R) as [s [E _]]. exists s. exact E.
Qed.
Example C113_case_expected :
  exists s, run false start case_program =
    Ok (s, [Done; Done; Done; Done; Done; Error; Done; Done; Done; Done; Done; Done; Bytes [10; 99; 30]%N]).
Proof. eexists. vm_compute. reflexivity. Qed.

(* The one undefined operation is a copy onto the memory it comes from. *)
Theorem C113_overlap : forall (p : list op),
  (run true start p = UB <-> overlapping empty_world p = true) /\
  (overlapping empty_world p = false -> exists s, run true start p = Ok (s, snd (expect_all empty_world p))).
Proof.
  intro p. destruct start_ok as [I R]. pose proof (run_ok true p start empty_world I R) as H. cbn [andb] in H.
  destruct (overlapping empty_world p).
  - split; [split; auto|discriminate].
  - destruct H as [s [E _]]. split; [|eauto]. split; [congruence|discriminate].
Qed.
Example C113_case_overlap : overlapping empty_world case_program = false.
Proof. vm_compute. reflexivity. Qed.

Theorem C113_overlap_refuted : exists (p : list op),
  run true start p = UB /\ forallb (fun a => negb (writes_view a)) p = true.
Proof.
  exists [New_owner false [1; 2; 3]%N; New_store 0; Open 0; Read_into 1 0]. split; vm_compute; reflexivity.
Qed.

(* An owner is alive as long as the program has a name for it or for something that shows its
   memory, and not longer; its buffer is held exactly as long as something shows it. *)
Theorem C113_freed : forall (strict : bool) (p : list op) (s : state) (l : list answer),
  run strict start p = Ok (s, l) ->
  let w := fst (expect_all empty_world p) in
  length (owners s) = length (cells w) /\
  forall i o, nth_error (owners s) i = Some o ->
    exists c, nth_error (cells w) i = Some c /\ w_bytes o = c_bytes c /\
      alive o = c_named c || used w i /\ (0 <? w_exports o) = used w i.
Proof.
  intros strict p s l E w. destruct (run_start _ _ _ _ E) as [I [R _]]. fold w in R. split.
  - destruct R as [R _]. rewrite R, map_length. reflexivity.
  - intros i o N. exists (cell_of o). rewrite (used_rel s w i I R), <- (i_owner _ _ _ I i o N).
    destruct R as [R _]. rewrite R, (nth_mapped _ _ _ _ N). repeat split; reflexivity.
Qed.
Example C113_case_freed : exists s l,
  run false start (case_program ++ [Del 3]) = Ok (s, l) /\
  map alive (owners s) = [false] /\ used (fst (expect_all empty_world case_program)) 0 = true.
Proof. eexists. eexists. vm_compute. repeat split. Qed.

(* When the program has dropped everything, every buffer has been given back and every block
   deleted. *)
Theorem C113_nothing_left : forall (strict : bool) (p : list op) (s : state) (l : list answer),
  run strict start p = Ok (s, l) ->
  (forall t, In t (things (fst (expect_all empty_world p))) -> t_named t = false) ->
  (forall o, In o (owners s) -> w_exports o = 0) /\ (forall k, In k (blocks s) -> k_refs k = 0).
Proof.
  intros strict p s l E T. destruct (run_start _ _ _ _ E) as [I [R _]]. set (w := fst (expect_all empty_world p)) in *.
  assert (U : forall i, used w i = false).
  { intro i. unfold used. apply Bool.not_true_iff_false. rewrite existsb_exists. intros [t [H S]]. unfold shows in S.
    rewrite (T t H) in S. discriminate. }
  assert (C : forall i, count (uses i) (blocks s) = 0).
  { intro i. specialize (U i). rewrite (used_rel s w i I R) in U. apply Nat.ltb_ge in U. lia. }
  split.
  - intros o H. apply In_nth_error in H. destruct H as [i N]. rewrite (i_owner _ _ _ I i o N). apply C.
  - intros k H. apply In_nth_error in H. destruct H as [b N]. destruct (k_refs k) eqn:K; [reflexivity|].
    assert (V : uses (k_owner k) k = true) by (unfold uses; rewrite K, Nat.eqb_refl; reflexivity).
    pose proof (count_in (uses (k_owner k)) _ b k N V). rewrite C in H. lia.
Qed.
Example C113_case_nothing_left : exists s l, run false start (case_program ++ [Del 3]) = Ok (s, l) /\ length (blocks s) = 1 /\
  forallb (fun t => negb (t_named t)) (things (fst (expect_all empty_world (case_program ++ [Del 3])))) = true.
Proof. eexists. eexists. vm_compute. repeat split. Qed.

(* A bytes object keeps its value as long as the program writes through no memoryview of a
   slice.  Missing: programs that do. *)
Theorem C113_bytes_partial : forall (strict : bool) (p q : list op) (s s' : state) (l l' : list answer),
  run strict start p = Ok (s, l) -> run strict s q = Ok (s', l') ->
  forallb (fun a => negb (writes_view a)) q = true ->
  forall i o, nth_error (owners s) i = Some o -> w_fixed o = true ->
  exists o', nth_error (owners s') i = Some o' /\ w_fixed o' = true /\ w_bytes o' = w_bytes o.
Proof.
  intros strict p q s s' l l' E E' H i o N F. destruct (run_start _ _ _ _ E) as [I [R _]].
  set (w := fst (expect_all empty_world p)) in *. pose proof (run_ok strict q s w I R) as Q.
  destruct (strict && overlapping w q); [congruence|]. destruct Q as [s1 [E1 [I1 R1]]]. rewrite E' in E1. injection E1 as <- _.
  destruct R as [R _]. destruct R1 as [R1 _].
  destruct (expect_all_keeps q w H i (cell_of o)) as [x [X [XF XB]]].
  - rewrite R. apply nth_mapped. exact N.
  - exact F.
  - rewrite R1, nth_error_map in X. destruct (nth_error (owners s') i) as [o'|]; [|discriminate]. cbn in X. injection X as <-.
    exists o'. auto.
Qed.
Example C113_case_bytes : exists s l,
  run true start [New_owner true [1; 2; 3]%N; New_owner false [0; 0]%N; New_store 0; Open 0; Read_into 1 1; Value 1; Put 0 0 9%N; Read_into 1 0] =
  Ok (s, [Done; Done; Done; Done; Number 2; Bytes [1; 2]%N; Error; Error]) /\ l = map w_bytes (owners s) /\ l = [[1; 2; 3]; [1; 2]]%N.
Proof. eexists. eexists. vm_compute. repeat split. Qed.

(* A program changes the value of a bytes object through the memoryview of a slice. *)
Theorem C113_bytes_refuted : exists (p : list op) (a : op) (s s' : state) (l l' : list answer),
  run true start p = Ok (s, l) /\ run true s [a] = Ok (s', l') /\
  exists o o', nth_error (owners s) 0 = Some o /\ w_fixed o = true /\
    nth_error (owners s') 0 = Some o' /\ w_bytes o' <> w_bytes o.
Proof.
  exists [New_owner true [1; 2; 3]%N; New_store 0; Open 0; Read 1 3; View 2], (Set_view 3 0 7%N).
  eexists. eexists. eexists. eexists. split; [vm_compute; reflexivity|]. split; [vm_compute; reflexivity|].
  eexists. eexists. split; [reflexivity|]. split; [reflexivity|]. split; [reflexivity|]. cbn. discriminate.
Qed.

Print Assumptions C113_expected.
Print Assumptions C113_overlap.
Print Assumptions C113_overlap_refuted.
Print Assumptions C113_freed.
Print Assumptions C113_nothing_left.
Print Assumptions C113_bytes_partial.
Print Assumptions C113_bytes_refuted.
