(* What the RecordIO-protobuf reader says about bad instances: C108. *)
From Verif Require Import Common Model_num Model_tsr Spec_tsr Model_csv Model_pb Spec_pb Proof_pb Proof_pb_props Model_report Model_pbreport Spec_pbreport Proof_pbreport Props_pb.
From Coq Require String.
Import String.StringSyntax.
Local Open Scope string_scope.
Local Open Scope list_scope.
Local Open Scope Z_scope.

(* The instances with their numbers, and the problem of each. *)
Notation told V s := (Forall2 (fun (ni : nat * instance V) q => unsigned_keys V (snd ni) /\ tells V s (snd ni) q)).
Definition quiet (qs : list (option problem)) : Prop := Forall (fun q => q = None) qs.
Lemma quiet_faulty qs : quiet qs -> Forall (fun q => faulty q = false) qs.
Proof. intro H. eapply Forall_impl; [|exact H]. intros q ->. reflexivity. Qed.

(* Whatever is said, batches are decoded as without it, serially and in parallel. *)
Theorem C108_verdict : forall V warn h s store,
  (forall is row st, snd (fst (serial_says V warn h s store is row st)) = decode_serial V h s (map snd is) row st) /\
  (forall is rows, length rows = length is -> snd (fst (worker_says V warn h s store is)) = snd (pb_worker V h s (combine rows (map snd is)))).
Proof. intros V warn h s store. split; [exact (serial_returns V warn h s store)|exact (worker_verdict V warn h s store)]. Qed.
Print Assumptions C108_verdict.

(* Of every instance something can be told, and there is no problem exactly if the instance is good. *)
Theorem C108_told : forall V size s i, usable_schema size s -> clean V i ->
  exists q, tells V s i q /\ (q = None <-> good V s i).
Proof.
  intros V size s i US C. destruct (tells_exists V s size US i) as (q & T). exists q. split; auto. exact (tells_good V s size US i q C T).
Qed.
Print Assumptions C108_told.

Definition st_3 : list (Model_pb.store Z) := match init_stores Z 0 3 (s_attributes s_3) with Ok st => st | _ => [] end.
Definition data : str := tx "data.rec".

Example C108_case_told : exists q, tells Z s_3 (Some m_1) q /\ (q = None <-> good Z s_3 (Some m_1)).
Proof. exact (C108_told Z 3 s_3 (Some m_1) s_3_usable m_1_clean). Qed.

(* A batch without bad instances: nothing is said. *)
Theorem C108_clean : forall V (vzero : V) warn h size s store batch is qs st, usable_schema size s ->
  init_stores V vzero (Z.of_nat size) (s_attributes s) = Ok st -> (length is <= size)%nat ->
  told V s is qs -> quiet qs ->
  exists st', conclude V h batch (length is) (serial_says V warn h s store is 0 st) = ([], Ok (Some (length is, st')), None).
Proof.
  intros V vzero warn h size s store batch is qs st US E L T Q. pose proof (init_shaped V vzero size s st US E) as SH.
  destruct (serial_good V warn h s store size US is qs T (quiet_faulty qs Q) [] 0 st L SH) as (st' & _ & E'). rewrite app_nil_r in E'. exists st'.
  rewrite E'. cbn. rewrite Nat.eqb_refl. reflexivity.
Qed.
Print Assumptions C108_clean.

(* Bad instances left out: each of them is reported once, in the order of the dataset, by the sentence about its first problem, if warnings
   are on; and then, in the mode that warns, how many there were. *)
Theorem C108_padded : forall V (vzero : V) warn h size s store batch is qs st, usable_schema size s ->
  init_stores V vzero (Z.of_nat size) (s_attributes s) = Ok st -> (length is <= size)%nat ->
  h = B_pad \/ h = B_pad_warn -> told V s is qs -> Forall not_density qs ->
  let bad := length (filter faulty qs) in
  exists st', conclude V h batch (length is) (serial_says V warn h s store is 0 st) =
    (concat (map (fun nq => logged warn store (fst nq) (snd nq)) (combine (map fst is) qs)) ++
       (if Nat.eqb bad 0 then [] else match h with B_pad_warn => [padded_sentence batch bad] | _ => [] end),
     Ok (Some ((length is - bad)%nat, st')), None).
Proof.
  intros V vzero warn h size s store batch is qs st US E L P T N bad. pose proof (init_shaped V vzero size s st US E) as SH.
  destruct (serial_padded V warn h s store size US is qs ltac:(destruct P as [-> | ->]; reflexivity) T 0 st L SH) as (st' & _ & E').
  exists st'. rewrite E', (spokes_true V warn store is qs N). unfold conclude. cbn [andthen].
  assert (B : (bad <= length is)%nat).
  { unfold bad. clear - T. induction T as [|x y l m _ T IH]; cbn; [lia|]. destruct (faulty y); cbn; lia. }
  cbn [Nat.add]. fold bad. destruct (Nat.eqb bad 0) eqn:Z0.
  - apply Nat.eqb_eq in Z0. rewrite Z0, Nat.sub_0_r, Nat.eqb_refl. reflexivity.
  - apply Nat.eqb_neq in Z0. destruct (Nat.eqb (length is) (length is - bad)) eqn:Z1; [apply Nat.eqb_eq in Z1; lia|].
    replace (length is - (length is - bad))%nat with bad by lia. destruct P as [-> | ->]; rewrite ?padded_is; reflexivity.
Qed.
Print Assumptions C108_padded.

(* A bad instance in a mode that skips, or that makes it an error: the instances before it are good; the instance is reported by the
   sentence about its first problem, and the error has the same text; those behind it are not looked at; and then, in the mode that warns,
   the example is reported as skipped. *)
Theorem C108_stopped : forall V (vzero : V) warn h size s store batch pre qs nr i q rest st, usable_schema size s ->
  init_stores V vzero (Z.of_nat size) (s_attributes s) = Ok st -> (length pre < size)%nat ->
  h <> B_pad -> h <> B_pad_warn -> told V s pre qs -> quiet qs ->
  unsigned_keys V i -> tells V s i (Some q) -> not_density (Some q) ->
  let all := pre ++ (nr, i) :: rest in let m := sentence store nr q in
  conclude V h batch (length all) (serial_says V warn h s store all 0 st) =
    ((if warn then [m] else []) ++ match h with B_skip_warn => [skipped_sentence batch] | _ => [] end,
     match h with B_error => Throw Invalid_instance | _ => Ok None end,
     match h with B_error => Some m | _ => None end).
Proof.
  intros V vzero warn h size s store batch pre qs nr i q rest st US E L H1 H2 T Q U TI N all m. pose proof (init_shaped V vzero size s st US E) as SH.
  assert (P : h_pad h = false) by (destruct h; try reflexivity; congruence). unfold all.
  rewrite (serial_stopped V warn h s store size US pre qs nr i q rest st P T (quiet_faulty qs Q) U TI L SH), (spoken_true store nr q N). fold m.
  unfold conclude. destruct h; try congruence; cbn [h_error andthen]; rewrite ?skipped_is, ?app_nil_r; reflexivity.
Qed.
Print Assumptions C108_stopped.

(* Decoding in parallel (then no feature is sparse, and bad examples are not padded): a thread that works on some consecutive instances says
   nothing if all of them are good; otherwise it reports its first bad one, and no other. *)
Theorem C108_parallel : forall V warn h size s store part, usable_schema size s -> has_sparse s = false -> h <> B_pad -> h <> B_pad_warn ->
  (forall nr i q, In (nr, i) part -> tells V s i q -> not_density q) ->
  (Forall (fun ni => tells V s (snd ni) None) part /\ worker_says V warn h s store part = ([], V_good, None)) \/
  exists pre nr i q rest, part = pre ++ (nr, i) :: rest /\ Forall (fun ni => tells V s (snd ni) None) pre /\ tells V s i (Some q) /\
    let m := sentence store nr q in
    worker_says V warn h s store part =
      (if warn then [m] else [], match h with B_error => V_throw Invalid_instance | _ => V_bad end, match h with B_error => Some m | _ => None end).
Proof.
  intros V warn h size s store part US ND H1 H2 N.
  assert (P : h_pad h = false) by (destruct h; try reflexivity; congruence).
  assert (G : forall pre, Forall (fun ni : nat * instance V => tells V s (snd ni) None) pre ->
    exists qs, Forall2 (fun (ni : nat * instance V) q => tells V s (snd ni) q) pre qs /\ Forall (fun q => faulty q = false) qs).
  { induction 1 as [|x l T H (qs & A & B)]; [exists []; split; constructor|]. exists (None :: qs). split; constructor; auto. }
  assert (S : Forall (fun ni : nat * instance V => tells V s (snd ni) None) part \/
    exists pre nr i q rest, part = pre ++ (nr, i) :: rest /\ Forall (fun ni => tells V s (snd ni) None) pre /\ tells V s i (Some q)).
  { clear N. induction part as [|[nr i] part IH]; [left; constructor|]. destruct (tells_exists V s size US i) as ([q|] & T).
    - right. exists [], nr, i, q, part. repeat split; auto.
    - destruct IH as [IH|(pre & nr' & i' & q & rest & -> & F & T')]; [left; constructor; auto|].
      right. exists ((nr, i) :: pre), nr', i', q, rest. repeat split; auto. }
  destruct S as [S|(pre & nr & i & q & rest & -> & F & T)].
  - left. split; auto. destruct (G part S) as (qs & A & B). pose proof (worker_good V warn h s store size US ND part qs [] A B) as E.
    rewrite app_nil_r in E. exact E.
  - right. exists pre, nr, i, q, rest. repeat split; auto. destruct (G pre F) as (qs & A & B). cbv zeta.
    rewrite (worker_stopped V warn h s store size US ND pre qs nr i q rest P A B T).
    rewrite (spoken_true store nr q (N nr i (Some q) (proj2 (in_app_iff pre ((nr, i) :: rest) (nr, i)) (or_intror (or_introl eq_refl))) T)). destruct h; try congruence; reflexivity.
Qed.
Print Assumptions C108_parallel.

(* A feature that is sparse although it should be dense, or dense although it should be sparse, is reported the wrong way round. *)
Theorem C108_density_refuted : forall V (vzero : V) warn err size s store nr i name sparse st, usable_schema size s ->
  init_stores V vzero (Z.of_nat size) (s_attributes s) = Ok st -> (0 < size)%nat -> unsigned_keys V i ->
  tells V s i (Some (Density name sparse)) ->
  let m := sentence store nr (Density name (negb sparse)) in
  m <> sentence store nr (Density name sparse) /\
  exists st', instance_says V warn err s store nr 0 i st =
    (if warn then [m] else [], if err then Throw Invalid_instance else Ok (st', false), if err then Some m else None).
Proof.
  intros V vzero warn err size s store nr i name sparse st US E L U T m. split.
  - unfold m, sentence. cbv zeta. intro H. destruct sparse; cbn [negb] in H; apply app_inv_head in H; discriminate.
  - destruct (instance_tells V warn err s store size US nr 0 i _ st L U T (init_shaped V vzero size s st US E)) as (st' & _ & E').
    exists st'. exact E'.
Qed.
Print Assumptions C108_density_refuted.

Definition long_x : message Z := msg3 (P_float32 Z (mk_pt Z [1; 2; 3] [] [])) (sparse4 [3] [7]) (sparse23 [0] [8]).
Definition turned_t : message Z := msg3 (dense2 1 2) (sparse4 [3] [7]) (P_int32 Z (mk_pt Z [8] [0] [3; 2])).
Definition far_t : message Z := msg3 (dense2 1 2) (sparse4 [3] [7]) (sparse23 [6] [8]).
Definition dense_s : message Z := msg3 (dense2 1 2) (P_float32 Z (mk_pt Z [1; 2; 3; 4] [] [4])) (sparse23 [0] [8]).
Definition says_3 (h : beh) (is : list (nat * instance Z)) := conclude Z h 2 (length is) (serial_says Z true h s_3 data is 0 st_3).

Lemma a_x_in : In a_x (s_attributes s_3).
Proof. left. reflexivity. Qed.
Lemma a_s_in : In a_s (s_attributes s_3).
Proof. right. left. reflexivity. Qed.
Lemma a_t_in : In a_t (s_attributes s_3).
Proof. right. right. left. reflexivity. Qed.

Example C108_case_batch :
  (fst (fst (says_3 B_pad_warn [(4%nat, None); (5%nat, Some long_x); (6%nat, Some m_1)])) =
    [tx "The instance #4 in the data store 'data.rec' contains a corrupt RecordIO-protobuf message.";
     tx "The feature 'label_x' of the instance #5 in the data store 'data.rec' has the shape (3) while it is expected to have the shape (2).";
     tx "The example #2 has been padded as it had 2 bad instance(s)."]) /\
  (let m := tx "The instance #12 in the data store 'data.rec' has 2 feature(s) while it is expected to have 3 features." in
   says_3 B_error [(11%nat, Some m_1); (12%nat, Some m_missing)] = ([m], Throw Invalid_instance, Some m)) /\
  says_3 B_skip_warn [(0%nat, Some m_1); (1%nat, Some far_t); (2%nat, None)] =
    ([tx "The sparse feature 't' of the instance #1 in the data store 'data.rec' has one or more invalid keys.";
      tx "The example #2 has been skipped as it had at least one bad instance."], Ok None, None) /\
  says_3 B_skip [(7%nat, Some turned_t)] =
    ([tx "The feature 't' of the instance #7 in the data store 'data.rec' has the shape (3, 2) while it is expected to have the shape (2, 3)."], Ok None, None).
Proof. vm_compute. auto. Qed.

(* The hypotheses about these instances. *)
Example C108_case_tells : tells Z s_3 None (Some Corrupt) /\ tells Z s_3 (Some long_x) (Some (Misshaped n_x [3] [2])) /\
  unsigned_keys Z (Some long_x) /\ not_density (Some (Misshaped n_x [3] [2])).
Proof.
  split; [constructor|]. split; [|split].
  - apply I_feature. apply (T_fault Z s_3 _ _ _ a_x); [exact a_x_in|reflexivity|]. apply (F_shape Z a_x _ (mk_pt Z [1; 2; 3] [] [])); [reflexivity|split; [discriminate|intros [X|[X _]]; cbn in X; congruence]|].
    intros X; destruct X as [[X1 X2]|[X1 X2]]; cbn in X1, X2; congruence.
  - intros m name v dt t E I T. injection E as <-. cbn in I. each; cbn in T; try discriminate; injection T as <- <-; cbn; each; lia.
  - intros name b. discriminate.
Qed.

Example C108_case_density : let m := tx "The feature 's' of the instance #3 in the data store 'data.rec' is sparse while it is expected to be dense." in
  usable_schema 3 s_3 /\ tells Z s_3 (Some dense_s) (Some (Density n_s false)) /\
  fst (fst (instance_says Z true false s_3 data 3 0 (Some dense_s) st_3)) = [m].
Proof.
  split; [exact s_3_usable|]. split; [|vm_compute; reflexivity]. apply I_feature.
  apply (T_fine Z s_3 _ _ _ a_x); [exact a_x_in|reflexivity| |].
  { split; [|discriminate]. exists (mk_pt Z [1; 2] [] []). split; [reflexivity|]. split; [split; [discriminate|intros [X|[X _]]; cbn in X; congruence]|]. split; [right; auto|]. split; [discriminate|reflexivity]. }
  apply (T_fault Z s_3 _ _ _ a_s); [exact a_s_in|reflexivity|]. apply (F_dense Z a_s _ (mk_pt Z [1; 2; 3; 4] [] [4])); [reflexivity|reflexivity|intros [X|[X _]]; cbn in X; congruence].
Qed.

Example C108_case_parallel : has_sparse s_1 = false /\
  worker_says Z true B_skip s_1 data [(8%nat, Some (mk_message Z [([120%N], dense2 1 2)] [])); (9%nat, Some (mk_message Z [] [])); (10%nat, None)] =
    ([tx "The instance #9 in the data store 'data.rec' has 0 feature(s) while it is expected to have 1 features."], V_bad, None).
Proof. vm_compute. auto. Qed.
