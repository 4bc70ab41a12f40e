(* The RecordIO-protobuf reader: C42, C43, C68, C69. *)
From Verif Require Import Common Model_num Model_tsr Spec_tsr Proof_tsr Model_csv Model_pb Spec_pb Proof_pb Proof_pb_props.
Local Open Scope Z_scope.

(* The examples: a dense attribute "label_x", two sparse attributes "s" and "t"; batches of at most 3 instances. *)
Definition n_x : list byte := label_prefix ++ [120%N].
Definition n_s : list byte := [115%N].
Definition n_t : list byte := [116%N].
Definition a_x : attribute := mk_attribute n_x D_float32 [3; 2] [2; 1] false.
Definition a_s : attribute := mk_attribute n_s D_float32 [3; 4] [4; 1] true.
Definition a_t : attribute := mk_attribute n_t (D_int i32) [3; 2; 3] [6; 3; 1] true.
Definition the_schema (l : list attribute) : schema := match new_schema l with Ok s => s | _ => mk_schema [] [] end.
Definition dense2 (a b : Z) : pvalue Z := P_float32 Z (mk_pt Z [a; b] [] []).
Definition sparse4 (ks vs : list Z) : pvalue Z := P_float32 Z (mk_pt Z vs ks [4]).
Definition sparse23 (ks vs : list Z) : pvalue Z := P_int32 Z (mk_pt Z vs ks [2; 3]).
Definition msg3 (x s t : pvalue Z) : message Z := mk_message Z [([120%N], x)] [(n_s, s); (n_t, t)].
Definition m_1 : message Z := msg3 (dense2 1 2) (sparse4 [3] [7]) (sparse23 [0; 5] [8; 9]).
Definition m_2 : message Z := msg3 (dense2 3 4) (sparse4 [] []) (sparse23 [1] [6]).
Definition s_3 : schema := the_schema [a_x; a_s; a_t].
Definition s_1 : schema := the_schema [a_x].

Lemma db_computes V (vzero : V) h s size is r : decodes_serially h s (length is) = true -> serial_outcome V vzero h size s is = r ->
  decode_batch V vzero h s size is r.
Proof. intros D <-. now apply db_serial. Qed.

(* Tactics for the examples. *)
Ltac each := repeat match goal with
  | |- Forall _ [] => constructor
  | |- Forall _ (_ :: _) => constructor
  | H : In _ [] |- _ => destruct H
  | H : In _ (_ :: _) |- _ => destruct H as [H|H]
  | H : _ \/ _ |- _ => destruct H as [H|H]
  | H : False |- _ => destruct H
  | H : (_, _) = (_, _) |- _ => injection H; clear H; intros; subst
  end.
Ltac is_sparse_case := cbn; intuition (try discriminate; try congruence).

Example s_3_usable : usable_schema 3 s_3.
Proof.
  split; [reflexivity|]. exists 3. split; [lia|]. cbn. each.
  - split; [|split; [split; [cbn [a_shape a_x a_s a_t]; each; lia|reflexivity]|reflexivity]]. exists [2]. split; [reflexivity|]. split; discriminate.
  - split; [|split; [split; [cbn [a_shape a_x a_s a_t]; each; lia|reflexivity]|reflexivity]]. exists [4]. split; [reflexivity|]. split; [discriminate|]. intros _. unfold positive. each; lia.
  - split; [|split; [split; [cbn [a_shape a_x a_s a_t]; each; lia|reflexivity]|reflexivity]]. exists [2; 3]. split; [reflexivity|]. split; [discriminate|]. intros _. unfold positive. each; lia.
Qed.
Example s_1_usable : usable_schema 3 s_1.
Proof.
  split; [reflexivity|]. exists 3. split; [lia|]. cbn. each.
  split; [|split; [split; [cbn [a_shape a_x a_s a_t]; each; lia|reflexivity]|reflexivity]]. exists [2]. split; [reflexivity|]. split; discriminate.
Qed.

(* The messages m_1 and m_2 fit the schema. *)
Example m_1_fits : fits Z s_3 m_1.
Proof.
  apply (infer_fits Z 3); [reflexivity|]. cbn. each; intros dt t E; cbn in E; injection E as <- <-; cbn; split; intros S; try reflexivity.
  - destruct S as [S|[S _]]; cbn in S; congruence.
  - split; [reflexivity|each; lia].
  - destruct S. left. discriminate.
  - split; [reflexivity|each; lia].
  - destruct S. left. discriminate.
Qed.
Example m_2_fits : fits Z s_3 m_2.
Proof.
  apply (infer_fits Z 3); [reflexivity|]. cbn. each; intros dt t E; cbn in E; injection E as <- <-; cbn; split; intros S; try reflexivity.
  - destruct S as [S|[S _]]; cbn in S; congruence.
  - split; [reflexivity|each; lia].
  - destruct S. right. split; [reflexivity|discriminate].
  - split; [reflexivity|each; lia].
  - destruct S. left. discriminate.
Qed.
Ltac clean_case :=
  let m := fresh in let E := fresh in intros m E; injection E as <-; split;
  [cbn; unfold n_x, n_s, n_t; repeat constructor; cbn; intuition discriminate
  |let I := fresh in let T := fresh in intros ? ? ? ? I T; cbn in I; each; cbn in T; try discriminate; injection T as <- <-; cbn; each; lia].
Example m_1_clean : clean Z (Some m_1).
Proof. clean_case. Qed.
Example m_2_clean : clean Z (Some m_2).
Proof. clean_case. Qed.

(* ---------------- C43 ---------------- *)

(* A batch is delivered (in a mode that does not pad) exactly if every instance provides exactly one value for every
   attribute of the schema, of the attribute's type, sparsity and shape. *)
Theorem C43_accepts_exactly : forall V (vzero : V) h size s is r, usable_schema size s -> h_pad h = false ->
  Forall (clean V) is -> (length is <= size)%nat -> decode_batch V vzero h s size is r ->
  ((exists e, r = Ok (Some e)) <-> Forall (good V s) is).
Proof. exact accepted_iff. Qed.
Print Assumptions C43_accepts_exactly.

Definition m_missing : message Z := mk_message Z [([120%N], dense2 1 2)] [(n_s, sparse4 [3] [7])].
Example C43_case : Forall (clean Z) [Some m_1; Some m_2] /\ Forall (good Z s_3) [Some m_1; Some m_2] /\
  decode_batch Z 0 B_error s_3 3 [Some m_missing] (Throw Invalid_instance) /\
  decode_batch Z 0 B_skip s_3 3 [Some m_1; Some m_missing] (Ok None).
Proof.
  split; [each; auto using m_1_clean, m_2_clean|]. split; [each; eexists; split; try reflexivity; auto using m_1_fits, m_2_fits|].
  split; apply db_serial; reflexivity.
Qed.

(* Names that clash: a label "x" and a feature "label_x" count as two attributes, an instance without the attribute "s"
   is accepted. *)
Theorem C43_same_name_refuted : exists (s : schema) (m : message Z) e,
  usable_schema 3 s /\ NoDup (map fst (m_labels _ m)) /\ NoDup (map fst (m_features _ m)) /\
  decode_batch Z 0 B_error s 3 [Some m] (Ok (Some e)) /\
  exists a, In a (s_attributes s) /\ ~ In (a_name a) (map fst (m_entries _ m)).
Proof.
  exists (the_schema [a_x; a_s]), (mk_message Z [([120%N], dense2 1 2)] [(n_x, dense2 3 4)]). eexists.
  refine (conj _ (conj _ (conj _ (conj _ _)))).
  - split; [reflexivity|]. exists 3. split; [lia|]. cbn. each.
    + split; [|split; [split; [cbn [a_shape a_x a_s a_t]; each; lia|reflexivity]|reflexivity]]. exists [2]. split; [reflexivity|]. split; discriminate.
    + split; [|split; [split; [cbn [a_shape a_x a_s a_t]; each; lia|reflexivity]|reflexivity]]. exists [4]. split; [reflexivity|]. split; [discriminate|]. intros _. unfold positive. each; lia.
  - cbn. repeat constructor; auto.
  - cbn. repeat constructor; auto.
  - apply db_computes; [reflexivity|]; lazy; reflexivity.
  - exists a_s. split; [cbn; auto|]. cbn. intuition discriminate.
Qed.
Print Assumptions C43_same_name_refuted.

(* ---------------- C42 ---------------- *)

(* Padding with dense features only: the example holds exactly the good instances, one per row. *)
Theorem C42_dense : forall V (vzero : V) h size s is ms r, usable_schema size s -> has_sparse s = false -> h_pad h = true ->
  goods V s is ms -> Forall (clean V) is -> (length is <= size)%nat -> decode_batch V vzero h s size is r ->
  exists fs, r = Ok (Some (mk_example s fs (Z.of_nat size - Z.of_nat (length ms)))) /\
    Forall2 (holds_rows V size ms) (s_attributes s) fs.
Proof. exact padded_dense. Qed.
Print Assumptions C42_dense.

(* Padding in general, provided that the fault of each bad instance is found before one of its values has been
   appended to a sparse feature. *)
Theorem C42_found_early_partial : forall V (vzero : V) h size s is ms r, usable_schema size s -> h_pad h = true ->
  goods V s is ms -> Forall (clean V) is -> Forall (fun i => good V s i \/ found_early V s i) is ->
  (length is <= size)%nat -> decode_batch V vzero h s size is r ->
  exists fs, r = Ok (Some (mk_example s fs (Z.of_nat size - Z.of_nat (length ms)))) /\
    Forall2 (holds_rows V size ms) (s_attributes s) fs.
Proof. intros V vzero h size s is ms r US. exact (padded V vzero h size s US is ms r). Qed.
Print Assumptions C42_found_early_partial.

(* A bad instance found early (its dense value has three elements), and one that is not: "s" is appended before the
   key of "t" turns out to be out of range. *)
Definition m_early : message Z := msg3 (P_float32 Z (mk_pt Z [1; 2; 3] [] [])) (sparse4 [1] [5]) (sparse23 [0] [1]).
Definition m_late : message Z := msg3 (dense2 5 6) (sparse4 [1] [5]) (P_float32 Z (mk_pt Z [1] [0] [2; 3])).
Lemma not_early : forall a, In a (s_attributes s_3) -> a_name a = n_x -> ~ framed Z a (P_float32 Z (mk_pt Z [1; 2; 3] [] [])).
Proof.
  intros a I E (t & T & _ & _ & _ & D). cbn in I. each; subst a; try discriminate. cbn in T. injection T; intros <-.
  specialize (D eq_refl). cbn in D. discriminate.
Qed.
Lemma m_early_bad : ~ good Z s_3 (Some m_early).
Proof.
  intros (m & E & _ & F). injection E as <-. assert (C : conforms Z a_x (P_float32 Z (mk_pt Z [1; 2; 3] [] []))).
  { apply (F n_x); [left; reflexivity|left; reflexivity|reflexivity]. }
  apply (not_early a_x); [left; reflexivity|reflexivity|apply C].
Qed.
Example C42_case : goods Z s_3 [Some m_1; Some m_early; Some m_2; None] [m_1; m_2] /\
  Forall (fun i => good Z s_3 i \/ found_early Z s_3 i) [Some m_1; Some m_early; Some m_2; None] /\
  Forall (clean Z) [Some m_1; Some m_early; Some m_2; None].
Proof.
  refine (conj _ (conj _ _)).
  - apply G_good; [exact m_1_fits|]. apply G_bad; [exact m_early_bad|]. apply G_good; [exact m_2_fits|].
    apply G_bad; [intros (m & E & _); discriminate|]. constructor.
  - each.
    + left. exists m_1. split; [reflexivity|exact m_1_fits].
    + right. intros m E. injection E as <-. exists [], (m_entries Z m_early). split; [reflexivity|]. split; [constructor|]. cbn. exact not_early.
    + left. exists m_2. split; [reflexivity|exact m_2_fits].
    + right. intros m E. discriminate.
  - each; [exact m_1_clean|clean_case|exact m_2_clean|intros m E; discriminate].
Qed.

(* In general rows get out of step: the bad instance keeps its row of "s", the next good instance's value of "s" is in
   another row than its other values. *)
Theorem C42_sparse_misaligned_refuted : exists is ms e, goods Z s_3 is ms /\ Forall (clean Z) is /\
  decode_batch Z 0 B_pad s_3 3 is (Ok (Some e)) /\ ~ Forall2 (holds_rows Z 3 ms) (s_attributes s_3) (e_features e).
Proof.
  exists [Some m_late; Some m_1], [m_1]. eexists. refine (conj _ (conj _ (conj _ _))).
  - apply G_bad; [|apply G_good; [exact m_1_fits|constructor]]. intros (m & E & _ & F). injection E as <-.
    destruct (F n_t _ a_t (or_intror (or_intror (or_introl eq_refl))) (or_intror (or_intror (or_introl eq_refl))) eq_refl) as [(t & T & _) _].
    cbn in T. discriminate.
  - each; [clean_case|exact m_1_clean].
  - apply db_computes; [reflexivity|]; lazy; reflexivity.
  - intros F. cbn in F. inversion F; subst. inversion H4; subst. destruct H3 as (o & E & S & H & _). cbn in E. injection E as <-. cbn in H. discriminate.
Qed.
Print Assumptions C42_sparse_misaligned_refuted.

(* Or the whole batch fails: of the bad instance's keys [0; 4] of "s" the first has been stored when the second is
   found to be out of range, and the sparse tensor cannot be built. *)
Definition m_key : message Z := msg3 (dense2 5 6) (sparse4 [0; 4] [5; 6]) (sparse23 [0] [1]).
Theorem C42_sparse_exception_refuted : exists is ms x, goods Z s_3 is ms /\ Forall (clean Z) is /\
  decode_batch Z 0 B_pad s_3 3 is (Throw x).
Proof.
  exists [Some m_key; Some m_1], [m_1]. eexists. refine (conj _ (conj _ _)).
  - apply G_bad; [|apply G_good; [exact m_1_fits|constructor]]. intros (m & E & _ & F). injection E as <-.
    destruct (F n_s _ a_s (or_intror (or_introl eq_refl)) (or_intror (or_introl eq_refl)) eq_refl) as [_ K].
    specialize (K eq_refl _ _ eq_refl). cbn in K. inversion K; subst. inversion H2; subst. lia.
  - each; [clean_case|exact m_1_clean].
  - apply db_computes; [reflexivity|]; lazy; reflexivity.
Qed.
Print Assumptions C42_sparse_exception_refuted.

(* The padding rows are not always empty: a bad instance at the end of the batch leaves its dense values there. *)
Theorem C42_padding_refuted : exists is ms e, goods Z s_3 is ms /\ Forall (clean Z) is /\
  decode_batch Z 0 B_pad s_3 3 is (Ok (Some e)) /\ ~ Forall2 (zero_after Z 0 (length ms)) (s_attributes s_3) (e_features e).
Proof.
  exists [Some m_1; Some m_missing], [m_1]. eexists. refine (conj _ (conj _ (conj _ _))).
  - apply G_good; [exact m_1_fits|]. apply G_bad; [|constructor]. intros (m & E & P & _). injection E as <-.
    apply Permutation_length in P. discriminate.
  - each; [exact m_1_clean|clean_case].
  - apply db_computes; [reflexivity|]; lazy; reflexivity.
  - intros F. cbn in F. inversion F; subst. cbn in H2. specialize (H2 2%nat 1 eq_refl). cbn in H2. specialize (H2 ltac:(lia)). discriminate.
Qed.
Print Assumptions C42_padding_refuted.

(* ---------------- C68 ---------------- *)

(* A batch of good instances is delivered in every mode, decoded serially or in parallel: one row per instance, zeros in the
   padding rows, the padding count being the number of those rows. *)
Theorem C68_all_good : forall V (vzero : V) h size s is ms r, usable_schema size s ->
  goods V s is ms -> length is = length ms -> Forall (clean V) is -> (length is <= size)%nat ->
  decode_batch V vzero h s size is r ->
  exists fs, r = Ok (Some (mk_example s fs (Z.of_nat size - Z.of_nat (length ms)))) /\
    Forall2 (holds_rows V size ms) (s_attributes s) fs /\ Forall2 (zero_after V vzero (length ms)) (s_attributes s) fs.
Proof. intros V vzero h size s is ms r US. exact (all_good V vzero h size s US is ms r). Qed.
Print Assumptions C68_all_good.

(* A bad instance raises an error in the mode error and drops the example in the modes skip. *)
Theorem C68_error : forall V (vzero : V) size s is r, usable_schema size s ->
  Exists (fun i => ~ good V s i) is -> Forall (clean V) is -> (length is <= size)%nat ->
  decode_batch V vzero B_error s size is r -> r = Throw Invalid_instance.
Proof. intros V vzero size s is r US E C L D. exact (some_bad V vzero B_error size s US is r eq_refl E C L D). Qed.
Print Assumptions C68_error.
Theorem C68_skip : forall V (vzero : V) h size s is r, usable_schema size s -> h = B_skip \/ h = B_skip_warn ->
  Exists (fun i => ~ good V s i) is -> Forall (clean V) is -> (length is <= size)%nat ->
  decode_batch V vzero h s size is r -> r = Ok None.
Proof. exact skipped. Qed.
Print Assumptions C68_skip.

(* Decoding has one outcome: the one of decoding the instances one after the other. *)
Theorem C68_parallel_is_serial : forall V (vzero : V) h size s is st r, usable_schema size s -> has_sparse s = false -> h_pad h = false ->
  Forall (clean V) is -> (length is <= size)%nat -> init_stores V vzero (Z.of_nat size) (s_attributes s) = Ok st ->
  decode_parallel V h s is st r -> r = decode_serial V h s is 0 st.
Proof. exact parallel_is_serial. Qed.
Print Assumptions C68_parallel_is_serial.

(* Two workers, their writes interleaved. *)
Definition d_1 : message Z := mk_message Z [([120%N], dense2 1 2)] [].
Definition d_2 : message Z := mk_message Z [([120%N], dense2 3 4)] [].
Example C68_case : exists st, init_stores Z 0 3 (s_attributes s_1) = Ok st /\
  decode_parallel Z B_skip s_1 [Some d_1; Some d_2] st (Ok (Some (2%nat, [S_dense Z [1; 2; 3; 4; 0; 0]]))) /\
  decode_parallel Z B_skip s_1 [Some d_1; None] st (Ok None) /\
  decode_parallel Z B_error s_1 [Some d_1; None] st (Throw Invalid_instance).
Proof.
  exists [S_dense Z [0; 0; 0; 0; 0; 0]]. split; [reflexivity|]. refine (conj _ (conj _ _)).
  - change (Ok (Some (2%nat, [S_dense Z [1; 2; 3; 4; 0; 0]]))) with
      (let* st' := do_writes Z B_skip s_1 (fst (pb_worker Z B_skip s_1 [(1%nat, Some d_2); (0%nat, Some d_1)])) [S_dense Z [0; 0; 0; 0; 0; 0]] in
       Ok (Some (length [Some d_1; Some d_2], st'))).
    apply (par_done Z B_skip s_1 _ _ [[(0%nat, Some d_1)]; [(1%nat, Some d_2)]]); [reflexivity|each; reflexivity|].
    cbn. apply (M_step [_] _ [] []). cbn [app]. apply (M_step [] _ [] [_]). apply M_done. cbn. each; reflexivity.
  - apply (par_skip Z B_skip s_1 _ _ [[(0%nat, Some d_1)]; [(1%nat, None)]]); [reflexivity|each; [left|right]; reflexivity|].
    right. left. reflexivity.
  - apply (par_throw Z B_error s_1 _ _ [[(0%nat, Some d_1)]; [(1%nat, None)]]); [reflexivity|]. right. left. reflexivity.
Qed.

(* ---------------- C69 ---------------- *)

(* An inferred schema describes the instance: one attribute per label and feature, in order, with the type, sparsity and
   shape of the value after the batch size. *)
Theorem C69_describes : forall V batch m s, infer V batch (Some (Some m)) = Ok (Some s) ->
  Forall2 (describes V batch) (m_entries V m) (s_attributes s) /\ NoDup (map fst (m_entries V m)).
Proof. exact infer_describes. Qed.
Print Assumptions C69_describes.

(* The attributes are named after the labels and features. *)
Theorem C69_names : forall V batch m s, infer V batch (Some (Some m)) = Ok (Some s) ->
  map a_name (s_attributes s) = entry_names V m.
Proof.
  intros V batch m s H. destruct (infer_describes V batch m s H) as [F _].
  assert (E : entry_names V m = map fst (m_entries V m)) by (unfold entry_names, m_entries; rewrite map_app, map_map; reflexivity).
  rewrite E. clear E H. induction F as [|e a es l D F IH]; [reflexivity|]. cbn [map]. destruct D as [t [_ [-> _]]]. rewrite IH. reflexivity.
Qed.
Print Assumptions C69_names.

(* If the names are different and all values can be described, inference succeeds; the schema is one of those the other
   theorems are about. *)
Theorem C69_succeeds : forall V batch m, 0 <= batch < 2 ^ 63 -> NoDup (map fst (m_entries V m)) ->
  Forall (fun e => describable V batch (snd e)) (m_entries V m) ->
  exists s, infer V batch (Some (Some m)) = Ok (Some s) /\ usable_schema (Z.to_nat batch) s.
Proof. exact infer_succeeds. Qed.
Print Assumptions C69_succeeds.

(* Nothing to infer from gives no schema; an instance that is not a message is an error. *)
Theorem C69_without_message : forall V batch, infer V batch None = Ok None /\ infer V batch (Some None) = Throw Schema_err.
Proof. intros. split; reflexivity. Qed.
Print Assumptions C69_without_message.

(* The instance itself is good under the inferred schema if its values fill their shapes. *)
Theorem C69_conforms : forall V batch m s, infer V batch (Some (Some m)) = Ok (Some s) ->
  Forall (fun e => filled V (snd e)) (m_entries V m) -> fits V s m.
Proof. exact infer_fits. Qed.
Print Assumptions C69_conforms.

Example C69_case : infer Z 3 (Some (Some m_1)) = Ok (Some s_3) /\ NoDup (map fst (m_entries Z m_1)) /\
  Forall (fun e => describable Z 3 (snd e)) (m_entries Z m_1).
Proof.
  split; [reflexivity|]. split; [apply (m_1_clean _ eq_refl)|]. cbn. each.
  - do 2 eexists. split; [reflexivity|]. cbn. split; [congruence|]. split; [split; [each; lia|reflexivity]|]. intros [H|[H _]]; cbn in H; congruence.
  - do 2 eexists. split; [reflexivity|]. cbn. split; [discriminate|]. split; [split; [each; lia|reflexivity]|]. intros _. unfold positive. each; lia.
  - do 2 eexists. split; [reflexivity|]. cbn. split; [discriminate|]. split; [split; [each; lia|reflexivity]|]. intros _. unfold positive. each; lia.
Qed.

(* Otherwise it may be bad under the schema inferred from it: a shape [3] with two values. *)
Theorem C69_own_schema_refuted : exists m s, infer Z 3 (Some (Some m)) = Ok (Some s) /\ usable_schema 3 s /\ clean_message Z m /\
  decode_batch Z 0 B_error s 3 [Some m] (Throw Invalid_instance).
Proof.
  exists (mk_message Z [] [(n_s, P_float32 Z (mk_pt Z [1; 2] [] [3]))]). eexists. split; [reflexivity|].
  refine (conj _ (conj _ _)).
  - split; [reflexivity|]. exists 3. split; [lia|]. cbn. each.
    split; [|split; [split; [cbn; each; lia|reflexivity]|reflexivity]]. exists [3]. split; [reflexivity|]. split; discriminate.
  - assert (C : clean Z (Some (mk_message Z [] [(n_s, P_float32 Z (mk_pt Z [1; 2] [] [3]))]))) by clean_case. exact (C _ eq_refl).
  - apply db_serial. reflexivity.
Qed.
Print Assumptions C69_own_schema_refuted.

(* A label "x" and a feature "label_x": no schema. *)
Theorem C69_name_clash_refuted : exists m : message Z, NoDup (map fst (m_labels _ m)) /\ NoDup (map fst (m_features _ m)) /\
  infer Z 3 (Some (Some m)) = Throw Invalid_argument.
Proof.
  exists (mk_message Z [([120%N], dense2 1 2)] [(n_x, dense2 3 4)]). refine (conj _ (conj _ eq_refl)); cbn; repeat constructor; auto.
Qed.
Print Assumptions C69_name_clash_refuted.
