From Verif Require Import Common Model_pyerr Spec_pyerr.
From Coq Require Import ZArith Lia.

Lemma isa_up_derives : forall n c d, isa_up n c d = true -> derives c d.
Proof.
  induction n; intros c d H; cbn in H; unfold cls_eqb in H; destruct (cls_eq_dec c d) as [->|N]; try constructor; cbn in H; try discriminate.
  destruct (base c) eqn:E; [|discriminate]. econstructor; eauto.
Qed.

Lemma isa_base : forall c b d, base c = Some b -> isa b d = true -> isa c d = true.
Proof. intros c b d E H. destruct c; inversion E; subst; destruct d; vm_compute in H |- *; congruence. Qed.

Lemma isa_derives : forall c d, isa c d = true <-> derives c d.
Proof.
  intros c d. split; [apply isa_up_derives|]. induction 1 as [c|c b d E D IH].
  - destruct c; reflexivity.
  - eapply isa_base; eauto.
Qed.

Lemma py_isa_up_derives : forall n c d, py_isa_up n c d = true -> py_derives c d.
Proof.
  induction n; intros c d H; cbn in H; unfold pycls_eqb in H; destruct (pycls_eq_dec c d) as [->|N]; try constructor; cbn in H; try discriminate.
  destruct (py_base c) eqn:E; [|discriminate]. econstructor; eauto.
Qed.

Lemma py_isa_base : forall c b d, py_base c = Some b -> py_isa b d = true -> py_isa c d = true.
Proof. intros c b d E H. destruct c; inversion E; subst; destruct d; vm_compute in H |- *; congruence. Qed.

Lemma py_isa_derives : forall c d, py_isa c d = true <-> py_derives c d.
Proof.
  intros c d. split; [apply py_isa_up_derives|]. induction 1 as [c|c b d E D IH].
  - destruct c; reflexivity.
  - eapply py_isa_base; eauto.
Qed.

Lemma same_hierarchy : forall c d p q, counterpart c = Some p -> counterpart d = Some q -> (derives c d <-> py_derives p q).
Proof.
  intros c d p q C D. rewrite <- isa_derives, <- py_isa_derives.
  destruct c; inversion C; subst; destruct d; inversion D; subst; vm_compute; tauto.
Qed.

Lemma clause_counterpart : forall c, first_clause clauses c = counterpart c.
Proof. destruct c; reflexivity. Qed.

Lemma errno_counterpart : forall c p (k : Z), counterpart c = Some p ->
  (match p with P_OSError => Some k | _ => None end) = (if cls_eqb c System_error then Some k else None).
Proof. intros c p k H. destruct c; inversion H; subst; reflexivity. Qed.

Fixpoint native_mirrored (e : exc) : native e -> exists p, set_error e = inl p /\ mirrors e p.
Proof.
  destruct e as [c w k n]. intros N. cbn [set_error]. rewrite clause_counterpart. destruct n as [e'|].
  - assert (N' : native e') by (inversion N; auto).
    assert (C : exists p, counterpart c = Some p) by (inversion N; eauto).
    destruct C as [p C]. destruct (native_mirrored e' N') as (q & E & M). rewrite C, E. eexists. split; [reflexivity|].
    rewrite (errno_counterpart c) by auto. constructor; auto.
  - assert (C : exists p, counterpart c = Some p) by (inversion N; eauto). destruct C as [p C]. rewrite C.
    eexists. split; [reflexivity|]. rewrite (errno_counterpart c) by auto. constructor; auto.
Qed.

Lemma python_mirrors : forall e, native e -> mirrors e (to_python e).
Proof. intros e N. destruct (native_mirrored e N) as (p & E & M). unfold to_python. rewrite E. exact M. Qed.

Lemma mirrors_class : forall e p, mirrors e p -> counterpart (e_cls e) = Some (py_class p).
Proof. destruct 1; auto. Qed.

Lemma python_caught : forall e d q, native e -> counterpart d = Some q ->
  (derives (e_cls e) d <-> py_derives (py_class (to_python e)) q).
Proof.
  intros e d q N D. apply same_hierarchy; auto. apply mirrors_class. apply python_mirrors. exact N.
Qed.

(* ---------------- readers ---------------- *)

Lemma mirrors_nested : forall c w k e P, mirrors (Exc c w k (Some e)) P ->
  exists p q, counterpart c = Some p /\ P = Py_exc p w (if cls_eqb c System_error then Some k else None) (Some q) /\ mirrors e q.
Proof. intros c w k e P M. inversion M; subst. eauto. Qed.

Lemma wrapped : forall c p text e, counterpart c = Some p -> c <> System_error -> native e ->
  exists q, to_python (wrap c text e) = Py_exc p text None (Some q) /\ mirrors e q.
Proof.
  intros c p text e C S N. assert (N' : native (wrap c text e)) by (econstructor; eauto).
  destruct (mirrors_nested _ _ _ _ _ (python_mirrors _ N')) as (p' & q & C' & E & M). rewrite C in C'. injection C' as <-.
  exists q. split; auto. rewrite E. unfold cls_eqb. destruct (cls_eq_dec c System_error); [contradiction|reflexivity].
Qed.

(* What the reader of records makes of an exception. *)
Lemma core_wraps : forall text e, data_error (e_cls e) ->
  exists t, core_handle_errors text e = wrap Data_reader_error (text t) e.
Proof.
  intros text e D. unfold core_handle_errors. unfold data_error in D. rewrite <- !isa_derives in D.
  repeat match goal with |- context [if ?b then _ else _] => destruct b eqn:?; [eexists; reflexivity|] end.
  intuition discriminate.
Qed.

Lemma core_passes : forall text c w k n, derives c Data_reader_error -> core_handle_errors text (Exc c w k n) = Exc c w k n.
Proof.
  intros text c w k n D. apply isa_derives in D. unfold core_handle_errors. cbn [e_cls].
  destruct c; vm_compute in D; try discriminate; reflexivity.
Qed.

Lemma wrap_about : forall text e c, native e -> c = Data_reader_error \/ c = Schema_error -> about (to_python (wrap c text e)) e.
Proof.
  intros text e c N C.
  assert (X : exists p, counterpart c = Some p /\ c <> System_error /\ py_derives p P_DataReaderError).
  { destruct C as [-> | ->]; eexists; (split; [reflexivity|]); (split; [discriminate|]); apply py_isa_derives; reflexivity. }
  destruct X as (p & A & B & D). destruct (wrapped c p text e A B N) as (q & -> & M). split; cbn; eauto.
Qed.

Lemma record_errors : forall text e, native e -> data_error (e_cls e) -> about (to_python (core_handle_errors text e)) e.
Proof. intros text e N D. destruct (core_wraps text e D) as (t & ->). apply wrap_about; auto. Qed.

Lemma open_known : forall missing denied e, known_code e -> exists w, open_errors missing denied e = Exc Data_reader_error w 0 None.
Proof.
  intros missing denied e [D K]. apply isa_derives in D. unfold open_errors. rewrite D.
  destruct (Z.eqb_spec (e_code e) ENOENT); [eauto|]. destruct (Z.eqb_spec (e_code e) EACCES); [eauto|]. tauto.
Qed.

Lemma open_other : forall missing denied e, ~ known_code e -> open_errors missing denied e = e.
Proof.
  intros missing denied e N. unfold open_errors. destruct (isa (e_cls e) System_error) eqn:D; auto. apply isa_derives in D.
  destruct (Z.eqb_spec (e_code e) ENOENT); [elim N; split; auto|]. destruct (Z.eqb_spec (e_code e) EACCES); [elim N; split; auto|]. auto.
Qed.

Lemma known_dec : forall e, known_code e \/ ~ known_code e.
Proof.
  intros e. unfold known_code. destruct (isa (e_cls e) System_error) eqn:D.
  - apply isa_derives in D. destruct (Z.eq_dec (e_code e) ENOENT), (Z.eq_dec (e_code e) EACCES); tauto.
  - right. intros [A _]. apply isa_derives in A. congruence.
Qed.

Lemma open_reported : forall missing denied e, known_code e ->
  exists w, open_errors missing denied e = Exc Data_reader_error w 0 None /\
    not_opened (Py_exc P_DataReaderError w None None) missing denied e.
Proof.
  intros missing denied e [D K]. pose proof D as D'. apply isa_derives in D. unfold open_errors, not_opened. rewrite D.
  destruct (Z.eqb_spec (e_code e) ENOENT); [exists missing; auto|].
  destruct (Z.eqb_spec (e_code e) EACCES); [exists denied; auto|]. tauto.
Qed.

Lemma record_places : forall text missing denied place e, native e -> data_error (e_cls e) ->
  place = In_record \/ place = In_open \/ place = In_header ->
  let p := to_python (reported text missing denied place e) in
  about p e \/ (place <> In_record /\ not_opened p missing denied e).
Proof.
  intros text missing denied place e N D P. cbn zeta.
  destruct P as [-> |P]; [left; apply record_errors; auto|].
  assert (X : about (to_python (core_handle_errors text (open_errors missing denied e))) e \/
              not_opened (to_python (core_handle_errors text (open_errors missing denied e))) missing denied e).
  { destruct (known_dec e) as [K|K].
    - right. destruct (open_reported missing denied e K) as (w & -> & R). exact R.
    - left. rewrite open_other by auto. apply record_errors; auto. }
  destruct P as [-> | ->]; cbn [reported].
  - destruct X; [left|right]; auto. split; [discriminate|auto].
  - unfold header_errors. destruct (isa (e_cls e) Corrupt_record_error) eqn:C.
    + left. rewrite open_other; [|intros [A _]; apply isa_derives in A; discriminate].
      unfold wrap. rewrite core_passes; [|apply isa_derives; reflexivity].
      change (about (to_python (wrap Schema_error (text Schema_error) e)) e). apply wrap_about; auto.
    + destruct X; [left|right]; auto. split; [discriminate|auto].
Qed.

Lemma instance_errors : forall text missing denied e, native e ->
  derives (e_cls e) Stream_error \/ derives (e_cls e) Not_supported_error \/ derives (e_cls e) System_error ->
  about (to_python (reported text missing denied In_instance e)) e.
Proof.
  intros text missing denied e N D. cbn [reported].
  assert (X : exists t, instance_handle_errors text e = wrap Data_reader_error (text t) e).
  { unfold instance_handle_errors. rewrite <- !isa_derives in D.
    repeat match goal with |- context [if ?b then _ else _] => destruct b eqn:?; [eexists; reflexivity|] end.
    intuition discriminate. }
  destruct X as (t & ->). apply wrap_about; auto.
Qed.

Lemma instance_open : forall text missing denied e, native e -> ~ known_code e ->
  mirrors e (to_python (reported text missing denied In_instance_open e)).
Proof. intros. cbn [reported]. rewrite open_other by auto. apply python_mirrors. auto. Qed.

(* Other exceptions. *)
Lemma others : forall e, counterpart (e_cls e) = None -> to_python e = default_translate e.
Proof. intros [c w k n] H. unfold to_python. cbn [set_error]. rewrite clause_counterpart. cbn in H. rewrite H. reflexivity. Qed.

Lemma foreign_cause : forall c p w k e, counterpart c = Some p -> counterpart (e_cls e) = None ->
  to_python (Exc c w k (Some e)) = default_translate e.
Proof.
  intros c p w k e C H. unfold to_python. cbn [set_error]. rewrite clause_counterpart, C.
  destruct e as [c' w' k' n']. cbn [set_error]. rewrite clause_counterpart. cbn in H. rewrite H. reflexivity.
Qed.
