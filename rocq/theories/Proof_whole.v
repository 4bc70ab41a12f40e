From Coq Require Import Permutation.
From Verif Require Import Common Model_rec Proof_rec Model_inst Spec_inst Proof_inst Proof_inst_shuffle Proof_inst_props Model_par Spec_par Proof_par Proof_par_props
  Model_text Spec_text Proof_text Spec_fault Model_whole Spec_whole.

(* ---------------- steps and the batches they use ---------------- *)

Section Steps.
  Context {B E : Type} (decode : B -> dres E) (size_bytes : B -> nat) (prefetch reads : nat).
  Notation step src src_end := (step decode size_bytes src src_end prefetch reads).
  Notation exec src src_end := (exec decode size_bytes src src_end prefetch reads).

  Ltac cases := repeat match goal with
    | H : context [match ?x with _ => _ end] |- _ => destruct x eqn:?; try discriminate
    | |- context [match ?x with _ => _ end] => destruct x eqn:?; try discriminate end.

  (* only the source node and the decode node look at the batches, and only while the pipeline runs *)
  Lemma step_same src src_end src' src_end' s a :
    (rstate s = running -> src (epoch s) = src' (epoch s) /\ src_end (epoch s) = src_end' (epoch s)) ->
    step src src_end s a = step src' src_end' s a.
  Proof.
    destruct s as [ep nx ca en lc ld dl ob on qp qr cn fl rs fq rq by_ p lg nr cs qs]. cbn [rstate epoch]. intro H.
    destruct a; cbn [Model_par.step]; try reflexivity;
      (destruct rs; try reflexivity; destruct (H eq_refl) as [E1 E2]; rewrite ?E1, ?E2; reflexivity).
  Qed.

  Lemma step_frame src src_end s a s' : a <> T_source -> a <> A_reset -> a <> A_read ->
    step src src_end s a = Some s' ->
    epoch s' = epoch s /\ s_next s' = s_next s /\ s_end s' = s_end s /\ (rstate s' = not_started <-> rstate s = not_started) /\
    (cancelled s' = false -> cancelled s = false).
  Proof.
    destruct s as [ep nx ca en lc ld dl ob on qp qr cn fl rs fq rq by_ p lg nr cs qs]. intros H1 H2 H3 HS.
    destruct a; try congruence; cbn [Model_par.step] in HS; clear H1 H2 H3;
      repeat match type of HS with context [match ?x with _ => _ end] => destruct x eqn:?; try discriminate end;
      injection HS as <-; cbn [epoch s_next s_end rstate cancelled]; repeat split; auto; try discriminate; intros; congruence.
  Qed.

  (* in a state that has not started, the epoch's batches have not been looked at *)
  Lemma step_started src src_end s a s' : step src src_end s a = Some s' ->
    (epoch s' = epoch s /\ (rstate s <> not_started -> rstate s' <> not_started)) \/ (epoch s' = S (epoch s) /\ rstate s' = not_started).
  Proof.
    intro HS. destruct a.
    all: try (apply step_frame in HS; [destruct HS as (H1 & _ & _ & H2 & _); left; split; [exact H1|tauto]|discriminate|discriminate|discriminate]).
    - destruct s as [ep nx ca en lc ld dl ob on qp qr cn fl rs fq rq by_ p lg nr cs qs]. cbn [Model_par.step] in HS. cases; injection HS as <-; left; cbn; split; auto; intros; discriminate || congruence.
    - destruct s as [ep nx ca en lc ld dl ob on qp qr cn fl rs fq rq by_ p lg nr cs qs]. cbn [Model_par.step] in HS. cases; injection HS as <-. right. auto.
    - destruct s as [ep nx ca en lc ld dl ob on qp qr cn fl rs fq rq by_ p lg nr cs qs]. cbn [Model_par.step] in HS. cases; injection HS as <-; left; cbn; split; auto.
  Qed.

  Lemma exec_snoc src src_end s l a : exec src src_end s (l ++ [a]) =
    match exec src src_end s l with Some s' => step src src_end s' a | None => None end.
  Proof.
    revert s. induction l as [|b l IH]; intro s; cbn; [destruct (step src src_end s a); reflexivity|].
    destruct (step src src_end s b); auto.
  Qed.

  Lemma exec_same src src_end src' src_end' l : forall s, exec src src_end (init 0) l = Some s ->
    (forall e, e < epoch s -> src e = src' e /\ src_end e = src_end' e) ->
    (rstate s <> not_started -> src (epoch s) = src' (epoch s) /\ src_end (epoch s) = src_end' (epoch s)) ->
    exec src' src_end' (init 0) l = Some s.
  Proof.
    induction l as [|a l IH] using rev_ind; intros s HE HP HC; [exact HE|].
    rewrite exec_snoc in HE |- *. destruct (exec src src_end (init 0) l) as [s0|] eqn:E0; [|discriminate].
    assert (Hc : rstate s0 <> not_started -> src (epoch s0) = src' (epoch s0) /\ src_end (epoch s0) = src_end' (epoch s0)).
    { intro Hr. destruct (step_started _ _ _ _ _ HE) as [[He Hk]|[He _]].
      - rewrite <- He. apply HC. auto.
      - apply HP. lia. }
    rewrite (IH s0 eq_refl); [| |exact Hc].
    - rewrite <- HE. symmetry. apply step_same. intro Hr. apply Hc. congruence.
    - intros e He. apply HP. destruct (step_started _ _ _ _ _ HE) as [[He' _]|[He' _]]; lia.
  Qed.

  (* with the batches read so far only *)
  Lemma step_prefix src src_end bs x s a : a <> T_source ->
    (exists k, bs = firstn k (src (epoch s))) ->
    forall s', step (fun _ => bs) (fun _ => x) s a = Some s' -> step src src_end s a = Some s'.
  Proof.
    intros Ha (k & ->) s'. destruct s as [ep nx ca en lc ld dl ob on qp qr cn fl rs fq rq by_ p lg nr cs qs].
    destruct a; try congruence; cbn [Model_par.step]; try (intro H; exact H).
    destruct rs; try discriminate. cbn [epoch]. destruct (take_first _ dl) as [[m dl']|]; [|discriminate].
    destruct (nth_error (firstn k (src ep)) i) as [b|] eqn:Eb; [|discriminate].
    assert (Hn : nth_error (src ep) i = Some b).
    { rewrite <- (firstn_skipn k (src ep)). rewrite nth_error_app1; [exact Eb|]. apply nth_error_Some. congruence. }
    rewrite Hn. auto.
  Qed.

  Lemma step_prefix_inv src src_end bs x s a : a <> T_source -> inv decode size_bytes src src_end prefetch reads s ->
    (rstate s = running -> bs = firstn (s_next s) (src (epoch s))) ->
    step src src_end s a = step (fun _ => bs) (fun _ => x) s a.
  Proof.
    intros Ha HI Hk. pose proof (i_perm _ _ _ _ _ _ _ HI) as (lost & HP & _).
    destruct s as [ep nx ca en lc ld dl ob on qp qr cn fl rs fq rq by_ p lg nr cs qs].
    destruct a; try congruence; cbn [Model_par.step]; try reflexivity.
    destruct rs; try reflexivity. cbn in Hk, HP. specialize (Hk eq_refl). subst bs.
    destruct (take_first _ dl) as [[m dl']|] eqn:Et; [|reflexivity].
    apply take_first_perm in Et. destruct Et as [Ep Em]. apply andb_prop in Em. destruct Em as [Em _]. apply Nat.eqb_eq in Em.
    assert (Hi : In i (seq on (nx - on))).
    { apply (Permutation_in _ HP). rewrite !in_app_iff. right. left. rewrite <- Em. apply in_map. apply (Permutation_in _ (Permutation_sym Ep)). now left. }
    apply in_seq in Hi.
    assert (Hn : nth_error (firstn nx (src ep)) i = nth_error (src ep) i).
    { rewrite <- (firstn_skipn nx (src ep)) at 2. destruct (Nat.ltb_spec i (length (firstn nx (src ep)))) as [Hl|Hl].
      - now rewrite nth_error_app1.
      - rewrite firstn_length in Hl. rewrite (proj2 (nth_error_None (firstn nx (src ep)) i)); [|rewrite firstn_length; lia].
        symmetry. apply nth_error_None. rewrite firstn_skipn. pose proof (i_next _ _ _ _ _ _ _ HI) as Hx. cbn in Hx. lia. }
    rewrite Hn. reflexivity.
  Qed.
End Steps.

(* ---------------- the coupled reader ---------------- *)

Definition endres (x : option exn) : res unit := match x with None => Ok tt | Some e => Throw e end.

Section Coupled.
  Context {A E : Type} (M : machine A) (size : nat) (last : last_handling).
  Context (decode : batch A -> dres E) (size_bytes : batch A -> nat) (prefetch reads cores np pr : nat).
  Hypothesis params : graph_params cores np pr = (prefetch, reads).
  Hypothesis cores_pos : 1 <= cores.
  Notation BM := (batch_reader size last M).
  Notation step src src_end := (step decode size_bytes src src_end prefetch reads).
  Notation exec src src_end := (exec decode size_bytes src src_end prefetch reads).
  Notation wstep := (wstep M size last decode size_bytes prefetch reads).
  Notation wexec := (wexec M size last decode size_bytes prefetch reads).
  Notation reachable src src_end := (reachable decode size_bytes src src_end prefetch reads).
  (* the states in which the batches of an epoch may begin to be read *)
  Context (begins : nat -> bstate M -> Prop).
  Hypothesis begins_init : begins 0 (b_init M).
  Hypothesis begins_reset : forall e i, begins (S e) (b_reset M i).
  Hypothesis begins_peek : forall e i, begins e i -> exists r, fst (b_peek M i) = Ok r \/ exists x, fst (b_peek M i) = Throw x.
  Hypothesis begins_read : forall e i, begins e i -> exists bs x, yields BM (None, (0, i)) bs (endres x).

  Definition fed_at (src : nat -> list (batch A)) (src_end : nat -> option exn) (e : nat) : Prop :=
    exists i, begins e i /\ yields BM (None, (0, i)) (src e) (endres (src_end e)).

  Record J (src : nat -> list (batch A)) (src_end : nat -> option exn) (w : wst E M) : Prop := mk_J {
    j_reach : reachable src src_end (w_par w);
    j_fed : forall e, fed_at src src_end e;
    j_new : rstate (w_par w) = not_started -> w_read w = [] /\ exists i, w_reader w = (0, i) /\ begins (epoch (w_par w)) i;
    j_cur : rstate (w_par w) <> not_started ->
      w_read w = firstn (s_next (w_par w)) (src (epoch (w_par w))) /\
      (s_end (w_par w) = false -> cancelled (w_par w) = false ->
         yields BM (None, w_reader w) (skipn (s_next (w_par w)) (src (epoch (w_par w)))) (endres (src_end (epoch (w_par w)))));
    j_schema : w_schema w = false -> rstate (w_par w) = not_started }.

  Lemma fed_some e : exists bs x, exists i, begins e i /\ yields BM (None, (0, i)) bs (endres x).
  Proof.
    destruct e as [|e].
    - destruct (begins_read 0 _ begins_init) as (bs & x & H). eauto.
    - destruct (begins_read (S e) _ (begins_reset e (b_init M))) as (bs & x & H). eauto.
  Qed.

  Lemma J_init : exists src src_end, J src src_end (w_init M).
  Proof.
    destruct (begins_read 0 _ begins_init) as (b0 & x0 & H0).
    destruct (begins_read 1 _ (begins_reset 0 (b_init M))) as (b1 & x1 & H1).
    exists (fun e => match e with 0 => b0 | S _ => b1 end), (fun e => match e with 0 => x0 | S _ => x1 end). constructor; cbn.
    - exists []. reflexivity.
    - intros [|e]; eexists; (split; [|eassumption]); [apply begins_init|apply begins_reset].
    - intros _. split; [reflexivity|]. eexists. split; [reflexivity|apply begins_init].
    - congruence.
    - reflexivity.
  Qed.

  Lemma core_yields r bs x : yields BM (None, r) bs x ->
    match bs with
    | b :: bs' => exists r', m_core BM r = (Ok (Some b), r') /\ yields BM (None, r') bs' x
    | [] => exists r', m_core BM r = (cast_err x (Ok None), r') /\ (x = Ok tt -> yields BM (None, r') [] x)
    end.
  Proof.
    intro H. pose proof (yields_read _ _ _ _ H) as HR. unfold b_read in HR. cbn [fst snd] in HR.
    destruct (m_core BM r) as [v r'] eqn:Er.
    destruct bs as [|b bs']; destruct HR as (s' & Es & HR); injection Es as Ev Es'; subst v s'; eauto.
  Qed.

  Lemma reach_step src src_end s a s' : reachable src src_end s -> step src src_end s a = Some s' -> reachable src src_end s'.
  Proof. intros (l & Hl) HS. exists (l ++ [a]). rewrite exec_snoc, Hl. exact HS. Qed.

  Lemma reach_inv' src src_end s : reachable src src_end s -> inv decode size_bytes src src_end prefetch reads s.
  Proof. apply (reach_inv decode size_bytes src src_end cores np pr prefetch reads params cores_pos). Qed.

  (* a step of the source node *)
  Lemma J_source src src_end w s' : J src src_end w ->
    step src src_end (w_par w) T_source = Some s' ->
    exists w', wstep w (W_act T_source) = Ok (Some w') /\ w_par w' = s' /\ J src src_end w'.
  Proof.
    intros [HR HF HN HC HSC] HS. pose proof (reach_inv' _ _ _ HR) as HI. pose proof (i_next _ _ _ _ _ _ _ HI) as Hnx.
    pose proof (reach_step _ _ _ _ _ HR HS) as HR'.
    destruct w as [s r bs sc]. cbn [w_par w_reader w_read w_schema] in *.
    destruct s as [ep nx ca en lc ld dl ob on qp qr cn fl rs fq rq by_ p lg nr cs qs].
    cbn [Model_par.step] in HS. destruct rs; try discriminate. destruct (cn || ca || en) eqn:Ef; [discriminate|].
    apply orb_false_elim in Ef. destruct Ef as [Ef En]. apply orb_false_elim in Ef. destruct Ef as [Ec Ea]. subst cn ca en.
    cbn in HC, Hnx. destruct (HC ltac:(discriminate)) as [Eb HY]. specialize (HY eq_refl eq_refl). clear HC HN.
    assert (Eb0 : nth_error bs nx = None) by (apply nth_error_None; subst bs; rewrite firstn_length; lia).
    cbn [Model_whole.wstep]. unfold pstep at 1. cbn [Model_par.step orb]. rewrite Eb0.
    pose proof (core_yields _ _ _ HY) as HM. destruct (skipn nx (src ep)) as [|b rest] eqn:Ek.
    - assert (En : nth_error (src ep) nx = None).
      { apply nth_error_None. apply (f_equal (@length _)) in Ek. rewrite skipn_length in Ek. cbn in Ek. lia. }
      rewrite En in HS. destruct HM as (r' & Er & Hend). rewrite Er.
      destruct (src_end ep) as [x|] eqn:Ex; cbn [endres cast_err]; unfold pstep; cbn [Model_par.step orb]; rewrite Eb0; cbn [option_map];
        injection HS as <-; eexists; (split; [reflexivity|]); (split; [reflexivity|]); constructor; cbn; auto; try discriminate;
        try (intros; congruence); intros _; (split; [exact Eb|]); discriminate.
    - assert (En : nth_error (src ep) nx = Some b).
      { rewrite <- (firstn_skipn nx (src ep)), Ek. rewrite nth_error_app2; rewrite firstn_length; [|lia].
        replace (nx - Nat.min nx (length (src ep))) with 0 by lia. reflexivity. }
      rewrite En in HS. destruct HM as (r' & Er & Hy'). rewrite Er.
      unfold pstep. cbn [Model_par.step orb]. rewrite nth_error_app2 by (subst bs; rewrite firstn_length; lia).
      replace (nx - length bs) with 0 by (subst bs; rewrite firstn_length; lia). cbn [nth_error option_map].
      injection HS as <-. eexists. split; [reflexivity|]. split; [reflexivity|].
      constructor; cbn [w_par w_reader w_read w_schema rstate s_next s_end cancelled epoch]; auto; try discriminate.
      + intros _. split.
        * rewrite (firstn_S _ _ _ _ En), <- Eb. reflexivity.
        * intros _ _. replace (skipn (S nx) (src ep)) with rest; [exact Hy'|].
          replace (S nx) with (nx + 1) by lia. rewrite <- skipn_add, Ek. reflexivity.
  Qed.

  Lemma source_enabled src src_end s bs x : (exists s', pstep decode size_bytes prefetch reads bs x s T_source = Some s') ->
    exists s', step src src_end s T_source = Some s'.
  Proof.
    intros (s' & HS). destruct s as [ep nx ca en lc ld dl ob on qp qr cn fl rs fq rq by_ p lg nr cs qs].
    unfold pstep in HS. cbn [Model_par.step] in HS |- *. destruct rs; try discriminate. destruct (cn || ca || en); [discriminate|].
    destruct (nth_error (src ep) nx); [eauto|]. destruct (src_end ep); eauto.
  Qed.
  Lemma source_disabled src src_end s bs x : step src src_end s T_source = None -> pstep decode size_bytes prefetch reads bs x s T_source = None.
  Proof.
    intro HS. destruct (pstep decode size_bytes prefetch reads bs x s T_source) as [s'|] eqn:Ep; [|reflexivity].
    destruct (source_enabled src src_end s bs x (ex_intro _ _ Ep)) as (s2 & H2). congruence.
  Qed.

  Definition plain (a : action) : Prop := a <> T_source /\ a <> A_reset /\ a <> A_read.
  Lemma wstep_plain w a : plain a ->
    wstep w (W_act a) = Ok (option_map (fun s' => mk_wst s' (w_reader w) (w_read w) (w_schema w)) (pstep decode size_bytes prefetch reads (w_read w) None (w_par w) a)).
  Proof. destruct w as [s r bs sc]. intros (H1 & H2 & H3). destruct a; try congruence; reflexivity. Qed.

  Lemma J_prefix src src_end w : J src src_end w -> rstate (w_par w) = running ->
    w_read w = firstn (s_next (w_par w)) (src (epoch (w_par w))).
  Proof. intros HJ Hr. destruct (j_cur _ _ _ HJ) as [H _]; [congruence|exact H]. Qed.

  Lemma J_pstep src src_end w a : J src src_end w -> a <> T_source ->
    pstep decode size_bytes prefetch reads (w_read w) None (w_par w) a = step src src_end (w_par w) a.
  Proof.
    intros HJ Ha. symmetry. apply step_prefix_inv; [exact Ha|apply reach_inv', (j_reach _ _ _ HJ)|apply (J_prefix _ _ _ HJ)].
  Qed.

  Lemma J_plain src src_end w a s' : J src src_end w -> plain a -> step src src_end (w_par w) a = Some s' ->
    exists w', wstep w (W_act a) = Ok (Some w') /\ w_par w' = s' /\ J src src_end w'.
  Proof.
    intros HJ Ha HS. rewrite (wstep_plain w a Ha), (J_pstep src src_end w a HJ (proj1 Ha)), HS. cbn [option_map].
    eexists. split; [reflexivity|]. split; [reflexivity|].
    destruct Ha as (H1 & H2 & H3). destruct (step_frame _ _ _ _ _ _ _ _ _ H1 H2 H3 HS) as (F1 & F2 & F3 & F4 & F5).
    destruct HJ as [HR HF HN HC HSC]. constructor; cbn [w_par w_reader w_read w_schema].
    - exact (reach_step _ _ _ _ _ HR HS).
    - exact HF.
    - rewrite F1, F4. exact HN.
    - rewrite F1, F2, F3. intro Hr. destruct (HC ltac:(tauto)) as [Hb Hy]. auto.
    - rewrite F4. exact HSC.
  Qed.

  (* every step of the threads, and that there is one exactly when the pipeline allows it *)
  Lemma J_internal src src_end w a s' : J src src_end w -> internal a = true -> step src src_end (w_par w) a = Some s' ->
    exists w', wstep w (W_act a) = Ok (Some w') /\ w_par w' = s' /\ J src src_end w'.
  Proof.
    intros HJ Ha HS. destruct a; try discriminate Ha; try (apply J_plain; [exact HJ|repeat split; discriminate|exact HS]).
    now apply J_source.
  Qed.

  Lemma J_internal_none src src_end w a : J src src_end w -> internal a = true -> step src src_end (w_par w) a = None ->
    wstep w (W_act a) = Ok None.
  Proof.
    intros HJ Ha HS. destruct a; try discriminate Ha;
      try (rewrite wstep_plain by (repeat split; discriminate); rewrite (J_pstep src src_end w _ HJ) by discriminate; rewrite HS; reflexivity).
    destruct w as [s r bs sc]. cbn [Model_whole.wstep w_par] in *. rewrite (source_disabled _ _ _ bs None HS). reflexivity.
  Qed.

  Lemma J_internal_iff src src_end w a w' : J src src_end w -> internal a = true -> wstep w (W_act a) = Ok (Some w') ->
    step src src_end (w_par w) a = Some (w_par w') /\ J src src_end w'.
  Proof.
    intros HJ Ha HW. destruct (step src src_end (w_par w) a) as [s'|] eqn:Es.
    - destruct (J_internal src src_end w a s' HJ Ha Es) as (w2 & H2 & <- & HJ2). rewrite HW in H2. injection H2 as <-. auto.
    - rewrite (J_internal_none src src_end w a HJ Ha Es) in HW. discriminate.
  Qed.

  Lemma J_live src src_end P w : inevitable (step src src_end) P (w_par w) -> J src src_end w ->
    w_inevitable M size last decode size_bytes prefetch reads (fun w' => P (w_par w')) w.
  Proof.
    intros H. remember (w_par w) as s eqn:Es. revert w Es. induction H as [s H|s (a & s' & Ha & HS) HA IH]; intros w -> HJ; [now apply w_now|].
    apply w_later.
    - destruct (J_internal src src_end w a s' HJ Ha HS) as (w' & HW & _). eauto.
    - intros b Hb. destruct (step src src_end (w_par w) b) as [s2|] eqn:E2.
      + destruct (J_internal src src_end w b s2 HJ Hb E2) as (w' & HW & _). eauto.
      + rewrite (J_internal_none src src_end w b HJ Hb E2). eauto.
    - intros b w' Hb HW. destruct (J_internal_iff src src_end w b w' HJ Hb HW) as [HS' HJ']. eapply IH; eauto.
  Qed.

  (* the client's calls *)
  Lemma J_read src src_end w w' : J src src_end w -> wstep w (W_act A_read) = Ok (Some w') -> exists src' src_end', J src' src_end' w'.
  Proof.
    intros HJ HW. destruct w as [s r bs sc] eqn:Ew. cbn [Model_whole.wstep] in HW. destruct sc; [|discriminate].
    assert (Hp : pstep decode size_bytes prefetch reads bs None s A_read = step src src_end s A_read).
    { pose proof (J_pstep src src_end w A_read) as Hp. subst w. apply Hp; [exact HJ|discriminate]. }
    rewrite Hp in HW. destruct (step src src_end s A_read) as [s'|] eqn:Es; [|discriminate]. injection HW as <-.
    destruct HJ as [HR HF HN HC HSC]. cbn [w_par w_reader w_read w_schema] in *.
    destruct (rstate s) eqn:Ers.
    - (* the pipeline starts: from here on the batches of this epoch are those read from the state the reader is in now *)
      destruct (HN eq_refl) as (-> & i & -> & Hi). clear HN HC HSC.
      destruct (begins_read _ _ Hi) as (b1 & x1 & Hb).
      pose (src' := fun e => if e =? epoch s then b1 else src e). pose (src_end' := fun e => if e =? epoch s then x1 else src_end e).
      assert (E1 : src' (epoch s) = b1) by (unfold src'; now rewrite Nat.eqb_refl).
      assert (E2 : src_end' (epoch s) = x1) by (unfold src_end'; now rewrite Nat.eqb_refl).
      exists src', src_end'.
      assert (HR' : reachable src' src_end' s).
      { destruct HR as (l & Hl). exists l. apply (exec_same _ _ _ _ _ _ src' src_end' _ _ Hl).
        - intros e He. unfold src', src_end'. rewrite (proj2 (Nat.eqb_neq e (epoch s))) by lia. auto.
        - intro Hc. congruence. }
      assert (Es' : step src' src_end' s A_read = Some s').
      { rewrite <- Es. apply step_same. congruence. }
      pose proof (reach_inv' _ _ _ HR) as HI. pose proof (i_new _ _ _ _ _ _ _ HI Ers) as Hn.
      assert (Hs : epoch s' = epoch s /\ s_next s' = 0 /\ rstate s' = running).
      { destruct Hn as [Hn|Hn]; rewrite Hn in Es |- *; cbn in Es; [|discriminate]; injection Es as <-; auto. }
      destruct Hs as (F1 & F2 & F3). constructor; cbn [w_par w_reader w_read w_schema].
      + exact (reach_step _ _ _ _ _ HR' Es').
      + intro e. destruct (Nat.eq_dec e (epoch s)) as [->|Hne].
        * exists i. rewrite E1, E2. auto.
        * destruct (HF e) as (j & Hj). exists j. unfold src', src_end'. rewrite (proj2 (Nat.eqb_neq e (epoch s))) by exact Hne. exact Hj.
      + congruence.
      + intros _. rewrite F1, F2, E1, E2. cbn [firstn skipn]. auto.
      + discriminate.
    - exists src, src_end. assert (Hs : epoch s' = epoch s /\ s_next s' = s_next s /\ s_end s' = s_end s /\ cancelled s' = cancelled s /\ rstate s' = rstate s).
      { destruct s as [ep nx ca en lc ld dl ob on qp qr cn fl rs fq rq by_ p lg nr cs qs]. cbn in Ers. subst rs. cbn [Model_par.step] in Es.
        destruct p; try discriminate; destruct rq; injection Es as <-; auto. }
      destruct Hs as (F1 & F2 & F3 & F4 & F5). constructor; cbn [w_par w_reader w_read w_schema]; [exact (reach_step _ _ _ _ _ HR Es)|exact HF| | |discriminate].
      + congruence.
      + intros _. rewrite F1, F2, F3, F4. apply HC. congruence.
    - exists src, src_end. assert (Hs : epoch s' = epoch s /\ s_next s' = s_next s /\ s_end s' = s_end s /\ cancelled s' = cancelled s /\ rstate s' = rstate s).
      { destruct s as [ep nx ca en lc ld dl ob on qp qr cn fl rs fq rq by_ p lg nr cs qs]. cbn in Ers. subst rs. cbn [Model_par.step] in Es.
        destruct p; try discriminate; destruct rq; injection Es as <-; auto. }
      destruct Hs as (F1 & F2 & F3 & F4 & F5). constructor; cbn [w_par w_reader w_read w_schema]; [exact (reach_step _ _ _ _ _ HR Es)|exact HF| | |discriminate].
      + congruence.
      + intros _. rewrite F1, F2, F3, F4. apply HC. congruence.
    - exists src, src_end. assert (Hs : epoch s' = epoch s /\ s_next s' = s_next s /\ s_end s' = s_end s /\ cancelled s' = cancelled s /\ rstate s' = rstate s).
      { destruct s as [ep nx ca en lc ld dl ob on qp qr cn fl rs fq rq by_ p lg nr cs qs]. cbn in Ers. subst rs. cbn [Model_par.step] in Es.
        destruct p; try discriminate; destruct rq; injection Es as <-; auto. }
      destruct Hs as (F1 & F2 & F3 & F4 & F5). constructor; cbn [w_par w_reader w_read w_schema]; [exact (reach_step _ _ _ _ _ HR Es)|exact HF| | |discriminate].
      + congruence.
      + intros _. rewrite F1, F2, F3, F4. apply HC. congruence.
  Qed.

  Lemma J_reset src src_end w w' : J src src_end w -> wstep w (W_act A_reset) = Ok (Some w') -> J src src_end w' /\
    w_par w' = init (S (epoch (w_par w))) /\ w_reader w' = (0, b_reset M (snd (w_reader w))) /\ pc (w_par w) = c_joined.
  Proof.
    intros HJ HW. destruct w as [s r bs sc] eqn:Ew. cbn [Model_whole.wstep] in HW.
    assert (Hp : pstep decode size_bytes prefetch reads bs None s A_reset = step src src_end s A_reset).
    { pose proof (J_pstep src src_end w A_reset) as Hp. subst w. apply Hp; [exact HJ|discriminate]. }
    rewrite Hp in HW. destruct (step src src_end s A_reset) as [s'|] eqn:Es; [|discriminate]. injection HW as <-.
    destruct HJ as [HR HF HN HC HSC]. cbn [w_par w_reader w_read w_schema] in *.
    pose proof (reach_inv' _ _ _ HR) as HI. pose proof (reset_init _ _ _ _ _ _ _ _ HI Es) as Ei.
    split; [|split; [exact Ei|split; [destruct r; reflexivity|]]].
    - constructor; cbn [w_par w_reader w_read w_schema].
      + exact (reach_step _ _ _ _ _ HR Es).
      + exact HF.
      + intros _. split; [reflexivity|]. destruct r as [k i]. cbn. exists (b_reset M i). split; [reflexivity|]. rewrite Ei. apply begins_reset.
      + rewrite Ei. cbn. congruence.
      + rewrite Ei. reflexivity.
    - destruct s as [ep nx ca en lc ld dl ob on qp qr cn fl rs fq rq by_ p lg nr cs qs]. cbn in Es. destruct p; try discriminate. reflexivity.
  Qed.

  Lemma J_look src src_end w ok w' : J src src_end w -> wstep w (W_schema ok) = Ok (Some w') ->
    (begins (epoch (w_par w)) (snd (w_reader w)) -> begins (epoch (w_par w)) (snd (b_peek M (snd (w_reader w))))) -> J src src_end w'.
  Proof.
    intros HJ HW Hpk. destruct w as [s r bs sc]. cbn [Model_whole.wstep w_par w_reader] in *. destruct sc; [discriminate|]. destruct (pc s); try discriminate.
    destruct HJ as [HR HF HN HC HSC]. cbn [w_par w_reader w_read w_schema] in *. specialize (HSC eq_refl). destruct (HN HSC) as (-> & i & -> & Hi).
    cbn [snd fst] in *. specialize (Hpk Hi). destruct (b_peek M i) as [x i'] eqn:Ei. cbn [snd] in Hpk.
    assert (exists ok', w' = mk_wst s (0, i') [] ok') as (ok' & ->) by (destruct x; try discriminate; injection HW as <-; eauto).
    constructor; cbn [w_par w_reader w_read w_schema]; auto.
    - intros _. split; [reflexivity|]. exists i'. auto.
    - congruence.
  Qed.

  Lemma J_step src src_end w a w' : J src src_end w -> wstep w a = Ok (Some w') ->
    (forall ok, a = W_schema ok -> begins (epoch (w_par w)) (snd (w_reader w)) -> begins (epoch (w_par w)) (snd (b_peek M (snd (w_reader w))))) ->
    exists src' src_end', J src' src_end' w'.
  Proof.
    intros HJ HW Hpk. destruct a as [ok|a].
    - exists src, src_end. apply (J_look src src_end w ok w' HJ HW). apply (Hpk ok eq_refl).
    - destruct (internal a) eqn:Ha.
      + exists src, src_end. apply (J_internal_iff src src_end w a w' HJ Ha HW).
      + destruct a; try discriminate Ha.
        * now apply (J_read src src_end w).
        * exists src, src_end.
          assert (Hp : plain A_stop) by (repeat split; discriminate).
          rewrite (wstep_plain w A_stop Hp), (J_pstep src src_end w A_stop HJ) in HW by discriminate.
          destruct (step src src_end (w_par w) A_stop) as [s'|] eqn:Es; [|discriminate].
          destruct (J_plain src src_end w A_stop s' HJ Hp Es) as (w2 & H2 & _ & HJ2).
          rewrite (wstep_plain w A_stop Hp), (J_pstep src src_end w A_stop HJ), Es in H2 by discriminate. cbn [option_map] in HW, H2. congruence.
        * exists src, src_end. apply (J_reset src src_end w w' HJ HW).
  Qed.

  Lemma J_defined src src_end w a : J src src_end w -> exists o, wstep w a = Ok o.
  Proof.
    intros HJ. destruct a as [ok|a].
    - pose proof (j_schema _ _ _ HJ) as HS. pose proof (j_new _ _ _ HJ) as HN. destruct w as [s r bs sc]. cbn [Model_whole.wstep w_par w_reader w_schema w_read] in *.
      destruct sc; [eauto|]. destruct (pc s); eauto. destruct (HN (HS eq_refl)) as (_ & i & -> & Hi). cbn [snd].
      destruct (begins_peek _ _ Hi) as (v & Hv). destruct (b_peek M i) as [x i']. cbn [fst] in Hv. destruct Hv as [->|(e & ->)]; eauto.
    - destruct (internal a) eqn:Ha.
      + destruct (step src src_end (w_par w) a) as [s'|] eqn:Es.
        * destruct (J_internal src src_end w a s' HJ Ha Es) as (w' & -> & _). eauto.
        * rewrite (J_internal_none src src_end w a HJ Ha Es). eauto.
      + destruct w as [s r bs sc]. destruct a; try discriminate Ha; cbn; eauto.
  Qed.
End Coupled.
