(* Proofs about the means, whole datasets, and which datasets are analyzed without
   undefined behaviour. *)
From Verif Require Import Common Model_num Model_insights Spec_insights Proof_insights
  Proof_insights2 Proof_insights3.
From Coq Require Import QArith Qround Qabs Lqa Qfield Permutation.
Import List.
Local Open Scope N_scope.

Definition qn (n : N) : Q := inject_Z (Z.of_N n).
Lemma qn_add a b : (qn (a + b) == qn a + qn b)%Q.
Proof. unfold qn. rewrite N2Z.inj_add. now rewrite inject_Z_plus. Qed.
Lemma qn_pos n : n <> 0 -> ~ (qn n == 0)%Q.
Proof. intros H E. unfold qn, Qeq in E. cbn in E. lia. Qed.
Lemma qn_eqb n : n <> 0 -> Qeq_bool (qn n) 0 = false.
Proof.
  intro H. destruct (Qeq_bool (qn n) 0) eqn:E; auto. apply Qeq_bool_iff in E.
  now apply qn_pos in E.
Qed.

(* mean += (sum / n - mean) * n / total *)
Definition mean_step (mean sum : dbl) (n tot : N) : dbl :=
  dadd mean (ddiv (dmul (dsub (ddiv sum (of_size n)) mean) (of_size n)) (of_size tot)).

Lemma mean_step_nan sum n tot : mean_step NaN sum n tot = NaN.
Proof. reflexivity. Qed.

Lemma mean_step_zero mean q tot : (q == 0)%Q -> mean_step mean (Fin q) 0 tot = NaN.
Proof.
  intro E. apply Qeq_bool_iff in E. unfold mean_step.
  assert (D : ddiv (Fin q) (of_size 0) = NaN).
  { unfold ddiv, of_size. change (Qeq_bool (inject_Z (Z.of_N 0)) 0) with true. now rewrite E. }
  rewrite D. destruct mean; reflexivity.
Qed.

Lemma mean_step_fin m q n tot old S : n <> 0 -> (m * qn old == S)%Q -> tot = old + n ->
  exists m', mean_step (Fin m) (Fin q) n tot = Fin m' /\ (m' * qn tot == S + q)%Q.
Proof.
  intros Hn HS ->. unfold mean_step, of_size. fold (qn n) (qn (old + n)).
  cbn [ddiv]. rewrite (qn_eqb n Hn). cbn [dsub dadd dneg dmul ddiv].
  rewrite (qn_eqb (old + n)) by lia. cbn [dadd]. eexists. split; [reflexivity|].
  rewrite <- HS. pose proof (qn_pos n Hn) as P1. pose proof (qn_pos (old + n) ltac:(lia)) as P2.
  rewrite qn_add in *. field. auto.
Qed.

Section Column.
  Context (atod : list byte -> option dbl) (version : clz_version).
  Context (nulls : list (list byte)) (caps : list N) (max : N).

  Let capture (idx : N) : bool := existsb (N.eqb idx) caps.

  Lemma linv_nil : linv atod [] no_sums.
  Proof. constructor; cbn; auto. exists 0%Q. split; auto. reflexivity. Qed.

  Lemma inv_means idx seen c mean avg :
    inv atod nulls max (capture idx) seen c ->
    inv atod nulls max (capture idx) seen (with_means c mean avg).
  Proof. intros []. constructor; auto. Qed.

  Lemma column_step idx seen c cells c' :
    inv atod nulls max (capture idx) seen c ->
    analyze_column atod version nulls caps max idx c cells = Ok c' ->
    inv atod nulls max (capture idx) (seen ++ cells) c' /\ c_name c' = c_name c /\
    (exists q, (q == sum_q (numbers atod cells))%Q /\
       c_mean c' = mean_step (c_mean c) (Fin q) (N.of_nat (length (numbers atod cells))) 
                    (N.of_nat (length (numbers atod (seen ++ cells))))) /\
    c_avg_len c' = mean_step (c_avg_len c) (of_size (total (lengths cells))) 
                     (count nonempty cells) (N.of_nat (length (seen ++ cells))).
  Proof.
    intros I E. unfold analyze_column in E. cbv zeta in E. fold (capture idx) in E.
    destruct (analyze_cells _ _ _ _ _ c no_sums cells) as [[c1 s1]| | |] eqn:A;
      cbn [bind] in E; try discriminate.
    destruct (steps _ _ _ _ _ _ _ _ _ _ _ _ I linv_nil A) as (I1 & L1 & M1 & M2 & M3).
    cbn [fst snd app] in *. injection E as <-. unfold update_means. cbv zeta.
    split; [now apply inv_means|]. split; [exact M3|].
    destruct L1 as [(q & Q1 & Q2) L2 L3 L4]. destruct I1.
    cbn [with_means c_mean c_avg_len]. split.
    - exists q. split; auto. unfold mean_step. now rewrite Q1, L2, i_finite, M1.
    - unfold mean_step. now rewrite L3, L4, i_rows, M2.
  Qed.

  (* The calls of analyze for one column. *)
  Fixpoint run (idx : N) (c : column) (bats : list (list (list byte))) : res column :=
    match bats with
    | [] => Ok c
    | b :: r =>
        let* c := analyze_column atod version nulls caps max idx c b in run idx c r
    end.

  Lemma run_inv idx bats : forall seen c c',
    inv atod nulls max (capture idx) seen c -> run idx c bats = Ok c' ->
    inv atod nulls max (capture idx) (seen ++ concat bats) c' /\ c_name c' = c_name c.
  Proof.
    induction bats as [|b bats IH]; intros seen c c' I E; cbn [run] in E.
    - injection E as <-. cbn [concat]. now rewrite app_nil_r.
    - destruct (analyze_column _ _ _ _ _ idx c b) as [c1| | |] eqn:A; cbn [bind] in E; try discriminate.
      destruct (column_step _ _ _ _ _ I A) as (I1 & N1 & _).
      destruct (IH _ _ _ I1 E) as (I2 & N2). cbn [concat]. rewrite app_assoc. split; congruence.
  Qed.

  Lemma numbers_app l l' : numbers atod (l ++ l') = numbers atod l ++ numbers atod l'.
  Proof. apply flat_map_app. Qed.

  Lemma run_mean_nan idx bats : forall seen c c',
    inv atod nulls max (capture idx) seen c -> run idx c bats = Ok c' ->
    (c_mean c = NaN \/ exists b, In b bats /\ numbers atod b = []) -> c_mean c' = NaN.
  Proof.
    induction bats as [|b bats IH]; intros seen c c' I E H; cbn [run] in E.
    - injection E as <-. destruct H as [H|(b & [] & _)]. auto.
    - destruct (analyze_column _ _ _ _ _ idx c b) as [c1| | |] eqn:A; cbn [bind] in E; try discriminate.
      destruct (column_step _ _ _ _ _ I A) as (I1 & _ & (q & Q & M) & _).
      apply (IH _ _ _ I1 E). destruct H as [H|(b' & [-> |J] & B)].
      + left. rewrite M, H. apply mean_step_nan.
      + left. rewrite M, B. cbn [length N.of_nat]. apply mean_step_zero. rewrite Q, B. reflexivity.
      + right. eauto.
  Qed.

  Lemma run_mean idx bats : forall seen c c' m,
    inv atod nulls max (capture idx) seen c -> run idx c bats = Ok c' ->
    c_mean c = Fin m -> (m * qn (N.of_nat (length (numbers atod seen))) == sum_q (numbers atod seen))%Q ->
    Forall (fun b => numbers atod b <> []) bats ->
    exists m', c_mean c' = Fin m' /\
      (m' * qn (N.of_nat (length (numbers atod (seen ++ concat bats)))) == sum_q (numbers atod (seen ++ concat bats)))%Q.
  Proof.
    induction bats as [|b bats IH]; intros seen c c' m I E Hm HS F; cbn [run] in E.
    - injection E as <-. cbn [concat]. rewrite app_nil_r. eauto.
    - destruct (analyze_column _ _ _ _ _ idx c b) as [c1| | |] eqn:A; cbn [bind] in E; try discriminate.
      destruct (column_step _ _ _ _ _ I A) as (I1 & _ & (q & Q & M) & _).
      inversion_clear F as [|? ? Fb Fs].
      rewrite Hm in M.
      destruct (mean_step_fin m q (N.of_nat (length (numbers atod b)))
        (N.of_nat (length (numbers atod (seen ++ b)))) _ _ ltac:(destruct (numbers atod b); [contradiction|cbn [length]; lia]) HS)
        as (m1 & M1 & M2).
      { rewrite numbers_app, app_length. lia. }
      rewrite M1 in M.
      destruct (IH (seen ++ b) c1 c' m1 I1 E M) as (m' & X & Y); auto.
      { rewrite M2, Q. rewrite numbers_app, sum_q_app. reflexivity. }
      exists m'. split; auto. cbn [concat]. rewrite app_assoc. exact Y.
  Qed.

  Lemma run_avg_nan idx bats : forall seen c c',
    inv atod nulls max (capture idx) seen c -> run idx c bats = Ok c' ->
    (c_avg_len c = NaN \/ exists b, In b bats /\ Forall (fun x => x = []) b) -> c_avg_len c' = NaN.
  Proof.
    induction bats as [|b bats IH]; intros seen c c' I E H; cbn [run] in E.
    - injection E as <-. destruct H as [H|(b & [] & _)]. auto.
    - destruct (analyze_column _ _ _ _ _ idx c b) as [c1| | |] eqn:A; cbn [bind] in E; try discriminate.
      destruct (column_step _ _ _ _ _ I A) as (I1 & _ & _ & M).
      apply (IH _ _ _ I1 E). destruct H as [H|(b' & [-> |J] & B)].
      + left. rewrite M, H. apply mean_step_nan.
      + left. rewrite M.
        assert (count nonempty b' = 0 /\ total (lengths b') = 0) as [-> ->].
        { clear - B atod. induction B as [|x l X B [H1 H2]]; [split; reflexivity|]. subst x. split.
          - change ([] :: l) with ([[]] ++ l). rewrite count_app. exact H1.
          - change ([] :: l) with ([[]] ++ l). rewrite lengths_app, total_app. exact H2. }
        apply mean_step_zero. reflexivity.
      + right. eauto.
  Qed.

  Lemma count_all b : Forall (fun x => x <> []) b -> count nonempty b = N.of_nat (length b).
  Proof.
    unfold count. intro F. f_equal. induction F as [|x l H F IH]; auto.
    destruct x; [contradiction|]. cbn [filter nonempty is_empty negb length]. auto.
  Qed.

  Lemma run_avg idx bats : forall seen c c' m,
    inv atod nulls max (capture idx) seen c -> run idx c bats = Ok c' ->
    c_avg_len c = Fin m -> (m * qn (N.of_nat (length seen)) == qn (total (lengths seen)))%Q ->
    Forall (fun b => b <> [] /\ Forall (fun x => x <> []) b) bats ->
    exists m', c_avg_len c' = Fin m' /\
      (m' * qn (N.of_nat (length (seen ++ concat bats))) == qn (total (lengths (seen ++ concat bats))))%Q.
  Proof.
    induction bats as [|b bats IH]; intros seen c c' m I E Hm HS F; cbn [run] in E.
    - injection E as <-. cbn [concat]. rewrite app_nil_r. eauto.
    - destruct (analyze_column _ _ _ _ _ idx c b) as [c1| | |] eqn:A; cbn [bind] in E; try discriminate.
      destruct (column_step _ _ _ _ _ I A) as (I1 & _ & _ & M).
      inversion_clear F as [|? ? [Fb Fx] Fs].
      rewrite Hm, (count_all b Fx) in M.
      destruct (mean_step_fin m (qn (total (lengths b))) (N.of_nat (length b))
        (N.of_nat (length (seen ++ b))) _ _ ltac:(destruct b; [contradiction|cbn [length]; lia]) HS)
        as (m1 & M1 & M2).
      { rewrite app_length. lia. }
      unfold of_size in M. fold (qn (total (lengths b))) in M. rewrite M1 in M.
      destruct (IH (seen ++ b) c1 c' m1 I1 E M) as (m' & X & Y); auto.
      { rewrite M2. rewrite lengths_app, total_app, qn_add. reflexivity. }
      exists m'. split; auto. cbn [concat]. rewrite app_assoc. exact Y.
  Qed.

  (* A column that has just been made, and the first call. *)
  Lemma inv_new idx name c : new_column name = Ok c -> inv atod nulls max (capture idx) [] c /\
    c_name c = name /\ c_mean c = Fin 0 /\ c_avg_len c = Fin 0.
  Proof.
    unfold new_column. destruct (hll_make cardinality_bits) as [h| | |] eqn:H; cbn [bind]; try discriminate.
    intros [= <-]. apply make_sketch in H. destruct H as [_ H].
    split; [|auto]. constructor; cbn [c_rows c_numeric c_nan c_finite c_int c_min c_max
          c_min_len c_min_len_ne c_max_len c_empty c_blank c_null c_words c_captured c_overflowed
          c_example c_card c_vocab c_sample]; auto; try (left; auto; fail).
    - constructor.
    - destruct (capture idx); auto. split; [|split].
      + cbn. now rewrite firstn_nil.
      + symmetry. apply N.ltb_ge. cbn. lia.
      + exists []. split; [|reflexivity]. exists []. repeat split; auto.
        intros p' x (q & E). destruct p'; discriminate.
  Qed.

  Lemma first_avg idx name c b c1 : new_column name = Ok c ->
    analyze_column atod version nulls caps max idx c b = Ok c1 ->
    (exists x, In x b /\ x <> []) ->
    exists m, c_avg_len c1 = Fin m /\ (m * qn (N.of_nat (length b)) == qn (total (lengths b)))%Q.
  Proof.
    intros Nw A (x & I & X). destruct (inv_new idx name c Nw) as (I0 & _ & _ & V).
    destruct (column_step _ _ _ _ _ I0 A) as (_ & _ & _ & M). cbn [app] in M. rewrite V in M.
    assert (Hc : count nonempty b <> 0).
    { unfold count. assert (J : In x (filter nonempty b)).
      { apply filter_In. split; auto. destruct x; [contradiction|reflexivity]. }
      destruct (filter nonempty b); [destruct J|cbn [length]; lia]. }
    assert (Hl : N.of_nat (length b) <> 0) by (destruct b; [destruct I|cbn [length]; lia]).
    unfold mean_step, of_size in M.
    fold (qn (total (lengths b))) (qn (count nonempty b)) (qn (N.of_nat (length b))) in M.
    cbn [ddiv] in M. rewrite (qn_eqb _ Hc) in M. cbn [dsub dadd dneg dmul ddiv] in M.
    rewrite (qn_eqb _ Hl) in M. cbn [dadd] in M. eexists. split; [exact M|].
    pose proof (qn_pos _ Hc). pose proof (qn_pos _ Hl). field. auto.
  Qed.

  (* ---- Datasets ---- *)

  Lemma analyze_nth features : forall idx cols cols',
    analyze atod version nulls caps max idx cols features = Ok cols' ->
    length features = length cols ->
    length cols' = length cols /\
    forall j c c', nth_error cols j = Some c -> nth_error cols' j = Some c' ->
      analyze_column atod version nulls caps max (idx + N.of_nat j) c (nth j features []) = Ok c'.
  Proof.
    induction features as [|cells features IH]; intros idx cols cols' E L; cbn [analyze] in E.
    - injection E as <-. destruct cols; [|discriminate]. split; auto. intros [|j]; discriminate.
    - destruct cols as [|c0 cols]; [discriminate|]. cbn [length] in L.
      destruct (analyze_column _ _ _ _ _ idx c0 cells) as [c1| | |] eqn:A; cbn [bind] in E; try discriminate.
      destruct (analyze _ _ _ _ _ (idx + 1) cols features) as [cs| | |] eqn:B; cbn [bind] in E; try discriminate.
      injection E as <-. destruct (IH _ _ _ B) as [L2 H]; [lia|]. split; [cbn [length]; lia|].
      intros [|j] c c' J J'; cbn [nth_error nth] in *.
      + injection J as <-. injection J' as <-. now rewrite N.add_0_r.
      + specialize (H j c c' J J'). replace (idx + N.of_nat (S j)) with (idx + 1 + N.of_nat j) by lia.
        exact H.
  Qed.

  Lemma examples_nth l : forall cols cols',
    analyze_examples atod version nulls caps max cols l = Ok cols' ->
    Forall (fun e => length (e_features e) = length cols) l ->
    length cols' = length cols /\
    forall j c c', nth_error cols j = Some c -> nth_error cols' j = Some c' ->
      run (N.of_nat j) c (batches j l) = Ok c'.
  Proof.
    induction l as [|e l IH]; intros cols cols' E F; cbn [analyze_examples] in E.
    - injection E as <-. split; auto. intros j c c' J J'. cbn. congruence.
    - destruct (analyze _ _ _ _ _ 0 cols (e_features e)) as [cs| | |] eqn:A; cbn [bind] in E; try discriminate.
      inversion_clear F as [|? ? Fe Fs].
      destruct (analyze_nth _ _ _ _ A Fe) as [L1 H1].
      destruct (IH _ _ E) as [L2 H2]; [now rewrite L1|]. split; [congruence|].
      intros j c c' J J'.
      assert (K : (j < length cs)%nat) by (rewrite L1; apply nth_error_Some; congruence).
      apply nth_error_Some in K. destruct (nth_error cs j) as [c1|] eqn:J1; [|congruence].
      cbn [batches map run]. specialize (H1 j c c1 J J1). cbn [N.add] in H1. rewrite H1. cbn [bind].
      now apply H2.
  Qed.

  Lemma make_nth attrs : forall cols, make_columns attrs = Ok cols ->
    length cols = length attrs /\
    forall j c, nth_error cols j = Some c ->
      exists a, nth_error attrs j = Some a /\ a_sparse a = false /\ a_string a = true /\
                new_column (a_name a) = Ok c.
  Proof.
    induction attrs as [|a attrs IH]; intros cols E; cbn [make_columns] in E.
    - injection E as <-. split; auto. intros [|j]; discriminate.
    - destruct (a_sparse a) eqn:S1; [discriminate|]. destruct (a_string a) eqn:S2; [|discriminate].
      cbn [orb negb] in E.
      destruct (new_column (a_name a)) as [c0| | |] eqn:A; cbn [bind] in E; try discriminate.
      destruct (make_columns attrs) as [cs| | |] eqn:B; cbn [bind] in E; try discriminate.
      injection E as <-. destruct (IH _ eq_refl) as [L H]. split; [cbn [length]; lia|].
      intros [|j] c J; cbn [nth_error] in *; eauto. injection J as <-. eauto.
  Qed.

  Lemma dataset_run l cols : regular l ->
    analyze_dataset atod version nulls caps max l = Ok cols ->
    exists e r, l = e :: r /\ length cols = length (e_attrs e) /\
    forall j c, nth_error cols j = Some c ->
      exists a c0 c1, nth_error (e_attrs e) j = Some a /\ new_column (a_name a) = Ok c0 /\
        run (N.of_nat j) c0 (batches j l) = Ok c1 /\ c = clean c1.
  Proof.
    intros R E. destruct l as [|e r]; [discriminate|]. exists e, r. split; auto.
    cbn [analyze_dataset] in E. cbn [regular] in R.
    destruct (make_columns (e_attrs e)) as [cs| | |] eqn:A; cbn [bind] in E; try discriminate.
    destruct (analyze_examples _ _ _ _ _ cs (e :: r)) as [cs'| | |] eqn:B; cbn [bind] in E; try discriminate.
    injection E as <-. destruct (make_nth _ _ A) as [L1 H1].
    rewrite <- L1 in R. destruct (examples_nth _ _ _ B R) as [L2 H2].
    split; [rewrite map_length; congruence|].
    intros j c J. rewrite nth_error_map in J.
    destruct (nth_error cs' j) as [c1|] eqn:J1; [|discriminate]. cbn [option_map] in J.
    injection J as <-.
    assert (K : (j < length cs)%nat) by (rewrite <- L2; apply nth_error_Some; congruence).
    apply nth_error_Some in K. destruct (nth_error cs j) as [c0|] eqn:J0; [|congruence].
    destruct (H1 j c0 J0) as (a & Ha & _ & _ & Hn).
    exists a, c0, c1. repeat split; auto.
  Qed.
End Column.
