(* The statistics do not depend on the examples, which datasets are analyzed without undefined
   behaviour, and the median. *)
From Verif Require Import Common Model_num Model_insights Spec_insights Proof_insights
  Proof_insights2 Proof_insights3 Proof_insights4.
From Coq Require Import QArith Qround Qabs Lqa Permutation.
Import List.
Local Open Scope N_scope.

Definition core (c : column) : column := with_means c NaN NaN.

Lemma on_capture_core capture max c cell m a :
  on_capture capture max (with_means c m a) cell = with_means (on_capture capture max c cell) m a.
Proof.
  unfold on_capture. cbn [with_means c_overflowed c_captured].
  destruct (capture && negb (c_overflowed c)); [|reflexivity].
  destruct (_ <? max); [reflexivity|]. destruct (negb _); reflexivity.
Qed.

Section Column.
  Context (atod : list byte -> option dbl) (version : clz_version).
  Context (nulls : list (list byte)) (caps : list N) (max : N).

  Lemma cell_core capture c s cell c' s' m a s2 :
    analyze_cell atod version nulls max capture c s cell = Ok (c', s') ->
    exists s2', analyze_cell atod version nulls max capture (with_means c m a) s2 cell =
                Ok (with_means c' m a, s2').
  Proof.
    intro E. unfold analyze_cell in *. destruct cell as [|x cell].
    - injection E as <- <-. eexists. reflexivity.
    - set (t := x :: cell) in *. unfold on_text in *. cbn [on_row with_means c_card c_vocab] in *.
      destruct (hll_add version (c_card c) t) as [card| | |]; cbn [bind] in *; try discriminate.
      destruct (hll_add_all version (c_vocab c) (getlines [] t)) as [vocab| | |]; cbn [bind] in *; try discriminate.
      destruct (is_whitespace_only t) as [[|]| | |]; cbn [bind] in *; try discriminate.
      + injection E as <- <-. eexists. reflexivity.
      + destruct (match_nan_values t nulls) as [null| | |]; cbn [bind] in *; try discriminate.
        rewrite parse_cases in *. cbn [bind] in *.
        destruct (atod t) as [[q|b|]|]; injection E as <- <-; eexists;
          rewrite <- on_capture_core; destruct null; reflexivity.
  Qed.

  Lemma cells_core capture l : forall c s c' s' m a s2,
    analyze_cells atod version nulls max capture c s l = Ok (c', s') ->
    exists s2', analyze_cells atod version nulls max capture (with_means c m a) s2 l =
                Ok (with_means c' m a, s2').
  Proof.
    induction l as [|cell l IH]; intros c s c' s' m a s2 E; cbn [analyze_cells] in *.
    - injection E as <- <-. eauto.
    - destruct (analyze_cell _ _ _ _ _ c s cell) as [[c1 s1]| | |] eqn:A; cbn [bind fst snd] in *; try discriminate.
      destruct (cell_core _ _ _ _ _ _ m a s2 A) as (s3 & ->). cbn [bind fst snd].
      eapply IH; eauto.
  Qed.

  Lemma cells_app capture l l' : forall c s,
    analyze_cells atod version nulls max capture c s (l ++ l') =
    let* p := analyze_cells atod version nulls max capture c s l in
    analyze_cells atod version nulls max capture (fst p) (snd p) l'.
  Proof.
    induction l as [|cell l IH]; intros c s; cbn [app analyze_cells bind fst snd]; auto.
    destruct (analyze_cell _ _ _ _ _ c s cell) as [[c1 s1]| | |]; cbn [bind fst snd]; auto.
  Qed.

  Lemma run_core idx bats : forall c c',
    run atod version nulls caps max idx c bats = Ok c' ->
    forall s, exists s', analyze_cells atod version nulls max (existsb (N.eqb idx) caps) (core c) s (concat bats) =
                         Ok (core c', s').
  Proof.
    induction bats as [|b bats IH]; intros c c' E s; cbn [run concat] in *.
    - injection E as <-. cbn [analyze_cells]. eauto.
    - destruct (analyze_column _ _ _ _ _ idx c b) as [c1| | |] eqn:A; cbn [bind] in E; try discriminate.
      unfold analyze_column in A. cbv zeta in A.
      destruct (analyze_cells _ _ _ _ _ c no_sums b) as [[c2 s2]| | |] eqn:B; cbn [bind fst snd] in A; try discriminate.
      injection A as <-. rewrite cells_app.
      destruct (cells_core _ _ _ _ _ _ NaN NaN s B) as (s3 & F). unfold core at 1. rewrite F.
      cbn [bind fst snd]. destruct (IH _ _ E s3) as (s4 & G). exists s4. exact G.
  Qed.

  (* ---- Defined behaviour ---- *)

  Definition sketched (c : column) : Prop :=
    (exists l, is_sketch cardinality_bits l (c_card c)) /\
    (exists l, is_sketch cardinality_bits l (c_vocab c)).

  Definition hashable (cell : list byte) : Prop :=
    version = Clz_builtin ->
    (cell <> [] -> ~ zero_tail cardinality_bits cell) /\
    (forall w, In w (getlines [] cell) -> ~ zero_tail cardinality_bits w).

  Lemma whitespace_ascii s : ascii s -> exists b, is_whitespace_only s = Ok b.
  Proof.
    induction 1 as [|c s H A IH]; cbn [is_whitespace_only]; eauto.
    replace (128 <=? c) with false by lia. destruct (is_space c); eauto.
  Qed.

  Lemma ltrim_ok_ascii s : ascii s -> exists r, ltrim s = Ok r /\ ascii r.
  Proof.
    induction 1 as [|c s H A IH]; cbn [ltrim]; [exists []; split; auto; constructor|].
    replace (128 <=? c) with false by lia. destruct (is_space c); auto.
    exists (c :: s). split; auto. constructor; auto.
  Qed.

  Lemma trim_ascii s : ascii s -> exists r, trim s = Ok r /\ ascii r.
  Proof.
    intro A. unfold trim. destruct (ltrim_ok_ascii s A) as (a & -> & Ha). cbn [bind].
    destruct (ltrim_ok_ascii (rev a)) as (b & -> & Hb).
    - apply Forall_rev. exact Ha.
    - cbn [bind]. exists (rev b). split; auto. apply Forall_rev. exact Hb.
  Qed.

  Lemma equal_ascii a : forall b, ascii a -> ascii b -> exists e, equal_chars a b = Ok e.
  Proof.
    induction a as [|x a IH]; intros [|y b] A B; cbn [equal_chars]; eauto.
    inversion_clear A as [|? ? Ax As]. inversion_clear B as [|? ? Bx Bs].
    unfold same_char. destruct (x =? y); cbn [bind]; [auto|].
    replace ((128 <=? x) || (128 <=? y)) with false by lia. cbn [bind].
    destruct (tolower x =? tolower y); eauto.
  Qed.

  Lemma match_any_ascii ns t : Forall ascii ns -> ascii t -> exists e, match_any ns t = Ok e.
  Proof.
    intros F A. induction F as [|n ns Hn F IH]; cbn [match_any]; eauto.
    destruct (Nat.eqb (length n) (length t)); cbn [bind]; [|auto].
    destruct (equal_ascii n t Hn A) as (e & ->). cbn [bind]. destruct e; eauto.
  Qed.

  Lemma cell_ok capture c s cell : sketched c -> Forall ascii nulls -> ascii cell -> hashable cell ->
    exists c' s', analyze_cell atod version nulls max capture c s cell = Ok (c', s') /\ sketched c'.
  Proof.
    intros [(l1 & S1) (l2 & S2)] An A H. unfold analyze_cell. destruct cell as [|x cell].
    - exists (on_empty (on_row c [])), s. split; auto. split; eauto.
    - set (t := x :: cell) in *. unfold on_text. cbn [on_row c_card c_vocab]. cbv zeta.
      destruct (add_ok version _ l1 (c_card c) t bits16 S1) as (card & Hc).
      { intro V. apply (proj1 (H V)). unfold t. discriminate. }
      destruct (add_all_ok version _ bits16 (getlines [] t) l2 (c_vocab c) S2) as (vocab & Hv).
      { intros V w I. now apply (proj2 (H V)). }
      rewrite Hc, Hv. cbn [bind].
      apply (sketch_add version _ _ _ _ _ bits16 S1) in Hc.
      apply (sketch_add_all version _ bits16 _ _ _ _ S2) in Hv.
      destruct (whitespace_ascii t A) as ([|] & ->); cbn [bind].
      + eexists _, _. split; [reflexivity|]. split; cbn; eauto.
      + unfold match_nan_values. destruct (trim_ascii t A) as (r & -> & Ar). cbn [bind].
        destruct (match_any_ascii nulls r An Ar) as (null & ->). cbn [bind].
        rewrite parse_cases. cbn [bind].
        destruct (atod t) as [[q|b|]|]; (eexists _, _; split; [reflexivity|]);
        match goal with |- sketched (on_capture _ _ ?c0 _) =>
          pose proof (on_capture_rest max capture c0 t) as R; unfold same_rest in R; rewrite R
        end; destruct null; split; cbn; eauto.
  Qed.

  Lemma cells_ok capture cells : forall c s, sketched c -> Forall ascii nulls ->
    Forall (fun x => ascii x /\ hashable x) cells ->
    exists c' s', analyze_cells atod version nulls max capture c s cells = Ok (c', s') /\ sketched c'.
  Proof.
    induction cells as [|cell cells IH]; intros c s S An F; cbn [analyze_cells]; eauto.
    inversion_clear F as [|? ? [F1 F2] Fs].
    destruct (cell_ok capture c s cell S An F1 F2) as (c1 & s1 & -> & S1). cbn [bind fst snd]. eauto.
  Qed.

  Lemma features_ok features : forall idx cols, (length features <= length cols)%nat ->
    Forall sketched cols -> Forall ascii nulls ->
    Forall (Forall (fun x => ascii x /\ hashable x)) features ->
    exists cols', analyze atod version nulls caps max idx cols features = Ok cols' /\
      length cols' = length cols /\ Forall sketched cols'.
  Proof.
    induction features as [|cells features IH]; intros idx cols L S An F; cbn [analyze]; eauto.
    destruct cols as [|c cols]; [cbn in L; lia|].
    inversion_clear F as [|? ? Fc Fs]. inversion_clear S as [|? ? Sc Ss].
    unfold analyze_column. cbv zeta.
    destruct (cells_ok (existsb (N.eqb idx) caps) cells c no_sums Sc An Fc) as (c1 & s1 & -> & S1).
    cbn [bind fst snd]. destruct (IH (idx + 1) cols) as (cs & -> & L1 & Scs); auto.
    { cbn [length] in L. lia. }
    cbn [bind]. eexists. split; [reflexivity|]. split; [cbn [length]; lia|]. constructor; auto.
  Qed.

  Lemma examples_ok l : forall cols,
    Forall (fun e => length (e_features e) = length cols) l ->
    Forall sketched cols -> Forall ascii nulls ->
    Forall (fun e => Forall (Forall (fun x => ascii x /\ hashable x)) (e_features e)) l ->
    exists cols', analyze_examples atod version nulls caps max cols l = Ok cols'.
  Proof.
    induction l as [|e l IH]; intros cols R S An F; cbn [analyze_examples]; eauto.
    inversion_clear F as [|? ? Fc Fs]. inversion_clear R as [|? ? Rc Rs].
    destruct (features_ok (e_features e) 0 cols) as (cs & -> & L & S1); auto; [lia|].
    cbn [bind]. apply IH; auto. now rewrite L.
  Qed.

  Lemma make_columns_ok attrs : Forall (fun a => a_sparse a = false /\ a_string a = true) attrs ->
    exists cols, make_columns attrs = Ok cols /\ length cols = length attrs /\ Forall sketched cols.
  Proof.
    induction 1 as [|a attrs [A1 A2] F IH]; cbn [make_columns]; [exists []; auto|].
    rewrite A1, A2. cbn [orb negb]. unfold new_column.
    destruct (make_ok cardinality_bits bits16) as (h & Hm). rewrite Hm. cbn [bind].
    destruct IH as (cs & -> & L & S). cbn [bind]. eexists. split; [reflexivity|].
    split; [cbn [length]; lia|]. constructor; auto. apply make_sketch in Hm. destruct Hm as [_ Hm].
    split; cbn; eauto.
  Qed.

  Lemma dataset_ok e r : regular (e :: r) -> dense_strings e -> Forall ascii nulls ->
    Forall (fun e => Forall (Forall (fun x => ascii x /\ hashable x)) (e_features e)) (e :: r) ->
    exists cols, analyze_dataset atod version nulls caps max (e :: r) = Ok cols.
  Proof.
    intros R D An F. cbn [analyze_dataset].
    destruct (make_columns_ok (e_attrs e) D) as (cs & -> & L & S). cbn [bind].
    cbn [regular] in R. destruct (examples_ok (e :: r) cs) as (cs' & ->); auto.
    - now rewrite L.
    - cbn [bind]. eauto.
  Qed.
End Column.

(* ---- Median ---- *)

Lemma insert_perm x l : Permutation (insert_q x l) (x :: l).
Proof.
  induction l as [|y l IH]; cbn [insert_q]; auto. destruct (Qle_bool x y); auto.
  rewrite IH. apply perm_swap.
Qed.
Lemma sort_perm l : Permutation (sort_q l) l.
Proof.
  induction l as [|x l IH]; cbn [sort_q fold_right]; auto. fold (sort_q l).
  rewrite insert_perm. now constructor.
Qed.
Inductive up : list Q -> Prop :=
| up_nil : up []
| up_cons x l : (forall y, In y l -> (x <= y)%Q) -> up l -> up (x :: l).
Lemma insert_up x l : up l -> up (insert_q x l).
Proof.
  induction 1 as [|y l B U IH]; cbn [insert_q].
  - constructor; [intros y []|constructor].
  - destruct (Qle_bool x y) eqn:E.
    + apply Qle_bool_iff in E. constructor; [|now constructor].
      intros z [ <- |I]; auto. specialize (B z I). lra.
    + constructor; auto. intros z I. apply (Permutation_in _ (insert_perm x l)) in I.
      destruct I as [ <- |I]; auto.
      assert (~ (x <= y)%Q) by (rewrite <- Qle_bool_iff; congruence). lra.
Qed.
Lemma sort_up l : up (sort_q l).
Proof. induction l; cbn [sort_q fold_right]; [constructor|now apply insert_up]. Qed.

Lemma up_split a x b : up (a ++ x :: b) ->
  (forall y, In y a -> (y <= x)%Q) /\ (forall y, In y b -> (x <= y)%Q).
Proof.
  induction a as [|z a IH]; cbn [app]; intro U; inversion_clear U as [|? ? B U'].
  - split; [intros y []|auto].
  - destruct (IH U') as [A1 A2]. split; auto. intros y [ <- |I]; auto.
    apply B. apply in_or_app. right. now left.
Qed.

Lemma counts_ex (P : Q -> Prop) (p : Q -> bool) (H : forall x, p x = true <-> P x) l :
  counts P l (count p l).
Proof.
  induction l as [|x l IH]; [constructor|].
  change (x :: l) with ([x] ++ l) at 2. rewrite count_app, count_one.
  destruct (p x) eqn:E.
  - rewrite N.add_comm. apply counts_yes; auto. now apply H.
  - apply counts_no; auto. rewrite <- H. congruence.
Qed.

Lemma count_perm {A : Type} (p : A -> bool) l l' : Permutation l l' -> count p l = count p l'.
Proof.
  unfold count. intro P. f_equal. induction P; cbn [filter]; auto.
  - destruct (p x); cbn [length]; auto.
  - destruct (p x), (p y); auto.
  - congruence.
Qed.

Lemma count_none {A : Type} (p : A -> bool) l : (forall x, In x l -> p x = false) -> count p l = 0.
Proof.
  unfold count. induction l as [|x l IH]; intro H; auto. cbn [filter].
  rewrite (H x) by now left. apply IH. intros y I. apply H. now right.
Qed.
Lemma count_le {A : Type} (p : A -> bool) l : count p l <= N.of_nat (length l).
Proof.
  unfold count. induction l as [|x l IH]; cbn [filter length]; [lia|]. destruct (p x); cbn [length]; lia.
Qed.
Lemma count_every {A : Type} (p : A -> bool) l : (forall x, In x l -> p x = true) ->
  count p l = N.of_nat (length l).
Proof.
  unfold count. induction l as [|x l IH]; intro H; auto. cbn [filter].
  rewrite (H x) by now left. cbn [length]. specialize (IH (fun y I => H y (or_intror I))). lia.
Qed.

Lemma median_spec l : l <> [] ->
  let k := Nat.div (length l) 2 in
  let q := nth k (sort_q l) 0%Q in
  In q l /\
  (exists n, counts (fun x => (x < q)%Q) l n /\ n <= N.of_nat k) /\
  (exists n, counts (fun x => (x <= q)%Q) l n /\ N.of_nat k < n).
Proof.
  intros Ne k q.
  pose proof (sort_perm l) as P. pose proof (Permutation_length P) as Ln.
  assert (Lk : (k < length (sort_q l))%nat).
  { rewrite Ln. unfold k. destruct l as [|a [|b l]]; [contradiction|cbn; lia|].
    apply Nat.div_lt; cbn [length]; lia. }
  destruct (nth_split (sort_q l) 0%Q Lk) as (a & b & E & La). fold q in E.
  pose proof (sort_up l) as U. rewrite E in U. apply up_split in U. destruct U as [U1 U2].
  split; [|split].
  - apply (Permutation_in _ P). rewrite E. apply in_or_app. right. now left.
  - exists (count (fun x => q_lt x q) l). split.
    + apply counts_ex. intro x. apply q_lt_spec.
    + rewrite <- (count_perm _ _ _ P), E, count_app.
      rewrite (count_none _ (q :: b)).
      * pose proof (count_le (fun x => q_lt x q) a). lia.
      * intros x [ <- |I]; apply q_lt_false; [lra|]. now apply U2.
  - exists (count (fun x => Qle_bool x q) l). split.
    + apply counts_ex. intro x. apply Qle_bool_iff.
    + rewrite <- (count_perm _ _ _ P), E. change (q :: b) with ([q] ++ b).
      rewrite !count_app. rewrite (count_every _ a).
      * rewrite count_one. replace (Qle_bool q q) with true by (symmetry; apply Qle_bool_iff; lra). lia.
      * intros x I. apply Qle_bool_iff. now apply U1.
Qed.

(* ---- Lengths ---- *)

Lemma fold_min_least l : (forall x, In x l -> x < size_max) -> l <> [] ->
  least l (fold_right N.min size_max l).
Proof.
  induction l as [|x l IH]; intros B Ne; [contradiction|]. destruct l as [|y l].
  - cbn [fold_right]. specialize (B x (or_introl eq_refl)).
    replace (N.min x size_max) with x by lia. split; [now left|]. intros z [ <- |[]]. lia.
  - destruct IH as [I L]; [intros z Z; apply B; now right|discriminate|].
    cbn [fold_right] in *. set (m := N.min y (fold_right N.min size_max l)) in *.
    destruct (N.min_spec x m) as [[H ->]|[H ->]].
    + split; [now left|]. intros z [ <- |J]; [lia|]. specialize (L z J). lia.
    + split; [now right|]. intros z [ <- |J]; [lia|]. now apply L.
Qed.

Lemma fold_max_greatest l : l <> [] -> greatest l (fold_right N.max 0 l).
Proof.
  induction l as [|x l IH]; intro Ne; [contradiction|]. destruct l as [|y l].
  - cbn [fold_right]. rewrite N.max_0_r. split; [now left|]. intros z [ <- |[]]. lia.
  - destruct IH as [I L]; [discriminate|].
    cbn [fold_right] in *. set (m := N.max y (fold_right N.max 0 l)) in *.
    destruct (N.max_spec x m) as [[H ->]|[H ->]].
    + split; [now right|]. intros z [ <- |J]; [lia|]. now apply L.
    + split; [now left|]. intros z [ <- |J]; [lia|]. specialize (L z J). lia.
Qed.
