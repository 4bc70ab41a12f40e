(* The statistics of a column of a dataset. *)
From Verif Require Import Common Model_num Model_insights Spec_insights Proof_insights
  Proof_insights2 Proof_insights3 Proof_insights4 Proof_insights5.
From Coq Require Import QArith Qround Qabs Lqa.
From Coq Require String Ascii.
Import List.
Local Open Scope N_scope.

Lemma forall2_words l : Forall2 is_words l (map (getlines []) l).
Proof. induction l; cbn [map]; constructor; auto. apply getlines_words. Qed.

Lemma tokens_concat l : tokens l = concat (map (getlines []) l).
Proof. unfold tokens. induction l; cbn; auto. now rewrite IHl. Qed.

Lemma prefix_until max l p : counted_prefix max l p -> until_full max l p.
Proof.
  intros (r & -> & H & P). exists r. split; auto. split; auto.
  intros p' x q E. apply (P p' x). eauto.
Qed.

Lemma safe_hashable version cell : safe version cell -> hashable version cell.
Proof.
  intros S V. destruct (S V) as [A B]. split; auto. intros w I. eapply B; eauto. apply getlines_words.
Qed.

Section Dataset.
  Context (atod : list byte -> option dbl) (version : clz_version).
  Context (nulls : list (list byte)) (caps : list N) (max : N).

  Lemma dataset_inv l cols j c : regular l ->
    analyze_dataset atod version nulls caps max l = Ok cols -> nth_error cols j = Some c ->
    exists c1, inv atod nulls max (existsb (N.eqb (N.of_nat j)) caps) (column_of j l) c1 /\
      c = clean c1.
  Proof.
    intros R E J. destruct (dataset_run _ _ _ _ _ _ _ R E) as (e & r & -> & L & H).
    destruct (H j c J) as (a & c0 & c1 & A & N0 & Rn & ->). exists c1. split; auto.
    destruct (inv_new atod nulls caps max (N.of_nat j) _ _ N0) as (I0 & _).
    destruct (run_inv _ _ _ _ _ _ _ _ _ _ I0 Rn) as (I1 & _). exact I1.
  Qed.

  Lemma dataset_new l cols j c : regular l ->
    analyze_dataset atod version nulls caps max l = Ok cols -> nth_error cols j = Some c ->
    exists a c0 c1, match l with [] => False | e :: _ => nth_error (e_attrs e) j = Some a end /\
      new_column (a_name a) = Ok c0 /\
      run atod version nulls caps max (N.of_nat j) c0 (batches j l) = Ok c1 /\ c = clean c1.
  Proof.
    intros R E J. destruct (dataset_run _ _ _ _ _ _ _ R E) as (e & r & -> & L & H).
    destruct (H j c J) as (a & c0 & c1 & A). exists a, c0, c1. exact A.
  Qed.

  Lemma dataset_min_len l cols j c : regular l ->
    analyze_dataset atod version nulls caps max l = Ok cols -> nth_error cols j = Some c ->
    (forall cell, In cell (column_of j l) -> N.of_nat (length cell) < size_max) ->
    c_min_len c = c_min_len_ne c /\
    let texts := filter (fun x => negb (is_empty x)) (column_of j l) in
    (texts = [] /\ c_min_len_ne c = 0 \/ least (lengths texts) (c_min_len_ne c)).
  Proof.
    intros R E J B. destruct (dataset_inv l cols j c R E J) as (c1 & I & ->).
    cbn [clean c_min_len c_min_len_ne]. rewrite (i_min_len _ _ _ _ _ _ I), (i_min_len_ne _ _ _ _ _ _ I).
    split; auto. cbv zeta. unfold min_of, text. fold nonempty.
    change (fun x => negb (is_empty x)) with nonempty.
    destruct (filter nonempty (column_of j l)) as [|x t] eqn:F.
    - left. split; auto.
    - right. rewrite <- F.
      assert (Bl : forall n, In n (lengths (filter nonempty (column_of j l))) -> n < size_max).
      { intros n In1. apply in_map_iff in In1. destruct In1 as (cell & <- & I2).
        apply filter_In in I2. now apply B. }
      assert (Ls : least (lengths (filter nonempty (column_of j l)))
        (fold_right N.min size_max (lengths (filter nonempty (column_of j l))))).
      { apply fold_min_least; auto. rewrite F. discriminate. }
      destruct Ls as [L1 L2]. specialize (Bl _ L1).
      replace (_ =? size_max) with false by (symmetry; apply N.eqb_neq; lia). now split.
  Qed.

  Lemma dataset_max_len l cols j c : regular l ->
    analyze_dataset atod version nulls caps max l = Ok cols -> nth_error cols j = Some c ->
    (column_of j l = [] /\ c_max_len c = 0 \/ greatest (lengths (column_of j l)) (c_max_len c)).
  Proof.
    intros R E J. destruct (dataset_inv l cols j c R E J) as (c1 & I & ->).
    cbn [clean c_max_len]. rewrite (i_max_len _ _ _ _ _ _ I). unfold max_of.
    destruct (column_of j l) eqn:F; [left; auto|]. right. rewrite <- F.
    apply fold_max_greatest. rewrite F. discriminate.
  Qed.

  Lemma dataset_mean l cols j c : regular l ->
    analyze_dataset atod version nulls caps max l = Ok cols -> nth_error cols j = Some c ->
    (Forall (fun b => numbers atod b <> []) (batches j l) ->
     exists m, c_mean c = Fin m /\
       (m * inject_Z (Z.of_nat (length (numbers atod (column_of j l)))) ==
        sum_q (numbers atod (column_of j l)))%Q) /\
    (forall b, In b (batches j l) -> numbers atod b = [] -> c_mean c = NaN).
  Proof.
    intros R E J. destruct (dataset_new l cols j c R E J) as (a & c0 & c1 & _ & N0 & Rn & ->).
    destruct (inv_new atod nulls caps max (N.of_nat j) _ _ N0) as (I0 & _ & M & _).
    cbn [clean c_mean]. split.
    - intro F. destruct (run_mean _ _ _ _ _ _ _ _ _ _ _ I0 Rn M) as (m & A & B); auto.
      { reflexivity. }
      exists m. split; auto. cbn [app] in B. unfold qn in B. rewrite nat_N_Z in B. exact B.
    - intros b Ib Hb. eapply run_mean_nan; eauto.
  Qed.

  Lemma dataset_avg l cols j c : regular l ->
    analyze_dataset atod version nulls caps max l = Ok cols -> nth_error cols j = Some c ->
    ((match batches j l with
      | [] => True
      | b :: r => (exists x, In x b /\ x <> []) /\
                  Forall (fun b => b <> [] /\ Forall (fun x => x <> []) b) r
      end) ->
     exists m, c_avg_len c = Fin m /\
       (m * inject_Z (Z.of_nat (length (column_of j l))) ==
        inject_Z (Z.of_N (total (lengths (column_of j l)))))%Q) /\
    (forall b, In b (batches j l) -> Forall (fun x => x = []) b -> c_avg_len c = NaN).
  Proof.
    intros R E J. destruct (dataset_new l cols j c R E J) as (a & c0 & c1 & _ & N0 & Rn & ->).
    destruct (inv_new atod nulls caps max (N.of_nat j) _ _ N0) as (I0 & _ & _ & M).
    cbn [clean c_avg_len]. split.
    - unfold column_of. destruct (batches j l) as [|b r].
      + intros _. cbn [run] in Rn. injection Rn as <-. exists 0%Q. split; auto. reflexivity.
      + intros [X F]. cbn [run] in Rn.
        destruct (analyze_column _ _ _ _ _ (N.of_nat j) c0 b) as [c2| | |] eqn:A; cbn [bind] in Rn; try discriminate.
        destruct (first_avg _ _ _ _ _ _ _ _ _ _ N0 A X) as (m & M1 & M2).
        destruct (column_step _ _ _ _ _ _ _ _ _ _ I0 A) as (I1 & _). cbn [app] in I1.
        destruct (run_avg _ _ _ _ _ _ _ _ _ _ _ I1 Rn M1 M2 F) as (m' & P & Q).
        exists m'. split; auto. cbn [concat]. unfold qn in Q. rewrite nat_N_Z in Q. exact Q.
    - intros b Ib Hb. eapply run_avg_nan; eauto.
  Qed.

  Lemma dataset_core l l' cols cols' j c c' : regular l -> regular l' ->
    analyze_dataset atod version nulls caps max l = Ok cols -> nth_error cols j = Some c ->
    analyze_dataset atod version nulls caps max l' = Ok cols' -> nth_error cols' j = Some c' ->
    c_name c = c_name c' -> column_of j l = column_of j l' -> core c = core c'.
  Proof.
    intros R R' E J E' J' Nm Col.
    destruct (dataset_new l cols j c R E J) as (a & c0 & c1 & _ & N0 & Rn & ->).
    destruct (dataset_new l' cols' j c' R' E' J') as (a' & c0' & c1' & _ & N0' & Rn' & ->).
    destruct (inv_new atod nulls caps max (N.of_nat j) _ _ N0) as (I0 & Na & _).
    destruct (inv_new atod nulls caps max (N.of_nat j) _ _ N0') as (I0' & Na' & _).
    destruct (run_inv _ _ _ _ _ _ _ _ _ _ I0 Rn) as (_ & Nb).
    destruct (run_inv _ _ _ _ _ _ _ _ _ _ I0' Rn') as (_ & Nb').
    cbn [clean c_name] in Nm. rewrite Nb, Nb', Na, Na' in Nm. rewrite Nm in N0.
    rewrite N0 in N0'. injection N0' as <-.
    destruct (run_core _ _ _ _ _ _ _ _ _ Rn no_sums) as (s1 & A).
    destruct (run_core _ _ _ _ _ _ _ _ _ Rn' no_sums) as (s2 & B).
    unfold column_of in Col. rewrite Col in A. rewrite A in B.
    assert (B1 : core c1 = core c1') by congruence. unfold core in *.
    assert (X : clean (with_means c1 NaN NaN) = clean (with_means c1' NaN NaN)) by now rewrite B1.
    exact X.
  Qed.
End Dataset.

(* ---- For the examples ---- *)

Definition lit (s : String.string) : list byte :=
  map Ascii.N_of_ascii (String.list_ascii_of_string s).
Arguments lit _%string_scope.

(* Numbers of one digit, and three special spellings. *)
Definition toy_atod (s : list byte) : option dbl :=
  match s with
  | [c] => if (48 <=? c) && (c <=? 57) then Some (Fin (inject_Z (Z.of_N c - 48))) else None
  | [46; c] => if (48 <=? c) && (c <=? 57) then Some (Fin (Qmake (Z.of_N c - 48) 10)) else None
  | [105; 110; 102] => Some (Inf false)
  | [110; 97; 110] => Some NaN
  | _ => None
  end.
Definition toy_attr : attribute := {| a_name := [97]; a_sparse := false; a_string := true |}.
(* One column, divided into the given batches. *)
Definition toy (bats : list (list (list byte))) : list example :=
  map (fun b => {| e_attrs := [toy_attr]; e_features := [b] |}) bats.

Lemma toy_regular bats : regular (toy bats).
Proof.
  destruct bats as [|b bats]; [exact Logic.I|]. cbn [toy map regular e_attrs].
  constructor; [reflexivity|]. apply Forall_forall. intros x I. apply in_map_iff in I.
  destruct I as (y & <- & _). reflexivity.
Qed.
Lemma toy_column bats : column_of 0 (toy bats) = concat bats.
Proof. unfold column_of, batches, toy. rewrite map_map. cbn. now rewrite map_id. Qed.
Lemma toy_batches bats : batches 0 (toy bats) = bats.
Proof. unfold batches, toy. rewrite map_map. cbn. now rewrite map_id. Qed.

(* The cells are not hashed to a tail of zeros. *)
Definition safe_hash (cell : list byte) : bool :=
  forallb (fun w => negb (xxh32 w mod 65536 =? 0)) (cell :: getlines [] cell).
Lemma safe_hash_ok version cell : safe_hash cell = true -> hashable version cell.
Proof.
  unfold safe_hash. cbn [forallb]. intros H _. apply andb_prop in H. destruct H as [H1 H2].
  assert (Z : forall w, negb (xxh32 w mod 65536 =? 0) = true -> ~ zero_tail cardinality_bits w).
  { intros w Hw Z. unfold zero_tail in Z. change (2 ^ (32 - cardinality_bits)) with 65536 in Z.
    rewrite Z in Hw. discriminate. }
  split; [auto|]. intros w I. rewrite forallb_forall in H2. auto.
Qed.

Definition toy_cell_ok (cell : list byte) : bool :=
  forallb (fun c => c <? 128) cell && safe_hash cell.
Lemma toy_ok atod version caps max bats : bats <> [] ->
  forallb (forallb toy_cell_ok) bats = true ->
  exists c, analyze_dataset atod version [] caps max (toy bats) = Ok [c].
Proof.
  intros Ne H. destruct bats as [|b bats]; [contradiction|].
  assert (Ok1 : exists cols, analyze_dataset atod version [] caps max (toy (b :: bats)) = Ok cols).
  { apply dataset_ok.
    - exact (toy_regular (b :: bats)).
    - repeat constructor.
    - constructor.
    - apply (proj2 (Forall_forall _ _)). intros e I.
      change (In e (toy (b :: bats))) in I. unfold toy in I. apply in_map_iff in I.
      destruct I as (x & <- & I). cbn [e_features]. constructor; [|constructor].
      rewrite forallb_forall in H. specialize (H x I). rewrite forallb_forall in H.
      apply Forall_forall. intros cell J. specialize (H cell J). unfold toy_cell_ok in H.
      apply andb_prop in H. destruct H as [H1 H2]. split.
      + apply Forall_forall. rewrite forallb_forall in H1. intros c K. apply N.ltb_lt. auto.
      + now apply safe_hash_ok. }
  destruct Ok1 as (cols & E). exists (hd {| c_name := []; c_rows := 0; c_numeric := 0; c_nan := 0;
    c_finite := 0; c_int := 0; c_mean := NaN; c_min := NaN; c_max := NaN; c_min_len := 0;
    c_min_len_ne := 0; c_max_len := 0; c_empty := 0; c_blank := 0; c_null := 0; c_words := 0;
    c_avg_len := NaN; c_captured := []; c_overflowed := false; c_example := [];
    c_card := {| h_bits := 0; h_regs := [] |}; c_vocab := {| h_bits := 0; h_regs := [] |};
    c_sample := [] |} cols).
  rewrite E. destruct (dataset_run _ _ _ _ _ _ _ (toy_regular (b :: bats)) E) as (e & r & Q & L & _).
  cbn in Q. injection Q as <- _. destruct cols as [|c [|]]; try discriminate. reflexivity.
Qed.
