From Verif Require Import Common Model_num Model_tsr Spec_tsr Proof_tsr Model_sparse Spec_sparse.
From Coq Require Import ZArith Lia Sorted.
Local Open Scope Z_scope.

Lemma bounds_rows m n es : in_bounds m n es -> forallb (fun i => (0 <=? i) && (i <? m)) (map row_of es) = true.
Proof.
  intros B. apply forallb_forall. intros i H. apply in_map_iff in H. destruct H as (e & <- & I).
  apply (proj1 (Forall_forall _ _) B) in I. apply andb_true_iff. rewrite Z.leb_le, Z.ltb_lt. lia.
Qed.
Lemma bounds_cols m n es : in_bounds m n es -> forallb (fun i => (0 <=? i) && (i <? n)) (map col_of es) = true.
Proof.
  intros B. apply forallb_forall. intros i H. apply in_map_iff in H. destruct H as (e & <- & I).
  apply (proj1 (Forall_forall _ _) B) in I. apply andb_true_iff. rewrite Z.leb_le, Z.ltb_lt. lia.
Qed.
Lemma bounds_back m n es : forallb (fun i => (0 <=? i) && (i <? m)) (map row_of es) = true ->
  forallb (fun i => (0 <=? i) && (i <? n)) (map col_of es) = true -> in_bounds m n es.
Proof.
  intros A B. apply Forall_forall. intros e I.
  pose proof (proj1 (forallb_forall _ _) A _ (in_map row_of _ _ I)) as A'. pose proof (proj1 (forallb_forall _ _) B _ (in_map col_of _ _ I)) as B'.
  cbn beta in *. apply andb_true_iff in A', B'. rewrite Z.leb_le, Z.ltb_lt in *. lia.
Qed.

Lemma coo_matrix_entries m n es : in_bounds m n es ->
  coo_matrix m n (map row_of es) (map col_of es) (map val_of es) = Ok (mk_matrix m n (map row_of es) (map col_of es) (map val_of es)).
Proof.
  intros B. unfold coo_matrix. rewrite !map_length, !Nat.eqb_refl. cbn [andb negb].
  rewrite (bounds_rows _ _ _ B), (bounds_cols _ _ _ B). reflexivity.
Qed.

Lemma scipy_ok t m n es : stores t m n es -> in_bounds m n es ->
  to_coo_matrix t = Ok (mk_matrix m n (map row_of es) (map col_of es) (map val_of es)).
Proof.
  intros (S1 & S2 & S3) B. unfold to_coo_matrix, indices. rewrite S1, S2, S3. cbn [length Nat.ltb Nat.leb Nat.eqb nth_error bind].
  apply coo_matrix_entries. exact B.
Qed.

Lemma scipy_entries t m n es : stores t m n es -> in_bounds m n es -> exists x, to_coo_matrix t = Ok x /\ is_matrix x m n es.
Proof. intros S B. eexists. split; [apply (scipy_ok _ _ _ _ S B)|]. repeat split. Qed.

Lemma scipy_refused t m n es : stores t m n es -> ~ in_bounds m n es -> to_coo_matrix t = Throw Invalid_argument.
Proof.
  intros (S1 & S2 & S3) B. unfold to_coo_matrix, indices. rewrite S1, S2, S3. cbn [length Nat.ltb Nat.leb Nat.eqb nth_error bind].
  unfold coo_matrix. rewrite !map_length, !Nat.eqb_refl. cbn [andb negb].
  destruct (forallb _ (map row_of es)) eqn:E1; [|reflexivity]. destruct (forallb _ (map col_of es)) eqn:E2; [|reflexivity].
  destruct B. apply bounds_back; assumption.
Qed.

Lemma is_matrix_eq x m n es : is_matrix x m n es -> x = mk_matrix m n (map row_of es) (map col_of es) (map val_of es).
Proof. destruct x. unfold is_matrix. cbn. intros (-> & -> & -> & -> & ->). reflexivity. Qed.

Lemma back_ok x m n es : is_matrix x m n es -> reasonable [m; n] -> exists t, to_tensor x = Ok t /\ stores t m n es.
Proof.
  intros X R. apply is_matrix_eq in X. subst x. unfold to_tensor. cbn [x_rows x_cols x_row x_col x_data].
  unfold coo_tensor, tensor_strides. cbn [default_strides bind hd].
  assert (E : in_ssize (1 * as_ssize n) = true).
  { destruct R as [F V]. inversion F as [|? ? Hm F2]; subst. inversion F2 as [|? ? Hn _]; subst.
    unfold volume in V. cbn [map fold_right] in V. assert (n < 2 ^ 63) by nia.
    unfold as_ssize. rewrite (proj2 (Z.ltb_lt _ _)) by assumption. unfold in_ssize. rewrite andb_true_iff, Z.leb_le, Z.ltb_lt. lia. }
  rewrite E. cbn [bind length map Nat.eqb negb forallb]. rewrite !map_length, !Nat.eqb_refl. cbn [andb bind].
  eexists. split; [reflexivity|]. repeat split.
Qed.

(* ---------------- tocsr ---------------- *)

Definition lex (a b : Z * Z * Z) : Prop := before (fst a) (fst b).

Lemma cell_app es es' i j : cell (es ++ es') i j = cell es i j ++ cell es' i j.
Proof. unfold cell. rewrite filter_app, map_app. reflexivity. Qed.
Lemma cell_one i j v i' j' : cell [(i, j, v)] i' j' = if (i =? i') && (j =? j') then [v] else [].
Proof. unfold cell, row_of, col_of. cbn. destruct ((i =? i') && (j =? j')); reflexivity. Qed.
Lemma total_app a b : total (a ++ b) = total a + total b.
Proof. induction a; cbn [app total fold_right] in *; unfold total in *; [reflexivity|]. lia. Qed.

Lemma before_trans a b c : before a b -> before b c -> before a c.
Proof. unfold before. lia. Qed.
Lemma before_irrefl a : ~ before a a.
Proof. unfold before. lia. Qed.

(* What is in the list after adding. *)
Lemma add_in i j v l : StronglySorted lex l -> forall i' j' w,
  In (i', j', w) (add_entry i j v l) <->
  ((i', j') <> (i, j) /\ In (i', j', w) l) \/
  ((i', j') = (i, j) /\ ((exists u, In (i, j, u) l /\ w = u + v) \/ ((forall u, ~ In (i, j, u) l) /\ w = v))).
Proof.
  induction 1 as [|[[a b] u] l S IH F]; intros i' j' w; cbn [add_entry].
  - cbn. split.
    + intros [E|[]]. injection E as -> -> ->. right. split; [reflexivity|]. right. auto.
    + intros [[_ []]|[E [(u & [] & _)|(_ & ->)]]]. injection E as -> ->. auto.
  - assert (Fl : forall p q r, In (p, q, r) l -> before (a, b) (p, q)).
    { intros p q r I. exact (proj1 (Forall_forall _ _) F _ I). }
    destruct ((i =? a) && (j =? b)) eqn:E1.
    + apply andb_true_iff in E1. rewrite !Z.eqb_eq in E1. destruct E1 as [-> ->]. cbn [In]. split.
      * intros [E|I].
        -- injection E as <- <- <-. right. split; [reflexivity|]. left. exists u. auto.
        -- left. split; [|auto]. intros E. injection E as -> ->. exact (before_irrefl _ (Fl _ _ _ I)).
      * intros [[N [E|I]]|[E [(u' & [E'|I] & ->)|(N & ->)]]].
        -- injection E as -> -> ->. congruence.
        -- auto.
        -- injection E as -> ->. injection E' as <-. auto.
        -- exfalso. exact (before_irrefl _ (Fl _ _ _ I)).
        -- exfalso. apply (N u). auto.
    + destruct ((i <? a) || ((i =? a) && (j <? b))) eqn:E2.
      * assert (B : before (i, j) (a, b)).
        { unfold before. cbn. apply orb_true_iff in E2. rewrite andb_true_iff, Z.eqb_eq, !Z.ltb_lt in E2. lia. }
        assert (N : forall u', ~ In (i, j, u') ((a, b, u) :: l)).
        { intros u' [E|I]; [injection E as -> -> ->; exact (before_irrefl _ B)|].
          apply Fl in I. exact (before_irrefl _ (before_trans _ _ _ B I)). }
        cbn [In] in N |- *. split.
        -- intros [E|I].
           ++ injection E as <- <- <-. right. split; [reflexivity|]. right. auto.
           ++ left. split; [|exact I]. intros E. injection E as -> ->. exact (N w I).
        -- intros [[_ I]|[E [(u' & I & _)|(_ & ->)]]]; [auto|destruct (N u' I)|]. injection E as -> ->. auto.
      * assert (NE : (a, b) <> (i, j)).
        { intros E. injection E as -> ->. rewrite !Z.eqb_refl in E1. discriminate. }
        cbn [In]. rewrite IH. split.
        -- intros [E|[[N I]|[E [(u' & I & ->)|(N & ->)]]]].
           ++ injection E as <- <- <-. left. auto.
           ++ left. auto.
           ++ right. split; [exact E|]. left. exists u'. auto.
           ++ right. split; [exact E|]. right. split; [|reflexivity]. intros u' [E'|I]; [|exact (N u' I)].
              injection E' as -> -> _. congruence.
        -- intros [[N [E|I]]|[E [(u' & [E'|I] & ->)|(N & ->)]]].
           ++ left. exact E.
           ++ right. left. auto.
           ++ injection E' as -> -> _. congruence.
           ++ right. right. split; [exact E|]. left. exists u'. auto.
           ++ right. right. split; [exact E|]. right. split; [|reflexivity]. intros u' I. apply (N u'). auto.
Qed.

Lemma add_sorted i j v l : StronglySorted lex l -> StronglySorted lex (add_entry i j v l).
Proof.
  intros S. assert (IN := add_in i j v). induction S as [|[[a b] u] l S IH F]; cbn [add_entry].
  - repeat constructor.
  - destruct ((i =? a) && (j =? b)) eqn:E1.
    + constructor; [exact S|]. eapply Forall_impl; [|exact F]. intros x H. exact H.
    + destruct ((i <? a) || ((i =? a) && (j <? b))) eqn:E2.
      * assert (B : before (i, j) (a, b)).
        { unfold before. cbn. apply orb_true_iff in E2. rewrite andb_true_iff, Z.eqb_eq, !Z.ltb_lt in E2. lia. }
        constructor; [constructor; assumption|]. constructor; [exact B|].
        eapply Forall_impl; [|exact F]. intros x H. exact (before_trans _ _ _ B H).
      * constructor; [exact IH|]. apply Forall_forall. intros [[p q] r] I. apply (IN l S) in I.
        destruct I as [[_ I]|[E _]].
        -- exact (proj1 (Forall_forall _ _) F _ I).
        -- injection E as -> ->. unfold lex, before. cbn. apply orb_false_iff in E2. apply andb_false_iff in E1. destruct E2 as [E2 E3].
           apply andb_false_iff in E3. apply Z.ltb_ge in E2.
           assert (E1' : i <> a \/ j <> b) by (destruct E1 as [E1|E1]; apply Z.eqb_neq in E1; auto).
           assert (E3' : i <> a \/ b <= j) by (destruct E3 as [E3|E3]; [apply Z.eqb_neq in E3|apply Z.ltb_ge in E3]; auto).
           lia.
Qed.

(* The sorted list [l] means the same as the entries [es]. *)
Definition sums (l es : list (Z * Z * Z)) : Prop :=
  StronglySorted lex l /\ forall i j v, In (i, j, v) l <-> cell es i j <> [] /\ v = total (cell es i j).

Lemma sums_add l es i j v : sums l es -> sums (add_entry i j v l) (es ++ [(i, j, v)]).
Proof.
  intros [S M]. split; [apply add_sorted; exact S|]. intros i' j' w. rewrite (add_in i j v l S), cell_app, cell_one.
  destruct ((i =? i') && (j =? j')) eqn:E.
  - apply andb_true_iff in E. rewrite !Z.eqb_eq in E. destruct E as [-> ->]. rewrite total_app. cbn [total fold_right].
    replace (v + 0) with v by lia. split.
    + intros [[N _]|[_ [(u & I & ->)|(N & ->)]]]; [congruence| |].
      * apply M in I. destruct I as [_ ->]. split; [destruct (cell es i' j'); discriminate|reflexivity].
      * destruct (cell es i' j') eqn:C; [split; [discriminate|reflexivity]|].
        destruct (N (total (cell es i' j'))). apply M. rewrite C. split; [discriminate|reflexivity].
    + intros [_ ->]. right. split; [reflexivity|]. destruct (cell es i' j') eqn:C.
      * right. split; [|reflexivity]. intros u I. apply M in I. rewrite C in I. destruct I. congruence.
      * left. exists (total (cell es i' j')). rewrite C. split; [|reflexivity]. apply M. rewrite C. split; [discriminate|reflexivity].
  - assert (NE : (i', j') <> (i, j)). { intros X. injection X as -> ->. rewrite !Z.eqb_refl in E. discriminate. }
    rewrite app_nil_r. split.
    + intros [[_ I]|[X _]]; [|congruence]. apply M. exact I.
    + intros H. left. split; [exact NE|]. apply M. exact H.
Qed.

Lemma triples_entries es : triples (map row_of es) (map col_of es) (map val_of es) = es.
Proof. induction es as [|[[i j] v] es IH]; cbn; [reflexivity|]. rewrite IH. reflexivity. Qed.

Lemma tocsr_from es : forall l es0, sums l es0 ->
  sums (fold_left (fun l e => let '(i, j, v) := e in add_entry i j v l) es l) (es0 ++ es).
Proof.
  induction es as [|[[i j] v] es IH]; intros l es0 S; cbn [fold_left].
  - rewrite app_nil_r. exact S.
  - change (es0 ++ (i, j, v) :: es) with (es0 ++ [(i, j, v)] ++ es). rewrite app_assoc. apply IH. apply sums_add. exact S.
Qed.

Lemma tocsr_sums x m n es : is_matrix x m n es -> sums (tocsr x) es.
Proof.
  intros (_ & _ & R & C & D). unfold tocsr. rewrite R, C, D, triples_entries.
  apply (tocsr_from es [] []). split; [constructor|]. intros i j v. cbn. split; [tauto|]. intros [H _]. congruence.
Qed.

Lemma sorted_fst l : StronglySorted lex l -> StronglySorted before (map fst l).
Proof.
  induction 1 as [|e l S IH F]; cbn [map]; constructor; auto. apply Forall_forall. intros x I. apply in_map_iff in I.
  destruct I as (y & <- & I). exact (proj1 (Forall_forall _ _) F _ I).
Qed.

Lemma combine_split_map (l : list (Z * Z * Z)) : combine (map fst l) (map snd l) = l.
Proof. induction l as [|[a b] l IH]; cbn; [reflexivity|]. rewrite IH. reflexivity. Qed.

Lemma tf_ok t m n es : stores t m n es -> in_bounds m n es ->
  (forall i j, cell es i j <> [] -> total (cell es i j) <> 0) -> exists y, to_tf t = Ok y /\ same_sparse y m n es.
Proof.
  intros S B NZ. destruct (scipy_entries t m n es S B) as (x & E & X). unfold to_tf. rewrite E. cbn [bind].
  destruct (tocsr_sums x m n es X) as [SS M].
  assert (FE : filter (fun e => negb (snd e =? 0)) (tocsr x) = tocsr x).
  { assert (A : forall e, In e (tocsr x) -> snd e <> 0).
    { intros [[i j] v] I. apply M in I. destruct I as [C ->]. cbn. apply NZ. exact C. }
    clear - A. induction (tocsr x) as [|e l IH]; cbn; [reflexivity|].
    rewrite (proj2 (Z.eqb_neq _ _)) by (apply A; left; reflexivity). cbn. rewrite IH; [reflexivity|]. intros; apply A; right; assumption. }
  cbn zeta. rewrite FE. unfold sparse_tensor. rewrite !map_length, Nat.eqb_refl. eexists. split; [reflexivity|].
  destruct X as (X1 & X2 & _). unfold same_sparse. cbn [y_shape y_indices y_values]. rewrite X1, X2. split; [reflexivity|].
  split; [rewrite !map_length; reflexivity|]. split; [apply sorted_fst; exact SS|].
  intros i j v. rewrite combine_split_map. apply M.
Qed.

Lemma filter_at_most {A} (f : A -> bool) l : (length (filter f l) <= length l)%nat.
Proof. induction l as [|a l IH]; cbn; [lia|]. destruct (f a); cbn; lia. Qed.

Lemma filter_shorter {A} (f : A -> bool) l e : In e l -> f e = false -> (length (filter f l) < length l)%nat.
Proof.
  intros I E. induction l as [|a l IH]; [destruct I|]. cbn. destruct I as [-> |I].
  - rewrite E. pose proof (filter_at_most f l). lia.
  - specialize (IH I). destruct (f a); cbn; lia.
Qed.

Lemma tf_zero t m n es i j : stores t m n es -> in_bounds m n es -> cell es i j <> [] -> total (cell es i j) = 0 ->
  to_tf t = Throw Invalid_argument.
Proof.
  intros S B C T. destruct (scipy_entries t m n es S B) as (x & E & X). unfold to_tf. rewrite E. cbn [bind].
  destruct (tocsr_sums x m n es X) as [SS M]. unfold sparse_tensor. rewrite !map_length.
  assert (I : In (i, j, 0) (tocsr x)) by (apply M; auto).
  pose proof (filter_shorter (fun e => negb (snd e =? 0)) _ _ I eq_refl) as L.
  destruct (Nat.eqb_spec (length (filter (fun e : Z * Z * Z => negb (snd e =? 0)) (tocsr x))) (length (tocsr x))); [|reflexivity].
  lia.
Qed.

(* ---------------- tensors of readers ---------------- *)

Lemma built_stores (o : coo Z) m d es : o_shape o = [m; d] -> holds_entries [d] (o_data o) (o_coords o) es -> stores o m d es.
Proof.
  intros Es (D & idxs & (L & C) & F). split; [exact Es|]. split; [exact D|].
  assert (R : map (fun idx => nth 0 idx 0) idxs = map row_of es /\ map (fun idx => nth 1 idx 0) idxs = map col_of es).
  { clear - F. induction F as [|e idx es idxs (rest & -> & I & M) F [IH1 IH2]]; [split; reflexivity|]. cbn [map nth].
    rewrite IH1. split; [reflexivity|]. inversion I as [|? i ? ? _ I']; subst. inversion I'; subst. unfold row_major in M. cbn in M. cbn [nth].
    rewrite IH2. f_equal. unfold col_of. rewrite <- M. lia. }
  destruct (o_coords o) as [|c0 [|c1 [|? ?]]]; try discriminate L. rewrite (C 0%nat c0 eq_refl), (C 1%nat c1 eq_refl).
  destruct R as [-> ->]. reflexivity.
Qed.

Lemma entries_bounds d (rs : list (sparse_row Z)) : forall i m, 0 <= i -> i + Z.of_nat (length rs) <= m ->
  Forall (Forall (fun kv => 0 <= fst kv < d)) rs -> in_bounds m d (entries i rs).
Proof.
  induction rs as [|r rs IH]; intros i m Hi Hm F; cbn [entries]; [constructor|]. inversion F as [|? ? F1 F2]; subst.
  cbn [length] in Hm. apply Forall_app. split.
  - apply Forall_forall. intros e I. apply in_map_iff in I. destruct I as (kv & <- & I).
    apply (proj1 (Forall_forall _ _) F1) in I. unfold row_of, col_of. cbn. lia.
  - apply IH; auto; lia.
Qed.
