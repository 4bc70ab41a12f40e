From Verif Require Import Common Model_iter Spec_iter.
From Coq Require Import List Arith Lia Bool.
Import ListNotations.

(* ---------------- Lists ---------------- *)
Lemma put_len {A} : forall (l : list A) i x, length (put l i x) = length l.
Proof. induction l; intros [|i] x; cbn; auto. Qed.

Lemma put_same {A} : forall (l : list A) i x, i < length l -> nth_error (put l i x) i = Some x.
Proof. induction l; intros [|i] x H; cbn in *; try lia; auto. apply IHl. lia. Qed.

Lemma put_other {A} : forall (l : list A) i j x, i <> j -> nth_error (put l i x) j = nth_error l j.
Proof. induction l; intros [|i] [|j] x H; cbn; auto; try congruence. Qed.

Lemma put_id {A} : forall (l : list A) i x, nth_error l i = Some x -> put l i x = l.
Proof. induction l; intros [|i] x H; cbn in *; try discriminate; [congruence|]. f_equal. auto. Qed.

Lemma put_put {A} : forall (l : list A) i x y, put (put l i x) i y = put l i y.
Proof. induction l; intros [|i] x y; cbn; auto. f_equal. auto. Qed.

Lemma look_lt h i c : look h i = Some c -> i < length h.
Proof. unfold look. destruct (nth_error h i) eqn:E; [|discriminate]. intros _. apply nth_error_Some. congruence. Qed.

Lemma look_nth h i c : look h i = Some c -> nth_error h i = Some (Some c).
Proof. unfold look. destruct (nth_error h i) eqn:E; [|discriminate]. congruence. Qed.

Lemma look_put h i j x : i < length h -> look (put h i x) j = if Nat.eq_dec i j then x else look h j.
Proof.
  intros L. unfold look. destruct (Nat.eq_dec i j) as [-> | N].
  - rewrite put_same by auto. reflexivity.
  - rewrite put_other by auto. reflexivity.
Qed.

Lemma look_app h x j : look (h ++ [x]) j = if Nat.eq_dec (length h) j then x else look h j.
Proof.
  unfold look. destruct (Nat.eq_dec (length h) j) as [<- | N].
  - rewrite nth_error_app2 by lia. rewrite Nat.sub_diag. reflexivity.
  - destruct (Nat.lt_ge_cases j (length h)).
    + rewrite nth_error_app1 by lia. reflexivity.
    + rewrite (proj2 (nth_error_None _ _)); [|rewrite app_length; cbn; lia].
      rewrite (proj2 (nth_error_None _ _)); [reflexivity|lia].
Qed.

(* ---------------- Iterators that keep an object ---------------- *)
Definition points (j : nat) (c : option cell) : nat :=
  match c with Some (mk_cell _ (O_iter _ p)) => if p =? j then 1 else 0 | _ => 0 end.
Definition cnt (h : heap) (j : nat) : nat := list_sum (map (points j) h).

Lemma cnt_put : forall h i x j c, nth_error h i = Some c -> cnt (put h i x) j + points j c = cnt h j + points j x.
Proof.
  unfold cnt. induction h as [|a h IH]; intros [|i] x j c H; cbn [nth_error put map list_sum fold_right] in *; try discriminate.
  - injection H as ->. unfold list_sum. cbn. lia.
  - specialize (IH _ x j _ H). unfold list_sum in *. cbn. lia.
Qed.

Lemma cnt_app h x j : cnt (h ++ [x]) j = cnt h j + points j x.
Proof. unfold cnt. rewrite map_app, list_sum_app. cbn. lia. Qed.

Lemma cnt_pos : forall h j, 0 < cnt h j -> exists i n q, look h i = Some (mk_cell n (O_iter q j)).
Proof.
  unfold cnt, look. induction h as [|a h IH]; intros j H; [cbn in H; lia|].
  destruct (Nat.eq_dec (points j a) 0) as [E | E].
  - destruct (IH j) as (i & n & q & L).
    + unfold list_sum in *. cbn [map fold_right] in H. lia.
    + exists (S i), n, q. exact L.
  - destruct a as [[n [r|q p]]|]; cbn in E; try congruence.
    destruct (p =? j) eqn:Ep; [|congruence]. apply Nat.eqb_eq in Ep. subst p.
    exists 0, n, q. reflexivity.
Qed.

Lemma cnt_ge : forall h i n q j, look h i = Some (mk_cell n (O_iter q j)) -> 0 < cnt h j.
Proof.
  unfold cnt, look. induction h as [|a h IH]; intros [|i] n q j H; cbn [nth_error] in H; try discriminate.
  - subst a. unfold list_sum. cbn. rewrite Nat.eqb_refl. lia.
  - specialize (IH i n q j H). unfold list_sum in *. cbn. lia.
Qed.

(* ---------------- The invariant ---------------- *)
Definition same_reader (r : reader) (t : thing) : Prop :=
  exists pos, t = T_reader (r_data r) (r_ds r) (r_epoch r) pos /\
  match r_peeked r with
  | None => r_count r = pos
  | Some x => nth_error (ds_items (r_ds r) (r_epoch r)) pos = Some x /\ r_count r = S pos
  end.

Definition cell_ok (h : heap) (c : cell) (t : thing) : Prop :=
  match c_obj c with
  | O_reader r => same_reader r t
  | O_iter q p => q = p /\ t = T_iter p /\ exists n r, look h p = Some (mk_cell n (O_reader r))
  end.

Record good (h : heap) (roots : list nat) (th : list thing) : Prop := mk_good {
  g_len : length h = length th;
  g_live : forall i, In i roots -> look h i <> None;
  g_refs : forall i c, look h i = Some c -> c_refs c = count_occ Nat.eq_dec roots i + cnt h i /\ 1 <= c_refs c;
  g_ok : forall i c, look h i = Some c -> exists t, nth_error th i = Some t /\ cell_ok h c t }.

Lemma good_same h r r' th : (forall i, count_occ Nat.eq_dec r i = count_occ Nat.eq_dec r' i) -> good h r th -> good h r' th.
Proof.
  intros E [L A R K]. constructor; auto.
  - intros i Hi. apply A. apply (count_occ_In Nat.eq_dec). rewrite E. apply (count_occ_In Nat.eq_dec). exact Hi.
  - intros i c H. rewrite <- E. auto.
Qed.

Lemma points_refs j n m o : points j (Some (mk_cell n o)) = points j (Some (mk_cell m o)).
Proof. reflexivity. Qed.

(* Changing a reference count keeps what objects are. *)
Lemma cell_ok_put h i c n d t : look h i = Some c -> cell_ok h d t -> cell_ok (put h i (Some (mk_cell n (c_obj c)))) d t.
Proof.
  intros L. unfold cell_ok. destruct (c_obj d); [auto|].
  intros (-> & -> & m & r & Lp). repeat split; auto.
  rewrite look_put by (eapply look_lt; eauto). destruct (Nat.eq_dec i i_parent) as [-> | N]; eauto.
  rewrite L in Lp. injection Lp as ->. cbn. eauto.
Qed.

Lemma put_count h i c n j :
  look h i = Some c -> cnt (put h i (Some (mk_cell n (c_obj c)))) j = cnt h j.
Proof.
  intros L. pose proof (cnt_put h i (Some (mk_cell n (c_obj c))) j (Some c) (look_nth _ _ _ L)) as E.
  destruct c as [m o]. cbn [c_obj] in *. rewrite (points_refs j n m o) in E. lia.
Qed.

Lemma incref_good h i roots th :
  good h roots th -> look h i <> None -> exists h', incref h i = Ok h' /\ good h' (i :: roots) th /\
    length h' = length h /\ (forall j c, look h j = Some c -> exists n, look h' j = Some (mk_cell n (c_obj c))).
Proof.
  intros [L A R K] Hi. unfold incref. destruct (look h i) as [c|] eqn:E; [|congruence].
  eexists. split; [reflexivity|]. pose proof (look_lt _ _ _ E) as Li. split; [|split].
  - constructor.
    + rewrite put_len. exact L.
    + intros j [<- | Hj]; rewrite look_put by auto.
      * destruct (Nat.eq_dec i i); congruence.
      * destruct (Nat.eq_dec i j); [congruence|auto].
    + intros j d H. rewrite look_put in H by auto. rewrite put_count by auto. cbn [count_occ].
      destruct (Nat.eq_dec i j) as [-> | N].
      * injection H as <-. cbn [c_refs]. destruct (R _ _ E). lia.
      * auto.
    + intros j d H. rewrite look_put in H by auto. destruct (Nat.eq_dec i j) as [-> | N].
      * injection H as <-. destruct (K _ _ E) as (t & T & O). exists t. split; auto.
        apply cell_ok_put; auto.
      * destruct (K _ _ H) as (t & T & O). exists t. split; auto. apply cell_ok_put; auto.
  - apply put_len.
  - intros j d H. rewrite look_put by auto. destruct (Nat.eq_dec i j) as [-> | N].
    + rewrite E in H. injection H as <-. eauto.
    + exists (c_refs d). destruct d; auto.
Qed.

(* A reference less, where some remain. *)
Lemma lower_good h i c roots th :
  good h (i :: roots) th -> look h i = Some c -> 1 < c_refs c ->
  good (put h i (Some (mk_cell (c_refs c - 1) (c_obj c)))) roots th.
Proof.
  intros [L A R K] E G. pose proof (look_lt _ _ _ E) as Li. constructor.
  - rewrite put_len. exact L.
  - intros j Hj. rewrite look_put by auto. destruct (Nat.eq_dec i j); [congruence|]. apply A. right. exact Hj.
  - intros j d H. rewrite look_put in H by auto. rewrite put_count by auto.
    destruct (Nat.eq_dec i j) as [-> | N].
    + injection H as <-. cbn [c_refs]. destruct (R _ _ E) as [R1 _]. cbn [count_occ] in R1.
      destruct (Nat.eq_dec j j); [lia|congruence].
    + destruct (R _ _ H) as [R1 R2]. cbn [count_occ] in R1. destruct (Nat.eq_dec i j); [congruence|]. auto.
  - intros j d H. rewrite look_put in H by auto. destruct (Nat.eq_dec i j) as [-> | N].
    + injection H as <-. destruct (K _ _ E) as (t & T & O). exists t. split; auto. apply cell_ok_put; auto.
    + destruct (K _ _ H) as (t & T & O). exists t. split; auto. apply cell_ok_put; auto.
Qed.

(* The last reference to an object that no iterator keeps is given back: the object is destroyed. *)
Lemma free_good h i c roots th :
  good h (i :: roots) th -> look h i = Some c -> c_refs c <= 1 ->
  good (put h i None) (match c_obj c with O_iter _ p => p :: roots | O_reader _ => roots end) th.
Proof.
  intros [L A R K] E G. pose proof (look_lt _ _ _ E) as Li.
  destruct (R _ _ E) as [R1 _]. cbn [count_occ] in R1. destruct (Nat.eq_dec i i) as [_|]; [|congruence].
  assert (NR : ~ In i roots). { intros H. apply (count_occ_In Nat.eq_dec) in H. lia. }
  assert (NI : cnt h i = 0) by lia.
  assert (C : forall j, cnt (put h i None) j + points j (Some c) = cnt h j).
  { intros j. pose proof (cnt_put h i None j (Some c) (look_nth _ _ _ E)) as Q. unfold points in *. lia. }
  constructor.
  - rewrite put_len. exact L.
  - intros j Hj. rewrite look_put by auto. destruct (Nat.eq_dec i j) as [<- | N].
    + exfalso. destruct (c_obj c) as [r|q p] eqn:O; [auto|]. destruct Hj as [-> | Hj]; [|auto].
      destruct (K _ _ E) as (t & _ & Ok). unfold cell_ok in Ok. rewrite O in Ok. destruct Ok as (_ & _ & m0 & r0 & Lp).
      rewrite E in Lp. injection Lp as ->. discriminate.
    + destruct (c_obj c) as [r|q p] eqn:O; [apply A; right; auto|]. destruct Hj as [-> | Hj]; [|apply A; right; auto].
      destruct (K _ _ E) as (t & _ & Ok). unfold cell_ok in Ok. rewrite O in Ok. destruct Ok as (_ & _ & m0 & r0 & Lp). congruence.
  - intros j d H. rewrite look_put in H by auto. destruct (Nat.eq_dec i j) as [<- | N]; [discriminate|].
    destruct (R _ _ H) as [Q1 Q2]. cbn [count_occ] in Q1. destruct (Nat.eq_dec i j); [congruence|].
    specialize (C j). destruct c as [m0 [r0|q p]]; cbn [c_obj points] in *; [lia|].
    cbn [count_occ]. destruct (Nat.eq_dec p j) as [-> | N'].
    + rewrite Nat.eqb_refl in C. lia.
    + apply Nat.eqb_neq in N'. rewrite N' in C. lia.
  - intros j d H. rewrite look_put in H by auto. destruct (Nat.eq_dec i j) as [<- | N]; [discriminate|].
    destruct (K _ _ H) as (t & T & Ok). exists t. split; auto. unfold cell_ok in *. destruct (c_obj d) as [r|q p] eqn:O; auto.
    destruct Ok as (-> & -> & n & r & Lp). repeat split; auto. rewrite look_put by auto.
    destruct (Nat.eq_dec i p) as [<- | N2]; eauto.
    exfalso. destruct d as [m o]. cbn in O. subst o. pose proof (cnt_ge _ _ _ _ _ H). lia.
Qed.

Lemma decref_leaf_good h i n r roots th :
  good h (i :: roots) th -> look h i = Some (mk_cell n (O_reader r)) ->
  exists h', decref_leaf h i = Ok h' /\ good h' roots th.
Proof.
  intros G E. unfold decref_leaf. rewrite E. cbn [c_refs]. destruct (n <=? 1) eqn:Q.
  - apply Nat.leb_le in Q. eexists. split; [reflexivity|]. exact (free_good _ _ _ _ _ G E Q).
  - apply Nat.leb_gt in Q. eexists. split; [reflexivity|]. exact (lower_good _ _ _ _ _ G E Q).
Qed.

Lemma decref_good h i roots th : good h (i :: roots) th -> exists h', decref h i = Ok h' /\ good h' roots th.
Proof.
  intros G. unfold decref. destruct (look h i) as [[n o]|] eqn:E.
  2: { exfalso. apply (g_live _ _ _ G i); [left; reflexivity|exact E]. }
  cbn [c_obj c_refs]. destruct o as [r|q p]; [eapply decref_leaf_good; eauto|].
  destruct (n <=? 1) eqn:Q.
  - apply Nat.leb_le in Q. pose proof (free_good _ _ _ _ _ G E Q) as F. cbn [c_obj] in F.
    destruct (g_ok _ _ _ G _ _ E) as (t & _ & Ok). unfold cell_ok in Ok. cbn [c_obj] in Ok. destruct Ok as (_ & _ & m & r & Lp).
    eapply decref_leaf_good; [exact F|]. rewrite look_put by (eapply look_lt; eauto).
    destruct (Nat.eq_dec i p) as [<- |]; [|exact Lp]. rewrite E in Lp. discriminate.
  - apply Nat.leb_gt in Q. unfold decref_leaf. rewrite E. cbn [c_refs c_obj].
    rewrite (proj2 (Nat.leb_gt _ _) Q). eexists. split; [reflexivity|]. exact (lower_good _ _ _ _ _ G E Q).
Qed.

(* ---------------- New objects ---------------- *)
Lemma cell_ok_app h x c t : cell_ok h c t -> cell_ok (h ++ [x]) c t.
Proof.
  unfold cell_ok. destruct (c_obj c); auto. intros (-> & -> & n & r & L). repeat split; auto.
  exists n, r. rewrite look_app. pose proof (look_lt _ _ _ L). destruct (Nat.eq_dec (length h) i_parent); [lia|auto].
Qed.

Lemma look_none h i : length h <= i -> look h i = None.
Proof. intros H. unfold look. rewrite (proj2 (nth_error_None _ _)) by lia. reflexivity. Qed.

Lemma root_lt h roots th i : good h roots th -> In i roots -> i < length h.
Proof.
  intros G H. destruct (Nat.lt_ge_cases i (length h)); auto. exfalso. apply (g_live _ _ _ G _ H). apply look_none. lia.
Qed.

Lemma no_new_root h roots th : good h roots th -> count_occ Nat.eq_dec roots (length h) = 0.
Proof.
  intros G. apply count_occ_not_In. intros H. apply (root_lt _ _ _ _ G) in H. lia.
Qed.

Lemma no_new_cnt h roots th : good h roots th -> cnt h (length h) = 0.
Proof.
  intros G. destruct (Nat.eq_dec (cnt h (length h)) 0) as [|N]; auto.
  destruct (cnt_pos h (length h)) as (i & n & q & L); [lia|].
  destruct (g_ok _ _ _ G _ _ L) as (t & _ & Ok). unfold cell_ok in Ok. cbn in Ok. destruct Ok as (_ & _ & m & r & Lp).
  apply look_lt in Lp. lia.
Qed.

Lemma new_reader_good h roots th data d :
  good h roots th ->
  good (h ++ [Some (mk_cell 1 (O_reader (mk_reader data d 0 0 None)))]) (length h :: roots) (th ++ [T_reader data d 0 0]).
Proof.
  intros G. pose proof (no_new_root _ _ _ G) as NR. pose proof (no_new_cnt _ _ _ G) as NC.
  constructor.
  - rewrite !app_length, (g_len _ _ _ G). reflexivity.
  - intros i H. rewrite look_app. destruct (Nat.eq_dec (length h) i); [congruence|].
    destruct H as [<- | H]; [congruence|]. apply (g_live _ _ _ G _ H).
  - intros i c H. rewrite look_app in H. rewrite cnt_app. cbn [points count_occ].
    destruct (Nat.eq_dec (length h) i) as [<- | N].
    + injection H as <-. cbn [c_refs]. lia.
    + destruct (g_refs _ _ _ G _ _ H). lia.
  - intros i c H. rewrite look_app in H. destruct (Nat.eq_dec (length h) i) as [<- | N].
    + injection H as <-. exists (T_reader data d 0 0). split.
      * rewrite (g_len _ _ _ G), nth_error_app2, Nat.sub_diag by lia. reflexivity.
      * unfold cell_ok. cbn. exists 0. cbn. auto.
    + destruct (g_ok _ _ _ G _ _ H) as (t & T & Ok). exists t. split; [|apply cell_ok_app; auto].
      rewrite nth_error_app1; auto. rewrite <- (g_len _ _ _ G). eapply look_lt; eauto.
Qed.

Lemma new_iter_good h roots th i n r :
  good h (i :: roots) th -> look h i = Some (mk_cell n (O_reader r)) ->
  good (h ++ [Some (mk_cell 1 (O_iter i i))]) (length h :: roots) (th ++ [T_iter i]).
Proof.
  intros G Li. pose proof (no_new_root _ _ _ G) as NR. pose proof (no_new_cnt _ _ _ G) as NC.
  pose proof (look_lt _ _ _ Li) as Lt. cbn [count_occ] in NR. destruct (Nat.eq_dec i (length h)); [lia|].
  constructor.
  - rewrite !app_length, (g_len _ _ _ G). reflexivity.
  - intros j H. rewrite look_app. destruct (Nat.eq_dec (length h) j); [congruence|].
    destruct H as [<- | H]; [congruence|]. apply (g_live _ _ _ G _ (or_intror H)).
  - intros j c H. rewrite look_app in H. rewrite cnt_app. cbn [points count_occ].
    destruct (Nat.eq_dec (length h) j) as [<- | N].
    + injection H as <-. cbn [c_refs]. destruct (i =? length h) eqn:Q; [apply Nat.eqb_eq in Q; lia|]. lia.
    + destruct (g_refs _ _ _ G _ _ H) as [Q1 Q2]. cbn [count_occ] in Q1.
      destruct (Nat.eq_dec i j) as [<- | N']; [rewrite Nat.eqb_refl; lia|].
      apply Nat.eqb_neq in N'. rewrite N'. lia.
  - intros j c H. rewrite look_app in H. destruct (Nat.eq_dec (length h) j) as [<- | N].
    + injection H as <-. exists (T_iter i). split.
      * rewrite (g_len _ _ _ G), nth_error_app2, Nat.sub_diag by lia. reflexivity.
      * unfold cell_ok. cbn. repeat split; auto. exists n, r. rewrite look_app. destruct (Nat.eq_dec (length h) i); [lia|auto].
    + destruct (g_ok _ _ _ G _ _ H) as (t & T & Ok). exists t. split; [|apply cell_ok_app; auto].
      rewrite nth_error_app1; auto. rewrite <- (g_len _ _ _ G). eapply look_lt; eauto.
Qed.

(* A reader reads. *)
Lemma set_reader_good h roots th i n r r' t' :
  good h roots th -> look h i = Some (mk_cell n (O_reader r)) -> same_reader r' t' ->
  good (set_reader h i n r') roots (put th i t').
Proof.
  intros G L S. unfold set_reader. pose proof (look_lt _ _ _ L) as Li.
  assert (C : forall j, cnt (put h i (Some (mk_cell n (O_reader r')))) j = cnt h j).
  { intros j. pose proof (cnt_put h i (Some (mk_cell n (O_reader r'))) j _ (look_nth _ _ _ L)) as Q. cbn [points] in Q. lia. }
  constructor.
  - rewrite !put_len. apply (g_len _ _ _ G).
  - intros j H. rewrite look_put by auto. destruct (Nat.eq_dec i j); [congruence|]. apply (g_live _ _ _ G _ H).
  - intros j c H. rewrite look_put in H by auto. rewrite C. destruct (Nat.eq_dec i j) as [<- | N].
    + injection H as <-. apply (g_refs _ _ _ G _ _ L).
    + apply (g_refs _ _ _ G _ _ H).
  - intros j c H. rewrite look_put in H by auto. destruct (Nat.eq_dec i j) as [<- | N].
    + injection H as <-. exists t'. split; [apply put_same; rewrite <- (g_len _ _ _ G); auto|]. exact S.
    + destruct (g_ok _ _ _ G _ _ H) as (t & T & Ok). exists t. rewrite put_other by auto. split; auto.
      unfold cell_ok in *. destruct (c_obj c) as [x|q p]; auto. destruct Ok as (-> & -> & m & y & Lp). repeat split; auto.
      rewrite look_put by auto. destruct (Nat.eq_dec i p); eauto.
Qed.
