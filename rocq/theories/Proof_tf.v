From Verif Require Import Common Model_iter Model_tf Spec_tf.
From Coq Require Import List Arith Lia Bool.
Import ListNotations.

(* ---------------- dictionaries ---------------- *)

Lemma find_set : forall d n v m, find_entry (set_entry d n v) m = if m =? n then Some v else find_entry d m.
Proof.
  induction d as [|[k w] d IH]; intros n v m; cbn; auto.
  destruct (n =? k) eqn:E; cbn.
  - apply Nat.eqb_eq in E. subst k. destruct (m =? n); reflexivity.
  - rewrite IH. destruct (m =? k) eqn:F; auto. apply Nat.eqb_eq in F. subst m.
    rewrite Nat.eqb_sym in E. rewrite E. reflexivity.
Qed.

Lemma pick_ok : forall fs ex d d', pick fs ex d = Some d' ->
  forall n v, find_entry d' n = Some v <-> (In n fs /\ find_entry ex n = Some v) \/ (~ In n fs /\ find_entry d n = Some v).
Proof.
  induction fs as [|f fs IH]; intros ex d d' H n v; cbn in H.
  - injection H as <-. cbn. tauto.
  - destruct (find_entry ex f) as [w|] eqn:E; [|discriminate]. rewrite (IH _ _ _ H n v), find_set. cbn [In].
    destruct (n =? f) eqn:Q.
    + apply Nat.eqb_eq in Q. subst f. rewrite E. destruct (in_dec Nat.eq_dec n fs); intuition congruence.
    + apply Nat.eqb_neq in Q. destruct (in_dec Nat.eq_dec n fs); intuition congruence.
Qed.

Lemma pick_some : forall fs ex d, (forall n, In n fs -> exists v, find_entry ex n = Some v) -> exists d', pick fs ex d = Some d'.
Proof.
  induction fs as [|f fs IH]; intros ex d H; cbn; eauto.
  destruct (H f (or_introl eq_refl)) as [v ->]. apply IH. intros n I. apply H. right. exact I.
Qed.

Lemma pick_none : forall fs ex d n, In n fs -> find_entry ex n = None -> pick fs ex d = None.
Proof.
  induction fs as [|f fs IH]; intros ex d n I E; [destruct I|]. cbn. destruct (find_entry ex f) as [w|] eqn:F; auto.
  destruct I as [-> | I]; [congruence|]. eapply IH; eauto.
Qed.

Lemma zip_keys : forall fs ts d n, find_entry (zip_types fs ts d) n <> None <-> In n (firstn (length ts) fs) \/ find_entry d n <> None.
Proof.
  induction fs as [|f fs IH]; intros [|t ts] d n; cbn [zip_types length firstn In]; try tauto.
  rewrite IH, find_set. destruct (n =? f) eqn:Q.
  - apply Nat.eqb_eq in Q. subst f. split; [auto|]. intros _. right. discriminate.
  - apply Nat.eqb_neq in Q. split; [tauto|]. intros [[E | I] | I]; auto.
Qed.

Lemma find_in : forall d n v, find_entry d n = Some v -> In (n, v) d.
Proof.
  induction d as [|[k w] d IH]; intros n v H; cbn in *; [discriminate|]. destruct (n =? k) eqn:E; auto.
  apply Nat.eqb_eq in E. subst. injection H as ->. auto.
Qed.
Lemma in_find : forall d e, In e d -> find_entry d (fst e) <> None.
Proof.
  induction d as [|[k w] d IH]; intros [n v] H; [destruct H|]. cbn in *. destruct (n =? k) eqn:E; [discriminate|].
  destruct H as [H | H]; [injection H as -> ->; rewrite Nat.eqb_refl in E; discriminate|]. exact (IH _ H).
Qed.

Lemma same_ok a b : same_names a b = true <-> (forall n, find_entry a n <> None <-> find_entry b n <> None).
Proof.
  unfold same_names. rewrite andb_true_iff, !forallb_forall. split.
  - intros [H1 H2] n. split; intros H.
    + destruct (find_entry a n) as [v|] eqn:E; [|congruence]. specialize (H1 _ (find_in _ _ _ E)). cbn in H1.
      destruct (find_entry b n); congruence.
    + destruct (find_entry b n) as [v|] eqn:E; [|congruence]. specialize (H2 _ (find_in _ _ _ E)). cbn in H2.
      destruct (find_entry a n); congruence.
  - intros H. split; intros e I; apply in_find in I; apply H in I; match goal with |- match ?x with _ => _ end = _ => destruct x end; congruence.
Qed.

Lemma firstn_in {A} : forall k (l : list A) x, In x (firstn k l) -> In x l.
Proof. induction k as [|k IH]; intros [|a l] x H; cbn in *; try contradiction. destruct H as [-> | H]; auto. Qed.

(* ---------------- one element ---------------- *)

(* The element for an example. *)
Definition elem (s : setup) (x : item) : dict := match pick (p_features s) (p_content s x) [] with Some d => d | None => [] end.

Lemma picked s x d : pick (p_features s) (p_content s x) [] = Some d -> element_of s x d.
Proof.
  intros E n v. unfold has. rewrite (pick_ok _ _ _ _ E n v). cbn. split; [intros [H | [_ H]]; [exact H|discriminate]|auto].
Qed.

Lemma picked_same s x d : typed s -> complete s x -> pick (p_features s) (p_content s x) [] = Some d ->
  same_names d (zip_types (p_features s) (p_dtypes s) []) = true.
Proof.
  intros T C E. apply same_ok. intros n. rewrite zip_keys. cbn [find_entry]. split.
  - intros H. left. apply T. destruct (find_entry d n) as [v|] eqn:F; [|congruence]. apply (picked s x d E) in F. tauto.
  - intros [I | I]; [|congruence]. apply firstn_in in I. destruct (C n I) as [v V].
    assert (F : find_entry d n = Some v) by (apply (picked s x d E); auto). congruence.
Qed.

Definition at_pos (d : dataset) (e k : nat) : reader := mk_reader true d e k None.

Lemma read_at d e k x : nth_error (ds_items d e) k = Some x -> read_reader (at_pos d e k) = (G_item x, at_pos d e (S k)).
Proof. intros E. unfold read_reader, core_read, at_pos. cbn. rewrite E. reflexivity. Qed.
Lemma read_end d e k : nth_error (ds_items d e) k = None ->
  read_reader (at_pos d e k) = (match ds_tail d e with None => G_end | Some x => G_error x end, at_pos d e k).
Proof. intros E. unfold read_reader, core_read, at_pos. cbn. rewrite E. reflexivity. Qed.

Lemma gen_good s d e k x : typed s -> complete s x -> nth_error (ds_items d e) k = Some x ->
  gen_next s (at_pos d e k) = (R_element (elem s x), at_pos d e (S k), true) /\ element_of s x (elem s x).
Proof.
  intros T C E. unfold gen_next. rewrite (read_at _ _ _ _ E). unfold elem.
  destruct (pick_some (p_features s) (p_content s x) [] C) as [d' P]. rewrite P, (picked_same s x d' T C P).
  split; auto. apply picked. exact P.
Qed.
Lemma gen_end s d e k : nth_error (ds_items d e) k = None -> gen_next s (at_pos d e k) = (ending d e, at_pos d e k, false).
Proof. intros E. unfold gen_next. rewrite (read_end _ _ _ E). unfold ending. destruct (ds_tail d e); reflexivity. Qed.

(* ---------------- loops ---------------- *)

Lemma put_same : forall (l : list bool) i b, nth_error l i = Some b -> put l i b = l.
Proof. induction l as [|a l IH]; intros [|i] b H; cbn in *; try discriminate; [congruence|f_equal; auto]. Qed.
Lemma put_get : forall (l : list bool) i b c, nth_error l i = Some b -> nth_error (put l i c) i = Some c.
Proof. induction l as [|a l IH]; intros [|i] b c H; cbn in *; try discriminate; eauto. Qed.

Lemma run_app s : forall p q t, run s t (p ++ q) =
  let (t1, o1) := run s t p in let (t2, o2) := run s t1 q in (t2, o1 ++ o2).
Proof.
  induction p as [|a p IH]; intros q t; cbn [app run].
  - destruct (run s t q). reflexivity.
  - destruct (step s t a) as [t1 o]. rewrite IH. destruct (run s t1 p) as [t2 o2]. destruct (run s t2 q) as [t3 o3]. rewrite app_assoc. reflexivity.
Qed.

Lemma finished s t i : nth_error (t_alive t) i = Some false -> forall m, run s t (repeat (T_next i) m) = (t, repeat R_stop m).
Proof. intros E. induction m as [|m IH]; cbn; auto. rewrite E, IH. reflexivity. Qed.

Lemma skip_cons {A} : forall k (l : list A) x r, skipn k l = x :: r -> nth_error l k = Some x /\ skipn (S k) l = r.
Proof. induction k as [|k IH]; intros [|a l] x r H; cbn in *; try discriminate; [injection H as -> ->; auto|]. apply IH. exact H. Qed.
Lemma skip_nil {A} : forall k (l : list A), skipn k l = [] -> nth_error l k = None.
Proof. induction k as [|k IH]; intros [|a l] H; cbn in *; try discriminate; auto. Qed.

Lemma drain s d e i : typed s -> forall its k alive m, skipn k (ds_items d e) = its -> (forall x, In x its -> complete s x) ->
  nth_error alive i = Some true ->
  run s (mk_state (at_pos d e k) alive) (repeat (T_next i) (length its + S m)) =
  (mk_state (at_pos d e (k + length its)) (put alive i false), map (fun x => R_element (elem s x)) its ++ ending d e :: repeat R_stop m).
Proof.
  intros T. induction its as [|x its IH]; intros k alive m E C A.
  - apply skip_nil in E. cbn [length Nat.add repeat run step t_alive t_reader map app]. rewrite A, (gen_end s _ _ _ E).
    rewrite (finished s (mk_state (at_pos d e k) (put alive i false)) i (put_get _ _ _ _ A)). rewrite Nat.add_0_r. reflexivity.
  - apply skip_cons in E. destruct E as [E1 E2]. cbn [length Nat.add repeat run step t_alive t_reader map app]. rewrite A.
    rewrite (proj1 (gen_good s d e k x T (C x (or_introl eq_refl)) E1)). rewrite (put_same _ _ _ A).
    rewrite (IH (S k) alive m E2 (fun y I => C y (or_intror I)) A). rewrite Nat.add_succ_r. reflexivity.
Qed.

Lemma alive_new (alive : list bool) : nth_error (alive ++ [true]) (length alive) = Some true.
Proof. rewrite nth_error_app2, Nat.sub_diag; auto. Qed.
Lemma put_len : forall (l : list bool) i b, length (put l i b) = length l.
Proof. induction l as [|a l IH]; intros [|i] b; cbn; auto. Qed.

Lemma loop_ok s d e k alive m : typed s -> (forall x, In x (skipn k (ds_items d e)) -> complete s x) ->
  run s (mk_state (at_pos d e k) alive) (loop (length alive) (length (skipn k (ds_items d e)) + S m)) =
  (mk_state (at_pos d e (k + length (skipn k (ds_items d e)))) (put (alive ++ [true]) (length alive) false),
   map (fun x => R_element (elem s x)) (skipn k (ds_items d e)) ++ ending d e :: repeat R_stop m).
Proof.
  intros T C. unfold loop. cbn [run step t_reader t_alive].
  rewrite (drain s d e (length alive) T _ k (alive ++ [true]) m eq_refl C (alive_new alive)). reflexivity.
Qed.

Lemma epochs_ok s d : typed s -> (forall e x, In x (ds_items d e) -> complete s x) -> forall n e alive, length alive = e ->
  snd (run s (mk_state (at_pos d e 0) alive) (epochs d e n)) =
  concat (map (fun e => map (fun x => R_element (elem s x)) (ds_items d e) ++ [ending d e]) (seq e n)).
Proof.
  intros T C. induction n as [|n IH]; intros e alive L; cbn [epochs seq map concat]; auto.
  rewrite run_app. pose proof (loop_ok s d e 0 alive 0 T (C e)) as H. cbn [skipn repeat] in H.
  replace (length (ds_items d e) + 1) with (S (length (ds_items d e))) in H by lia. rewrite L in H. rewrite H.
  cbn [run step t_reader t_alive]. unfold reset_reader, at_pos at 1. cbn [r_data r_ds r_epoch].
  specialize (IH (S e) (put (alive ++ [true]) e false)). rewrite put_len, app_length, L in IH. specialize (IH (Nat.add_1_r e)).
  unfold at_pos in IH. destruct (run s _ (epochs d (S e) n)) as [t os]. cbn in *. rewrite IH. reflexivity.
Qed.

(* ---------------- any program ---------------- *)

Lemma some_skip {A} : forall k (l : list A) a, some_of a (skipn (S k) l) -> some_of a (skipn k l).
Proof.
  intros k l a H. destruct (skipn k l) as [|x r] eqn:E.
  - destruct l as [|y l]; [rewrite skipn_nil in H; exact H|]. cbn [skipn] in H. assert (length (skipn k (y :: l)) = 0) by (rewrite E; reflexivity).
    rewrite skipn_length in H0. cbn [length] in H0. rewrite skipn_all2 in H by lia. exact H.
  - apply skip_cons in E. destruct E as [_ E]. rewrite E in H. apply so_skip. exact H.
Qed.
Lemma some_take {A} k (l : list A) a x : nth_error l k = Some x -> some_of a (skipn (S k) l) -> some_of (x :: a) (skipn k l).
Proof.
  intros E H. destruct (skipn k l) as [|y r] eqn:Q.
  - apply skip_nil in Q. congruence.
  - apply skip_cons in Q. destruct Q as [Q1 Q2]. rewrite Q2 in H. assert (y = x) by congruence. subst. apply so_take. exact H.
Qed.

(* The reader is before the k-th example, which it may have read ahead. *)
Definition stands (d : dataset) (e k : nat) (r : reader) : Prop :=
  r = at_pos d e k \/ exists x, nth_error (ds_items d e) k = Some x /\ r = mk_reader true d e (S k) (Some x).

Lemma stands_at d e k : stands d e k (at_pos d e k).
Proof. left. reflexivity. Qed.
Lemma stands_read d e k r x : stands d e k r -> nth_error (ds_items d e) k = Some x -> read_reader r = (G_item x, at_pos d e (S k)).
Proof.
  intros [-> | (y & E & ->)] N; [apply read_at; exact N|]. assert (y = x) by congruence. subst y. reflexivity.
Qed.
Lemma stands_end d e k r : stands d e k r -> nth_error (ds_items d e) k = None -> r = at_pos d e k.
Proof. intros [-> | (y & E & ->)] N; [reflexivity|congruence]. Qed.
Lemma stands_peek d e k r x : stands d e k r -> nth_error (ds_items d e) k = Some x ->
  exists r', peek_reader r = (G_item x, r') /\ stands d e k r'.
Proof.
  intros [-> | (y & E & ->)] N.
  - exists (mk_reader true d e (S k) (Some x)). split; [|right; eauto]. unfold peek_reader, core_read, at_pos. cbn. rewrite N. reflexivity.
  - assert (y = x) by congruence. subst y. exists (mk_reader true d e (S k) (Some x)). split; [reflexivity|right; eauto].
Qed.
Lemma peek_end d e k : nth_error (ds_items d e) k = None ->
  peek_reader (at_pos d e k) = (match ds_tail d e with None => G_end | Some x => G_error x end, at_pos d e k).
Proof. intros E. unfold peek_reader, core_read, at_pos. cbn. rewrite E. destruct (ds_tail d e); reflexivity. Qed.
Lemma gen_stands s d e k r : stands d e k r -> gen_next s r = gen_next s (at_pos d e k).
Proof.
  intros [-> | (y & E & ->)]; [reflexivity|]. unfold gen_next. rewrite (read_at _ _ _ _ E). reflexivity.
Qed.

Lemma any_ok s d e : forall p k r alive, stands d e k r -> forallb no_reset p = true ->
  exists xs, some_of xs (skipn k (ds_items d e)) /\ Forall2 (shows s) (filter delivers (snd (run s (mk_state r alive) p))) xs.
Proof.
  induction p as [|a p IH]; intros k r alive St N.
  - exists []. split; constructor.
  - cbn [forallb] in N. apply andb_prop in N. destruct N as [N1 N2]. destruct a as [|i| | |]; [| | | |discriminate]; cbn [run step t_reader t_alive].
    + destruct (IH k r (alive ++ [true]) St N2) as (xs & A & B). exists xs. destruct (run s _ p). split; auto.
    + destruct (nth_error alive i) as [[|]|] eqn:Q.
      * destruct (nth_error (ds_items d e) k) as [x|] eqn:E.
        -- rewrite (gen_stands s _ _ _ _ St). unfold gen_next. rewrite (read_at _ _ _ _ E). destruct (pick (p_features s) (p_content s x) []) as [d'|] eqn:P.
           ++ destruct (same_names d' _).
              ** destruct (IH (S k) _ (put alive i true) (stands_at d e (S k)) N2) as (xs & A & B). destruct (run s _ p) as [t os].
                 exists (x :: xs). split; [apply some_take; auto|]. cbn. constructor; auto. cbn. apply picked. exact P.
              ** destruct (IH (S k) _ (put alive i false) (stands_at d e (S k)) N2) as (xs & A & B). destruct (run s _ p) as [t os]. exists xs. split; auto using @some_skip.
           ++ destruct (IH (S k) _ (put alive i false) (stands_at d e (S k)) N2) as (xs & A & B). destruct (run s _ p) as [t os]. exists xs. split; auto using @some_skip.
        -- rewrite (gen_stands s _ _ _ _ St), (gen_end s _ _ _ E). destruct (IH k _ (put alive i false) (stands_at d e k) N2) as (xs & A & B). destruct (run s _ p) as [t os]. exists xs. split; auto.
           unfold ending. destruct (ds_tail d e); exact B.
      * destruct (IH k _ alive St N2) as (xs & A & B). exists xs. destruct (run s _ p). split; auto.
      * destruct (IH k _ alive St N2) as (xs & A & B). exists xs. destruct (run s _ p). split; auto.
    + destruct (nth_error (ds_items d e) k) as [x|] eqn:E.
      * rewrite (stands_read _ _ _ _ _ St E). destruct (IH (S k) _ alive (stands_at d e (S k)) N2) as (xs & A & B). destruct (run s _ p) as [t os].
        exists (x :: xs). split; [apply some_take; auto|]. cbn. constructor; auto. reflexivity.
      * rewrite (stands_end _ _ _ _ St E), (read_end _ _ _ E). destruct (IH k _ alive (stands_at d e k) N2) as (xs & A & B). destruct (run s _ p) as [t os]. exists xs. split; auto.
        destruct (ds_tail d e); exact B.
    + destruct (nth_error (ds_items d e) k) as [x|] eqn:E.
      * destruct (stands_peek _ _ _ _ _ St E) as (r' & P & St'). rewrite P. destruct (IH k _ alive St' N2) as (xs & A & B).
        destruct (run s _ p) as [t os]. exists xs. split; auto.
      * rewrite (stands_end _ _ _ _ St E), (peek_end _ _ _ E). destruct (IH k _ alive (stands_at d e k) N2) as (xs & A & B).
        destruct (run s _ p) as [t os]. exists xs. split; auto. destruct (ds_tail d e); exact B.
Qed.

Lemma first_step {A} k (l : list A) x j : nth_error l k = Some x -> firstn (S j) (skipn k l) = x :: firstn j (skipn (S k) l).
Proof.
  intros E. destruct (skipn k l) as [|y r] eqn:Q; [apply skip_nil in Q; congruence|].
  apply skip_cons in Q. destruct Q as [Q1 Q2]. rewrite Q2. cbn. congruence.
Qed.

Lemma all_ok s d e : typed s -> (forall x, In x (ds_items d e) -> complete s x) -> forall p k r alive, stands d e k r -> forallb no_reset p = true ->
  exists j, Forall2 (shows s) (filter delivers (snd (run s (mk_state r alive) p))) (firstn j (skipn k (ds_items d e))).
Proof.
  intros T C. induction p as [|a p IH]; intros k r alive St N.
  - exists 0. constructor.
  - cbn [forallb] in N. apply andb_prop in N. destruct N as [N1 N2]. destruct a as [|i| | |]; [| | | |discriminate]; cbn [run step t_reader t_alive].
    + destruct (IH k r (alive ++ [true]) St N2) as (j & B). exists j. destruct (run s _ p). auto.
    + destruct (nth_error alive i) as [[|]|] eqn:Q.
      * destruct (nth_error (ds_items d e) k) as [x|] eqn:E.
        -- destruct (gen_good s d e k x T (C x (nth_error_In _ _ E)) E) as [G1 G2]. rewrite (gen_stands s _ _ _ _ St), G1.
           destruct (IH (S k) _ (put alive i true) (stands_at d e (S k)) N2) as (j & B). destruct (run s _ p) as [t os]. exists (S j).
           rewrite (first_step _ _ _ _ E). cbn. constructor; auto.
        -- rewrite (gen_stands s _ _ _ _ St), (gen_end s _ _ _ E). destruct (IH k _ (put alive i false) (stands_at d e k) N2) as (j & B). destruct (run s _ p) as [t os]. exists j.
           unfold ending. destruct (ds_tail d e); exact B.
      * destruct (IH k _ alive St N2) as (j & B). exists j. destruct (run s _ p). auto.
      * destruct (IH k _ alive St N2) as (j & B). exists j. destruct (run s _ p). auto.
    + destruct (nth_error (ds_items d e) k) as [x|] eqn:E.
      * rewrite (stands_read _ _ _ _ _ St E). destruct (IH (S k) _ alive (stands_at d e (S k)) N2) as (j & B). destruct (run s _ p) as [t os].
        exists (S j). rewrite (first_step _ _ _ _ E). cbn. constructor; auto. reflexivity.
      * rewrite (stands_end _ _ _ _ St E), (read_end _ _ _ E). destruct (IH k _ alive (stands_at d e k) N2) as (j & B). destruct (run s _ p) as [t os]. exists j.
        destruct (ds_tail d e); exact B.
    + destruct (nth_error (ds_items d e) k) as [x|] eqn:E.
      * destruct (stands_peek _ _ _ _ _ St E) as (r' & P & St'). rewrite P. destruct (IH k _ alive St' N2) as (j & B).
        destruct (run s _ p) as [t os]. exists j. auto.
      * rewrite (stands_end _ _ _ _ St E), (peek_end _ _ _ E). destruct (IH k _ alive (stands_at d e k) N2) as (j & B).
        destruct (run s _ p) as [t os]. exists j. destruct (ds_tail d e); exact B.
Qed.

Lemma reads_ok s d e alive : forall k j q, k + j <= length (ds_items d e) ->
  snd (run s (mk_state (at_pos d e k) alive) (repeat T_read j ++ q)) =
  map R_item (firstn j (skipn k (ds_items d e))) ++ snd (run s (mk_state (at_pos d e (k + j)) alive) q).
Proof.
  intros k j. revert k. induction j as [|j IH]; intros k q L; cbn [repeat app].
  - rewrite Nat.add_0_r. reflexivity.
  - destruct (nth_error (ds_items d e) k) as [x|] eqn:E; [|apply nth_error_None in E; lia].
    cbn [run step t_reader t_alive]. rewrite (read_at _ _ _ _ E), (first_step _ _ _ _ E). specialize (IH (S k) q ltac:(lia)).
    destruct (run s (mk_state (at_pos d e (S k)) alive) (repeat T_read j ++ q)) as [t os]. cbn in *. rewrite IH.
    rewrite Nat.add_succ_r. reflexivity.
Qed.

(* ---------------- the theorems ---------------- *)

Lemma elem_ok s x : complete s x -> element_of s x (elem s x).
Proof. intros C. unfold elem. destruct (pick_some (p_features s) (p_content s x) [] C) as [d P]. rewrite P. apply picked. exact P. Qed.

Lemma elems_ok s : forall l, (forall x, In x l -> complete s x) -> Forall2 (element_of s) l (map (elem s) l).
Proof.
  induction l as [|x l IH]; intros C; cbn; constructor.
  - apply elem_ok, C. left. reflexivity.
  - apply IH. intros y I. apply C. right. exact I.
Qed.

Lemma first_l s d : typed s -> (forall x, In x (ds_items d 0) -> complete s x) ->
  exists es, Forall2 (element_of s) (ds_items d 0) es /\
  forall m, snd (run s (start d) (loop 0 (length (ds_items d 0) + S m))) = map R_element es ++ ending d 0 :: repeat R_stop m.
Proof.
  intros T C. exists (map (elem s) (ds_items d 0)). split; [apply elems_ok; exact C|]. intros m.
  pose proof (loop_ok s d 0 0 [] m T C) as H. cbn [skipn length] in H. unfold start. unfold at_pos in H at 1. rewrite H.
  cbn [snd]. rewrite map_map. reflexivity.
Qed.

Lemma again_l s d n : typed s -> (forall x, In x (ds_items d 0) -> complete s x) -> ds_tail d 0 = None ->
  exists first, length first = S (length (ds_items d 0)) /\
  snd (run s (start d) (loop 0 (S (length (ds_items d 0))) ++ loop 1 (S n))) = first ++ repeat R_stop (S n).
Proof.
  intros T C Z. exists (map (fun x => R_element (elem s x)) (ds_items d 0) ++ [R_stop]). split.
  { rewrite app_length, map_length. cbn. lia. }
  rewrite run_app. pose proof (loop_ok s d 0 0 [] 0 T C) as H. cbn [skipn length repeat] in H.
  replace (length (ds_items d 0) + 1) with (S (length (ds_items d 0))) in H by lia.
  unfold start. unfold at_pos in H at 1. rewrite H. clear H.
  set (k := 0 + length (ds_items d 0)). assert (K : skipn k (ds_items d 0) = []) by (apply skipn_all2; unfold k; lia).
  pose proof (loop_ok s d 0 k [false] n T) as H. rewrite K in H. specialize (H ltac:(intros x [])). cbn [length Nat.add map app] in H.
  cbn [app put]. rewrite H. cbn [snd]. unfold ending. rewrite Z. reflexivity.
Qed.

Lemma epochs_l s d n : typed s -> (forall e x, In x (ds_items d e) -> complete s x) ->
  exists f : item -> dict, (forall e x, In x (ds_items d e) -> element_of s x (f x)) /\
  snd (run s (start d) (epochs d 0 n)) = concat (map (fun e => map (fun x => R_element (f x)) (ds_items d e) ++ [ending d e]) (seq 0 n)).
Proof.
  intros T C. exists (elem s). split; [intros e x I; apply elem_ok, (C e x I)|]. exact (epochs_ok s d T C n 0 [] eq_refl).
Qed.

Lemma missing_l s d k x y n : nth_error (ds_items d 0) k = Some x -> nth_error (ds_items d 0) (S k) = Some y ->
  In n (p_features s) -> (forall v, ~ has (p_content s x) n v) ->
  snd (run s (start d) (repeat T_read k ++ [T_iter; T_next 0; T_next 0; T_read])) =
  map R_item (firstn k (ds_items d 0)) ++ [R_raise X_key; R_stop; R_item y].
Proof.
  intros X Y I M. assert (L : 0 + k <= length (ds_items d 0)) by (apply Nat.lt_le_incl; apply (proj1 (nth_error_Some (ds_items d 0) k)); rewrite X; discriminate).
  pose proof (reads_ok s d 0 [] 0 k [T_iter; T_next 0; T_next 0; T_read] L) as H. cbn [skipn Nat.add] in H.
  unfold start. unfold at_pos in H at 1. rewrite H. f_equal.
  assert (P : pick (p_features s) (p_content s x) [] = None).
  { apply (pick_none _ _ _ n I). destruct (find_entry (p_content s x) n) as [v|] eqn:F; auto. destruct (M v F). }
  cbn [run step t_reader t_alive app nth_error]. unfold gen_next. rewrite (read_at _ _ _ _ X), P.
  cbn [run step t_reader t_alive put nth_error]. rewrite (read_at _ _ _ _ Y). reflexivity.
Qed.

Lemma gen_untyped s r d : ~ typed s -> fst (fst (gen_next s r)) <> R_element d.
Proof.
  intros T. unfold gen_next. destruct (read_reader r) as [g r']. destruct g as [x| |x]; try (cbn; discriminate).
  destruct (pick (p_features s) (p_content s x) []) as [d'|] eqn:P; [|cbn; discriminate].
  destruct (same_names d' _) eqn:Q; [|cbn; discriminate]. exfalso. apply T. intros n I. apply (proj1 (same_ok _ _)) with (n := n) in Q.
  rewrite zip_keys in Q. cbn [find_entry] in Q. assert (F : find_entry d' n <> None).
  { destruct (find_entry (p_content s x) n) as [v|] eqn:F; [|rewrite (pick_none _ _ _ n I F) in P; discriminate].
    assert (G : find_entry d' n = Some v) by (apply (picked s x d' P); auto). congruence. }
  apply Q in F. destruct F as [F | F]; [exact F|congruence].
Qed.

Lemma untyped_run s : ~ typed s -> forall p t e, ~ In (R_element e) (snd (run s t p)).
Proof.
  intros T. induction p as [|a p IH]; intros t e; cbn [run]; [intros []|].
  assert (A : ~ In (R_element e) (snd (step s t a))).
  { destruct a as [|i| | |]; cbn [step]; try (intros []; fail).
    - destruct (nth_error (t_alive t) i) as [[|]|]; cbn; try tauto.
      + pose proof (gen_untyped s (t_reader t) e T) as G. destruct (gen_next s (t_reader t)) as [[o r] b]. cbn in *. tauto.
      + intros [H | []]. discriminate H.
    - destruct (read_reader (t_reader t)) as [g r]. destruct g; cbn; intros [H | []]; discriminate H.
    - destruct (peek_reader (t_reader t)) as [g r]. destruct g; cbn; intros [H | []]; discriminate H. }
  destruct (step s t a) as [t1 o]. specialize (IH t1 e). destruct (run s t1 p) as [t2 os]. cbn in *.
  intros H. apply in_app_or in H. tauto.
Qed.
Lemma untyped_l s d p : ~ typed s -> forall e, ~ In (R_element e) (snd (run s (start d) p)).
Proof. intros T e. apply untyped_run. exact T. Qed.

(* ---------------- reading ahead ---------------- *)

Lemma gen_where s d e k r : stands d e k r -> exists k', stands d e k' (snd (fst (gen_next s r))).
Proof.
  intros St. rewrite (gen_stands s _ _ _ _ St). destruct (nth_error (ds_items d e) k) as [x|] eqn:E.
  - exists (S k). unfold gen_next. rewrite (read_at _ _ _ _ E). destruct (pick _ _ _); [destruct (same_names _ _)|]; apply stands_at.
  - exists k. rewrite (gen_end s _ _ _ E). apply stands_at.
Qed.

Lemma step_where s d t a : (exists e k, stands d e k (t_reader t)) -> exists e k, stands d e k (t_reader (fst (step s t a))).
Proof.
  intros (e & k & St). destruct a as [|i| | |]; cbn [step].
  - exists e, k. exact St.
  - destruct (nth_error (t_alive t) i) as [[|]|]; try (exists e, k; exact St).
    destruct (gen_where s d e k _ St) as [k' G]. destruct (gen_next s (t_reader t)) as [[o r] b]. exists e, k'. exact G.
  - destruct (nth_error (ds_items d e) k) as [x|] eqn:E.
    + rewrite (stands_read _ _ _ _ _ St E). exists e, (S k). apply stands_at.
    + rewrite (stands_end _ _ _ _ St E), (read_end _ _ _ E). exists e, k. apply stands_at.
  - destruct (nth_error (ds_items d e) k) as [x|] eqn:E.
    + destruct (stands_peek _ _ _ _ _ St E) as (r' & P & St'). rewrite P. exists e, k. exact St'.
    + rewrite (stands_end _ _ _ _ St E), (peek_end _ _ _ E). exists e, k. apply stands_at.
  - exists (S e), 0. left. destruct St as [-> | (x & _ & ->)]; reflexivity.
Qed.

Lemma run_where s d : forall p t, (exists e k, stands d e k (t_reader t)) -> exists e k, stands d e k (t_reader (fst (run s t p))).
Proof.
  induction p as [|a p IH]; intros t H; cbn [run]; [exact H|]. apply (step_where s d t a) in H. destruct (step s t a) as [t1 o].
  specialize (IH t1 H). destruct (run s t1 p) as [t2 os]. exact IH.
Qed.

Lemma peek_l s d p : exists o o', snd (run s (start d) (p ++ [T_peek; T_read])) = snd (run s (start d) p) ++ [o; o'] /\
  snd (run s (start d) (p ++ [T_read])) = snd (run s (start d) p) ++ [o'] /\
  match o' with R_item x => o = R_peek x | _ => o = o' /\ delivers o = false end.
Proof.
  rewrite !run_app. destruct (run_where s d p (start d)) as (e & k & St); [exists 0, 0; apply stands_at|].
  destruct (run s (start d) p) as [[r al] os]. cbn [fst t_reader] in St. cbn [run step t_reader t_alive].
  destruct (nth_error (ds_items d e) k) as [x|] eqn:E.
  - destruct (stands_peek _ _ _ _ _ St E) as (r' & P & St'). rewrite P. rewrite (stands_read _ _ _ _ _ St E). cbn [t_reader t_alive].
    rewrite (stands_read _ _ _ _ _ St' E). exists (R_peek x), (R_item x). cbn. auto.
  - pose proof (stands_end _ _ _ _ St E). subst r. rewrite (peek_end _ _ _ E), (read_end _ _ _ E). cbn [t_reader t_alive].
    rewrite (read_end _ _ _ E). destruct (ds_tail d e) as [x|].
    + exists (R_raise (X_reader x)), (R_raise (X_reader x)). cbn. auto.
    + exists R_none, R_none. cbn. auto.
Qed.
