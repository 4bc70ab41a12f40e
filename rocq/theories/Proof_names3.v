(* Proofs about names: sorting, and listing S3 objects. *)
From Verif Require Import Common Model_names Spec_names Proof_names Proof_names2.
From Coq Require Import Permutation Sorted.

(* ---------------- sorted lists ---------------- *)

Lemma splits_sorted : forall A (R : A -> A -> Prop) l,
  (forall l1 a l2 b l3, l = l1 ++ a :: l2 ++ b :: l3 -> R a b) <-> StronglySorted R l.
Proof.
  intros A R l. split.
  - induction l as [|x l IH]; intros H; constructor.
    + apply IH. intros l1 a l2 b l3 E. apply (H (x :: l1) a l2 b l3). rewrite E. reflexivity.
    + apply Forall_forall. intros y Y. apply in_split in Y. destruct Y as [l2 [l3 ->]]. apply (H [] x l2 y l3). reflexivity.
  - induction 1 as [|x l S IH F]; intros l1 a l2 b l3 E.
    + destruct l1; discriminate.
    + destruct l1 as [|y l1]; injection E as -> E.
      * rewrite Forall_forall in F. apply F. rewrite E. apply in_or_app. right. left. reflexivity.
      * eapply IH. exact E.
Qed.

Lemma sorted_map : forall A B (f : A -> B) (R : B -> B -> Prop) l,
  StronglySorted R (map f l) <-> StronglySorted (fun a b => R (f a) (f b)) l.
Proof.
  intros A B f R l. induction l as [|x l [IH1 IH2]]; cbn [map]; split; intros H; try (constructor; fail);
    inversion H as [|y l' H1 H2]; subst; constructor; auto; apply Forall_map; trivial.
Qed.

Lemma sorted_in : forall A (R R' : A -> A -> Prop) l, (forall a b, In a l -> In b l -> R a b -> R' a b) ->
  StronglySorted R l -> StronglySorted R' l.
Proof.
  intros A R R' l H S. induction S as [|x l S IH F]; constructor.
  - apply IH. intros a b X Y. apply H; right; trivial.
  - apply Forall_forall. intros y Y. rewrite Forall_forall in F. apply H; [left; reflexivity|right; trivial|auto].
Qed.

Lemma sorted_filter : forall A (R : A -> A -> Prop) p l, StronglySorted R l -> StronglySorted R (filter p l).
Proof.
  intros A R p l S. induction S as [|x l S IH F]; cbn; [constructor|]. destruct (p x); trivial. constructor; trivial.
  rewrite Forall_forall in *. intros y Y. apply filter_In in Y. apply F. tauto.
Qed.

(* A list with two sorted orders, if different elements are strictly ordered. *)
Lemma sorted_unique : forall A (R : A -> A -> Prop) l1 l2,
  (forall a b, In a l1 -> In b l1 -> R a b -> R b a -> a = b) ->
  StronglySorted R l1 -> StronglySorted R l2 -> Permutation l1 l2 -> l1 = l2.
Proof.
  intros A R l1 l2 H S1. revert l2 H. induction S1 as [|x l1 S1 IH F1]; intros l2 H S2 P.
  - symmetry. apply Permutation_nil. trivial.
  - destruct S2 as [|y l2 S2 F2]; [apply Permutation_sym, Permutation_nil in P; discriminate|].
    assert (E : x = y).
    { assert (X : In x (y :: l2)) by (eapply Permutation_in; [exact P|left; reflexivity]).
      assert (Y : In y (x :: l1)) by (eapply Permutation_in; [apply Permutation_sym; exact P|left; reflexivity]).
      destruct X as [X|X]; [symmetry; exact X|]. destruct Y as [Y|Y]; [exact Y|].
      rewrite Forall_forall in F1, F2. apply H; [left; reflexivity|right; exact Y|apply F1; exact Y|apply F2; exact X]. }
    subst y. f_equal. apply IH; trivial.
    + intros a b X Y. apply H; right; trivial.
    + eapply Permutation_cons_inv. exact P.
Qed.

(* ---------------- a sort ---------------- *)

Fixpoint insert {A : Type} (less : A -> A -> bool) (x : A) (l : list A) : list A :=
  match l with
  | [] => [x]
  | y :: r => if less y x then y :: insert less x r else x :: l
  end.
Fixpoint isort {A : Type} (less : A -> A -> bool) (l : list A) : list A :=
  match l with
  | [] => []
  | x :: r => insert less x (isort less r)
  end.

Lemma insert_perm : forall A (less : A -> A -> bool) x l, Permutation (insert less x l) (x :: l).
Proof.
  intros A less x l. induction l as [|y l IH]; cbn; [reflexivity|]. destruct (less y x); [|reflexivity].
  rewrite IH. apply perm_swap.
Qed.

Lemma isort_perm : forall A (less : A -> A -> bool) l, Permutation (isort less l) l.
Proof. intros A less l. induction l as [|x l IH]; cbn; [reflexivity|]. rewrite insert_perm. constructor. exact IH. Qed.

Definition le_of {A : Type} (less : A -> A -> bool) (a b : A) : Prop := less b a = false.

Lemma le_of_trans : forall A (less : A -> A -> bool) l a b c, strict_weak_on less l -> In a l -> In b l -> In c l ->
  le_of less a b -> le_of less b c -> le_of less a c.
Proof.
  intros A less l a b c [W1 [W2 W3]] X Y Z H1 H2. unfold le_of in *. destruct (less c a) eqn:E; [|reflexivity].
  destruct (less a b) eqn:E1.
  - rewrite (W2 c a b) in H2; trivial.
  - destruct (less b c) eqn:E2.
    + rewrite (W2 b c a) in H1; trivial.
    + destruct (W3 a b c); trivial. congruence.
Qed.

Lemma isort_sorted : forall A (less : A -> A -> bool) l all, (forall x, In x l -> In x all) -> strict_weak_on less all ->
  StronglySorted (le_of less) (isort less l).
Proof.
  intros A less l all I W. induction l as [|x l IH]; cbn; [constructor|].
  assert (S : StronglySorted (le_of less) (isort less l)) by (apply IH; intros y Y; apply I; right; trivial).
  assert (J : forall y, In y (isort less l) -> In y all).
  { intros y Y. apply I. right. eapply Permutation_in; [apply isort_perm|exact Y]. }
  assert (X : In x all) by (apply I; left; reflexivity).
  clear IH I. induction S as [|y r S IH F]; cbn; [constructor; constructor|].
  assert (Y : In y all) by (apply J; left; reflexivity).
  destruct (less y x) eqn:E.
  - constructor.
    + apply IH. intros z Z. apply J. right. trivial.
    + apply Forall_forall. intros z Z. eapply Permutation_in in Z; [|apply insert_perm]. destruct Z as [<-|Z].
      * unfold le_of. destruct (less x y) eqn:E2; [|reflexivity]. destruct W as [W1 [W2 W3]]. rewrite <- (W1 x X). symmetry. eapply W2; eassumption.
      * rewrite Forall_forall in F. apply F. exact Z.
  - constructor; [constructor; trivial|]. constructor; [exact E|]. apply Forall_forall. intros z Z. rewrite Forall_forall in F.
    eapply le_of_trans with (l := all) (b := y); trivial; [apply J; right; trivial|apply F; trivial].
Qed.

Lemma isort_sorts : forall A, sorts (@isort A).
Proof.
  intros A less l W. split; [apply isort_perm|]. unfold in_order. apply (splits_sorted A (le_of less)).
  eapply isort_sorted with (all := l); auto.
Qed.

(* ---------------- the comparisons are strict weak orders ---------------- *)

Lemma natural_strict_weak : forall A (name : A -> str) sg (l : list A), Forall (fun a => c_string (name a)) l ->
  strict_weak_on (fun a b => match strnatcmp sg (name a) (name b) with Lt => true | _ => false end) l.
Proof.
  intros A name sg l C. rewrite Forall_forall in C. split; [|split].
  - intros a X. rewrite C53_refl_l by auto. reflexivity.
  - intros a b c X Y Z H1 H2.
    destruct (strnatcmp sg (name a) (name b)) eqn:E1; try discriminate.
    destruct (strnatcmp sg (name b) (name c)) eqn:E2; try discriminate.
    rewrite !strnatcmp_words in * by auto.
    destruct (wlex_good sg) as [_ [_ G3]].
    rewrite (G3 _ (words (name b)) _) by (trivial; apply words_valid; auto). reflexivity.
  - intros a b c X Y Z H1 H2 H3 H4.
    rewrite (C53_opp_l sg (name a) (name b)) in H2 by auto. rewrite (C53_opp_l sg (name b) (name c)) in H4 by auto.
    destruct (strnatcmp sg (name a) (name b)) eqn:E1; try discriminate.
    destruct (strnatcmp sg (name b) (name c)) eqn:E2; try discriminate.
    apply C53_eq_l in E1; auto. apply C53_eq_l in E2; auto.
    rewrite (C53_opp_l sg (name a) (name c)) by auto.
    rewrite (proj2 (C53_eq_l sg (name a) (name c) (C a X) (C c Z))) by congruence. split; reflexivity.
Qed.

Lemma c_str_ok : forall s, Forall is_byte s -> c_string (c_str s).
Proof.
  induction s as [|c s IH]; intros H; cbn; [constructor|]. inversion H as [|x y H1 H2]; subst. unfold is_byte in H1.
  destruct (N.eqb_spec c 0); constructor; [lia|apply IH; trivial].
Qed.

Lemma c_str_id : forall s, c_string s -> c_str s = s.
Proof. induction 1 as [|c s C S IH]; [reflexivity|]. cbn. destruct (N.eqb_spec c 0); [lia|]. f_equal. exact IH. Qed.

(* ---------------- selection ---------------- *)

Lemma selected_wanted : forall o n, pattern_ok o n -> selected o n = Ok (wanted o n).
Proof.
  intros o n P. unfold selected, wanted, pattern_ok in *. destruct (o_pattern o) as [f|]; cbn [bind].
  - specialize (P f eq_refl). destruct (f (c_str n)); cbn [bind andb]; [|reflexivity|congruence].
    destruct (o_predicate o); reflexivity.
  - destruct (o_predicate o); reflexivity.
Qed.

Lemma selected_cases : forall o n,
  (pattern_ok o n /\ selected o n = Ok (wanted o n)) \/ (~ pattern_ok o n /\ selected o n = Throw Invalid_argument).
Proof.
  intros o n. unfold selected, pattern_ok. destruct (o_pattern o) as [f|] eqn:E.
  - destruct (f (c_str n)) eqn:F.
    + left. split; [intros g G; injection G as <-; congruence|]. cbn [bind]. unfold wanted. rewrite E, F. cbn [andb]. destruct (o_predicate o); reflexivity.
    + left. split; [intros g G; injection G as <-; congruence|]. cbn [bind]. unfold wanted. rewrite E, F. reflexivity.
    + right. split; [|reflexivity]. intros G. apply (G f eq_refl). trivial.
  - left. split; [discriminate|]. unfold wanted. rewrite E. cbn. destruct (o_predicate o); reflexivity.
Qed.

(* ---------------- pages ---------------- *)

Lemma take_keys_spec : forall o base keys acc,
  (Forall (fun k => pattern_ok o (base ++ k)) keys /\
   take_keys o base keys acc = Ok (acc ++ filter (wanted o) (map (app base) keys))) \/
  (~ Forall (fun k => pattern_ok o (base ++ k)) keys /\ take_keys o base keys acc = Throw Invalid_argument).
Proof.
  intros o base keys. induction keys as [|k keys IH]; intros acc.
  - left. split; [constructor|]. cbn. rewrite app_nil_r. reflexivity.
  - cbn [take_keys map filter]. destruct (selected_cases o (base ++ k)) as [[P E]|[P E]]; rewrite E; cbn [bind].
    + destruct (IH (if wanted o (base ++ k) then acc ++ [base ++ k] else acc)) as [[Q F]|[Q F]]; rewrite F.
      * left. split; [constructor; trivial|]. destruct (wanted o (base ++ k)); [rewrite <- app_assoc|]; reflexivity.
      * right. split; [|reflexivity]. intros H. inversion H; tauto.
    + right. split; [|reflexivity]. intros H. inversion H; tauto.
Qed.

Lemma list_pages_complete : forall o sv bucket prefix token n keys, serves sv bucket prefix token n keys ->
  forall fuel base acc, n <= fuel -> Forall (fun k => pattern_ok o (base ++ k)) keys ->
  list_pages fuel o sv bucket prefix token base acc = Ok (acc ++ filter (wanted o) (map (app base) keys)).
Proof.
  intros o sv bucket prefix token n keys S. induction S as [token keys E|token keys next n rest E S IH]; intros fuel base acc L P.
  - destruct fuel as [|fuel]; [lia|]. cbn [list_pages]. rewrite E.
    destruct (take_keys_spec o base keys acc) as [[Q F]|[Q F]]; [rewrite F; reflexivity|tauto].
  - destruct fuel as [|fuel]; [lia|]. cbn [list_pages]. rewrite E. apply Forall_app in P. destruct P as [P1 P2].
    destruct (take_keys_spec o base keys acc) as [[Q F]|[Q F]]; [|tauto]. rewrite F. cbn [bind]. rewrite IH by (trivial; lia).
    rewrite map_app, filter_app, app_assoc. reflexivity.
Qed.

Lemma list_pages_sound : forall o sv bucket prefix base fuel token acc l,
  list_pages fuel o sv bucket prefix token base acc = Ok l ->
  exists n keys, serves sv bucket prefix token n keys /\ n <= fuel /\ Forall (fun k => pattern_ok o (base ++ k)) keys /\
                 l = acc ++ filter (wanted o) (map (app base) keys).
Proof.
  intros o sv bucket prefix base fuel. induction fuel as [|fuel IH]; intros token acc l; cbn [list_pages]; [discriminate|].
  destruct (sv bucket prefix token) as [|keys next] eqn:E; [discriminate|].
  destruct (take_keys_spec o base keys acc) as [[Q F]|[Q F]]; rewrite F; cbn [bind]; [|discriminate].
  destruct next as [t|].
  - intros H. apply IH in H. destruct H as [n [rest [SV [L [P ->]]]]]. exists (S n), (keys ++ rest).
    split; [econstructor; eassumption|]. split; [lia|]. split; [apply Forall_app; auto|]. rewrite map_app, filter_app, app_assoc. reflexivity.
  - intros H. injection H as <-. exists 1, keys. split; [constructor; trivial|]. split; [lia|]. split; trivial.
Qed.

Lemma base_app : forall bucket k, (s3_scheme ++ bucket ++ [slash]) ++ k = s3_scheme ++ bucket ++ [slash] ++ k.
Proof. intros bucket k. rewrite <- !app_assoc. reflexivity. Qed.

Lemma map_base : forall bucket keys,
  map (app (s3_scheme ++ bucket ++ [slash])) keys = map (fun k => s3_scheme ++ bucket ++ [slash] ++ k) keys.
Proof. intros bucket keys. apply map_ext. intros k. apply base_app. Qed.

Lemma list_bucket_complete : forall o sv fuel uri l acc, listed sv fuel uri l -> Forall (pattern_ok o) l ->
  list_bucket fuel o sv uri acc = Ok (acc ++ filter (wanted o) l).
Proof.
  intros o sv fuel uri l acc L P. unfold list_bucket.
  destruct L as [b n keys B N F S|b n keys B N F S|b p n keys B N PN F S]; rewrite <- map_base in *;
    (assert (P' : Forall (fun k => pattern_ok o ((s3_scheme ++ b ++ [slash]) ++ k)) keys) by (apply (proj1 (Forall_map _ _ _)) in P; exact P)).
  - rewrite split_bucket by trivial. cbn [bind]. eapply list_pages_complete; eassumption.
  - rewrite split_parts by trivial. cbn [bind]. eapply list_pages_complete; eassumption.
  - change ([slash] ++ p) with (slash :: p). rewrite split_parts by trivial. cbn [bind]. destruct p as [|c p]; [congruence|].
    eapply list_pages_complete; eassumption.
Qed.

Lemma list_bucket_sound : forall o sv fuel uri acc l, list_bucket fuel o sv uri acc = Ok l ->
  exists l', listed sv fuel uri l' /\ Forall (pattern_ok o) l' /\ l = acc ++ filter (wanted o) l'.
Proof.
  intros o sv fuel uri acc l. unfold list_bucket.
  destruct (split_cases uri) as [[b [B [N [U E]]]]|[[b [k [B [N [U E]]]]]|E]]; rewrite E; cbn [bind]; [| |discriminate]; intros H;
    apply list_pages_sound in H; destruct H as [n [keys [S [F [P H]]]]]; exists (map (app (s3_scheme ++ b ++ [slash])) keys);
    rewrite map_base in *; (split; [|split; [rewrite <- map_base; apply Forall_map; exact P|exact H]]); subst uri.
  - eapply Listed_bucket; eassumption.
  - destruct k as [|c k]; [eapply Listed_bucket_slash; eassumption|]. eapply (Listed_prefix sv fuel b (c :: k)); try eassumption. discriminate.
Qed.

Lemma list_buckets_complete : forall o sv fuel uris ls, Forall2 (listed sv fuel) uris ls -> forall acc, Forall (Forall (pattern_ok o)) ls ->
  list_buckets fuel o sv uris acc = Ok (acc ++ filter (wanted o) (concat ls)).
Proof.
  intros o sv fuel uris ls F. induction F as [|u l uris ls L F IH]; intros acc P; cbn [list_buckets concat filter].
  - rewrite app_nil_r. reflexivity.
  - inversion P as [|x y P1 P2]; subst. rewrite (list_bucket_complete o sv fuel u l acc) by trivial. cbn [bind]. rewrite IH by trivial.
    rewrite filter_app, app_assoc. reflexivity.
Qed.

Lemma list_buckets_sound : forall o sv fuel uris acc l, list_buckets fuel o sv uris acc = Ok l ->
  exists ls, Forall2 (listed sv fuel) uris ls /\ Forall (Forall (pattern_ok o)) ls /\ l = acc ++ filter (wanted o) (concat ls).
Proof.
  intros o sv fuel uris. induction uris as [|u uris IH]; intros acc l; cbn [list_buckets].
  - intros H. injection H as <-. exists []. split; [constructor|]. split; [constructor|]. cbn. rewrite app_nil_r. reflexivity.
  - destruct (list_bucket fuel o sv u acc) as [a|e| |] eqn:E; cbn [bind]; try discriminate. intros H.
    apply list_bucket_sound in E. destruct E as [l1 [L [P ->]]]. apply IH in H. destruct H as [ls [F [Q ->]]].
    exists (l1 :: ls). split; [constructor; trivial|]. split; [constructor; trivial|]. cbn [concat]. rewrite filter_app, app_assoc. reflexivity.
Qed.

Lemma mmap_ok : forall A B (f : A -> res B) g l, (forall x, In x l -> f x = Ok (g x)) -> mmap f l = Ok (map g l).
Proof.
  intros A B f g l H. induction l as [|x l IH]; [reflexivity|]. cbn [mmap map]. rewrite H by (left; reflexivity). cbn [bind].
  rewrite IH by (intros y Y; apply H; right; trivial). reflexivity.
Qed.

Lemma mmap_sound : forall A B (f : A -> res B) g l r, (forall x y, f x = Ok y -> y = g x) -> mmap f l = Ok r -> r = map g l.
Proof.
  intros A B f g l r H. revert r. induction l as [|x l IH]; intros r; cbn [mmap map]; [intros E; injection E as <-; reflexivity|].
  destruct (f x) as [y|e| |] eqn:E; cbn [bind]; try discriminate. destruct (mmap f l) as [ys|e| |]; cbn [bind]; try discriminate.
  intros E2. injection E2 as <-. f_equal; auto.
Qed.

Lemma store_settle : forall o u, mk_store u (settle u (o_compression o)) = store_of o u.
Proof. intros o u. unfold store_of, settle. destruct (o_compression o); reflexivity. Qed.

Lemma make_s3_sound : forall o u s, make_s3_object u (o_compression o) = Ok s -> s = store_of o u.
Proof.
  intros o u s. unfold make_s3_object. destruct (validate_s3_object_uri u); cbn [bind]; try discriminate. intros H. injection H as <-. apply store_settle.
Qed.

Lemma make_s3_complete : forall o u, (exists b k, b <> [] /\ ~ In slash b /\ k <> [] /\ u = s3_scheme ++ b ++ [slash] ++ k) ->
  make_s3_object u (o_compression o) = Ok (store_of o u).
Proof.
  intros o u [b [k [B [N [K U]]]]]. unfold make_s3_object, validate_s3_object_uri, split_bucket_key.
  subst u. change ([slash] ++ k) with (slash :: k). rewrite split_parts by trivial. cbn [bind]. destruct k; [congruence|]. cbn [rmap bind]. rewrite store_settle. reflexivity.
Qed.

Lemma sort_uris : forall (sort : (str -> str -> bool) -> list str -> list str) sg l, sorts sort -> Forall (Forall is_byte) l ->
  Permutation (sort (uri_less sg) l) l /\ naturally_ordered sg (map c_str (sort (uri_less sg) l)).
Proof.
  intros sort sg l S B.
  assert (W : strict_weak_on (uri_less sg) l).
  { apply (natural_strict_weak str c_str sg l). eapply Forall_impl; [|exact B]. intros a. apply c_str_ok. }
  destruct (S _ _ W) as [P O]. split; [exact P|]. unfold naturally_ordered. apply (splits_sorted _ (fun a b => strnatcmp sg b a <> Lt)).
  apply sorted_map. unfold in_order in O. apply (splits_sorted _ (fun a b => uri_less sg b a = false)) in O.
  eapply sorted_in; [|exact O]. intros a b _ _. unfold uri_less. destruct (strnatcmp sg (c_str b) (c_str a)); congruence.
Qed.

Lemma filter_concat_bytes : forall o (ls : list (list str)), Forall (Forall is_byte) (concat ls) -> Forall (Forall is_byte) (filter (wanted o) (concat ls)).
Proof. intros o ls H. rewrite Forall_forall in *. intros x X. apply filter_In in X. apply H. tauto. Qed.

Lemma C70_complete_l : forall sort sg fuel o sv uris ls,
  sorts sort -> Forall2 (listed sv fuel) uris ls ->
  Forall (Forall is_byte) (concat ls) ->
  Forall (pattern_ok o) (concat ls) ->
  (forall b, ~ In slash b -> ~ In (s3_scheme ++ b ++ [slash]) (concat ls)) ->
  exists l, list_s3_objects sort sg fuel o sv uris = Ok (map (store_of o) l) /\
            Permutation l (filter (wanted o) (concat ls)) /\ naturally_ordered sg (map c_str l).
Proof.
  intros sort sg fuel o sv uris ls S F B P K. unfold list_s3_objects.
  assert (P' : Forall (Forall (pattern_ok o)) ls). { apply Forall_concat. exact P. }
  rewrite (list_buckets_complete o sv fuel uris ls F [] P'). cbn [bind app].
  destruct (sort_uris sort sg (filter (wanted o) (concat ls)) S) as [H1 H2]; [apply filter_concat_bytes; trivial|].
  eexists. split; [|split; [exact H1|exact H2]]. apply mmap_ok. intros u U. apply make_s3_complete.
  eapply Permutation_in in U; [|exact H1]. apply filter_In in U. destruct U as [U _].
  pose proof U as U0.
  apply in_concat in U. destruct U as [l [L1 L2]].
  assert (X : exists uri, listed sv fuel uri l).
  { clear -F L1. induction F as [|u l' us ls' L F IH]; [destruct L1|]. destruct L1 as [->|L1]; [exists u; trivial|auto]. }
  destruct X as [uri X].
  assert (Y : forall b keys, b <> [] -> ~ In slash b -> In u (map (fun k => s3_scheme ++ b ++ [slash] ++ k) keys) ->
     exists b k, b <> [] /\ ~ In slash b /\ k <> [] /\ u = s3_scheme ++ b ++ [slash] ++ k).
  { intros b keys BN BS I. apply in_map_iff in I. destruct I as [k [I _]]. exists b, k. split; trivial. split; trivial. split; [|auto].
    intros ->. apply (K b BS). cbn [app] in I. rewrite I. exact U0. }
  destruct X as [b n keys B1 N1 F1 S1|b n keys B1 N1 F1 S1|b p n keys B1 N1 PN F1 S1]; eauto.
Qed.

Lemma C70_sound_l : forall sort sg fuel o sv uris stores,
  sorts sort -> list_s3_objects sort sg fuel o sv uris = Ok stores ->
  exists ls l, Forall2 (listed sv fuel) uris ls /\ stores = map (store_of o) l /\
    (Forall (Forall is_byte) (concat ls) -> Permutation l (filter (wanted o) (concat ls)) /\ naturally_ordered sg (map c_str l)).
Proof.
  intros sort sg fuel o sv uris stores S. unfold list_s3_objects.
  destruct (list_buckets fuel o sv uris []) as [all|e| |] eqn:E; cbn [bind]; try discriminate. intros H.
  apply list_buckets_sound in E. destruct E as [ls [F [P ->]]]. cbn [app] in H.
  apply (mmap_sound _ _ _ (store_of o)) in H; [|intros x y; apply make_s3_sound].
  exists ls, (sort (uri_less sg) (filter (wanted o) (concat ls))). split; [exact F|]. split; [exact H|].
  intros B. apply sort_uris; trivial. apply filter_concat_bytes. trivial.
Qed.

Lemma C70_same_l : forall sort1 sort2 sg fuel1 fuel2 o sv1 sv2 uris1 uris2 ls1 ls2 r1 r2,
  sorts sort1 -> sorts sort2 -> Forall2 (listed sv1 fuel1) uris1 ls1 -> Forall2 (listed sv2 fuel2) uris2 ls2 ->
  Forall c_string (concat ls1) -> Permutation (concat ls1) (concat ls2) ->
  (forall a b, In a (concat ls1) -> In b (concat ls1) -> words a = words b -> a = b) ->
  list_s3_objects sort1 sg fuel1 o sv1 uris1 = Ok r1 -> list_s3_objects sort2 sg fuel2 o sv2 uris2 = Ok r2 -> r1 = r2.
Proof.
  intros sort1 sort2 sg fuel1 fuel2 o sv1 sv2 uris1 uris2 ls1 ls2 r1 r2 S1 S2 F1 F2 C P T. unfold list_s3_objects.
  destruct (list_buckets fuel1 o sv1 uris1 []) as [all1|e| |] eqn:E1; cbn [bind]; try discriminate. intros H1.
  destruct (list_buckets fuel2 o sv2 uris2 []) as [all2|e| |] eqn:E2; cbn [bind]; try discriminate. intros H2.
  assert (U : forall sv fuel uris x y, Forall2 (listed sv fuel) uris x -> Forall2 (listed sv fuel) uris y -> x = y).
  { assert (D : forall sv b p t n keys, serves sv b p t n keys -> forall n' keys', serves sv b p t n' keys' -> keys = keys').
    { intros sv b p t n keys S. induction S as [t keys E|t keys next n rest E S IH]; intros n' keys' S'; inversion S'; subst; try congruence.
      rewrite E in H. injection H as -> ->. f_equal. eauto. }
    assert (D1 : forall sv fuel uri x, listed sv fuel uri x -> exists b p n keys, split_bucket_prefix uri = Ok (b, p) /\
       serves sv b (match p with [] => None | _ => Some p end) None n keys /\ x = map (fun k => s3_scheme ++ b ++ [slash] ++ k) keys).
    { intros sv fuel uri x L. destruct L as [b n keys B N F S|b n keys B N F S|b p n keys B N PN F S].
      - exists b, [], n, keys. rewrite split_bucket by trivial. auto.
      - exists b, [], n, keys. rewrite split_parts by trivial. auto.
      - exists b, p, n, keys. change ([slash] ++ p) with (slash :: p). rewrite split_parts by trivial. destruct p; [congruence|]. auto. }
    intros sv fuel uris x y X. revert y. induction X as [|u l us ls L X IH]; intros y Y; inversion Y as [|u' l' us' ls' L' Y']; subst; [reflexivity|].
    f_equal; [|auto]. apply D1 in L. apply D1 in L'. destruct L as [b [p [n [keys [Z1 [Z2 Z3]]]]]]. destruct L' as [b' [p' [n' [keys' [Z1' [Z2' Z3']]]]]].
    rewrite Z1 in Z1'. injection Z1' as <- <-. rewrite (D _ _ _ _ _ _ Z2 _ _ Z2') in Z3. congruence. }
  apply list_buckets_sound in E1. destruct E1 as [ls1' [G1 [_ ->]]]. rewrite (U _ _ _ _ _ G1 F1) in *.
  apply list_buckets_sound in E2. destruct E2 as [ls2' [G2 [_ ->]]]. rewrite (U _ _ _ _ _ G2 F2) in *. clear G1 G2 U. cbn [app] in *.
  assert (C2 : Forall c_string (concat ls2)) by (eapply Permutation_Forall; eassumption).
  assert (BY : forall l, Forall c_string l -> Forall (Forall is_byte) l).
  { intros l. apply Forall_impl. intros a. apply Forall_impl. intros c. unfold is_byte. lia. }
  destruct (sort_uris sort1 sg (filter (wanted o) (concat ls1)) S1) as [P1 O1]; [apply filter_concat_bytes, BY; trivial|].
  destruct (sort_uris sort2 sg (filter (wanted o) (concat ls2)) S2) as [P2 O2]; [apply filter_concat_bytes, BY; trivial|].
  assert (PF : Permutation (filter (wanted o) (concat ls1)) (filter (wanted o) (concat ls2))).
  { clear -P. induction P as [|x l l' P IH|x y l|l l' l'' P1 IH1 P2 IH2]; cbn; try reflexivity.
    - destruct (wanted o x); [constructor|]; exact IH.
    - destruct (wanted o x), (wanted o y); try reflexivity. apply perm_swap.
    - etransitivity; eassumption. }
  assert (EQ : sort1 (uri_less sg) (filter (wanted o) (concat ls1)) = sort2 (uri_less sg) (filter (wanted o) (concat ls2))).
  { assert (IN : forall a, In a (sort1 (uri_less sg) (filter (wanted o) (concat ls1))) -> In a (concat ls1)).
    { intros a A. eapply Permutation_in in A; [|exact P1]. apply filter_In in A. tauto. }
    apply (sorted_unique _ (fun a b => strnatcmp sg (c_str b) (c_str a) <> Lt)).
    - intros a b A B H3 H4. apply IN in A. apply IN in B. rewrite Forall_forall in C. pose proof (C a A) as CA. pose proof (C b B) as CB.
      rewrite !c_str_id in * by trivial. apply T; trivial. apply (C53_eq_l sg); trivial.
      rewrite (C53_opp_l sg a b) in H3 by trivial. destruct (strnatcmp sg a b); [reflexivity|congruence|cbn in H3; congruence].
    - unfold naturally_ordered in O1. apply (splits_sorted _ (fun a b => strnatcmp sg b a <> Lt)) in O1. apply sorted_map in O1. exact O1.
    - unfold naturally_ordered in O2. apply (splits_sorted _ (fun a b => strnatcmp sg b a <> Lt)) in O2. apply sorted_map in O2. exact O2.
    - rewrite P1, P2. exact PF. }
  rewrite EQ in H1. congruence.
Qed.
