(* Reference counts of the buffers: the steps keep the invariant. *)
From Verif Require Import Common Model_pymem Spec_pymem Proof_pymem.
From Coq Require Import Lia.
Import List.
Local Open Scope nat_scope.

Definition slice_at (ks : list kind) (sl : nat) : option (option nat * nat * nat) :=
  match nth_error ks sl with Some (K_slice b off len) => Some (b, off, len) | _ => None end.
Definition same_slices (ks ks' : list kind) : Prop :=
  forall sl t, slice_at ks sl = Some t -> slice_at ks' sl = Some t.

Lemma slice_at_ex ks sl : (exists b off len, nth_error ks sl = Some (K_slice b off len)) <-> (exists t, slice_at ks sl = Some t).
Proof.
  unfold slice_at. split.
  - intros [b [off [len E]]]. rewrite E. eauto.
  - intros [t E]. destruct (nth_error ks sl) as [[b|b p|b off len|v]|]; try discriminate. eauto.
Qed.
Lemma good_mono sh sh' ks ks' k : (forall b p, nth_error sh b = Some p -> nth_error sh' b = Some p) -> same_slices ks ks' ->
  good sh ks k -> good sh' ks' k.
Proof.
  intros H S. destruct k as [b|[b|] pos|[b|] off len|sl]; cbn [good]; auto.
  - intros [p P]. eauto.
  - intros [p [P L]]. eauto.
  - intros [p [P L]]. eauto.
  - intro E. apply slice_at_ex. apply slice_at_ex in E. destruct E as [t E]. exists t. exact (S _ _ E).
Qed.

Lemma same_slices_app ks k : same_slices ks (ks ++ [k]).
Proof.
  intros sl t E. unfold slice_at in *. destruct (nth_error ks sl) eqn:N; [|discriminate].
  rewrite nth_error_app1 by exact (nth_some _ _ _ N). rewrite N. exact E.
Qed.
Definition is_stream (k : kind) : Prop := exists b p, k = K_stream b p.
Definition compatible (k k' : kind) : Prop := k' = k \/ (is_stream k /\ is_stream k').
Lemma same_slices_upd ks i k k' : nth_error ks i = Some k -> compatible k k' -> same_slices ks (upd i k' ks).
Proof.
  intros N [-> | [[b [p ->]] [b' [p' ->]]]].
  - rewrite upd_id by exact N. intros sl t E. exact E.
  - intros sl t E. unfold slice_at in *. destruct (Nat.eq_dec sl i) as [-> | D].
    + rewrite N in E. discriminate.
    + rewrite upd_other by exact D. exact E.
Qed.

Lemma views_high x y s n : inv x y s -> length (objects s) <= n -> count (views n) (objects s) = 0.
Proof.
  intros I L. destruct (count (views n) (objects s)) eqn:C; [reflexivity|].
  destruct (count_pos (views n) (objects s)) as [j [v [J P]]]; [lia|].
  unfold views in P. apply andb_prop in P. destruct P as [_ P].
  pose proof (i_good _ _ _ I j v J) as G. destruct (o_kind v); try discriminate. cbn in P, G.
  apply Nat.eqb_eq in P. subst slice. destruct G as [b [off [len G]]].
  apply nth_some in G. unfold kinds in G. rewrite map_length in G. lia.
Qed.

Lemma add_object_ok s k : inv (block_of k) (slice_of_view k) s -> good (shapes s) (kinds s) k ->
  inv None None (add_object s k).
Proof.
  intros I G.
  assert (KS : kinds (add_object s k) = kinds s ++ [k]) by (unfold kinds, add_object; cbn [objects]; apply map_app).
  assert (GM : forall k', good (shapes s) (kinds s) k' -> good (shapes s) (kinds s ++ [k]) k').
  { intros k' G'. apply (good_mono (shapes s) _ (kinds s)); auto. apply same_slices_app. }
  constructor.
  - intros i o N. change (shapes (add_object s k)) with (shapes s). rewrite KS. cbn [add_object objects] in N.
    destruct (app_inv_nth _ _ _ _ N) as [[_ ->] | [_ M]]; apply GM; [exact G|]. exact (i_good _ _ _ I i o M).
  - intros i o N. cbn [add_object objects] in N |- *. rewrite count_app.
    destruct (app_inv_nth _ _ _ _ N) as [[-> ->] | [_ M]].
    + rewrite (views_high _ _ _ _ I (Nat.le_refl _)). cbn [o_refs o_named num]. unfold views. cbn [o_named o_kind andb].
      replace (is_block (length (objects s)) (slice_of_view k)) with false; [reflexivity|].
      destruct k as [| | |sl]; try reflexivity. cbn. symmetry. apply Nat.eqb_neq. cbn in G. destruct G as [b [off [len G]]].
      apply nth_some in G. unfold kinds in G. rewrite map_length in G. lia.
    + rewrite (i_refs _ _ _ I i o M). unfold views at 3. cbn [o_named o_kind andb]. unfold pend. cbn [is_block num]. lia.
  - intros b kb N. cbn [add_object objects blocks] in N |- *. rewrite count_app, (i_block _ _ _ I b kb N).
    unfold holds at 3. cbn [o_refs o_kind]. unfold pend. cbn. lia.
  - exact (i_owner _ _ _ I).
  - exact (i_place _ _ _ I).
  - discriminate.
Qed.

Lemma not_self x y s i o : inv x y s -> nth_error (objects s) i = Some o -> views i o = false.
Proof.
  intros I N. unfold views. destruct (o_named o); [|reflexivity]. cbn. pose proof (i_good _ _ _ I i o N) as G.
  destruct (o_kind o) eqn:K; try reflexivity. cbn in *. apply Nat.eqb_neq. intros ->.
  destruct G as [b [off [len G]]]. unfold kinds in G. rewrite (nth_mapped _ _ _ _ N), K in G. discriminate.
Qed.
Lemma view_kind o o' i : compatible (o_kind o) (o_kind o') -> slice_of_view (o_kind o) <> Some i -> views i o' = false.
Proof.
  unfold views. intros [E | [_ [b [p E]]]] D; rewrite E; destruct (o_named o'); try reflexivity. cbn.
  destruct (o_kind o); try reflexivity. cbn in *. apply Nat.eqb_neq. congruence.
Qed.

Lemma with_object_ok x y x' y' s i o o' : inv x y s -> nth_error (objects s) i = Some o ->
  compatible (o_kind o) (o_kind o') -> good (shapes s) (kinds s) (o_kind o') ->
  (forall b, num (holds b o') + pend x' b = num (holds b o) + pend x b) ->
  (forall j, j <> i -> num (views j o') + pend y' j = num (views j o) + pend y j) ->
  o_refs o' + num (o_named o) + pend y i = o_refs o + num (o_named o') + pend y' i ->
  (forall j, y' = Some j -> exists b off len, nth_error (kinds s) j = Some (K_slice b off len)) ->
  inv x' y' (with_object s i o').
Proof.
  intros I N C G HB HV HR HP.
  assert (KS : kinds (with_object s i o') = upd i (o_kind o') (kinds s)) by (unfold kinds, with_object; cbn [objects]; apply map_upd).
  assert (NK : nth_error (kinds s) i = Some (o_kind o)) by (apply nth_mapped; exact N).
  assert (SS : same_slices (kinds s) (upd i (o_kind o') (kinds s))) by (apply (same_slices_upd _ _ (o_kind o)); assumption).
  assert (GM : forall k', good (shapes s) (kinds s) k' -> good (shapes s) (upd i (o_kind o') (kinds s)) k').
  { intros k' G'. apply (good_mono (shapes s) _ (kinds s)); auto. }
  assert (S1 : views i o = false) by exact (not_self _ _ _ _ _ I N).
  assert (S2 : views i o' = false).
  { apply (view_kind o); [exact C|]. intro E. pose proof (i_good _ _ _ I i o N) as G1.
    destruct (o_kind o) eqn:K; try discriminate. cbn in E. injection E as ->. cbn in G1.
    destruct G1 as [b [off [len G1]]]. rewrite NK in G1. discriminate. }
  constructor.
  - intros j p M. change (shapes (with_object s i o')) with (shapes s). rewrite KS. cbn [with_object objects] in M.
    destruct (upd_inv _ _ _ _ _ _ N M) as [[-> ->] | [D M']]; apply GM; [exact G|]. exact (i_good _ _ _ I j p M').
  - intros j p M. cbn [with_object objects] in M |- *.
    pose proof (count_upd (views j) _ i o o' N) as CU.
    destruct (upd_inv _ _ _ _ _ _ N M) as [[-> ->] | [D M']].
    + pose proof (i_refs _ _ _ I i o N) as R. rewrite S1, S2 in CU. lia.
    + pose proof (i_refs _ _ _ I j p M') as R. specialize (HV j D). lia.
  - intros b k M. cbn [with_object objects blocks] in M |- *. pose proof (i_block _ _ _ I b k M) as R.
    pose proof (count_upd (holds b) _ i o o' N) as CU. specialize (HB b). lia.
  - exact (i_owner _ _ _ I).
  - exact (i_place _ _ _ I).
  - intros j E. rewrite KS. apply slice_at_ex. specialize (HP j E). apply slice_at_ex in HP. destruct HP as [t T]. exists t. exact (SS _ _ T).
Qed.

Lemma with_owner_ok x y s i w w' : inv x y s -> nth_error (owners s) i = Some w -> w_exports w' = w_exports w ->
  (0 < w_exports w -> w_moved w' = w_moved w /\ length (w_bytes w') = length (w_bytes w)) ->
  inv x y (with_owner s i w').
Proof.
  intros I W E P. constructor; cbn [with_owner owners blocks objects].
  - exact (i_good _ _ _ I).
  - exact (i_refs _ _ _ I).
  - exact (i_block _ _ _ I).
  - intros j v N. destruct (upd_inv _ _ _ _ _ _ W N) as [[-> ->] | [D M]].
    + rewrite E. exact (i_owner _ _ _ I i w W).
    + exact (i_owner _ _ _ I j v M).
  - intros b k K. destruct (i_place _ _ _ I b k K) as [v [V Q]].
    destruct (Nat.eq_dec (k_owner k) i) as [EQ | NE].
    + rewrite EQ in *. rewrite W in V. injection V as <-. exists w'. split; [exact (upd_same _ _ _ _ W)|].
      intro R. destruct (block_owner _ _ _ b k I K R) as [w1 [W1 [M1 [L1 X1]]]]. rewrite EQ, W in W1. injection W1 as <-.
      destruct (P X1) as [P1 P2]. rewrite P1, P2. auto.
    + exists v. split; [rewrite upd_other by exact NE; exact V|exact Q].
  - exact (i_pend _ _ _ I).
Qed.

Lemma new_owner_ok x y s l fixed : inv x y s ->
  inv x y (mk_state (owners s ++ [mk_owner l fixed true 0 0]) (blocks s) (objects s)).
Proof.
  intro I. constructor; cbn [owners blocks objects].
  - exact (i_good _ _ _ I).
  - exact (i_refs _ _ _ I).
  - exact (i_block _ _ _ I).
  - intros j v N. destruct (app_inv_nth _ _ _ _ N) as [[-> ->] | [_ M]]; [|exact (i_owner _ _ _ I j v M)].
    cbn [w_exports]. destruct (count (uses (length (owners s))) (blocks s)) eqn:C; [reflexivity|].
    destruct (count_pos (uses (length (owners s))) (blocks s)) as [b [k [K U]]]; [lia|].
    unfold uses in U. apply andb_prop in U. destruct U as [_ U]. apply Nat.eqb_eq in U.
    destruct (i_place _ _ _ I b k K) as [w [W _]]. apply nth_some in W. lia.
  - intros b k K. destruct (i_place _ _ _ I b k K) as [w [W Q]]. exists w. split; [|exact Q].
    rewrite nth_error_app1 by exact (nth_some _ _ _ W). exact W.
  - exact (i_pend _ _ _ I).
Qed.

Lemma new_block_ok s i w : inv None None s -> nth_error (owners s) i = Some w ->
  inv (Some (length (blocks s))) None
    (mk_state (upd i (mk_owner (w_bytes w) (w_fixed w) true (S (w_exports w)) (w_moved w)) (owners s))
              (blocks s ++ [mk_block i (w_moved w) (length (w_bytes w)) 1]) (objects s)).
Proof.
  intros I W. set (w' := mk_owner _ _ _ _ _). set (k' := mk_block _ _ _ _).
  assert (SH : forall b p, nth_error (shapes s) b = Some p -> nth_error (map shape (blocks s ++ [k'])) b = Some p).
  { intros b p P. rewrite map_app, nth_error_app1 by exact (nth_some _ _ _ P). exact P. }
  constructor; cbn [owners blocks objects].
  - intros j o N. apply (good_mono (shapes s) _ (kinds s)); [exact SH|intros ? ? X; exact X|exact (i_good _ _ _ I j o N)].
  - exact (i_refs _ _ _ I).
  - intros b k K. destruct (app_inv_nth _ _ _ _ K) as [[-> ->] | [L M]].
    + cbn [k_refs k']. unfold pend. cbn [is_block]. rewrite Nat.eqb_refl. cbn [num].
      destruct (count (holds (length (blocks s))) (objects s)) eqn:C; [reflexivity|].
      destruct (count_pos (holds (length (blocks s))) (objects s)) as [j [o [J H]]]; [lia|].
      unfold holds in H. apply andb_prop in H. destruct H as [H1 H2]. apply Nat.ltb_lt in H1.
      destruct (block_of (o_kind o)) as [b|] eqn:B; [|discriminate]. cbn in H2. apply Nat.eqb_eq in H2. subst b.
      destruct (held _ _ _ _ _ _ I J H1 B) as [k [K1 _]]. apply nth_some in K1. lia.
    + rewrite (i_block _ _ _ I b k M). unfold pend. cbn [is_block].
      replace (length (blocks s) =? b) with false by (symmetry; apply Nat.eqb_neq; lia). reflexivity.
  - intros j v N. rewrite count_app. unfold uses at 2. cbn [k_refs k_owner k' Nat.ltb Nat.leb andb].
    destruct (upd_inv _ _ _ _ _ _ W N) as [[-> ->] | [D M]].
    + cbn [w_exports w']. rewrite Nat.eqb_refl. pose proof (i_owner _ _ _ I i w W). cbn [num]. lia.
    + replace (i =? j) with false by (symmetry; apply Nat.eqb_neq; congruence). rewrite (i_owner _ _ _ I j v M). cbn [num]. lia.
  - intros b k K. destruct (app_inv_nth _ _ _ _ K) as [[-> ->] | [L M]].
    + exists w'. split; [exact (upd_same _ _ _ _ W)|]. intros _. split; reflexivity.
    + destruct (i_place _ _ _ I b k M) as [v [V Q]]. destruct (Nat.eq_dec (k_owner k) i) as [EQ | NE].
      * rewrite EQ in *. rewrite W in V. injection V as <-. exists w'. split; [exact (upd_same _ _ _ _ W)|exact Q].
      * exists v. split; [rewrite upd_other by exact NE; exact V|exact Q].
  - discriminate.
Qed.

(* ---- the program's view ---- *)

Definition role_of (k : kind) : role :=
  match k with K_store _ => R_store | K_stream _ p => R_stream p | K_slice _ _ _ => R_slice | K_view _ => R_view end.
Definition whole (sh : list (nat * nat)) (b : option nat) : option place :=
  match b with
  | Some b => match nth_error sh b with Some (c, n) => Some (c, 0, n) | None => None end
  | None => None
  end.
Definition part (sh : list (nat * nat)) (t : option nat * nat * nat) : option place :=
  match t with
  | (Some b, off, len) => match nth_error sh b with Some (c, n) => Some (c, off, len) | None => None end
  | (None, _, _) => None
  end.
Definition place_of (sh : list (nat * nat)) (ks : list kind) (k : kind) : option place :=
  match k with
  | K_store b => whole sh (Some b)
  | K_stream b _ => whole sh b
  | K_slice b off len => part sh (b, off, len)
  | K_view sl => match slice_at ks sl with Some t => part sh t | None => None end
  end.
Definition thing_of (sh : list (nat * nat)) (ks : list kind) (o : object) : thing :=
  mk_thing (role_of (o_kind o)) (place_of sh ks (o_kind o)) (o_named o).

Definition rel (s : state) (w : world) : Prop :=
  cells w = map cell_of (owners s) /\ things w = map (thing_of (shapes s) (kinds s)) (objects s).

Lemma rel_unseen s s' w : unseen s s' -> rel s w -> rel s' w.
Proof.
  intros [A [B C]] [R1 R2]. split; [congruence|]. unfold kinds. rewrite B, C. exact R2.
Qed.
Lemma place_mono sh sh' ks ks' k : (forall b p, nth_error sh b = Some p -> nth_error sh' b = Some p) -> same_slices ks ks' ->
  (forall t b, slice_at ks t = Some b -> good sh ks (K_slice (fst (fst b)) (snd (fst b)) (snd b))) ->
  good sh ks k -> place_of sh' ks' k = place_of sh ks k.
Proof.
  intros H S T. destruct k as [b|[b|] pos|[b|] off len|sl]; cbn [place_of whole part good]; auto.
  - intros [p P]. rewrite P, (H _ _ P). reflexivity.
  - intros [p [P _]]. rewrite P, (H _ _ P). reflexivity.
  - intros [p [P _]]. rewrite P, (H _ _ P). reflexivity.
  - intro E. apply slice_at_ex in E. destruct E as [[[b off] len] E]. rewrite E, (S _ _ E). specialize (T _ _ E). cbn [fst snd good] in T.
    destruct b as [b|]; [|reflexivity]. destruct T as [p [P _]]. cbn [part]. rewrite P, (H _ _ P). reflexivity.
Qed.
Lemma slice_good x y s t b : inv x y s -> slice_at (kinds s) t = Some b ->
  good (shapes s) (kinds s) (K_slice (fst (fst b)) (snd (fst b)) (snd b)).
Proof.
  intros I E. unfold slice_at, kinds in E. rewrite nth_error_map in E.
  destruct (nth_error (objects s) t) as [o|] eqn:N; [|discriminate]. cbn in E.
  pose proof (i_good _ _ _ I t o N) as G. destruct (o_kind o); try discriminate. injection E as <-. exact G.
Qed.

Lemma thing_mono x y s sh' ks' o i : inv x y s -> nth_error (objects s) i = Some o ->
  (forall b p, nth_error (shapes s) b = Some p -> nth_error sh' b = Some p) -> same_slices (kinds s) ks' ->
  thing_of sh' ks' o = thing_of (shapes s) (kinds s) o.
Proof.
  intros I N H S. unfold thing_of. f_equal. apply place_mono; auto.
  - intros t b. apply (slice_good x y). exact I.
  - exact (i_good _ _ _ I i o N).
Qed.
Lemma map_mono x y s sh' ks' : inv x y s ->
  (forall b p, nth_error (shapes s) b = Some p -> nth_error sh' b = Some p) -> same_slices (kinds s) ks' ->
  map (thing_of sh' ks') (objects s) = map (thing_of (shapes s) (kinds s)) (objects s).
Proof.
  intros I H S. apply map_ext_in. intros o O. apply In_nth_error in O. destruct O as [i N]. exact (thing_mono x y s _ _ o i I N H S).
Qed.

Lemma rel_with_object x y s w i o o' : inv x y s -> rel s w -> nth_error (objects s) i = Some o ->
  compatible (o_kind o) (o_kind o') ->
  rel (with_object s i o') (become w i (role_of (o_kind o')) (place_of (shapes s) (kinds s) (o_kind o')) (o_named o')).
Proof.
  intros I [R1 R2] N C.
  assert (KS : kinds (with_object s i o') = upd i (o_kind o') (kinds s)) by (unfold kinds, with_object; cbn [objects]; apply map_upd).
  assert (NK : nth_error (kinds s) i = Some (o_kind o)) by (apply nth_mapped; exact N).
  assert (SS : same_slices (kinds s) (upd i (o_kind o') (kinds s))) by (apply (same_slices_upd _ _ (o_kind o)); assumption).
  split; [exact R1|]. cbn [become things]. change (shapes (with_object s i o')) with (shapes s). rewrite KS.
  cbn [with_object objects]. rewrite map_upd, R2, (map_mono x y s (shapes s) (upd i (o_kind o') (kinds s)) I) by auto.
  f_equal. unfold thing_of. f_equal.
  destruct (o_kind o') as [b|b p|b off len|sl] eqn:K'; try reflexivity.
  cbn [place_of]. destruct C as [E | [_ [b [p E]]]]; [|discriminate]. 
  pose proof (i_good _ _ _ I i o N) as G. rewrite <- E in G. cbn in G. apply slice_at_ex in G. destruct G as [t G].
  rewrite G, (SS _ _ G). reflexivity.
Qed.

Lemma rel_add x y s w k : inv x y s -> rel s w -> good (shapes s) (kinds s) k ->
  rel (add_object s k) (add w (role_of k) (place_of (shapes s) (kinds s) k)).
Proof.
  intros I [R1 R2] G.
  assert (KS : kinds (add_object s k) = kinds s ++ [k]) by (unfold kinds, add_object; cbn [objects]; apply map_app).
  split; [exact R1|]. cbn [add things]. change (shapes (add_object s k)) with (shapes s). rewrite KS.
  cbn [add_object objects]. rewrite map_app, R2, (map_mono x y s (shapes s) (kinds s ++ [k]) I) by (auto; apply same_slices_app).
  f_equal. cbn [map]. f_equal. unfold thing_of. cbn [o_kind o_named]. f_equal. symmetry. apply place_mono; auto.
  - apply same_slices_app.
  - intros t b. apply (slice_good x y). exact I.
Qed.
