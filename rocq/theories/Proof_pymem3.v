(* Buffers: every step of the program does what the reference semantics says. *)
From Verif Require Import Common Model_pymem Spec_pymem Proof_pymem Proof_pymem2.
From Coq Require Import Lia.
Import List.
Local Open Scope nat_scope.

(* ---- looking things up ---- *)

Lemma the_cell_rel s w i : rel s w -> the_cell w i = option_map cell_of (named_owner s i).
Proof.
  intros [R _]. unfold the_cell, named_owner. rewrite R, nth_error_map.
  destruct (nth_error (owners s) i) as [o|]; [|reflexivity]. cbn. destruct (w_named o); reflexivity.
Qed.
Lemma the_thing_rel s w i : rel s w ->
  the_thing w i = option_map (fun k => (role_of k, place_of (shapes s) (kinds s) k)) (named_object s i).
Proof.
  intros [_ R]. unfold the_thing, named_object. rewrite R, nth_error_map.
  destruct (nth_error (objects s) i) as [o|]; [|reflexivity]. cbn. destruct (o_named o); reflexivity.
Qed.
Lemma named_owner_inv s i w : named_owner s i = Some w -> nth_error (owners s) i = Some w /\ w_named w = true.
Proof.
  unfold named_owner. destruct (nth_error (owners s) i) as [o|]; [|discriminate].
  destruct (w_named o) eqn:E; [|discriminate]. intro H. injection H as <-. auto.
Qed.
Lemma named_object_inv s i k : named_object s i = Some k ->
  exists o, nth_error (objects s) i = Some o /\ o_named o = true /\ o_kind o = k.
Proof.
  unfold named_object. destruct (nth_error (objects s) i) as [o|]; [|discriminate].
  destruct (o_named o) eqn:E; [|discriminate]. intro H. injection H as <-. eauto.
Qed.
Lemma simple_object x s i k : inv x None s -> named_object s i = Some k -> (forall b off len, k <> K_slice b off len) ->
  nth_error (objects s) i = Some (mk_object k true 1).
Proof.
  intros I N D. destruct (named_object_inv _ _ _ N) as [o [O [M K]]].
  pose proof (i_refs _ _ _ I i o O) as R. destruct (views_slice _ _ _ i o I O) as [V1 V2]; [rewrite K; exact D|].
  rewrite V1, V2, M in R. cbn in R. destruct o as [k0 n0 r0]. cbn in *. subst. exact O.
Qed.

Record lives (s : state) (b : nat) (k : block) (w : owner) : Prop := mk_lives {
  l_block : nth_error (blocks s) b = Some k;
  l_refs : 0 < k_refs k;
  l_owner : nth_error (owners s) (k_owner k) = Some w;
  l_len : length (w_bytes w) = k_len k;
  l_exports : 0 < w_exports w;
  l_get : owner_of s b = Ok (k_owner k, w);
  l_source : source_len s b = Ok (k_len k);
  l_shape : nth_error (shapes s) b = Some (k_owner k, k_len k)
}.
Lemma lives_of x y s i o b : inv x y s -> nth_error (objects s) i = Some o -> 0 < o_refs o -> block_of (o_kind o) = Some b ->
  exists k w, lives s b k w.
Proof.
  intros I N R B. destruct (held _ _ _ _ _ _ I N R B) as [k [K KR]].
  destruct (block_owner _ _ _ _ _ I K KR) as [w [W [M [L E]]]]. exists k, w.
  assert (Z : (k_refs k =? 0) = false) by (apply Nat.eqb_neq; lia).
  constructor; auto.
  - unfold owner_of. rewrite K, Z, W, M, Nat.eqb_refl. unfold alive.
    replace (0 <? w_exports w) with true by (symmetry; apply Nat.ltb_lt; lia). rewrite orb_true_r. reflexivity.
  - unfold source_len. rewrite K, Z. reflexivity.
  - unfold shapes. rewrite (nth_mapped _ _ _ _ K). reflexivity.
Qed.
Lemma lives_named x y s i k b : inv x y s -> named_object s i = Some k -> block_of k = Some b -> exists kb w, lives s b kb w.
Proof.
  intros I N B. destruct (named_object_inv _ _ _ N) as [o [O [M K]]].
  apply (lives_of x y s i o b I O); [exact (named_refs _ _ _ _ _ I O M)|rewrite K; exact B].
Qed.
Lemma lives_load s b k w off len : lives s b k w -> off + len <= k_len k -> load s b off len = Ok (firstn len (skipn off (w_bytes w))).
Proof.
  intros L H. unfold load. rewrite (l_get _ _ _ _ L). cbn. rewrite (l_len _ _ _ _ L).
  destruct (Nat.leb_spec (off + len) (k_len k)); [reflexivity|lia].
Qed.

(* The slice of a view. *)
Lemma view_slice s v sl : inv None None s -> named_object s v = Some (K_view sl) ->
  exists o b off len, nth_error (objects s) sl = Some o /\ o_kind o = K_slice b off len /\ 0 < o_refs o /\
    slice_of s sl = Ok (b, off, len) /\ slice_at (kinds s) sl = Some (b, off, len).
Proof.
  intros I N. destruct (named_object_inv _ _ _ N) as [u [U [M K]]].
  pose proof (i_good _ _ _ I v u U) as G. rewrite K in G. cbn in G. destruct G as [b [off [len G]]].
  pose proof G as G'. unfold kinds in G. rewrite nth_error_map in G. destruct (nth_error (objects s) sl) as [o|] eqn:O; [|discriminate].
  cbn in G. injection G as G. exists o, b, off, len. split; [reflexivity|]. split; [exact G|].
  assert (R : 0 < o_refs o).
  { rewrite (i_refs _ _ _ I sl o O). assert (V : views sl u = true) by (unfold views; rewrite M, K; cbn; apply Nat.eqb_refl).
    pose proof (count_in (views sl) _ v u U V). lia. }
  split; [exact R|]. split.
  - unfold slice_of. rewrite O. destruct o as [k0 n0 r0]. cbn in *. subst k0. destruct r0; [lia|reflexivity].
  - unfold slice_at. rewrite G'. reflexivity.
Qed.

(* ---- memory ---- *)

Lemma patch_length l i d : i + length d <= length l -> length (patch l i d) = length l.
Proof. intro H. unfold patch. rewrite !app_length, firstn_length, skipn_length. lia. Qed.

Lemma store_ok x y s w i o off d : inv x y s -> rel s w -> nth_error (owners s) i = Some o -> off + length d <= length (w_bytes o) ->
  exists s', store_bytes s i o off d = Ok s' /\ inv x y s' /\ rel s' (write w i off d) /\ objects s' = objects s /\ blocks s' = blocks s.
Proof.
  intros I R O L. unfold store_bytes. destruct (Nat.leb_spec (off + length d) (length (w_bytes o))); [|lia].
  eexists. split; [reflexivity|]. split; [|split; [|split; reflexivity]].
  - apply (with_owner_ok x y s i o); auto. intros _. split; [reflexivity|]. cbn [w_bytes]. apply patch_length. lia.
  - destruct R as [R1 R2]. unfold write. rewrite R1, (nth_mapped _ _ _ _ O). split; [|exact R2]. cbn [cells with_owner owners].
    rewrite map_upd. reflexivity.
Qed.

(* ---- who uses a buffer ---- *)

Lemma used_rel s w i : inv None None s -> rel s w -> used w i = (0 <? count (uses i) (blocks s)).
Proof.
  intros I [_ R]. unfold used. rewrite R. apply Bool.eq_iff_eq_true. rewrite existsb_exists, Nat.ltb_lt. split.
  - intros [t [T S]]. apply in_map_iff in T. destruct T as [o [<- T]]. apply In_nth_error in T. destruct T as [j J].
    unfold shows in S. apply andb_prop in S. destruct S as [M S]. cbn [thing_of t_named t_place] in M, S.
    assert (X : exists j o b, nth_error (objects s) j = Some o /\ 0 < o_refs o /\ block_of (o_kind o) = Some b /\
                option_map fst (nth_error (shapes s) b) = Some i).
    { destruct (o_kind o) as [b|[b|] pos|[b|] off len|sl] eqn:K; cbn [place_of whole part] in S; try discriminate.
      - exists j, o, b. destruct (nth_error (shapes s) b) as [[c n]|]; [|discriminate]. apply Nat.eqb_eq in S. subst c.
        split; [exact J|]. split; [exact (named_refs _ _ _ _ _ I J M)|]. rewrite K. auto.
      - exists j, o, b. destruct (nth_error (shapes s) b) as [[c n]|]; [|discriminate]. apply Nat.eqb_eq in S. subst c.
        split; [exact J|]. split; [exact (named_refs _ _ _ _ _ I J M)|]. rewrite K. auto.
      - exists j, o, b. destruct (nth_error (shapes s) b) as [[c n]|]; [|discriminate]. apply Nat.eqb_eq in S. subst c.
        split; [exact J|]. split; [exact (named_refs _ _ _ _ _ I J M)|]. rewrite K. auto.
      - assert (N : named_object s j = Some (K_view sl)) by (unfold named_object; rewrite J, M, K; reflexivity).
        destruct (view_slice s j sl I N) as [u [b [off [len [U [UK [UR [_ SA]]]]]]]]. rewrite SA in S.
        destruct b as [b|]; [|discriminate]. cbn [part] in S. exists sl, u, b. destruct (nth_error (shapes s) b) as [[c n]|]; [|discriminate].
        apply Nat.eqb_eq in S. subst c. rewrite UK. auto. }
    destruct X as [j' [o' [b [J' [R' [B' S']]]]]]. destruct (lives_of _ _ _ _ _ _ I J' R' B') as [k [ow L]].
    rewrite (l_shape _ _ _ _ L) in S'. cbn in S'. injection S' as <-.
    apply (count_in (uses (k_owner k)) _ b k (l_block _ _ _ _ L)). unfold uses. rewrite Nat.eqb_refl.
    replace (0 <? k_refs k) with true by (symmetry; apply Nat.ltb_lt; exact (l_refs _ _ _ _ L)). reflexivity.
  - intro C. destruct (count_pos _ _ C) as [b [k [K U]]]. unfold uses in U. apply andb_prop in U. destruct U as [U1 U2].
    apply Nat.ltb_lt in U1. apply Nat.eqb_eq in U2. subst i.
    pose proof (i_block _ _ _ I b k K) as KR. unfold pend in KR. cbn in KR.
    destruct (count_pos (holds b) (objects s)) as [j [o [J H]]]; [lia|].
    unfold holds in H. apply andb_prop in H. destruct H as [H1 H2]. apply Nat.ltb_lt in H1.
    destruct (block_of (o_kind o)) as [b'|] eqn:B; [|discriminate]. cbn in H2. apply Nat.eqb_eq in H2. subst b'.
    assert (SH : nth_error (shapes s) b = Some (k_owner k, k_len k)) by (unfold shapes; rewrite (nth_mapped _ _ _ _ K); reflexivity).
    assert (PL : exists off len, place_of (shapes s) (kinds s) (o_kind o) = Some (k_owner k, off, len)).
    { destruct (o_kind o) as [b'|[b'|] pos|[b'|] off len|sl]; cbn in B; try discriminate; injection B as ->; cbn [place_of whole part]; rewrite SH; eauto. }
    destruct PL as [off [len PL]].
    pose proof (i_refs _ _ _ I j o J) as OR. unfold pend in OR. cbn in OR. destruct (o_named o) eqn:M.
    + exists (thing_of (shapes s) (kinds s) o). split; [apply in_map; exact (nth_error_In _ _ J)|].
      unfold shows, thing_of. cbn [t_named t_place]. rewrite M, PL, Nat.eqb_refl. reflexivity.
    + cbn [num] in OR. destruct (count_pos (views j) (objects s)) as [v [u [V VU]]]; [lia|].
      unfold views in VU. apply andb_prop in VU. destruct VU as [VM VU].
      destruct (o_kind u) as [| | |sl] eqn:UK; try discriminate. cbn in VU. apply Nat.eqb_eq in VU. subst sl.
      exists (thing_of (shapes s) (kinds s) u). split; [apply in_map; exact (nth_error_In _ _ V)|].
      unfold shows, thing_of. cbn [t_named t_place]. rewrite VM, UK. cbn [place_of].
      pose proof (i_good _ _ _ I v u V) as G. rewrite UK in G. cbn in G. destruct G as [b1 [off1 [len1 G]]].
      pose proof G as G'. unfold kinds in G'. rewrite (nth_mapped _ _ _ _ J) in G'. injection G' as G'. unfold slice_at. rewrite G.
      rewrite G' in PL. cbn [place_of] in PL. rewrite PL, Nat.eqb_refl. reflexivity.
Qed.

(* ---- the steps ---- *)

Definition goal (strict : bool) (s : state) (w : world) (a : op) : Prop :=
  if strict && overlaps w a then step strict s a = UB
  else exists s', step strict s a = Ok (s', snd (expect w a)) /\ inv None None s' /\ rel s' (fst (expect w a)).

Ltac same s := eexists; split; [reflexivity|split; assumption].

Lemma no_clash strict s w a : overlaps w a = false ->
  (exists s', step strict s a = Ok (s', snd (expect w a)) /\ inv None None s' /\ rel s' (fst (expect w a))) -> goal strict s w a.
Proof. intros O H. unfold goal. rewrite O, andb_false_r. exact H. Qed.

Lemma step_new strict s w fixed l : inv None None s -> rel s w -> goal strict s w (New_owner fixed l).
Proof.
  intros I [R1 R2]. apply no_clash; [reflexivity|]. eexists. split; [reflexivity|]. split; [apply new_owner_ok; exact I|].
  split; [|exact R2]. cbn [expect fst cells owners]. rewrite map_app, R1. reflexivity.
Qed.
Lemma step_del_owner strict s w i : inv None None s -> rel s w -> goal strict s w (Del_owner i).
Proof.
  intros I R. apply no_clash; [reflexivity|]. cbn [step expect]. rewrite (the_cell_rel s w i R).
  destruct (named_owner s i) as [o|] eqn:N; cbn [option_map]; [|same s].
  destruct (named_owner_inv _ _ _ N) as [O M]. eexists. split; [reflexivity|]. split.
  - apply (with_owner_ok _ _ _ _ o); auto.
  - destruct R as [R1 R2]. split; [|exact R2]. cbn [fst cells with_owner owners]. rewrite map_upd, R1. reflexivity.
Qed.
Lemma step_value strict s w i : inv None None s -> rel s w -> goal strict s w (Value i).
Proof.
  intros I R. apply no_clash; [reflexivity|]. cbn [step expect]. rewrite (the_cell_rel s w i R).
  destruct (named_owner s i) as [o|] eqn:N; cbn [option_map]; same s.
Qed.
Lemma step_put strict s w i j v : inv None None s -> rel s w -> goal strict s w (Put i j v).
Proof.
  intros I R. apply no_clash; [reflexivity|]. cbn [step expect]. unfold do_put. rewrite (the_cell_rel s w i R).
  destruct (named_owner s i) as [o|] eqn:N; cbn [option_map cell_of c_fixed c_bytes]; [|same s].
  destruct (w_fixed o || (length (w_bytes o) <=? j)) eqn:F; [same s|].
  apply orb_false_elim in F. destruct F as [F1 F2]. apply Nat.leb_gt in F2.
  destruct (named_owner_inv _ _ _ N) as [O M].
  destruct (store_ok _ _ s w i o j [v] I R O) as [s' [E [I' [R' _]]]]; [cbn; lia|].
  rewrite E. cbn. exists s'. auto.
Qed.
Lemma step_resize strict s w i l : inv None None s -> rel s w -> goal strict s w (Resize i l).
Proof.
  intros I R. apply no_clash; [reflexivity|]. cbn [step expect]. unfold do_resize. rewrite (the_cell_rel s w i R).
  destruct (named_owner s i) as [o|] eqn:N; cbn [option_map cell_of c_fixed c_bytes]; [|same s].
  destruct (named_owner_inv _ _ _ N) as [O M]. rewrite (used_rel s w i I R), <- (i_owner _ _ _ I i o O).
  destruct (w_fixed o || (0 <? w_exports o)) eqn:F; [same s|].
  apply orb_false_elim in F. destruct F as [F1 F2]. apply Nat.ltb_ge in F2.
  eexists. split; [reflexivity|]. split.
  - apply (with_owner_ok _ _ _ _ o); auto; [cbn; lia|]. lia.
  - destruct R as [R1 R2]. split; [|exact R2]. cbn [fst cells with_owner owners]. rewrite map_upd, R1. reflexivity.
Qed.
Lemma step_store strict s w i : inv None None s -> rel s w -> goal strict s w (New_store i).
Proof.
  intros I R. apply no_clash; [reflexivity|]. cbn [step expect]. unfold do_store. rewrite (the_cell_rel s w i R).
  destruct (named_owner s i) as [o|] eqn:N; cbn [option_map cell_of c_fixed c_bytes]; [|same s].
  destruct (named_owner_inv _ _ _ N) as [O M]. cbv zeta. cbn [with_owner owners blocks objects].
  pose proof (new_block_ok s i o I O) as I1.
  set (s1 := mk_state _ _ _) in I1 |- *.
  assert (SH : shapes s1 = shapes s ++ [(i, length (w_bytes o))]) by (unfold shapes, s1; cbn [blocks]; rewrite map_app; reflexivity).
  assert (NS : nth_error (shapes s1) (length (blocks s)) = Some (i, length (w_bytes o))).
  { rewrite SH. replace (length (blocks s)) with (length (shapes s)) by apply map_length. apply nth_last. }
  assert (G : good (shapes s1) (kinds s1) (K_store (length (blocks s)))) by (cbn [good]; eauto).
  eexists. split; [reflexivity|]. split; [apply add_object_ok; [exact I1|exact G]|].
  assert (R1 : rel s1 w).
  { destruct R as [Ra Rb]. split.
    - unfold s1. cbn [owners]. rewrite map_upd, Ra. symmetry. apply upd_id. rewrite (nth_mapped _ _ _ _ O).
      unfold cell_of. cbn. rewrite M. reflexivity.
    - rewrite Rb. symmetry. apply (map_mono None None s); [exact I| |intros ? ? X; exact X].
      intros b p P. rewrite SH, nth_error_app1 by exact (nth_some _ _ _ P). exact P. }
  pose proof (rel_add _ _ s1 w _ I1 R1 G) as R2. cbn [role_of place_of whole] in R2. rewrite NS in R2. exact R2.
Qed.
Lemma unseen_eq s s' : unseen s s' -> shapes s' = shapes s /\ kinds s' = kinds s /\ objects s' = objects s.
Proof. intros [_ [A B]]. split; [exact A|]. split; [unfold kinds; rewrite B; reflexivity|exact B]. Qed.

Lemma step_open strict s w i : inv None None s -> rel s w -> goal strict s w (Open i).
Proof.
  intros I R. apply no_clash; [reflexivity|]. cbn [step expect]. unfold do_open. rewrite (the_thing_rel s w i R).
  destruct (named_object s i) as [[b|src pos|sb off len|sl]|] eqn:N; cbn [option_map role_of]; try same s.
  destruct (lives_named _ _ _ _ _ _ I N eq_refl) as [k [o L]].
  destruct (hold_ok None s b k I (l_block _ _ _ _ L) (l_refs _ _ _ _ L)) as [s1 [E [I1 U]]]. rewrite E. cbn [bind].
  destruct (unseen_eq _ _ U) as [SH [KS OS]].
  assert (G : good (shapes s1) (kinds s1) (K_stream (Some b) 0)).
  { cbn [good]. rewrite SH, (l_shape _ _ _ _ L). eexists. split; [reflexivity|lia]. }
  eexists. split; [reflexivity|]. split; [apply add_object_ok; [exact I1|exact G]|].
  pose proof (rel_add _ _ s1 w _ I1 (rel_unseen _ _ _ U R) G) as R2. rewrite SH, KS in R2. exact R2.
Qed.

Ltac stream_compat := right; split; [eexists; eexists; reflexivity|eexists; eexists; reflexivity].

(* A stream moves. *)
Lemma move_ok x s w i b pos pos' c n : inv x None s -> rel s w -> nth_error (objects s) i = Some (mk_object (K_stream (Some b) pos) true 1) ->
  nth_error (shapes s) b = Some (c, n) -> pos' <= n ->
  inv x None (with_object s i (mk_object (K_stream (Some b) pos') true 1)) /\
  rel (with_object s i (mk_object (K_stream (Some b) pos') true 1)) (become w i (R_stream pos') (Some (c, 0, n)) true).
Proof.
  intros I R O S L. split.
  - apply (with_object_ok x None x None s i _ _ I O); cbn [o_kind o_named o_refs].
    + stream_compat.
    + cbn [good]. rewrite S. eexists. split; [reflexivity|exact L].
    + intro b'. reflexivity.
    + intros j _. reflexivity.
    + reflexivity.
    + discriminate.
  - pose proof (rel_with_object x None s w i _ (mk_object (K_stream (Some b) pos') true 1) I R O ltac:(stream_compat)) as R'.
    cbn [o_kind o_named role_of place_of whole] in R'. rewrite S in R'. exact R'.
Qed.

Lemma step_read strict s w i n : inv None None s -> rel s w -> goal strict s w (Read i n).
Proof.
  intros I R. apply no_clash; [reflexivity|]. cbn [step expect]. unfold do_read. rewrite (the_thing_rel s w i R).
  destruct (named_object s i) as [[b|[b|] pos|sb off len|sl]|] eqn:N; cbn [option_map role_of place_of whole]; try same s.
  destruct (lives_named _ _ _ _ _ _ I N eq_refl) as [k [o L]]. rewrite (l_shape _ _ _ _ L). cbv zeta.
  destruct (n =? 0) eqn:Z.
  - eexists. split; [reflexivity|]. split; [apply add_object_ok; [exact I|exact Logic.I]|].
    exact (rel_add _ _ s w (K_slice None 0 0) I R Logic.I).
  - rewrite (l_source _ _ _ _ L). cbn [bind].
    destruct (hold_ok None s b k I (l_block _ _ _ _ L) (l_refs _ _ _ _ L)) as [s1 [E [I1 U]]]. rewrite E. cbn [bind].
    destruct (unseen_eq _ _ U) as [SH [KS OS]].
    assert (O : nth_error (objects s) i = Some (mk_object (K_stream (Some b) pos) true 1)) by (apply (simple_object None); [exact I|exact N|discriminate]).
    pose proof (i_good _ _ _ I i _ O) as G. cbn [good o_kind] in G. rewrite (l_shape _ _ _ _ L) in G. destruct G as [p [P PL]].
    injection P as <-. cbn [snd] in PL.
    set (last := Nat.min (pos + n) (k_len k)).
    assert (LL : last <= k_len k) by (unfold last; lia). assert (LP : pos <= last) by (unfold last; lia).
    destruct (move_ok (Some b) s1 w i b pos last (k_owner k) (k_len k) I1 (rel_unseen _ _ _ U R)) as [I2 R2];
      [rewrite OS; exact O|rewrite SH; exact (l_shape _ _ _ _ L)|exact LL|].
    set (s2 := with_object s1 i _) in I2, R2 |- *.
    assert (G2 : good (shapes s2) (kinds s2) (K_slice (Some b) pos (last - pos))).
    { cbn [good]. change (shapes s2) with (shapes s1). rewrite SH, (l_shape _ _ _ _ L). eexists. split; [reflexivity|]. cbn [snd]. lia. }
    eexists. split; [reflexivity|]. split; [apply add_object_ok; [exact I2|exact G2]|].
    pose proof (rel_add _ _ s2 _ _ I2 R2 G2) as R3. cbn [role_of place_of part] in R3.
    change (shapes s2) with (shapes s1) in R3. rewrite SH, (l_shape _ _ _ _ L) in R3. exact R3.
Qed.
Lemma step_seek strict s w i n : inv None None s -> rel s w -> goal strict s w (Seek i n).
Proof.
  intros I R. apply no_clash; [reflexivity|]. cbn [step expect]. unfold do_seek. rewrite (the_thing_rel s w i R).
  destruct (named_object s i) as [[b|[b|] pos|sb off len|sl]|] eqn:N; cbn [option_map role_of place_of whole]; try same s.
  destruct (lives_named _ _ _ _ _ _ I N eq_refl) as [k [o L]]. rewrite (l_shape _ _ _ _ L), (l_source _ _ _ _ L). cbn [bind].
  assert (O : nth_error (objects s) i = Some (mk_object (K_stream (Some b) pos) true 1)) by (apply (simple_object None); [exact I|exact N|discriminate]).
  destruct (move_ok None s w i b pos (Nat.min n (k_len k)) (k_owner k) (k_len k) I R O (l_shape _ _ _ _ L)) as [I2 R2]; [lia|].
  eexists. split; [reflexivity|]. split; [exact I2|exact R2].
Qed.

Lemma pend_some b j : pend (Some b) j = num (b =? j).
Proof. reflexivity. Qed.

Lemma step_close strict s w i : inv None None s -> rel s w -> goal strict s w (Close i).
Proof.
  intros I R. apply no_clash; [reflexivity|]. cbn [step expect]. unfold do_close. rewrite (the_thing_rel s w i R).
  destruct (named_object s i) as [[b|src pos|sb off len|sl]|] eqn:N; cbn [option_map role_of place_of]; try same s.
  assert (O : nth_error (objects s) i = Some (mk_object (K_stream src pos) true 1)) by (apply (simple_object None); [exact I|exact N|discriminate]).
  set (s1 := with_object s i (mk_object (K_stream None pos) true 1)).
  assert (R1 : rel s1 (become w i (R_stream pos) None true)).
  { pose proof (rel_with_object _ _ s w i _ (mk_object (K_stream None pos) true 1) I R O ltac:(stream_compat)) as R'. exact R'. }
  assert (I1 : inv src None s1).
  { apply (with_object_ok None None src None s i _ _ I O); cbn [o_kind o_named o_refs].
    - stream_compat.
    - exact Logic.I.
    - intro b. unfold holds, pend. cbn. lia.
    - intros j _. reflexivity.
    - reflexivity.
    - discriminate. }
  destruct src as [b|]; cbn [release_opt].
  - destruct (lives_named _ _ _ _ _ _ I N eq_refl) as [k [o L]].
    destruct (release_ok None s1 b I1) as [s2 [E [I2 U]]]; [exists (k_owner k, k_len k); exact (l_shape _ _ _ _ L)|].
    rewrite E. cbn [bind]. eexists. split; [reflexivity|]. split; [exact I2|exact (rel_unseen _ _ _ U R1)].
  - cbn [bind]. eexists. split; [reflexivity|]. split; [exact I1|exact R1].
Qed.

Lemma become_id w i t : nth_error (things w) i = Some t -> become w i (t_role t) (t_place t) (t_named t) = w.
Proof. intro N. unfold become. destruct w as [c l], t as [r p n]. cbn in *. f_equal. apply upd_id. exact N. Qed.

Lemma rel_thing s w i o : rel s w -> nth_error (objects s) i = Some o -> nth_error (things w) i = Some (thing_of (shapes s) (kinds s) o).
Proof. intros [_ R] N. rewrite R. apply nth_mapped. exact N. Qed.

Lemma step_view strict s w i : inv None None s -> rel s w -> goal strict s w (View i).
Proof.
  intros I R. apply no_clash; [reflexivity|]. cbn [step expect]. unfold do_view. rewrite (the_thing_rel s w i R).
  unfold named_object. destruct (nth_error (objects s) i) as [[k m n]|] eqn:O; cbn [o_named o_kind]; [|same s].
  destruct m; [|destruct k; same s]. destruct k as [b|src pos|b off len|sl]; cbn [option_map role_of]; try same s.
  assert (SL : exists b0 off0 len0, nth_error (kinds s) i = Some (K_slice b0 off0 len0)).
  { exists b, off, len. unfold kinds. rewrite (nth_mapped _ _ _ _ O). reflexivity. }
  set (o' := mk_object (K_slice b off len) true (S n)). set (s1 := with_object s i o').
  pose proof (named_refs _ _ _ _ _ I O eq_refl) as RN. cbn in RN.
  assert (I1 : inv None (Some i) s1).
  { apply (with_object_ok None None None (Some i) s i _ o' I O); cbn [o_kind o_named o_refs o'].
    - left. reflexivity.
    - exact (i_good _ _ _ I i _ O).
    - intro b'. unfold holds. cbn [o_refs o_kind o']. replace (0 <? n) with true by (symmetry; apply Nat.ltb_lt; exact RN). reflexivity.
    - intros j D. unfold views, o'. cbn [o_named o_kind slice_of_view is_block andb num]. rewrite pend_some.
      replace (i =? j) with false by (symmetry; apply Nat.eqb_neq; congruence). reflexivity.
    - rewrite pend_some, Nat.eqb_refl. unfold pend. cbn. lia.
    - intros j E. injection E as <-. exact SL. }
  assert (R1 : rel s1 w).
  { pose proof (rel_with_object _ _ s w i _ o' I R O ltac:(left; reflexivity)) as R'.
    pose proof (become_id w i _ (rel_thing s w i _ R O)) as B. cbn [thing_of t_role t_place t_named o_kind o_named] in B.
    cbn [o_kind o_named o'] in R'. rewrite B in R'. exact R'. }
  assert (KS : kinds s1 = kinds s).
  { unfold kinds, s1. cbn [with_object objects]. rewrite map_upd. apply upd_id. rewrite (nth_mapped _ _ _ _ O). reflexivity. }
  assert (G : good (shapes s1) (kinds s1) (K_view i)) by (cbn [good]; rewrite KS; exact SL).
  eexists. split; [reflexivity|]. split; [apply add_object_ok; [exact I1|exact G]|].
  pose proof (rel_add _ _ s1 w _ I1 R1 G) as R2. cbn [role_of place_of] in R2. rewrite KS in R2.
  unfold slice_at, kinds in R2. rewrite (nth_mapped _ _ _ _ O) in R2. exact R2.
Qed.

(* A view's memory. *)
Lemma view_lives s v sl : inv None None s -> named_object s v = Some (K_view sl) ->
  exists b off len, slice_of s sl = Ok (b, off, len) /\ slice_at (kinds s) sl = Some (b, off, len) /\
    (forall b', b = Some b' -> exists k o, lives s b' k o /\ off + len <= k_len k).
Proof.
  intros I N. destruct (view_slice s v sl I N) as [o [b [off [len [O [K [R [SO SA]]]]]]]].
  exists b, off, len. split; [exact SO|]. split; [exact SA|]. intros b' ->.
  destruct (lives_of _ _ _ sl o b' I O R) as [k [ow L]]; [rewrite K; reflexivity|]. exists k, ow. split; [exact L|].
  pose proof (i_good _ _ _ I sl o O) as G. rewrite K in G. cbn [good] in G. destruct G as [p [P LE]].
  rewrite (l_shape _ _ _ _ L) in P. injection P as <-. exact LE.
Qed.

Lemma content_rel s w i o : rel s w -> nth_error (owners s) i = Some o -> content w i = w_bytes o.
Proof. intros [R _] N. unfold content. rewrite R, (nth_mapped _ _ _ _ N). reflexivity. Qed.

Lemma step_look strict s w v : inv None None s -> rel s w -> goal strict s w (Look v).
Proof.
  intros I R. apply no_clash; [reflexivity|]. cbn [step expect]. unfold do_look. rewrite (the_thing_rel s w v R).
  destruct (named_object s v) as [[b|src pos|b off len|sl]|] eqn:N; cbn [option_map role_of place_of]; try same s.
  destruct (view_lives s v sl I N) as [b [off [len [SO [SA V]]]]]. rewrite SO, SA. cbn [bind part].
  destruct b as [b|]; [|same s]. destruct (V b eq_refl) as [k [o [L LE]]].
  rewrite (lives_load _ _ _ _ _ _ L LE), (l_shape _ _ _ _ L). cbn [bind at_place].
  rewrite (content_rel s w _ _ R (l_owner _ _ _ _ L)). same s.
Qed.
Lemma step_set strict s w v j x : inv None None s -> rel s w -> goal strict s w (Set_view v j x).
Proof.
  intros I R. apply no_clash; [reflexivity|]. cbn [step expect]. unfold do_set. rewrite (the_thing_rel s w v R).
  destruct (named_object s v) as [[b|src pos|b off len|sl]|] eqn:N; cbn [option_map role_of place_of]; try same s.
  destruct (view_lives s v sl I N) as [b [off [len [SO [SA V]]]]]. rewrite SO, SA. cbn [bind part].
  destruct b as [b|]; [|same s]. destruct (V b eq_refl) as [k [o [L LE]]]. rewrite (l_shape _ _ _ _ L).
  destruct (Nat.ltb_spec j len) as [J | J]; [|same s].
  rewrite (l_get _ _ _ _ L). cbn [bind fst snd].
  destruct (store_ok _ _ s w (k_owner k) o (off + j) [x] I R (l_owner _ _ _ _ L)) as [s' [E [I' [R' _]]]].
  { rewrite (l_len _ _ _ _ L). cbn [length]. lia. }
  rewrite E. cbn [bind]. eexists. split; [reflexivity|]. split; [exact I'|exact R'].
Qed.

(* One reference less to a slice. *)
Lemma unref_ok s w i : inv None (Some i) s -> rel s w -> exists s', unref_slice s i = Ok s' /\ inv None None s' /\ rel s' w.
Proof.
  intros I R. destruct (i_pend _ _ _ I i eq_refl) as [b [off [len K]]]. unfold kinds in K. rewrite nth_error_map in K.
  destruct (nth_error (objects s) i) as [o|] eqn:O; [|discriminate]. cbn in K. injection K as K.
  pose proof (i_refs _ _ _ I i o O) as RF. rewrite pend_some, Nat.eqb_refl in RF. cbn [num] in RF.
  destruct o as [k m n]. cbn in K, RF. subst k. destruct n as [|n]; [lia|].
  unfold unref_slice. rewrite O. set (o' := mk_object (K_slice b off len) m n). set (s1 := with_object s i o').
  assert (I1 : inv (match n with 0 => b | S _ => None end) None s1).
  { apply (with_object_ok None (Some i) _ None s i _ o' I O); cbn [o_kind o_named o_refs o'].
    - left. reflexivity.
    - exact (i_good _ _ _ I i _ O).
    - intro b'. unfold holds, pend. cbn [o_refs o_kind o' block_of]. destruct n; cbn; lia.
    - intros j D. unfold views. cbn [o_named o_kind slice_of_view is_block]. rewrite pend_some.
      replace (i =? j) with false by (symmetry; apply Nat.eqb_neq; congruence). unfold o'. cbn [o_named o_kind slice_of_view is_block].
      rewrite !andb_false_r. reflexivity.
    - rewrite pend_some, Nat.eqb_refl. unfold pend. cbn. lia.
    - discriminate. }
  assert (R1 : rel s1 w).
  { pose proof (rel_with_object _ _ s w i _ o' I R O ltac:(left; reflexivity)) as R'.
    pose proof (become_id w i _ (rel_thing s w i _ R O)) as B. cbn [thing_of t_role t_place t_named o_kind o_named] in B.
    cbn [o_kind o_named o'] in R'. rewrite B in R'. exact R'. }
  destruct n as [|n]; [|eexists; split; [reflexivity|split; assumption]].
  destruct b as [b|]; cbn [release_opt]; [|eexists; split; [reflexivity|split; assumption]].
  destruct (release_ok None s1 b I1) as [s2 [E [I2 U]]].
  { pose proof (i_good _ _ _ I i _ O) as G. cbn [o_kind good] in G. destruct G as [p [P _]]. exists p. exact P. }
  exists s2. split; [exact E|]. split; [exact I2|exact (rel_unseen _ _ _ U R1)].
Qed.

Lemma step_del strict s w i : inv None None s -> rel s w -> goal strict s w (Del i).
Proof.
  intros I R. apply no_clash; [reflexivity|]. cbn [step expect]. unfold do_del. rewrite (the_thing_rel s w i R).
  unfold named_object. destruct (nth_error (objects s) i) as [[k m n]|] eqn:O; cbn [o_named o_kind]; [|same s].
  destruct m; [|same s]. cbn [option_map].
  assert (N : named_object s i = Some k) by (unfold named_object; rewrite O; reflexivity).
  assert (GO : good (shapes s) (kinds s) k) by exact (i_good _ _ _ I i _ O).
  assert (R1 : forall n', rel (with_object s i (mk_object k false n')) (become w i (role_of k) (place_of (shapes s) (kinds s) k) false)).
  { intro n'. exact (rel_with_object _ _ s w i _ (mk_object k false n') I R O ltac:(left; reflexivity)). }
  assert (BR : forall b, block_of k = Some b -> (forall b off len, k <> K_slice b off len) -> slice_of_view k = None -> n = 1 ->
     exists s', release (with_object s i (mk_object k false 0)) b = Ok s' /\ inv None None s' /\
                rel s' (become w i (role_of k) (place_of (shapes s) (kinds s) k) false)).
  { intros b B D V ->.
    assert (I1 : inv (Some b) None (with_object s i (mk_object k false 0))).
    { apply (with_object_ok None None (Some b) None s i _ _ I O); cbn [o_kind o_named o_refs].
      - left. reflexivity.
      - exact GO.
      - intro b'. unfold holds, pend. cbn [o_refs o_kind]. rewrite B. cbn. lia.
      - intros j _. unfold views. cbn [o_named o_kind andb]. rewrite V. reflexivity.
      - reflexivity.
      - discriminate. }
    destruct (release_ok None _ b I1) as [s2 [E [I2 U]]].
    { destruct (lives_named _ _ _ _ _ _ I N B) as [kb [o L]]. exists (k_owner kb, k_len kb). exact (l_shape _ _ _ _ L). }
    exists s2. split; [exact E|]. split; [exact I2|exact (rel_unseen _ _ _ U (R1 0))]. }
  assert (N1 : (forall b off len, k <> K_slice b off len) -> n = 1).
  { intro D. pose proof (simple_object None s i k I N D) as O'. congruence. }
  destruct k as [b|[b|] pos|b off len|sl]; cbn [release_opt role_of].
  - destruct (BR b eq_refl ltac:(discriminate) eq_refl (N1 ltac:(discriminate))) as [s' [E [I' R']]]. rewrite E. cbn [bind].
    eexists. split; [reflexivity|]. split; assumption.
  - destruct (BR b eq_refl ltac:(discriminate) eq_refl (N1 ltac:(discriminate))) as [s' [E [I' R']]]. rewrite E. cbn [bind].
    eexists. split; [reflexivity|]. split; assumption.
  - cbn [bind]. eexists. split; [reflexivity|]. split; [|exact (R1 0)].
    pose proof (N1 ltac:(discriminate)) as ->.
    apply (with_object_ok None None None None s i _ _ I O); cbn [o_kind o_named o_refs].
    + left. reflexivity.
    + exact GO.
    + intro b'. reflexivity.
    + intros j _. reflexivity.
    + reflexivity.
    + discriminate.
  - assert (I1 : inv None (Some i) (with_object s i (mk_object (K_slice b off len) false n))).
    { apply (with_object_ok None None None (Some i) s i _ _ I O); cbn [o_kind o_named o_refs].
      - left. reflexivity.
      - exact GO.
      - intro b'. reflexivity.
      - intros j D. unfold views. cbn [o_named o_kind slice_of_view is_block]. rewrite pend_some.
        replace (i =? j) with false by (symmetry; apply Nat.eqb_neq; congruence). reflexivity.
      - rewrite pend_some, Nat.eqb_refl. unfold pend. cbn. lia.
      - intros j E. injection E as <-. exists b, off, len. unfold kinds. rewrite (nth_mapped _ _ _ _ O). reflexivity. }
    destruct (unref_ok _ _ i I1 (R1 n)) as [s' [E [I' R']]]. rewrite E. cbn [bind]. eexists. split; [reflexivity|]. split; assumption.
  - pose proof (N1 ltac:(discriminate)) as ->.
    assert (NS : sl <> i).
    { intros ->. pose proof (not_self _ _ _ _ _ I O) as S. unfold views in S. cbn in S. rewrite Nat.eqb_refl in S. discriminate. }
    assert (I1 : inv None (Some sl) (with_object s i (mk_object (K_view sl) false 0))).
    { apply (with_object_ok None None None (Some sl) s i _ _ I O); cbn [o_kind o_named o_refs].
      - left. reflexivity.
      - exact GO.
      - intro b'. reflexivity.
      - intros j D. unfold views. cbn [o_named o_kind slice_of_view is_block andb]. rewrite pend_some. unfold pend. cbn. lia.
      - rewrite pend_some. replace (sl =? i) with false by (symmetry; apply Nat.eqb_neq; exact NS). unfold pend. reflexivity.
      - intros j E. injection E as <-. exact GO. }
    destruct (unref_ok _ _ sl I1 (R1 0)) as [s' [E [I' R']]]. rewrite E. cbn [bind]. eexists. split; [reflexivity|]. split; assumption.
Qed.

(* Reading into memory. *)
Lemma read_to_ok strict s w i b pos k o j d off room : inv None None s -> rel s w ->
  nth_error (objects s) i = Some (mk_object (K_stream (Some b) pos) true 1) -> lives s b k o ->
  nth_error (owners s) j = Some d -> off + room <= length (w_bytes d) ->
  let clash := (k_owner k =? j) && (0 + pos <=? off) && (off <? 0 + Nat.min (pos + room) (k_len k)) in
  let '(w', x) := transfer w i (k_owner k, 0, k_len k) pos j off room in
  if strict && clash then read_to strict s i b pos j off room = UB
  else exists s', read_to strict s i b pos j off room = Ok (s', x) /\ inv None None s' /\ rel s' w'.
Proof.
  intros I R O L D F. cbv zeta. unfold transfer. cbn [Nat.add].
  pose proof (i_good _ _ _ I i _ O) as G. cbn [good o_kind] in G. rewrite (l_shape _ _ _ _ L) in G. destruct G as [p [P PL]].
  injection P as <-. cbn [snd] in PL.
  unfold read_to. destruct (Nat.eqb_spec room 0) as [-> | NZ].
  - replace (off <? Nat.min (pos + 0) (k_len k)) with ((off <? pos) && (off <? k_len k)).
    2:{ rewrite Nat.add_0_r. destruct (Nat.ltb_spec off pos), (Nat.ltb_spec off (k_len k)), (Nat.ltb_spec off (Nat.min pos (k_len k))); try reflexivity; lia. }
    destruct (Nat.leb_spec pos off); destruct (Nat.ltb_spec off pos); try lia; cbn [andb]; rewrite ?andb_false_r; cbn [andb]; rewrite ?andb_false_r; same s.
  - rewrite (l_source _ _ _ _ L). cbn [bind]. set (last := Nat.min (pos + room) (k_len k)).
    assert (LL : last <= k_len k) by (unfold last; lia). assert (LP : pos <= last) by (unfold last; lia).
    assert (LR : last - pos <= room) by (unfold last; lia).
    rewrite (l_get _ _ _ _ L). cbn [bind fst]. rewrite (lives_load _ _ _ _ pos (last - pos) L) by lia. cbn [bind].
    rewrite <- !andb_assoc. destruct (strict && ((k_owner k =? j) && ((pos <=? off) && (off <? last)))); [reflexivity|].
    rewrite D. set (data := firstn (last - pos) (skipn pos (w_bytes o))).
    assert (DL : length data = last - pos).
    { unfold data. rewrite firstn_length, skipn_length, (l_len _ _ _ _ L). lia. }
    destruct (store_ok _ _ s w j d off data I R D) as [s1 [E [I1 [R1 [OS BS]]]]]; [lia|]. rewrite E. cbn [bind].
    destruct (move_ok None s1 _ i b pos last (k_owner k) (k_len k) I1 R1) as [I2 R2].
    + rewrite OS. exact O.
    + unfold shapes. rewrite BS. exact (l_shape _ _ _ _ L).
    + exact LL.
    + eexists. split; [reflexivity|]. split; [exact I2|]. cbn [at_place]. rewrite (content_rel s w _ _ R (l_owner _ _ _ _ L)). exact R2.
Qed.

Lemma step_read_into strict s w i j : inv None None s -> rel s w -> goal strict s w (Read_into i j).
Proof.
  intros I R. unfold goal. cbn [step expect overlaps]. unfold do_read_into. rewrite (the_thing_rel s w i R), (the_cell_rel s w j R).
  destruct (named_owner s j) as [d|] eqn:D; cbn [option_map cell_of c_fixed c_bytes].
  2:{ rewrite andb_false_r. destruct (named_object s i) as [[b|[b|] pos|sb off len|sl]|]; cbn [option_map role_of place_of whole]; try same s.
      destruct (nth_error (shapes s) b) as [[c n]|]; same s. }
  destruct (named_object s i) as [[b|[b|] pos|sb off len|sl]|] eqn:N; cbn [option_map role_of place_of whole];
    rewrite ?andb_false_r; try (destruct (w_fixed d); same s); try same s.
  destruct (lives_named _ _ _ _ _ _ I N eq_refl) as [k [o L]]. rewrite (l_shape _ _ _ _ L).
  destruct (w_fixed d); cbn [negb andb]; [rewrite andb_false_r; same s|].
  assert (O : nth_error (objects s) i = Some (mk_object (K_stream (Some b) pos) true 1)) by (apply (simple_object None); [exact I|exact N|discriminate]).
  destruct (named_owner_inv _ _ _ D) as [D' _].
  pose proof (read_to_ok strict s w i b pos k o j d 0 (length (w_bytes d)) I R O L D' ltac:(lia)) as T. cbv zeta in T.
  destruct (transfer w i (k_owner k, 0, k_len k) pos j 0 (length (w_bytes d))) as [w' x]. cbn [fst snd]. exact T.
Qed.
Lemma step_read_view strict s w i v : inv None None s -> rel s w -> goal strict s w (Read_view i v).
Proof.
  intros I R. unfold goal. cbn [step expect overlaps]. unfold do_read_view. rewrite (the_thing_rel s w i R), (the_thing_rel s w v R).
  destruct (named_object s v) as [[b'|src' pos'|b' off' len'|sl]|] eqn:V; cbn [option_map role_of place_of];
    try (rewrite andb_false_r; destruct (named_object s i) as [[b|[b|] pos|sb off len|sl']|] eqn:N; cbn [option_map role_of place_of whole]; try same s;
         destruct (nth_error (shapes s) b) as [[c n]|]; same s).
  destruct (view_lives s v sl I V) as [b' [off [len [SO [SA VL]]]]]. rewrite SA.
  destruct (named_object s i) as [[b|[b|] pos|sb off1 len1|sl']|] eqn:N; cbn [option_map role_of place_of whole];
    try (destruct (part (shapes s) (b', off, len)) as [[[c1 o1] n1]|]; rewrite andb_false_r; same s).
  destruct (lives_named _ _ _ _ _ _ I N eq_refl) as [k [o L]]. rewrite (l_shape _ _ _ _ L), SO. cbn [bind].
  destruct b' as [b'|]; cbn [part]; [|rewrite andb_false_r; same s].
  destruct (VL b' eq_refl) as [k' [d [L' LE]]]. rewrite (l_shape _ _ _ _ L'), (l_get _ _ _ _ L'). cbn [bind fst].
  assert (O : nth_error (objects s) i = Some (mk_object (K_stream (Some b) pos) true 1)) by (apply (simple_object None); [exact I|exact N|discriminate]).
  pose proof (read_to_ok strict s w i b pos k o (k_owner k') d off len I R O L (l_owner _ _ _ _ L')) as T. cbv zeta in T.
  destruct (transfer w i (k_owner k, 0, k_len k) pos (k_owner k') off len) as [w' x]. cbn [fst snd]. apply T. rewrite (l_len _ _ _ _ L'). exact LE.
Qed.

Lemma step_ok strict s w a : inv None None s -> rel s w -> goal strict s w a.
Proof.
  intros I R. destruct a;
    [apply step_new|apply step_del_owner|apply step_value|apply step_put|apply step_resize|apply step_store|apply step_open|
     apply step_read|apply step_read_into|apply step_read_view|apply step_seek|apply step_close|apply step_view|apply step_look|
     apply step_set|apply step_del]; assumption.
Qed.
