From Verif Require Import Common Model_iter Spec_iter Proof_iter.
From Coq Require Import List Arith Lia Bool.
Import ListNotations.

(* ---------------- Variables ---------------- *)
Lemma get_del e v w : get_var (del_var e v) w = if w =? v then None else get_var e w.
Proof.
  induction e as [|[u i] e IH]; cbn; [destruct (w =? v); auto|].
  destruct (u =? v) eqn:E1.
  - rewrite IH. apply Nat.eqb_eq in E1. subst u. destruct (w =? v) eqn:E2; auto.
    rewrite Nat.eqb_sym, E2. reflexivity.
  - cbn. destruct (u =? w) eqn:E3; auto. apply Nat.eqb_eq in E3. subst u. rewrite E1. reflexivity.
Qed.

Definition refs (e : env) : list nat := map snd e.

Definition single (e : env) : Prop := NoDup (map fst e).

Lemma get_none e v : get_var e v = None -> ~ In v (map fst e).
Proof.
  induction e as [|[u i] e IH]; cbn; [auto|]. destruct (u =? v) eqn:E; [discriminate|]. apply Nat.eqb_neq in E.
  intros H [Q | Q]; [congruence|]. exact (IH H Q).
Qed.

Lemma del_none e v : ~ In v (map fst e) -> del_var e v = e.
Proof.
  induction e as [|[u i] e IH]; cbn; [auto|]. intros H. destruct (u =? v) eqn:E.
  - apply Nat.eqb_eq in E. tauto.
  - f_equal. tauto.
Qed.

Lemma del_incl e v x : In x (map fst (del_var e v)) -> In x (map fst e) /\ x <> v.
Proof.
  induction e as [|[u i] e IH]; cbn; [tauto|]. destruct (u =? v) eqn:E.
  - intros H. destruct (IH H). auto.
  - cbn. apply Nat.eqb_neq in E. intros [<- | H]; [auto|]. destruct (IH H). auto.
Qed.

Lemma single_del e v : single e -> single (del_var e v).
Proof.
  unfold single. induction e as [|[u i] e IH]; cbn; [auto|]. intros H. inversion H; subst. destruct (u =? v) eqn:E; auto.
  cbn. constructor; auto. intros Q. apply del_incl in Q. tauto.
Qed.

Lemma refs_del e v i : single e -> get_var e v = Some i ->
  forall j, count_occ Nat.eq_dec (refs e) j = count_occ Nat.eq_dec (i :: refs (del_var e v)) j.
Proof.
  unfold single, refs. induction e as [|[u k] e IH]; cbn [get_var map fst snd]; [discriminate|]. intros H G j. inversion H; subst.
  cbn [del_var]. destruct (u =? v) eqn:E.
  - apply Nat.eqb_eq in E. subst u. injection G as ->. rewrite del_none by auto. reflexivity.
  - cbn [map snd]. specialize (IH H3 G j). cbn [count_occ] in *. rewrite IH. destruct (Nat.eq_dec k j), (Nat.eq_dec i j); reflexivity.
Qed.

Lemma get_in e v i : get_var e v = Some i -> In i (refs e).
Proof.
  unfold refs. induction e as [|[u k] e IH]; cbn; [discriminate|]. destruct (u =? v); [|auto]. intros H. injection H as ->. auto.
Qed.

Lemma in_get e i : single e -> In i (refs e) -> exists v, get_var e v = Some i.
Proof.
  unfold refs, single. induction e as [|[u k] e IH]; cbn; [tauto|]. intros H [-> | Q].
  - exists u. rewrite Nat.eqb_refl. reflexivity.
  - inversion H; subst. destruct (IH H3 Q) as [v G]. exists v. destruct (u =? v) eqn:E; auto.
    apply Nat.eqb_eq in E. subst u. exfalso. apply H2. clear -G. induction e as [|[a b] e IH]; cbn in *; [discriminate|].
    destruct (a =? v) eqn:E; [apply Nat.eqb_eq in E; auto|auto].
Qed.

(* ---------------- States ---------------- *)
Record rel (s : state) (w : world) : Prop := mk_rel {
  q_good : good (s_heap s) (refs (s_env s)) (w_things w);
  q_single : single (s_env s);
  q_vars : forall v, get_var (s_env s) v = w_vars w v }.

Lemma rel0 : rel st0 world0.
Proof.
  constructor; cbn; auto.
  - constructor; cbn; auto; intros; destruct i; discriminate.
  - constructor.
Qed.

Lemma assign_rel h e v i th f :
  good h (i :: refs e) th -> single e -> (forall u, get_var e u = f u) ->
  exists s', assign h e v i = Ok s' /\ rel s' (mk_world th (bound f v (Some i))).
Proof.
  intros G S F. unfold assign. destruct (get_var e v) as [j|] eqn:E.
  - assert (G' : good h (j :: i :: refs (del_var e v)) th).
    { eapply good_same; [|exact G]. intros k. pose proof (refs_del e v j S E k) as Q. cbn [count_occ] in *.
      rewrite Q. destruct (Nat.eq_dec i k), (Nat.eq_dec j k); reflexivity. }
    destruct (decref_good _ _ _ _ G') as (h' & -> & G2). cbn [bind]. eexists. split; [reflexivity|].
    constructor; cbn [s_heap s_env w_things w_vars].
    + exact G2.
    + unfold single. cbn. constructor; [|apply single_del; auto]. intros H. apply del_incl in H. tauto.
    + intros u. cbn [get_var]. unfold bound. rewrite (Nat.eqb_sym v u). destruct (u =? v) eqn:Q; auto.
      rewrite get_del, Q. auto.
  - eexists. split; [reflexivity|]. constructor; cbn [s_heap s_env w_things w_vars]; auto.
    + unfold single. cbn. constructor; auto. apply get_none. auto.
    + intros u. cbn [get_var]. unfold bound. rewrite (Nat.eqb_sym v u). destruct (u =? v) eqn:Q; auto.
Qed.

(* ---------------- Reading ---------------- *)
Lemma after_some d ep pos x : nth_error (ds_items d ep) pos = Some x -> after d ep pos = S pos.
Proof.
  intros H. unfold after. assert (pos < length (ds_items d ep)) by (apply nth_error_Some; congruence).
  rewrite (proj2 (Nat.ltb_lt _ _)) by auto. reflexivity.
Qed.
Lemma after_none d ep pos : nth_error (ds_items d ep) pos = None -> after d ep pos = pos.
Proof.
  intros H. unfold after. apply nth_error_None in H. rewrite (proj2 (Nat.ltb_ge _ _)) by auto. reflexivity.
Qed.

Lemma read_same r b d ep pos g r' :
  same_reader r (T_reader b d ep pos) -> read_reader r = (g, r') ->
  same_reader r' (T_reader b d ep (after d ep pos)) /\ as_next g = at_pos d ep pos V_stop /\ as_value g = at_pos d ep pos V_none.
Proof.
  intros (p & T & H) R. injection T as -> -> -> ->. unfold read_reader, core_read in R. unfold at_pos.
  destruct (r_peeked r) as [x|] eqn:E.
  - destruct H as [H C]. injection R as <- <-. rewrite H, (after_some _ _ _ _ H). repeat split.
    exists (S p). cbn. auto.
  - subst p. destruct (nth_error (ds_items (r_ds r) (r_epoch r)) (r_count r)) as [x|] eqn:N; injection R as <- <-.
    + rewrite (after_some _ _ _ _ N). repeat split. exists (S (r_count r)). cbn. auto.
    + rewrite (after_none _ _ _ N). destruct (ds_tail (r_ds r) (r_epoch r)); repeat split; exists (r_count r); cbn; auto.
Qed.

Lemma peek_same r b d ep pos g r' :
  same_reader r (T_reader b d ep pos) -> peek_reader r = (g, r') ->
  same_reader r' (T_reader b d ep pos) /\ as_value g = at_pos d ep pos V_none.
Proof.
  intros (p & T & H) R. injection T as -> -> -> ->. unfold peek_reader, core_read in R. unfold at_pos.
  destruct (r_peeked r) as [x|] eqn:E.
  - injection R as <- <-. destruct H as [H C]. rewrite H. split; auto. exists p. rewrite E. auto.
  - subst p. destruct (nth_error (ds_items (r_ds r) (r_epoch r)) (r_count r)) as [x|] eqn:N; injection R as <- <-.
    + split; auto. exists (r_count r). cbn. auto.
    + destruct (ds_tail (r_ds r) (r_epoch r)); split; auto; exists (r_count r); cbn; auto.
Qed.

(* A variable names a live object that the specification knows. *)
Lemma var_live s w v i : rel s w -> w_vars w v = Some i ->
  exists c t, look (s_heap s) i = Some c /\ nth_error (w_things w) i = Some t /\ cell_ok (s_heap s) c t.
Proof.
  intros R V. assert (L : look (s_heap s) i <> None).
  { apply (g_live _ _ _ (q_good _ _ R)). rewrite <- (q_vars _ _ R) in V. eapply get_in; eauto. }
  destruct (look (s_heap s) i) as [c|] eqn:E; [|congruence].
  destruct (g_ok _ _ _ (q_good _ _ R) _ _ E) as (t & T & Ok). exists c, t. auto.
Qed.

Lemma set_rel s w i n r r' t' :
  rel s w -> look (s_heap s) i = Some (mk_cell n (O_reader r)) -> same_reader r' t' ->
  rel (mk_st (set_reader (s_heap s) i n r') (s_env s)) (upd_thing w i t').
Proof.
  intros R L S. constructor; cbn [s_heap s_env upd_thing w_things w_vars].
  - eapply set_reader_good; eauto. apply (q_good _ _ R).
  - apply (q_single _ _ R).
  - apply (q_vars _ _ R).
Qed.

Lemma upd_same w i t : nth_error (w_things w) i = Some t -> upd_thing w i t = w.
Proof. intros H. unfold upd_thing. rewrite put_id by auto. destruct w; reflexivity. Qed.

Lemma step_rel s w c : rel s w -> exists s', step s c = Ok (s', snd (meaning w c)) /\ rel s' (fst (meaning w c)).
Proof.
  intros R. pose proof (q_good _ _ R) as G. pose proof (q_single _ _ R) as SG. pose proof (q_vars _ _ R) as V.
  unfold step, meaning. destruct c as [v data d|v u|v u|v|v|v|v|v]; try rewrite V.
  - destruct (assign_rel _ (s_env s) v (length (s_heap s)) _ _ (new_reader_good _ _ _ data d G) SG V) as (s' & E & R').
    rewrite E. cbn [bind]. exists s'. split; auto. cbn [fst]. rewrite <- (g_len _ _ _ G). exact R'.
  - destruct (w_vars w u) as [i|] eqn:E; [|exists s; auto].
    destruct (var_live _ _ _ _ R E) as (c & t & L & T & Ok). rewrite L, T.
    destruct (incref_good (s_heap s) i _ _ G ltac:(congruence)) as (h1 & E1 & G1 & Len & K).
    destruct c as [n o]. unfold cell_ok in Ok. cbn [c_obj] in *. destruct o as [r|q p].
    + destruct Ok as (pos & -> & _). rewrite E1. cbn [bind].
      destruct (K _ _ L) as (m & L1). cbn in L1.
      destruct (assign_rel _ (s_env s) v (length h1) _ _ (new_iter_good _ _ _ _ _ _ G1 L1) SG V) as (s' & E2 & R').
      rewrite E2. cbn [bind]. exists s'. split; auto. cbn [fst]. rewrite <- (g_len _ _ _ G), <- Len. exact R'.
    + destruct Ok as (-> & -> & _). rewrite E1. cbn [bind].
      destruct (assign_rel _ (s_env s) v i _ _ G1 SG V) as (s' & E2 & R').
      rewrite E2. cbn [bind]. exists s'. split; auto.
  - destruct (w_vars w u) as [i|] eqn:E; [|exists s; auto].
    destruct (var_live _ _ _ _ R E) as (c & t & L & T & Ok).
    destruct (incref_good (s_heap s) i _ _ G ltac:(congruence)) as (h1 & E1 & G1 & Len & K). rewrite E1. cbn [bind].
    destruct (assign_rel _ (s_env s) v i _ _ G1 SG V) as (s' & E2 & R').
    rewrite E2. cbn [bind]. exists s'. split; auto.
  - destruct (w_vars w v) as [i|] eqn:E; [|exists s; auto].
    destruct (var_live _ _ _ _ R E) as (c & t & L & T & Ok). rewrite L, T.
    destruct c as [n o]. unfold cell_ok in Ok. cbn [c_obj] in *. destruct o as [r|q p].
    + destruct Ok as (pos & -> & _). exists s. auto.
    + destruct Ok as (-> & -> & m & r & Lp). rewrite Lp.
      destruct (g_ok _ _ _ G _ _ Lp) as (t & Tp & Sm). unfold cell_ok in Sm. cbn [c_obj] in Sm.
      pose proof Sm as (pos & Et & _). rewrite Tp, Et in *. destruct (read_reader r) as [g r'] eqn:Q.
      destruct (read_same _ _ _ _ _ _ _ Sm Q) as (S1 & S2 & S3). eexists. split; [cbn [snd]; rewrite S2; reflexivity|].
      cbn [fst]. eapply set_rel; eauto.
  - destruct (w_vars w v) as [i|] eqn:E; [|exists s; auto].
    destruct (var_live _ _ _ _ R E) as (c & t & L & T & Ok). rewrite L, T.
    destruct c as [n o]. unfold cell_ok in Ok. cbn [c_obj c_refs] in *. destruct o as [r|q p].
    + pose proof Ok as (pos & -> & _). destruct (read_reader r) as [g r'] eqn:Q.
      destruct (read_same _ _ _ _ _ _ _ Ok Q) as (S1 & S2 & S3). eexists. split; [cbn [snd]; rewrite S3; reflexivity|].
      cbn [fst]. eapply set_rel; eauto.
    + destruct Ok as (-> & -> & _). exists s. auto.
  - destruct (w_vars w v) as [i|] eqn:E; [|exists s; auto].
    destruct (var_live _ _ _ _ R E) as (c & t & L & T & Ok). rewrite L, T.
    destruct c as [n o]. unfold cell_ok in Ok. cbn [c_obj c_refs] in *. destruct o as [r|q p].
    + pose proof Ok as (pos & -> & _). destruct (peek_reader r) as [g r'] eqn:Q.
      destruct (peek_same _ _ _ _ _ _ _ Ok Q) as (S1 & S2). eexists. split; [cbn [snd]; rewrite S2; reflexivity|].
      cbn [fst]. rewrite <- (upd_same w i _ T). eapply set_rel; eauto.
    + destruct Ok as (-> & -> & _). exists s. auto.
  - destruct (w_vars w v) as [i|] eqn:E; [|exists s; auto].
    destruct (var_live _ _ _ _ R E) as (c & t & L & T & Ok). rewrite L, T.
    destruct c as [n o]. unfold cell_ok in Ok. cbn [c_obj c_refs] in *. destruct o as [r|q p].
    + destruct Ok as (pos & -> & _). destruct (r_data r) eqn:D; [|exists s; auto].
      eexists. split; [reflexivity|]. cbn [fst]. eapply set_rel; eauto. exists 0. unfold reset_reader. cbn. rewrite D. auto.
    + destruct Ok as (-> & -> & _). exists s. auto.
  - destruct (w_vars w v) as [i|] eqn:E; [|exists s; auto].
    rewrite <- (V v) in E.
    assert (G' : good (s_heap s) (i :: refs (del_var (s_env s) v)) (w_things w)).
    { eapply good_same; [|exact G]. apply refs_del; auto. }
    destruct (decref_good _ _ _ _ G') as (h' & -> & G2). cbn [bind]. eexists. split; [reflexivity|]. cbn [fst].
    constructor; cbn [s_heap s_env w_things w_vars]; auto.
    + apply single_del. auto.
    + intros x. rewrite get_del. unfold bound. destruct (x =? v); auto.
Qed.

Fixpoint world_after (w : world) (p : list stmt) : world :=
  match p with [] => w | c :: p' => world_after (fst (meaning w c)) p' end.

Lemma run_rel : forall p s w, rel s w -> exists s', run s p = Ok (s', meanings w p) /\ rel s' (world_after w p).
Proof.
  induction p as [|c p IH]; intros s w R; cbn [run meanings world_after].
  - exists s. auto.
  - destruct (step_rel s w c R) as (s1 & E & R1). rewrite E. cbn [bind fst snd].
    destruct (IH _ _ R1) as (s2 & E2 & R2). rewrite E2. cbn [bind fst snd]. exists s2. split; auto.
    destruct (meaning w c). reflexivity.
Qed.

(* Which objects there are. *)
Lemma live_iff s w i : rel s w ->
  look (s_heap s) i <> None <->
  exists v j, get_var (s_env s) v = Some j /\ (j = i \/ exists n q, look (s_heap s) j = Some (mk_cell n (O_iter q i))).
Proof.
  intros R. pose proof (q_good _ _ R) as G. split.
  - intros L. destruct (look (s_heap s) i) as [c|] eqn:E; [|congruence].
    destruct (g_refs _ _ _ G _ _ E) as [N1 N2].
    destruct (count_occ Nat.eq_dec (refs (s_env s)) i) eqn:Q.
    + destruct (cnt_pos (s_heap s) i) as (j & n & q & Lj); [lia|].
      destruct (g_refs _ _ _ G _ _ Lj) as [M1 M2].
      assert (Z : cnt (s_heap s) j = 0).
      { destruct (Nat.eq_dec (cnt (s_heap s) j) 0) as [|X]; auto. destruct (cnt_pos (s_heap s) j) as (k & a & b & Lk); [lia|].
        destruct (g_ok _ _ _ G _ _ Lk) as (t & _ & Ok). unfold cell_ok in Ok. cbn in Ok. destruct Ok as (_ & _ & ? & ? & Lp). congruence. }
      assert (I : In j (refs (s_env s))). { apply (count_occ_In Nat.eq_dec). lia. }
      destruct (in_get _ _ (q_single _ _ R) I) as (v & Gv). exists v, j. eauto.
    + assert (I : In i (refs (s_env s))). { apply (count_occ_In Nat.eq_dec). lia. }
      destruct (in_get _ _ (q_single _ _ R) I) as (v & Gv). exists v, i. auto.
  - intros (v & j & Gv & [-> | (n & q & L)]).
    + apply (g_live _ _ _ G). eapply get_in; eauto.
    + destruct (g_ok _ _ _ G _ _ L) as (t & _ & Ok). unfold cell_ok in Ok. cbn in Ok. destruct Ok as (_ & _ & ? & ? & Lp). congruence.
Qed.
