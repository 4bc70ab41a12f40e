From Verif Require Import Common Model_num Model_tsr Spec_tsr Proof_tsr Model_csv Proof_csv Model_pb Spec_pb.
Local Open Scope Z_scope.

Section Proof_pb.
  Variable V : Type.
  Variable vzero : V.
  Notation ptensor := (ptensor V).
  Notation pvalue := (pvalue V).
  Notation message := (message V).
  Notation instance := (instance V).
  Notation store := (store V).
  Notation tensor_of := (tensor_of V).
  Notation framed := (framed V).
  Notation conforms := (conforms V).
  Notation m_entries := (m_entries V).

  (* ---------- attributes ---------- *)

  Definition dims (a : attribute) : list Z := tl (a_shape a).

  Lemma usable_inv batch a : usable batch a ->
    a_shape a = batch :: dims a /\ dims a <> [] /\ reasonable (dims a) /\ (a_sparse a = true -> positive (dims a)) /\
    a_strides a = volume (dims a) :: std_strides (dims a) /\ reasonable (batch :: dims a).
  Proof.
    intros ((ds & E & N & P) & R & H). apply (new_attribute_std _ _ _ _ _ R) in H. unfold dims. rewrite E in *. cbn [tl].
    destruct (reasonable_tl _ _ R) as [Rl _]. repeat split; auto; try apply Rl; try apply R. rewrite H. reflexivity.
  Qed.

  Lemma reasonable_less n batch ds : 0 <= n <= batch -> reasonable (batch :: ds) -> reasonable (n :: ds).
  Proof.
    intros H [A B]. inversion A; subst. split; [constructor; auto; lia|]. rewrite map_cons, volume_cons in *.
    pose proof (volume_pos ds). assert (M : 1 <= Z.max 1 n <= Z.max 1 batch) by lia.
    generalize dependent (Z.max 1 n). generalize dependent (Z.max 1 batch). intros. nia.
  Qed.

  (* ---------- checks ---------- *)

  Lemma is_sparse_spec t : is_sparse V t = true <-> tensor_sparse V t.
  Proof.
    unfold is_sparse, tensor_sparse. destruct (t_keys V t) as [|k ks], (t_values V t) as [|v vs], (t_shape V t) as [|d ds];
      cbn; (split; intros H; [
        first [discriminate | left; discriminate | right; split; [reflexivity|discriminate]] |
        first [reflexivity | destruct H as [?|[? ?]]; congruence]]).
  Qed.
  Lemma shape_equals_spec batch a t : usable batch a -> shape_equals V a t = true <-> shape_fits V a t.
  Proof.
    intros U. destruct (usable_inv _ _ U) as (E & N & _). unfold shape_equals, shape_fits. rewrite E. cbn [tl].
    destruct (t_shape V t) as [|d ds].
    - destruct (dims a) as [|x [|y l]]; [congruence| |].
      + rewrite Z.eqb_eq. split; [intros ->; right; auto|]. intros [[? _]|[_ X]]; congruence.
      + split; [discriminate|]. intros [[? _]|[_ X]]; congruence.
    - rewrite zs_eqb_eq. split; [left; split; [discriminate|auto]|]. intros [[_ X]|[X _]]; congruence.
  Qed.

  Lemma check_tensor_spec err batch idx a dt t : usable batch a ->
    ((a_type a = dt /\ (a_sparse a = true <-> tensor_sparse V t) /\ shape_fits V a t /\
       (a_sparse a = true -> length (t_keys _ t) = length (t_values _ t)) /\
       (a_sparse a = false -> Z.of_nat (length (t_values _ t)) = volume (dims a))) ->
     check_tensor V err idx a dt t =
       Ok (Some (if a_sparse a then A_append V idx (t_values _ t) (t_keys _ t) else A_copy V idx (t_values _ t)))) /\
    (~ (a_type a = dt /\ (a_sparse a = true <-> tensor_sparse V t) /\ shape_fits V a t /\
       (a_sparse a = true -> length (t_keys _ t) = length (t_values _ t)) /\
       (a_sparse a = false -> Z.of_nat (length (t_values _ t)) = volume (dims a))) ->
     check_tensor V err idx a dt t = bad err None).
  Proof.
    intros U. destruct (usable_inv _ _ U) as (E & N & R & P & S & _). unfold check_tensor. rewrite S. cbn [hd].
    destruct (dtype_eqb (a_type a) dt) eqn:D; cbn [negb].
    2:{ split; [intros (X & _)|reflexivity]. apply dtype_eqb_eq in X. congruence. }
    apply dtype_eqb_eq in D.
    destruct (Bool.eqb (is_sparse V t) (a_sparse a)) eqn:Q; cbn [negb].
    2:{ split; [intros (_ & X & _)|reflexivity]. rewrite <- is_sparse_spec in X. exfalso.
        apply eqb_false_iff in Q. destruct (is_sparse V t), (a_sparse a); intuition congruence. }
    apply eqb_prop in Q.
    destruct (shape_equals V a t) eqn:F; cbn [negb].
    2:{ split; [intros (_ & _ & X & _)|reflexivity]. apply (shape_equals_spec _ _ _ U) in X. congruence. }
    apply (shape_equals_spec _ _ _ U) in F. rewrite <- is_sparse_spec, Q.
    destruct (a_sparse a) eqn:SP.
    - destruct (Nat.eqb (length (t_keys V t)) (length (t_values V t))) eqn:L.
      + split; [reflexivity|]. intros X. exfalso. apply X. apply Nat.eqb_eq in L.
        repeat split; auto; discriminate.
      + split; [|reflexivity]. intros (_ & _ & _ & X & _). rewrite X in L by auto. now rewrite Nat.eqb_refl in L.
    - destruct (volume (dims a) =? Z.of_nat (length (t_values V t))) eqn:L.
      + split; [reflexivity|]. intros X. exfalso. apply X. repeat split; auto; try discriminate. intros _. lia.
      + split; [|reflexivity]. intros (_ & _ & _ & _ & X). rewrite X in L by auto. lia.
  Qed.

  Lemma framed_dec (a : attribute) v : framed a v \/ ~ framed a v.
  Proof.
    unfold framed. destruct (tensor_of v) as [[dt t]|] eqn:E; [|right; intros (t & X & _); discriminate].
    destruct (dtype_eqb (a_type a) dt) eqn:D.
    2:{ right. intros (t' & X & _). injection X as -> _. rewrite (proj2 (dtype_eqb_eq _ _) eq_refl) in D. discriminate. }
    apply dtype_eqb_eq in D. subst.
    assert (S : (a_sparse a = true <-> tensor_sparse V t) \/ ~ (a_sparse a = true <-> tensor_sparse V t)).
    { rewrite <- is_sparse_spec. destruct (a_sparse a), (is_sparse V t); intuition congruence. }
    assert (F : shape_fits V a t \/ ~ shape_fits V a t).
    { unfold shape_fits. destruct (list_eq_dec Z.eq_dec (tl (a_shape a)) (t_shape V t)), (t_shape V t),
        (list_eq_dec Z.eq_dec (tl (a_shape a)) [Z.of_nat (length (t_values V t))]);
        try (left; left; split; [discriminate|assumption]); try (left; right; split; [reflexivity|assumption]);
        right; intros [[? ?]|[? ?]]; congruence. }
    assert (K : (a_sparse a = true -> length (t_keys V t) = length (t_values V t)) \/ ~ (a_sparse a = true -> length (t_keys V t) = length (t_values V t))).
    { destruct (a_sparse a); [|left; discriminate]. destruct (Nat.eq_dec (length (t_keys V t)) (length (t_values V t))); [left|right]; auto. }
    assert (L : (a_sparse a = false -> Z.of_nat (length (t_values V t)) = volume (tl (a_shape a))) \/ ~ (a_sparse a = false -> Z.of_nat (length (t_values V t)) = volume (tl (a_shape a)))).
    { destruct (a_sparse a); [left; discriminate|]. destruct (Z.eq_dec (Z.of_nat (length (t_values V t))) (volume (tl (a_shape a)))); [left|right]; auto. }
    destruct S as [S|S]; [|right; intros (t' & X & Y & _); injection X as <-; auto].
    destruct F as [F|F]; [|right; intros (t' & X & _ & Y & _); injection X as <-; auto].
    destruct K as [K|K]; [|right; intros (t' & X & _ & _ & Y & _); injection X as <-; auto].
    destruct L as [L|L]; [|right; intros (t' & X & _ & _ & _ & Y); injection X as <-; auto].
    left. exists t. auto.
  Qed.

  Definition the_action (idx : nat) (a : attribute) (t : ptensor) : action V :=
    if a_sparse a then A_append V idx (t_values _ t) (t_keys _ t) else A_copy V idx (t_values _ t).

  Lemma check_feature_known err batch s name v idx a :
    get_index s name = Some idx -> nth_error (s_attributes s) idx = Some a -> usable batch a ->
    (framed a v -> exists t, tensor_of v = Some (a_type a, t) /\ check_feature V err s name v = Ok (Some (the_action idx a t))) /\
    (~ framed a v -> check_feature V err s name v = bad err None).
  Proof.
    intros G A U. unfold check_feature. rewrite G, A. split.
    - intros (t & T & F). exists t. split; auto.
      destruct v as [x|x|x| |]; try discriminate; cbn in T; injection T as E <-;
        apply (check_tensor_spec err batch); auto.
    - intros NF. destruct v as [x|x|x| |]; auto;
        (apply (check_tensor_spec err batch); [auto|]; intros (X & Y); apply NF; exists x; cbn [Spec_pb.tensor_of]; split; [now rewrite X|exact Y]).
  Qed.
  Lemma check_feature_unknown err s name v : get_index s name = None -> check_feature V err s name v = bad err None.
  Proof. intros G. unfold check_feature. now rewrite G. Qed.

  (* ---------- arrays ---------- *)

  Lemma list_ext {A} (a b : list A) : (forall j, nth_error a j = nth_error b j) -> a = b.
  Proof.
    revert b. induction a as [|x a IH]; intros [|y b] H; auto.
    - specialize (H O). discriminate.
    - specialize (H O). discriminate.
    - pose proof (H O) as H0. cbn in H0. injection H0 as <-. f_equal. apply IH. intros j. apply (H (S j)).
  Qed.
  Lemma nth_error_skipn' {A} n : forall (l : list A) j, nth_error (skipn n l) j = nth_error l (n + j).
  Proof. induction n; intros [|x l] j; cbn; auto. now destruct j. Qed.
  Lemma nth_error_firstn' {A} n : forall (l : list A) j, nth_error (firstn n l) j = if Nat.ltb j n then nth_error l j else None.
  Proof.
    induction n; intros [|x l] [|j]; cbn [firstn nth_error]; try reflexivity.
    - destruct (Nat.ltb (S j) (S n)); auto.
    - rewrite IHn. reflexivity.
  Qed.

  Definition overlay (data : list V) (off : nat) (vs : list V) : list V :=
    firstn off data ++ vs ++ skipn (off + length vs) data.
  Lemma copy_n_ok data off vs : (off + length vs <= length data)%nat -> copy_n V data off vs = Ok (overlay data off vs).
  Proof. intros H. unfold copy_n. now rewrite (proj2 (Nat.leb_le _ _) H). Qed.
  Lemma overlay_length data off vs : (off + length vs <= length data)%nat -> length (overlay data off vs) = length data.
  Proof. intros H. unfold overlay. rewrite !app_length, firstn_length, skipn_length. lia. Qed.
  Lemma overlay_nth data off vs j : (off + length vs <= length data)%nat ->
    nth_error (overlay data off vs) j =
      if (Nat.leb off j && Nat.ltb j (off + length vs))%bool then nth_error vs (j - off) else nth_error data j.
  Proof.
    intros H. unfold overlay.
    assert (L : length (firstn off data) = off) by (rewrite firstn_length; lia).
    destruct (Nat.leb off j) eqn:E; [apply Nat.leb_le in E|apply Nat.leb_gt in E]; cbn [andb].
    - rewrite nth_error_app2 by lia. rewrite L. destruct (Nat.ltb j (off + length vs)) eqn:E2; [apply Nat.ltb_lt in E2|apply Nat.ltb_ge in E2].
      + now rewrite nth_error_app1 by lia.
      + rewrite nth_error_app2 by lia. rewrite nth_error_skipn'. f_equal. lia.
    - rewrite nth_error_app1 by lia. rewrite nth_error_firstn'. destruct (Nat.ltb j off) eqn:E2; auto. apply Nat.ltb_ge in E2. lia.
  Qed.
  Lemma row_of_nth n i (data : list V) j : nth_error (row_of V n i data) j = if Nat.ltb j n then nth_error data (i * n + j) else None.
  Proof. unfold row_of. now rewrite nth_error_firstn', nth_error_skipn'. Qed.

  Lemma row_overlay_same n i data vs : length vs = n -> (i * n + n <= length data)%nat -> row_of V n i (overlay data (i * n) vs) = vs.
  Proof.
    intros L H. apply list_ext. intros j. rewrite row_of_nth, overlay_nth by lia.
    destruct (Nat.ltb j n) eqn:E; [apply Nat.ltb_lt in E|apply Nat.ltb_ge in E].
    - assert (X : (Nat.leb (i * n) (i * n + j) && Nat.ltb (i * n + j) (i * n + length vs))%bool = true).
      { rewrite (proj2 (Nat.leb_le _ _)) by lia. rewrite (proj2 (Nat.ltb_lt _ _)) by lia. reflexivity. }
      rewrite X. f_equal. lia.
    - symmetry. apply nth_error_None. lia.
  Qed.
  Lemma row_overlay_other n i k data vs : length vs = n -> (i * n + n <= length data)%nat -> k <> i ->
    row_of V n k (overlay data (i * n) vs) = row_of V n k data.
  Proof.
    intros L H D. apply list_ext. intros j. rewrite !row_of_nth, overlay_nth by lia.
    destruct (Nat.ltb j n) eqn:E; [apply Nat.ltb_lt in E|reflexivity].
    assert (X : (Nat.leb (i * n) (k * n + j) && Nat.ltb (k * n + j) (i * n + length vs))%bool = false).
    { apply andb_false_iff. rewrite L. destruct (Nat.lt_ge_cases k i).
      - left. apply Nat.leb_gt. nia.
      - right. apply Nat.ltb_ge. nia. }
    now rewrite X.
  Qed.

  Lemma replace_length {A} n x (l : list A) : length (replace n x l) = length l.
  Proof. revert n. induction l; intros [|n]; cbn; auto. Qed.
  Lemma replace_nth {A} n x (l : list A) j :
    nth_error (replace n x l) j = if Nat.eqb j n then (match nth_error l j with Some _ => Some x | None => None end) else nth_error l j.
  Proof.
    revert n j. induction l as [|y l IH]; intros [|n] [|j]; cbn; auto.
    destruct (Nat.eqb j n); auto.
  Qed.

  (* ---------- the invariant of decoding ---------- *)

  Definition vol (a : attribute) : nat := Z.to_nat (volume (dims a)).

  (* [z]: the rows not yet written are zero. *)
  Definition store_ok (z : bool) (size : nat) (ms : list message) (a : attribute) (x : store) : Prop :=
    match x with
    | S_dense _ data =>
        a_sparse a = false /\ length data = (size * vol a)%nat /\
        (forall i m, nth_error ms i = Some m -> row_of V (vol a) i data = t_values _ (tensor_in V m (a_name a))) /\
        (z = true -> forall j v, nth_error data j = Some v -> (length ms * vol a <= j)%nat -> v = vzero)
    | S_coo _ b =>
        a_sparse a = true /\ builder_of (dims a) (map (fun m => row_in V m (a_name a)) ms) b /\
        Forall (good_sparse (dims a)) (map (fun m => row_in V m (a_name a)) ms)
    end.

  (* The attributes named in [done] have the row of [m] already. *)
  Definition stores_ok (z : bool) (size : nat) (ms : list message) (m : message) (done : list (list byte)) (attrs : list attribute) (st : list store) : Prop :=
    Forall2 (fun a x => (In (a_name a) done -> store_ok z size (ms ++ [m]) a x) /\ (~ In (a_name a) done -> store_ok z size ms a x)) attrs st.
  Definition all_ok (z : bool) (size : nat) (ms : list message) (attrs : list attribute) (st : list store) : Prop :=
    Forall2 (store_ok z size ms) attrs st.

  Lemma store_ok_weaken z size ms a x : store_ok z size ms a x -> store_ok false size ms a x.
  Proof. destruct x; cbn; intuition discriminate. Qed.
  Lemma all_ok_weaken z size ms attrs st : all_ok z size ms attrs st -> all_ok false size ms attrs st.
  Proof. intros H. induction H; constructor; auto. eapply store_ok_weaken; eauto. Qed.

  Lemma all_stores z size ms m attrs st : all_ok z size ms attrs st -> stores_ok z size ms m [] attrs st.
  Proof. intros H. induction H; constructor; auto. split; [intros []|auto]. Qed.
  Lemma stores_all z size ms m done attrs st : stores_ok z size ms m done attrs st -> (forall a, In a attrs -> In (a_name a) done) ->
    all_ok z size (ms ++ [m]) attrs st.
  Proof.
    intros H. induction H; intros D; constructor.
    - apply H. apply D. now left.
    - apply IHForall2. intros. apply D. now right.
  Qed.

  Lemma Forall2_nth {A B} (P : A -> B -> Prop) la lb i a : Forall2 P la lb -> nth_error la i = Some a -> exists b, nth_error lb i = Some b /\ P a b.
  Proof. intros H. revert i. induction H; intros [|i] E; cbn in E; try discriminate.
    - injection E as <-. cbn. eauto.
    - cbn. auto.
  Qed.
  Lemma Forall2_of_nth {A B} (P : A -> B -> Prop) la : forall lb, length la = length lb ->
    (forall i a b, nth_error la i = Some a -> nth_error lb i = Some b -> P a b) -> Forall2 P la lb.
  Proof.
    induction la as [|a la IH]; intros [|b lb] L H; try discriminate; constructor.
    - apply (H O); reflexivity.
    - apply IH; [cbn in L; lia|]. intros i. apply (H (S i)).
  Qed.
  Lemma Forall2_len {A B} (P : A -> B -> Prop) la lb : Forall2 P la lb -> length la = length lb.
  Proof. induction 1; cbn; auto. Qed.
  Lemma Forall2_replace {A B} (P Q : A -> B -> Prop) la lb i x :
    Forall2 P la lb -> (forall j a b, nth_error la j = Some a -> nth_error lb j = Some b -> j <> i -> P a b -> Q a b) ->
    (forall a, nth_error la i = Some a -> Q a x) -> Forall2 Q la (replace i x lb).
  Proof.
    intros H K X. apply Forall2_of_nth.
    - rewrite replace_length. eapply Forall2_len; eauto.
    - intros j a b E1 E2. rewrite replace_nth in E2. destruct (Nat.eqb j i) eqn:E.
      + apply Nat.eqb_eq in E. subst. destruct (nth_error lb i); [|discriminate]. injection E2 as <-. auto.
      + apply Nat.eqb_neq in E. destruct (Forall2_nth _ _ _ _ _ H E1) as (b' & E' & PB).
        rewrite E2 in E'. injection E' as <-. eauto.
  Qed.

  (* A framed value with the row of a message. *)
  Lemma tensor_in_spec m name v dt t : NoDup (map fst (m_entries m)) -> In (name, v) (m_entries m) -> tensor_of v = Some (dt, t) ->
    tensor_in V m name = t.
  Proof.
    unfold tensor_in. generalize (m_entries m). induction l as [|[n w] l IH]; intros D I T; [destruct I|].
    cbn in *. inversion D; subst. destruct I as [I|I].
    - injection I as -> ->. rewrite bytes_eqb_refl, T. reflexivity.
    - destruct (bytes_eqb n name) eqn:E.
      + apply bytes_eqb_eq in E. subst. exfalso. apply H1. now apply (in_map fst) in I.
      + auto.
  Qed.

  Lemma row_in_keys m name : length (t_keys _ (tensor_in V m name)) = length (t_values _ (tensor_in V m name)) ->
    map fst (row_in V m name) = t_keys _ (tensor_in V m name) /\ map snd (row_in V m name) = t_values _ (tensor_in V m name).
  Proof.
    unfold row_in. generalize (t_keys _ (tensor_in V m name)). generalize (t_values _ (tensor_in V m name)).
    intros vs ks. revert vs. induction ks as [|k ks IH]; intros [|v vs] L; try discriminate; auto.
    cbn in *. injection L as L. destruct (IH _ L). split; f_equal; auto.
  Qed.

  (* Writing the row of [m] into the store of one attribute. *)
  Lemma perform_dense err z size s ms m st row idx a t x : row = length ms -> (length ms < size)%nat ->
    nth_error (s_attributes s) idx = Some a -> nth_error st idx = Some x -> a_sparse a = false -> 
    Z.of_nat (length (t_values V t)) = volume (dims a) ->
    store_ok z size ms a x ->
    exists x', perform V err s row (the_action idx a t) st = Ok (replace idx x' st, true) /\
      store_ok false size ms a x' /\ (tensor_in V m (a_name a) = t -> store_ok z size (ms ++ [m]) a x').
  Proof.
    intros R L A X S C OK. unfold the_action. rewrite S. cbn [perform]. rewrite X. unfold store_ok in OK.
    destruct x as [data|b]; [|destruct OK; congruence]. destruct OK as (_ & D & Rows & Zr).
    assert (Lt : length (t_values V t) = vol a) by (unfold vol; lia).
    assert (B : (row * length (t_values V t) + length (t_values V t) <= length data)%nat) by nia.
    rewrite copy_n_ok by auto. cbn [bind]. eexists. split; [reflexivity|]. rewrite Lt in *.
    split; [|intros T]; cbn; (split; [auto|]); (split; [rewrite overlay_length; lia|]).
    - split; [|discriminate]. intros i m' E. rewrite row_overlay_other; auto.
      assert (i < length ms)%nat by (apply nth_error_Some; congruence). lia.
    - split.
      + intros i m' E. apply nth_error_snoc in E. destruct E as [E|[-> ->]].
        * rewrite row_overlay_other; auto. assert (i < length ms)%nat by (apply nth_error_Some; congruence). lia.
        * rewrite T, <- R. apply row_overlay_same; auto.
      + intros Zt j v E G. rewrite app_length in G. cbn in G. rewrite overlay_nth in E by lia.
        destruct (Nat.leb (row * vol a) j && Nat.ltb j (row * vol a + length (t_values V t)))%bool eqn:Q.
        * exfalso. apply andb_prop in Q. destruct Q as [_ Q]. apply Nat.ltb_lt in Q. nia.
        * apply (Zr Zt j v E). nia.
  Qed.

  Lemma perform_sparse err z size s ms m st row idx batch a t x : (length ms < size)%nat -> Z.of_nat size < 2 ^ 63 ->
    nth_error (s_attributes s) idx = Some a -> nth_error st idx = Some x -> usable batch a -> a_sparse a = true ->
    length (t_keys V t) = length (t_values V t) -> Forall (fun k => 0 <= k) (t_keys V t) ->
    tensor_in V m (a_name a) = t -> store_ok z size ms a x ->
    (Forall (fun k => k < volume (dims a)) (t_keys V t) ->
       exists x', perform V err s row (the_action idx a t) st = Ok (replace idx x' st, true) /\ store_ok z size (ms ++ [m]) a x') /\
    (~ Forall (fun k => k < volume (dims a)) (t_keys V t) ->
       exists st', perform V err s row (the_action idx a t) st = bad err (st', false)).
  Proof.
    intros L SZ A X U S K NN T OK. destruct (usable_inv _ _ U) as (SH & N & R & P & ST & _).
    unfold the_action. rewrite S. cbn [perform]. rewrite X, A. unfold store_ok in OK.
    destruct x as [data|b]; [destruct OK; congruence|]. destruct OK as (_ & B & G).
    rewrite SH, ST. rewrite <- T in *. destruct (row_in_keys m (a_name a) K) as [Kf Kv].
    set (rs := map (fun m0 => row_in V m0 (a_name a)) ms) in *.
    assert (Lr : length rs = length ms) by (unfold rs; apply map_length).
    destruct (append_of (dims a) batch (volume (dims a)) V rs b (row_in V m (a_name a)) (P S) R N B) as [Y1 Y2].
    - rewrite <- Kf in NN. rewrite Forall_map in NN. exact NN.
    - unfold rs. rewrite map_length. lia.
    - rewrite Kf, Kv in Y1, Y2. split.
      + intros F. destruct Y1 as (b' & E & B').
        { unfold good_sparse. rewrite <- Kf in F, NN. rewrite Forall_map in F, NN. 
          rewrite Forall_forall in *. intros kv I. split; [apply NN|apply F]; auto. }
        rewrite E. cbn [bind]. eexists. split; [reflexivity|]. cbn. split; [auto|].
        rewrite map_app. split; [exact B'|]. apply Forall_app. split; [exact G|]. constructor; [|constructor].
        unfold good_sparse. rewrite <- Kf in F, NN. rewrite Forall_map in F, NN.
        rewrite Forall_forall in *. intros kv I. split; [apply NN|apply F]; auto.
      + intros F. destruct Y2 as (b' & E).
        { intros Y. apply F. rewrite <- Kf. rewrite Forall_map. eapply Forall_impl; [|exact Y]. cbn beta. intros. lia. }
        rewrite E. cbn [bind]. eexists. reflexivity.
  Qed.

  Lemma keys_dec n (l : list Z) : Forall (fun k => k < n) l \/ ~ Forall (fun k => k < n) l.
  Proof. destruct (Forall_dec (fun k => k < n) (fun k => Z_lt_dec k n) l); auto. Qed.

  (* ---------- one instance ---------- *)

  Section Schema_.
  Variable size : nat.
  Variable s : schema.
  Hypothesis US : usable_schema size s.
  Notation attrs := (s_attributes s).

  Lemma SZ : Z.of_nat size < 2 ^ 63.
  Proof. destruct US as (_ & batch & L & _). lia. Qed.
  Lemma attr_usable a : In a attrs -> exists batch, usable batch a /\ Z.of_nat size <= batch.
  Proof. destruct US as (_ & batch & [L _] & F). rewrite Forall_forall in F. eauto. Qed.
  Lemma index_of a : In a attrs -> exists idx, get_index s (a_name a) = Some idx /\ nth_error attrs idx = Some a.
  Proof.
    intros I. destruct (schema_lookup _ _ (proj1 US)) as (_ & _ & G). apply In_nth_error in I. destruct I as [i I].
    exists i. split; auto. apply G. eauto.
  Qed.
  Lemma unknown_name name : ~ In name (map a_name attrs) -> get_index s name = None.
  Proof.
    intros I. destruct (schema_lookup _ _ (proj1 US)) as (_ & _ & G). destruct (get_index s name) as [i|] eqn:E; auto.
    apply G in E. destruct E as (a & E & <-). exfalso. apply I. apply in_map. eapply nth_error_In; eauto.
  Qed.
  Lemma attr_names : NoDup (map a_name attrs).
  Proof. apply (schema_lookup _ _ (proj1 US)). Qed.
  Lemma same_attr (l : list attribute) a b : NoDup (map a_name l) -> In a l -> In b l -> a_name a = a_name b -> a = b.
  Proof.
    induction l as [|x l IH]; intros N A B E; [destruct A|]. cbn in N. inversion N; subst.
    destruct A as [<-|A], B as [<-|B]; auto.
    - exfalso. apply H1. rewrite E. now apply in_map.
    - exfalso. apply H1. rewrite <- E. now apply in_map.
  Qed.
  Lemma nth_names (l : list attribute) i j a b : NoDup (map a_name l) -> nth_error l i = Some a -> nth_error l j = Some b ->
    a_name a = a_name b -> i = j.
  Proof.
    intros N A B E. apply (NoDup_nth_error (map a_name l)); auto.
    - rewrite map_length. apply nth_error_Some. congruence.
    - rewrite !nth_error_map, A, B. cbn. congruence.
  Qed.

  Definition entry_ok (e : list byte * pvalue) : Prop := exists a, In a attrs /\ a_name a = fst e /\ conforms a (snd e).

  Lemma entry_cases (e : list byte * pvalue) :
    entry_ok e \/
    (forall a, In a attrs -> a_name a = fst e -> ~ framed a (snd e)) \/
    (exists a, In a attrs /\ a_name a = fst e /\ framed a (snd e) /\ a_sparse a = true /\ ~ conforms a (snd e)).
  Proof.
    destruct (in_dec (list_eq_dec N.eq_dec) (fst e) (map a_name attrs)) as [I|I].
    - apply in_map_iff in I. destruct I as (a & E & I).
      destruct (framed_dec a (snd e)) as [F|F].
      + destruct (a_sparse a) eqn:S.
        * pose proof F as F'. destruct F' as (t & T & _). destruct (keys_dec (volume (dims a)) (t_keys V t)) as [K|K].
          -- left. exists a. repeat split; auto. intros _ dt t' T'. rewrite T in T'. injection T' as _ <-. exact K.
          -- right. right. exists a. repeat split; auto. intros [_ C]. apply K. apply (C S _ _ T).
        * left. exists a. repeat split; auto. congruence.
      + right. left. intros b IB EB. rewrite (same_attr _ b a attr_names IB I) by congruence. auto.
    - right. left. intros a IA EA. exfalso. apply I. rewrite <- EA. now apply in_map.
  Qed.

  (* An entry before its row is written. *)
  Lemma step_ok err z ms m row e done st : row = length ms -> (length ms < size)%nat ->
    clean_message V m -> In e (m_entries m) -> entry_ok e -> ~ In (fst e) done ->
    stores_ok z size ms m done attrs st ->
    exists x st', check_feature V err s (fst e) (snd e) = Ok (Some x) /\ perform V err s row x st = Ok (st', true) /\
      stores_ok z size ms m (fst e :: done) attrs st'.
  Proof.
    intros R L [CN CK] I (a & IA & EA & C) ND OK. destruct (index_of a IA) as (idx & GI & NA).
    destruct (attr_usable a IA) as (batch & U & _). rewrite EA in GI.
    destruct C as [F K].
    destruct (proj1 (check_feature_known err batch s (fst e) (snd e) idx a GI NA U) F) as (t & T & CF).
    exists (the_action idx a t).
    assert (TI : tensor_in V m (a_name a) = t).
    { rewrite EA. eapply tensor_in_spec; eauto. destruct e. exact I. }
    destruct (Forall2_nth _ _ _ _ _ OK NA) as (x & NX & OX1 & OX2).
    assert (OX : store_ok z size ms a x) by (apply OX2; rewrite EA; auto).
    destruct F as (t' & T' & FS & FF & FK & FV). rewrite T in T'. injection T' as <-.
    assert (E : exists x', perform V err s row (the_action idx a t) st = Ok (replace idx x' st, true) /\ store_ok z size (ms ++ [m]) a x').
    { destruct (a_sparse a) eqn:S.
      - apply (perform_sparse err z size s ms m st row idx batch a t x); auto using SZ.
        destruct e as [n v]. apply (CK n v (a_type a)); auto. apply (K eq_refl _ _ T).
      - destruct (perform_dense err z size s ms m st row idx a t x R L NA NX S (FV eq_refl) OX) as (x' & P & _ & Q).
        exists x'. split; auto. }
    destruct E as (x' & E1 & E2). exists (replace idx x' st). split; [exact CF|]. split; [exact E1|].
    eapply Forall2_replace; [exact OK| |].
    - cbn beta. intros j b y NB NY D [P Q]. split.
      + intros [H|H]; [|auto]. exfalso. apply D. apply (nth_names attrs j idx b a attr_names NB NA). congruence.
      + intros H. apply Q. intros H'. apply H. now right.
    - cbn beta. intros b NB. rewrite NA in NB. injection NB as <-. split; [auto|]. intros H. exfalso. apply H. left. congruence.
  Qed.

  Lemma decode_features_good err z ms m row : row = length ms -> (length ms < size)%nat -> clean_message V m ->
    forall es pre st, m_entries m = pre ++ es -> Forall entry_ok es -> stores_ok z size ms m (map fst pre) attrs st ->
    exists st', decode_features V err s row es st = Ok (st', true) /\ stores_ok z size ms m (map fst (m_entries m)) attrs st'.
  Proof.
    intros R L C. induction es as [|e es IH]; intros pre st E F OK.
    - rewrite app_nil_r in E. rewrite E. exists st. split; [reflexivity|auto].
    - inversion F; subst. assert (I : In e (m_entries m)) by (rewrite E; apply in_app_iff; right; now left).
      assert (ND : ~ In (fst e) (map fst pre)).
      { destruct C as [CN _]. rewrite E, map_app in CN. cbn in CN. apply NoDup_remove_2 in CN. intros H. apply CN. apply in_app_iff. auto. }
      destruct (step_ok err z ms m (length ms) e (map fst pre) st eq_refl L C I H1 ND OK) as (x & st' & A & B & D).
      destruct e as [n v]. cbn [decode_features]. cbn [fst snd] in A. rewrite A. cbn [bind]. rewrite B. cbn [bind].
      apply (IH (pre ++ [(n, v)])); auto.
      + rewrite <- app_assoc. exact E.
      + rewrite map_app. cbn [map fst]. eapply Forall2_of_nth; [eapply Forall2_len; eauto|].
        intros i a y NA NY. destruct (Forall2_nth _ _ _ _ _ D NA) as (y' & NY' & P & Q). rewrite NY in NY'. injection NY' as <-.
        cbn [fst] in P, Q. rewrite in_app_iff. cbn [In]. cbn [In] in P, Q. split; intros H; [apply P|apply Q]; tauto.
  Qed.

  Lemma decode_features_bad err z ms m row : row = length ms -> (length ms < size)%nat -> clean_message V m ->
    forall es pre st, m_entries m = pre ++ es -> ~ Forall entry_ok es -> stores_ok z size ms m (map fst pre) attrs st ->
    exists st', decode_features V err s row es st = bad err (st', false).
  Proof.
    intros R L C. induction es as [|e es IH]; intros pre st E F OK; [destruct F; constructor|].
    assert (I : In e (m_entries m)) by (rewrite E; apply in_app_iff; right; now left).
    assert (ND : ~ In (fst e) (map fst pre)).
    { destruct C as [CN _]. rewrite E, map_app in CN. cbn in CN. apply NoDup_remove_2 in CN. intros H. apply CN. apply in_app_iff. auto. }
    destruct (entry_cases e) as [EO|[NF|(a & IA & EA & FR & S & NC)]].
    - destruct (step_ok err z ms m row e (map fst pre) st R L C I EO ND OK) as (x & st' & A & B & D).
      destruct e as [n v]. cbn [decode_features]. cbn [fst snd] in A. rewrite A. cbn [bind]. rewrite B. cbn [bind].
      apply (IH (pre ++ [(n, v)])); auto.
      + rewrite <- app_assoc. exact E.
      + rewrite map_app. cbn [map fst]. eapply Forall2_of_nth; [eapply Forall2_len; eauto|].
        intros i a y NA NY. destruct (Forall2_nth _ _ _ _ _ D NA) as (y' & NY' & P & Q). rewrite NY in NY'. injection NY' as <-.
        cbn [fst] in P, Q. rewrite in_app_iff. cbn [In]. cbn [In] in P, Q. split; intros H; [apply P|apply Q]; tauto.
    - exists st. destruct e as [n v]. cbn [decode_features].
      assert (CF : check_feature V err s n v = bad err None).
      { destruct (in_dec (list_eq_dec N.eq_dec) n (map a_name attrs)) as [IN|IN].
        - apply in_map_iff in IN. destruct IN as (a & EA & IA). destruct (index_of a IA) as (idx & GI & NA).
          destruct (attr_usable a IA) as (batch & U & _). rewrite EA in GI.
          apply (check_feature_known err batch s n v idx a GI NA U). apply NF; auto.
        - apply check_feature_unknown. now apply unknown_name. }
      rewrite CF. unfold bad. destruct err; reflexivity.
    - destruct (index_of a IA) as (idx & GI & NA). destruct (attr_usable a IA) as (batch & U & _). rewrite EA in GI.
      destruct (proj1 (check_feature_known err batch s (fst e) (snd e) idx a GI NA U) FR) as (t & T & CF).
      destruct (Forall2_nth _ _ _ _ _ OK NA) as (x & NX & OX1 & OX2).
      assert (OX : store_ok z size ms a x) by (apply OX2; rewrite EA; auto).
      pose proof FR as (t' & T' & FS & FF & FK & FV). rewrite T in T'. injection T' as <-.
      assert (TI : tensor_in V m (a_name a) = t).
      { rewrite EA. destruct C as [CN _]. eapply tensor_in_spec; eauto. destruct e. exact I. }
      destruct (perform_sparse err z size s ms m st row idx batch a t x) as [_ P]; auto using SZ.
      { destruct e as [n v]. destruct C as [_ CK]. apply (CK n v (a_type a)); auto. }
      destruct P as (st' & P).
      { intros K. apply NC. split; auto. intros _ dt t' T'. rewrite T in T'. injection T' as _ <-. exact K. }
      exists st'. destruct e as [n v]. cbn [decode_features]. cbn [fst snd] in CF. rewrite CF. cbn [bind]. rewrite P.
      unfold bad. destruct err; reflexivity.
  Qed.

  Lemma fits_entries m : clean_message V m ->
    (fits V s m <-> Forall entry_ok (m_entries m) /\ length (m_entries m) = length attrs).
  Proof.
    intros [CN _]. split.
    - intros [P F]. split.
      + apply Forall_forall. intros [n v] I. assert (IN : In n (map a_name attrs)).
        { eapply Permutation_in; [exact P|]. apply (in_map fst) in I. exact I. }
        apply in_map_iff in IN. destruct IN as (a & EA & IA). exists a. repeat split; auto; apply (F n v a); auto.
      + rewrite <- (map_length fst), <- (map_length a_name attrs). now apply Permutation_length.
    - intros [F L]. split.
      + apply NoDup_Permutation_bis; auto.
        * rewrite !map_length. lia.
        * intros n I. apply in_map_iff in I. destruct I as (e & <- & I). rewrite Forall_forall in F.
          destruct (F e I) as (a & IA & <- & _). now apply in_map.
      + intros n v a I IA EA. rewrite Forall_forall in F. destruct (F _ I) as (b & IB & EB & C). cbn in EB, C.
        rewrite (same_attr attrs a b attr_names IA IB) by congruence. exact C.
  Qed.

  Lemma entries_ok_dec es : Forall entry_ok es \/ ~ Forall entry_ok es.
  Proof.
    induction es as [|e es IH]; [left; constructor|].
    assert (D : entry_ok e \/ ~ entry_ok e).
    { destruct (entry_cases e) as [?|[NF|(a & IA & EA & _ & _ & NC)]]; [auto| |]; right; intros (b & IB & EB & C).
      - apply (NF b IB EB). apply C.
      - rewrite (same_attr attrs b a attr_names IB IA) in C by congruence. auto. }
    destruct D as [D|D]; [|right; intros H; inversion H; auto].
    destruct IH as [IH|IH]; [left; constructor; auto|right; intros H; inversion H; auto].
  Qed.
  Lemma fits_dec m : clean_message V m -> fits V s m \/ ~ fits V s m.
  Proof.
    intros C. rewrite (fits_entries m C). destruct (entries_ok_dec (m_entries m)) as [F|F]; [|right; tauto].
    destruct (Nat.eq_dec (length (m_entries m)) (length attrs)); [left|right]; tauto.
  Qed.

  Lemma decode_good err z ms m st : (length ms < size)%nat -> clean_message V m -> fits V s m -> all_ok z size ms attrs st ->
    exists st', decode_instance V err s (length ms) (Some m) st = Ok (st', true) /\ all_ok z size (ms ++ [m]) attrs st'.
  Proof.
    intros L C F OK. pose proof F as F'. apply (fits_entries m C) in F'. destruct F' as [FE FL].
    destruct (decode_features_good err z ms m (length ms) eq_refl L C (m_entries m) [] st eq_refl FE (all_stores _ _ _ _ _ _ OK)) as (st' & E & OK').
    exists st'. cbn [decode_instance]. rewrite E. cbn [bind]. rewrite FL, Nat.eqb_refl. split; auto.
    apply (stores_all _ _ _ _ _ _ _ OK'). intros a IA. destruct F as [P _]. eapply Permutation_in; [apply Permutation_sym; exact P|]. now apply in_map.
  Qed.
  Lemma decode_bad err z ms i st : (length ms < size)%nat -> clean V i -> ~ good V s i -> all_ok z size ms attrs st ->
    exists st', decode_instance V err s (length ms) i st = bad err (st', false).
  Proof.
    intros L C NG OK. destruct i as [m|]; [|eexists; reflexivity]. specialize (C m eq_refl).
    assert (NF : ~ fits V s m) by (intros F; apply NG; exists m; auto). rewrite (fits_entries m C) in NF.
    destruct (entries_ok_dec (m_entries m)) as [FE|FE].
    - destruct (decode_features_good err z ms m (length ms) eq_refl L C (m_entries m) [] st eq_refl FE (all_stores _ _ _ _ _ _ OK)) as (st' & E & OK').
      exists st'. cbn [decode_instance]. rewrite E. cbn [bind]. destruct (Nat.eqb (length (m_entries m)) (length attrs)) eqn:Q; auto.
      apply Nat.eqb_eq in Q. tauto.
    - destruct (decode_features_bad err z ms m (length ms) eq_refl L C (m_entries m) [] st eq_refl FE (all_stores _ _ _ _ _ _ OK)) as (st' & E).
      exists st'. cbn [decode_instance]. rewrite E. unfold bad. destruct err; reflexivity.
  Qed.

  (* C43 *)
  Lemma accepts_exactly err z ms m st : (length ms < size)%nat -> clean_message V m -> all_ok z size ms attrs st ->
    ((exists st', decode_instance V err s (length ms) (Some m) st = Ok (st', true)) <-> fits V s m).
  Proof.
    intros L C OK. split.
    - intros (st' & E). destruct (fits_dec m C) as [F|F]; auto.
      destruct (decode_bad err z ms (Some m) st L) as (st'' & E'); auto.
      + intros m' H. now injection H as <-.
      + intros (m' & H & F'). injection H as <-. auto.
      + rewrite E in E'. unfold bad in E'. destruct err; discriminate.
    - intros F. destruct (decode_good err z ms m st L C F OK) as (st' & E & _). eauto.
  Qed.

  (* Bad instances found early. *)
  Lemma early_prefix err ms row : row = length ms -> (length ms < size)%nat -> forall pre post st,
    Forall (fun e => exists a, In a attrs /\ a_name a = fst e /\ a_sparse a = false /\ conforms a (snd e)) pre ->
    all_ok false size ms attrs st ->
    exists st', decode_features V err s row (pre ++ post) st = decode_features V err s row post st' /\ all_ok false size ms attrs st'.
  Proof.
    intros R L. induction pre as [|e pre IH]; intros post st F OK; [exists st; auto|].
    inversion F; subst. destruct H1 as (a & IA & EA & S & [FR _]).
    destruct (index_of a IA) as (idx & GI & NA). destruct (attr_usable a IA) as (batch & U & _). rewrite EA in GI.
    destruct (proj1 (check_feature_known err batch s (fst e) (snd e) idx a GI NA U) FR) as (t & T & CF).
    destruct (Forall2_nth _ _ _ _ _ OK NA) as (x & NX & OX).
    pose proof FR as (t' & T' & FS & FF & FK & FV). rewrite T in T'. injection T' as <-.
    destruct (perform_dense err false size s ms (mk_message V [] []) st (length ms) idx a t x eq_refl L NA NX S (FV S) OX) as (x' & P & Q & _).
    destruct e as [n v]. cbn [app decode_features]. cbn [fst snd] in CF. rewrite CF. cbn [bind]. rewrite P. cbn [bind].
    apply IH; auto. eapply Forall2_replace; [exact OK|auto|]. intros b NB. rewrite NA in NB. injection NB as <-. exact Q.
  Qed.
  Lemma decode_early err ms i st : (length ms < size)%nat -> clean V i -> ~ good V s i -> found_early V s i -> all_ok false size ms attrs st ->
    exists st', decode_instance V err s (length ms) i st = bad err (st', false) /\ all_ok false size ms attrs st'.
  Proof.
    intros L C NG FE OK. destruct i as [m|]; [|exists st; auto]. specialize (C m eq_refl).
    destruct (FE m eq_refl) as (pre & post & E & F & H). cbn [decode_instance].
    destruct (early_prefix err ms (length ms) eq_refl L pre post st F OK) as (st' & EQ & OK'). exists st'. split; auto.
    rewrite <- E in EQ. rewrite EQ.
    destruct post as [|[n v] post].
    - cbn [decode_features bind]. destruct (Nat.eqb (length (m_entries m)) (length attrs)) eqn:Q; auto.
      exfalso. apply NG. exists m. split; auto. apply fits_entries; auto. apply Nat.eqb_eq in Q. split; auto.
      rewrite app_nil_r in E. rewrite E. eapply Forall_impl; [|exact F]. intros e (a & ? & ? & ? & ?). exists a. auto.
    - cbn [decode_features].
      assert (CF : check_feature V err s n v = bad err None).
      { destruct (in_dec (list_eq_dec N.eq_dec) n (map a_name attrs)) as [IN|IN].
        - apply in_map_iff in IN. destruct IN as (a & EA & IA). destruct (index_of a IA) as (idx & GI & NA).
          destruct (attr_usable a IA) as (batch & U & _). rewrite EA in GI.
          apply (check_feature_known err batch s n v idx a GI NA U). apply (H a IA EA).
        - apply check_feature_unknown. now apply unknown_name. }
      rewrite CF. unfold bad. destruct err; reflexivity.
  Qed.
  Lemma dense_found_early i : has_sparse s = false -> found_early V s i.
  Proof.
    intros D m ->. assert (DS : forall a, In a attrs -> a_sparse a = false).
    { intros a IA. unfold has_sparse in D. destruct (a_sparse a) eqn:S; auto.
      assert (existsb a_sparse attrs = true) by (apply existsb_exists; eauto). congruence. }
    generalize (m_entries m). induction l as [|e l IH]; [exists [], []; repeat split; constructor|].
    destruct (entry_cases e) as [(a & IA & EA & C)|[NF|(a & IA & _ & _ & S & _)]].
    - destruct IH as (pre & post & -> & F & H). exists (e :: pre), post. repeat split; auto. constructor; auto.
      exists a. auto.
    - exists [], (e :: l). repeat split; auto.
    - rewrite DS in S by auto. discriminate.
  Qed.

  End Schema_.
End Proof_pb.
