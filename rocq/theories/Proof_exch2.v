(* More proofs: other arrays, DLPack, lifetimes, strings. *)
From Verif Require Import Common Model_num Model_tsr Spec_tsr Proof_tsr Model_exch Spec_exch Proof_exch.
Local Open Scope Z_scope.

Lemma object_guard cpy writable dt : cpy = true \/ (writable = true /\ dt <> D_string) ->
  negb cpy && match dt with D_string => true | _ => false end = false.
Proof. intros [->|[_ N]]; [reflexivity|]. destruct cpy; [reflexivity|]. destruct dt; congruence || reflexivity. Qed.

(* Items of less than 8 bytes: all strides become zero. *)
Lemma numpy_small mem writable b cpy dt n later :
  get_data_type b = Some dt -> (cpy = true \/ (writable = true /\ dt <> D_string)) ->
  i_item b < 8 -> i_shape b = [n] -> i_strides b = [i_item b] -> compact mem b -> length later = length mem ->
  exists t, numpy_to_tensor mem writable b cpy = Ok t /\ t_shape t = [n] /\
    forall i, 0 <= i < n -> tensor_item later t [i] = item_of (if cpy then mem else later) b [0].
Proof.
  intros G W I8 ES ET C HL. pose proof C as [Pos [Len [St [Re [It [P0 [P1 V]]]]]]].
  pose proof (positive_volume _ Pos) as VP.
  destruct (make_array_ok mem writable b cpy dt G W ltac:(lia) P0 P1) as [a [E [SZ [PA H]]]].
  unfold numpy_to_tensor, is_object. rewrite G, (object_guard cpy writable dt W).
  unfold make_dense_tensor. rewrite E. cbn [bind]. rewrite ES, ET, SZ. cbn [map].
  rewrite Z.div_small by lia. rewrite ES in *. assert (Hn : volume [n] = n) by (unfold volume; cbn; lia). rewrite Hn in *.
  rewrite strided_accepts; [|discriminate|exact Pos|repeat constructor; lia|cbn; lia|discriminate|reflexivity].
  cbn [reach Z.abs]. replace ((n - 1) * 0 + 0) with 0 by lia. destruct (0 <? n) eqn:E0; [|lia]. cbn [bind].
  eexists. split; [reflexivity|]. split; [reflexivity|]. intros i Hi. unfold tensor_item. cbn [t_array t_strides place].
  rewrite H by (auto; lia). unfold item_of. rewrite ET. cbn [place]. f_equal. lia.
Qed.

(* Arrays with gaps are refused. *)
Lemma place_last : forall shape strides, length strides = length shape -> Forall (fun s => 0 <= s) strides ->
  place strides (map (fun d => d - 1) shape) = reach shape strides.
Proof.
  induction shape as [|d shape IH]; intros [|s strides] L F; try discriminate; [reflexivity|]. inversion F; subst.
  cbn [map place reach]. rewrite IH by (auto; injection L; auto). rewrite Z.abs_eq by lia. lia.
Qed.
Lemma last_in_range shape : positive shape -> in_range shape (map (fun d => d - 1) shape).
Proof. induction 1; cbn; constructor; auto. lia. Qed.

Lemma numpy_gaps mem writable b cpy dt :
  get_data_type b = Some dt -> (cpy = true \/ (writable = true /\ dt <> D_string)) ->
  i_item b = 8 -> positive (i_shape b) -> 0 <= i_ptr b -> readable mem b ->
  Forall (fun s => 0 <= s < 2 ^ 63 /\ (8 | s)) (i_strides b) ->
  volume (i_shape b) * 8 <= reach (i_shape b) (i_strides b) < 2 ^ 63 ->
  numpy_to_tensor mem writable b cpy = Throw Invalid_argument.
Proof.
  intros G W I8 Pos P0 [Len Rd] St Re. pose proof (positive_volume _ Pos) as VP.
  assert (NN : Forall (fun s => 0 <= s) (i_strides b)) by (eapply Forall_impl; [|exact St]; cbn; intros; lia).
  assert (P1 : i_ptr b + reach (i_shape b) (i_strides b) + 8 <= Z.of_nat (length mem)).
  { specialize (Rd _ (last_in_range _ Pos)). unfold item_of, bytes_at in Rd. rewrite (place_last _ _ Len NN), I8 in Rd.
    destruct (_ && _) eqn:E in Rd; [|congruence]. lia. }
  destruct (make_array_ok mem writable b cpy dt G W ltac:(lia) P0 ltac:(lia)) as [a [E [SZ [PA H]]]].
  unfold numpy_to_tensor, is_object. rewrite G, (object_guard cpy writable dt W).
  unfold make_dense_tensor. rewrite E. cbn [bind]. rewrite SZ.
  destruct (i_shape b) as [|d shape] eqn:ES.
  { unfold reach in Re. cbn in Re. lia. }
  rewrite (reach_div 8 ltac:(lia) _ _ St) in Re.
  rewrite strided_accepts.
  - destruct (reach (d :: shape) (map (fun s => s / 8) (i_strides b)) <? volume (d :: shape)) eqn:E0; [lia|reflexivity].
  - discriminate.
  - exact Pos.
  - apply Forall_map. eapply Forall_impl; [|exact St]. intros s [Hs _]. cbn beta.
    assert (0 <= s / 8) by (apply Z.div_pos; lia). assert (s / 8 <= s) by (apply Z.div_le_upper_bound; lia). lia.
  - lia.
  - destruct (i_strides b); discriminate.
  - rewrite map_length. exact Len.
Qed.

(* Without strides: a row-major buffer in any shape of the same size. *)
Lemma positive_max shape : positive shape -> map (Z.max 1) shape = shape.
Proof. induction 1; cbn; [reflexivity|]. rewrite IHForall. f_equal. lia. Qed.
Lemma positive_reasonable shape : positive shape -> volume shape < 2 ^ 63 -> reasonable shape.
Proof.
  intros P V. split; [eapply Forall_impl; [|exact P]; cbn; intros; lia|]. rewrite positive_max by exact P. exact V.
Qed.

Lemma default_layout mem writable shape b cpy dt later :
  get_data_type b = Some dt -> (cpy = true \/ (writable = true /\ dt <> D_string)) -> row_major_buffer mem b ->
  positive shape -> volume shape = volume (i_shape b) -> volume shape < 2 ^ 63 -> length later = length mem ->
  exists t, make_dense_tensor mem writable shape b None cpy = Ok t /\ t_type t = dt /\ t_shape t = shape /\
    forall idx idx', in_range shape idx -> in_range (i_shape b) idx' -> row_major shape idx = row_major (i_shape b) idx' ->
      tensor_item later t idx = item_of (if cpy then mem else later) b idx'.
Proof.
  intros G W [PosB [It [P0 [Pl P1]]]] Pos VE VB HL. pose proof (positive_volume _ Pos) as VP.
  destruct (make_array_ok mem writable b cpy dt G W ltac:(lia) P0 P1) as [a [E [SZ [PA H]]]].
  unfold make_dense_tensor. rewrite E. cbn [bind].
  assert (D : dense_tensor shape (array_size a) [] = Ok (std_strides shape)).
  { destruct shape as [|d shape]; [reflexivity|]. rewrite dense_default by (discriminate || apply positive_reasonable; assumption).
    destruct (volume (d :: shape) <=? array_size a) eqn:E0; [reflexivity|lia]. }
  rewrite D. cbn [bind]. eexists. split; [reflexivity|]. split; [reflexivity|]. split; [reflexivity|].
  intros idx idx' R R' RM. unfold tensor_item. cbn [t_array t_strides]. rewrite <- row_major_place by exact R.
  pose proof (place_std shape idx R) as B. rewrite <- row_major_place in B by exact R.
  rewrite H by (auto; lia). unfold item_of. rewrite Pl by exact R'. rewrite RM. reflexivity.
Qed.

(* ---------------- DLPack ---------------- *)

Lemma map_ssize shape : Forall (fun d => d < 2 ^ 63) shape -> map as_ssize shape = shape.
Proof. induction 1; cbn [map]; [reflexivity|]. rewrite IHForall, as_ssize_small by assumption. reflexivity. Qed.

Lemma to_int_small n : 0 <= n < 2 ^ 31 -> to_int n = n.
Proof. intros H. unfold to_int. rewrite Z.mod_small by lia. destruct (n <? 2 ^ 31) eqn:E; lia. Qed.

Lemma cast_strides_place (ss : list Z) idx :
  place (match cast_vector (fun s => s) ss with Some l => l | None => [] end) idx = place ss idx.
Proof. destruct ss as [|s ss]; [reflexivity|]. unfold cast_vector. rewrite map_id. reflexivity. Qed.

Lemma cast_shape_dims ss : Forall (fun d => d < 2 ^ 63) ss ->
  match cast_vector as_ssize ss with Some l => l | None => [] end = ss.
Proof. intros F. destruct ss as [|s ss]; [reflexivity|]. unfold cast_vector. apply map_ssize. exact F. Qed.

Lemma dlpack_shows mem t : proper_tensor mem t -> t_type t <> D_string ->
  Forall (fun d => d < 2 ^ 63) (t_shape t) -> Z.of_nat (length (t_shape t)) < 2 ^ 31 ->
  exists d, as_dlpack (Dense t) 16 = Ok d /\ dl_dims d = t_shape t /\ d_ndim d = Z.of_nat (length (t_shape t)) /\
    dl_kind (d_code d) = type_kind (t_type t) /\ d_bits d * d_lanes d = 8 * item_size (t_type t) /\
    forall later, length later = length mem \/ (exists l, t_array t = Owned l) ->
    let '(m, b) := tensor_to_buffer later t in
    forall idx, in_range (t_shape t) idx ->
      dl_item m (i_ptr b) d idx = tensor_item later t idx /\ tensor_item later t idx <> None.
Proof.
  intros PT NS FD RK.
  assert (T : exists c, as_dl_data_type (t_type t) = Ok (c, 8 * item_size (t_type t)) /\ dl_kind c = type_kind (t_type t)).
  { destruct (t_type t) as [| | | |[]|]; try congruence; eexists; split; reflexivity. }
  destruct T as [c [Tc Tk]]. unfold as_dlpack. cbn [Z.eqb negb]. change (16 =? 16) with true. cbn [negb].
  rewrite Tc. cbn [bind]. eexists. split; [reflexivity|]. unfold dl_dims. cbn [d_shape d_ndim d_code d_bits d_lanes].
  split; [apply cast_shape_dims; exact FD|]. split; [apply to_int_small; lia|]. split; [exact Tk|]. split; [lia|].
  intros later HL. pose proof (buffer_shows mem t PT later HL) as B. unfold dl_item. cbn [d_bits d_lanes d_offset d_strides].
  destruct (tensor_to_buffer later t) as [m b] eqn:TB. destruct B as [B1 [B2 [B3 B4]]]. intros idx R.
  destruct (B4 idx R) as [X Y]. split; [|exact Y]. rewrite <- X. unfold item_of. rewrite B2.
  replace (8 * item_size (t_type t) * 1 / 8) with (item_size (t_type t)) by (rewrite Z.mul_1_r, Z.mul_comm, Z.div_mul; lia).
  f_equal. rewrite cast_strides_place.
  assert (SB : i_strides b = map (fun s => item_size (t_type t) * s) (t_strides t)).
  { unfold tensor_to_buffer in TB. destruct (t_array t); injection TB as <- <-; reflexivity. }
  rewrite SB, place_scale. lia.
Qed.

(* ---------------- lifetimes ---------------- *)
Close Scope Z_scope.

Definition live (l : list export) : nat := length (filter (fun e => negb (x_deleted e)) l).
Definition sound (e : export) : Prop := x_named e = true -> x_deleted e = negb (x_capsule e).
Definition inv (s : life) : Prop :=
  l_count s = (if l_holder s then 1 else 0) + live (l_exports s) /\ l_freed s = Nat.eqb (l_count s) 0 /\ Forall sound (l_exports s).

Lemma live_app a b : live (a ++ b) = live a + live b.
Proof. unfold live. rewrite filter_app, app_length. reflexivity. Qed.

Lemma set_nth_split {A} k (x e : A) l : nth_error l k = Some e ->
  exists a b, l = a ++ e :: b /\ set_nth k x l = a ++ x :: b /\ length a = k.
Proof.
  revert l. induction k as [|k IH]; intros [|y l] H; try discriminate.
  - cbn in H. injection H as ->. exists [], l. auto.
  - cbn in H. destruct (IH l H) as [a [b [E1 [E2 E3]]]]. exists (y :: a), b. cbn. rewrite E1 at 1. rewrite E2, E3. auto.
Qed.

Lemma sound_set k x e l : nth_error l k = Some e -> sound x -> Forall sound l -> Forall sound (set_nth k x l).
Proof.
  intros H S F. destruct (set_nth_split k x e l H) as [a [b [-> [-> _]]]].
  apply Forall_app in F. destruct F as [Fa Fb]. inversion Fb; subst. apply Forall_app. split; [exact Fa|constructor; assumption].
Qed.

Lemma live_set k x e l : nth_error l k = Some e ->
  live (set_nth k x l) + (if x_deleted e then 0 else 1) = live l + (if x_deleted x then 0 else 1).
Proof.
  intros H. destruct (set_nth_split k x e l H) as [a [b [-> [-> _]]]]. rewrite !live_app. unfold live. cbn [filter].
  destruct (x_deleted e), (x_deleted x); cbn [negb length]; lia.
Qed.

Lemma nth_set_same {A} k (x e : A) l : nth_error l k = Some e -> nth_error (set_nth k x l) k = Some x.
Proof. revert l. induction k as [|k IH]; intros [|y l] H; try discriminate; [reflexivity|]. cbn. apply IH. exact H. Qed.

Lemma set_set {A} k (x y : A) l : set_nth k x (set_nth k y l) = set_nth k x l.
Proof. revert l. induction k as [|k IH]; intros [|z l]; try reflexivity. cbn. rewrite IH. reflexivity. Qed.

Lemma delete_inv s k e0 e : inv s -> nth_error (l_exports s) k = Some e0 -> x_deleted e0 = false -> x_deleted e = false ->
  sound (mk_export (x_capsule e) (x_named e) true) ->
  exists s', deleter (with_export s k e) k e = Ok s' /\ inv s' /\ l_exports s' = set_nth k (mk_export (x_capsule e) (x_named e) true) (l_exports s).
Proof.
  intros [C [F S]] N D0 D So. unfold deleter. rewrite D. unfold dec, with_export. cbn [l_count l_freed l_exports l_holder].
  rewrite set_set. set (e' := mk_export (x_capsule e) (x_named e) true) in *.
  pose proof (live_set k e' e0 _ N) as L. rewrite D0 in L. cbn [x_deleted e'] in L.
  destruct (l_count s) as [|n] eqn:Ec; [lia|]. rewrite F. cbn [Nat.eqb]. eexists. split; [reflexivity|]. split; [|reflexivity].
  split; [cbn [l_count l_holder l_exports]; lia|]. split; [reflexivity|]. cbn [l_exports]. eapply sound_set; eassumption.
Qed.

Lemma with_same s k e : nth_error (l_exports s) k = Some e -> with_export s k e = s.
Proof.
  intros H. unfold with_export. destruct s as [h c f x]. cbn [l_exports l_holder l_count l_freed] in *. f_equal.
  destruct (set_nth_split k e e x H) as [a [b [E1 [E2 _]]]]. rewrite E2, E1. reflexivity.
Qed.

Lemma step_inv s ev r : inv s -> life_step s ev = Some r -> exists s', r = Ok s' /\ inv s'.
Proof.
  intros I H. pose proof I as [C [F S]]. destruct ev; cbn [life_step] in H.
  - destruct (l_holder s) eqn:Eh; [|discriminate]. injection H as <-. unfold dec. cbn [l_count l_freed l_exports l_holder].
    rewrite F. destruct (l_count s) as [|n]; [lia|]. cbn [Nat.eqb].
    eexists. split; [reflexivity|]. split; [cbn [l_count l_holder l_exports]; lia|]. split; [reflexivity|exact S].
  - destruct (l_holder s) eqn:Eh; [|discriminate]. injection H as <-. unfold inc. rewrite F.
    destruct (l_count s) as [|n] eqn:Ec; [lia|]. cbn [Nat.eqb bind l_holder l_count l_freed l_exports]. destruct fails.
    + unfold dec. cbn [l_count l_freed l_exports l_holder]. eexists. split; [reflexivity|]. rewrite Eh.
      split; [cbn [l_count l_holder l_exports]; lia|]. split; [reflexivity|exact S].
    + eexists. split; [reflexivity|]. rewrite Eh. split.
      * cbn [l_count l_holder l_exports]. rewrite live_app. unfold live at 2. cbn. lia.
      * split; [reflexivity|]. cbn [l_exports]. apply Forall_app. split; [exact S|]. constructor; [|constructor]. intros _. reflexivity.
  - destruct (nth_error (l_exports s) k) as [e|] eqn:En; [|discriminate].
    destruct (x_capsule e && x_named e) eqn:Ee; [|discriminate]. injection H as <-. eexists. split; [reflexivity|].
    unfold with_export. split; [|split]; cbn [l_count l_holder l_exports l_freed].
    + pose proof (live_set k (mk_export true false (x_deleted e)) e _ En) as L. cbn [x_deleted] in L. lia.
    + exact F.
    + eapply sound_set; [exact En| |exact S]. intros X; discriminate X.
  - destruct (nth_error (l_exports s) k) as [e|] eqn:En; [|discriminate].
    destruct (x_capsule e) eqn:Ec; [|discriminate]. injection H as <-.
    assert (Se : sound e) by (rewrite Forall_forall in S; apply S; eapply nth_error_In; exact En).
    destruct (x_named e) eqn:Ee.
    + assert (D : x_deleted e = false) by (rewrite (Se Ee), Ec; reflexivity).
      destruct (delete_inv s k e (mk_export false true (x_deleted e)) I En D D) as [s' [E [I' _]]].
      * intros _. reflexivity.
      * exists s'. auto.
    + eexists. split; [reflexivity|]. unfold with_export. split; [|split]; cbn [l_count l_holder l_exports l_freed].
      * pose proof (live_set k (mk_export false false (x_deleted e)) e _ En) as L. cbn [x_deleted] in L. lia.
      * exact F.
      * eapply sound_set; [exact En| |exact S]. intros X; discriminate X.
  - destruct (nth_error (l_exports s) k) as [e|] eqn:En; [|discriminate].
    destruct (negb (x_named e) && negb (x_deleted e)) eqn:Ee; [|discriminate]. injection H as <-.
    apply andb_true_iff in Ee. destruct Ee as [Nn Nd]. apply negb_true_iff in Nn. apply negb_true_iff in Nd.
    destruct (delete_inv s k e e I En Nd Nd) as [s' [E [I' _]]].
    + intros X. cbn in X. congruence.
    + rewrite (with_same s k e En) in E. exists s'. auto.
Qed.

Lemma run_inv : forall l s r, inv s -> life_run s l = Some r -> exists s', r = Ok s' /\ inv s'.
Proof.
  induction l as [|ev l IH]; intros s r I H; cbn [life_run] in H.
  - injection H as <-. exists s. auto.
  - destruct (life_step s ev) as [r1|] eqn:E; [|discriminate]. destruct (step_inv s ev r1 I E) as [s1 [-> I1]]. exact (IH s1 r I1 H).
Qed.

Lemma born_inv : inv born.
Proof. repeat split; constructor. Qed.

Lemma needs_live l : Forall sound l -> (0 < live l <-> Exists needs l).
Proof.
  induction 1 as [|e l S F IH]; [split; intros H; [cbn in H; lia|inversion H]|].
  assert (N : needs e <-> x_deleted e = false).
  { unfold needs. unfold sound in S. destruct (x_named e).
    - rewrite (S eq_refl). destruct (x_capsule e); cbn; intuition congruence.
    - intuition congruence. }
  rewrite Exists_cons, <- IH, N. unfold live. cbn [filter]. destruct (x_deleted e); cbn [negb length]; intuition (try congruence; try lia).
Qed.

Lemma life_l : forall events r, life_run born events = Some r ->
  exists s, r = Ok s /\ (l_freed s = false <-> l_holder s = true \/ Exists needs (l_exports s)).
Proof.
  intros events r H. destruct (run_inv events born r born_inv H) as [s [-> [C [F S]]]]. exists s. split; [reflexivity|].
  rewrite <- (needs_live _ S), F. destruct (Nat.eqb_spec (l_count s) 0) as [Z|Z]; destruct (l_holder s); intuition (try congruence; try lia).
Qed.

(* What the flags say about the past. *)
Definition past (events : list life_event) (k : nat) (e : export) : Prop :=
  (x_capsule e = false <-> In (L_collect k) events) /\ (x_named e = false <-> In (L_take k) events) /\
  (x_named e = false -> (x_deleted e = true <-> In (L_done k) events)) /\ (In (L_done k) events -> x_named e = false).
Definition mentions (k : nat) (ev : life_event) : Prop :=
  match ev with L_take j | L_collect j | L_done j => j = k | _ => False end.
Definition tells (events : list life_event) (s : life) : Prop :=
  (l_holder s = false <-> In L_drop events) /\ length (l_exports s) = exported events /\
  (forall k e, nth_error (l_exports s) k = Some e -> past events k e) /\
  (forall k ev, In ev events -> mentions k ev -> k < exported events).

Lemma nth_set_other {A} k j (x : A) l : k <> j -> nth_error (set_nth k x l) j = nth_error l j.
Proof. revert j l. induction k as [|k IH]; intros [|j] [|y l] H; try reflexivity; [congruence|]. cbn. apply IH. congruence. Qed.

Lemma length_set {A} k (x : A) l : length (set_nth k x l) = length l.
Proof. revert l. induction k as [|k IH]; intros [|y l]; try reflexivity. cbn. rewrite IH. reflexivity. Qed.

Lemma exported_snoc events ev : exported (events ++ [ev]) =
  exported events + match ev with L_export false => 1 | _ => 0 end.
Proof. unfold exported. rewrite filter_app, app_length. destruct ev as [|[]| | |]; reflexivity. Qed.

Lemma past_other events ev k e : past events k e -> ~ mentions k ev -> past (events ++ [ev]) k e.
Proof.
  intros [P1 [P2 [P3 P4]]] N. assert (X : forall x, mentions k x -> (In x (events ++ [ev]) <-> In x events)).
  { intros x M. rewrite in_app_iff. cbn. split; [|auto]. intros [H|[H|[]]]; [exact H|]. subst. contradiction. }
  unfold past. rewrite !X; try reflexivity. auto.
Qed.

Lemma tells_set events s k e x ev h c f : tells events s -> nth_error (l_exports s) k = Some e ->
  h = l_holder s -> mentions k ev -> past (events ++ [ev]) k x ->
  tells (events ++ [ev]) (mk_life h c f (set_nth k x (l_exports s))).
Proof.
  intros [T1 [T2 [T3 T4]]] N -> M P.
  assert (K : k < exported events) by (rewrite <- T2; apply nth_error_Some; congruence).
  assert (E : exported (events ++ [ev]) = exported events) by (rewrite exported_snoc; destruct ev as [|[]| | |]; cbn in M; try contradiction; lia).
  split; [|split; [|split]]; cbn [l_holder l_exports].
  - rewrite T1, in_app_iff. cbn. split; [auto|]. intros [H|[H|[]]]; [exact H|]. subst ev. contradiction.
  - rewrite length_set, E. exact T2.
  - intros j y Hj. destruct (Nat.eq_dec k j) as [<-|D].
    + rewrite (nth_set_same k x e _ N) in Hj. injection Hj as <-. exact P.
    + rewrite nth_set_other in Hj by exact D. apply past_other; [exact (T3 j y Hj)|].
      destruct ev; cbn in M |- *; congruence.
  - intros j y Hj My. rewrite E. apply in_app_iff in Hj. destruct Hj as [Hj|[<-|[]]]; [exact (T4 j y Hj My)|].
    destruct ev; cbn in M, My; subst; try contradiction; exact K.
Qed.

Lemma tells_plain events s s' ev : tells events s -> (forall k, ~ mentions k ev) -> ev <> L_export false ->
  l_exports s' = l_exports s -> (l_holder s' = false <-> l_holder s = false \/ ev = L_drop) -> tells (events ++ [ev]) s'.
Proof.
  intros [T1 [T2 [T3 T4]]] M X E H.
  assert (Q : exported (events ++ [ev]) = exported events) by (rewrite exported_snoc; destruct ev as [|[]| | |]; try congruence; lia).
  split; [|split; [|split]].
  - rewrite H, T1, in_app_iff. cbn. intuition congruence.
  - rewrite E, Q. exact T2.
  - rewrite E. intros k e N. apply past_other; [exact (T3 k e N)|apply M].
  - intros k y Hy My. rewrite Q. apply in_app_iff in Hy. destruct Hy as [Hy|[<-|[]]]; [exact (T4 k y Hy My)|]. destruct (M k My).
Qed.

Lemma in_snoc {A} (x y : A) l : In x (l ++ [y]) <-> In x l \/ y = x.
Proof. rewrite in_app_iff. cbn. intuition. Qed.

Lemma deleter_shape s k e s' : deleter s k e = Ok s' ->
  exists c f, s' = mk_life (l_holder s) c f (set_nth k (mk_export (x_capsule e) (x_named e) true) (l_exports s)).
Proof.
  unfold deleter. destruct (x_deleted e); [discriminate|]. unfold dec, with_export. cbn [l_holder l_count l_freed l_exports].
  destruct (l_count s); [discriminate|]. destruct (l_freed s); [discriminate|]. intros H. injection H as <-. eauto.
Qed.

Lemma step_tells events s ev s' : inv s -> tells events s -> life_step s ev = Some (Ok s') -> tells (events ++ [ev]) s'.
Proof.
  intros I T H. pose proof I as [C [F S]]. pose proof T as [T1 [T2 [T3 T4]]]. destruct ev; cbn [life_step] in H.
  - destruct (l_holder s) eqn:Eh; [|discriminate]. unfold dec in H. cbn [l_count l_freed l_exports l_holder] in H.
    destruct (l_count s); [discriminate|]. destruct (l_freed s); [discriminate|]. injection H as <-.
    apply (tells_plain events s); auto; try discriminate; try (intros ? []); cbn [l_holder]. intuition.
  - destruct (l_holder s) eqn:Eh; [|discriminate]. unfold inc in H. destruct (l_freed s); [discriminate|]. cbn [bind] in H.
    destruct fails; cbn [l_holder l_count l_freed l_exports] in H.
    + unfold dec in H. cbn [l_count l_freed l_exports l_holder] in H. injection H as <-.
      apply (tells_plain events s); auto; try discriminate; try (intros ? []); cbn [l_holder]. rewrite Eh. intuition discriminate.
    + injection H as <-. assert (Q := exported_snoc events (L_export false)). cbn in Q.
      split; [|split; [|split]]; cbn [l_holder l_exports].
      * rewrite Eh, T1, in_snoc. intuition discriminate.
      * rewrite app_length. cbn [length]. lia.
      * intros k e N. destruct (Nat.lt_ge_cases k (length (l_exports s))) as [L|L].
        -- rewrite nth_error_app1 in N by exact L. apply past_other; [exact (T3 k e N)|intros []].
        -- rewrite nth_error_app2 in N by exact L. destruct (k - length (l_exports s)) as [|d] eqn:D; [|destruct d; discriminate N].
           cbn in N. injection N as <-. unfold past. cbn [x_capsule x_named x_deleted]. rewrite !in_snoc.
           assert (Z : forall ev, mentions k ev -> ~ In ev events) by (intros ev M Hev; specialize (T4 k ev Hev M); lia).
           pose proof (Z (L_collect k) eq_refl). pose proof (Z (L_take k) eq_refl). pose proof (Z (L_done k) eq_refl). intuition (try discriminate; try congruence).
      * intros k y Hy My. apply in_snoc in Hy. destruct Hy as [Hy|Hy]; [specialize (T4 k y Hy My); lia|]. subst y. destruct My.
  - destruct (nth_error (l_exports s) k) as [e|] eqn:En; [|discriminate].
    destruct (x_capsule e && x_named e) eqn:Ee; [|discriminate]. injection H as <-. apply andb_true_iff in Ee. destruct Ee as [E1 E2].
    unfold with_export. apply (tells_set events s k e); auto; try reflexivity. destruct (T3 k e En) as [P1 [P2 [P3 P4]]].
    assert (Se : sound e) by (rewrite Forall_forall in S; apply S; eapply nth_error_In; exact En).
    specialize (Se E2). rewrite E1 in Se. cbn in Se. unfold past. cbn [x_capsule x_named x_deleted]. rewrite !in_snoc, Se, <- P1, E1.
    assert (ND : ~ In (L_done k) events) by (intros D; rewrite (P4 D) in E2; discriminate).
    intuition (try discriminate; try congruence).
  - destruct (nth_error (l_exports s) k) as [e|] eqn:En; [|discriminate].
    destruct (x_capsule e) eqn:Ec; [|discriminate]. destruct (T3 k e En) as [P1 [P2 [P3 P4]]].
    destruct (x_named e) eqn:Ee.
    + injection H as H. apply deleter_shape in H. destruct H as [c [f ->]]. unfold with_export. cbn [l_holder l_exports]. rewrite set_set.
      apply (tells_set events s k e); auto; try reflexivity. unfold past. cbn [x_capsule x_named x_deleted]. rewrite !in_snoc, <- P2.
      assert (ND : ~ In (L_done k) events) by (intros D; specialize (P4 D); congruence).
      intuition (try discriminate; try congruence).
    + injection H as <-. unfold with_export. apply (tells_set events s k e); auto; try reflexivity. unfold past.
      cbn [x_capsule x_named x_deleted]. rewrite !in_snoc, <- P2, <- (P3 eq_refl). intuition (try discriminate; try congruence).
  - destruct (nth_error (l_exports s) k) as [e|] eqn:En; [|discriminate].
    destruct (negb (x_named e) && negb (x_deleted e)) eqn:Ee; [|discriminate]. injection H as H.
    apply andb_true_iff in Ee. destruct Ee as [Nn Nd]. apply negb_true_iff in Nn. apply negb_true_iff in Nd.
    apply deleter_shape in H. destruct H as [c [f ->]]. destruct (T3 k e En) as [P1 [P2 [P3 P4]]].
    apply (tells_set events s k e); auto; try reflexivity. unfold past. cbn [x_capsule x_named x_deleted]. rewrite !in_snoc, <- P1, <- P2, Nn.
    intuition (try discriminate; try congruence).
Qed.

Lemma run_snoc l ev s r : inv s -> life_run s (l ++ [ev]) = Some r ->
  exists s1, life_run s l = Some (Ok s1) /\ life_step s1 ev = Some r.
Proof.
  revert s. induction l as [|x l IH]; intros s I H; cbn [app life_run] in H |- *.
  - exists s. split; [reflexivity|]. destruct (life_step s ev) as [[]|]; congruence.
  - destruct (life_step s x) as [r1|] eqn:E; [|discriminate]. destruct (step_inv s x r1 I E) as [s1 [-> I1]]. exact (IH s1 I1 H).
Qed.

Lemma run_tells events : forall s, life_run born events = Some (Ok s) -> tells events s.
Proof.
  induction events as [|ev events IH] using rev_ind; intros s H.
  - cbn in H. injection H as <-. split; [|split; [|split]].
    + split; [discriminate|intros []].
    + reflexivity.
    + intros [|k] e N; discriminate N.
    + intros k ev [].
  - destruct (run_snoc events ev born (Ok s) born_inv H) as [s1 [R St]].
    destruct (run_inv events born (Ok s1) born_inv R) as [s2 [E I]]. injection E as <-.
    exact (step_tells events s1 ev s I (IH s1 R) St).
Qed.

Lemma freed_l : forall events r, life_run born events = Some r ->
  exists s, r = Ok s /\ (l_freed s = true <-> In L_drop events /\ forall k, k < exported events -> over events k).
Proof.
  intros events r H. destruct (life_l events r H) as [s [-> L]]. exists s. split; [reflexivity|].
  destruct (run_tells events s H) as [T1 [T2 [T3 T4]]].
  assert (N : forall k e, nth_error (l_exports s) k = Some e -> (~ needs e <-> over events k)).
  { intros k e K. destruct (T3 k e K) as [P1 [P2 [P3 P4]]]. unfold needs, over. rewrite <- P2, <- P1.
    destruct (x_named e) eqn:En, (x_capsule e) eqn:Ec; intuition (try congruence).
    all: destruct (x_deleted e); intuition (try congruence). }
  split.
  - intros Fr. assert (X : ~ (l_holder s = true \/ Exists needs (l_exports s))) by (intros Q; apply L in Q; congruence).
    split; [apply T1; destruct (l_holder s); [exfalso; auto|reflexivity]|].
    intros k K. rewrite <- T2 in K. destruct (nth_error (l_exports s) k) as [e|] eqn:E; [|apply nth_error_None in E; lia].
    apply (N k e E). intros Q. apply X. right. apply Exists_exists. exists e. split; [eapply nth_error_In; exact E|exact Q].
  - intros [D A]. destruct (l_freed s) eqn:Fr; [reflexivity|]. exfalso. destruct (proj1 L eq_refl) as [Hh|Hn].
    + apply T1 in D. congruence.
    + apply Exists_exists in Hn. destruct Hn as [e [He Q]]. apply In_nth_error in He. destruct He as [k K].
      apply (proj2 (N k e K)); [|exact Q]. apply A. rewrite <- T2. apply nth_error_Some. congruence.
Qed.

(* ---------------- strings ---------------- *)

Section Strings.
  Variable valid : list byte -> bool.

  Lemma fill_all l : forallb valid l = true -> fill valid l = (map (fun s => Py_str (Some s)) l, true).
  Proof.
    induction l as [|s l IH]; intros H; [reflexivity|]. cbn in H. apply andb_true_iff in H. destruct H as [A B].
    cbn [fill map]. unfold make_str. rewrite A, (IH B). reflexivity.
  Qed.
  Lemma fill_bad a s b : forallb valid a = true -> valid s = false ->
    fill valid (a ++ s :: b) = (map (fun s => Py_str (Some s)) a, false).
  Proof.
    induction a as [|x a IH]; intros H B; cbn [app fill map]; unfold make_str.
    - rewrite B. reflexivity.
    - cbn in H. apply andb_true_iff in H. destruct H as [A1 A2]. rewrite A1, (IH A2 B). reflexivity.
  Qed.

  Lemma look_full l buf : l <> [] -> buf = map (fun s => Py_str (Some s)) l ->
    look valid (mk_view l buf) = (Ok (map (fun s => Py_str (Some s)) l), mk_view l buf).
  Proof.
    intros N E. unfold look. cbn [v_buf v_strings]. subst buf. destruct l as [|s l]; [congruence|]. cbn [map negb].
    replace (length (Py_str (Some s) :: map (fun s => Py_str (Some s)) l)) with (length (s :: l)) by (cbn; rewrite map_length; reflexivity).
    rewrite Nat.ltb_irrefl. replace (length (s :: l)) with (length (map (fun s => Py_str (Some s)) (s :: l))) by apply map_length.
    cbn [map]. rewrite firstn_all. reflexivity.
  Qed.

  Lemma looks_ok l n : forallb valid l = true ->
    looks valid n (mk_view l []) = repeat (Ok (map (fun s => Py_str (Some s)) l)) n.
  Proof.
    intros V. destruct l as [|s l].
    - induction n as [|n IH]; [reflexivity|]. cbn [looks]. unfold look. cbn. f_equal. exact IH.
    - assert (L : look valid (mk_view (s :: l) []) =
                  (Ok (map (fun s => Py_str (Some s)) (s :: l)), mk_view (s :: l) (map (fun s => Py_str (Some s)) (s :: l)))).
      { unfold look. cbn [v_buf v_strings]. rewrite (fill_all _ V). cbn [negb]. rewrite map_length, Nat.ltb_irrefl.
        f_equal. f_equal. rewrite <- (map_length (fun s => Py_str (Some s))) at 1. apply firstn_all. }
      destruct n as [|n]; [reflexivity|]. cbn [looks repeat]. rewrite L. f_equal.
      induction n as [|n IH]; [reflexivity|]. cbn [looks repeat].
      rewrite look_full by (discriminate || reflexivity). f_equal. exact IH.
  Qed.

  Lemma looks_first s l n : valid s = false -> looks valid n (mk_view (s :: l) []) = repeat (Throw Other_err) n.
  Proof.
    intros V. induction n as [|n IH]; [reflexivity|]. cbn [looks repeat].
    unfold look. cbn [v_buf v_strings fill]. unfold make_str. rewrite V. cbn [negb]. f_equal. exact IH.
  Qed.

  Lemma looks_later a s l n : a <> [] -> forallb valid a = true -> valid s = false ->
    looks valid (S (S n)) (mk_view (a ++ s :: l) []) = [Throw Other_err; UB].
  Proof.
    intros N A V. cbn [looks]. unfold look. cbn [v_buf v_strings]. rewrite (fill_bad a s l A V). cbn [negb].
    destruct a as [|x a]; [congruence|]. cbn [map v_buf v_strings negb]. 
    match goal with |- context [if ?c then UB else _] => assert (c = true) as -> end; [|reflexivity].
    apply Nat.ltb_lt. cbn [length app]. rewrite map_length, app_length. cbn [length]. lia.
  Qed.

  Lemma import_back l : forallb valid l = true -> make_string_array (map (fun s => Py_str (Some s)) l) true = Ok l.
  Proof.
    intros _. cbn [make_string_array]. induction l as [|s l IH]; [reflexivity|]. cbn [map make_string_list cast_string bind].
    rewrite IH. reflexivity.
  Qed.
End Strings.

Lemma import_strings objs : 
  (forall l, Forall2 (fun o s => characters o = Some s) objs l -> make_string_array objs true = Ok l) /\
  (Exists (fun o => characters o = None) objs -> make_string_array objs true = Throw Other_err).
Proof.
  cbn [make_string_array]. induction objs as [|o objs [IH1 IH2]]; split.
  - intros l F. inversion F. reflexivity.
  - intros H. inversion H.
  - intros l F. inversion F as [|x y ? ? E F']; subst. cbn [make_string_list]. assert (E' : cast_string o = Ok y) by (destruct o as [[]| |]; cbn in *; congruence). rewrite E'. cbn [bind]. rewrite (IH1 _ F'). reflexivity.
  - intros H. cbn [make_string_list]. inversion H as [? ? E|? ? E]; subst.
    + destruct o as [[]| |]; cbn in E |- *; try discriminate; reflexivity.
    + destruct o as [[]| |]; cbn [cast_string bind]; try reflexivity; rewrite (IH2 E); reflexivity.
Qed.
