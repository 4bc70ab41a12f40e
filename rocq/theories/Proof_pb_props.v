From Verif Require Import Common Model_num Model_tsr Spec_tsr Proof_tsr Model_csv Proof_csv Model_pb Spec_pb Proof_pb.
Local Open Scope Z_scope.

Section Batch.
  Variable V : Type.
  Variable vzero : V.
  Notation message := (message V).
  Notation instance := (instance V).
  Notation store := (store V).
  Variable h : beh.
  Variable size : nat.
  Variable s : schema.
  Hypothesis US : usable_schema size s.
  Notation attrs := (s_attributes s).
  Notation all_ok := (all_ok V vzero).

  (* ---------- the beginning ---------- *)

  Lemma usable_here a : In a attrs -> exists batch, usable batch a /\ reasonable (Z.of_nat size :: dims a).
  Proof.
    intros I. destruct (attr_usable size s US a I) as (batch & U & L). exists batch. split; auto.
    destruct (usable_inv _ _ U) as (_ & _ & _ & _ & _ & R). apply (reasonable_less _ batch); auto. lia.
  Qed.

  Lemma init_store_ok a : In a attrs -> exists x, init_store V vzero (Z.of_nat size) a = Ok x /\ store_ok V vzero true size [] a x.
  Proof.
    intros I. destruct (usable_here a I) as (batch & U & RS). destruct (usable_inv _ _ U) as (SH & N & R & P & ST & _).
    unfold init_store. destruct (a_sparse a) eqn:S.
    - eexists. split; [reflexivity|]. cbn. split; auto. split; [|constructor].
      rewrite SH. cbn [length]. replace (Datatypes.S (length (dims a)) - 1)%nat with (length (dims a)) by lia.
      apply new_builder_of.
    - rewrite ST, SH. cbn [hd tl]. pose proof (reasonable_volume _ R). pose proof (reasonable_volume _ RS). rewrite volume_cons in *.
      rewrite (as_size_small (volume (dims a))) by lia. rewrite as_size_small by lia.
      rewrite dense_default by (auto; discriminate). rewrite volume_cons.
      destruct (Z.of_nat size * volume (dims a) <=? Z.of_nat size * volume (dims a)) eqn:Q; [|lia]. cbn [bind].
      eexists. split; [reflexivity|]. cbn. split; auto. split; [|split].
      + rewrite repeat_length. unfold vol. rewrite Z2Nat.inj_mul by lia. now rewrite Nat2Z.id.
      + intros i m E. destruct i; discriminate.
      + intros _ j v E _. apply nth_error_In, repeat_spec in E. exact E.
  Qed.
  Lemma init_ok : exists st, init_stores V vzero (Z.of_nat size) attrs = Ok st /\ all_ok true size [] attrs st.
  Proof.
    assert (H : forall l, incl l attrs -> exists st, init_stores V vzero (Z.of_nat size) l = Ok st /\ all_ok true size [] l st).
    { induction l as [|a l IH]; intros I; [exists []; split; [reflexivity|constructor]|].
      destruct (init_store_ok a) as (x & E & OK); [apply I; now left|].
      destruct IH as (st & E' & OK'); [intros b B; apply I; now right|].
      cbn [init_stores]. rewrite E. cbn [bind]. rewrite E'. cbn [bind]. eexists. split; [reflexivity|]. constructor; auto. }
    apply H. apply incl_refl.
  Qed.

  (* ---------- the end ---------- *)

  Lemma finish_store_ok z ms a x : In a attrs -> store_ok V vzero z size ms a x ->
    exists f, finish_store V (Z.of_nat size) a x = Ok f /\ holds_rows V size ms a f /\ (z = true -> zero_after V vzero (length ms) a f).
  Proof.
    intros I OK. destruct (usable_here a I) as (batch & U & RS). destruct (usable_inv _ _ U) as (SH & N & R & P & ST & _).
    unfold finish_store, holds_rows. destruct x as [data|b]; cbn in OK.
    - destruct OK as (S & L & Rows & Zr). rewrite S. eexists. split; [reflexivity|]. split.
      + exists data. split; [reflexivity|]. split; auto. rewrite L. unfold vol. pose proof (reasonable_volume _ R). unfold dims in *. rewrite Nat2Z.inj_mul, Z2Nat.id; lia.
      + intros Zt. cbn. apply Zr. exact Zt.
    - destruct OK as (S & B & G). rewrite S. rewrite SH.
      destruct (build_of (dims a) batch (Z.of_nat size) V _ b (P S) RS N G B) as (o & E & EO & H). rewrite E. cbn [bind].
      eexists. split; [reflexivity|]. split; [|intros _; exact Coq.Init.Logic.I]. exists o. cbn [tl]. auto.
  Qed.
  Lemma finish_ok z ms st : all_ok z size ms attrs st ->
    exists fs, finish_stores V (Z.of_nat size) attrs st = Ok fs /\ Forall2 (holds_rows V size ms) attrs fs /\
      (z = true -> Forall2 (zero_after V vzero (length ms)) attrs fs).
  Proof.
    assert (H : forall l st, incl l attrs -> all_ok z size ms l st -> exists fs, finish_stores V (Z.of_nat size) l st = Ok fs /\ Forall2 (holds_rows V size ms) l fs /\
      (z = true -> Forall2 (zero_after V vzero (length ms)) l fs)).
    { clear st. intros l st I OK. induction OK as [|a x l st Ha OK IH].
      - exists []. split; [reflexivity|]. split; intros; constructor.
      - destruct (finish_store_ok z ms a x) as (f & E & F1 & F2); [apply I; now left|auto|].
        destruct IH as (fs & E' & F1' & F2'); [intros b B; apply I; now right|].
        cbn [finish_stores]. rewrite E. cbn [bind]. rewrite E'. cbn [bind]. eexists. split; [reflexivity|]. split; [constructor; auto|].
        intros Zt. constructor; auto. }
    intros OK. apply H; auto. apply incl_refl.
  Qed.

  Lemma finish_example z ms st n : all_ok z size ms attrs st -> n = length ms ->
    exists fs, finish V s size (Ok (Some (n, st))) = Ok (Some (mk_example s fs (Z.of_nat size - Z.of_nat n))) /\
      Forall2 (holds_rows V size ms) attrs fs /\ (z = true -> Forall2 (zero_after V vzero (length ms)) attrs fs).
  Proof.
    intros OK ->. destruct (finish_ok z ms st OK) as (fs & E & F1 & F2). exists fs. unfold finish. cbn [bind]. rewrite E. cbn [bind].
    unfold new_example. rewrite (Forall2_len _ _ _ F1), Nat.eqb_refl. cbn. auto.
  Qed.

  (* ---------- serial decoding ---------- *)

  Lemma goods_length is ms : goods V s is ms -> (length ms <= length is)%nat.
  Proof. induction 1; cbn [length]; lia. Qed.
  Lemma serial_good z is ms' : goods V s is ms' -> length is = length ms' -> Forall (clean V) is ->
    forall ms st, (length ms + length is <= size)%nat -> all_ok z size ms attrs st ->
    exists st', decode_serial V h s is (length ms) st = Ok (Some (length (ms ++ ms'), st')) /\ all_ok z size (ms ++ ms') attrs st'.
  Proof.
    intros G. induction G as [|m is ms' F G IH|i is ms' NG G IH]; intros L C ms st B OK.
    - exists st. rewrite app_nil_r. auto.
    - inversion C; subst. cbn in L, B. destruct (decode_good V vzero size s US (h_error h) z ms m st) as (st' & E & OK'); auto; try lia.
      cbn [decode_serial]. rewrite E. cbn [bind]. specialize (IH ltac:(lia) H2 (ms ++ [m]) st').
      rewrite app_length, Nat.add_1_r, <- app_assoc in IH. apply IH; auto. cbn. lia.
    - exfalso. pose proof (goods_length _ _ G). cbn [length] in L. lia.
  Qed.

  Lemma serial_pad is ms' : h_pad h = true -> goods V s is ms' -> Forall (clean V) is ->
    Forall (fun i => good V s i \/ found_early V s i) is ->
    forall ms st, (length ms + length is <= size)%nat -> all_ok false size ms attrs st ->
    exists st', decode_serial V h s is (length ms) st = Ok (Some (length (ms ++ ms'), st')) /\ all_ok false size (ms ++ ms') attrs st'.
  Proof.
    intros HP G. assert (HE : h_error h = false) by (destruct h; auto; discriminate). assert (HS : h_skip h = false) by (destruct h; auto; discriminate).
    induction G as [|m is ms' F G IH|i is ms' NG G IH]; intros C FE ms st B OK.
    - exists st. rewrite app_nil_r. auto.
    - inversion C; inversion FE; subst. cbn in B. destruct (decode_good V vzero size s US (h_error h) false ms m st) as (st' & E & OK'); auto; try lia.
      cbn [decode_serial]. rewrite E. cbn [bind]. specialize (IH H2 H6 (ms ++ [m]) st').
      rewrite app_length, Nat.add_1_r, <- app_assoc in IH. apply IH; auto. cbn. lia.
    - inversion C; inversion FE; subst. cbn in B. destruct H5 as [?|H5]; [contradiction|].
      destruct (decode_early V vzero size s US (h_error h) ms i st) as (st' & E & OK'); auto; try lia.
      cbn [decode_serial]. rewrite E, HE. cbn [bad bind]. rewrite HS, HP. apply IH; auto. lia.
  Qed.

  Lemma serial_bad is : h_pad h = false -> Forall (clean V) is -> Exists (fun i => ~ good V s i) is ->
    forall z ms st, (length ms + length is <= size)%nat -> all_ok z size ms attrs st ->
    decode_serial V h s is (length ms) st = if h_error h then Throw Invalid_instance else Ok None.
  Proof.
    intros HP C E. induction is as [|i is IH]; [inversion E|]. intros z ms st B OK. inversion C; subst. cbn in B.
    assert (GD : good V s i \/ ~ good V s i).
    { destruct i as [m|]; [|right; intros (m & X & _); discriminate].
      destruct (fits_dec V size s US m (H1 m eq_refl)) as [F|F]; [left; exists m; auto|right; intros (m' & X & F'); injection X as <-; auto]. }
    destruct GD as [(m & -> & F)|NG].
    - destruct (decode_good V vzero size s US (h_error h) z ms m st) as (st' & D & OK'); auto; try lia.
      cbn [decode_serial]. rewrite D. cbn [bind]. specialize (IH H2).
      assert (E' : Exists (fun i => ~ good V s i) is) by (inversion E; subst; auto; exfalso; apply H0; exists m; auto).
      specialize (IH E' z (ms ++ [m]) st'). rewrite app_length, Nat.add_1_r in IH. apply IH; auto. lia.
    - destruct (decode_bad V vzero size s US (h_error h) z ms i st) as (st' & D); auto; try lia.
      cbn [decode_serial]. rewrite D. unfold bad. destruct h; try discriminate; reflexivity.
  Qed.

  Lemma serial_bad0 is : h_pad h = false -> Forall (clean V) is -> Exists (fun i => ~ good V s i) is ->
    forall z st, (length is <= size)%nat -> all_ok z size [] attrs st ->
    decode_serial V h s is 0 st = if h_error h then Throw Invalid_instance else Ok None.
  Proof. intros HP C E z st B OK. exact (serial_bad is HP C E z [] st B OK). Qed.

  (* ---------- parallel decoding ---------- *)

  Hypothesis DS : has_sparse s = false.
  Lemma all_dense a : In a attrs -> a_sparse a = false.
  Proof.
    intros IA. unfold has_sparse in DS. destruct (a_sparse a) eqn:S; auto.
    assert (existsb a_sparse attrs = true) by (apply existsb_exists; eauto). congruence.
  Qed.

  Lemma check_cases err name v :
    (exists idx a t, nth_error attrs idx = Some a /\ a_name a = name /\ a_sparse a = false /\ length (t_values V t) = vol a /\
       conforms V a v /\ check_feature V err s name v = Ok (Some (A_copy V idx (t_values V t)))) \/
    (~ entry_ok V s (name, v) /\ check_feature V err s name v = bad err None).
  Proof.
    destruct (in_dec (list_eq_dec N.eq_dec) name (map a_name attrs)) as [IN|IN].
    - apply in_map_iff in IN. destruct IN as (a & EA & IA). destruct (index_of size s US a IA) as (idx & GI & NA).
      destruct (attr_usable size s US a IA) as (batch & U & _). rewrite EA in GI.
      destruct (check_feature_known V err batch s name v idx a GI NA U) as [K1 K2]. pose proof (all_dense a IA) as D.
      destruct (framed_dec V a v) as [F|F].
      + left. destruct (K1 F) as (t & T & CF). exists idx, a, t. unfold the_action in CF. rewrite D in CF.
        destruct F as (t' & T' & F1 & F2 & F3 & F4). rewrite T in T'. injection T' as <-. repeat split; auto.
        * unfold vol, dims. specialize (F4 D). lia.
        * exists t. auto.
        * congruence.
      + right. split; auto. intros (b & IB & EB & C). cbn in EB, C.
        rewrite (same_attr attrs b a (attr_names size s US) IB IA) in C by congruence. apply F. apply C.
    - right. split; [|apply check_feature_unknown, (unknown_name size s US); auto].
      intros (b & IB & EB & C). apply IN. cbn in EB. rewrite <- EB. now apply in_map.
  Qed.

  Definition after {A} (r : res (list store)) (o : verdict) (k : list store -> res A) (b : list store -> res A) : res A :=
    let* st := r in
    match o with V_good => k st | V_bad => b st | V_throw e => Throw e | V_ub => UB | V_fuel => Fuel end.

  Lemma features_writes row es : forall st,
    decode_features V (h_error h) s row es st =
      after (do_writes V h s (fst (instance_writes V h s row es)) st) (snd (instance_writes V h s row es))
        (fun st => Ok (st, true)) (fun st => Ok (st, false)).
  Proof.
    induction es as [|[n v] es IH]; intros st; [reflexivity|]. cbn [decode_features instance_writes].
    destruct (check_cases (h_error h) n v) as [(idx & a & t & NA & EA & D & L & C & CF)|[NE CF]]; rewrite CF.
    - cbn [bind]. destruct (instance_writes V h s row es) as [w o] eqn:E. cbn [fst snd do_writes].
      unfold after in *. cbn [fst snd] in IH.
      destruct (perform V (h_error h) s row (A_copy V idx (t_values V t)) st) as [[st' ok]| | |] eqn:P; cbn [bind]; auto.
      assert (ok = true) as ->.
      { cbn [perform] in P. destruct (nth_error st idx) as [[data|b]|]; try discriminate.
        destruct (copy_n V data (row * length (t_values V t)) (t_values V t)); cbn in P; try discriminate. injection P as _ <-. auto. }
      apply IH.
    - unfold bad. destruct (h_error h); reflexivity.
  Qed.
  Lemma bad_verdict_eq {A} (st : list store) (x : A) : (match bad_verdict h with V_throw e => Throw e | _ => Ok x end) = bad (h_error h) x.
  Proof. unfold bad_verdict, bad. destruct (h_error h); reflexivity. Qed.
  Lemma instance_decode row i st :
    decode_instance V (h_error h) s row i st =
      after (do_writes V h s (fst (instance_run V h s row i)) st) (snd (instance_run V h s row i))
        (fun st => Ok (st, true)) (fun st => Ok (st, false)).
  Proof.
    destruct i as [m|]; cbn [decode_instance instance_run].
    - rewrite features_writes. destruct (instance_writes V h s row (m_entries V m)) as [w o]. cbn [fst snd].
      unfold after, bad_verdict, bad. destruct o; cbn [fst snd]; destruct (do_writes V h s w st); cbn; auto.
      destruct (Nat.eqb (length (m_entries V m)) (length attrs)), (h_error h); auto.
    - unfold after, bad_verdict, bad. cbn. destruct (h_error h); auto.
  Qed.

  (* The verdict of an instance. *)
  Lemma writes_verdict row es : 
    (Forall (entry_ok V s) es -> snd (instance_writes V h s row es) = V_good) /\
    (~ Forall (entry_ok V s) es -> snd (instance_writes V h s row es) = bad_verdict h).
  Proof.
    induction es as [|[n v] es [IH1 IH2]]; [split; auto; intros H; destruct H; constructor|].
    cbn [instance_writes]. destruct (check_cases (h_error h) n v) as [(idx & a & t & NA & EA & D & L & C & CF)|[NE CF]]; rewrite CF.
    - destruct (instance_writes V h s row es) as [w o]. cbn [snd] in *. split.
      + intros F. inversion F; auto.
      + intros F. apply IH2. intros F'. apply F. constructor; auto. exists a. repeat split; auto; try apply C. eapply nth_error_In; eauto.
    - split; [intros F; inversion F; contradiction|]. intros _. unfold bad_verdict, bad. destruct (h_error h); reflexivity.
  Qed.
  Lemma run_verdict row i : clean V i ->
    (good V s i -> snd (instance_run V h s row i) = V_good) /\ (~ good V s i -> snd (instance_run V h s row i) = bad_verdict h).
  Proof.
    intros C. destruct i as [m|].
    - specialize (C m eq_refl). cbn [instance_run]. destruct (writes_verdict row (m_entries V m)) as [W1 W2].
      destruct (instance_writes V h s row (m_entries V m)) as [w o]. cbn [snd] in *. split.
      + intros (m' & E & F). injection E as <-. apply (fits_entries V size s US m C) in F. destruct F as [F L].
        rewrite (W1 F). cbn. now rewrite L, Nat.eqb_refl.
      + intros NG. assert (NF : ~ fits V s m) by (intros F; apply NG; exists m; auto). rewrite (fits_entries V size s US m C) in NF.
        destruct (entries_ok_dec V size s US (m_entries V m)) as [F|F].
        * rewrite (W1 F). cbn. destruct (Nat.eqb (length (m_entries V m)) (length attrs)) eqn:Q; auto. apply Nat.eqb_eq in Q. tauto.
        * rewrite (W2 F). unfold bad_verdict. destruct (h_error h); reflexivity.
    - split; [intros (m & E & _); discriminate|reflexivity].
  Qed.

  (* The writes of a good instance. *)
  Definition valid_write (w : write V) : Prop :=
    exists a, nth_error attrs (fst (fst w)) = Some a /\ a_sparse a = false /\ length (snd w) = vol a /\ (snd (fst w) < size)%nat.
  Lemma instance_writes_valid row es : (row < size)%nat -> NoDup (map fst es) ->
    Forall valid_write (fst (instance_writes V h s row es)) /\
    NoDup (map fst (fst (instance_writes V h s row es))) /\
    Forall (fun w => snd (fst w) = row /\ exists a, nth_error attrs (fst (fst w)) = Some a /\ In (a_name a) (map fst es)) (fst (instance_writes V h s row es)).
  Proof.
    intros R. induction es as [|[n v] es IH]; intros N; [repeat split; constructor|].
    cbn in N. inversion N; subst. destruct (IH H2) as (A & B & C). cbn [instance_writes].
    destruct (check_cases (h_error h) n v) as [(idx & a & t & NA & EA & D & L & C' & CF)|[NE CF]]; rewrite CF.
    - destruct (instance_writes V h s row es) as [w o]. cbn [fst] in *. split; [|split].
      + constructor; auto. exists a. auto.
      + cbn. constructor; auto. intros I. apply in_map_iff in I. destruct I as (w' & E & I). rewrite Forall_forall in C.
        destruct (C w' I) as (_ & b & NB & IB). rewrite E in NB. cbn in NB. rewrite NA in NB. injection NB as <-. rewrite EA in IB. contradiction.
      + constructor; [cbn; split; auto; exists a; auto|]. eapply Forall_impl; [|exact C]. cbn. intros w' (X & b & Y & Z). split; auto. exists b. auto.
    - unfold bad. destruct (h_error h); cbn; repeat split; constructor.
  Qed.
  Lemma run_valid row i : (row < size)%nat -> clean V i ->
    Forall valid_write (fst (instance_run V h s row i)) /\ NoDup (map fst (fst (instance_run V h s row i))) /\
    Forall (fun w => snd (fst w) = row) (fst (instance_run V h s row i)).
  Proof.
    intros R C. destruct i as [m|]; [|cbn; repeat split; constructor]. specialize (C m eq_refl).
    destruct (instance_writes_valid row (m_entries V m) R (proj1 C)) as (A & B & D). cbn [instance_run].
    destruct (instance_writes V h s row (m_entries V m)) as [w o]. cbn [fst] in *.
    assert (D' : Forall (fun w => snd (fst w) = row) w) by (eapply Forall_impl; [|exact D]; cbn; tauto).
    destruct o; cbn; auto.
  Qed.

  (* Writes to different places commute. *)
  Definition sized (st : list store) : Prop :=
    Forall2 (fun a x => exists data, x = S_dense V data /\ length data = (size * vol a)%nat) attrs st.
  Lemma sized_of z ms st : all_ok z size ms attrs st -> sized st.
  Proof.
    intros OK. unfold sized. apply Forall2_of_nth; [eapply Forall2_len; eauto|]. intros i a x NA NX.
    destruct (Forall2_nth _ _ _ _ _ OK NA) as (x' & NX' & O). rewrite NX in NX'. injection NX' as <-.
    destruct x as [data|b]; cbn in O; [exists data; tauto|]. pose proof (all_dense a ltac:(eapply nth_error_In; eauto)). destruct O. congruence.
  Qed.
  Lemma write_ok st w : sized st -> valid_write w ->
    exists data, nth_error st (fst (fst w)) = Some (S_dense V data) /\
      (snd (fst w) * length (snd w) + length (snd w) <= length data)%nat /\
      perform V (h_error h) s (snd (fst w)) (A_copy V (fst (fst w)) (snd w)) st =
        Ok (replace (fst (fst w)) (S_dense V (overlay V data (snd (fst w) * length (snd w)) (snd w))) st, true) /\
      sized (replace (fst (fst w)) (S_dense V (overlay V data (snd (fst w) * length (snd w)) (snd w))) st).
  Proof.
    intros SZ (a & NA & D & L & R). destruct (Forall2_nth _ _ _ _ _ SZ NA) as (x & NX & data & -> & LD).
    assert (B : (snd (fst w) * length (snd w) + length (snd w) <= length data)%nat) by nia.
    exists data. split; auto. split; auto. split.
    - cbn [perform]. rewrite NX, copy_n_ok by auto. reflexivity.
    - eapply Forall2_replace; [exact SZ|auto|]. intros b NB. rewrite NA in NB. injection NB as <-.
      eexists. split; [reflexivity|]. now rewrite overlay_length.
  Qed.
  Lemma overlay_comm (data : list V) i j n a b : length a = n -> length b = n -> i <> j ->
    (i * n + n <= length data)%nat -> (j * n + n <= length data)%nat ->
    overlay V (overlay V data (i * n) a) (j * n) b = overlay V (overlay V data (j * n) b) (i * n) a.
  Proof.
    intros LA LB D BI BJ. apply list_ext. intros k.
    rewrite !overlay_nth; rewrite ?overlay_length; try lia. rewrite LA, LB.
    destruct (Nat.leb (j * n) k && Nat.ltb k (j * n + n))%bool eqn:E1, (Nat.leb (i * n) k && Nat.ltb k (i * n + n))%bool eqn:E2; auto.
    exfalso. apply andb_prop in E1, E2. destruct E1 as [A1 A2], E2 as [B1 B2].
    apply Nat.leb_le in A1, B1. apply Nat.ltb_lt in A2, B2. nia.
  Qed.
  Lemma replace_comm {A} i j (x y : A) l : i <> j -> replace i x (replace j y l) = replace j y (replace i x l).
  Proof.
    intros D. apply list_ext. intros k. rewrite !replace_nth.
    destruct (Nat.eqb k i) eqn:E1, (Nat.eqb k j) eqn:E2; auto.
    apply Nat.eqb_eq in E1, E2. congruence.
  Qed.
  Lemma replace_twice {A} i (x y : A) l : replace i x (replace i y l) = replace i x l.
  Proof. apply list_ext. intros k. rewrite !replace_nth. destruct (Nat.eqb k i) eqn:E; auto. destruct (nth_error l k); auto. Qed.
  Lemma replace_get {A} i (x y : A) l : nth_error l i = Some y -> nth_error (replace i x l) i = Some x.
  Proof. intros H. rewrite replace_nth, Nat.eqb_refl, H. reflexivity. Qed.
  Lemma replace_get_other {A} i j (x : A) l : i <> j -> nth_error (replace i x l) j = nth_error l j.
  Proof. intros H. rewrite replace_nth. destruct (Nat.eqb j i) eqn:E; auto. apply Nat.eqb_eq in E. congruence. Qed.

  Lemma do_writes_cons w st : sized st -> valid_write w ->
    exists st', sized st' /\ forall ws, do_writes V h s (w :: ws) st = do_writes V h s ws st'.
  Proof.
    intros SZ W. destruct (write_ok st w SZ W) as (data & N & B & P & S'). eexists. split; [exact S'|]. intros ws'.
    destruct w as [[idx row] vs]. cbn [do_writes fst snd] in *. rewrite P. reflexivity.
  Qed.
  Lemma do_writes_swap w1 w2 ws st : sized st -> valid_write w1 -> valid_write w2 -> fst w1 <> fst w2 ->
    do_writes V h s (w1 :: w2 :: ws) st = do_writes V h s (w2 :: w1 :: ws) st.
  Proof.
    intros SZ W1 W2 D.
    destruct (write_ok st w1 SZ W1) as (d1 & N1 & B1 & P1 & S1). destruct (write_ok st w2 SZ W2) as (d2 & N2 & B2 & P2 & S2).
    destruct (write_ok _ w2 S1 W2) as (d2' & N2' & B2' & P2' & S2'). destruct (write_ok _ w1 S2 W1) as (d1' & N1' & B1' & P1' & S1').
    destruct W1 as (a1 & NA1 & _ & L1 & _), W2 as (a2 & NA2 & _ & L2 & _).
    destruct w1 as [[i1 r1] v1], w2 as [[i2 r2] v2]. cbn [fst snd] in *.
    cbn [do_writes]. rewrite P1, P2. cbn [bind]. rewrite P2', P1'. cbn [bind]. f_equal.
    destruct (Nat.eq_dec i1 i2) as [->|NE].
    - rewrite NA1 in NA2. injection NA2 as <-. rewrite N1 in N2. injection N2 as <-.
      rewrite (replace_get _ _ _ _ N1) in N2'. rewrite (replace_get _ _ _ _ N1) in N1'. injection N2' as <-. injection N1' as <-.
      rewrite !replace_twice. do 2 f_equal. rewrite L1, L2 in *. symmetry. apply overlay_comm; auto.
    - rewrite replace_get_other in N2' by auto. rewrite replace_get_other in N1' by auto.
      rewrite N2 in N2'. rewrite N1 in N1'. injection N2' as <-. injection N1' as <-. apply replace_comm. auto.
  Qed.
  Lemma do_writes_perm w w' : Permutation w w' -> Forall valid_write w -> NoDup (map fst w) -> forall st, sized st ->
    do_writes V h s w st = do_writes V h s w' st.
  Proof.
    intros P. induction P as [|x l l' P IH|x y l|l l' l'' P1 IH1 P2 IH2]; intros F N st SZ.
    - reflexivity.
    - inversion F; subst. cbn in N. inversion N; subst. destruct (do_writes_cons x st SZ H1) as (st' & SZ' & E).
      rewrite !E. auto.
    - inversion F; subst. inversion H2; subst. apply do_writes_swap; auto.
      cbn in N. inversion N; subst. intros E. apply H5. left. auto.
    - rewrite IH1 by auto. apply IH2; auto.
      + eapply Permutation_Forall; eauto.
      + eapply Permutation_NoDup; [|exact N]. now apply Permutation_map.
  Qed.

  (* The workers. *)
  Lemma worker_good q : snd (pb_worker V h s q) = V_good ->
    Forall (fun ri => snd (instance_run V h s (fst ri) (snd ri)) = V_good) q /\
    fst (pb_worker V h s q) = concat (map (fun ri => fst (instance_run V h s (fst ri) (snd ri))) q).
  Proof.
    induction q as [|[r i] q IH]; intros H; [split; [constructor|reflexivity]|]. cbn [pb_worker] in *.
    destruct (instance_run V h s r i) as [w o] eqn:E. destruct o; cbn [snd] in H; try discriminate; try (destruct (h_skip h); discriminate).
    destruct (pb_worker V h s q) as [w' o']. cbn [fst snd] in *. subst. destruct (IH eq_refl) as [A B]. split.
    - constructor; [cbn [fst snd]; now rewrite E|auto].
    - cbn [map concat fst snd]. now rewrite E, B.
  Qed.
  Lemma worker_not_good q o : snd (pb_worker V h s q) = o -> o <> V_good -> Forall (fun ri => clean V (snd ri)) q ->
    Exists (fun ri => ~ good V s (snd ri)) q /\
    (o = match bad_verdict h with V_bad => if h_skip h then V_bad else V_throw Invalid_argument | x => x end).
  Proof.
    revert o. induction q as [|[r i] q IH]; intros o H NG C; [cbn in H; congruence|]. pose proof (Forall_inv C) as H1. pose proof (Forall_inv_tail C) as H2. cbn [snd] in H1. subst o. cbn [pb_worker] in NG |- *.
    destruct (run_verdict r i H1) as [R1 R2].
    assert (GD : good V s i \/ ~ good V s i).
    { destruct i as [m|]; [|right; intros (m & X & _); discriminate].
      destruct (fits_dec V size s US m (H1 m eq_refl)) as [F|F]; [left; exists m; auto|right; intros (m' & X & F'); injection X as <-; auto]. }
    destruct (instance_run V h s r i) as [w o1]. cbn [snd] in R1, R2. destruct GD as [G|G].
    - rewrite (R1 G) in *. destruct (pb_worker V h s q) as [w' o']. cbn [snd] in *. destruct (IH o' eq_refl NG H2) as [A B]. split; auto.
    - rewrite (R2 G) in *. split; [left; exact G|]. unfold bad_verdict. destruct (h_error h); reflexivity.
  Qed.

  Lemma do_writes_app w1 w2 st : do_writes V h s (w1 ++ w2) st = let* st' := do_writes V h s w1 st in do_writes V h s w2 st'.
  Proof.
    revert st. induction w1 as [|[[idx row] vs] w1 IH]; intros st; [reflexivity|]. cbn [app do_writes].
    destruct (perform V (h_error h) s row (A_copy V idx vs) st) as [[st' ok]| | |]; cbn [bind]; auto.
  Qed.
  Lemma serial_writes is : forall row st,
    Forall (fun ri => snd (instance_run V h s (fst ri) (snd ri)) = V_good) (combine (seq row (length is)) is) ->
    decode_serial V h s is row st =
      let* st' := do_writes V h s (concat (map (fun ri => fst (instance_run V h s (fst ri) (snd ri))) (combine (seq row (length is)) is))) st in
      Ok (Some ((row + length is)%nat, st')).
  Proof.
    induction is as [|i is IH]; intros row st F; [cbn; now rewrite Nat.add_0_r|].
    cbn [length seq combine map concat] in *. inversion F; subst. cbn [fst snd] in *. cbn [decode_serial]. rewrite instance_decode, H1.
    unfold after. rewrite do_writes_app.
    destruct (do_writes V h s (fst (instance_run V h s row i)) st) as [st'| | |]; cbn [bind]; auto.
    rewrite (IH (S row) st' H2). now rewrite Nat.add_succ_comm.
  Qed.

  Lemma concat_exists {A} (P : A -> Prop) (parts : list (list A)) q : In q parts -> Exists P q -> Exists P (concat parts).
  Proof.
    intros I E. apply Exists_exists in E. destruct E as (x & IX & PX). apply Exists_exists. exists x. split; auto.
    apply in_concat. eauto.
  Qed.
  Lemma combine_clean (is : list instance) : Forall (clean V) is -> forall row, Forall (fun ri => clean V (snd ri)) (combine (seq row (length is)) is).
  Proof. induction 1; intros row; cbn; constructor; auto. Qed.
  Lemma combine_exists (P : instance -> Prop) is : forall row, Exists (fun ri => P (snd ri)) (combine (seq row (length is)) is) -> Exists P is.
  Proof. induction is as [|i is IH]; intros row E; cbn in E; inversion E; subst; auto. right. eapply IH. eauto. Qed.
  Lemma combine_forall (P : instance -> Prop) is : forall row, Forall (fun ri => P (snd ri)) (combine (seq row (length is)) is) -> Forall P is.
  Proof. induction is as [|i is IH]; intros row E; cbn in E; inversion E; subst; constructor; eauto. Qed.

  Lemma batch_valid is : forall row, (row + length is <= size)%nat -> Forall (clean V) is ->
    let ws := concat (map (fun ri => fst (instance_run V h s (fst ri) (snd ri))) (combine (seq row (length is)) is)) in
    Forall valid_write ws /\ NoDup (map fst ws) /\ Forall (fun w => (row <= snd (fst w))%nat) ws.
  Proof.
    induction is as [|i is IH]; intros row B C; [cbn; repeat split; constructor|]. inversion C; subst. cbn [length] in B.
    destruct (IH (S row)) as (F1 & F2 & F3); auto; [lia|]. destruct (run_valid row i) as (R1 & R2 & R3); auto; [lia|].
    cbn [length seq combine map concat fst snd]. split; [|split].
    - apply Forall_app; auto.
    - rewrite map_app. apply nodup_app; auto. intros k I1 I2. apply in_map_iff in I1, I2.
      destruct I1 as (w1 & <- & I1), I2 as (w2 & E & I2). rewrite Forall_forall in R3, F3. specialize (R3 _ I1). specialize (F3 _ I2).
      rewrite E in F3. lia.
    - apply Forall_app. split; [eapply Forall_impl; [|exact R3]|eapply Forall_impl; [|exact F3]]; cbn; intros; lia.
  Qed.

  Lemma parallel_serial z is st r : h_pad h = false -> Forall (clean V) is -> (length is <= size)%nat -> all_ok z size [] attrs st ->
    decode_parallel V h s is st r -> r = decode_serial V h s is 0 st.
  Proof.
    intros HP C B OK D. pose proof (combine_clean is C 0%nat) as CC.
    assert (Bad : forall parts q o, concat parts = combine (seq 0 (length is)) is -> In q parts -> snd (pb_worker V h s q) = o -> o <> V_good ->
      Exists (fun i => ~ good V s i) is /\ o = if h_error h then V_throw Invalid_instance else V_bad).
    { intros parts q o E I S N. destruct (worker_not_good q o S N) as [X Y].
      - apply Forall_forall. intros ri IR. rewrite Forall_forall in CC. apply CC. rewrite <- E. apply in_concat. eauto.
      - split; [apply (combine_exists (fun i => ~ good V s i) is 0%nat); rewrite <- E; eapply concat_exists; eauto|]. rewrite Y. unfold bad_verdict. destruct h; cbn in HP |- *; try reflexivity; discriminate. }
    destruct D as [parts out E G M|parts E G X|parts e E X|parts E X].
    - assert (GG : Forall (fun ri => snd (instance_run V h s (fst ri) (snd ri)) = V_good) (combine (seq 0 (length is)) is) /\
        concat (map (fun q => fst (pb_worker V h s q)) parts) = concat (map (fun ri => fst (instance_run V h s (fst ri) (snd ri))) (combine (seq 0 (length is)) is))).
      { rewrite <- E. clear -G. induction G as [|q parts Q G [IH1 IH2]]; [split; constructor|].
        destruct (worker_good q Q) as [W1 W2]. cbn [concat map]. rewrite map_app, concat_app, IH2, W2. split; auto. apply Forall_app; auto. }
      destruct GG as [G1 G2]. rewrite (serial_writes is 0%nat st G1). destruct (batch_valid is 0%nat) as (V1 & V2 & _); auto.
      apply merge_perm in M. rewrite G2 in M. rewrite (do_writes_perm _ _ M V1 V2 st (sized_of _ _ _ OK)). reflexivity.
    - apply Exists_exists in X. destruct X as (q & I & S). destruct (Bad parts q V_bad E I S) as [EX Y]; [discriminate|].
      rewrite (serial_bad0 is HP C EX z st B OK). destruct (h_error h); [discriminate|reflexivity].
    - apply Exists_exists in X. destruct X as (q & I & S). destruct (Bad parts q (V_throw e) E I S) as [EX Y]; [discriminate|].
      rewrite (serial_bad0 is HP C EX z st B OK). destruct (h_error h); [congruence|discriminate].
    - apply Exists_exists in X. destruct X as (q & I & S). destruct (Bad parts q V_ub E I S) as [EX Y]; [discriminate|].
      destruct (h_error h); discriminate.
  Qed.
End Batch.

Section Outcomes.
  Variable V : Type.
  Variable vzero : V.
  Variable h : beh.
  Variable size : nat.
  Variable s : schema.
  Hypothesis US : usable_schema size s.
  Notation attrs := (s_attributes s).

  (* The outcome of a batch is that of the serial algorithm. *)
  Definition serial_outcome (is : list (instance V)) : res (option (example (feature V))) :=
    let* st := init_stores V vzero (Z.of_nat size) attrs in finish V s size (decode_serial V h s is 0 st).
  Lemma batch_serial is r : Forall (clean V) is -> (length is <= size)%nat -> decode_batch V vzero h s size is r -> r = serial_outcome is.
  Proof.
    intros C B D. unfold serial_outcome. destruct (init_ok V vzero size s US) as (st0 & E & OK).
    destruct D as [_|st r DS I D|_ N]; auto.
    - assert (st = st0) as -> by congruence. rewrite E. cbn [bind]. f_equal. unfold decodes_serially in DS.
      destruct (has_sparse s) eqn:HS, (h_pad h) eqn:HP; try discriminate.
      eapply parallel_serial; eauto.
    - exfalso. eapply N. eauto.
  Qed.
  Lemma all_good is ms r : goods V s is ms -> length is = length ms -> Forall (clean V) is -> (length is <= size)%nat ->
    decode_batch V vzero h s size is r ->
    exists fs, r = Ok (Some (mk_example s fs (Z.of_nat size - Z.of_nat (length ms)))) /\
      Forall2 (holds_rows V size ms) attrs fs /\ Forall2 (zero_after V vzero (length ms)) attrs fs.
  Proof.
    intros G L C B D. rewrite (batch_serial is r C B D). unfold serial_outcome. destruct (init_ok V vzero size s US) as (st & E & OK).
    rewrite E. cbn [bind]. destruct (serial_good V vzero h size s US true is ms G L C [] st) as (st' & E' & OK'); auto.
    cbn [length app] in E'. rewrite E'. destruct (finish_example V vzero size s US true _ st' _ OK' eq_refl) as (fs & F & R & Z). exists fs. auto.
  Qed.
  Lemma some_bad is r : h_pad h = false -> Exists (fun i => ~ good V s i) is -> Forall (clean V) is -> (length is <= size)%nat ->
    decode_batch V vzero h s size is r -> r = if h_error h then Throw Invalid_instance else Ok None.
  Proof.
    intros HP X C B D. rewrite (batch_serial is r C B D). unfold serial_outcome. destruct (init_ok V vzero size s US) as (st & E & OK).
    rewrite E. cbn [bind]. rewrite (serial_bad0 V vzero h size s US is HP C X true st B OK). destruct (h_error h); reflexivity.
  Qed.
  Lemma padded is ms r : h_pad h = true -> goods V s is ms -> Forall (clean V) is -> Forall (fun i => good V s i \/ found_early V s i) is ->
    (length is <= size)%nat -> decode_batch V vzero h s size is r ->
    exists fs, r = Ok (Some (mk_example s fs (Z.of_nat size - Z.of_nat (length ms)))) /\ Forall2 (holds_rows V size ms) attrs fs.
  Proof.
    intros HP G C F B D. rewrite (batch_serial is r C B D). unfold serial_outcome. destruct (init_ok V vzero size s US) as (st & E & OK).
    rewrite E. cbn [bind]. destruct (serial_pad V vzero h size s US is ms HP G C F [] st) as (st' & E' & OK'); auto.
    { eapply all_ok_weaken; eauto. }
    cbn [length app] in E'. rewrite E'. destruct (finish_example V vzero size s US false _ st' _ OK' eq_refl) as (fs & F' & R & _). exists fs. auto.
  Qed.
End Outcomes.

Section Infer.
  Variable V : Type.

  Lemma new_attribute_inv name dt shape sp a : new_attribute name dt shape [] sp = Ok a ->
    a_name a = name /\ a_type a = dt /\ a_shape a = shape /\ a_sparse a = sp.
  Proof.
    unfold new_attribute. destruct (tensor_strides shape []) as [ss| | |]; cbn; intros H; try discriminate.
    injection H as <-. auto.
  Qed.
  Lemma attribute_of_tensor_spec batch name dt (t : ptensor V) :
    (t_keys V t <> [] -> t_shape V t <> []) ->
    exists sp, attribute_of_tensor V batch name dt t = new_attribute name dt (batch :: value_shape V t) [] sp /\
      (sp = true <-> tensor_sparse V t).
  Proof.
    intros K. unfold attribute_of_tensor, value_shape, tensor_sparse. destruct t as [vs ks sh]. cbn in *.
    destruct ks as [|k ks], sh as [|d sh].
    - exists false. split; [reflexivity|]. intuition discriminate.
    - eexists. split; [reflexivity|]. destruct vs; intuition (try discriminate; congruence).
    - destruct K; [discriminate|reflexivity].
    - exists true. split; [reflexivity|]. intuition discriminate.
  Qed.
  Lemma attribute_of_describes batch name v a : attribute_of V batch name v = Ok a -> describes V batch (name, v) a.
  Proof.
    intros H. assert (T : exists dt t, tensor_of V v = Some (dt, t) /\ attribute_of_tensor V batch name dt t = Ok a).
    { destruct v; cbn in H; try discriminate; do 2 eexists; (split; [reflexivity|exact H]). }
    destruct T as (dt & t & T & A). assert (K : t_keys V t <> [] -> t_shape V t <> []).
    { intros NE E. unfold attribute_of_tensor in A. destruct t as [vs [|k ks] [|d sh]]; cbn in *; try congruence. }
    destruct (attribute_of_tensor_spec batch name dt t K) as (sp & E & S). rewrite A in E. symmetry in E.
    destruct (new_attribute_inv _ _ _ _ _ E) as (E1 & E2 & E3 & E4).
    exists t. cbn [fst snd]. rewrite E2, E4. auto.
  Qed.
  Lemma attributes_of_describes batch es : forall l, attributes_of V batch es = Ok l -> Forall2 (describes V batch) es l.
  Proof.
    induction es as [|[n v] es IH]; intros l H; cbn [attributes_of] in H; [injection H as <-; constructor|].
    destruct (attribute_of V batch n v) as [a| | |] eqn:E; cbn [bind] in H; try discriminate.
    destruct (attributes_of V batch es) as [l'| | |]; cbn [bind] in H; try discriminate. injection H as <-.
    constructor; auto. now apply attribute_of_describes.
  Qed.
  Lemma describes_names batch es l : Forall2 (describes V batch) es l -> map a_name l = map fst es.
  Proof. induction 1 as [|e a es l (t & _ & E & _) F IH]; cbn; congruence. Qed.

  Lemma infer_describes batch m s : infer V batch (Some (Some m)) = Ok (Some s) ->
    Forall2 (describes V batch) (m_entries V m) (s_attributes s) /\ NoDup (map fst (m_entries V m)).
  Proof.
    unfold infer. intros H. destruct (attributes_of V batch (m_entries V m)) as [l| | |] eqn:E; cbn [bind] in H; try discriminate.
    destruct (new_schema l) as [s'| | |] eqn:NS; cbn [bind] in H; try discriminate. injection H as <-.
    pose proof (attributes_of_describes _ _ _ E) as F. destruct (schema_lookup l s' NS) as (-> & N & _).
    rewrite (describes_names _ _ _ F) in N. auto.
  Qed.

  Lemma attribute_of_succeeds batch name v : describable V batch v ->
    exists a, attribute_of V batch name v = Ok a /\ usable batch a.
  Proof.
    intros (dt & t & T & K & R & P). destruct (attribute_of_tensor_spec batch name dt t K) as (sp & E & S).
    assert (A : attribute_of V batch name v = attribute_of_tensor V batch name dt t).
    { destruct v; cbn in T |- *; congruence. }
    assert (NA : new_attribute name dt (batch :: value_shape V t) [] sp = Ok (mk_attribute name dt (batch :: value_shape V t) (std_strides (batch :: value_shape V t)) sp)).
    { unfold new_attribute, tensor_strides. now rewrite default_strides_ok by auto. }
    eexists. rewrite A, E, NA. split; [reflexivity|]. split; [|split].
    - exists (value_shape V t). cbn [a_shape a_sparse]. split; [reflexivity|]. split; [|tauto].
      unfold value_shape. destruct (t_shape V t); discriminate.
    - exact R.
    - exact NA.
  Qed.
  Lemma attributes_of_succeeds batch es : Forall (fun e => describable V batch (snd e)) es ->
    exists l, attributes_of V batch es = Ok l /\ Forall (usable batch) l.
  Proof.
    induction 1 as [|[n v] es D F (l & E & U)]; [exists []; split; [reflexivity|constructor]|].
    destruct (attribute_of_succeeds batch n v D) as (a & A & UA). exists (a :: l). cbn [attributes_of]. rewrite A. cbn [bind]. rewrite E. auto.
  Qed.
  Lemma infer_succeeds batch m : 0 <= batch < 2 ^ 63 -> NoDup (map fst (m_entries V m)) ->
    Forall (fun e => describable V batch (snd e)) (m_entries V m) ->
    exists s, infer V batch (Some (Some m)) = Ok (Some s) /\ usable_schema (Z.to_nat batch) s.
  Proof.
    intros B N F. destruct (attributes_of_succeeds batch _ F) as (l & E & U). pose proof (attributes_of_describes _ _ _ E) as D.
    rewrite <- (describes_names _ _ _ D) in N. destruct (proj2 (schema_made l) N) as (s & NS).
    exists s. unfold infer. rewrite E. cbn [bind]. rewrite NS. cbn [bind]. split; [reflexivity|].
    destruct (schema_lookup l s NS) as (SL & _ & _). unfold usable_schema. rewrite SL. split; auto. exists batch. split; auto. lia.
  Qed.
  Lemma infer_fits batch m s : infer V batch (Some (Some m)) = Ok (Some s) ->
    Forall (fun e => filled V (snd e)) (m_entries V m) -> fits V s m.
  Proof.
    intros H FI. destruct (infer_describes batch m s H) as [D N]. pose proof (describes_names _ _ _ D) as EN.
    unfold fits. split; [rewrite EN; apply Permutation_refl|]. intros name v a I IA EA.
    apply In_nth_error in I. destruct I as (i & NI). destruct (Forall2_nth _ _ _ _ _ D NI) as (a' & NA' & t & T & E1 & E2 & E3).
    cbn [fst snd] in *. assert (a' = a) as ->.
    { apply (same_attr (s_attributes s)); auto; [rewrite EN; exact N|eapply nth_error_In; eauto|congruence]. }
    rewrite Forall_forall in FI. pose proof (FI _ (nth_error_In _ _ NI) _ _ T) as [F1 F2]. cbn [snd] in *.
    assert (TL : tl (a_shape a) = value_shape V t) by (rewrite E2; reflexivity).
    split.
    - exists t. split; auto. split; auto. split; [|split].
      + unfold shape_fits. rewrite TL. unfold value_shape. destruct (t_shape V t); [right|left]; split; auto; discriminate.
      + intros S. apply F1. now apply E3.
      + intros S. rewrite TL. apply F2. intros TS. apply E3 in TS. congruence.
    - intros S dt t' T'. rewrite T in T'. injection T' as <- <-. rewrite TL. apply F1. now apply E3.
  Qed.
End Infer.

Lemma goods_forall V s is ms : goods V s is ms -> Forall (good V s) is -> length is = length ms.
Proof. induction 1; intros F; inversion F; subst; cbn; auto. contradiction. Qed.
Lemma good_dec V size s i : usable_schema size s -> clean V i -> good V s i \/ ~ good V s i.
Proof.
  intros US C. destruct i as [m|]; [|right; intros (m & X & _); discriminate].
  destruct (fits_dec V size s US m (C m eq_refl)) as [F|F]; [left; exists m; auto|right; intros (m' & X & F'); injection X as <-; auto].
Qed.
Lemma goods_exist V size s is : usable_schema size s -> Forall (clean V) is -> exists ms, goods V s is ms.
Proof.
  intros US. induction 1 as [|i is C F (ms & G)]; [exists []; constructor|].
  destruct (good_dec V size s i US C) as [(m & -> & FI)|NG]; [exists (m :: ms)|exists ms]; constructor; auto.
Qed.
Lemma accepted_iff V (vzero : V) h size s is r : usable_schema size s -> h_pad h = false ->
  Forall (clean V) is -> (length is <= size)%nat -> decode_batch V vzero h s size is r ->
  ((exists e, r = Ok (Some e)) <-> Forall (good V s) is).
Proof.
  intros US HP C B D. split.
  - intros (e & ->). assert (X : Forall (good V s) is \/ Exists (fun i => ~ good V s i) is).
    { clear -US C. induction C as [|i is C F IH]; [left; constructor|].
      destruct (good_dec V size s i US C) as [G|G]; [|right; left; auto]. destruct IH; [left; constructor; auto|right; right; auto]. }
    destruct X as [X|X]; auto. pose proof (some_bad V vzero h size s US is _ HP X C B D) as E. destruct (h_error h); discriminate.
  - intros F. destruct (goods_exist V size s is US C) as (ms & G).
    destruct (all_good V vzero h size s US is ms r G (goods_forall _ _ _ _ G F) C B D) as (fs & -> & _). eauto.
Qed.
Lemma padded_dense V (vzero : V) h size s is ms r : usable_schema size s -> has_sparse s = false -> h_pad h = true ->
  goods V s is ms -> Forall (clean V) is -> (length is <= size)%nat -> decode_batch V vzero h s size is r ->
  exists fs, r = Ok (Some (mk_example s fs (Z.of_nat size - Z.of_nat (length ms)))) /\
    Forall2 (holds_rows V size ms) (s_attributes s) fs.
Proof.
  intros US HS HP G C B D. apply (padded V vzero h size s US is ms r HP G C); auto.
  apply Forall_forall. intros i _. right. eapply dense_found_early; eauto.
Qed.
Lemma skipped V (vzero : V) h size s is r : usable_schema size s -> h = B_skip \/ h = B_skip_warn ->
  Exists (fun i => ~ good V s i) is -> Forall (clean V) is -> (length is <= size)%nat ->
  decode_batch V vzero h s size is r -> r = Ok None.
Proof. intros US [-> | ->] E C L D; [exact (some_bad V vzero B_skip size s US is r eq_refl E C L D)|exact (some_bad V vzero B_skip_warn size s US is r eq_refl E C L D)]. Qed.
Lemma parallel_is_serial V (vzero : V) h size s is st r : usable_schema size s -> has_sparse s = false -> h_pad h = false ->
  Forall (clean V) is -> (length is <= size)%nat -> init_stores V vzero (Z.of_nat size) (s_attributes s) = Ok st ->
  decode_parallel V h s is st r -> r = decode_serial V h s is 0 st.
Proof.
  intros US HS HP C B I D. destruct (init_ok V vzero size s US) as (st' & E & OK). assert (st' = st) as -> by congruence.
  eapply parallel_serial; eauto.
Qed.
