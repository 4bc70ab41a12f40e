From Coq Require Import Permutation.
From Verif Require Import Common Spec_csvtok Model_rec Spec_rec Model_inst Spec_inst Proof_inst Proof_inst_props Model_par Spec_par Model_text Spec_text Proof_text
  Model_num Model_csv Spec_csv Proof_csv Proof_csv_schema Proof_csv_props Model_csvfile Spec_csvfile Proof_csvfile Model_whole Spec_whole Proof_whole Proof_wholegood Spec_total Props_csv.
From Verif Require Model_tsr Model_pb Spec_pb Model_pbfile Spec_pbfile Proof_pbfile Model_image Spec_image Model_imgfile Spec_imgfile Proof_imgfile.

(* ---------------- the schema comes first ---------------- *)

Section First.
  Context {A E : Type} (M : machine A) (size : nat) (last : last_handling).
  Context (decode : batch A -> dres E) (size_bytes : batch A -> nat) (prefetch reads : nat).
  Notation wstep := (wstep M size last decode size_bytes prefetch reads).
  Notation wexec := (wexec M size last decode size_bytes prefetch reads).

  Definition untouched (w : wst E M) : Prop :=
    rstate (w_par w) = not_started /\ log (w_par w) = [] /\ (pc (w_par w) = c_idle \/ pc (w_par w) = c_joined).

  Lemma untouched_step w a w' : w_schema w = false -> untouched w -> wstep w a = Ok (Some w') ->
    w_schema w' = false /\ untouched w' \/
    (a = W_schema true /\ w_schema w' = true /\ pc (w_par w) = c_idle /\ exists o, fst (b_peek M (snd (w_reader w))) = Ok o).
  Proof.
    intros Hs (U1 & U2 & U3) HW. destruct w as [s r bs sc]. cbn [w_schema w_par w_reader] in *. subst sc. destruct a as [ok|a].
    - cbn [Model_whole.wstep] in HW. destruct (pc s) eqn:Epc; try discriminate. destruct (b_peek M (snd r)) as [x i']. cbn [fst].
      destruct x; try discriminate; injection HW as <-.
      + destruct ok; [right; eauto|left]. split; [reflexivity|]. repeat split; auto.
      + left. split; [reflexivity|]. repeat split; auto.
    - left. destruct s as [ep nx ca en lc ld dl ob on qp qr cn fl rs fq rq by_ p lg nr cs qs]. cbn [rstate log pc] in *. subst rs lg.
      destruct a; destruct U3 as [-> | ->]; cbn in HW; try discriminate; try (destruct nr; try discriminate); injection HW as <-; repeat split; cbn; auto.
  Qed.

  Lemma schema_first_from l : forall w0 w, w_schema w0 = false -> untouched w0 -> wexec w0 l = Ok (Some w) -> log (w_par w) <> [] \/ w_schema w = true ->
    exists l1 w1 l2 o, l = l1 ++ W_schema true :: l2 /\ wexec w0 l1 = Ok (Some w1) /\ w_schema w1 = false /\ log (w_par w1) = [] /\
      pc (w_par w1) = c_idle /\ fst (b_peek M (snd (w_reader w1))) = Ok o /\ wexec w1 (W_schema true :: l2) = Ok (Some w).
  Proof.
    induction l as [|a l IH]; intros w0 w Hs HU HE HL.
    - cbn in HE. injection HE as <-. destruct HU as (_ & U & _). destruct HL; congruence.
    - pose proof HE as HE0. cbn [Model_whole.wexec] in HE. destruct (wstep w0 a) as [[w'|]| | |] eqn:Ew; cbn [bind] in HE; try discriminate.
      destruct (untouched_step w0 a w' Hs HU Ew) as [(Hs' & HU')|(-> & _ & Hi & o & Ho)].
      + destruct (IH w' w Hs' HU' HE HL) as (l1 & w1 & l2 & o & -> & H1 & H2). exists (a :: l1), w1, l2, o.
        split; [reflexivity|]. split; [cbn [Model_whole.wexec]; rewrite Ew; exact H1|]. exact H2.
      + exists [], w0, l, o. split; [reflexivity|]. split; [reflexivity|]. split; [exact Hs|]. split; [apply HU|]. auto.
  Qed.

  Lemma schema_first l w : wexec (w_init M) l = Ok (Some w) -> log (w_par w) <> [] \/ w_schema w = true ->
    exists l1 w1 l2 o, l = l1 ++ W_schema true :: l2 /\ wexec (w_init M) l1 = Ok (Some w1) /\ w_schema w1 = false /\ log (w_par w1) = [] /\
      pc (w_par w1) = c_idle /\ fst (b_peek M (snd (w_reader w1))) = Ok o /\ wexec w1 (W_schema true :: l2) = Ok (Some w).
  Proof. apply schema_first_from; repeat split; auto. Qed.
End First.

(* ---------------- the first instance ---------------- *)

Lemma start_reads {rng} (seeded : rng) draw shuf size_max p ds iss M e st :
  Forall2 store_instances ds iss -> make_instance_reader seeded draw shuf size_max p ds = Ok M ->
  (forall r, p_ratio p = Some r -> float_ratio r) ->
  (forall w g, 0 < w -> fst (draw w g) < w) -> (forall l g, Permutation (fst (shuf l g)) l) ->
  length (concat iss) < size_max -> epoch_start M e st ->
  exists ys zs, Spec_inst.selected p (concat iss) ys /\ ordered p ys zs /\ yields M (snd st) zs (Ok tt).
Proof.
  intros HF HM Hr Hd Hp Hm Hst. destruct Hst as [n|e s n].
  - destruct (reader_ok_init seeded draw shuf size_max p ds iss M HF HM Hr Hd Hp Hm) as (ys & zs & H1 & H2 & H3).
    exists ys, zs. split; [exact H1|]. split; [exact H2|]. cbn [snd]. apply yields_peeks, yields_iff. exact H3.
  - destruct (reader_ok seeded draw shuf size_max p ds iss M s HF HM Hr Hd Hp Hm) as (ys & zs & H1 & H2 & H3).
    exists ys, zs. split; [exact H1|]. split; [exact H2|]. cbn [snd]. apply yields_peeks, yields_iff. exact H3.
Qed.

Lemma good_look {rng} (seeded : rng) draw shuf size_max p ds iss M {E} (decode : batch instance -> dres E) bytes cores np pr prefetch reads w :
  Forall2 store_instances ds iss -> make_instance_reader seeded draw shuf size_max p ds = Ok M ->
  reader_options draw shuf size_max p (length (concat iss)) -> graph_params cores np pr = (prefetch, reads) -> 1 <= cores ->
  w_reachable M (p_batch p) (p_last p) decode bytes prefetch reads w -> w_schema w = false ->
  exists ys zs, Spec_inst.selected p (concat iss) ys /\ ordered p ys zs /\ fst (b_peek M (snd (w_reader w))) = Ok (hd_error zs).
Proof.
  intros HF HM (Hr & Hd & Hp & Hm & Hb) HG HC HR HS.
  destruct (good_J seeded draw shuf size_max p ds iss M decode bytes cores np pr prefetch reads HF HM Hr Hd Hp Hm Hb HG HC w HR) as (src & src_end & HJ).
  destruct (j_new _ _ _ _ _ _ _ _ _ _ _ HJ (j_schema _ _ _ _ _ _ _ _ _ _ _ HJ HS)) as (_ & i & -> & (Hi & _)). cbn [snd].
  destruct (start_reads seeded draw shuf size_max p ds iss M _ _ HF HM Hr Hd Hp Hm Hi) as (ys & zs & H1 & H2 & H3).
  exists ys, zs. split; [exact H1|]. split; [exact H2|]. cbn [snd] in H3. pose proof (yields_peek _ _ _ _ H3) as HP.
  destruct zs as [|z zs]; destruct HP as (s' & E1 & _); rewrite E1; reflexivity.
Qed.

(* ---------------- CSV ---------------- *)

Section Rows.
  Context (F : Type) (atof atod : list byte -> option F) (is_inf : F -> bool) (qnan : F) (p : csv_params).
  Notation Good := (Good F atof atod is_inf qnan p).
  Notation parse d f := (parse_cell F atof atod is_inf qnan d (p_nans p) (p_base p) f).
  Definition uncut (f : list byte * bool) : Prop := ~ (snd f = true /\ p_mfl p = treat_as_bad).

  Lemma good_places cols fs vs : Good cols fs vs -> forall i,
    forall k j, nth_error (posn i (map c_ignore cols)) k = Some j ->
      exists m f v c, j = i + m /\ nth_error fs m = Some f /\ nth_error vs k = Some v /\ nth_error cols m = Some c /\ uncut f /\
        parse (c_type c) (fst f) = Ok (P_ok v).
  Proof.
    induction 1 as [|c cols f fs vs Hi Hg IH|c cols f fs v vs Hi Ht Hp Hg IH]; intro i; cbn [map posn].
    - intros [|k] j X; discriminate.
    - rewrite Hi. intros k j Hk. destruct (IH (S i) k j Hk) as (m & g & u & c' & E & X). exists (S m), g, u, c'. split; [lia|exact X].
    - rewrite Hi. intros [|k] j Hk; cbn in Hk.
      + injection Hk as <-. exists 0, f, v, c. cbn. repeat split; auto; exact Ht.
      + destruct (IH (S i) k j Hk) as (m & g & u & c' & E & X). exists (S m), g, u, c'. split; [lia|exact X].
  Qed.

  Lemma good_made cols : forall fs, length fs = length cols ->
    (forall m f c, nth_error fs m = Some f -> nth_error cols m = Some c -> c_ignore c = false -> uncut f /\ exists v, parse (c_type c) (fst f) = Ok (P_ok v)) ->
    exists vs, Good cols fs vs.
  Proof.
    induction cols as [|c cols IH]; intros [|f fs] HL H; try discriminate; [exists []; constructor|].
    destruct (IH fs) as (vs & Hvs); [cbn in HL; lia|intros m g d H1 H2; exact (H (S m) g d H1 H2)|].
    destruct (c_ignore c) eqn:Ec; [exists vs; now constructor|].
    destruct (H 0 f c eq_refl eq_refl Ec) as (Hu & v & Hv). exists (v :: vs). now constructor.
  Qed.

  Lemma positions_of names P l attrs cols : describes p names P l attrs cols -> l = posn 0 (map c_ignore cols).
  Proof.
    intros (A & [So Sm] & L & L' & D & I). apply sorted_unique; [exact So|apply posn_sorted|]. intro j. rewrite posn_in. split.
    - intro Hj. exists j. split; [reflexivity|]. apply In_nth_error in Hj. destruct Hj as (k & Hk).
      destruct (D k j Hk) as (n & a & t & d & _ & _ & _ & _ & _ & E). rewrite nth_error_map, E. reflexivity.
    - intros (m & -> & E). cbn [plus]. destruct (in_dec Nat.eq_dec m l) as [X|X]; [exact X|].
      rewrite nth_error_map in E. destruct (nth_error cols m) as [c|] eqn:Ec; [|discriminate].
      assert (m < length names) by (rewrite <- L'; apply nth_error_Some; congruence).
      destruct (I m H X) as (d & Ed). rewrite Ed in Ec. injection Ec as <-. discriminate.
  Qed.

  Lemma row_values_good names P l attrs cols text vs : describes p names P l attrs cols ->
    row_values F atof atod is_inf qnan p names l attrs text vs <-> good_row F atof atod is_inf qnan p cols text vs.
  Proof.
    intro HD. pose proof (positions_of _ _ _ _ _ HD) as El.
    assert (FW : forall vs, good_row F atof atod is_inf qnan p cols text vs -> row_values F atof atod is_inf qnan p names l attrs text vs).
    { clear vs. intros vs (fs & Hfs & G). destruct (described_row F atof atod is_inf qnan p _ _ _ _ _ _ _ HD G) as (L1 & L2 & _).
      exists fs. split; [exact Hfs|]. split; [exact L1|]. split; [exact L2|]. intros k j a d Hk Ha.
      pose proof Hk as Hk'. rewrite El in Hk'. destruct (good_places _ _ _ G 0 k j Hk') as (m & f & v & c & -> & Hf & Hv & Hc & Hu & Hp). cbn [plus] in *.
      destruct HD as (_ & _ & _ & _ & D & _). destruct (D k m Hk) as (n & a' & t & d' & _ & Ha' & _ & _ & _ & Ec). rewrite Ha in Ha'. injection Ha' as <- <-.
      rewrite Ec in Hc. injection Hc as <-. exists f, v. auto. }
    split; [|apply FW]. intros (fs & Hfs & L1 & L2 & H).
    assert (LA : length attrs = length l) by apply HD. assert (LC : length cols = length names) by apply HD.
    destruct (good_made cols fs) as (vs' & G); [lia| |].
    - intros m f c Hf Hc Hi. destruct (in_dec Nat.eq_dec m l) as [X|X].
      + apply In_nth_error in X. destruct X as (k & Hk). destruct HD as (_ & _ & _ & _ & D & _).
        destruct (D k m Hk) as (n & a & t & d & _ & Ha & _ & _ & _ & Ec). rewrite Hc in Ec. injection Ec as ->. cbn [c_type].
        destruct (H k m a d Hk Ha) as (f' & v & Hf' & _ & Hu & Hp). rewrite Hf in Hf'. injection Hf' as <-. split; [exact Hu|eauto].
      + destruct HD as (_ & _ & _ & _ & _ & I). assert (m < length names) by (rewrite <- LC; apply nth_error_Some; congruence).
        destruct (I m H0 X) as (d & Ed). rewrite Ed in Hc. injection Hc as <-. discriminate.
    - assert (vs' = vs) as ->; [|exists fs; auto].
      destruct (FW vs' (ex_intro _ fs (conj Hfs G))) as (fs2 & Hfs2 & _ & L2' & H2). pose proof (fields_unique _ _ _ _ Hfs Hfs2) as <-.
      clear - L2 L2' LA H H2. apply nth_error_ext; [congruence|]. intros k _.
      destruct (nth_error l k) as [j|] eqn:Ej.
      + assert (exists a d, nth_error attrs k = Some (a, d)) as (a & d & Ha).
        { destruct (nth_error attrs k) as [[a d]|] eqn:Ea; [eauto|]. apply nth_error_None in Ea. assert (k < length l) by (apply nth_error_Some; congruence). lia. }
        destruct (H k j a d Ej Ha) as (f & v & Hf & Hv & _ & Hp). destruct (H2 k j a d Ej Ha) as (f' & v' & Hf' & Hv' & _ & Hp'). congruence.
      + apply nth_error_None in Ej. rewrite (proj2 (nth_error_None vs k)), (proj2 (nth_error_None vs' k)) by lia. reflexivity.
  Qed.
End Rows.

Lemma batches_most {A} size last k (xs : list A) bs : batches_of size last k xs bs -> Forall (fun b => ba_size b <= size) bs.
Proof.
  induction 1 as [k|k xs Hne Hl Hd|k xs r Hne Hl H1 H2 Hr|k xs ys bs Hl HB IH]; constructor; cbn; auto; try lia.
  subst r. destruct last; lia.
Qed.

Section Csv.
  Context {rng : Type} (seeded : rng) (draw : nat -> rng -> nat * rng) (shuf : list instance -> rng -> list instance * rng) (size_max : nat).
  Context (p : rd_params) (F : Type) (atof atod : list byte -> option F) (is_inf : F -> bool) (qnan fzero : F).
  Context (cp : csv_params) (rp : csv_rparams) (fls : list (text_file * list str)).
  Context (M : machine instance).
  Notation T := (list (list (Model_num.val F)) * nat)%type.
  Hypothesis HD : csv_dataset F atod is_inf qnan cp rp fls seeded draw shuf size_max p M.

  Lemma csv_parts : exists ds iss, Forall2 store_instances ds iss /\ concat iss = csv_instances cp fls /\
    make_instance_reader seeded draw shuf size_max p ds = Ok M.
  Proof.
    destruct HD as (HF & HP & (r & out & HS & HM) & _).
    pose proof (csv_session_session _ _ _ _ _ _ _ _ _ _ HF HS) as HS'.
    pose proof (C36_headers_removed _ _ _ _ _ _ HP _ _ _ HS') as ->.
    rewrite firstn_all2 in HM by (rewrite map_length; lia).
    eexists _, _. split; [apply csv_stores_ok; now rewrite without_len, map_length|]. split; [reflexivity|exact HM].
  Qed.

  Lemma csv_refines cols dec bytes cores np pr prefetch reads w :
    csv_decoding F atof atod is_inf qnan fzero cp (p_batch p) cols dec -> graph_params cores np pr = (prefetch, reads) -> 1 <= cores ->
    w_reachable M (p_batch p) (p_last p) dec bytes prefetch reads w ->
    exists src src_end, csv_reading seeded draw shuf size_max p F atof atod is_inf qnan fzero cp rp fls cols dec M src src_end /\
      reachable dec bytes src src_end prefetch reads (w_par w).
  Proof.
    intros Hdec HG HC HR. destruct csv_parts as (ds & iss & H1 & H2 & H3). destruct HD as (D1 & D2 & D3 & Hr & Hd & Hp & Hm & Hb).
    rewrite <- H2 in Hm.
    destruct (good_refines seeded draw shuf size_max p ds iss M dec bytes cores np pr prefetch reads H1 H3 Hr Hd Hp Hm Hb HG HC w HR) as (src & src_end & R1 & R2).
    exists src, src_end. split; [|exact R2]. repeat (split; [first [assumption|rewrite <- H2; exact Hm]|]).
    intros ep b Hin. destruct (fed_batches seeded draw shuf size_max p ds iss M src src_end H1 H3 Hr Hd Hp Hm Hb R1 ep) as (_ & ys & zs & _ & _ & B).
    apply Hdec.
    - pose proof (batches_sizes _ _ _ _ _ B) as X. rewrite Forall_forall in X. exact (X b Hin).
    - pose proof (batches_most _ _ _ _ _ B) as X. rewrite Forall_forall in X. exact (X b Hin).
  Qed.

  Lemma csv_looks {E} (dec : batch instance -> dres E) bytes cores np pr prefetch reads w i :
    graph_params cores np pr = (prefetch, reads) -> 1 <= cores ->
    w_reachable M (p_batch p) (p_last p) dec bytes prefetch reads w -> looks_at w i -> first_of p (csv_instances cp fls) i.
  Proof.
    intros HG HC HR (L1 & L2 & L3). destruct csv_parts as (ds & iss & H1 & H2 & H3). destruct HD as (D1 & D2 & D3 & HO).
    rewrite <- H2 in HO.
    destruct (good_look seeded draw shuf size_max p ds iss M dec bytes cores np pr prefetch reads w H1 H3 HO HG HC HR L1) as (ys & zs & S1 & S2 & S3).
    rewrite L3 in S3. injection S3 as S3. destruct zs as [|z zs]; [discriminate|]. injection S3 as ->.
    exists ys, zs. rewrite <- H2. auto.
  Qed.

  Lemma new_session r j : csv_new cp rp fls r j -> fresh r /\
    exists out, csv_session F atod is_inf qnan cp (map (fun fl => csv_rows rp (fst fl)) fls) r j out.
  Proof.
    induction 1 as [|r j fl r' rows H (I1 & out & I2) Hn Ho|r j H (I1 & out & I2)].
    - split; [split; reflexivity|eexists; constructor].
    - split.
      + unfold open_store in Ho. destruct (p_header cp); [|injection Ho as <- _; exact I1].
        destruct (match r_names r with [] => _ | _ => _ end) as [names o]. injection Ho as <- _. exact I1.
      + eexists. eapply Cs_open; [exact I2| |exact Ho]. now rewrite nth_error_map, Hn.
    - split; [exact I1|eexists; apply (Cs_reset _ _ _ _ _ _ _ _ _ I2)].
  Qed.

  Lemma new_given r j : p_names cp <> [] \/ p_header cp = None -> csv_new cp rp fls r j -> r_names r = p_names cp.
  Proof.
    intro HN. induction 1 as [|r j fl r' rows H IH Hn Ho|r j H IH]; [reflexivity| |exact IH].
    unfold open_store in Ho. destruct (p_header cp) as [h|]; [|injection Ho as <- _; exact IH].
    rewrite IH in Ho. destruct HN as [HN|X]; [|discriminate]. destruct (p_names cp) as [|n ns]; [contradiction|]. injection Ho as <- _. reflexivity.
  Qed.

  Lemma new_names r j : csv_new cp rp fls r j -> 0 < j -> known_names cp fls (r_names r).
  Proof.
    intros H Hj. unfold known_names. destruct (p_names cp) as [|n ns] eqn:En; [|rewrite (new_given r j); [exact En|left; congruence|exact H]].
    destruct (p_header cp) as [h|] eqn:Eh; [|rewrite (new_given r j); [exact En|right; exact Eh|exact H]].
    destruct (new_session _ _ H) as (_ & out & HS). destruct HD as (D1 & D2 & _).
    pose proof (csv_session_session _ _ _ _ _ _ _ _ _ _ D1 HS) as HS'. specialize (D2 h Eh).
    destruct (session_inv F atod is_inf qnan cp (map snd fls) ltac:(intros h' Eh'; rewrite Eh in Eh'; injection Eh' as <-; exact D2) r j out HS') as (_ & Lj & _).
    destruct fls as [|fl rest] eqn:Ef; [cbn in Lj; lia|]. cbn [map] in D2. inversion D2 as [|? ? (header & fs & P1 & P2) D2']; subst.
    exists header, fs. split; [exists fl, rest; auto|]. split; [exact P2|].
    destruct (C36_names F atod is_inf qnan cp (map snd (fl :: rest)) h (snd fl) (map snd rest) header fs Eh En eq_refl ltac:(constructor; [exists header, fs; auto|exact D2']) P1 P2 r j out HS')
      as [[-> _]|X]; [lia|exact X].
  Qed.

  Lemma schema_row r j text r' attrs : overrides_are_maps cp -> csv_new cp rp fls r j -> 0 < j ->
    infer_schema F atod is_inf qnan cp r (Some text) = (r', Ok (Some attrs)) ->
    exists known l, known_names cp fls known /\ row_schema F atod is_inf qnan cp known text (r_names r') l attrs /\
      (forall t vs, row_values F atof atod is_inf qnan cp (r_names r') l attrs t vs <-> good_row F atof atod is_inf qnan cp (columns_of r') t vs) /\
      length (filter (fun c => negb (c_ignore c)) (columns_of r')) = length attrs.
  Proof.
    intros Hm HN Hj HI. destruct (new_session _ _ HN) as (Hf & _).
    destruct (success_some F atof atod is_inf qnan cp r text r' attrs Hm Hf HI) as (fs & l & used & S1 & S2 & S3 & S4 & S5 & S6 & S7 & S8).
    exists (r_names r), l. split; [exact (new_names _ _ HN Hj)|]. split; [|split].
    - exists fs. split; [exact S1|]. split; [exact S2|]. split; [exact S3|]. destruct S4 as (A1 & A2 & A3 & A4 & A5 & A6).
      split; [exact A2|]. split; [exact A3|]. split; [exact S6|]. intros k i Hk. destruct (A5 k i Hk) as (n & a & t & d & B1 & B2 & B3 & B4 & B5 & _).
      destruct B4 as (f & Hf1 & Hf2). exists f, n, a, t, d. repeat (split; [assumption|]). assumption.
    - intros t vs. eapply row_values_good; eauto.
    - pose proof (positions_of _ _ _ _ _ _ S4) as El. destruct S4 as (_ & _ & LA & _). rewrite LA, El. clear.
      generalize 0. induction (columns_of r') as [|c cols IH]; intro i; [reflexivity|]. cbn [filter map posn]. destruct (c_ignore c); cbn; [apply IH|now rewrite (IH (S i))].
  Qed.

  Lemma table_holds cols attrs T vss : length (filter (fun c => negb (c_ignore c)) cols) = length attrs ->
    holds F cols T vss -> table_of F attrs T vss.
  Proof. intros HL (H1 & H2). split; [congruence|]. intros i vs Hi k Hk. apply (H2 i vs Hi). congruence. Qed.

  Lemma delivers_by_row cols names l attrs xs es :
    (forall t vs, row_values F atof atod is_inf qnan cp names l attrs t vs <-> good_row F atof atod is_inf qnan cp cols t vs) ->
    length (filter (fun c => negb (c_ignore c)) cols) = length attrs ->
    delivers p F atof atod is_inf qnan cp cols xs es -> delivers_rows F atof atod is_inf qnan cp p names l attrs xs es.
  Proof.
    intros HV HL (ys & zs & rest & vsss & H1 & H2 & H3 & H4 & H5 & H6 & H7). exists ys, zs, rest, vsss. repeat (split; [assumption|]).
    split; [|split; [|exact H7]].
    - clear - HV H5. induction H5; constructor; auto. now apply HV.
    - clear - HL H6. induction H6 as [|e vss es vsss (A & B) H IH]; constructor; auto. split; [eapply table_holds; eauto|exact B].
  Qed.

  Lemma select_kept cols names l attrs ts vss :
    (forall t vs, row_values F atof atod is_inf qnan cp names l attrs t vs <-> good_row F atof atod is_inf qnan cp cols t vs) ->
    Select F atof atod is_inf qnan cp cols ts vss -> kept_rows F atof atod is_inf qnan cp names l attrs ts vss.
  Proof.
    intro HV. induction 1 as [|t ts vs vss G H IH|t ts vss (C & B) H IH]; constructor; auto; [now apply HV|].
    intros vs X. apply HV in X. exact (B vs X).
  Qed.

  Context (dec : batch instance -> dres T) (bytes : batch instance -> nat) (cores np pr prefetch reads : nat).
  Hypothesis HG : graph_params cores np pr = (prefetch, reads).
  Hypothesis HC : 1 <= cores.

  Lemma run_reaches {E} (d : batch instance -> dres E) i w : run_from M (p_batch p) (p_last p) d bytes prefetch reads i w ->
    w_reachable M (p_batch p) (p_last p) d bytes prefetch reads w /\
    exists w0, w_reachable M (p_batch p) (p_last p) d bytes prefetch reads w0 /\ looks_at w0 i.
  Proof.
    intros (l1 & w0 & l2 & R1 & R2 & R3). split; [|exists w0; split; [exists l1; exact R1|exact R2]].
    exists (l1 ++ W_schema true :: l2). revert R1. generalize (w_init (E := E) M). induction l1 as [|a l1 IH]; intros wi R1.
    - cbn in R1. injection R1 as ->. exact R3.
    - cbn [app wexec] in *. destruct (wstep _ _ _ _ _ _ _ wi a) as [[w'|]| | |]; cbn [bind] in *; try discriminate. now apply IH.
  Qed.

  Context (i : instance) (attrs : list attr) (cols : list col) (w : wst T M).
  Hypothesis Hdec : csv_decoding F atof atod is_inf qnan fzero cp (p_batch p) cols dec.
  Hypothesis Hm : overrides_are_maps cp.
  Hypothesis HR : run_from M (p_batch p) (p_last p) dec bytes prefetch reads i w.
  Hypothesis HI : csv_inferred F atod is_inf qnan cp rp fls i attrs cols.

  Lemma csv_whole : exists names l src src_end, csv_described F atod is_inf qnan cp p fls i names l attrs /\
    (forall t vs, row_values F atof atod is_inf qnan cp names l attrs t vs <-> good_row F atof atod is_inf qnan cp cols t vs) /\
    length (filter (fun c => negb (c_ignore c)) cols) = length attrs /\
    csv_reading seeded draw shuf size_max p F atof atod is_inf qnan fzero cp rp fls cols dec M src src_end /\
    reachable dec bytes src src_end prefetch reads (w_par w).
  Proof.
    destruct (run_reaches dec i w HR) as (W1 & w0 & W2 & W3). destruct HI as (r & j & r' & I1 & I2 & I3 & ->).
    destruct (csv_refines _ dec bytes cores np pr prefetch reads w Hdec HG HC W1) as (src & src_end & C1 & C2).
    destruct (schema_row r j _ r' attrs Hm I1 I2 I3) as (known & l & S1 & S2 & S3 & S4).
    exists (r_names r'), l, src, src_end. split; [|auto]. split; [eapply csv_looks; eauto|eauto].
  Qed.

  Lemma csv_total_good : exists names l, csv_described F atod is_inf qnan cp p fls i names l attrs /\
    (Forall (fun t => exists vs, row_values F atof atod is_inf qnan cp names l attrs t vs) (data_rows cp fls) ->
     In O_end (log (w_par w)) \/ length (csv_instances cp fls) < length (log (w_par w)) ->
     delivers_rows F atof atod is_inf qnan cp p names l attrs (csv_instances cp fls) (delivered (log (w_par w)))).
  Proof.
    destruct csv_whole as (names & l & src & src_end & H1 & H2 & H3 & H4 & H5). exists names, l. split; [exact H1|].
    intros HV HE. apply (delivers_by_row cols); [exact H2|exact H3|]. eapply good_files; eauto.
    eapply Forall_impl; [|exact HV]. cbv beta. intros t (vs & Hvs). exists vs. now apply H2.
  Qed.

  Hypothesis HL : p_lenient cp = true.
  Hypothesis Hrows : Forall (fun t => closed cp t /\ comparable cp t) (data_rows cp fls).

  Lemma csv_total_error : p_bad cp = B_error -> In O_end (log (w_par w)) ->
    exists names l, csv_described F atod is_inf qnan cp p fls i names l attrs /\
    delivers_rows F atof atod is_inf qnan cp p names l attrs (csv_instances cp fls) (delivered (log (w_par w))).
  Proof.
    intros Hbad HE. destruct csv_whole as (names & l & src & src_end & H1 & H2 & H3 & H4 & H5). exists names, l. split; [exact H1|].
    apply (delivers_by_row cols); [exact H2|exact H3|]. eapply error_files; eauto.
  Qed.

  Lemma csv_total_skip : p_bad cp = B_skip \/ p_bad cp = B_skip_warn -> In O_end (log (w_par w)) ->
    exists names l, csv_described F atod is_inf qnan cp p fls i names l attrs /\
    exists ys zs bs cs, Spec_inst.selected p (csv_instances cp fls) ys /\ ordered p ys zs /\
      batches_of (p_batch p) (effective (p_last p)) 0 zs bs /\
      spared (fun x => forall vs, ~ row_values F atof atod is_inf qnan cp names l attrs (Model_text.bits x) vs) bs cs /\
      Forall2 (fun e b => exists vss, Forall2 (row_values F atof atod is_inf qnan cp names l attrs) (map Model_text.bits (ba_instances b)) vss /\
        table_of F attrs (fst e) vss /\ snd e = ba_size b - length vss) (delivered (log (w_par w))) cs.
  Proof.
    intros Hbad HE. destruct csv_whole as (names & l & src & src_end & H1 & H2 & H3 & H4 & H5). exists names, l. split; [exact H1|].
    assert (X : exists ys zs bs cs, Spec_inst.selected p (csv_instances cp fls) ys /\ ordered p ys zs /\
      batches_of (p_batch p) (effective (p_last p)) 0 zs bs /\
      spared (fun i => bad_row F atof atod is_inf qnan cp cols (Model_text.bits i)) bs cs /\
      Forall2 (fun e b => exists vss, Forall2 (good_row F atof atod is_inf qnan cp cols) (map Model_text.bits (ba_instances b)) vss /\
        holds F cols (fst e) vss /\ snd e = ba_size b - length vss) (delivered (log (w_par w))) cs) by (eapply skip_files; eauto).
    destruct X as (ys & zs & bs & cs & X1 & X2 & X3 & X4 & X5). exists ys, zs, bs, cs. split; [exact X1|]. split; [exact X2|]. split; [exact X3|]. split.
    - assert (XC : Forall (fun b => Forall (fun x => closed cp (Model_text.bits x)) (ba_instances b)) bs).
      { eapply Forall_impl; [|eapply (rows_split p cp fls cores HC Hrows); eauto].
        cbv beta. intros b (B & _). unfold Rows in B. rewrite Forall_map in B. exact B. }
      clear - X4 XC H2. induction X4 as [|b bs cs Hb H IH|b bs cs Hb H IH]; [constructor|apply sp_keep|apply sp_drop]; inversion XC as [|? ? XA XB]; subst; auto.
      + rewrite Forall_forall in *. intros x Hx N. apply (Hb x Hx). split; [exact (XA x Hx)|]. intros vs G. apply (N vs). now apply H2.
      + clear - Hb H2. induction Hb as [x xs (_ & B)|x xs Hb IH]; [left|right; exact IH]. intros vs R. apply (B vs). now apply H2.
    - clear - X5 H2 H3. induction X5 as [|e b es cs (vss & A & B & C) H IH]; constructor; auto. exists vss. split; [|split; [eapply table_holds; eauto|exact C]].
      clear - A H2. induction A; constructor; auto. now apply H2.
  Qed.

  Lemma csv_total_pad : p_bad cp = B_pad \/ p_bad cp = B_pad_warn -> In O_end (log (w_par w)) \/ length (csv_instances cp fls) < length (log (w_par w)) ->
    exists names l, csv_described F atod is_inf qnan cp p fls i names l attrs /\
    exists ys zs bs, Spec_inst.selected p (csv_instances cp fls) ys /\ ordered p ys zs /\
      batches_of (p_batch p) (effective (p_last p)) 0 zs bs /\
      Forall2 (fun e b => exists vss, kept_rows F atof atod is_inf qnan cp names l attrs (map Model_text.bits (ba_instances b)) vss /\
        table_of F attrs (fst e) vss /\ snd e = ba_size b - length vss) (delivered (log (w_par w))) bs.
  Proof.
    intros Hbad HE. destruct csv_whole as (names & l & src & src_end & H1 & H2 & H3 & H4 & H5). exists names, l. split; [exact H1|].
    assert (X : exists ys zs bs, Spec_inst.selected p (csv_instances cp fls) ys /\ ordered p ys zs /\
      batches_of (p_batch p) (effective (p_last p)) 0 zs bs /\
      Forall2 (fun e b => exists vss, Select F atof atod is_inf qnan cp cols (map Model_text.bits (ba_instances b)) vss /\
        holds F cols (fst e) vss /\ snd e = ba_size b - length vss) (delivered (log (w_par w))) bs) by (eapply pad_files; eauto).
    destruct X as (ys & zs & bs & X1 & X2 & X3 & X4). exists ys, zs, bs. split; [exact X1|]. split; [exact X2|]. split; [exact X3|].
    clear - X4 H2 H3. induction X4 as [|e b es cs (vss & A & B & C) H IH]; constructor; auto. exists vss. split; [|split; [eapply table_holds; eauto|exact C]].
    eapply select_kept; eauto.
  Qed.
End Csv.

(* ---------------- any format ---------------- *)

Section Any.
  Context {rng : Type} (seeded : rng) (draw : nat -> rng -> nat * rng) (shuf : list instance -> rng -> list instance * rng) (size_max : nat).
  Context (p : rd_params) (ds : list Model_inst.store) (iss : list (list instance)) (M : machine instance).
  Hypothesis HF : Forall2 store_instances ds iss.
  Hypothesis HM : make_instance_reader seeded draw shuf size_max p ds = Ok M.
  Hypothesis HO : reader_options draw shuf size_max p (length (concat iss)).
  Context {E : Type} (dec : batch instance -> dres E) (bytes : batch instance -> nat) (cores np pr prefetch reads : nat).
  Hypothesis HG : graph_params cores np pr = (prefetch, reads).
  Hypothesis HC : 1 <= cores.

  Lemma any_looks i w : run_from M (p_batch p) (p_last p) dec bytes prefetch reads i w -> first_of p (concat iss) i.
  Proof.
    intro HR. destruct (run_reaches p M bytes prefetch reads dec i w HR) as (_ & w0 & W2 & (L1 & L2 & L3)).
    destruct (good_look seeded draw shuf size_max p ds iss M dec bytes cores np pr prefetch reads w0 HF HM HO HG HC W2 L1) as (ys & zs & S1 & S2 & S3).
    rewrite L3 in S3. injection S3 as S3. destruct zs as [|z zs]; [discriminate|]. injection S3 as ->. exists ys, zs. auto.
  Qed.

  Lemma any_refines w : w_reachable M (p_batch p) (p_last p) dec bytes prefetch reads w ->
    exists src src_end, fed_by M (p_batch p) (p_last p) src src_end /\ reachable dec bytes src src_end prefetch reads (w_par w) /\
      forall ep b, In b (src ep) -> length (ba_instances b) <= ba_size b /\ ba_size b <= p_batch p.
  Proof.
    intro HR. destruct HO as (Hr & Hd & Hp & Hm & Hb).
    destruct (good_refines seeded draw shuf size_max p ds iss M dec bytes cores np pr prefetch reads HF HM Hr Hd Hp Hm Hb HG HC w HR) as (src & src_end & R1 & R2).
    exists src, src_end. split; [exact R1|]. split; [exact R2|]. intros ep b Hin.
    destruct (fed_batches seeded draw shuf size_max p ds iss M src src_end HF HM Hr Hd Hp Hm Hb R1 ep) as (_ & ys & zs & _ & _ & B).
    pose proof (batches_sizes _ _ _ _ _ B) as X. pose proof (batches_most _ _ _ _ _ B) as Y. rewrite Forall_forall in X, Y. auto.
  Qed.
End Any.

(* ---------------- RecordIO-protobuf ---------------- *)

Section Pb.
  Import Model_tsr Model_pb Spec_pb Model_pbfile Spec_pbfile Proof_pbfile.
  Context (V : Type) (vzero : V) (parse : list byte -> option (message V)).
  Context {rng : Type} (seeded : rng) (draw : nat -> rng -> nat * rng) (shuf : list Model_inst.instance -> rng -> list Model_inst.instance * rng) (size_max : nat).
  Context (p : rd_params) (h : beh) (sc : schema) (fls : list (text_file * list (list byte))).
  Context (dec : batch Model_inst.instance -> dres (example (feature V))) (M : machine Model_inst.instance).
  Context (bytes : batch Model_inst.instance -> nat) (cores np pr prefetch reads : nat).
  Hypothesis HG : graph_params cores np pr = (prefetch, reads).
  Hypothesis HC : 1 <= cores.
  Hypothesis HD : pb_dataset V parse seeded draw shuf size_max p fls M.
  Hypothesis Hdec : pb_decoding V vzero parse (p_batch p) h sc dec.
  Context (i : Model_inst.instance) (m : message V) (w : wst (example (feature V)) M).
  Hypothesis HR : run_from M (p_batch p) (p_last p) dec bytes prefetch reads i w.
  Hypothesis Hm : parse (Model_text.bits i) = Some m.
  Hypothesis Hz : (Z.of_nat (p_batch p) < 2 ^ 63)%Z.
  Hypothesis Hn : NoDup (map fst (m_entries V m)).
  Hypothesis Hs : Forall (fun e => describable V (Z.of_nat (p_batch p)) (snd e)) (m_entries V m).
  Hypothesis HI : infer V (Z.of_nat (p_batch p)) (Some (parse (Model_text.bits i))) = Ok (Some sc).

  Lemma pb_whole : pb_described parse p fls i sc /\ exists src src_end,
    pb_reading V vzero parse seeded draw shuf size_max p h sc fls dec M src src_end /\ reachable dec bytes src src_end prefetch reads (w_par w).
  Proof.
    destruct HD as (D1 & D2 & D3 & D4). pose proof (recordio_stores fls D1) as HF.
    rewrite Hm in HI. split.
    - split; [exact (any_looks seeded draw shuf size_max p _ _ M HF D3 D4 dec bytes cores np pr prefetch reads HG HC i w HR)|].
      exists m. split; [exact Hm|]. apply (Proof_pb_props.infer_describes V _ _ _ HI).
    - destruct (any_refines seeded draw shuf size_max p _ _ M HF D3 D4 dec bytes cores np pr prefetch reads HG HC w) as (src & src_end & R1 & R2 & R3).
      { eapply run_reaches; eauto. }
      exists src, src_end. split; [|exact R2]. destruct D4 as (O1 & O2 & O3 & O4 & O5). split; [exact D1|]. split; [exact D2|]. split; [|repeat (split; [assumption|])].
      + destruct (Proof_pb_props.infer_succeeds V (Z.of_nat (p_batch p)) m) as (s & S1 & S2); [lia|exact Hn|exact Hs|].
        rewrite HI in S1. injection S1 as <-. now rewrite Nat2Z.id in S2.
      + intros ep b Hin. destruct (R3 ep b Hin). now apply Hdec.
  Qed.
End Pb.

(* ---------------- images ---------------- *)

Section Image.
  Import Model_image Spec_image Model_imgfile Spec_imgfile Proof_imgfile.
  Context (imdecode : mode -> list byte -> option mat) (cv_resize : mat -> Z -> Z -> option mat) (ip : params) (c h wd : N).
  Context {rng : Type} (seeded : rng) (draw : nat -> rng -> nat * rng) (shuf : list Model_inst.instance -> rng -> list Model_inst.instance * rng) (size_max : nat).
  Context (p : rd_params) (fls : list (image_file * list (list byte))).
  Context (dec : batch Model_inst.instance -> dres image_example) (M : machine Model_inst.instance).
  Context (bytes : batch Model_inst.instance -> nat) (cores np pr prefetch reads : nat).

  Lemma image_whole w : image_dataset imdecode cv_resize ip c h wd seeded draw shuf size_max p fls dec M ->
    graph_params cores np pr = (prefetch, reads) -> 1 <= cores ->
    w_reachable M (p_batch p) (p_last p) dec bytes prefetch reads w ->
    exists src src_end, image_reading imdecode cv_resize ip c h wd seeded draw shuf size_max p fls dec M src src_end /\
      reachable dec bytes src src_end prefetch reads (w_par w).
  Proof.
    intros (D1 & D2 & D3 & D4 & D5 & D6 & D7 & D8) HG HC HR. pose proof (image_stores (p_frame ip) fls D4) as HF.
    assert (D7' : reader_options draw shuf size_max p (length (concat (map (instances_in (p_frame ip)) fls)))).
    { fold (image_instances (p_frame ip) fls). now rewrite instances_length. }
    destruct (any_refines seeded draw shuf size_max p _ _ M HF D6 D7' dec bytes cores np pr prefetch reads HG HC w HR) as (src & src_end & R1 & R2 & _).
    exists src, src_end. split; [|exact R2]. destruct D7 as (O1 & O2 & O3 & O4 & O5). repeat (split; [assumption|]). exact D8.
  Qed.
End Image.
