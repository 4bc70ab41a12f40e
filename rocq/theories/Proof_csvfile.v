From Coq Require Import Permutation.
From Verif Require Import Common Spec_csvtok Model_rec Spec_rec Proof_rec_spec Proof_rec_props Proof_rec_bom Model_inst Spec_inst Proof_inst Proof_inst_filters Proof_inst_shuffle
  Proof_inst_core Proof_inst_props Model_par Spec_par Proof_par Proof_par_props Model_text Spec_text Proof_text Model_num Model_csv Spec_csv Props_csv Model_csvfile Spec_csvfile.

(* ---------------- the rows of a file ---------------- *)

Lemma commented_same rp l : commented (cp_comment rp) l = is_comment_line rp l.
Proof. reflexivity. Qed.

Lemma ok_payloads ls : map (fun r => Ok (payload r)) (map (fun l => mk_rec l kComplete) ls) = ok_rows ls.
Proof. unfold ok_rows. now rewrite map_map. Qed.

Lemma csv_rows_ok rp f rows : csv_file rp f rows -> csv_rows rp f = ok_rows rows.
Proof.
  intros (Hc & Hmax & Hm & Hdq & Hcc & mark & ls & last & E & Hmk & Hb & He & Hi & ->). unfold csv_rows, rows_of. rewrite E in *.
  destruct (only_leading mark _ Hmk Hb) as [B1 B2]. destruct (not_contains_lines _ _ Hb) as [B3 B4].
  assert (HI : forall l, In l (map fst ls) \/ l = last -> item_ok rp l).
  { intros l Hl. specialize (Hi l Hl). unfold item_ok. rewrite commented_same in Hi.
    destruct (is_comment_line rp l); cbn [negb andb] in Hi; [exact Hi|]. destruct (cp_allow_quoted_new_lines rp); exact Hi. }
  assert (HT0 : forall sched size, records (csv_decode rp) true sched size (render_lines ls last)
    = (map (fun l => mk_rec l kComplete) (filter (keep rp) (lines_of ls last)), Ok tt)).
  { intros. apply file_lines; auto. rewrite Forall_forall. intros x Hx. apply HI. left. apply in_map, Hx. }
  assert (HT : forall sched size, records (csv_decode rp) true sched size (mark ++ render_lines ls last)
    = (map (fun l => mk_rec l kComplete) (filter (keep rp) (lines_of ls last)), Ok tt)).
  { intros. destruct Hmk as [-> | ->]; [apply HT0|].
    rewrite records_bom; [apply HT0|now apply not_contains_starts|rewrite HT0; discriminate]. }
  assert (HR : records (csv_decode rp) (tf_in_memory f) (tf_reads f) (tf_chunk f) (mark ++ render_lines ls last)
    = (map (fun l => mk_rec l kComplete) (filter (keep rp) (lines_of ls last)), Ok tt)).
  { destruct Hm as [-> |[Hsk|Hm]]; [apply HT| |].
    { rewrite (C06_partial rp _ (tf_in_memory f) true (tf_reads f) [] (tf_chunk f) (tf_chunk f)); auto.
      intro Ha. destruct (Hdq Ha) as [[? _] [? _]]. split; assumption. }
    rewrite (C05_csv rp _ (tf_in_memory f) true (tf_reads f) [] (tf_chunk f) (tf_chunk f)) by assumption. apply HT. }
  rewrite HR, app_nil_r. apply ok_payloads.
Qed.

Lemma to_records_ok texts : to_records (ok_rows texts) = (map (fun l => mk_rec l kComplete) texts, Ok tt).
Proof. induction texts as [|t texts IH]; [reflexivity|]. cbn [ok_rows map to_records]. unfold ok_rows in IH. now rewrite IH. Qed.

Lemma csv_session_session F atod is_inf qnan cp rp fls r j out :
  Forall (fun fl => csv_file rp (fst fl) (snd fl)) fls ->
  csv_session F atod is_inf qnan cp (map (fun fl => csv_rows rp (fst fl)) fls) r j out -> session F atod is_inf qnan cp (map snd fls) r j out.
Proof.
  intros HF. induction 1 as [|r j out raw r' rows H IH Hn Ho|r j out inst H IH Hi|r j out H IH].
  - constructor.
  - rewrite nth_error_map in Hn. destruct (nth_error fls j) as [[f' texts]|] eqn:En; [|discriminate].
    cbn in Hn. injection Hn as <-. eapply (Ss_open _ _ _ _ _ _ r j out texts); [exact IH| |].
    + rewrite nth_error_map, En. reflexivity.
    + rewrite Forall_forall in HF. specialize (HF _ (nth_error_In _ _ En)). cbn in HF. now rewrite <- (csv_rows_ok _ _ _ HF).
  - now apply Ss_schema.
  - eapply Ss_reset, IH.
Qed.

Lemma without_len cp l : forall j, length (without_headers cp j l) = length l.
Proof. induction l as [|s l IH]; intro j; [reflexivity|]. cbn. now rewrite IH. Qed.

Lemma csv_stores_ok : forall (fls : list (text_file * list str)) texts, length texts = length fls ->
  Forall2 store_instances (csv_stores fls (map ok_rows texts))
    (map (fun fr => Spec_inst.numbered (tf_id (fst fr)) (snd fr)) (combine (map fst fls) texts)).
Proof.
  induction fls as [|[f ls] fls IH]; intros [|t texts] HL; try discriminate; [constructor|].
  unfold csv_stores. cbn [map fst snd combine]. constructor; [|apply IH; cbn in HL; lia].
  right. exists (map (fun l => mk_rec l kComplete) t), t. split; [|split; [apply groups_complete|reflexivity]].
  cbn. now rewrite to_records_ok.
Qed.

(* ---------------- the selected instances ---------------- *)

Lemma sample_incl {A} keep (xs ys : list A) : sample_of keep xs ys -> incl ys xs.
Proof.
  induction 1 as [b Hb|b xs ys Hb HS IH]; intros a Ha.
  - rewrite <- (firstn_skipn (keep (length b)) b). apply in_or_app. auto.
  - apply in_app_or in Ha. apply in_or_app. destruct Ha as [Ha|Ha]; [left|right; apply IH, Ha].
    rewrite <- (firstn_skipn (keep 100) b). apply in_or_app. auto.
Qed.

Lemma range_incl {A} skip take (xs : list A) : incl (range_of skip take xs) xs.
Proof.
  unfold range_of. intros a Ha. rewrite <- (firstn_skipn skip xs). apply in_or_app. right.
  destruct take as [n|]; [|exact Ha]. rewrite <- (firstn_skipn n (skipn skip xs)). apply in_or_app. auto.
Qed.

Lemma shard_incl {A} i n (xs : list A) : incl (shard_of i n xs) xs.
Proof.
  intros a Ha. unfold shard_of in Ha. apply in_map_iff in Ha. destruct Ha as ([k b] & <- & Hb).
  apply filter_In in Hb. destruct Hb as [Hb _]. apply in_combine_r in Hb. exact Hb.
Qed.

Lemma selected_incl p xs ys : Spec_inst.selected p xs ys -> incl ys xs.
Proof.
  unfold Spec_inst.selected. set (a := range_of _ _ _). assert (Ha : incl a xs) by apply range_incl.
  set (b := if _ : bool then _ else _).
  assert (Hb : incl b a). { subst b. destruct (1 <? _); [apply shard_incl|apply incl_refl]. }
  intro H. apply incl_tran with a; [|exact Ha]. apply incl_tran with b; [|exact Hb].
  destruct (p_ratio p); [destruct H as (keep & _ & H); eapply sample_incl, H|subst; apply incl_refl].
Qed.

Lemma ordered_incl p ys zs : ordered p ys zs -> incl zs ys.
Proof.
  unfold ordered. destruct (p_shuffle p); [|intros ->; apply incl_refl].
  intros [H _] a Ha. eapply Permutation_in; eauto.
Qed.

Lemma batch_part {A} size last k (xs : list A) bs : batches_of size last k xs bs ->
  Forall (fun b => incl (ba_instances b) xs) bs.
Proof.
  induction 1 as [k|k xs Hne Hl Hd|k xs r Hne Hl H1 H2 Hr|k xs ys bs Hl HB IH]; constructor; cbn; auto using incl_refl, incl_appl.
  eapply Forall_impl; [|exact IH]. cbn. intros b Hb. apply incl_appr, Hb.
Qed.

(* The size of a batch is that of its instances, or the batch size if padded. *)
Lemma batch_padding {A} size last k (xs : list A) bs : last <> last_pad_warn -> batches_of size last k xs bs ->
  Forall (fun b => ba_size b - length (ba_instances b) =
    match last with last_pad => size - length (ba_instances b) | _ => 0 end) bs.
Proof.
  intros Hw. induction 1 as [k|k xs Hne Hl Hd|k xs r Hne Hl H1 H2 Hr|k xs ys bs Hl HB IH]; constructor; cbn; auto.
  - subst r. destruct last; try congruence; lia.
  - destruct last; lia.
Qed.

Lemma F2_len {A B} (R : A -> B -> Prop) xs ys : Forall2 R xs ys -> length xs = length ys.
Proof. induction 1; cbn; congruence. Qed.

Lemma Forall2_all {A B} (R : A -> B -> Prop) xs : Forall (fun x => exists y, R x y) xs -> exists ys, Forall2 R xs ys.
Proof. induction 1 as [|x xs (y & Hy) HF (ys & IH)]; eexists; [constructor|constructor; eassumption]. Qed.

Lemma sequential_all {B E} (dec : B -> dres E) (R : B -> E -> Prop) bs :
  Forall (fun b => exists e, dec b = D_example e /\ R b e) bs -> Forall2 R bs (sequential dec bs).
Proof.
  induction 1 as [|b bs (e & H1 & H2) HF IH]; [constructor|]. cbn [sequential]. rewrite H1. now constructor.
Qed.

Section Run.
  Context {rng : Type} (seeded : rng) (draw : nat -> rng -> nat * rng) (shuf : list instance -> rng -> list instance * rng) (size_max : nat).
  Context (p : rd_params) (F : Type) (atof atod : list byte -> option F) (is_inf : F -> bool) (qnan fzero : F).
  Context (cp : csv_params) (rp : csv_rparams) (fls : list (text_file * list str)) (cols : list col).
  Context (dec : batch instance -> dres (list (list (Model_num.val F)) * nat)).
  Context (M : machine instance) (src : nat -> list (batch instance)) (src_end : nat -> option exn).
  Hypothesis HX : csv_reading seeded draw shuf size_max p F atof atod is_inf qnan fzero cp rp fls cols dec M src src_end.

  Lemma csv_fed ep : src_end ep = None /\ exists ys zs, Spec_inst.selected p (csv_instances cp fls) ys /\ ordered p ys zs /\
    batches_of (p_batch p) (effective (p_last p)) 0 zs (src ep).
  Proof.
    destruct HX as (HF & HP & (r & out & HS & HM) & Hr & Hd & Hp & Hm & Hb & Hfed & _).
    pose proof (csv_session_session _ _ _ _ _ _ _ _ _ _ HF HS) as HS'.
    pose proof (C36_headers_removed _ _ _ _ _ _ HP _ _ _ HS') as ->.
    rewrite firstn_all2 in HM by (rewrite map_length; lia).
    eapply (fed_batches seeded draw shuf size_max p); eauto. apply csv_stores_ok. now rewrite without_len, map_length.
  Qed.

  Definition Rows (b : batch instance) : list str := map Model_text.bits (ba_instances b).
  Definition gives (b : batch instance) (e : list (list (Model_num.val F)) * nat) : Prop :=
    exists vss, Forall2 (good_row F atof atod is_inf qnan cp cols) (Rows b) vss /\ holds F cols (fst e) vss /\
      snd e = ba_size b - length (ba_instances b).

  Lemma gives_delivers ys zs bs es :
    Spec_inst.selected p (csv_instances cp fls) ys -> ordered p ys zs ->
    batches_of (p_batch p) (effective (p_last p)) 0 zs bs -> Forall2 gives bs es ->
    delivers p F atof atod is_inf qnan cp cols (csv_instances cp fls) es.
  Proof.
    intros H1 H2 H3 HG. destruct HX as (_ & _ & _ & _ & _ & _ & _ & Hb & _).
    destruct (batches_meaning _ _ _ _ _ Hb H3) as ((rest & R1 & R2 & R3) & _ & M1 & M2 & M3).
    assert (HP : Forall (fun b => ba_size b - length (ba_instances b) =
      match p_last p with last_pad => p_batch p - length (ba_instances b) | _ => 0 end) bs).
    { pose proof (batch_padding (p_batch p) (effective (p_last p)) 0 zs bs) as HP.
      destruct (p_last p); apply HP; first [discriminate|exact H3]. }
    assert (HV : exists vsss, Forall2 (fun b vss => Forall2 (good_row F atof atod is_inf qnan cp cols) (Rows b) vss) bs vsss /\
      Forall2 (fun e vss => holds F cols (fst e) vss /\ vss <> [] /\
        snd e = match p_last p with last_pad => p_batch p - length vss | _ => 0 end) es vsss).
    { clear R1 H3 M2 M3. revert M1 HP. induction HG as [|b e bs es (vss & G1 & G2 & G3) HG IH]; intros M1 HP; [exists []; split; constructor|].
      inversion M1 as [|? ? M1a M1b]; subst. inversion HP as [|? ? HPa HPb]; subst.
      destruct (IH M1b HPb) as (vsss & I1 & I2). exists (vss :: vsss).
      assert (HL : length vss = length (ba_instances b)).
      { apply F2_len in G1. unfold Rows in G1. rewrite map_length in G1. congruence. }
      split; constructor; auto. split; [exact G2|]. split.
      - intros ->. destruct (ba_instances b); [congruence|discriminate].
      - now rewrite G3, HPa, HL. }
    destruct HV as (vsss & V1 & V2). exists ys, (concat (map ba_instances bs)), rest, vsss.
    split; [exact H1|]. rewrite R1. split; [exact H2|]. split; [exact R2|]. split; [|split; [|split]].
    - destruct R3 as [-> |R3]; [left; reflexivity|right]. destruct (p_last p); cbn in R3; destruct R3; auto; discriminate.
    - clear - V1. induction V1 as [|b vss bs vsss G V1 IH]; [constructor|]. cbn [map concat]. rewrite map_app.
      apply Forall2_app; assumption.
    - exact V2.
    - clear - V1 M2. assert (HL : Forall2 (fun b vss => length (Rows b) = length vss) bs vsss).
      { clear M2. induction V1; constructor; auto. eapply F2_len; eassumption. }
      clear V1. induction HL as [|b vss bs vsss E HL IH]; [constructor|].
      destruct HL as [|b' vss' bs vsss E' HL]; [constructor|]. cbn [removelast] in *.
      inversion M2 as [|? ? [M2a _] M2b]; subst. constructor; [|apply IH, M2b].
      unfold Rows in E. rewrite map_length in E. congruence.
  Qed.

  Context (cores np pr prefetch reads : nat).
  Hypothesis (HG : graph_params cores np pr = (prefetch, reads)) (HC : 1 <= cores).
  Context (size_of : batch instance -> nat) (s : @st (list (list (Model_num.val F)) * nat)).
  Hypothesis HR : reachable dec size_of src src_end prefetch reads s.

  Lemma csv_end : In O_end (log s) ->
    exists ys zs, Spec_inst.selected p (csv_instances cp fls) ys /\ ordered p ys zs /\
      batches_of (p_batch p) (effective (p_last p)) 0 zs (src (epoch s)) /\
      Forall (decodable dec) (src (epoch s)) /\ delivered (log s) = sequential dec (src (epoch s)).
  Proof.
    intro HE. destruct (csv_fed (epoch s)) as (_ & ys & zs & H1 & H2 & H3).
    edestruct @end_ok as ((n & H4) & H5 & _); eauto. exists ys, zs. rewrite H4, delivered_examples. auto.
  Qed.

  Lemma data_in ys zs : Spec_inst.selected p (csv_instances cp fls) ys -> ordered p ys zs -> incl zs (csv_instances cp fls).
  Proof. intros H1 H2. eapply incl_tran; [eapply ordered_incl, H2|eapply selected_incl, H1]. Qed.

  Lemma data_bits : map Model_text.bits (csv_instances cp fls) = concat (without_headers cp 0 (map snd fls)).
  Proof.
    unfold csv_instances. assert (HL : length (map fst fls) = length (without_headers cp 0 (map snd fls))) by (now rewrite without_len, !map_length).
    revert HL. generalize (without_headers cp 0 (map snd fls)) as ts. generalize (map fst fls) as fs.
    induction fs as [|f fs IH]; intros [|t ts] HL; try discriminate; [reflexivity|]. cbn [combine map concat fst snd].
    rewrite map_app, bits_numbered, IH by (cbn in HL; lia). reflexivity.
  Qed.

  (* What holds of all rows holds of those in a batch. *)
  Lemma batch_rows (P : str -> Prop) ys zs bs : Forall P (concat (without_headers cp 0 (map snd fls))) ->
    Spec_inst.selected p (csv_instances cp fls) ys -> ordered p ys zs ->
    batches_of (p_batch p) (effective (p_last p)) 0 zs bs ->
    Forall (fun b => Forall P (Rows b) /\ length (Rows b) <= ba_size b) bs.
  Proof.
    intros HP H1 H2 H3. rewrite <- data_bits in HP. rewrite Forall_map in HP.
    pose proof (batch_part _ _ _ _ _ H3) as HB. pose proof (batches_sizes _ _ _ _ _ H3) as HS.
    rewrite Forall_forall in *. intros b Hb. split; [|unfold Rows; rewrite map_length; auto].
    unfold Rows. rewrite Forall_map, Forall_forall. intros i Hi. apply HP, (data_in _ _ H1 H2), (HB b Hb i Hi).
  Qed.

  Lemma good_files :
    Forall (fun t => exists vs, good_row F atof atod is_inf qnan cp cols t vs) (concat (without_headers cp 0 (map snd fls))) ->
    In O_end (log s) \/ length (csv_instances cp fls) < length (log s) ->
    delivers p F atof atod is_inf qnan cp cols (csv_instances cp fls) (delivered (log s)).
  Proof.
    intros Hgood HE0.
    assert (HB : forall ys zs bs, bs = src (epoch s) -> Spec_inst.selected p (csv_instances cp fls) ys -> ordered p ys zs ->
      batches_of (p_batch p) (effective (p_last p)) 0 zs bs -> Forall (fun b => exists e, dec b = D_example e /\ gives b e) bs).
    { intros ys zs bs Ebs H1 H2 H3. pose proof (batch_rows _ _ _ _ Hgood H1 H2 H3) as HW. rewrite Forall_forall in *. intros b Hin.
      destruct (HW b Hin) as [Hr Hl]. rewrite Ebs in Hin.
      destruct HX as (_ & _ & _ & _ & _ & _ & _ & _ & _ & Hdec). destruct (Hdec (epoch s) b Hin) as (out & D1 & D2).
      destruct (Forall2_all _ _ Hr) as (vss & HV). fold (Rows b) in D1.
      destruct (C31_cells _ _ _ _ _ _ _ _ _ _ _ _ Hl HV D1) as (T & -> & HT).
      exists (T, ba_size b - length (Rows b)). split; [exact D2|]. exists vss. split; [exact HV|]. split; [exact HT|].
      cbn [snd]. unfold Rows. now rewrite map_length. }
    assert (HE : In O_end (log s)).
    { destruct HE0 as [H|H]; [exact H|]. destruct (csv_fed (epoch s)) as (Hend & ys & zs & H1 & H2 & H3).
      eapply enough_calls; eauto.
      - eapply Forall_impl; [|exact (HB _ _ _ eq_refl H1 H2 H3)]. cbv beta. intros b (e & Hd & _) x Hx. congruence.
      - pose proof (sequential_len dec (src (epoch s))) as L1.
        destruct HX as (_ & _ & _ & _ & _ & _ & _ & Hb & _).
        pose proof (batches_len _ _ _ _ _ Hb H3) as L2. pose proof (selected_len seeded draw shuf size_max p _ _ H1) as L3.
        assert (L4 : length zs = length ys).
        { unfold ordered in H2. destruct (p_shuffle p); [apply Permutation_length, H2|congruence]. }
        lia. }
    destruct (csv_end HE) as (ys & zs & H1 & H2 & H3 & H4 & H5). rewrite H5.
    eapply gives_delivers; eauto. apply sequential_all. eauto.
  Qed.

  Hypothesis (HL : p_lenient cp = true).
  Hypothesis Hrows : Forall (fun t => closed cp t /\ comparable cp t) (concat (without_headers cp 0 (map snd fls))).

  Lemma rows_split ys zs bs : Spec_inst.selected p (csv_instances cp fls) ys -> ordered p ys zs ->
    batches_of (p_batch p) (effective (p_last p)) 0 zs bs ->
    Forall (fun b => Forall (closed cp) (Rows b) /\ Forall (comparable cp) (Rows b) /\ length (Rows b) <= ba_size b) bs.
  Proof.
    intros H1 H2 H3. eapply Forall_impl; [|exact (batch_rows _ _ _ _ Hrows H1 H2 H3)]. cbv beta. intros b [Hr Hl].
    split; [|split; [|exact Hl]]; eapply Forall_impl; try exact Hr; cbv beta; tauto.
  Qed.

  Lemma error_files : p_bad cp = B_error -> In O_end (log s) ->
    delivers p F atof atod is_inf qnan cp cols (csv_instances cp fls) (delivered (log s)).
  Proof.
    intros Hbad HE. destruct (csv_end HE) as (ys & zs & H1 & H2 & H3 & H4 & H5). rewrite H5.
    eapply gives_delivers; eauto. apply sequential_all.
    pose proof (rows_split _ _ _ H1 H2 H3) as HS. rewrite Forall_forall in *. intros b Hin.
    destruct (HS b Hin) as (S1 & S2 & S3). specialize (H4 b Hin).
    destruct HX as (_ & _ & _ & _ & _ & _ & _ & _ & _ & Hdec). destruct (Hdec (epoch s) b Hin) as (out & D1 & D2). fold (Rows b) in D1.
    destruct (C32_error _ _ _ _ _ _ _ _ _ _ _ Hbad HL S3 S1 S2 D1) as [_ HO].
    destruct HO as (T & vss & -> & HV & HT). { intros ->. exact (H4 _ D2). }
    exists (T, ba_size b - length (Rows b)). split; [exact D2|]. exists vss. split; [exact HV|]. split; [exact HT|].
    cbn [snd]. unfold Rows. now rewrite map_length.
  Qed.

  Lemma bad_or_not rows : Forall (closed cp) rows -> ~ Exists (bad_row F atof atod is_inf qnan cp cols) rows ->
    Forall (fun r => ~ bad_row F atof atod is_inf qnan cp cols r) rows.
  Proof. intros _ HN. apply Forall_Exists_neg. exact HN. Qed.

  Lemma skip_files : p_bad cp = B_skip \/ p_bad cp = B_skip_warn -> In O_end (log s) ->
    exists ys zs bs cs, Spec_inst.selected p (csv_instances cp fls) ys /\ ordered p ys zs /\
      batches_of (p_batch p) (effective (p_last p)) 0 zs bs /\
      spared (fun i => bad_row F atof atod is_inf qnan cp cols (Model_text.bits i)) bs cs /\
      Forall2 (fun e b => exists vss, Forall2 (good_row F atof atod is_inf qnan cp cols) (map Model_text.bits (ba_instances b)) vss /\
        holds F cols (fst e) vss /\ snd e = ba_size b - length vss) (delivered (log s)) cs.
  Proof.
    intros Hbad HE. destruct (csv_end HE) as (ys & zs & H1 & H2 & H3 & H4 & H5). rewrite H5.
    exists ys, zs, (src (epoch s)).
    enough (HC' : exists cs, spared (fun i => bad_row F atof atod is_inf qnan cp cols (Model_text.bits i)) (src (epoch s)) cs /\
      Forall2 (fun e b => exists vss, Forall2 (good_row F atof atod is_inf qnan cp cols) (map Model_text.bits (ba_instances b)) vss /\
        holds F cols (fst e) vss /\ snd e = ba_size b - length vss) (sequential dec (src (epoch s))) cs)
      by (destruct HC' as (cs & C1 & C2); exists cs; auto).
    pose proof (rows_split _ _ _ H1 H2 H3) as HS. clear H3 H5. assert (HI0 : incl (src (epoch s)) (src (epoch s))) by apply incl_refl.
    revert H4 HS HI0. generalize (src (epoch s)) at 1 2 3 5 6 as bs.
    induction bs as [|b bs IH]; intros H4 HS HI0; [exists []; split; constructor|].
    inversion H4 as [|? ? H4a H4b]; subst. inversion HS as [|? ? (S1 & S2 & S3) HSb]; subst.
    destruct (IH H4b HSb (fun x Hx => HI0 x (or_intror Hx))) as (cs & C1 & C2). clear IH.
    pose proof (HI0 b (or_introl eq_refl)) as Hin.
    destruct HX as (_ & _ & _ & _ & _ & _ & _ & _ & _ & Hdec). destruct (Hdec (epoch s) b Hin) as (out & D1 & D2). fold (Rows b) in D1.
    destruct (C32_skip _ _ _ _ _ _ _ _ _ _ _ Hbad HL S3 S1 S2 D1) as [HI HO]. cbn [sequential]. rewrite D2.
    assert (HD : out = Ok None \/ out <> Ok None) by (destruct out as [[]|x| |]; auto; right; discriminate).
    destruct HD as [-> |HD].
    - exists cs. split; [|exact C2]. apply sp_drop; [|exact C1]. apply Exists_map with (f := Model_text.bits). apply HI. reflexivity.
    - destruct (HO HD) as (T & vss & -> & HV & HT). exists (b :: cs). split.
      + apply sp_keep; [|exact C1]. apply Forall_Exists_neg. intro HE'. apply HD, HI. apply Exists_map. exact HE'.
      + cbn [dres_of]. constructor; [|exact C2]. exists vss. split; [exact HV|]. split; [exact HT|]. cbn [snd].
        now rewrite (F2_len _ _ _ HV).
  Qed.

  Lemma pad_files : p_bad cp = B_pad \/ p_bad cp = B_pad_warn ->
    In O_end (log s) \/ length (csv_instances cp fls) < length (log s) ->
    exists ys zs bs, Spec_inst.selected p (csv_instances cp fls) ys /\ ordered p ys zs /\
      batches_of (p_batch p) (effective (p_last p)) 0 zs bs /\
      Forall2 (fun e b => exists vss, Select F atof atod is_inf qnan cp cols (map Model_text.bits (ba_instances b)) vss /\
        holds F cols (fst e) vss /\ snd e = ba_size b - length vss) (delivered (log s)) bs.
  Proof.
    intros Hbad HE0.
    assert (HB : forall ys zs bs, bs = src (epoch s) -> Spec_inst.selected p (csv_instances cp fls) ys -> ordered p ys zs ->
      batches_of (p_batch p) (effective (p_last p)) 0 zs bs -> Forall (fun b => exists e, dec b = D_example e /\
        exists vss, Select F atof atod is_inf qnan cp cols (map Model_text.bits (ba_instances b)) vss /\
        holds F cols (fst e) vss /\ snd e = ba_size b - length vss) bs).
    { intros ys zs bs Ebs H1 H2 H3. pose proof (rows_split _ _ _ H1 H2 H3) as HW. rewrite Forall_forall in *. intros b Hin.
      destruct (HW b Hin) as (S1 & S2 & S3). rewrite Ebs in Hin.
      destruct HX as (_ & _ & _ & _ & _ & _ & _ & _ & _ & Hdec). destruct (Hdec (epoch s) b Hin) as (out & D1 & D2). fold (Rows b) in D1.
      destruct (C32_pad _ _ _ _ _ _ _ _ _ _ _ Hbad HL S3 S1 S2 D1) as (T & vss & -> & HV & HT).
      eexists. split; [exact D2|]. exists vss. auto. }
    assert (HE : In O_end (log s)).
    { destruct HE0 as [H|H]; [exact H|]. destruct (csv_fed (epoch s)) as (Hend & ys & zs & H1 & H2 & H3).
      eapply enough_calls; eauto.
      - eapply Forall_impl; [|exact (HB _ _ _ eq_refl H1 H2 H3)]. cbv beta. intros b (e & Hd & _) x Hx. congruence.
      - pose proof (sequential_len dec (src (epoch s))) as L1.
        destruct HX as (_ & _ & _ & _ & _ & _ & _ & Hb & _).
        pose proof (batches_len _ _ _ _ _ Hb H3) as L2. pose proof (selected_len seeded draw shuf size_max p _ _ H1) as L3.
        assert (L4 : length zs = length ys).
        { unfold ordered in H2. destruct (p_shuffle p); [apply Permutation_length, H2|congruence]. }
        lia. }
    destruct (csv_end HE) as (ys & zs & H1 & H2 & H3 & H4 & H5). rewrite H5.
    exists ys, zs, (src (epoch s)). split; [exact H1|]. split; [exact H2|]. split; [exact H3|].
    pose proof (sequential_all dec _ _ (HB _ _ _ eq_refl H1 H2 H3)) as HF2. clear - HF2. induction HF2; constructor; auto.
  Qed.
End Run.

(* ---------------- there are such readers ---------------- *)

(* Without options that select or shuffle, every division into batches is fed. *)
Lemma fed_plain {rng} (seeded : rng) draw shuf size_max p ds iss M bs :
  Forall2 store_instances ds iss -> make_instance_reader seeded draw shuf size_max p ds = Ok M ->
  p_skip p = 0 -> p_take p = None -> p_num_shards p <= 1 -> p_ratio p = None -> p_shuffle p = false ->
  (forall w g, 0 < w -> fst (draw w g) < w) -> (forall l g, Permutation (fst (shuf l g)) l) ->
  length (concat iss) < size_max -> 0 < p_batch p -> p_last p <> last_pad_warn ->
  batches_of (p_batch p) (p_last p) 0 (concat iss) bs -> fed_by M (p_batch p) (p_last p) (fun _ => bs) (fun _ => None).
Proof.
  intros HF HM H1 H2 H3 H4 H5 Hd Hp Hm Hb Hw HB.
  assert (Hr : forall r, p_ratio p = Some r -> float_ratio r) by (rewrite H4; discriminate).
  assert (G : forall ys zs, Spec_inst.selected p (concat iss) ys -> ordered p ys zs -> zs = concat iss).
  { intros ys zs S1 S2. unfold ordered in S2. rewrite H5 in S2. subst zs. unfold Spec_inst.selected, range_of in S1.
    destruct (Nat.ltb_spec 1 (p_num_shards p)); [lia|]. rewrite H4, H1, H2 in S1. exact S1. }
  destruct (reader_ok_init seeded draw shuf size_max p ds iss M HF HM Hr Hd Hp Hm) as (y0 & z0 & S1 & S2 & H0).
  destruct (reader_ok seeded draw shuf size_max p ds iss M (b_init M) HF HM Hr Hd Hp Hm) as (y1 & z1 & S3 & S4 & H6).
  rewrite (G _ _ S1 S2) in H0. rewrite (G _ _ S3 S4) in H6. apply yields_iff in H0, H6.
  intros [|e].
  - exists (0, b_init M). split; [exact (es_first M 0)|]. apply yields_iff. exact (batch_ok M _ _ Hb 0 _ bs Hw HB _ H0).
  - exists (0, b_reset M (b_init M)). split; [exact (es_later M e (b_init M) 0)|]. apply yields_iff. exact (batch_ok M _ _ Hb 0 _ bs Hw HB _ H6).
Qed.
