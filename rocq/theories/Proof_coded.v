From Coq Require Import Permutation.
From Verif Require Import Common Model_rec Spec_rec Model_gzip Spec_gzip Model_utf8 Spec_utf8 Model_names Model_source Spec_source Proof_source5 Props_source
  Model_inst Spec_inst Proof_inst_props Model_par Spec_par Model_text Spec_text Proof_text Model_num Model_csv Spec_csv Props_csv Model_csvfile Spec_csvfile Proof_csvfile
  Model_tsr Model_pb Spec_pb Model_pbfile Spec_pbfile Proof_pbfile Spec_fault Model_coded Spec_coded.

Section Coded.
  Variable lb : libs.
  Variable HL : sound lb.

  Lemma source_whole sf data f : carries lb sf data f -> length data + 3 <= sf_fuel sf ->
    Spec_source.delivered f (source_records lb recordio_decode sf) (whole recordio_decode data).
  Proof.
    destruct HL as (He & Hc & _). intros [Hs H] Hf. unfold source_records. destruct sf as [id [comp content sched sk zc] given size fuel]. cbn [sf_store sf_chunk sf_fuel d_comp d_bytes d_sched] in *.
    destruct comp; try contradiction.
    - destruct H as [-> ->]. apply C79_plain; auto. apply Hs.
    - destruct H as [-> ->]. apply C79_plain; auto. apply Hs.
    - destruct H as [H1 H2]. now apply C79_gzip_partial.
  Qed.

  Lemma source_text D sf out f : carries_text lb D sf out f ->
    Spec_source.delivered f (source_text_records lb D sf) (whole D out).
  Proof.
    destruct HL as (He & Hc & Hv). intros (data & g & t & [Hs H] & Hl & Hu & -> & Hk & HT & HO & Hf). unfold source_text_records.
    destruct sf as [id [comp content sched sk zc] given size fuel]. cbn [sf_store sf_chunk sf_fuel sf_given d_comp d_bytes d_sched d_seekable] in *.
    destruct comp; try contradiction.
    - destruct H as [-> ->]. apply C80_plain; auto; [tauto|apply Hs|lia].
    - destruct H as [-> ->]. apply C80_plain; auto; [tauto|apply Hs|lia].
    - destruct H as [H1 H2]. apply C80_gzip_partial with (data := data); auto. destruct Hk as [[Hk _]|Hk]; [congruence|exact Hk].
  Qed.

  Lemma line_same sf out : carries_text lb (text_line_decode false) sf out Ends -> line_source lb sf = text_store (held sf out).
  Proof. intro H. pose proof (source_text _ _ _ _ H) as E. cbn in E. unfold line_source, text_store. now rewrite E. Qed.
  Lemma recordio_same sf data : carries lb sf data Ends -> length data + 3 <= sf_fuel sf -> recordio_source lb sf = recordio_store (held sf data).
  Proof. intros H Hf. pose proof (source_whole _ _ _ H Hf) as E. cbn in E. unfold recordio_source, recordio_store. now rewrite E. Qed.
  Lemma csv_same rp sf out : carries_text lb (csv_decode rp) sf out Ends -> csv_source lb rp sf = csv_rows rp (held sf out).
  Proof. intro H. pose proof (source_text _ _ _ _ H) as E. cbn in E. unfold csv_source, csv_rows. now rewrite E. Qed.

  Lemma lines_same xs : Forall (lines_in lb) xs -> map (fun x => line_source lb (fst x)) xs = map (fun fl => text_store (fst fl)) (in_memory xs).
  Proof. intro H. unfold in_memory. rewrite map_map. apply map_ext_in. intros x Hx. rewrite Forall_forall in H. destruct (H x Hx). cbn [fst]. now apply line_same. Qed.
  Lemma lines_ok xs : Forall (lines_in lb) xs -> Forall (fun fl => text_ok (fst fl) /\ has_lines (fst fl) (snd fl)) (in_memory xs).
  Proof. intro H. unfold in_memory. rewrite Forall_map. eapply Forall_impl; [|exact H]. intros x [_ Hx]. cbn [fst snd]. split; [split; [reflexivity|left; reflexivity]|exact Hx]. Qed.

  Lemma payloads_same xs : Forall (payloads_in lb) xs -> map (fun x => recordio_source lb (fst x)) xs = map (fun fl => recordio_store (fst fl)) (in_memory xs).
  Proof. intro H. unfold in_memory. rewrite map_map. apply map_ext_in. intros x Hx. rewrite Forall_forall in H. destruct (H x Hx) as (? & ? & _). cbn [fst]. now apply recordio_same. Qed.

  Lemma pb_same V vzero parse {rng} (seeded : rng) draw shuf size_max p h s xs dec M src src_end :
    pb_source_reading lb V vzero parse seeded draw shuf size_max p h s xs dec M src src_end ->
    pb_reading V vzero parse seeded draw shuf size_max p h s (in_memory xs) dec M src src_end.
  Proof.
    intros (H1 & H2 & H3 & H4 & H). split; [|split; [|split; [exact H3|split; [|exact H]]]].
    - unfold in_memory. rewrite Forall_map. eapply Forall_impl; [|exact H1]. intros x (_ & _ & Hx). exact Hx.
    - unfold in_memory. rewrite map_map. exact H2.
    - rewrite <- payloads_same; assumption.
  Qed.

  Lemma combine_map {A B C} (f : A -> B) (l : list A) (l' : list C) : combine (map f l) l' = map (fun x => (f (fst x), snd x)) (combine l l').
  Proof. revert l'. induction l as [|a l IH]; intros [|c l']; cbn; try reflexivity. now rewrite IH. Qed.

  Lemma csv_reading_same {rng} (seeded : rng) draw shuf size_max p F atof atod is_inf qnan fzero cp rp xs cols dec M src src_end :
    csv_source_reading lb seeded draw shuf size_max p F atof atod is_inf qnan fzero cp rp xs cols dec M src src_end ->
    csv_reading seeded draw shuf size_max p F atof atod is_inf qnan fzero cp rp (in_memory xs) cols dec M src src_end.
  Proof.
    intros (H1 & H2 & (r & out & HS & HM) & H). split; [|split; [|split; [|exact H]]].
    - unfold in_memory. rewrite Forall_map. eapply Forall_impl; [|exact H1]. intros x (_ & Hx). exact Hx.
    - unfold in_memory. rewrite map_map. exact H2.
    - exists r, out. split.
      + replace (map (fun fl => csv_rows rp (fst fl)) (in_memory xs)) with (map (fun x => csv_source lb rp (fst x)) xs).
        { unfold in_memory. rewrite map_length. exact HS. }
        unfold in_memory. rewrite map_map. apply map_ext_in. intros x Hx. rewrite Forall_forall in H1. destruct (H1 x Hx). cbn [fst]. now apply csv_same.
      + unfold csv_stores, in_memory. rewrite map_map. cbn [fst]. rewrite combine_map, map_map. exact HM.
  Qed.

  (* ---------------- sources that fail ---------------- *)

  Lemma any_failing id rs x : exists is y, failing (Model_inst.mk_store id (Ok (Some (rs, Throw x)))) is y /\ (y = x \/ y = Corrupt_record).
  Proof.
    destruct (every_sequence rs) as (good & bad & ps & E & HG & [-> |[Hb|Ht]]); rewrite E; eexists; eexists.
    - rewrite app_nil_r. split; [eapply f_read; [reflexivity|exact HG]|auto].
    - split; [eapply f_kinds; [reflexivity|exact HG|exact Hb]|auto].
    - split; [eapply f_split; [reflexivity|exact HG|exact Ht]|auto].
  Qed.

  Lemma recordio_fails sf data P : carries lb sf data (Fails P) -> length data + 3 <= sf_fuel sf ->
    exists is x, failing (recordio_source lb sf) is x.
  Proof.
    intros H Hf. destruct (source_whole _ _ _ H Hf) as (xs & ys & x & e & E & _). unfold recordio_source. rewrite E.
    destruct (any_failing (sf_id sf) xs x) as (is & y & Hy & _). eauto.
  Qed.

  Lemma app_map_split {A B} (f : A -> B) l : forall xs ys, xs ++ ys = map f l -> xs = map f (firstn (length xs) l).
  Proof.
    induction l as [|a l IH]; intros [|x xs] ys E; cbn in *; try reflexivity; [discriminate|]. injection E as -> E. f_equal. eapply IH, E.
  Qed.

  Lemma lines_fail sf out P lines : carries_text lb (text_line_decode false) sf out (Fails P) -> has_lines (held sf out) lines ->
    exists k x, P x /\ failing (line_source lb sf) (Spec_inst.numbered (sf_id sf) (firstn k lines)) x.
  Proof.
    intros H HL'. destruct (source_text _ _ _ _ H) as (xs & ys & x & e & E & E2 & HP).
    assert (Ew : whole (text_line_decode false) out = (map (fun l => mk_rec l kComplete) lines, Ok tt)).
    { pose proof (Proof_text.text_records (held sf out) lines (conj eq_refl (or_introl eq_refl)) HL') as W. cbn [sopen text_store] in W. injection W as W. exact W. }
    rewrite Ew in E2. injection E2 as E2 <-. exists (length xs), x. split; [destruct HP as [HP|[_ HP]]; [exact HP|discriminate]|].
    unfold line_source. rewrite E. symmetry in E2. rewrite (app_map_split _ _ _ _ E2). rewrite map_length, firstn_length.
    replace (firstn (Nat.min (length xs) (length lines)) lines) with (firstn (length xs) lines).
    - eapply (f_read (Model_inst.mk_store _ _)); [reflexivity|apply groups_complete].
    - destruct (Nat.le_ge_cases (length xs) (length lines)) as [Hl|Hl]; [now rewrite Nat.min_l by exact Hl|].
      rewrite Nat.min_r by exact Hl. now rewrite !firstn_all2.
  Qed.

  Lemma rows_fail rp sf out P rows : carries_text lb (csv_decode rp) sf out (Fails P) -> csv_file rp (held sf out) rows ->
    exists k x, P x /\ csv_source lb rp sf = map Ok (firstn k rows) ++ [Throw x].
  Proof.
    intros H HF. destruct (source_text _ _ _ _ H) as (xs & ys & x & e & E & E2 & HP).
    pose proof (csv_rows_ok _ _ _ HF) as Er. unfold csv_rows, rows_of in Er. cbn [held tf_in_memory tf_reads tf_chunk tf_text] in Er.
    fold (whole (csv_decode rp) out) in Er. rewrite E2 in Er. rewrite map_app in Er.
    assert (He : e = Ok tt).
    { assert (G : forall z l, l ++ [z] = ok_rows rows -> exists t, z = Ok t).
      { intros z l G. assert (Hi : In z (ok_rows rows)) by (rewrite <- G; apply in_or_app; right; left; reflexivity).
        apply in_map_iff in Hi. destruct Hi as (t & <- & _). now exists t. }
      destruct e as [[]|e0| |]; [reflexivity|exfalso..]; destruct (G _ _ Er) as [t Ht]; discriminate. }
    subst e. rewrite app_nil_r in Er.
    exists (length xs), x. split; [destruct HP as [HP|[_ HP]]; [exact HP|discriminate]|].
    unfold csv_source, rows_of. rewrite E. cbn [cast_err]. f_equal. rewrite (app_map_split _ _ _ _ Er). now rewrite map_length.
  Qed.
End Coded.
