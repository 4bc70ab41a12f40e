(* The statements of Props_rec. *)
From Verif Require Import Common Model_csvtok Model_rec Spec_csvtok Spec_rec Proof_csvtok Proof_rec Proof_rec_text
  Proof_rec_bin Proof_rec_spec Proof_rec_more.

Lemma C04_has_lines : forall xs, exists ls last,
  xs = render_lines ls last /\ Forall (fun l => no_eol (fst l)) ls /\ no_eol last /\ eols_ok ls last.
Proof. intro xs. exact (every_text_has_lines (length xs) xs (le_n _)). Qed.

Lemma filter_ext' {A} (f g : A -> bool) l : (forall x, f x = g x) -> filter f l = filter g l.
Proof. intro H. induction l as [|a l IH]; [reflexivity|]. cbn. now rewrite H, IH. Qed.

Lemma C04_lines : forall skip_blank ls last sched size,
  Forall (fun l => no_eol (fst l)) ls -> no_eol last -> eols_ok ls last ->
  Forall (fun l => ~ starts_with utf8_bom (fst l)) ls -> ~ starts_with utf8_bom last ->
  records (text_line_decode skip_blank) true sched size (render_lines ls last)
  = (map (fun l => mk_rec l kComplete)
         (filter (fun l => negb (skip_blank && blank l)) (lines_of ls last)), Ok tt).
Proof.
  intros sb ls last sched size H1 H2 H3 H4 H5. rewrite text_records_csv.
  rewrite file_lines; auto; try (cbn; intuition discriminate).
Qed.

(* decidable check for small literals *)
Fixpoint has_bom (xs : list byte) : bool :=
  match xs with
  | a :: ((b :: c :: _) as t) => (N.eqb a 239 && N.eqb b 187 && N.eqb c 191) || has_bom t
  | _ => false
  end.
Lemma no_bom_by_check xs : has_bom xs = false -> no_bom xs.
Proof.
  intros H a. revert xs H. induction a as [|x a IH]; intros xs H b E; subst xs.
  - cbn in H. discriminate.
  - apply (IH (a ++ bom ++ b)) with (b := b); [|reflexivity].
    cbn [app] in H. destruct (a ++ bom ++ b) as [|y [|z t]] eqn:E; try reflexivity.
    cbn [has_bom] in H. apply orb_false_iff in H. apply H.
Qed.

Lemma bom_hyp (P : list byte -> Prop) xs :
  (forall ys, xs = utf8_bom ++ ys -> ~ contains utf8_bom ys) ->
  (~ starts_with utf8_bom xs -> ~ contains utf8_bom xs) ->
  (forall a b, suffix_of a b -> P b -> P a) -> P xs ->
  bom_ok P xs.
Proof.
  intros H1 H2 Hs HP. split; [eapply Hs; [apply strip_bom_suffix|exact HP]|].
  intros a b E. destruct (starts_bom_dec xs) as [Ex|[t Et]].
  - destruct (strip_bom_cases xs) as [E2|E2].
    + exfalso. rewrite Ex in E2. apply (f_equal (@length byte)) in E2. rewrite app_length in E2. cbn in E2. lia.
    + rewrite E2 in E. apply H2; [|exists a, b; exact E].
      intros [t Et]. rewrite Et in E2. cbn in E2. apply (f_equal (@length byte)) in E2. cbn in E2. lia.
  - rewrite Et in E. cbn in E. apply (H1 t Et). exists a, b. exact E.
Qed.

Lemma C05_rio : forall xs zc zc' sched sched' size size', (0 < size)%N -> (0 < size')%N ->
  records recordio_decode zc sched size xs = records recordio_decode zc' sched' size' xs.
Proof. intros. apply (records_independent _ _ _ recordio_stable); auto. Qed.
Lemma C05_par : forall xs zc zc' sched sched' size size', (0 < size)%N -> (0 < size')%N ->
  records parquet_decode zc sched size xs = records parquet_decode zc' sched' size' xs.
Proof. intros. apply (records_independent _ _ _ parquet_stable); auto. Qed.

Lemma C05_csv : forall p xs zc zc' sched sched' size size', (0 < size)%N -> (0 < size')%N ->
  (forall ys, xs = utf8_bom ++ ys -> ~ contains utf8_bom ys) ->
  (~ starts_with utf8_bom xs -> ~ contains utf8_bom xs) ->
  (cp_allow_quoted_new_lines p = true /\ cp_comment p = None \/ ~ contains [CR; LF] xs) ->
  records (csv_decode p) zc sched size xs = records (csv_decode p) zc' sched' size' xs.
Proof.
  intros p xs zc zc' sched sched' size size' Hs Hs' H1 H2 H3.
  apply (records_independent _ _ _ (csv_stable1 p)); auto.
  apply bom_hyp; auto.
  - intros a b Ha HG Hp. eapply no_crlf_suffix; [exact Ha|exact (HG Hp)].
  - intro Hp. destruct H3 as [[H3 H4]|H3].
    + destruct Hp as [Hp|Hp]; congruence.
    + intros a b E. apply H3. exists a, b. exact E.
Qed.

Lemma C05_text : forall skip_blank xs zc zc' sched sched' size size', (0 < size)%N -> (0 < size')%N ->
  (forall ys, xs = utf8_bom ++ ys -> ~ contains utf8_bom ys) ->
  (~ starts_with utf8_bom xs -> ~ contains utf8_bom xs) ->
  ~ contains [CR; LF] xs ->
  records (text_line_decode skip_blank) zc sched size xs = records (text_line_decode skip_blank) zc' sched' size' xs.
Proof. intros. rewrite !text_records_csv. apply C05_csv; auto. Qed.

Lemma C06_refuted : exists xs size size', (0 < size)%N /\ (0 < size')%N /\
  records (text_line_decode false) false [] size xs <> records (text_line_decode false) false [] size' xs.
Proof.
  exists [97; 98; 99; 13; 10; 100]%N, 4%N, 64%N. split; [reflexivity|]. split; [reflexivity|].
  vm_compute. discriminate.
Qed.

Lemma C06_partial : forall p xs zc zc' sched sched' size size',
  (0 < size)%N -> (0 < size')%N ->
  (forall ys, xs = utf8_bom ++ ys -> ~ contains utf8_bom ys) ->
  (~ starts_with utf8_bom xs -> ~ contains utf8_bom xs) ->
  cp_skip_blank_lines p = true -> cp_max_line_length p = None ->
  (cp_allow_quoted_new_lines p = true -> cp_delimiter p <> LF /\ cp_quote p <> LF) ->
  records (csv_decode p) zc sched size xs = records (csv_decode p) zc' sched' size' xs.
Proof.
  intros. apply (records_independent _ _ _ (csv_stable2 p ltac:(split; auto))); auto.
  apply bom_hyp; auto.
Qed.

Lemma C08_arbitrary : forall xs zc sched size, (0 < size)%N -> Forall is_byte xs ->
  exists rs tl e, records recordio_decode zc sched size xs = (map fst rs, e) /\
    xs = flat_map (fun x => rio_encode1 (kind (fst x)) (payload (fst x)) (snd x)) rs ++ tl /\
    Forall (fun x => rio_wf (kind (fst x)) (payload (fst x)) (snd x)) rs /\
    ((e = Ok tt /\ tl = []) \/
     (e = Throw Corrupt_header /\ tl <> [] /\
      ~ exists k pl pad rest, rio_wf k pl pad /\ tl = rio_encode1 k pl pad ++ rest)).
Proof.
  intros xs zc sched size Hs HF. rewrite (records_mem _ _ _ recordio_stable) by auto.
  apply rio_arbitrary_mem; [lia|exact HF].
Qed.

(* ---------------- C09 ---------------- *)

Lemma not_contains_lines ls tl : ~ contains utf8_bom (render_lines ls tl) ->
  Forall (fun l => ~ starts_with utf8_bom (fst l)) ls /\ ~ starts_with utf8_bom tl.
Proof.
  intro H. split.
  - rewrite Forall_forall. intros [t e] Hin [u Hu]. cbn in Hu. subst t. apply H.
    apply in_split in Hin as (l1 & l2 & ->). unfold render_lines. rewrite flat_map_app. cbn [flat_map fst snd].
    exists (flat_map (fun l => fst l ++ eol_bytes (snd l)) l1), (u ++ eol_bytes e ++ flat_map (fun l => fst l ++ eol_bytes (snd l)) l2 ++ tl).
    rewrite <- !app_assoc. reflexivity.
  - intros [u ->]. apply H. unfold render_lines.
    exists (flat_map (fun l => fst l ++ eol_bytes (snd l)) ls), u. reflexivity.
Qed.

Lemma not_contains_hyp xs : ~ contains utf8_bom xs ->
  (forall ys, xs = utf8_bom ++ ys -> ~ contains utf8_bom ys) /\ (~ starts_with utf8_bom xs -> ~ contains utf8_bom xs).
Proof.
  intro H. split; [|auto]. intros ys ->. exfalso. apply H. exists [], ys. reflexivity.
Qed.

Lemma C09_rows : forall d q skip_blank ls last zc sched size, (0 < size)%N ->
  d <> LF -> d <> CR -> q <> LF -> q <> CR ->
  Forall (fun l => exists vs, Line_row d q (fst l) vs) ls -> (exists vs, Line_row d q last vs) ->
  eols_ok ls last -> ~ contains utf8_bom (render_lines ls last) ->
  records (csv_decode (mk_csv_rparams d q None true skip_blank None)) zc sched size (render_lines ls last)
  = (map (fun l => mk_rec l kComplete)
         (filter (fun l => negb (skip_blank && blank l)) (lines_of ls last)), Ok tt).
Proof.
  intros d q sb ls last zc sched size Hs H1 H2 H3 H4 HR HL He Hb.
  destruct (not_contains_hyp _ Hb) as [B1 B2]. destruct (not_contains_lines _ _ Hb) as [B3 B4].
  rewrite C05_csv with (zc' := true) (sched' := sched) (size' := size) by (auto; left; auto).
  rewrite file_lines; auto; cbn; intuition discriminate.
Qed.

Lemma C09_fields : forall d q t vs, Line_row d q t vs ->
  tokenize d q None t = Ok (map (fun v => (v, false)) vs).
Proof. intros d q t vs H. apply tokenize_iff_row. now apply line_row_row. Qed.

Lemma C09_open : forall d q skip_blank ls u zc sched size, (0 < size)%N ->
  d <> LF -> d <> CR -> q <> LF -> q <> CR ->
  Forall (fun l => exists vs, Line_row d q (fst l) vs) ls -> Line_unclosed d q u ->
  eols_ok ls u -> ~ contains utf8_bom (render_lines ls u) ->
  records (csv_decode (mk_csv_rparams d q None true skip_blank None)) zc sched size (render_lines ls u)
  = (map (fun l => mk_rec l kComplete)
         (filter (fun l => negb (skip_blank && blank l)) (map fst ls)), Throw Corrupt_record).
Proof.
  intros d q sb ls u zc sched size Hs H1 H2 H3 H4 HR HL He Hb.
  destruct (not_contains_hyp _ Hb) as [B1 B2]. destruct (not_contains_lines _ _ Hb) as [B3 B4].
  rewrite C05_csv with (zc' := true) (sched' := sched) (size' := size) by (auto; left; auto).
  rewrite file_unclosed; auto; cbn; intuition discriminate.
Qed.

(* ---------------- C10, C11 ---------------- *)

Lemma C10_refuted : exists ls,
  Forall (fun l => no_eol (fst l)) ls /\ eols_ok ls [] /\
  Forall (fun l => ~ starts_with utf8_bom (fst l)) (firstn 1 ls) /\
  records (text_line_decode false) true [] 4 (render_lines ls [])
  <> (map (fun l => mk_rec l kComplete) (map fst ls), Ok tt).
Proof.
  exists [([97], eol_lf); ([239; 187; 191; 98], eol_lf)]%N.
  split; [repeat constructor; cbn; intuition discriminate|].
  split; [cbn; intuition discriminate|].
  split; [repeat constructor; intros [t H]; discriminate|]. vm_compute. discriminate.
Qed.

Lemma mem_all_more D k : forall f xs, snd (mem_all D f xs) <> Fuel -> mem_all D (f + k) xs = mem_all D f xs.
Proof.
  induction f as [|f IH]; intros xs H; [cbn in H; congruence|].
  cbn [Nat.add mem_all] in *. destruct (strip_hint (D xs false)) as [[[x|] rest]|e| |]; try reflexivity.
  specialize (IH rest). destruct (mem_all D f rest) as [ys e]. cbn in H. rewrite (IH H). reflexivity.
Qed.

Lemma strip_bom_lines ls last :
  Forall (fun l => ~ starts_with utf8_bom (fst l)) ls -> ~ starts_with utf8_bom last ->
  strip_bom (render_lines ls last) = render_lines ls last.
Proof.
  intros H1 H2. destruct ls as [|[t e] ls].
  - destruct (starts_bom_dec last) as [E|E]; [exact E|contradiction].
  - unfold render_lines. cbn [flat_map fst snd]. rewrite <- !app_assoc. apply starts_bom_line.
    now inversion H1.
Qed.

Lemma C10_partial : forall skip_blank ls last sched size,
  Forall (fun l => no_eol (fst l)) ls -> no_eol last -> eols_ok ls last ->
  Forall (fun l => ~ starts_with utf8_bom (fst l)) ls -> ~ starts_with utf8_bom last ->
  records (text_line_decode skip_blank) true sched size (utf8_bom ++ render_lines ls last)
  = (map (fun l => mk_rec l kComplete)
         (filter (fun l => negb (skip_blank && blank l)) (lines_of ls last)), Ok tt).
Proof.
  intros sb ls last sched size H1 H2 H3 H4 H5. rewrite <- (C04_lines sb ls last sched size) by assumption.
  pose proof (C04_lines sb ls last sched size H1 H2 H3 H4 H5) as HL.
  rewrite !text_records_csv in *. rewrite !records_zero_copy in * by (intros []; reflexivity).
  set (xs := render_lines ls last) in *.
  rewrite <- (mem_all_more _ 3 (length xs + 1) xs) by (rewrite HL; discriminate).
  replace (length (utf8_bom ++ xs) + 1) with (S (length xs + 3)) by (rewrite app_length; cbn; lia).
  replace (length xs + 1 + 3) with (S (length xs + 3)) by lia.
  cbn [mem_all]. rewrite !csv_decode_false.
  replace (strip_bom (utf8_bom ++ xs)) with xs by reflexivity.
  replace (strip_bom xs) with xs by (symmetry; now apply strip_bom_lines). reflexivity.
Qed.

Lemma C11_refuted : exists l m,
  let plain := mk_csv_rparams 44 34 None false false (Some m) in
  let quoted := mk_csv_rparams 44 34 None true false (Some m) in
  length l < m /\ no_eol l /\ ~ In 34%N l /\
  records (csv_decode plain) true [] 4 (render_lines [(l, eol_lf)] []) = ([mk_rec l kComplete], Ok tt) /\
  records (csv_decode plain) true [] 4 (render_lines [(l, eol_crlf)] []) = ([], Throw Record_too_large) /\
  records (csv_decode quoted) true [] 4 (render_lines [(l, eol_lf)] []) = ([], Throw Record_too_large).
Proof.
  exists [97; 98; 99]%N, 4. cbn zeta. split; [cbn; lia|].
  split; [split; cbn; intuition discriminate|]. split; [cbn; intuition discriminate|].
  repeat split; vm_compute; reflexivity.
Qed.

Lemma C11_partial : forall p l e rest m vs,
  cp_max_line_length p = Some m -> cp_comment p = None -> cp_skip_blank_lines p = false ->
  cp_delimiter p <> LF -> cp_delimiter p <> CR -> cp_quote p <> LF -> cp_quote p <> CR ->
  no_eol l -> Line_row (cp_delimiter p) (cp_quote p) l vs -> ~ starts_with utf8_bom l ->
  (e = eol_cr -> hd_error rest <> Some LF) ->
  let over := if cp_allow_quoted_new_lines p then length (eol_bytes e) else length (eol_bytes e) - 1 in
  csv_decode p (l ++ eol_bytes e ++ rest) false
  = if m <=? length l + over then Throw Record_too_large
    else Ok (Some (mk_rec l kComplete), rest, None).
Proof.
  intros p l e rest m vs Hm Hc Hsb H1 H2 H3 H4 Hn HR Hb He over.
  rewrite csv_decode_false, starts_bom_line by exact Hb. rewrite csv_text_eq.
  destruct (eol_nonempty e rest) as (c & u & E & _). rewrite E at 1. rewrite app_cons_nonempty. clear c u E.
  unfold is_comment_line. rewrite Hc. unfold row_line, over.
  destruct (cp_allow_quoted_new_lines p).
  - rewrite (csv_read_line_eol p (conj H1 H2) (conj H3 H4) l vs e rest HR He). rewrite Hm. cbn [too_long].
    destruct (_ <=? _); [reflexivity|]. cbn [bind]. rewrite Hsb. reflexivity.
  - rewrite read_line_eol by assumption. rewrite Hm.
    replace (length (eol_bytes e) - 1) with (match e with eol_crlf => 1 | _ => 0 end) by (destruct e; reflexivity).
    destruct (_ <=? _); [reflexivity|]. cbn [bind]. rewrite Hsb. reflexivity.
Qed.

(* ---------------- C13 ---------------- *)

Lemma C13_conserve : forall choose xs sched size n, (0 < size)%N ->
  exists taken left d stopped,
    drive choose n (mk_dchunk (mk_stream xs sched) size None false) [] [] = Ok (taken, left, d, stopped) /\
    taken ++ left ++ s_rest (cr_stream d) = xs /\
    (stopped = true -> s_rest (cr_stream d) = []) /\
    (length xs + 2 <= n -> stopped = true).
Proof.
  intros choose xs sched size n Hs.
  destruct (drive_ok choose n (mk_dchunk (mk_stream xs sched) size None false) [] []) as (t & l & d & st & E1 & E2 & E3 & E4 & E5).
  { split; [exact Hs|]. split; [discriminate|reflexivity]. }
  exists t, l, d, st. cbn in *. split; [exact E1|]. split; [exact E2|]. split; [exact E3|].
  intro Hn. destruct st; [reflexivity|]. specialize (E5 eq_refl). destruct (cr_eof d); lia.
Qed.

Lemma C13_grows : forall d leftover, chunk_inv d leftover -> cr_eof d = false ->
  exists chunk d' k, dchunk_read d leftover = Ok (chunk, d') /\
    chunk = leftover ++ firstn k (s_rest (cr_stream d)) /\ 0 < k /\
    s_rest (cr_stream d') = skipn k (s_rest (cr_stream d)) /\
    (forall j, chunk_inv d' (skipn j chunk)).
Proof.
  intros d left (Hn & He & Hb) Ee.
  destruct (dchunk_read_spec d left Ee Hn (Hb Ee)) as (room & d1 & Hr & E & Hs & Heof & Hn1 & Hf1 & Hf2).
  eexists _, d1, (N.to_nat room). split; [exact E|]. split; [reflexivity|]. split; [lia|]. split; [exact Hs|].
  intro j. split; [lia|]. split.
  - intro Hx. rewrite Hx in Heof. rewrite Hs. apply skipn_all2. lia.
  - intro Hx. destruct (Hf1 Hx) as [-> Hsz]. split; [lia|]. rewrite skipn_length, app_length, firstn_length. lia.
Qed.

(* ---------------- C14 ---------------- *)

Lemma C14_framing : forall xs zc sched size, (0 < size)%N -> Forall is_byte xs ->
  exists fs tl e, records parquet_decode zc sched size xs = (map (fun f => mk_rec f kComplete) fs, e) /\
    par_files xs fs tl /\
    ((e = Ok tt /\ tl = []) \/
     (e = Throw Corrupt_header /\ tl <> [] /\ ~ starts_with par1 tl) \/
     (e = Throw Corrupt_footer /\ starts_with par1 tl /\ ~ exists f g, tl = f ++ g /\ framed f)).
Proof.
  intros xs zc sched size Hs HF. rewrite (records_mem _ _ _ parquet_stable) by auto.
  apply parquet_mem; [lia|exact HF].
Qed.

Lemma parquet_concat_mem fs : forall fuel,
  length fs < fuel ->
  Forall (fun f => Forall is_byte f /\ framed f /\ forall f' g', f = f' ++ g' -> framed f' -> g' = []) fs ->
  mem_all parquet_decode fuel (concat fs) = (map (fun f => mk_rec f kComplete) fs, Ok tt).
Proof.
  induction fs as [|f fs IH]; intros fuel Hf HF; (destruct fuel as [|fuel]; [cbn in Hf; lia|]); [reflexivity|].
  inversion HF as [|? ? (Hb & Hfr & Hmin) HF2]; subst. cbn [concat mem_all].
  assert (Hbytes : Forall is_byte (f ++ concat fs)).
  { apply Forall_app. split; [exact Hb|]. clear - HF2. induction fs as [|g fs IH]; [constructor|].
    inversion HF2 as [|? ? (Hg & _) H2]; subst. cbn. apply Forall_app. auto. }
  pose proof (parquet_decode_spec (f ++ concat fs) Hbytes) as HD.
  assert (Hst : starts_with par1 (f ++ concat fs)).
  { destruct Hfr as (body & meta & sz & -> & _). eexists. rewrite <- !app_assoc. reflexivity. }
  destruct (parquet_decode (f ++ concat fs) false) as [[[[r|] rest] h]|e| |]; try contradiction.
  - destruct HD as (Hk & _ & Ex & Hfr2 & Hm). specialize (Hm f (concat fs) eq_refl Hfr).
    (* the payload is a prefix of f *)
    assert (Ep : f = payload r ++ skipn (length (payload r)) f).
    { rewrite <- (firstn_skipn (length (payload r)) f) at 1. f_equal.
      apply (f_equal (firstn (length (payload r)))) in Ex.
      rewrite firstn_app_le in Ex by exact Hm.
      rewrite firstn_app_le, firstn_all in Ex by lia. exact Ex. }
    pose proof (Hmin _ _ Ep Hfr2) as Enil. rewrite Enil, app_nil_r in Ep.
    rewrite <- Ep in Ex. apply app_inv_head in Ex. subst rest.
    cbn [strip_hint rmap bind fst snd]. rewrite IH by (cbn in Hf; try lia; assumption).
    destruct r as [pl k]. cbn in *. now subst.
  - destruct HD as [E _]. exfalso. destruct Hst as [t Et]. rewrite Et in E. discriminate.
  - exfalso. destruct e; try contradiction; destruct HD as [H1 H2]; [contradiction|].
    apply H2. exists f, (concat fs). auto.
Qed.

Lemma C14_concat : forall fs zc sched size, (0 < size)%N ->
  Forall (fun f => Forall is_byte f /\ framed f /\
                   forall f' g', f = f' ++ g' -> framed f' -> g' = []) fs ->
  records parquet_decode zc sched size (concat fs) = (map (fun f => mk_rec f kComplete) fs, Ok tt).
Proof.
  intros fs zc sched size Hs HF. rewrite (records_mem _ _ _ parquet_stable) by auto.
  apply parquet_concat_mem; [|exact HF].
  assert (length fs <= length (concat fs)); [|lia]. clear Hs.
  induction fs as [|f fs IH]; [cbn; lia|]. inversion HF as [|? ? (_ & Hfr & _) HF2]; subst.
  apply framed_long in Hfr. specialize (IH HF2). cbn. rewrite app_length. lia.
Qed.

(* ---------------- C59 ---------------- *)

Lemma C59_refuted : exists chunk i,
  chunk <> [] /\ In i (lscan_touched chunk 0) /\ length chunk <= i.
Proof. exists [97]%N, 1. split; [discriminate|]. split; [cbn; auto|cbn; lia]. Qed.

Lemma touched_bounds cs : forall pos i, In i (lscan_touched cs pos) ->
  i <= pos + length cs /\ (In LF cs \/ In CR cs -> i < pos + length cs).
Proof.
  induction cs as [|c cs IH]; intros pos i; cbn [lscan_touched].
  - intros [<-|[]]. cbn. split; [lia|tauto].
  - intros [<-|Hin]; [cbn [length]; split; intros; lia|].
    destruct (N.eqb_spec c LF); [destruct Hin|].
    destruct (N.eqb_spec c CR).
    + destruct cs as [|c2 cs]; [destruct Hin|]. destruct Hin as [<-|[]]. cbn [length]. split; intros; lia.
    + destruct (IH _ _ Hin) as [H1 H2]. cbn [length]. split; [lia|].
      intro H. assert (In LF cs \/ In CR cs) by (cbn in H; intuition congruence). specialize (H2 H0). lia.
Qed.

Lemma C59_partial : forall chunk i, In i (lscan_touched chunk 0) ->
  i <= length chunk /\ (In LF chunk \/ In CR chunk -> i < length chunk).
Proof. intros chunk i H. exact (touched_bounds chunk 0 i H). Qed.

(* ---------------- C60 ---------------- *)

Lemma C60_comments : forall p cc ls last sched size,
  cp_comment p = Some cc -> cc <> LF -> cc <> CR -> cp_max_line_length p = None ->
  (cp_allow_quoted_new_lines p = true ->
   cp_delimiter p <> LF /\ cp_delimiter p <> CR /\ cp_quote p <> LF /\ cp_quote p <> CR) ->
  let commented l := exists t, l = cc :: t in
  let line_ok l := no_eol l \/
    (~ commented l /\ cp_allow_quoted_new_lines p = true /\ exists vs, Line_row (cp_delimiter p) (cp_quote p) l vs) in
  (cp_allow_quoted_new_lines p = true ->
   Forall (fun l => commented l \/ exists vs, Line_row (cp_delimiter p) (cp_quote p) l vs) (lines_of ls last)) ->
  Forall (fun l => line_ok (fst l)) ls -> line_ok last -> eols_ok ls last ->
  Forall (fun l => ~ starts_with utf8_bom (fst l)) ls -> ~ starts_with utf8_bom last ->
  records (csv_decode p) true sched size (render_lines ls last)
  = (map (fun l => mk_rec l kComplete)
       (filter (fun l => negb (match l with c :: _ => N.eqb c cc | [] => false end)
                         && negb (cp_skip_blank_lines p && blank l)) (lines_of ls last)), Ok tt).
Proof.
  intros p cc ls last sched size Hc H1 H2 Hm Hq commented line_ok Hrows Hls Hlast He Hb Hbl.
  assert (Hk : forall l, is_comment_line p l = match l with c :: _ => N.eqb c cc | [] => false end).
  { intros [|c l]; unfold is_comment_line; rewrite Hc; reflexivity. }
  assert (Hcom : forall l, is_comment_line p l = true <-> commented l).
  { intro l. rewrite Hk. unfold commented. destruct l as [|c l]; [split; [discriminate|intros [t E]; discriminate]|].
    rewrite N.eqb_eq. split; [intros ->; eauto|intros [t E]; congruence]. }
  assert (Hitem : forall l, line_ok l -> (l = [] \/ In l (lines_of ls last)) -> item_ok p l).
  { intros l Hl Hin. unfold item_ok. destruct (is_comment_line p l) eqn:E.
    - destruct Hl as [Hl|[Hl _]]; [exact Hl|]. apply Hcom in E. contradiction.
    - destruct (cp_allow_quoted_new_lines p) eqn:Ea.
      + specialize (Hrows eq_refl). rewrite Forall_forall in Hrows. destruct Hin as [-> |Hin].
        * exists [[]]. apply LR_last. apply LF_plain; split; cbn; intuition discriminate.
        * destruct (Hrows l Hin) as [Hx|Hx]; [apply Hcom in Hx; congruence|exact Hx].
      + destruct Hl as [Hl|(_ & Hl & _)]; [exact Hl|discriminate]. }
  rewrite file_lines; auto.
  - unfold keep. rewrite (filter_ext' _ _ (lines_of ls last) (fun l => f_equal2 andb (f_equal negb (Hk l)) eq_refl)). reflexivity.
  - intro Ha. specialize (Hq Ha). intuition.
  - rewrite Hc. split; congruence.
  - rewrite Forall_forall in *. intros [t e] Hin. apply Hitem; [exact (Hls _ Hin)|]. right.
    unfold lines_of. apply in_or_app. left. apply (in_map fst) in Hin. exact Hin.
  - apply Hitem; [exact Hlast|]. destruct last; [left; reflexivity|right]. unfold lines_of. apply in_or_app. right. now left.
Qed.
