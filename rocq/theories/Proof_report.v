From Verif Require Import Common Model_csvtok Spec_csvtok Proof_csvtok Model_num Spec_num Model_csv Spec_csv Proof_csv Model_report Spec_report.
From Verif Require Model_log Spec_log Proof_log.
From Coq Require String.
Import String.StringSyntax.
Local Open Scope string_scope.
Local Open Scope list_scope.

Section Report.
  Context (F : Type) (atof atod : list byte -> option F) (is_inf : F -> bool) (qnan : F).
  Context (p : csv_params) (store : str) (type_text : dtype -> str).
  Notation cell := (Model_csv.cell F atof atod is_inf qnan p).
  Notation row_loop := (Model_csv.row_loop F atof atod is_inf qnan p).
  Notation row_run := (Model_csv.row_run F atof atod is_inf qnan p).
  Notation loop_says := (Model_report.loop_says F atof atod is_inf qnan p store type_text).
  Notation row_says := (Model_report.row_says F atof atod is_inf qnan p store type_text).
  Notation rows_say := (Model_report.rows_say F atof atod is_inf qnan p store type_text).
  Notation example_says := (Model_report.example_says F atof atod is_inf qnan p store type_text).
  Notation Tells := (Spec_report.Tells F atof atod is_inf qnan p store).
  Notation tells := (Spec_report.tells F atof atod is_inf qnan p store type_text).
  Notation sentence := (Spec_report.sentence store type_text).
  Notation notice := (Spec_report.notice p store).
  Notation complain := (Model_report.complain p).
  Notation bad_verdict := (Model_csv.bad_verdict p).

  (* ---------- the texts ---------- *)
  Lemma too_long_text row n v : too_long store row n v = long_sentence store row n v.
  Proof. unfold too_long, long_sentence, format, quoted. cbn -[to_string firstn]. reflexivity. Qed.
  Lemma unparsable_text row n dt v a b : unparsable store type_text row n dt v = sentence row a b (Wrong n dt v).
  Proof. unfold unparsable, Spec_report.sentence, format, quoted. cbn -[to_string firstn]. reflexivity. Qed.
  Lemma miscounted_text row a b : miscounted store row a b = sentence row a b Count.
  Proof. unfold miscounted, Spec_report.sentence, format. cbn -[to_string]. reflexivity. Qed.
  Lemma skipped_is b : skipped_text b = skipped_sentence b.
  Proof. unfold skipped_text, skipped_sentence, format. cbn -[to_string]. reflexivity. Qed.
  Lemma padded_is b n : padded_text b n = padded_sentence b n.
  Proof. unfold padded_text, padded_sentence, format. cbn -[to_string]. reflexivity. Qed.

  (* ---------- the verdict is that of decoding ---------- *)
  Definition verdict_of (r : said) : verdict := snd (fst r).
  Lemma also_verdict ws r : verdict_of (also ws r) = verdict_of r.
  Proof. destruct r as [[a b] c]. reflexivity. Qed.

  Lemma end_verdict n row cols i t : verdict_of (end_says p store n row cols i t) = row_end p (map snd cols) t.
  Proof.
    unfold end_says, row_end. destruct cols as [|[nm c] cols]; cbn [map]; destruct (t_eof t); try reflexivity;
      destruct (p_warn p || is_error p); try reflexivity; destruct (p_lenient p); cbn [negb]; try reflexivity;
      destruct (tok_all _ _ _ _ _); reflexivity.
  Qed.
  Lemma loop_verdict n row cols : forall i k t,
    verdict_of (loop_says n row cols i t) = snd (row_loop (map snd cols) k t).
  Proof.
    induction cols as [|[nm c] cols IH]; intros i k t; cbn [Model_report.loop_says map snd]; unfold Model_csv.row_loop; fold row_loop;
      destruct (tok_next _ _ _ t) as [[more t']|e| |]; try reflexivity; destruct more; try apply end_verdict.
    destruct (c_ignore c); [apply IH|].
    destruct (t_truncated t' && match p_mfl p with treat_as_bad => true | _ => false end); [reflexivity|].
    rewrite also_verdict. unfold Model_csv.cell.
    destruct (parse_cell _ _ _ _ _ _ _ _ _) as [[v| |]|e| |]; try reflexivity.
    rewrite (IH (S i) (S k) t'). destruct (row_loop (map snd cols) (S k) t'). reflexivity.
  Qed.
  Lemma row_verdict cols row text : verdict_of (row_says cols row text) = snd (row_run (map snd cols) text).
  Proof. apply loop_verdict. Qed.

  (* ---------- what is said, in terms of the fields ---------- *)
  Definition report (row n cs : nat) (ws : list str) (q : option problem) : said :=
    match q with
    | None => (ws, V_good, None)
    | Some q => also ws (complain (sentence row n cs q))
    end.
  Lemma also_app a b r : also (a ++ b) r = also a (also b r).
  Proof. destruct r as [[x y] z]. cbn. now rewrite app_assoc. Qed.
  Lemma also_report row n cs a ws q : also a (report row n cs ws q) = report row n cs (a ++ ws) q.
  Proof. destruct q; cbn [report]; [now rewrite also_app|reflexivity]. Qed.
  Lemma also_nil r : also [] r = r.
  Proof. destruct r as [[x y] z]. reflexivity. Qed.

  Lemma complain_quiet m : p_warn p || is_error p = false -> complain m = ([], V_bad, None).
  Proof. unfold complain, Model_csv.bad_verdict. destruct (p_warn p), (is_error p); cbn; congruence. Qed.

  Lemma loop_tells n row cols fs ws q : Tells row cols fs ws q -> p_lenient p = true ->
    Forall (fun f : list byte * bool => forall dt, exists r, cell dt (fst f) = Ok r) fs ->
    forall i t fuel, tok_all (p_delim p) (p_quote p) (p_maxlen p) fuel t = Ok fs -> t_eof t = false ->
    loop_says n row cols i t = report row (i + length fs) n ws q.
  Proof.
    intros T Hl. induction T as [|f fs|[nm c] cols|nm c cols f fs ws q Hi T IH|nm c cols f fs Hi Hs Hm|nm c cols f fs Hi Ht Hp|nm c cols f fs v ws q Hi Ht Hp T IH];
      intros D i t fuel H He; (destruct fuel as [|fuel]; [discriminate|]); cbn [tok_all] in H;
      (destruct (tok_next (p_delim p) (p_quote p) (p_maxlen p) t) as [[more t']|e| |] eqn:E; cbn [bind] in H; try discriminate);
      cbn [Model_report.loop_says]; rewrite E; destruct more; try discriminate;
      try (destruct (next_weight _ _ _ _ _ E) as [_ He']; rewrite He in He';
           destruct (tok_all (p_delim p) (p_quote p) (p_maxlen p) fuel t') as [fs'|e| |] eqn:E1; cbn [bind] in H; try discriminate;
           injection H as E2 E3; subst; cbn [fst snd] in * ).
    - destruct (next_false _ _ _ _ _ E) as [He' _]. unfold end_says. rewrite He'. reflexivity.
    - unfold end_says. rewrite He'. rewrite (all_drain _ _ _ _ _ _ E1), Hl. cbn [negb report]. rewrite also_nil.
      destruct (p_warn p || is_error p) eqn:Ew; [|now rewrite complain_quiet]. rewrite miscounted_text. cbn [length].
      rewrite <- Nat.add_assoc, Nat.add_1_r. reflexivity.
    - destruct (next_false _ _ _ _ _ E) as [He' Hf]. unfold end_says. cbn [report]. rewrite also_nil.
      destruct (p_warn p || is_error p) eqn:Ew; [|now rewrite complain_quiet].
      replace (length (t_text t') + 2) with (S (length (t_text t') + 1)) by lia. cbn [tok_all]. unfold tok_next. rewrite Hf. cbn [bind].
      rewrite miscounted_text. cbn [length].
      f_equal. apply (f_equal (fun x => sentence row x n Count)). lia.
    - rewrite Hi. rewrite (IH (Forall_inv_tail D) (S i) t' fuel E1 He'). f_equal. cbn. lia.
    - rewrite Hi, Hs, Hm. cbn [andb report]. rewrite also_nil, too_long_text. reflexivity.
    - rewrite Hi.
      assert (Ex : t_truncated t' && match p_mfl p with treat_as_bad => true | _ => false end = false).
      { destruct (t_truncated t'), (p_mfl p); try reflexivity. exfalso. apply Ht. auto. }
      rewrite Ex. pose proof (Forall_inv D (c_type c)) as (r & Er). cbn [fst] in Er. unfold Model_csv.cell in Er. rewrite Er in *.
      cbn [report]. f_equal.
      + unfold Spec_report.notice. cbn [fst snd]. rewrite too_long_text. destruct (t_truncated t'), (p_mfl p); reflexivity.
      + destruct r as [v| |]; [exfalso; now apply (Hp v)| |]; now rewrite (unparsable_text row nm (c_type c) (t_value t') (i + length ((t_value t', t_truncated t') :: fs)) n).
    - rewrite Hi.
      assert (Ex : t_truncated t' && match p_mfl p with treat_as_bad => true | _ => false end = false).
      { destruct (t_truncated t'), (p_mfl p); try reflexivity. exfalso. apply Ht. auto. }
      rewrite Ex, Hp, (IH (Forall_inv_tail D) (S i) t' fuel E1 He'), also_report. cbn [length]. rewrite Nat.add_succ_r. cbn [Nat.add]. f_equal. f_equal.
      unfold Spec_report.notice. cbn [fst snd]. rewrite too_long_text. destruct (t_truncated t'), (p_mfl p); reflexivity.
  Qed.

  Lemma row_tells cols row text fs ws q : p_lenient p = true -> comparable p text -> fields_of p text fs -> Tells row cols fs ws q ->
    row_says cols row text = report row (length fs) (length cols) ws q.
  Proof.
    intros Hl Hc Hf T. pose proof (comparable_fields F atof atod is_inf qnan p _ _ Hc Hf) as D. apply fields_tokenize in Hf.
    unfold Model_report.row_says. exact (loop_tells (length cols) row cols fs ws q T Hl D 0 (tok_new text) _ Hf eq_refl).
  Qed.

  (* Something can be told about every row. *)
  Lemma tells_exists row cols : forall fs, exists ws q, Tells row cols fs ws q.
  Proof.
    induction cols as [|[n c] cols IH]; intros [|f fs]; try (eexists; eexists; constructor; fail).
    destruct (IH fs) as (ws & q & T). destruct (c_ignore c) eqn:Ei; [eexists; eexists; apply T_ignored; eassumption|].
    assert (Dx : (snd f = true /\ p_mfl p = treat_as_bad) \/ ~ (snd f = true /\ p_mfl p = treat_as_bad)).
    { destruct (snd f), (p_mfl p); auto; right; intros [? ?]; discriminate. }
    destruct Dx as [[A B]|Dx]; [eexists; eexists; apply T_long; eassumption|].
    destruct (parse_cell F atof atod is_inf qnan (c_type c) (p_nans p) (p_base p) (fst f)) as [[v| |]|e| |] eqn:E;
      try (eexists; eexists; apply T_wrong; [assumption|assumption|intros v Hv; discriminate (eq_trans (eq_sym E) Hv)]).
    eexists; eexists; eapply T_right; eassumption.
  Qed.

  (* There is no problem exactly if the row is good. *)
  Lemma tells_good row cols fs ws q : Tells row cols fs ws q ->
    q = None <-> exists vs, Good F atof atod is_inf qnan p (map snd cols) fs vs.
  Proof.
    induction 1 as [|f fs|[nm c] cols|nm c cols f fs ws q Hi T IH|nm c cols f fs Hi Hs Hm|nm c cols f fs Hi Ht Hp|nm c cols f fs v ws q Hi Ht Hp T IH]; cbn [map snd].
    - split; [intros _; exists []; constructor|reflexivity].
    - split; [discriminate|intros (vs & G); inversion G].
    - split; [discriminate|intros (vs & G); inversion G].
    - rewrite IH. split; intros (vs & G); [exists vs; now apply G_ignored|].
      destruct (good_inv _ _ _ _ _ _ _ _ _ _ _ G) as [[_ G']|[X _]]; [exists vs; exact G'|congruence].
    - split; [discriminate|]. intros (vs & G). destruct (good_inv _ _ _ _ _ _ _ _ _ _ _ G) as [[X _]|(_ & X & _)]; [congruence|].
      exfalso. apply X. auto.
    - split; [discriminate|]. intros (vs & G). destruct (good_inv _ _ _ _ _ _ _ _ _ _ _ G) as [[X _]|(_ & _ & v & vs' & _ & X & _)]; [congruence|].
      exfalso. exact (Hp _ X).
    - rewrite IH. split; intros (vs & G); [exists (v :: vs); now apply G_used|].
      destruct (good_inv _ _ _ _ _ _ _ _ _ _ _ G) as [[X _]|(_ & _ & u & vs' & _ & _ & G')]; [congruence|exists vs'; exact G'].
  Qed.

  Lemma tells_quiet row cols fs ws q : Tells row cols fs ws q -> p_mfl p <> truncate_warn -> ws = [].
  Proof.
    intros T Hn. assert (N : forall n f, notice row n f = []).
    { intros n f. unfold Spec_report.notice. destruct (snd f), (p_mfl p); congruence. }
    induction T; rewrite ?N; auto.
  Qed.

  (* ---------- rows and examples ---------- *)
  Definition ends (t : list str * option str) : said :=
    (logged p t, if faulty t then bad_verdict else V_good, if is_error p then snd t else None).
  Lemma row_ends cols nr t : p_lenient p = true -> comparable p (snd nr) -> tells cols nr t -> row_says cols (fst nr) (snd nr) = ends t.
  Proof.
    intros Hl Hc (fs & q & Hf & T & E). rewrite (row_tells cols (fst nr) _ _ _ _ Hl Hc Hf T).
    unfold ends, logged, faulty. rewrite E. destruct q as [q|]; cbn [option_map report]; [unfold complain; cbn; reflexivity|].
    rewrite app_nil_r. destruct (is_error p); reflexivity.
  Qed.

  Lemma row_ends' cols row r t : p_lenient p = true -> comparable p r -> tells cols (row, r) t -> row_says cols row r = ends t.
  Proof. exact (row_ends cols (row, r) t). Qed.

  Lemma is_pad_not : is_pad p = true -> is_skip p = false /\ is_error p = false.
  Proof. unfold is_pad, is_skip, is_error. destruct (p_bad p); auto; discriminate. Qed.
  Lemma is_skip_not : is_skip p = true -> is_error p = false.
  Proof. unfold is_skip, is_error. destruct (p_bad p); auto; discriminate. Qed.

  Lemma rows_padded cols rows ts : p_lenient p = true -> Forall (fun nr => comparable p (snd nr)) rows -> is_pad p = true ->
    Forall2 (tells cols) rows ts -> forall good,
    rows_say cols rows good = (concat (map (logged p) ts), E_rows (good + length (filter (fun t => negb (faulty t)) ts))).
  Proof.
    intros Hl Hc Hp H. destruct (is_pad_not Hp) as [Hs He]. induction H as [|nr t rows ts Ht H IH]; intro good; cbn [Model_report.rows_say map concat filter length].
    - now rewrite Nat.add_0_r.
    - destruct nr as [row r]. rewrite (row_ends' cols row r t Hl (Forall_inv Hc) Ht). unfold ends, Model_csv.bad_verdict. rewrite He.
      destruct (faulty t); cbn [negb].
      + rewrite Hs, Hp, (IH (Forall_inv_tail Hc)). reflexivity.
      + rewrite (IH (Forall_inv_tail Hc)). cbn [length]. do 2 f_equal. lia.
  Qed.

  Lemma rows_until cols pre ts nr t rest : p_lenient p = true -> Forall (fun nr => comparable p (snd nr)) pre -> comparable p (snd nr) ->
    Forall2 (tells cols) pre ts -> Forall (fun t => faulty t = false) ts -> tells cols nr t -> faulty t = true -> forall good,
    rows_say cols (pre ++ nr :: rest) good =
      (if is_pad p then rows_say cols (pre ++ nr :: rest) good
       else (concat (map (logged p) ts) ++ logged p t, if is_skip p then E_skipped else E_error (snd t) (V_throw Invalid_instance))).
  Proof.
    intros Hl Hc Hn H Hq Ht Hf. destruct (is_pad p) eqn:Hp; [reflexivity|].
    induction H as [|m s pre ts Hs H IH]; intro good; cbn [app Model_report.rows_say map concat].
    - destruct nr as [row r]. rewrite (row_ends' cols row r t Hl Hn Ht). unfold ends, Model_csv.bad_verdict. rewrite Hf.
      unfold is_error, is_skip, is_pad in *. destruct (p_bad p); try discriminate; reflexivity.
    - destruct m as [row r]. rewrite (row_ends' cols row r s Hl (Forall_inv Hc) Hs). unfold ends. rewrite (Forall_inv Hq).
      rewrite (IH (Forall_inv_tail Hc) (Forall_inv_tail Hq) (S good)). now rewrite app_assoc.
  Qed.

  Lemma faults_count (ts : list (list str * option str)) :
    length (filter (fun t => negb (faulty t)) ts) + length (filter faulty ts) = length ts.
  Proof. induction ts as [|t ts IH]; cbn; [reflexivity|]. destruct (faulty t); cbn; lia. Qed.

  Lemma example_padded cols batch rows ts : p_lenient p = true -> Forall (fun nr => comparable p (snd nr)) rows -> is_pad p = true ->
    Forall2 (tells cols) rows ts ->
    let bad := length (filter faulty ts) in
    example_says cols batch rows =
      (concat (map (logged p) ts) ++
         (if Nat.eqb bad 0 then [] else match p_bad p with B_pad_warn => [padded_sentence batch bad] | _ => [] end),
       E_rows (length rows - bad)).
  Proof.
    intros Hl Hc Hp H bad. unfold Model_report.example_says. rewrite (rows_padded cols rows ts Hl Hc Hp H 0). cbn [Nat.add].
    assert (L : length rows = length ts) by (clear - H; induction H; cbn; auto).
    pose proof (faults_count ts) as C. fold bad in C.
    assert (L1 : @length (nat * str) rows = length ts) by exact L. assert (L2 : @length (nat * list byte) rows = length ts) by exact L.
    rewrite ?L1, ?L2. replace (length ts - bad) with (length (filter (fun t => negb (faulty t)) ts)) by lia.
    replace (length ts - length (filter (fun t => negb (faulty t)) ts)) with bad by lia. rewrite padded_is.
    f_equal. f_equal. destruct (Nat.eqb_spec (length ts) (length (filter (fun t => negb (faulty t)) ts))), (Nat.eqb_spec bad 0); try reflexivity; lia.
  Qed.

  Lemma example_good cols batch rows ts : p_lenient p = true -> Forall (fun nr => comparable p (snd nr)) rows ->
    Forall2 (tells cols) rows ts -> Forall (fun t => faulty t = false) ts ->
    example_says cols batch rows = (concat (map (logged p) ts), E_rows (length rows)).
  Proof.
    intros Hl Hc H Hq.
    assert (G : forall good, rows_say cols rows good = (concat (map (logged p) ts), E_rows (good + length rows))).
    { induction H as [|nr t rows ts Ht H IH]; intro good; cbn [Model_report.rows_say map concat length]; [now rewrite Nat.add_0_r|].
      destruct nr as [row r]. rewrite (row_ends' cols row r t Hl (Forall_inv Hc) Ht). unfold ends. rewrite (Forall_inv Hq).
      rewrite (IH (Forall_inv_tail Hc) (Forall_inv_tail Hq)). do 2 f_equal. lia. }
    unfold Model_report.example_says. rewrite (G 0). cbn [Nat.add]. rewrite Nat.eqb_refl. now rewrite app_nil_r.
  Qed.

  Lemma example_stopped cols batch pre ts nr t rest : p_lenient p = true -> Forall (fun nr => comparable p (snd nr)) pre -> comparable p (snd nr) ->
    Forall2 (tells cols) pre ts -> Forall (fun t => faulty t = false) ts -> tells cols nr t -> faulty t = true ->
    is_pad p = false ->
    example_says cols batch (pre ++ nr :: rest) =
      (concat (map (logged p) ts) ++ logged p t ++ match p_bad p with B_skip_warn => [skipped_sentence batch] | _ => [] end,
       if is_skip p then E_skipped else E_error (snd t) (V_throw Invalid_instance)).
  Proof.
    intros Hl Hc Hn H Hq Ht Hf Hp. unfold Model_report.example_says.
    rewrite (rows_until cols pre ts nr t rest Hl Hc Hn H Hq Ht Hf 0), Hp. rewrite skipped_is.
    unfold is_skip, is_pad in *. destruct (p_bad p); try discriminate; rewrite ?app_nil_r, <- ?app_assoc; reflexivity.
  Qed.

  (* ---------- UTF-8 ---------- *)
  Notation is_utf8 := Model_log.is_utf8.
  Lemma utf8_app a b : is_utf8 a = true -> is_utf8 b = true -> is_utf8 (a ++ b) = true.
  Proof.
    intros Ha Hb. apply Proof_log.utf8_iff in Ha, Hb. apply Proof_log.utf8_iff.
    destruct Ha as (ca & Fa & ->), Hb as (cb & Fb & ->). exists (ca ++ cb). split; [apply Forall_app; auto|].
    now rewrite map_app, concat_app.
  Qed.
  Lemma utf8_ascii s : Forall (fun c : byte => (c < 128)%N) s -> is_utf8 s = true.
  Proof. induction 1 as [|c s Hc H IH]; [reflexivity|]. cbn [Model_log.is_utf8]. now rewrite (proj2 (N.ltb_lt _ _) Hc). Qed.
  Lemma dec_ascii fuel : forall n acc, Forall (fun c : byte => (c < 128)%N) acc -> Forall (fun c : byte => (c < 128)%N) (dec_go fuel n acc).
  Proof.
    assert (D : forall n, (N.of_nat (48 + n mod 10) < 128)%N).
    { intro n. pose proof (Nat.mod_upper_bound n 10 ltac:(lia)). lia. }
    induction fuel as [|fuel IH]; intros n acc H; cbn [dec_go]; [constructor; auto|].
    destruct (n <? 10); [constructor; auto|]. apply IH. constructor; auto.
  Qed.
  Lemma utf8_number n : is_utf8 (to_string n) = true.
  Proof. apply utf8_ascii, dec_ascii. constructor. Qed.

  (* The names in a problem and what is quoted of the value. *)
  Definition fit (q : problem) : Prop :=
    match q with
    | Long n v | Wrong n _ v => is_utf8 n = true /\ is_utf8 (quoted v) = true
    | Count => True
    end.
  Lemma sentence_utf8 row a b q : is_utf8 store = true -> (forall dt, is_utf8 (type_text dt) = true) -> fit q ->
    is_utf8 (sentence row a b q) = true.
  Proof.
    intros Hs Ht Hf. destruct q; cbn [Spec_report.sentence fit] in *; [destruct Hf..|]; unfold long_sentence;
      repeat apply utf8_app; auto using utf8_number; vm_compute; reflexivity.
  Qed.
End Report.
