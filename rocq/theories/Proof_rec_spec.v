(* Text lines and CSV rows: reading what was written. *)
From Verif Require Import Common Model_csvtok Model_rec Spec_csvtok Spec_rec Proof_csvtok Proof_rec Proof_rec_text.

(* ---------------- in-memory reading needs no stability ---------------- *)

Lemma read_all_memory D : (forall b, D [] b = Ok (None, [], None)) ->
  forall fuel xs, read_all D fuel (mk_sreader (CR_memory []) xs) = mem_all D fuel xs.
Proof.
  intro H0. induction fuel as [|fuel IH]; intro xs; [reflexivity|].
  cbn [read_all mem_all]. unfold read_record.
  replace (cr_bytes_left (sr_cr (mk_sreader (CR_memory []) xs)) + 3) with 3 by reflexivity.
  cbn [read_record_core sr_chunk sr_cr cr_is_eof negb].
  destruct (D xs false) as [[[[x|] rest] h]|e| |]; cbn [bind strip_hint rmap fst snd]; try reflexivity.
  - replace (match h with Some h => cr_hint (CR_memory []) h | None => CR_memory [] end) with (CR_memory [])
      by (destruct h; reflexivity). rewrite IH. reflexivity.
  - destruct h; reflexivity.
Qed.

Lemma records_zero_copy D sched size xs : (forall b, D [] b = Ok (None, [], None)) ->
  records D true sched size xs = mem_all D (length xs + 1) xs.
Proof.
  intro H0. unfold records, make_chunk_reader. destruct xs as [|c xs].
  - apply read_all_memory. exact H0.
  - cbn [length Nat.add]. rewrite <- (read_all_memory D H0). cbn [read_all].
    replace (read_record D (mk_sreader (CR_memory (c :: xs)) []))
      with (read_record D (mk_sreader (CR_memory []) (c :: xs))); [reflexivity|].
    unfold read_record. cbn [sr_cr cr_bytes_left length Nat.add].
    replace (length xs + 3) with (S (length xs + 2)) by lia.
    cbn [read_record_core sr_chunk sr_cr]. rewrite H0. cbn [bind cr_read cr_is_eof negb].
    destruct (D (c :: xs) false) as [[[[x|] rest] h]|e| |]; cbn [bind]; try reflexivity.
    destruct h; reflexivity.
Qed.

(* ---------------- lines ---------------- *)

Lemma eqb_neq c d : c <> d -> N.eqb c d = false.
Proof. apply N.eqb_neq. Qed.

Lemma no_eol_cons c l : no_eol (c :: l) -> c <> LF /\ c <> CR /\ no_eol l.
Proof. unfold no_eol. cbn. intuition congruence. Qed.

Lemma lscan_no_eol l rest : forall pos, no_eol l -> lscan (l ++ rest) pos = lscan rest (pos + length l).
Proof.
  induction l as [|c l IH]; intros pos H; cbn [app lscan length].
  - f_equal. lia.
  - apply no_eol_cons in H as (H1 & H2 & H3). rewrite eqb_neq by exact H1. rewrite eqb_neq by exact H2.
    rewrite IH by exact H3. f_equal. lia.
Qed.

Definition cr_ok (e : eol) (rest : list byte) : Prop := e = eol_cr -> hd_error rest <> Some LF.

Lemma lscan_eol l e rest : no_eol l -> cr_ok e rest ->
  lscan (l ++ eol_bytes e ++ rest) 0 =
  (match e with eol_crlf => S (length l) | _ => length l end,
   match e with eol_crlf => true | _ => false end, false).
Proof.
  intros Hl Hc. rewrite lscan_no_eol by exact Hl. cbn [Nat.add].
  destruct e; cbn [eol_bytes app lscan].
  - reflexivity.
  - change (N.eqb CR LF) with false. change (N.eqb CR CR) with true. cbn iota.
    destruct rest as [|c rest]; [reflexivity|].
    rewrite eqb_neq; [reflexivity|]. intros ->. apply (Hc eq_refl). reflexivity.
  - reflexivity.
Qed.

Lemma app_cons_nonempty {A B} (l : list A) c r (u v : B) :
  match l ++ c :: r with [] => u | _ :: _ => v end = v.
Proof. destruct l; reflexivity. Qed.

Lemma eol_nonempty e rest : exists c t, eol_bytes e ++ rest = c :: t /\ (c = LF \/ c = CR).
Proof. destruct e; cbn; eauto. Qed.

Lemma read_line_eol l e rest b m : no_eol l -> cr_ok e rest ->
  read_line (l ++ eol_bytes e ++ rest) b m =
  if match m with Some m => m <=? length l + match e with eol_crlf => 1 | _ => 0 end | None => false end
  then Throw Record_too_large
  else Ok (Some l, rest).
Proof.
  intros Hl Hc. unfold read_line.
  destruct (eol_nonempty e rest) as (c & t & E & _).
  rewrite E at 1. rewrite app_cons_nonempty. rewrite lscan_eol by assumption.
  set (k := match e with eol_crlf => S (length l) | _ => length l end).
  replace (length l + match e with eol_crlf => 1 | _ => 0 end) with k by (subst k; destruct e; lia).
  destruct (match m with Some m => m <=? k | None => false end); [reflexivity|]. cbn [andb].
  destruct e; subst k; cbn [eol_bytes app].
  - rewrite firstn_app, Nat.sub_diag, firstn_all, app_nil_r.
    replace (S (length l)) with (length l + 1) by lia. rewrite skipn_app, skipn_all2 by lia.
    replace (length l + 1 - length l) with 1 by lia. reflexivity.
  - rewrite firstn_app, Nat.sub_diag, firstn_all, app_nil_r.
    replace (S (length l)) with (length l + 1) by lia. rewrite skipn_app, skipn_all2 by lia.
    replace (length l + 1 - length l) with 1 by lia. reflexivity.
  - replace (S (length l) - 1) with (length l) by lia.
    rewrite firstn_app, Nat.sub_diag, firstn_all, app_nil_r.
    replace (S (S (length l))) with (length l + 2) by lia. rewrite skipn_app, skipn_all2 by lia.
    replace (length l + 2 - length l) with 2 by lia. reflexivity.
Qed.

Lemma read_line_last l m : no_eol l -> l <> [] ->
  read_line l false m =
  if match m with Some m => m <=? length l | None => false end
  then Throw Record_too_large else Ok (Some l, []).
Proof.
  intros Hl Hne. unfold read_line. destruct l as [|c l]; [congruence|].
  pose proof (lscan_no_eol (c :: l) [] 0 Hl) as H. rewrite app_nil_r in H. rewrite H. cbn [lscan Nat.add].
  destruct (match m with Some m => m <=? length (c :: l) | None => false end); [reflexivity|].
  cbn [andb]. now rewrite firstn_all.
Qed.

(* ---------------- quoted rows ---------------- *)

Section Q.
  Variables delim quote : byte.

  Definition okst (st : qstate) : Prop :=
    st = q_new_field \/ st = q_in_field \/ st = q_quote_in_quoted_field.

  Lemma qscan_in_field f rest : forall pos, ~ In delim f -> no_eol f ->
    qscan delim quote q_in_field (f ++ rest) pos = qscan delim quote q_in_field rest (pos + length f).
  Proof.
    induction f as [|c f IH]; intros pos H1 H2; cbn [app qscan length].
    - f_equal. lia.
    - cbn in H1. apply no_eol_cons in H2 as (H3 & H4 & H5).
      rewrite !eqb_neq by (intuition congruence). rewrite IH by (intuition congruence). f_equal. lia.
  Qed.

  Lemma qscan_body b v rest : delim <> quote -> Quoted_body quote b v -> forall pos,
    qscan delim quote q_in_quoted_field (b ++ quote :: rest) pos =
    qscan delim quote q_quote_in_quoted_field rest (pos + length b + 1).
  Proof.
    intros Hdq HB. induction HB as [|c b v Hc HB IH|b v HB IH]; intro pos; cbn [app qscan length].
    - rewrite N.eqb_refl. f_equal. lia.
    - rewrite eqb_neq by exact Hc. rewrite IH. f_equal. lia.
    - rewrite N.eqb_refl. rewrite (eqb_neq quote delim) by congruence. rewrite IH. f_equal. lia.
  Qed.

  Lemma qscan_tail st tail rest : st <> q_in_quoted_field -> st <> q_has_carriage ->
    verbatim_ok delim quote tail -> no_eol tail -> tail <> [] -> forall pos,
    qscan delim quote st (tail ++ rest) pos = qscan delim quote q_in_field rest (pos + length tail).
  Proof.
    intros S1 S2 [V1 V2] Hne Ht pos. destruct tail as [|c tail]; [congruence|]. cbn [app qscan length].
    cbn in V1, V2. apply no_eol_cons in Hne as (H3 & H4 & H5).
    assert (c <> quote) by congruence.
    destruct st; try congruence; rewrite !eqb_neq by (intuition congruence);
      rewrite qscan_in_field by (intuition congruence); f_equal; lia.
  Qed.

  Lemma qscan_field t v : Line_field delim quote t v -> forall rest pos, exists st, okst st /\
    qscan delim quote q_new_field (t ++ rest) pos = qscan delim quote st rest (pos + length t).
  Proof.
    intros HF rest pos. destruct HF as [f Hv Hn|b v tail Hdq HB Hv Hn].
    - destruct f as [|c f].
      + exists q_new_field. split; [left; reflexivity|]. cbn. f_equal. lia.
      + exists q_in_field. split; [right; left; reflexivity|].
        apply qscan_tail; auto; discriminate.
    - assert (E : qscan delim quote q_new_field ((quote :: b ++ quote :: tail) ++ rest) pos =
                  qscan delim quote q_quote_in_quoted_field (tail ++ rest) (pos + length b + 2)).
      { cbn [app qscan]. rewrite (eqb_neq quote delim) by congruence. rewrite N.eqb_refl.
        rewrite <- app_assoc. cbn [app]. rewrite (qscan_body b v) by assumption. f_equal. lia. }
      rewrite E. destruct tail as [|c tail].
      + exists q_quote_in_quoted_field. split; [right; right; reflexivity|]. cbn [app]. f_equal.
        cbn [length]. rewrite app_length. cbn. lia.
      + exists q_in_field. split; [right; left; reflexivity|].
        rewrite qscan_tail by (auto; discriminate). f_equal. cbn [length]. rewrite app_length. cbn [length]. lia.
  Qed.

  Lemma qscan_delim st rest pos : okst st ->
    qscan delim quote st (delim :: rest) pos = qscan delim quote q_new_field rest (S pos).
  Proof. intros [-> |[-> | ->]]; cbn [qscan]; rewrite N.eqb_refl; reflexivity. Qed.

  Lemma qscan_row t vs : Line_row delim quote t vs -> forall rest pos, exists st, okst st /\
    qscan delim quote q_new_field (t ++ rest) pos = qscan delim quote st rest (pos + length t).
  Proof.
    intro HR. induction HR as [t v HF|t v rest vs HF HR IH]; intros tl pos.
    - apply (qscan_field t v HF).
    - destruct (qscan_field t v HF (delim :: rest ++ tl) pos) as (st1 & O1 & E1).
      rewrite <- app_assoc. cbn [app]. rewrite E1, qscan_delim by exact O1.
      destruct (IH tl (S (pos + length t))) as (st2 & O2 & E2). exists st2. split; [exact O2|].
      rewrite E2. f_equal. rewrite app_length. cbn. lia.
  Qed.

  Lemma qscan_unclosed u : Line_unclosed delim quote u -> forall pos,
    qscan delim quote q_new_field u pos = (q_in_quoted_field, pos + length u, false).
  Proof.
    intro HU. induction HU as [b v Hdq HB|t v rest HF HU IH]; intro pos.
    - cbn [qscan length]. rewrite (eqb_neq quote delim) by congruence. rewrite N.eqb_refl.
      revert pos. induction HB as [|c b v Hc HB IH|b v HB IH]; intro pos; cbn [qscan length].
      + f_equal. f_equal. lia.
      + rewrite eqb_neq by exact Hc. rewrite IH. f_equal. f_equal. lia.
      + rewrite N.eqb_refl. rewrite (eqb_neq quote delim) by congruence. rewrite IH. f_equal. f_equal. lia.
    - destruct (qscan_field t v HF (delim :: rest) pos) as (st1 & O1 & E1).
      rewrite E1, qscan_delim by exact O1. rewrite IH. f_equal. f_equal. rewrite app_length. cbn. lia.
  Qed.

  Hypothesis Hd : delim <> LF /\ delim <> CR.
  Hypothesis Hq : quote <> LF /\ quote <> CR.
  Lemma qscan_lf st rest pos : okst st -> qscan delim quote st (LF :: rest) pos = (st, S pos, true).
  Proof.
    intros [-> |[-> | ->]]; cbn [qscan]; rewrite ?(eqb_neq LF delim), ?(eqb_neq LF quote) by (intuition congruence);
      reflexivity.
  Qed.
  Lemma qscan_cr st rest pos : okst st ->
    qscan delim quote st (CR :: rest) pos = qscan delim quote q_has_carriage rest (S pos).
  Proof.
    intros [-> |[-> | ->]]; cbn [qscan]; rewrite ?(eqb_neq CR delim), ?(eqb_neq CR quote) by (intuition congruence);
      reflexivity.
  Qed.
End Q.

Section QLine.
  Variable p : csv_rparams.
  Hypothesis Hd : cp_delimiter p <> LF /\ cp_delimiter p <> CR.
  Hypothesis Hq : cp_quote p <> LF /\ cp_quote p <> CR.

  Definition too_long (m : option nat) (k : nat) : bool :=
    match m with Some m => m <=? k | None => false end.

  Lemma check_too_long m k :
    check_line_length m k = if too_long m k then Throw Record_too_large else Ok tt.
  Proof. unfold check_line_length, too_long. destruct m; [destruct (_ <=? _)|]; reflexivity. Qed.

  Lemma csv_read_line_eol t vs e rest : Line_row (cp_delimiter p) (cp_quote p) t vs -> cr_ok e rest ->
    csv_read_line p (t ++ eol_bytes e ++ rest) false =
    if too_long (cp_max_line_length p) (length t + length (eol_bytes e)) then Throw Record_too_large
    else Ok (Some t, rest).
  Proof.
    intros HR Hc. unfold csv_read_line.
    destruct (eol_nonempty e rest) as (c & u & E & _). rewrite E at 1. rewrite app_cons_nonempty. clear c u E.
    destruct (qscan_row _ _ t vs HR (eol_bytes e ++ rest) 0) as (st & Ost & ->). cbn [Nat.add].
    destruct e; cbn [eol_bytes app length].
    - rewrite qscan_lf by assumption. rewrite check_too_long. replace (length t + 1) with (S (length t)) by lia.
      destruct (too_long _ _); [reflexivity|]. cbn [bind].
      assert (Ep : match st with q_has_carriage => firstn (S (length t) - 2) (t ++ LF :: rest)
                    | _ => firstn (S (length t) - 1) (t ++ LF :: rest) end = t).
      { replace (S (length t) - 1) with (length t) by lia.
        destruct Ost as [-> |[-> | ->]]; rewrite firstn_app, Nat.sub_diag, firstn_all, app_nil_r; reflexivity. }
      rewrite Ep. replace (S (length t)) with (length t + 1) by lia. rewrite skipn_app, skipn_all2 by lia.
      replace (length t + 1 - length t) with 1 by lia. reflexivity.
    - rewrite qscan_cr by assumption. replace (length t + 1) with (S (length t)) by lia.
      destruct rest as [|c rest]; cbn [qscan].
      + rewrite check_too_long. destruct (too_long _ _); [reflexivity|]. cbn [bind].
        rewrite app_length. cbn [length]. replace (length t + 1 - 1) with (length t) by lia.
        rewrite firstn_app, Nat.sub_diag, firstn_all, app_nil_r. reflexivity.
      + rewrite (eqb_neq c LF) by (intros ->; apply (Hc eq_refl); reflexivity).
        rewrite check_too_long. destruct (too_long _ _); [reflexivity|]. cbn [bind].
        replace (S (length t) - 1) with (length t) by lia.
        rewrite firstn_app, Nat.sub_diag, firstn_all, app_nil_r.
        replace (S (length t)) with (length t + 1) by lia. rewrite skipn_app, skipn_all2 by lia.
        replace (length t + 1 - length t) with 1 by lia. reflexivity.
    - rewrite qscan_cr by assumption. cbn [qscan]. rewrite N.eqb_refl.
      replace (length t + 2) with (S (S (length t))) by lia.
      rewrite check_too_long. destruct (too_long _ _); [reflexivity|]. cbn [bind].
      replace (S (S (length t)) - 2) with (length t) by lia.
      rewrite firstn_app, Nat.sub_diag, firstn_all, app_nil_r.
      replace (S (S (length t))) with (length t + 2) by lia. rewrite skipn_app, skipn_all2 by lia.
      replace (length t + 2 - length t) with 2 by lia. reflexivity.
  Qed.

  Lemma csv_read_line_last t vs : Line_row (cp_delimiter p) (cp_quote p) t vs -> t <> [] ->
    csv_read_line p t false =
    if too_long (cp_max_line_length p) (length t) then Throw Record_too_large else Ok (Some t, []).
  Proof.
    intros HR Hne. unfold csv_read_line. destruct t as [|c t]; [congruence|].
    destruct (qscan_row _ _ (c :: t) vs HR [] 0) as (st & Ost & E). rewrite app_nil_r in E. rewrite E.
    cbn [qscan Nat.add]. rewrite check_too_long. destruct (too_long _ _); [reflexivity|]. cbn [bind].
    destruct Ost as [-> |[-> | ->]]; reflexivity.
  Qed.

  Lemma csv_read_line_unclosed u : Line_unclosed (cp_delimiter p) (cp_quote p) u ->
    csv_read_line p u false =
    if too_long (cp_max_line_length p) (length u) then Throw Record_too_large else Throw Corrupt_record.
  Proof.
    intro HU. unfold csv_read_line. rewrite (qscan_unclosed _ _ u HU 0).
    destruct u as [|c u].
    - exfalso. remember [] as u eqn:E. destruct HU as [|t]; [discriminate|]. destruct t; discriminate.
    - cbn [Nat.add]. rewrite check_too_long. destruct (too_long _ _); reflexivity.
  Qed.
End QLine.

(* ---------------- whole files ---------------- *)

Section File.
  Variable p : csv_rparams.
  Hypothesis Hmax : cp_max_line_length p = None.
  Hypothesis Hdq : cp_allow_quoted_new_lines p = true ->
    (cp_delimiter p <> LF /\ cp_delimiter p <> CR) /\ (cp_quote p <> LF /\ cp_quote p <> CR).
  Hypothesis Hcc : cp_comment p <> Some LF /\ cp_comment p <> Some CR.

  (* A line of the file: a comment, a plain line, or a row with line ends inside quotes. *)
  Definition item_ok (t : list byte) : Prop :=
    if is_comment_line p t then no_eol t
    else if cp_allow_quoted_new_lines p then exists vs, Line_row (cp_delimiter p) (cp_quote p) t vs
    else no_eol t.

  Definition keep (t : list byte) : bool :=
    negb (is_comment_line p t) && negb (cp_skip_blank_lines p && blank t).

  Lemma is_comment_eol t e rest : is_comment_line p (t ++ eol_bytes e ++ rest) = is_comment_line p t.
  Proof.
    destruct t as [|c t]; [|reflexivity]. destruct (eol_nonempty e rest) as (c & u & E & Hc).
    cbn [app]. rewrite E. unfold is_comment_line. destruct (cp_comment p) as [cc|] eqn:Ec; [|reflexivity].
    apply eqb_neq. destruct Hcc. intros ->. destruct Hc as [-> | ->]; congruence.
  Qed.

  Lemma keep_cond t : is_comment_line p t = false ->
    negb (cp_skip_blank_lines p) || negb (length t =? 0) = keep t.
  Proof.
    intro H. unfold keep. rewrite H. cbn. destruct (cp_skip_blank_lines p); [|reflexivity].
    destruct t; reflexivity.
  Qed.

  Lemma csv_text_item t e rest : item_ok t -> cr_ok e rest ->
    csv_text p (t ++ eol_bytes e ++ rest) false =
    if keep t then Ok (Some (mk_rec t kComplete), rest, None) else csv_text p rest false.
  Proof.
    intros Hi Hc. rewrite csv_text_eq.
    destruct (eol_nonempty e rest) as (c & u & E & _). rewrite E at 1. rewrite app_cons_nonempty. clear c u E.
    rewrite is_comment_eol. unfold item_ok in Hi. destruct (is_comment_line p t) eqn:HC.
    - rewrite read_line_eol by assumption. cbn [bind]. unfold keep. rewrite HC. reflexivity.
    - assert (HR : row_line p (t ++ eol_bytes e ++ rest) false = Ok (Some t, rest)).
      { unfold row_line. destruct (cp_allow_quoted_new_lines p) eqn:HA.
        - destruct Hi as [vs Hi]. destruct (Hdq eq_refl) as [? ?].
          rewrite (csv_read_line_eol p) with (vs := vs) by assumption. rewrite Hmax. reflexivity.
        - rewrite read_line_eol by assumption. rewrite Hmax. reflexivity. }
      rewrite HR. cbn [bind]. rewrite keep_cond by exact HC. reflexivity.
  Qed.

  Lemma csv_text_last t : item_ok t -> t <> [] ->
    csv_text p t false =
    if keep t then Ok (Some (mk_rec t kComplete), [], None) else Ok (None, [], None).
  Proof.
    intros Hi Hne. rewrite csv_text_eq. destruct t as [|c t]; [congruence|]. set (xs := c :: t) in *.
    unfold item_ok in Hi. destruct (is_comment_line p xs) eqn:HC.
    - rewrite read_line_last by assumption. cbn [bind]. unfold keep. rewrite HC. reflexivity.
    - assert (HR : row_line p xs false = Ok (Some xs, [])).
      { unfold row_line. destruct (cp_allow_quoted_new_lines p) eqn:HA.
        - destruct Hi as [vs Hi]. destruct (Hdq eq_refl) as [? ?].
          rewrite (csv_read_line_last p) with (vs := vs) by assumption. rewrite Hmax. reflexivity.
        - rewrite read_line_last by assumption. rewrite Hmax. reflexivity. }
      rewrite HR. cbn [bind]. rewrite keep_cond by exact HC. reflexivity.
  Qed.

  (* What the decoder does with what is left, [fin]: the outcome at the end of the lines. *)
  Lemma csv_text_lines tl : forall ls,
    Forall (fun l => item_ok (fst l)) ls -> eols_ok ls tl ->
    (exists l ls', filter keep (map fst ls) = l :: filter keep (map fst ls') /\
       csv_text p (render_lines ls tl) false = Ok (Some (mk_rec l kComplete), render_lines ls' tl, None) /\
       (exists pre, ls = pre ++ ls') /\ eols_ok ls' tl /\ length ls' < length ls) \/
    (filter keep (map fst ls) = [] /\
       csv_text p (render_lines ls tl) false = csv_text p tl false).
  Proof.
    induction ls as [|[t e] ls IH]; intros Hi He; [right; split; reflexivity|].
    inversion Hi as [|? ? Hi1 Hi2]; subst. cbn [fst] in Hi1. destruct He as [He1 He2].
    assert (E : csv_text p (render_lines ((t, e) :: ls) tl) false =
      if keep t then Ok (Some (mk_rec t kComplete), render_lines ls tl, None) else csv_text p (render_lines ls tl) false).
    { unfold render_lines at 1. cbn [flat_map fst snd]. rewrite <- !app_assoc. apply csv_text_item; [exact Hi1|].
      exact He1. }
    rewrite E. cbn [map fst filter]. destruct (keep t).
    - left. exists t, ls. repeat split; auto. exists [(t, e)]. reflexivity.
    - destruct (IH Hi2 He2) as [(l & ls' & H1 & H2 & [pre H3] & H4 & H5)|[H1 H2]].
      + left. exists l, ls'. repeat split; auto; [|cbn; lia]. exists ((t, e) :: pre). now rewrite H3.
      + right. auto.
  Qed.

  Lemma starts_bom_dec xs : strip_bom xs = xs \/ starts_with utf8_bom xs.
  Proof. destruct (strip_bom_cases xs) as [H|H]; [right; exists (strip_bom xs); exact H|left; exact H]. Qed.

  Lemma starts_bom_line t e rest : ~ starts_with utf8_bom t ->
    strip_bom (t ++ eol_bytes e ++ rest) = t ++ eol_bytes e ++ rest.
  Proof.
    intro H. destruct (starts_bom_dec (t ++ eol_bytes e ++ rest)) as [E|[u E]]; [exact E|exfalso].
    destruct (eol_nonempty e rest) as (c & w & Ee & Hc). rewrite Ee in E.
    destruct t as [|a [|b [|d t]]].
    - cbn in E. injection E as -> _. destruct Hc; discriminate.
    - cbn in E. injection E as _ -> _. destruct Hc; discriminate.
    - cbn in E. injection E as _ _ -> _. destruct Hc; discriminate.
    - cbn in E. injection E as -> -> -> _. apply H. exists t. reflexivity.
  Qed.

  Lemma mem_all_lines tl out k : forall n ls fuel,
    0 < k -> (forall f, k <= f -> mem_all (csv_decode p) f tl = out) ->
    csv_text p tl false = csv_decode p tl false ->
    length ls <= n -> length ls + k <= fuel ->
    Forall (fun l => item_ok (fst l)) ls -> eols_ok ls tl ->
    Forall (fun l => ~ starts_with utf8_bom (fst l)) ls ->
    mem_all (csv_decode p) fuel (render_lines ls tl) =
    (map (fun l => mk_rec l kComplete) (filter keep (map fst ls)) ++ fst out, snd out).
  Proof.
    intros n ls fuel Hk Hout Hdec. revert ls fuel.
    induction n as [n IH] using lt_wf_ind; intros ls fuel Hn Hf Hi He Hb.
    destruct fuel as [|fuel]; [lia|].
    assert (Edec : csv_decode p (render_lines ls tl) false = csv_text p (render_lines ls tl) false).
    { destruct ls as [|[t e] ls]; [symmetry; exact Hdec|].
      rewrite csv_decode_false. f_equal. unfold render_lines. cbn [flat_map fst snd]. rewrite <- !app_assoc.
      apply starts_bom_line. inversion Hb; assumption. }
    destruct (csv_text_lines tl ls Hi He) as [(l & ls' & H1 & H2 & [pre H3] & H4 & H5)|[H1 H2]].
    - cbn [mem_all]. rewrite Edec, H2. cbn [strip_hint rmap bind fst snd].
      rewrite (IH (length ls')); try lia.
      + rewrite H1. reflexivity.
      + rewrite H3 in Hi. apply Forall_app in Hi. apply Hi.
      + exact H4.
      + rewrite H3 in Hb. apply Forall_app in Hb. apply Hb.
    - rewrite H1. cbn [map app].
      assert (Eo : mem_all (csv_decode p) (S fuel) (render_lines ls tl) = mem_all (csv_decode p) (S fuel) tl).
      { cbn [mem_all]. rewrite Edec, H2, Hdec. reflexivity. }
      rewrite Eo, Hout by lia. destruct out; reflexivity.
  Qed.

  Lemma render_lines_long ls tl : length ls + length tl <= length (render_lines ls tl).
  Proof.
    unfold render_lines. rewrite app_length.
    assert (H : length ls <= length (flat_map (fun l : list byte * eol => fst l ++ eol_bytes (snd l)) ls)); [|lia].
    induction ls as [|[t e] ls IH]; [cbn; lia|]. cbn [flat_map fst snd length]. rewrite !app_length.
    destruct e; cbn [eol_bytes length]; lia.
  Qed.

  Lemma file_lines ls last sched size :
    Forall (fun l => item_ok (fst l)) ls -> item_ok last -> eols_ok ls last ->
    Forall (fun l => ~ starts_with utf8_bom (fst l)) ls -> ~ starts_with utf8_bom last ->
    records (csv_decode p) true sched size (render_lines ls last) =
    (map (fun l => mk_rec l kComplete) (filter keep (lines_of ls last)), Ok tt).
  Proof.
    intros Hi Hl He Hb Hbl. rewrite records_zero_copy by (intros []; reflexivity).
    pose (out := (map (fun l => mk_rec l kComplete) (filter keep (match last with [] => [] | _ => [last] end)), Ok tt : res unit)).
    assert (Elast : csv_decode p last false = csv_text p last false).
    { rewrite csv_decode_false. f_equal.
      destruct (starts_bom_dec last) as [E|E]; [exact E|contradiction]. }
    rewrite (mem_all_lines last out (match last with [] => 1 | _ => 2 end)) with (n := length ls).
    - unfold lines_of. rewrite filter_app, map_app. reflexivity.
    - destruct last; lia.
    - intros [|f] Hf; [destruct last; lia|]. cbn [mem_all]. rewrite Elast. subst out.
      destruct last as [|c last]; [reflexivity|].
      rewrite csv_text_last by (auto; discriminate). cbn [filter]. destruct (keep (c :: last)); [|reflexivity].
      destruct f; [lia|reflexivity].
    - symmetry. exact Elast.
    - lia.
    - pose proof (render_lines_long ls last). destruct last; cbn [length] in *; lia.
    - exact Hi.
    - exact He.
    - exact Hb.
  Qed.

  (* The same with a last row that is never closed. *)
  Lemma file_unclosed ls u sched size :
    cp_allow_quoted_new_lines p = true ->
    Forall (fun l => item_ok (fst l)) ls -> Line_unclosed (cp_delimiter p) (cp_quote p) u ->
    is_comment_line p u = false -> eols_ok ls u ->
    Forall (fun l => ~ starts_with utf8_bom (fst l)) ls -> ~ starts_with utf8_bom u ->
    records (csv_decode p) true sched size (render_lines ls u) =
    (map (fun l => mk_rec l kComplete) (filter keep (map fst ls)), Throw Corrupt_record).
  Proof.
    intros HA Hi Hl Hcm He Hb Hbl. rewrite records_zero_copy by (intros []; reflexivity).
    pose (out := ([] : list rec, Throw Corrupt_record : res unit)).
    assert (Elast : csv_decode p u false = csv_text p u false).
    { rewrite csv_decode_false. f_equal.
      destruct (starts_bom_dec u) as [E|E]; [exact E|contradiction]. }
    rewrite (mem_all_lines u out 1) with (n := length ls).
    - cbn [out fst snd]. rewrite app_nil_r. reflexivity.
    - lia.
    - intros [|f] Hf; [lia|]. cbn [mem_all]. rewrite Elast, csv_text_eq. subst out.
      assert (Hr : row_line p u false = Throw Corrupt_record).
      { unfold row_line. rewrite HA. rewrite csv_read_line_unclosed by exact Hl. rewrite Hmax. reflexivity. }
      destruct u as [|c u].
      + exfalso. remember [] as u eqn:E. destruct Hl as [|t]; [discriminate|]. destruct t; discriminate.
      + rewrite Hcm, Hr. reflexivity.
    - symmetry. exact Elast.
    - lia.
    - pose proof (render_lines_long ls u). lia.
    - exact Hi.
    - exact He.
    - exact Hb.
  Qed.
End File.
