From Verif Require Import Common Model_csvtok Spec_csvtok.

Section P.
  Context (delim quote : byte).
  Notation scan0 := (scan delim quote None).
  Notation Field := (Field delim quote).
  Notation Row := (Row delim quote).
  Notation Unclosed := (Unclosed delim quote).
  Notation QB := (Quoted_body quote).
  Notation vok := (verbatim_ok delim quote).

  Lemma eqb_refl_N (c : byte) : N.eqb c c = true.
  Proof. apply N.eqb_refl. Qed.
  Lemma eqb_neq_N (c d : byte) : c <> d -> N.eqb c d = false.
  Proof. intro H; apply N.eqb_neq; exact H. Qed.

  Lemma scan_in_field a v tr :
    ~ In delim a ->
    scan0 in_field a (v, tr) = Ok ((v ++ a, tr), true, []) /\
    forall rest, scan0 in_field (a ++ delim :: rest) (v, tr) = Ok ((v ++ a, tr), false, rest).
  Proof.
    revert v; induction a as [|c a IH]; intros v Hni.
    - cbn. rewrite app_nil_r, eqb_refl_N. split; reflexivity.
    - assert (Hc : c <> delim) by (intro; subst; apply Hni; left; reflexivity).
      assert (Ha : ~ In delim a) by (intro; apply Hni; right; assumption).
      destruct (IH (v ++ [c]) Ha) as [H1 H2].
      cbn. rewrite (eqb_neq_N _ _ Hc). cbn in H1, H2.
      rewrite <- app_assoc in H1, H2. cbn in H1, H2. split; [exact H1 | exact H2].
  Qed.

  Lemma scan_in_quoted b u :
    delim <> quote ->
    QB b u ->
    forall v tr,
      scan0 in_quoted_field b (v, tr) = Throw Corrupt_record /\
      forall s, scan0 in_quoted_field (b ++ quote :: s) (v, tr) =
                scan0 quote_in_quoted_field s (v ++ u, tr).
  Proof.
    intro Hdq.
    induction 1 as [|c b u Hc Hb IH|b u Hb IH]; intros v tr.
    - cbn. rewrite eqb_refl_N, app_nil_r. split; reflexivity.
    - destruct (IH (v ++ [c]) tr) as [H1 H2].
      cbn. rewrite (eqb_neq_N _ _ Hc). cbn in H1, H2.
      split; [exact H1|]. intro s. rewrite H2, <- app_assoc. reflexivity.
    - destruct (IH (v ++ [quote]) tr) as [H1 H2].
      cbn. rewrite eqb_refl_N. cbn.
      assert (Hqd : quote <> delim) by congruence.
      rewrite (eqb_neq_N _ _ Hqd). cbn in H1, H2.
      split; [exact H1|]. intro s. rewrite H2, <- app_assoc. reflexivity.
  Qed.

  Lemma scan_tail tail v tr :
    vok tail ->
    scan0 quote_in_quoted_field tail (v, tr) = Ok ((v ++ tail, tr), true, []) /\
    forall rest, scan0 quote_in_quoted_field (tail ++ delim :: rest) (v, tr)
                 = Ok ((v ++ tail, tr), false, rest).
  Proof.
    intros [Hni Hhd]. destruct tail as [|c tail].
    - cbn. rewrite eqb_refl_N, app_nil_r. split; reflexivity.
    - assert (Hc : c <> delim) by (intro; subst; apply Hni; left; reflexivity).
      assert (Hq : c <> quote) by (intro; subst; apply Hhd; reflexivity).
      assert (Ht : ~ In delim tail) by (intro; apply Hni; right; assumption).
      destruct (scan_in_field tail (v ++ [c]) tr Ht) as [H1 H2].
      cbn. rewrite (eqb_neq_N _ _ Hc), (eqb_neq_N _ _ Hq). cbn in H1, H2.
      rewrite <- app_assoc in H1, H2. split; [exact H1 | exact H2].
  Qed.

  Lemma scan_field f v :
    Field f v ->
    scan0 new_field f ([], false) = Ok ((v, false), true, []) /\
    forall rest, scan0 new_field (f ++ delim :: rest) ([], false) = Ok ((v, false), false, rest).
  Proof.
    destruct 1 as [f [Hni Hhd]|b v tail Hdq Hb Htail].
    - destruct f as [|c f].
      + cbn. rewrite eqb_refl_N. split; reflexivity.
      + assert (Hc : c <> delim) by (intro; subst; apply Hni; left; reflexivity).
        assert (Hq : c <> quote) by (intro; subst; apply Hhd; reflexivity).
        assert (Ht : ~ In delim f) by (intro; apply Hni; right; assumption).
        destruct (scan_in_field f [c] false Ht) as [H1 H2].
        cbn. rewrite (eqb_neq_N _ _ Hc), (eqb_neq_N _ _ Hq). cbn in H1, H2.
        split; [exact H1 | exact H2].
    - assert (Hqd : quote <> delim) by congruence.
      destruct (scan_in_quoted b v Hdq Hb [] false) as [_ H2].
      destruct (scan_tail tail v false Htail) as [H3 H4].
      split.
      + cbn. rewrite (eqb_neq_N _ _ Hqd), eqb_refl_N. rewrite H2. exact H3.
      + intro rest. cbn. rewrite (eqb_neq_N _ _ Hqd), eqb_refl_N.
        rewrite <- app_assoc. cbn. rewrite H2. apply H4.
  Qed.

  Definition plain (vs : list (list byte)) : list (list byte * bool) :=
    map (fun v => (v, false)) vs.

  Notation all0 := (tok_all delim quote None).

  Lemma tok_all_row t vs :
    Row t vs ->
    forall fuel tk, t_text tk = t -> t_finished tk = false ->
      length t + 2 <= fuel -> all0 fuel tk = Ok (plain vs).
  Proof.
    induction 1 as [t v Hf|t v rest vs Hf Hr IH]; intros fuel tk Ht Hfin Hfuel.
    - destruct fuel as [|[|fuel]]; [lia|lia|].
      cbn [tok_all]. unfold tok_next at 1. rewrite Hfin, Ht.
      destruct (scan_field _ _ Hf) as [H1 _]. rewrite H1. cbn. reflexivity.
    - destruct fuel as [|fuel]; [lia|].
      cbn [tok_all]. unfold tok_next at 1. rewrite Hfin, Ht.
      destruct (scan_field _ _ Hf) as [_ H2]. rewrite H2. cbn.
      rewrite IH; [reflexivity|reflexivity|reflexivity|].
      rewrite app_length in Hfuel. cbn in Hfuel. lia.
  Qed.

  Lemma tok_all_unclosed t :
    Unclosed t ->
    forall fuel tk, t_text tk = t -> t_finished tk = false ->
      length t + 2 <= fuel -> all0 fuel tk = Throw Corrupt_record.
  Proof.
    induction 1 as [b v Hdq Hb|t v rest Hf Hu IH]; intros fuel tk Ht Hfin Hfuel.
    - destruct fuel as [|fuel]; [lia|].
      cbn [tok_all]. unfold tok_next at 1. rewrite Hfin, Ht.
      assert (Hqd : quote <> delim) by congruence.
      destruct (scan_in_quoted b v Hdq Hb [] false) as [H1 _].
      cbn. rewrite (eqb_neq_N _ _ Hqd), eqb_refl_N, H1. reflexivity.
    - destruct fuel as [|fuel]; [lia|].
      cbn [tok_all]. unfold tok_next at 1. rewrite Hfin, Ht.
      destruct (scan_field _ _ Hf) as [_ H2]. rewrite H2. cbn.
      rewrite IH; [reflexivity|reflexivity|reflexivity|].
      rewrite app_length in Hfuel. cbn in Hfuel. lia.
  Qed.

  (* Every text is a row or an unclosed row. *)
  Lemma body_split n : forall text, length text <= n ->
    (exists v, QB text v) \/
    (exists b v s, text = b ++ quote :: s /\ QB b v /\ hd_error s <> Some quote).
  Proof.
    induction n as [|n IH]; intros text Hn.
    - destruct text; [left; exists []; constructor | cbn in Hn; lia].
    - destruct text as [|c text]; [left; exists []; constructor|].
      destruct (N.eq_dec c quote) as [->|Hc].
      + destruct text as [|c2 text].
        * right. exists [], [], []. split; [reflexivity|]. split; [constructor|discriminate].
        * destruct (N.eq_dec c2 quote) as [->|Hc2].
          -- cbn in Hn. destruct (IH text) as [[v Hv]|(b & v & s & -> & Hb & Hs)]; [lia| |].
             ++ left. exists (quote :: v). constructor; exact Hv.
             ++ right. exists (quote :: quote :: b), (quote :: v), s.
                split; [reflexivity|]. split; [constructor; exact Hb|exact Hs].
          -- right. exists [], [], (c2 :: text). split; [reflexivity|].
             split; [constructor|]. cbn. congruence.
      + cbn in Hn. destruct (IH text) as [[v Hv]|(b & v & s & -> & Hb & Hs)]; [lia| |].
        * left. exists (c :: v). constructor; assumption.
        * right. exists (c :: b), (c :: v), s. split; [reflexivity|].
          split; [constructor; assumption|exact Hs].
  Qed.

  Lemma delim_split (text : list byte) :
    ~ In delim text \/ exists a rest, text = a ++ delim :: rest /\ ~ In delim a.
  Proof.
    induction text as [|c text IH].
    - left; intros [].
    - destruct (N.eq_dec c delim) as [->|Hc].
      + right. exists [], text. split; [reflexivity|intros []].
      + destruct IH as [Hn|(a & rest & -> & Ha)].
        * left. intros [H|H]; [congruence|exact (Hn H)].
        * right. exists (c :: a), rest. split; [reflexivity|].
          intros [H|H]; [congruence|exact (Ha H)].
  Qed.

  Lemma vok_prefix a rest : hd_error (a ++ rest) <> Some quote -> ~ In delim a -> vok a.
  Proof.
    intros Hhd Hni. split; [exact Hni|]. destruct a; [discriminate|exact Hhd].
  Qed.

  Lemma field_split text :
    (exists v, Field text v) \/
    (exists f v rest, text = f ++ delim :: rest /\ Field f v) \/
    (exists b v, text = quote :: b /\ delim <> quote /\ QB b v).
  Proof.
    assert (Hplain : hd_error text <> Some quote \/ delim = quote ->
      (exists v, Field text v) \/ (exists f v rest, text = f ++ delim :: rest /\ Field f v)).
    { intro H. destruct (delim_split text) as [Hn|(a & rest & -> & Ha)].
      - left. exists text. constructor. split; [exact Hn|].
        destruct H as [H| ->]; [exact H|].
        intro Hq. destruct text as [|c t]; [discriminate|].
        injection Hq as ->. apply Hn; left; reflexivity.
      - right. exists a, a, rest. split; [reflexivity|]. constructor.
        destruct H as [H| ->]; [exact (vok_prefix _ _ H Ha)|].
        split; [exact Ha|]. intro Hq. destruct a as [|c t]; [discriminate|].
        injection Hq as ->. apply Ha; left; reflexivity. }
    destruct (N.eq_dec delim quote) as [e|Hdq].
    - destruct (Hplain (or_intror e)) as [H|H]; [left|right; left]; exact H.
    - destruct text as [|c text].
      + left. exists []. constructor. split; [intros []|discriminate].
      + destruct (N.eq_dec c quote) as [->|Hc].
        * destruct (body_split (length text) text (le_n _)) as [[v Hv]|(b & v & s & -> & Hb & Hs)].
          -- right; right. exists text, v. auto.
          -- destruct (delim_split s) as [Hn|(a & rest & -> & Ha)].
             ++ left. exists (v ++ s). constructor; [exact Hdq|exact Hb|]. split; assumption.
             ++ right; left. exists (quote :: b ++ quote :: a), (v ++ a), rest.
                split; [cbn; rewrite <- app_assoc; reflexivity|].
                constructor; [exact Hdq|exact Hb|]. exact (vok_prefix _ _ Hs Ha).
        * assert (Hhd : hd_error (c :: text) <> Some quote) by (cbn; congruence).
          destruct (Hplain (or_introl Hhd)) as [H|H]; [left|right; left]; exact H.
  Qed.

  Lemma row_or_unclosed n : forall text, length text <= n ->
    (exists vs, Row text vs) \/ Unclosed text.
  Proof.
    induction n as [|n IH]; intros text Hn;
    destruct (field_split text) as [[v Hf]|[(f & v & rest & -> & Hf)|(b & v & -> & Hdq & Hb)]];
      try (left; exists [v]; constructor; exact Hf);
      try (right; econstructor; eassumption).
    - rewrite app_length in Hn. cbn in Hn. lia.
    - rewrite app_length in Hn. cbn in Hn.
      destruct (IH rest) as [[vs Hr]|Hu]; [lia| |].
      + left. exists (v :: vs). constructor; assumption.
      + right. econstructor; eassumption.
  Qed.

  Notation tokenize0 := (tokenize delim quote None).

  Lemma tokenize_row t vs : Row t vs -> tokenize0 t = Ok (plain vs).
  Proof. intro H. unfold tokenize. eapply tok_all_row; [exact H|reflexivity|reflexivity|lia]. Qed.
  Lemma tokenize_unclosed t : Unclosed t -> tokenize0 t = Throw Corrupt_record.
  Proof. intro H. unfold tokenize. eapply tok_all_unclosed; [exact H|reflexivity|reflexivity|lia]. Qed.

  Lemma plain_inj vs ws : plain vs = plain ws -> vs = ws.
  Proof.
    revert ws; induction vs as [|v vs IH]; intros [|w ws] H; try discriminate; [reflexivity|].
    cbn in H. injection H as -> H. f_equal. apply IH. exact H.
  Qed.

  Lemma tokenize_iff_row t vs : tokenize0 t = Ok (plain vs) <-> Row t vs.
  Proof.
    split; [|apply tokenize_row].
    intro H. destruct (row_or_unclosed _ t (le_n _)) as [[ws Hw]|Hu].
    - rewrite (tokenize_row _ _ Hw) in H. injection H as H. apply plain_inj in H. subst; exact Hw.
    - rewrite (tokenize_unclosed _ Hu) in H. discriminate.
  Qed.

  Lemma tokenize_iff_unclosed t : tokenize0 t = Throw Corrupt_record <-> Unclosed t.
  Proof.
    split; [|apply tokenize_unclosed].
    intro H. destruct (row_or_unclosed _ t (le_n _)) as [[ws Hw]|Hu]; [|exact Hu].
    rewrite (tokenize_row _ _ Hw) in H. discriminate.
  Qed.

  Lemma row_nonempty t vs : Row t vs -> vs <> [].
  Proof. destruct 1; discriminate. Qed.

  Lemma tokenize_cases t :
    (exists vs, vs <> [] /\ tokenize0 t = Ok (plain vs) /\ Row t vs) \/
    (tokenize0 t = Throw Corrupt_record /\ Unclosed t).
  Proof.
    destruct (row_or_unclosed _ t (le_n _)) as [[ws Hw]|Hu].
    - left. exists ws. split; [exact (row_nonempty _ _ Hw)|]. split; [exact (tokenize_row _ _ Hw)|exact Hw].
    - right. split; [exact (tokenize_unclosed _ Hu)|exact Hu].
  Qed.

  (* Round trip. *)
  Lemma QB_double f : QB (double_quotes quote f) f.
  Proof.
    induction f as [|c f IH]; cbn; [constructor|].
    destruct (N.eqb_spec c quote) as [->|Hc]; cbn; constructor; assumption.
  Qed.

  Lemma render_field_ok fq : delim <> quote -> writable delim quote fq ->
    Field (render_field quote fq) (fst fq).
  Proof.
    intros Hdq Hw. destruct fq as [f q]. cbn. destruct q.
    - rewrite <- (app_nil_r f) at 2. constructor; [exact Hdq|apply QB_double|].
      split; [intros []|discriminate].
    - constructor. destruct Hw as [H|H]; [discriminate|exact H].
  Qed.

  Lemma render_row_ok fs : delim <> quote -> fs <> [] -> Forall (writable delim quote) fs ->
    Row (render_row delim quote fs) (map fst fs).
  Proof.
    intros Hdq Hne Hw. induction Hw as [|fq fs Hf Hfs IH]; [congruence|].
    destruct fs as [|g fs].
    - cbn. constructor. apply render_field_ok; assumption.
    - change (render_row delim quote (fq :: g :: fs))
        with (render_field quote fq ++ delim :: render_row delim quote (g :: fs)).
      cbn [map]. constructor; [apply render_field_ok; assumption|].
      apply IH. discriminate.
  Qed.

  Lemma tokenize_render fs : delim <> quote -> fs <> [] -> Forall (writable delim quote) fs ->
    tokenize0 (render_row delim quote fs) = Ok (map (fun fq => (fst fq, false)) fs).
  Proof.
    intros H1 H2 H3. rewrite (tokenize_row _ _ (render_row_ok fs H1 H2 H3)).
    unfold plain. rewrite map_map. reflexivity.
  Qed.

  (* Truncation. *)
  Definition cut (m : nat) (v : list byte) : list byte * bool := (firstn m v, m <? length v).

  Lemma push_cut m v c :
    push_char (Some m) (cut m v) c = cut m (v ++ [c]).
  Proof.
    unfold push_char, cut. rewrite firstn_length, app_length. cbn [length].
    destruct (Nat.ltb_spec m (length v)) as [Hlt|Hge].
    - replace (Nat.min m (length v)) with m by lia. rewrite Nat.eqb_refl.
      f_equal; [|lia].
      rewrite firstn_app. replace (m - length v) with 0 by lia. cbn. now rewrite app_nil_r.
    - replace (Nat.min m (length v)) with (length v) by lia.
      destruct (Nat.eqb_spec (length v) m) as [He|Hn].
      + f_equal; [|lia]. rewrite firstn_app. replace (m - length v) with 0 by lia.
        cbn. now rewrite app_nil_r.
      + f_equal; [|lia]. rewrite !firstn_all2; [reflexivity| |lia].
        rewrite app_length; cbn; lia.
  Qed.

  Definition cut_result (m : nat) (r : (list byte * bool) * bool * list byte) :=
    let '((v, _), fin, rest) := r in (cut m v, fin, rest).

  Lemma scan_cut m text : forall st v tr,
    scan delim quote (Some m) st text (cut m v) =
    rmap (cut_result m) (scan delim quote None st text (v, tr)).
  Proof.
    induction text as [|c text IH]; intros st v tr.
    - destruct st; reflexivity.
    - destruct st; cbn [scan]; destruct (N.eqb c delim); try reflexivity;
      try (destruct (N.eqb c quote)); try reflexivity; try apply IH;
      rewrite push_cut; cbn [push_char]; apply IH.
  Qed.

  Lemma tok_all_cut m fuel : forall tk tk',
    t_text tk = t_text tk' -> t_finished tk = t_finished tk' ->
    tok_all delim quote (Some m) fuel tk =
    rmap (map (fun vt => cut m (fst vt))) (tok_all delim quote None fuel tk').
  Proof.
    induction fuel as [|fuel IH]; intros tk tk' Ht Hf; [reflexivity|].
    cbn [tok_all]. unfold tok_next. rewrite Hf. destruct (t_finished tk').
    - reflexivity.
    - rewrite Ht. pose proof (scan_cut m (t_text tk') new_field [] false) as Hs.
      assert (Hcut : cut m [] = ([], false)).
      { unfold cut. rewrite firstn_nil. cbn. reflexivity. }
      rewrite Hcut in Hs. rewrite Hs.
      destruct (scan delim quote None new_field (t_text tk') ([], false))
        as [[[[v tr] fin] rest]|e| |]; cbn; try reflexivity.
      rewrite IH with (tk' := mk_tok rest v tr fin (t_eof tk')); [|reflexivity|reflexivity].
      destruct (tok_all delim quote None fuel (mk_tok rest v tr fin (t_eof tk'))); cbn; reflexivity.
  Qed.

  Lemma tokenize_cut m t :
    tokenize delim quote (Some m) t =
    rmap (map (fun vt => (firstn m (fst vt), m <? length (fst vt)))) (tokenize delim quote None t).
  Proof. unfold tokenize. erewrite tok_all_cut; reflexivity. Qed.

  Lemma tokenize_limit m t :
    (forall fs, tokenize delim quote None t = Ok fs ->
       tokenize delim quote (Some m) t
       = Ok (map (fun f => (firstn m (fst f), m <? length (fst f))) fs)) /\
    (forall e, tokenize delim quote None t = Throw e ->
       tokenize delim quote (Some m) t = Throw e).
  Proof. split; intros x H; rewrite tokenize_cut, H; reflexivity. Qed.
End P.
