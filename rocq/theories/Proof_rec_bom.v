(* BOM sequences: what exactly is removed. *)
From Verif Require Import Common Model_csvtok Model_rec Spec_csvtok Spec_rec Proof_csvtok Proof_rec Proof_rec_text
  Proof_rec_bin Proof_rec_spec Proof_rec_more Proof_rec_props.

Lemma without_bom_strip l : without_bom l = strip_bom l.
Proof. reflexivity. Qed.

Lemma no_eol_suffix a b : suffix_of a b -> no_eol b -> no_eol a.
Proof. intros [c ->] [H1 H2]. split; intro H; [apply H1|apply H2]; apply in_or_app; right; exact H. Qed.

Lemma strip_bom_line t e rest : strip_bom (t ++ eol_bytes e ++ rest) = without_bom t ++ eol_bytes e ++ rest.
Proof.
  destruct (starts_bom_dec t) as [E|[u ->]].
  - change (without_bom t) with (strip_bom t). rewrite E. apply starts_bom_line. intros [u Hu]. rewrite Hu in E. cbn in E.
    apply (f_equal (@length byte)) in E. cbn in E. lia.
  - reflexivity.
Qed.

Section Exact.
  Variable p : csv_rparams.
  Hypothesis Hmax : cp_max_line_length p = None.
  Hypothesis Hq : cp_allow_quoted_new_lines p = false.
  Hypothesis Hcc : cp_comment p <> Some LF /\ cp_comment p <> Some CR.

  Lemma plain_item t : no_eol t -> item_ok p t.
  Proof. intro H. unfold item_ok. rewrite Hq. destruct (is_comment_line p t); exact H. Qed.

  Lemma plain_dq : cp_allow_quoted_new_lines p = true ->
    (cp_delimiter p <> LF /\ cp_delimiter p <> CR) /\ (cp_quote p <> LF /\ cp_quote p <> CR).
  Proof. rewrite Hq. discriminate. Qed.

  Definition from (fresh : bool) : decoder := if fresh then csv_decode p else csv_text p.
  Definition mem_from (fresh : bool) (fuel : nat) (xs : list byte) : list rec * res unit :=
    match strip_hint (from fresh xs false) with
    | Ok (Some x, rest) => let '(ys, e) := mem_all (csv_decode p) fuel rest in (x :: ys, e)
    | Ok (None, _) => ([], Ok tt)
    | Throw e => ([], Throw e)
    | UB => ([], UB)
    | Fuel => ([], Fuel)
    end.

  Lemma mem_from_all fuel xs : mem_all (csv_decode p) (S fuel) xs = mem_from true fuel xs.
  Proof. reflexivity. Qed.

  Lemma lines_exact last : no_eol last -> forall ls fresh fuel,
    Forall (fun l => no_eol (fst l)) ls -> eols_ok ls last -> length ls + length last < fuel + 1 ->
    mem_from fresh fuel (render_lines ls last) =
    (map (fun l => mk_rec l kComplete) (lines_seen (fun l => negb (keep p l)) fresh (map fst ls) last), Ok tt).
  Proof.
    intro HL. induction ls as [|[t e] ls IH]; intros fresh fuel HF He Hf.
    - unfold render_lines. cbn [flat_map app map lines_seen].
      assert (E : from fresh last false = csv_text p (if fresh then without_bom last else last) false).
      { destruct fresh; [apply csv_decode_false|reflexivity]. }
      unfold mem_from. rewrite E. set (l := if fresh then without_bom last else last) in *.
      assert (Hl : no_eol l). { subst l. destruct fresh; [|exact HL]. eapply no_eol_suffix; [apply strip_bom_suffix|exact HL]. }
      assert (Hn : last = [] -> l = []) by (intros ->; subst l; destruct fresh; reflexivity).
      clearbody l. destruct l as [|c l]; [reflexivity|].
      rewrite (csv_text_last p Hmax plain_dq) by (try discriminate; auto using plain_item). cbn [blank orb].
      destruct (keep p (c :: l)); [|reflexivity]. cbn [negb strip_hint rmap bind fst snd].
      destruct fuel as [|fuel]; [exfalso|reflexivity]. cbn [length] in Hf. destruct last; [discriminate (Hn eq_refl)|cbn in Hf; lia].
    - inversion HF as [|? ? Hi HF']; subst. cbn [fst] in Hi. destruct He as [He1 He2].
      cbn [map fst lines_seen].
      assert (E : from fresh (render_lines ((t, e) :: ls) last) false
                = csv_text p ((if fresh then without_bom t else t) ++ eol_bytes e ++ render_lines ls last) false).
      { unfold render_lines at 1. cbn [flat_map fst snd]. rewrite <- !app_assoc. destruct fresh; [|reflexivity].
        cbn [from]. rewrite csv_decode_false. f_equal. apply strip_bom_line. }
      unfold mem_from. rewrite E. set (l := if fresh then without_bom t else t) in *.
      assert (Hl : no_eol l). { subst l. destruct fresh; [|exact Hi]. eapply no_eol_suffix; [apply strip_bom_suffix|exact Hi]. }
      clearbody l. rewrite (csv_text_item p Hmax plain_dq Hcc) by (auto using plain_item; exact He1).
      destruct (keep p l); cbn [negb].
      + cbn [strip_hint rmap bind fst snd]. cbn [length] in Hf. destruct fuel as [|fuel]; [lia|].
        rewrite mem_from_all, IH by (auto; lia). reflexivity.
      + rewrite <- (IH false fuel) by (auto; cbn [length] in Hf; lia). reflexivity.
  Qed.

  Lemma records_exact ls last sched size : no_eol last -> Forall (fun l => no_eol (fst l)) ls -> eols_ok ls last ->
    records (csv_decode p) true sched size (render_lines ls last) =
    (map (fun l => mk_rec l kComplete) (lines_seen (fun l => negb (keep p l)) true (map fst ls) last), Ok tt).
  Proof.
    intros HL HF He. rewrite records_zero_copy by (intros []; reflexivity).
    replace (length (render_lines ls last) + 1) with (S (length (render_lines ls last))) by lia.
    rewrite mem_from_all. apply lines_exact; auto. pose proof (render_lines_long p plain_dq ls last). lia.
  Qed.
End Exact.

Lemma lines_seen_ext f g : (forall l, f l = g l) -> forall ls fresh last, lines_seen f fresh ls last = lines_seen g fresh ls last.
Proof.
  intro H. induction ls as [|l ls IH]; intros fresh last; cbn [lines_seen]; rewrite H; [reflexivity|]. now rewrite !IH.
Qed.

Lemma C10_exact : forall skip_blank ls last sched size,
  Forall (fun l => no_eol (fst l)) ls -> no_eol last -> eols_ok ls last ->
  records (text_line_decode skip_blank) true sched size (render_lines ls last)
  = (map (fun l => mk_rec l kComplete) (lines_seen (fun l => skip_blank && blank l) true (map fst ls) last), Ok tt).
Proof.
  intros sb ls last sched size H1 H2 H3. rewrite text_records_csv.
  rewrite records_exact; auto; try (cbn; intuition discriminate).
  f_equal. f_equal. apply lines_seen_ext. intro l. unfold keep. cbn. now rewrite negb_involutive.
Qed.

Lemma C10_exact_csv : forall d q cc skip_blank ls last sched size, cc <> Some LF -> cc <> Some CR ->
  Forall (fun l => no_eol (fst l)) ls -> no_eol last -> eols_ok ls last ->
  records (csv_decode (mk_csv_rparams d q cc false skip_blank None)) true sched size (render_lines ls last)
  = (map (fun l => mk_rec l kComplete)
       (lines_seen (fun l => match cc, l with Some c, x :: _ => N.eqb x c | _, _ => false end || skip_blank && blank l)
          true (map fst ls) last), Ok tt).
Proof.
  intros d q cc sb ls last sched size Hc1 Hc2 H1 H2 H3.
  rewrite records_exact; auto.
  f_equal. f_equal. apply lines_seen_ext. intro l. unfold keep. rewrite negb_andb, !negb_involutive. f_equal.
Qed.

(* A leading BOM makes no difference. *)
Lemma records_bom p xs sched size : ~ starts_with utf8_bom xs -> snd (records (csv_decode p) true sched size xs) <> Fuel ->
  records (csv_decode p) true sched size (utf8_bom ++ xs) = records (csv_decode p) true sched size xs.
Proof.
  intros HB HF. rewrite !records_zero_copy in * by (intros []; reflexivity).
  rewrite <- (mem_all_more _ 3 (length xs + 1) xs) by exact HF.
  replace (length (utf8_bom ++ xs) + 1) with (S (length xs + 3)) by (rewrite app_length; cbn; lia).
  replace (length xs + 1 + 3) with (S (length xs + 3)) by lia.
  cbn [mem_all]. rewrite !csv_decode_false.
  replace (strip_bom (utf8_bom ++ xs)) with xs by reflexivity.
  destruct (starts_bom_dec xs) as [E|E]; [|contradiction]. now rewrite E.
Qed.

Lemma only_leading b xs : b = [] \/ b = utf8_bom -> ~ contains utf8_bom xs ->
  (forall ys, b ++ xs = utf8_bom ++ ys -> ~ contains utf8_bom ys) /\ (~ starts_with utf8_bom (b ++ xs) -> ~ contains utf8_bom (b ++ xs)).
Proof.
  intros [-> | ->] H; [exact (not_contains_hyp xs H)|]. split.
  - intros ys E. apply app_inv_head in E. now subst.
  - intro N. exfalso. apply N. exists xs. reflexivity.
Qed.

Lemma not_contains_starts xs : ~ contains utf8_bom xs -> ~ starts_with utf8_bom xs.
Proof. intros H [t ->]. apply H. exists [], t. reflexivity. Qed.

(* C09 with or without a leading BOM. *)
Lemma C09_rows_bom : forall d q skip_blank b ls last zc sched size, (0 < size)%N ->
  d <> LF -> d <> CR -> q <> LF -> q <> CR ->
  Forall (fun l => exists vs, Line_row d q (fst l) vs) ls -> (exists vs, Line_row d q last vs) ->
  eols_ok ls last -> b = [] \/ b = utf8_bom -> ~ contains utf8_bom (render_lines ls last) ->
  records (csv_decode (mk_csv_rparams d q None true skip_blank None)) zc sched size (b ++ render_lines ls last)
  = (map (fun l => mk_rec l kComplete)
         (filter (fun l => negb (skip_blank && blank l)) (lines_of ls last)), Ok tt).
Proof.
  intros d q sb b ls last zc sched size Hs H1 H2 H3 H4 HR HL He Hbb Hb.
  destruct (only_leading b _ Hbb Hb) as [B1 B2].
  rewrite C05_csv with (zc' := true) (sched' := sched) (size' := size) by (auto; left; auto).
  pose proof (C09_rows d q sb ls last true sched size Hs H1 H2 H3 H4 HR HL He Hb) as E.
  destruct Hbb as [-> | ->]; [exact E|]. rewrite records_bom; [exact E|now apply not_contains_starts|rewrite E; discriminate].
Qed.

Lemma C09_open_bom : forall d q skip_blank b ls u zc sched size, (0 < size)%N ->
  d <> LF -> d <> CR -> q <> LF -> q <> CR ->
  Forall (fun l => exists vs, Line_row d q (fst l) vs) ls -> Line_unclosed d q u ->
  eols_ok ls u -> b = [] \/ b = utf8_bom -> ~ contains utf8_bom (render_lines ls u) ->
  records (csv_decode (mk_csv_rparams d q None true skip_blank None)) zc sched size (b ++ render_lines ls u)
  = (map (fun l => mk_rec l kComplete)
         (filter (fun l => negb (skip_blank && blank l)) (map fst ls)), Throw Corrupt_record).
Proof.
  intros d q sb b ls u zc sched size Hs H1 H2 H3 H4 HR HL He Hbb Hb.
  destruct (only_leading b _ Hbb Hb) as [B1 B2].
  rewrite C05_csv with (zc' := true) (sched' := sched) (size' := size) by (auto; left; auto).
  pose proof (C09_open d q sb ls u true sched size Hs H1 H2 H3 H4 HR HL He Hb) as E.
  destruct Hbb as [-> | ->]; [exact E|]. rewrite records_bom; [exact E|now apply not_contains_starts|rewrite E; discriminate].
Qed.
