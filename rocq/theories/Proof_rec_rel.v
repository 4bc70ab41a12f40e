(* Record splitting when a chunk boundary may change what is left after a record: the rest is then related by R to the rest
   that is left in memory.  The same steps as in Proof_rec. *)
From Verif Require Import Common Model_rec Spec_rec Proof_rec Proof_rec_text Proof_rec_spec Proof_rec_more Proof_rec_props Proof_rec_bom.

(* total, the outcome in memory, the outcome of the reader *)
Definition rel_out (R : list byte -> list byte -> list byte -> Prop) (total : list byte) (a b : res (option rec * list byte)) : Prop :=
  match a, b with
  | Ok (Some x, r), Ok (Some y, q) => x = y /\ R total r q
  | Ok (None, _), Ok (None, _) => True
  | Throw e, Throw e' => e = e'
  | UB, UB => True
  | Fuel, Fuel => True
  | _, _ => False
  end.

Record rel_stable (D : decoder) (G : list byte -> Prop) (R : list byte -> list byte -> list byte -> Prop) : Prop := {
  rs_empty : forall b, D [] b = Ok (None, [], None);
  rs_refl : forall t r, R t r r;
  rs_some : forall p s r rest h, G (p ++ s) -> D p true = Ok (Some r, rest, h) ->
      rel_out R (p ++ s) (strip_hint (D (p ++ s) false)) (Ok (Some r, rest ++ s));
  rs_none : forall p s rest h, G (p ++ s) -> D p true = Ok (None, rest, h) -> forall o,
      rel_out R (rest ++ s) (strip_hint (D (rest ++ s) false)) o -> rel_out R (p ++ s) (strip_hint (D (p ++ s) false)) o;
  rs_throw : forall p s e, G (p ++ s) -> D p true = Throw e -> D (p ++ s) false = Throw e;
  rs_safe : forall p b, D p b <> UB /\ D p b <> Fuel;
  rs_rest : forall p b r rest h, D p b = Ok (r, rest, h) ->
      suffix_of rest p /\ (r <> None -> length rest < length p);
  rs_good : forall p s r rest h, G (p ++ s) -> D p true = Ok (r, rest, h) -> G (rest ++ s);
  rs_good' : forall p r rest h, G p -> D p false = Ok (r, rest, h) -> G rest }.

Definition rel_step (D : decoder) (G : list byte -> Prop) R (total : list byte) (out : res (option rec * sreader)) : Prop :=
  match out with
  | Ok (Some x, r') => exists rest, Inv G r' rest /\ length rest < length total /\
      rel_out R total (strip_hint (D total false)) (Ok (Some x, rest))
  | Ok (None, _) => exists rest, strip_hint (D total false) = Ok (None, rest)
  | Throw e => strip_hint (D total false) = Throw e
  | UB => False
  | Fuel => False
  end.

Lemma rel_step_none D G R total total' out :
  (forall o, rel_out R total' (strip_hint (D total' false)) o -> rel_out R total (strip_hint (D total false)) o) ->
  length total' <= length total ->
  rel_step D G R total' out -> rel_step D G R total out.
Proof.
  intros Ho Hl. unfold rel_step. destruct out as [[[x|] r']|e| |]; auto.
  - intros (rest & HI & Hlt & Hr). exists rest. split; [exact HI|]. split; [lia|]. apply Ho, Hr.
  - intros (rest & Hr). specialize (Ho (Ok (None, rest))). rewrite Hr in Ho. specialize (Ho I).
    destruct (strip_hint (D total false)) as [[[y|] q]|e'| |]; cbn in Ho; try tauto. eexists; reflexivity.
  - intros Hr. specialize (Ho (Throw e)). rewrite Hr in Ho. specialize (Ho eq_refl).
    destruct (strip_hint (D total false)) as [[[y|] q]|e'| |]; cbn in Ho; try tauto. congruence.
Qed.

Lemma rel_core_default D G R (HD : rel_stable D G R) fuel : forall d chunk total,
  Inv G (mk_sreader (CR_default d) chunk) total ->
  measure (mk_sreader (CR_default d) chunk) <= fuel ->
  rel_step D G R total (read_record_core D fuel (mk_sreader (CR_default d) chunk)).
Proof.
  induction fuel as [|fuel IH]; intros d chunk total HI Hm.
  { unfold measure in Hm. destruct (cr_is_eof _); lia. }
  destruct HI as [HG (Htot & Hnext & Heof & Hblk)]. cbn [sr_cr sr_chunk cr_stream] in *.
  cbn [read_record_core sr_chunk sr_cr cr_is_eof].
  destruct (cr_eof d) eqn:He.
  - (* end of stream known *)
    rewrite (Heof eq_refl), app_nil_r in Htot. subst total. cbn [negb].
    pose proof (rs_safe D G R HD chunk false) as [Hub Hfu].
    destruct (D chunk false) as [[[[x|] rest] h]|e| |] eqn:HDc; try congruence.
    + cbn. exists rest. rewrite HDc. cbn.
      pose proof (rs_rest D G R HD _ _ _ _ _ HDc) as [_ Hlt].
      split; [|split; [apply Hlt; discriminate|split; [reflexivity|apply (rs_refl D G R HD)]]].
      split.
      * eapply (rs_good' D G R HD); eassumption.
      * destruct h as [h|]; cbn.
        -- rewrite (Heof eq_refl). split; [now rewrite app_nil_r|].
           split; [pose proof (hint_spec d h Hnext) as Hh; cbn in Hh; lia|]. split; [auto|].
           rewrite He; discriminate.
        -- rewrite (Heof eq_refl). split; [now rewrite app_nil_r|]. split; [exact Hnext|]. split; [auto|].
           rewrite He; discriminate.
    + cbn. destruct h as [h|]; cbn [cr_hint cr_read]; rewrite dchunk_read_eof by (cbn; exact He);
        cbn; rewrite HDc; cbn; eexists; reflexivity.
    + cbn. rewrite HDc. reflexivity.
  - specialize (Hblk eq_refl). cbn [negb].
    pose proof (rs_safe D G R HD chunk true) as [Hub Hfu].
    destruct (D chunk true) as [[[[x|] rest] h]|e| |] eqn:HDc; try congruence.
    + subst total. cbn.
      pose proof (rs_rest D G R HD _ _ _ _ _ HDc) as [Hsuf Hlt]. apply suffix_len in Hsuf.
      exists (rest ++ s_rest (cr_stream d)).
      split; [|split; [rewrite !app_length; specialize (Hlt ltac:(discriminate)); lia
                      |exact (rs_some D G R HD _ _ _ _ _ HG HDc)]].
      split.
      * eapply (rs_good D G R HD); [exact HG|exact HDc].
      * assert (Hgen : forall d', cr_stream d' = cr_stream d -> (cr_next d <= cr_next d')%N ->
          cr_block d' = cr_block d -> cr_eof d' = cr_eof d ->
          rest ++ s_rest (cr_stream d) = rest ++ s_rest (cr_stream d') /\ (0 < cr_next d')%N /\
          (cr_eof d' = true -> s_rest (cr_stream d') = []) /\
          (cr_eof d' = false -> match cr_block d' with
             | Some b => (b <= cr_next d')%N /\ (N.of_nat (length rest) <= b)%N
             | None => rest = [] end)).
        { intros d' E1 E2 E3 E4. rewrite E1, E3, E4, He. split; [reflexivity|]. split; [lia|].
          split; [discriminate|]. intros _. destruct (cr_block d) as [b|]; [lia|].
          subst chunk. destruct rest; [reflexivity|cbn in Hsuf; lia]. }
        destruct h as [h|]; cbn [sr_cr sr_chunk cr_hint].
        -- apply Hgen; try reflexivity. pose proof (hint_spec d h Hnext); lia.
        -- apply Hgen; reflexivity.
    + (* no record in the chunk *)
      set (d1 := match h with Some h => dchunk_hint d h | None => d end).
      assert (E1 : cr_stream d1 = cr_stream d) by (subst d1; destruct h; reflexivity).
      assert (E2 : (cr_next d <= cr_next d1)%N).
      { subst d1. destruct h as [h|]; [pose proof (hint_spec d h Hnext); lia|lia]. }
      assert (E3 : cr_block d1 = cr_block d) by (subst d1; destruct h; reflexivity).
      assert (E4 : cr_eof d1 = false) by (subst d1; destruct h; exact He).
      assert (Ecr : match h with Some h0 => cr_hint (CR_default d) h0 | None => CR_default d end = CR_default d1).
      { subst d1. destruct h; reflexivity. }
      cbn [bind]. rewrite Ecr. cbn [cr_read].
      pose proof (rs_rest D G R HD _ _ _ _ _ HDc) as [Hsuf _]. pose proof (suffix_len _ _ Hsuf) as Hlen.
      destruct (dchunk_read_spec d1 rest E4) as (room & d2 & Hroom & Hrd & Hs2 & He2 & Hn2 & Hnf & Hf).
      { lia. }
      { rewrite E3. destruct (cr_block d) as [b|]; [lia|]. subst chunk.
        destruct rest; [reflexivity|cbn in Hlen; lia]. }
      rewrite Hrd. cbn [bind fst snd]. rewrite E1 in *.
      subst total.
      apply rel_step_none with (total' := rest ++ s_rest (cr_stream d));
        [exact (rs_none D G R HD _ _ _ _ HG HDc)|rewrite !app_length; lia|].
      set (chunk2 := rest ++ firstn (N.to_nat room) (s_rest (cr_stream d))) in *.
      assert (Htot2 : rest ++ s_rest (cr_stream d) = chunk2 ++ s_rest (cr_stream d2)).
      { subst chunk2. rewrite Hs2, <- app_assoc, firstn_skipn. reflexivity. }
      assert (HInv2 : Inv G (mk_sreader (CR_default d2) chunk2) (rest ++ s_rest (cr_stream d))).
      { split; [eapply (rs_good D G R HD); [exact HG|exact HDc]|]. cbn.
        split; [exact Htot2|]. split; [lia|]. split.
        - intro Hee. rewrite Hee in He2. rewrite Hs2. apply skipn_all2. lia.
        - intro Hee. destruct (Hnf Hee) as [-> Hsz]. split; [lia|].
          subst chunk2. rewrite app_length, firstn_length. lia. }
      destruct chunk2 as [|c chunk2'] eqn:Hc2.
      * (* nothing left at all *)
        destruct rest; [|discriminate]. cbn in Hc2.
        assert (Hz : s_rest (cr_stream d) = []).
        { destruct (s_rest (cr_stream d)); [reflexivity|].
          destruct (N.to_nat room) eqn:Hr; [lia|]. discriminate. }
        rewrite Hz. cbn. rewrite (rs_empty D G R HD). cbn. eexists; reflexivity.
      * rewrite <- Hc2 in *.
        apply (IH d2 chunk2 (rest ++ s_rest (cr_stream d))); [exact HInv2|].
        unfold measure in *. cbn [sr_cr cr_is_eof cr_bytes_left] in *. rewrite He in Hm. rewrite He2.
        destruct (N.ltb_spec (N.of_nat (length (s_rest (cr_stream d)))) room) as [Hlt|Hge]; [lia|].
        rewrite Hs2, skipn_length. lia.
    + subst total. cbn. rewrite (rs_throw D G R HD _ _ _ HG HDc). reflexivity.
Qed.

Lemma rel_read_record_ok D G R (HD : rel_stable D G R) r total :
  Inv G r total -> rel_step D G R total (read_record D r).
Proof.
  destruct r as [[d|m] chunk]; intro HI.
  - apply rel_core_default; [exact HD|exact HI|].
    unfold measure. cbn. destruct (cr_eof d); lia.
  - destruct HI as [HG HI]. cbn in HI.
    assert (Hmem : forall fuel chunk, G chunk -> 0 < fuel ->
       rel_step D G R chunk (read_record_core D fuel (mk_sreader (CR_memory []) chunk))).
    { intros [|fuel] ck HGc Hf; [lia|].
      cbn [read_record_core sr_chunk sr_cr cr_is_eof negb].
      pose proof (rs_safe D G R HD ck false) as [Hub Hfu].
      destruct (D ck false) as [[[[x|] rest] h]|e| |] eqn:HDc; try congruence.
      - cbn. exists rest. rewrite HDc. cbn.
        pose proof (rs_rest D G R HD _ _ _ _ _ HDc) as [_ Hlt].
        split; [|split; [apply Hlt; discriminate|split; [reflexivity|apply (rs_refl D G R HD)]]]. split.
        + eapply (rs_good' D G R HD); eassumption.
        + destruct h; reflexivity.
      - cbn. destruct h; cbn; rewrite HDc; cbn; eexists; reflexivity.
      - cbn. rewrite HDc. reflexivity. }
    destruct m as [|c m].
    + subst total. unfold read_record. apply Hmem; [exact HG|lia].
    + destruct HI as [-> ->]. unfold read_record.
      replace (cr_bytes_left _ + 3) with (S (length m + 3)) by (cbn; lia).
      cbn [read_record_core sr_chunk sr_cr]. rewrite (rs_empty D G R HD). cbn [bind cr_read].
      apply Hmem; [exact HG|lia].
Qed.


(* ---------------- lines with CR LF ---------------- *)

(* The LF of a CR LF may be left over. *)
Definition lf_left (total rest rest' : list byte) : Prop :=
  rest' = rest \/ exists a, total = a ++ CR :: LF :: rest /\ rest' = LF :: rest.

Lemma lf_left_longer pre total rest rest' : lf_left total rest rest' -> lf_left (pre ++ total) rest rest'.
Proof.
  intros [->|(a & -> & ->)]; [left; reflexivity|right]. exists (pre ++ a). split; [now rewrite <- app_assoc|reflexivity].
Qed.

Section Crlf.
  Variable p : csv_rparams.
  Hypothesis Hmax : cp_max_line_length p = None.
  Hypothesis Hq : cp_allow_quoted_new_lines p = false.
  Hypothesis Hcm : cp_comment p = None.
  Hypothesis Hsk : cp_skip_blank_lines p = false.

  Lemma plain_text_eq xs b : csv_text p xs b =
    match xs with
    | [] => Ok (None, xs, None)
    | _ => let* r := read_line xs b None in
           Ok (option_map (fun pl => mk_rec pl kComplete) (fst r), snd r, None)
    end.
  Proof.
    rewrite csv_text_eq. destruct xs as [|c xs]; [reflexivity|]. unfold is_comment_line. rewrite Hcm. unfold row_line. rewrite Hq, Hmax, Hsk.
    destruct (read_line (c :: xs) b None) as [[[pl|] r]|e| |]; reflexivity.
  Qed.

  Lemma plain_text_none xs rest h : csv_text p xs true = Ok (None, rest, h) -> rest = xs.
  Proof.
    rewrite plain_text_eq. destruct xs as [|c xs]; [congruence|].
    destruct (read_line (c :: xs) true None) as [[[pl|] r]|e| |] eqn:E; cbn [bind fst snd option_map]; try discriminate.
    intro H. injection H as <- _. eapply read_line_none, E.
  Qed.

  Lemma plain_rel_stable : rel_stable (csv_decode p) (bom_ok (fun _ => True)) lf_left.
  Proof.
    pose proof (csv_stable1 p) as HS. constructor.
    - apply (st_empty _ _ _ HS).
    - intros t r. left. reflexivity.
    - intros xs s r rest h HG H. rewrite csv_decode_true in H.
      destruct (Nat.ltb_spec (length xs) 3) as [|Hl]; [discriminate|].
      rewrite csv_decode_false, strip_bom_app by exact Hl.
      destruct (strip_bom_suffix xs) as [pre Hpre].
      rewrite plain_text_eq in H. destruct (strip_bom xs) as [|c ys]; [discriminate|].
      destruct (read_line (c :: ys) true None) as [[[pl|] q]|e| |] eqn:HR; cbn [bind fst snd option_map] in H; try discriminate.
      injection H as <- <- <-.
      assert (Hgo : forall q', read_line ((c :: ys) ++ s) false None = Ok (Some pl, q') ->
        strip_hint (csv_text p ((c :: ys) ++ s) false) = Ok (Some (mk_rec pl kComplete), q')).
      { intros q' E. rewrite plain_text_eq. cbn [app] in *. rewrite E. reflexivity. }
      destruct (read_line_app_some _ s None pl q HR) as [E|([a Ea] & -> & q' & -> & E)].
      + rewrite (Hgo _ E). cbn. split; [reflexivity|left; reflexivity].
      + rewrite (Hgo _ (E eq_refl)). cbn [rel_out]. split; [reflexivity|]. right. exists (pre ++ a). split; [|reflexivity].
        rewrite Hpre, Ea, <- !app_assoc. reflexivity.
    - intros xs s rest h HG H o. rewrite csv_decode_true in H.
      destruct (Nat.ltb_spec (length xs) 3) as [|Hl]; [injection H as <- <-; auto|].
      apply plain_text_none in H. subst rest.
      destruct (bom_ok_tail (fun _ => True) ltac:(auto) xs s (strip_bom xs) Hl HG (suffix_refl _)) as [_ E].
      rewrite !csv_decode_false, E, strip_bom_app by exact Hl.
      destruct (strip_bom_suffix xs) as [pre Hpre]. 
      assert (Epre : xs ++ s = pre ++ strip_bom xs ++ s) by (rewrite Hpre at 1; now rewrite <- app_assoc). rewrite Epre.
      destruct (strip_hint (csv_text p (strip_bom xs ++ s) false)) as [[[y|] q]|e'| |]; destruct o as [[[z|] w]|e''| |]; cbn; try tauto.
      intros [-> H]. split; [reflexivity|]. apply lf_left_longer, H.
    - intros xs s e HG H. rewrite csv_decode_true in H.
      destruct (Nat.ltb_spec (length xs) 3) as [|Hl]; [discriminate|].
      rewrite plain_text_eq in H. destruct (strip_bom xs) as [|c ys]; [discriminate|].
      destruct (read_line (c :: ys) true None) as [[[pl|] q]|e'| |] eqn:HR; cbn [bind fst snd option_map] in H; try discriminate.
      exfalso. unfold read_line in HR. destruct (lscan (c :: ys) 0) as [[k hc] a]. destruct a; discriminate.
    - apply (st_safe _ _ _ HS).
    - apply (st_rest _ _ _ HS).
    - intros xs s r rest h HG H. rewrite csv_decode_true in H. destruct (Nat.ltb_spec (length xs) 3) as [|Hl].
      + injection H as <- <- <-. exact HG.
      + destruct (csv_text_rest _ _ _ _ _ _ _ (le_n _) H) as [Hsuf _].
        apply (bom_ok_tail (fun _ => True) ltac:(auto) _ _ _ Hl HG Hsuf).
    - intros xs r rest h [HG1 HG2] H. rewrite csv_decode_false in H.
      destruct (csv_text_rest _ _ _ _ _ _ _ (le_n _) H) as [Hsuf _].
      pose proof (no_bom_suffix _ _ Hsuf HG2) as Hnb.
      split; [exact I|]; rewrite strip_bom_none by exact Hnb; exact Hnb.
  Qed.

  Lemma plain_cc : cp_comment p <> Some LF /\ cp_comment p <> Some CR.
  Proof. rewrite Hcm. split; discriminate. Qed.

  Lemma plain_keep t : keep p t = true.
  Proof. unfold keep, is_comment_line. rewrite Hcm, Hsk. reflexivity. Qed.

  Lemma crlf_lines last : no_eol last -> forall fuel ls r,
    Forall (fun l => no_eol (fst l)) ls -> eols_ok ls last ->
    (forall total, length total < fuel -> strip_bom total = render_lines ls last -> Inv (bom_ok (fun _ => True)) r total ->
     exists out, crlf_split ls out /\
       read_all (csv_decode p) fuel r = (map (fun l => mk_rec l kComplete) (out ++ match last with [] => [] | _ => [last] end), Ok tt)).
  Proof.
    intro HL. induction fuel as [fuel IH] using lt_wf_ind. intros ls r HF He total Hf Et HI.
    destruct fuel as [|fuel]; [lia|]. cbn [read_all].
    pose proof (rel_read_record_ok _ _ _ plain_rel_stable _ _ HI) as HS.
    assert (Hnb : forall rest, Inv (bom_ok (fun _ : list byte => True)) r rest -> no_bom (strip_bom rest)) by (intros ? [[_ ?] _]; assumption).
    destruct ls as [|[t e] ls].
    - exists []. split; [constructor|]. cbn [app].
      assert (ED : strip_hint (csv_decode p total false) = Ok (match last with [] => None | _ => Some (mk_rec last kComplete) end, [])).
      { rewrite csv_decode_false, Et. unfold render_lines. cbn [flat_map app]. destruct last as [|c last]; [reflexivity|].
        rewrite (csv_text_last p Hmax (plain_dq p Hq)) by (try discriminate; apply (plain_item p Hq), HL). rewrite plain_keep. reflexivity. }
      unfold rel_step in HS. rewrite ED in HS. destruct last as [|c last].
      + destruct (read_record (csv_decode p) r) as [[[x|] r']|e| |]; try contradiction; try discriminate; [|reflexivity].
        destruct HS as (rest & _ & _ & HS). destruct HS.
      + destruct (read_record (csv_decode p) r) as [[[x|] r']|e| |]; try contradiction; try discriminate;
          [|destruct HS; discriminate].
        destruct HS as (rest & HI' & Hlt & <- & HR).
        assert (rest = []) as ->.
        { destruct HR as [HR|(a & Ea & _)]; [exact HR|exfalso]. destruct HL as [HL _]. apply HL.
          assert (Hin : In LF total) by (rewrite Ea; apply in_or_app; right; cbn; auto).
          assert (Hor : In LF utf8_bom \/ In LF (strip_bom total)).
          { destruct (strip_bom_cases total) as [E|E]; [apply in_app_or; rewrite E in Hin; exact Hin|right; rewrite E; exact Hin]. }
          rewrite Et in Hor. destruct Hor as [[?|[?|[?|[]]]]|Hor]; try discriminate. exact Hor. }
        destruct fuel as [|fuel]; [cbn in *; lia|]. cbn [read_all].
        pose proof (rel_read_record_ok _ _ _ plain_rel_stable _ _ HI') as HS2. unfold rel_step in HS2. cbn in HS2.
        destruct (read_record (csv_decode p) r') as [[[y|] r'']|e| |]; try contradiction; try discriminate; [|reflexivity].
        destruct HS2 as (rest & _ & Hl2 & _). cbn in Hl2. lia.
    - inversion HF as [|? ? Hi HF']; subst. cbn [fst] in Hi. destruct He as [He1 He2].
      assert (ED : strip_hint (csv_decode p total false) = Ok (Some (mk_rec t kComplete), render_lines ls last)).
      { rewrite csv_decode_false, Et. unfold render_lines at 1. cbn [flat_map fst snd]. rewrite <- !app_assoc.
        fold (render_lines ls last).
        rewrite (csv_text_item p Hmax (plain_dq p Hq) plain_cc) by (try (apply (plain_item p Hq), Hi); exact He1).
        rewrite plain_keep. reflexivity. }
      unfold rel_step in HS. rewrite ED in HS.
      destruct (read_record (csv_decode p) r) as [[[x|] r']|e'| |]; try contradiction; try discriminate; [|destruct HS; discriminate].
      destruct HS as (rest & HI' & Hlt & <- & HR).
      assert (Hnb2 : no_bom (render_lines ls last)).
      { eapply no_bom_suffix; [|exact (Hnb _ HI)]. rewrite Et. unfold render_lines. cbn [flat_map fst snd]. rewrite <- !app_assoc.
        exists (t ++ eol_bytes e). rewrite <- !app_assoc. reflexivity. }
      destruct HR as [->|(a & Ea & ->)].
      + destruct (IH fuel ltac:(lia) ls r' HF' He2 (render_lines ls last) ltac:(lia) (strip_bom_none _ Hnb2) HI') as (out & Hc & Ho).
        exists (t :: out). split; [now constructor|]. rewrite Ho. reflexivity.
      + assert (e = eol_crlf) as ->.
        { assert (Hs : exists b, t ++ eol_bytes e = b ++ [CR; LF]).
          { assert (Hr : strip_bom total = (t ++ eol_bytes e) ++ render_lines ls last).
            { rewrite Et. unfold render_lines. cbn [flat_map fst snd]. now rewrite <- !app_assoc. }
            destruct (strip_bom_cases total) as [E|E].
            - rewrite E, Hr in Ea. replace (a ++ CR :: LF :: render_lines ls last) with ((a ++ [CR; LF]) ++ render_lines ls last) in Ea by (rewrite <- app_assoc; reflexivity).
              rewrite app_assoc in Ea. apply app_inv_tail in Ea.
              destruct a as [|a1 [|a2 [|a3 a]]]; try discriminate.
              injection Ea as _ _ _ Ea. exists a. exact Ea.
            - rewrite E in Hr. rewrite Hr in Ea.
              replace (a ++ CR :: LF :: render_lines ls last) with ((a ++ [CR; LF]) ++ render_lines ls last) in Ea by (rewrite <- app_assoc; reflexivity).
              apply app_inv_tail in Ea. exists a. exact Ea. }
          destruct Hs as [b Hb]. destruct e; cbn [eol_bytes] in Hb; [| |reflexivity].
          - change (b ++ [CR; LF]) with (b ++ [CR] ++ [LF]) in Hb. rewrite app_assoc in Hb. apply app_inj_tail in Hb as [-> _].
            exfalso. apply Hi. apply in_or_app. right. left. reflexivity.
          - change (b ++ [CR; LF]) with (b ++ [CR] ++ [LF]) in Hb. rewrite app_assoc in Hb. apply app_inj_tail in Hb as [_ Hb]. discriminate. }
        destruct fuel as [|fuel]; [cbn in *; lia|]. cbn [read_all].
        pose proof (rel_read_record_ok _ _ _ plain_rel_stable _ _ HI') as HS2. unfold rel_step in HS2.
        assert (ED2 : strip_hint (csv_decode p (LF :: render_lines ls last) false) = Ok (Some (mk_rec [] kComplete), render_lines ls last)).
        { rewrite csv_decode_false. replace (strip_bom (LF :: render_lines ls last)) with (LF :: render_lines ls last).
          2: { cbn [strip_bom]. destruct (render_lines ls last) as [|? [|? ?]]; reflexivity. }
          rewrite plain_text_eq. reflexivity. }
        rewrite ED2 in HS2.
        destruct (read_record (csv_decode p) r') as [[[y|] r'']|e'| |]; try contradiction; try discriminate; [|destruct HS2; discriminate].
        destruct HS2 as (rest2 & HI2 & Hlt2 & <- & HR2).
        assert (rest2 = render_lines ls last) as ->.
        { destruct HR2 as [HR2|(a2 & Ea2 & _)]; [exact HR2|exfalso]. apply (f_equal (@length byte)) in Ea2. rewrite app_length in Ea2. cbn in Ea2. lia. }
        destruct (IH fuel ltac:(lia) ls r'' HF' He2 (render_lines ls last) ltac:(cbn in *; lia) (strip_bom_none _ Hnb2) HI2) as (out & Hc & Ho).
        exists (t :: [] :: out). split; [now constructor|]. rewrite Ho. reflexivity.
  Qed.

  Lemma crlf_records mark ls last zc sched size : (0 < size)%N -> mark = [] \/ mark = utf8_bom ->
    ~ contains utf8_bom (render_lines ls last) ->
    no_eol last -> Forall (fun l => no_eol (fst l)) ls -> eols_ok ls last ->
    exists out, crlf_split ls out /\
      records (csv_decode p) zc sched size (mark ++ render_lines ls last)
      = (map (fun l => mk_rec l kComplete) (out ++ match last with [] => [] | _ => [last] end), Ok tt).
  Proof.
    intros Hs Hm Hb HL HF He.
    assert (Hn : no_bom (render_lines ls last)) by (intros a b E; apply Hb; exists a, b; exact E).
    assert (Et : strip_bom (mark ++ render_lines ls last) = render_lines ls last).
    { destruct Hm as [-> | ->]; [apply strip_bom_none, Hn|reflexivity]. }
    unfold records. eapply (crlf_lines last HL _ ls _ HF He (mark ++ render_lines ls last)); [lia|exact Et|].
    apply Inv_init; [exact Hs|]. split; [exact I|]. rewrite Et. exact Hn.
  Qed.
End Crlf.

Lemma C06_text_split : forall mark ls last zc sched size, (0 < size)%N ->
  mark = [] \/ mark = utf8_bom -> ~ contains utf8_bom (render_lines ls last) ->
  Forall (fun l => no_eol (fst l)) ls -> no_eol last -> eols_ok ls last ->
  exists out, crlf_split ls out /\
    records (text_line_decode false) zc sched size (mark ++ render_lines ls last)
    = (map (fun l => mk_rec l kComplete) (out ++ match last with [] => [] | _ => [last] end), Ok tt).
Proof.
  intros mark ls last zc sched size Hs Hm Hb HF HL He. rewrite text_records_csv.
  apply crlf_records; auto.
Qed.

Lemma C06_csv_split : forall d q mark ls last zc sched size, (0 < size)%N ->
  mark = [] \/ mark = utf8_bom -> ~ contains utf8_bom (render_lines ls last) ->
  Forall (fun l => no_eol (fst l)) ls -> no_eol last -> eols_ok ls last ->
  exists out, crlf_split ls out /\
    records (csv_decode (mk_csv_rparams d q None false false None)) zc sched size (mark ++ render_lines ls last)
    = (map (fun l => mk_rec l kComplete) (out ++ match last with [] => [] | _ => [last] end), Ok tt).
Proof. intros. apply crlf_records; auto. Qed.
