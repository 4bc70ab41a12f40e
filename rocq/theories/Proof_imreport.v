(* Proofs about what the image reader says. *)
From Verif Require Import Common Model_csv Model_image Spec_image Proof_image Model_report Model_pbreport Model_imreport Spec_imreport.
From Coq Require Import Lia Bool.
From Coq Require String DecimalString.
Import String.StringSyntax.
Local Open Scope string_scope.
Local Open Scope list_scope.
Local Open Scope Z_scope.

Lemma dec_is n : dec n = numeral n. Proof. reflexivity. Qed.
Lemma signed_is z : 0 <= z -> signed z = numeral z.
Proof. intro H. unfold signed. replace (z <? 0) with false by lia. reflexivity. Qed.

Ltac text := unfold format, sentence, channels_sentence, skipped_sentence, padded_sentence; rewrite ?dec_is; cbn -[numeral signed Z.of_nat];
  repeat first [rewrite <- app_assoc | progress (cbn [app])]; rewrite ?app_nil_r; reflexivity.

Lemma decode_threw_is h w i why : decode_threw i why = sentence h w i (Undecodable (Some why)).
Proof. unfold decode_threw. text. Qed.
Lemma decode_failed_is h w i : decode_failed i = sentence h w i (Undecodable None).
Proof. unfold decode_failed. text. Qed.
Lemma rgb_threw_is h w i why : rgb_threw i why = sentence h w i (Unconvertible why).
Proof. unfold rgb_threw. text. Qed.
Lemma smaller_is h w i rows cols : 0 <= rows -> 0 <= cols -> smaller i rows cols (Z.of_N h) (Z.of_N w) = sentence h w i (Small rows cols).
Proof. intros R C. unfold smaller. rewrite !signed_is by lia. text. Qed.
Lemma wrong_channels_is i n : wrong_channels i n = channels_sentence i n.
Proof. unfold wrong_channels. text. Qed.
Lemma skipped_is b : skipped_says b = skipped_sentence b.
Proof. unfold skipped_says. text. Qed.
Lemma padded_is b n : padded_says b n = padded_sentence b n.
Proof. unfold padded_says. text. Qed.

Lemma andthen_ok {A B} (a : A) (k : A -> said B) : andthen (silent (Ok a)) k = k a.
Proof. unfold andthen, silent. destruct (k a) as ((ws & r) & e). reflexivity. Qed.
Definition verdict {A} (x : said A) : res A := snd (fst x).
Lemma andthen_verdict {A B} (x : said A) (k : A -> said B) : verdict (andthen x k) = bind (verdict x) (fun a => verdict (k a)).
Proof. destruct x as ((ws & [a| | |]) & e); cbn; auto. destruct (k a) as ((ws' & r') & e'). reflexivity. Qed.
Lemma bind_ext {A B} (m : res A) (f g : A -> res B) : (forall a, f a = g a) -> bind m f = bind m g.
Proof. intro H. destruct m; cbn; auto. Qed.

Section Verdict.
  Context (imdecode : mode -> list byte -> mat + str) (cv_resize : mat -> Z -> Z -> mat + str) (cvt_what roi_what : mat -> str) (p : params).
  Notation imdecode' := (fun m buf => forget (imdecode m buf)).
  Notation cv_resize' := (fun img w h => forget (cv_resize img w h)).

  Lemma core_returns dims i : verdict (core_says imdecode cv_resize cvt_what roi_what p dims i) = decode_core imdecode' cv_resize' p dims (i_bits i).
  Proof.
    destruct dims as ((c & h) & w). unfold core_says, decode_core. rewrite andthen_verdict.
    replace (verdict _) with (payload p (i_bits i)) by (destruct (payload p (i_bits i)); reflexivity). apply bind_ext. intro buf.
    rewrite andthen_verdict. replace (verdict _) with (channel_mode c) by (destruct (channel_mode c); reflexivity). apply bind_ext. intros (m & ch).
    rewrite andthen_verdict. replace (verdict _) with (decode_image imdecode' p m buf).
    2:{ unfold decode_image, decode_image_says, reject. destruct (imdecode m buf) as [img|]; cbn [forget]; [|reflexivity].
        destruct (mat_empty img); [reflexivity|]. destruct m; try reflexivity. destruct (Nat.eqb _ 4); reflexivity. }
    apply bind_ext. intros [img|]; [|reflexivity]. rewrite andthen_verdict.
    replace (verdict _) with (match p_resize p with Some n => resize cv_resize' p img n | None => Ok (Some img) end).
    2:{ destruct (p_resize p) as [n|]; [|reflexivity]. unfold resize, resize_says. rewrite andthen_verdict. cbn [verdict silent fst snd].
        apply bind_ext. intros (w' & h'). destruct (cv_resize img w' h'); reflexivity. }
    apply bind_ext. intros [img1|]; [|reflexivity]. rewrite andthen_verdict.
    replace (verdict _) with (to_rgb p img1).
    2:{ unfold to_rgb, rgb_says. destruct (_ && _); [|reflexivity]. destruct (cvt_bgr2rgb img1); reflexivity. }
    apply bind_ext. intros [img2|]; [|reflexivity]. unfold crop, crop_says. cbn [d_rows d_cols]. destruct (_ || _); [reflexivity|].
    rewrite andthen_verdict. cbn [verdict silent fst snd]. apply bind_ext. intro dy. rewrite andthen_verdict. cbn [verdict silent fst snd].
    apply bind_ext. intro dx. destruct (mat_roi _ _ _ _ _); reflexivity.
  Qed.

  Lemma loop_returns batch dims stride is : forall n data,
    verdict (loop_says imdecode cv_resize cvt_what roi_what p batch dims stride is n data) = decode_loop imdecode' cv_resize' p dims stride (map i_bits is) n data.
  Proof.
    induction is as [|i is IH]; intros n data; [reflexivity|]. cbn [loop_says decode_loop map]. rewrite andthen_verdict, core_returns.
    apply bind_ext. intros [o|].
    - rewrite andthen_verdict. cbn [verdict silent fst snd]. apply bind_ext. intro d. apply IH.
    - destruct (p_bad p); auto.
  Qed.

  Lemma decode_returns batch is size :
    verdict (decode_says imdecode cv_resize cvt_what roi_what p batch is size) = decode imdecode' cv_resize' p (map i_bits is) size.
  Proof.
    unfold decode_says, decode. rewrite andthen_verdict.
    replace (verdict _) with (make_reader p) by (destruct (make_reader p); reflexivity). apply bind_ext. intro dims.
    rewrite andthen_verdict, loop_returns. apply bind_ext. intros [(n & data)|]; reflexivity.
  Qed.
End Verdict.

Section Texts.
  Context (imdecode : mode -> list byte -> mat + str) (cv_resize : mat -> Z -> Z -> mat + str) (cvt_what roi_what : mat -> str) (p : params).
  Context (c h w : N).
  Notation imdecode' := (fun m buf => forget (imdecode m buf)).
  Notation cv_resize' := (fun img w h => forget (cv_resize img w h)).
  Hypothesis Dec : decoder_ok imdecode'.
  Hypothesis Res : resizer_ok cv_resize'.
  Hypothesis Args : arguments_ok p c h w.
  Notation dims := (Z.of_N c, Z.of_N h, Z.of_N w).
  Notation core := (core_says imdecode cv_resize cvt_what roi_what p dims).
  Notation tells := (tells imdecode cv_resize cvt_what p c h w).
  Notation prepared := (prepared imdecode cv_resize p c).
  Notation convertible := (convertible p c).
  Notation sentence := (sentence h w).
  Notation stride := (N.to_nat (h * w * c)).

  Lemma chan : c = 1%N \/ c = 3%N \/ c = 4%N.
  Proof. destruct Args as (_ & _ & _ & C & _). tauto. Qed.

  Lemma cvt_wf m m' : well_formed m -> cvt_bgr2rgb m = Some m' -> well_formed m' /\ m_rows m' = m_rows m /\ m_cols m' = m_cols m.
  Proof.
    intros (R & C & L & F) E. unfold cvt_bgr2rgb in E.
    assert (K : (m_channels m = 3 \/ m_channels m = 4)%nat /\ m' = mk_mat (m_depth m) 3 (m_rows m) (m_cols m) (map (map swap_blue) (m_pixels m))).
    { destruct (m_depth m); try discriminate; destruct (Nat.eqb (m_channels m) 3 || Nat.eqb (m_channels m) 4) eqn:B; try discriminate;
      (split; [apply orb_true_iff in B; rewrite !Nat.eqb_eq in B; auto|congruence]). }
    destruct K as (K & ->). unfold well_formed. cbn [m_rows m_cols m_pixels m_channels]. repeat split; auto; try lia.
    - rewrite map_length. auto.
    - apply Forall_map. eapply Forall_impl; [|exact F]. cbn. intros row (Lr & Fr). rewrite map_length. split; auto.
      apply Forall_map. eapply Forall_impl; [|exact Fr]. cbn. intros px Lp. destruct px as [|? [|? [|? ?]]]; cbn in *; lia.
  Qed.

  Lemma rgb_fine i img : well_formed img -> m_channels img = N.to_nat c -> convertible img ->
    exists img', rgb_says cvt_what p i img = silent (Ok (Some img')) /\ well_formed img' /\ m_rows img' = m_rows img /\ m_cols img' = m_cols img.
  Proof.
    intros Wf Ch Co. unfold rgb_says. destruct (p_rgb p && negb (Nat.eqb (m_channels img) 1)) eqn:B; [|exists img; auto].
    apply andb_true_iff in B. destruct B as (Rg & N1). apply negb_true_iff, Nat.eqb_neq in N1.
    assert (exists img', cvt_bgr2rgb img = Some img') as (img' & E).
    { destruct Co as [Co|[Co|Co]]; [congruence|rewrite Co in Ch; cbn in Ch; lia|].
      unfold cvt_bgr2rgb. rewrite Ch. destruct chan as [ -> |[ -> | -> ]]; [rewrite Ch in N1; cbn in N1; lia| |];
      destruct (m_depth img); try congruence; eexists; reflexivity. }
    rewrite E. exists img'. split; auto. apply cvt_wf; auto.
  Qed.

  Lemma rgb_bad i img : m_channels img = N.to_nat c -> ~ convertible img ->
    rgb_says cvt_what p i img = refuse p (sentence i (Unconvertible (cvt_what img))) Invalid_instance.
  Proof.
    intros Ch Co. unfold rgb_says. unfold Spec_imreport.convertible in Co.
    assert (Rg : p_rgb p = true) by (destruct (p_rgb p); tauto).
    assert (D : m_depth img = D_other) by (destruct (m_depth img); auto; destruct Co; right; right; discriminate).
    replace (Nat.eqb (m_channels img) 1) with false by (symmetry; apply Nat.eqb_neq; rewrite Ch; destruct chan as [ -> |[ -> | -> ]]; cbn; try lia; tauto).
    rewrite Rg. cbn [andb negb]. unfold cvt_bgr2rgb. rewrite D. rewrite <- (rgb_threw_is h w). reflexivity.
  Qed.

  Lemma crop_fits i img : well_formed img -> Z.of_N h <= m_rows img -> Z.of_N w <= m_cols img ->
    exists o, crop_says roi_what p i img (mk_header D8 (N.to_nat c) (Z.of_N h) (Z.of_N w)) = silent (Ok (Some o)) /\
      match o with Some bs => length bs = stride | None => True end.
  Proof.
    intros Wf H W. pose proof Wf as (R & C & _). unfold crop_says. cbn [d_rows d_cols]. replace (_ || _) with false by lia.
    rewrite !int_ok by lia. rewrite !andthen_ok.
    pose proof (centred_half (m_rows img) (Z.of_N h) ltac:(lia)) as Cy. pose proof (centred_half (m_cols img) (Z.of_N w) ltac:(lia)) as Cx.
    unfold centred in Cy, Cx.
    destruct (roi_shows img (Z.quot (m_cols img - Z.of_N w) 2) (Z.quot (m_rows img - Z.of_N h) 2) (Z.of_N h) (Z.of_N w) Wf) as (m' & -> & Wf' & D' & C' & R' & K' & _); try lia.
    eexists. split; [reflexivity|]. unfold copy_to. destruct (mat_empty m'); auto. cbn [d_depth d_channels d_rows d_cols].
    destruct (_ && _) eqn:B; auto. rewrite !andb_true_iff in B. destruct B as (((_ & B) & _) & _). apply Nat.eqb_eq in B.
    destruct Wf' as (_ & _ & L' & F'). rewrite (samples_length (m_pixels m') (N.to_nat w) (N.to_nat c)).
    - assert (length (m_pixels m') = N.to_nat h) as -> by lia. lia.
    - eapply Forall_impl; [|exact F']. cbn. intros row (Lr & Fr). split; [lia|]. rewrite B in Fr. auto.
  Qed.

  Lemma crop_small i img : well_formed img -> m_rows img < Z.of_N h \/ m_cols img < Z.of_N w ->
    crop_says roi_what p i img (mk_header D8 (N.to_nat c) (Z.of_N h) (Z.of_N w)) = refuse p (sentence i (Small (m_rows img) (m_cols img))) Invalid_argument.
  Proof.
    intros (R & C & _) H. unfold crop_says. cbn [d_rows d_cols]. replace (_ || _) with true by lia. rewrite <- smaller_is by lia. reflexivity.
  Qed.

  Lemma core_decoded i img : decodes imdecode' p c (i_bits i) img -> m_channels img = N.to_nat c ->
    well_formed img /\ mat_empty img = false /\
    core i = andthen (match p_resize p with Some n => resize_says cv_resize p i img n | None => silent (Ok (Some img)) end) (fun o =>
      match o with
      | None => silent (Ok None)
      | Some img => andthen (rgb_says cvt_what p i img) (fun o =>
          match o with None => silent (Ok None) | Some img => crop_says roi_what p i img (mk_header D8 (N.to_nat c) (Z.of_N h) (Z.of_N w)) end)
      end).
  Proof.
    intros (m & buf & M & U & I & Em) Ch. split; [exact (proj1 (Dec m buf img I))|]. split; auto.
    apply (payload_ok imdecode' cv_resize' p c h w) in U. unfold core_says. rewrite U, andthen_ok.
    destruct (mode_ok imdecode' cv_resize' p c h w Args) as (m' & M' & -> & Mu). assert (m' = m) as -> by congruence. rewrite andthen_ok.
    unfold decode_image_says. cbn in I. destruct (imdecode m buf) as [x|] eqn:E; cbn in I; [|discriminate]. inversion I; subst x. rewrite Em.
    destruct m; rewrite ?andthen_ok; auto. replace (Nat.eqb (m_channels img) 4) with true by (rewrite Ch, (proj1 Mu eq_refl); reflexivity). rewrite andthen_ok. reflexivity.
  Qed.

  Lemma core_prepared i img1 : moderate imdecode' p c (i_bits i) -> prepared (i_bits i) img1 ->
    well_formed img1 /\ m_channels img1 = N.to_nat c /\
    core i = andthen (rgb_says cvt_what p i img1) (fun o =>
          match o with None => silent (Ok None) | Some img => crop_says roi_what p i img (mk_header D8 (N.to_nat c) (Z.of_N h) (Z.of_N w)) end).
  Proof.
    intros Mo (img & Dc & Ch & Rz). destruct (core_decoded i img Dc Ch) as (Wf & Em & ->).
    destruct (p_resize p) as [n|] eqn:Rn.
    - pose proof (Mo img n Dc Rn) as Ov. destruct (resizes_ok cv_resize' p c h w Args img n img1 Rn Wf Em Ov) as (w' & h' & Rs & Eq).
      apply Eq in Rz. destruct (Res _ _ _ _ Wf Rz) as (Wf1 & _ & Ch1 & _). split; auto. split; [congruence|].
      unfold resize_says. rewrite Rs, andthen_ok. cbn in Rz. destruct (cv_resize img w' h') as [x|]; cbn in Rz; inversion Rz; subst. rewrite andthen_ok. reflexivity.
    - unfold resizes in Rz. rewrite Rn in Rz. subst img1. rewrite andthen_ok. auto.
  Qed.

  Lemma refuse_stops {A B} m e (k : option A -> said (option B)) : k None = silent (Ok None) -> andthen (refuse p m e) k = refuse p m e.
  Proof. intro K. unfold andthen, refuse. destruct (p_error p); [reflexivity|]. rewrite K. unfold silent. rewrite app_nil_r. reflexivity. Qed.

  Lemma core_tells i q : moderate imdecode' p c (i_bits i) -> tells (i_bits i) q ->
    match q with
    | None => exists o, core i = silent (Ok (Some o)) /\ match o with Some bs => length bs = stride | None => True end
    | Some q => core i = refuse p (sentence i q) (kind q)
    end.
  Proof.
    intros Mo T. destruct T as [m buf why M U I|m buf img M U I Em|img Pr Co|img Pr Co Sm|img Pr Co H W].
    - apply (payload_ok imdecode' cv_resize' p c h w) in U. unfold core_says. rewrite U, andthen_ok. destruct (mode_ok imdecode' cv_resize' p c h w Args) as (m' & M' & -> & _). assert (m' = m) as -> by congruence.
      rewrite andthen_ok. unfold decode_image_says. rewrite I. rewrite refuse_stops by reflexivity. rewrite (decode_threw_is h w). reflexivity.
    - apply (payload_ok imdecode' cv_resize' p c h w) in U. unfold core_says. rewrite U, andthen_ok. destruct (mode_ok imdecode' cv_resize' p c h w Args) as (m' & M' & -> & _). assert (m' = m) as -> by congruence.
      rewrite andthen_ok. unfold decode_image_says. rewrite I, Em. rewrite refuse_stops by reflexivity. rewrite (decode_failed_is h w). reflexivity.
    - destruct (core_prepared i img Mo Pr) as (Wf & Ch & ->). rewrite rgb_bad by auto. rewrite refuse_stops by reflexivity. reflexivity.
    - destruct (core_prepared i img Mo Pr) as (Wf & Ch & ->). destruct (rgb_fine i img Wf Ch Co) as (img' & -> & Wf' & R' & C'). rewrite andthen_ok.
      rewrite crop_small by (auto; lia). rewrite R', C'. reflexivity.
    - destruct (core_prepared i img Mo Pr) as (Wf & Ch & ->). destruct (rgb_fine i img Wf Ch Co) as (img' & -> & Wf' & R' & C'). rewrite andthen_ok.
      apply crop_fits; auto; lia.
  Qed.

  (* An image with the wrong number of channels. *)
  Lemma core_channels i img : decodes imdecode' p c (i_bits i) img -> c = 4%N -> m_channels img <> 4%nat ->
    core i = fails (channels_sentence i (m_channels img)) Invalid_argument.
  Proof.
    intros (m & buf & M & U & I & Em) C4 N4. apply (payload_ok imdecode' cv_resize' p c h w) in U. unfold core_says. rewrite U, andthen_ok.
    destruct (mode_ok imdecode' cv_resize' p c h w Args) as (m' & M' & -> & Mu). assert (m' = m) as -> by congruence. rewrite andthen_ok.
    unfold decode_image_says. cbn in I. destruct (imdecode m buf) as [x|] eqn:E; cbn in I; [|discriminate]. inversion I; subst x. rewrite Em.
    rewrite (proj2 Mu C4). apply Nat.eqb_neq in N4. rewrite N4. rewrite wrong_channels_is. reflexivity.
  Qed.

  (* An image that cannot be resized. *)
  Lemma core_unresizable i img n w' h' why : decodes imdecode' p c (i_bits i) img -> m_channels img = N.to_nat c -> p_resize p = Some n ->
    scaled (m_rows img) (m_cols img) (Z.of_N n) w' h' -> cv_resize img w' h' = inr why -> moderate imdecode' p c (i_bits i) -> p_warn p || p_error p = true ->
    core i = silent (Throw Other_err).
  Proof.
    intros Dc Ch Rn Sc Cv Mo We. destruct (core_decoded i img Dc Ch) as (Wf & Em & ->). rewrite Rn. pose proof (Mo img n Dc Rn) as Ov.
    destruct (resizes_ok cv_resize' p c h w Args img n img Rn Wf Em Ov) as (w2 & h2 & Rs & _).
    assert (S2 : scaled (m_rows img) (m_cols img) (Z.of_N n) w2 h2).
    { destruct Args as (_ & _ & _ & _ & Rp). rewrite Rn in Rp. unfold mat_empty in Em. pose proof Wf as (R & C & _).
      destruct (resize_size_ok (m_rows img) (m_cols img) n ltac:(lia) ltac:(lia) Rp Ov) as (a & b & E & S). rewrite Rs in E. inversion E; subst. exact S. }
    destruct (scaled_unique _ _ _ _ _ _ _ Sc S2) as (-> & ->). unfold resize_says. rewrite Rs, andthen_ok, Cv, We. reflexivity.
  Qed.

  Lemma write_fits data at_ bs : (at_ + length bs <= length data)%nat -> exists d, write_at data at_ bs = Ok d /\ length d = length data.
  Proof.
    intro L. unfold write_at. replace (Nat.ltb _ _) with false by (symmetry; apply Nat.ltb_ge; lia). eexists. split; [reflexivity|].
    rewrite !app_length, firstn_length, skipn_length. lia.
  Qed.

  Notation loop batch := (loop_says imdecode cv_resize cvt_what roi_what p batch dims stride).
  Definition report (is : list item) (qs : list (option problem)) : list str := concat (map (fun iq => logged p h w (fst iq) (snd iq)) (combine is qs)).
  Notation told := (told imdecode cv_resize cvt_what p c h w).

  Definition keeps_on : bool := match p_bad p with B_pad | B_pad_warn => true | _ => false end.

  Lemma also_said {A B} ws (r : res A) e (x : said B) (k : A -> said B) a : r = Ok a -> k a = x -> andthen (ws, r, e) k = (ws ++ fst (fst x), snd (fst x), snd x).
  Proof. intros -> <-. cbn. destruct (k a) as ((? & ?) & ?). reflexivity. Qed.

  (* As long as images are good, or bad ones are left out, the loop goes on. *)
  Lemma loop_on batch is qs : told is qs -> Forall (fun q => q = None) qs \/ keeps_on = true ->
    forall rest n data, ((n + length is + length rest) * stride <= length data)%nat ->
    exists data', length data' = length data /\
      loop batch (is ++ rest) n data =
      (let '(ws, r, e) := loop batch rest (n + length (filter (fun q => negb (faulty q)) qs)) data' in (report is qs ++ ws, r, e)).
  Proof.
    intro T. unfold Spec_imreport.told in T. induction T as [|i q is qs (Mo & T) Ts IH]; intros M rest n data L.
    - exists data. split; auto. cbn [app filter length report combine map concat]. rewrite Nat.add_0_r. destruct (loop batch rest n data) as ((? & ?) & ?). reflexivity.
    - assert (M' : Forall (fun q => q = None) qs \/ keeps_on = true) by (destruct M as [M|M]; [left; inversion M; auto|auto]).
      cbn [app loop_says]. pose proof (core_tells i q Mo T) as C. cbn [length] in L. destruct q as [q|].
      + destruct M as [M|M]; [inversion M; discriminate|].
        assert (Pe : p_error p = false) by (unfold keeps_on, p_error in *; destruct (p_bad p); auto; discriminate).
        rewrite C. destruct (IH M' rest n data ltac:(nia)) as (data' & Ld & E). exists data'. split; auto.
        unfold refuse. rewrite Pe. rewrite (also_said _ _ _ (loop batch (is ++ rest) n data) _ None) ; [|reflexivity|].
        2:{ unfold keeps_on in M. destruct (p_bad p); try discriminate; reflexivity. }
        cbn [filter faulty negb]. rewrite E. destruct (loop batch rest _ data') as ((ws & r) & e). cbn [fst snd].
        unfold report. cbn [combine map concat fst snd logged]. rewrite <- app_assoc. reflexivity.
      + destruct C as (o & -> & Lo). rewrite andthen_ok.
        assert (exists d, (match o with Some bs => write_at data (n * stride) bs | None => Ok data end) = Ok d /\ length d = length data) as (d & -> & Ld).
        { destruct o as [bs|]; [|eauto]. apply write_fits. rewrite Lo. nia. }
        rewrite andthen_ok. destruct (IH M' rest (S n) d ltac:(nia)) as (data' & Ld' & ->). exists data'. split; [congruence|].
        cbn [filter faulty negb length]. replace (S n + length (filter (fun q => negb (faulty q)) qs))%nat with (n + S (length (filter (fun q => negb (faulty q)) qs)))%nat by lia.
        reflexivity.
  Qed.

  Lemma loop_pre batch pre rest n data : told pre (map (fun _ => None) pre) -> ((n + length pre) * stride <= length data)%nat ->
    exists data', loop batch (pre ++ rest) n data = loop batch rest (n + length pre) data'.
  Proof.
    intros T L. revert n data L.
    induction pre as [|i pre IH]; intros n data L; [exists data; rewrite Nat.add_0_r; reflexivity|]. cbn [map] in T. inversion T as [|? ? ? ? (Mo & Ti) T']; subst.
    destruct (core_tells i None Mo Ti) as (o & E & Lo). cbn [app loop_says]. rewrite E, andthen_ok. cbn [length] in L.
    assert (exists d, (match o with Some bs => write_at data (n * stride) bs | None => Ok data end) = Ok d /\ length d = length data) as (d & -> & Ld).
    { destruct o as [bs|]; [|eauto]. apply write_fits. rewrite Lo. nia. }
    rewrite andthen_ok. destruct (IH T' (S n) d ltac:(nia)) as (d' & E'). exists d'. rewrite E'. cbn [length]. f_equal. lia.
  Qed.

  Lemma tells_fun bits q1 q2 : tells bits q1 -> tells bits q2 -> q1 = q2.
  Proof.
    intros T1 T2.
    assert (Un : forall b1 b2, unframed (p_frame p) bits b1 -> unframed (p_frame p) bits b2 -> b1 = b2).
    { intros b1 b2 U1 U2. apply (payload_ok imdecode' cv_resize' p c h w) in U1. apply (payload_ok imdecode' cv_resize' p c h w) in U2. congruence. }
    assert (Pu : forall a b, prepared bits a -> prepared bits b -> a = b).
    { intros a b (x & (m & bu & M & U & I & Em) & Cx & Rx) (y & (m' & bu' & M' & U' & I' & Em') & Cy & Ry). assert (m' = m) by congruence. subst m'.
      rewrite (Un _ _ U' U) in I'. assert (y = x) by congruence. subst y. unfold resizes in Rx, Ry. destruct (p_resize p) as [n|]; [|congruence].
      destruct Rx as (w1 & h1 & S1 & E1), Ry as (w2 & h2 & S2 & E2). destruct (scaled_unique _ _ _ _ _ _ _ S1 S2) as (-> & ->). congruence. }
    assert (Pd : forall a m buf, prepared bits a -> mode_of c = Some m -> unframed (p_frame p) bits buf -> exists x, imdecode m buf = inl x /\ mat_empty x = false).
    { intros a m buf (x & (m' & bu' & M' & U' & I' & Em') & _) M U. assert (m' = m) by congruence. subst m'. rewrite (Un _ _ U' U) in I'.
      destruct (imdecode m buf) as [y|]; cbn in I'; inversion I'; subst. eauto. }
    destruct T1 as [m buf why M U I|m buf img M U I Em|img Pr Co|img Pr Co Sm|img Pr Co H W];
    destruct T2 as [m' buf' why' M' U' I'|m' buf' img' M' U' I' Em'|img' Pr' Co'|img' Pr' Co' Sm'|img' Pr' Co' H' W'];
    try (assert (m' = m) by congruence; subst m'; rewrite (Un _ _ U' U) in I'; congruence);
    try (destruct (Pd _ _ _ Pr' M U) as (x & Ex & Fx); congruence);
    try (destruct (Pd _ _ _ Pr M' U') as (x & Ex & Fx); congruence);
    try (rewrite (Pu _ _ Pr' Pr) in *; try contradiction; try lia; reflexivity).
  Qed.

  Lemma tells_exists bits : (exists buf, unframed (p_frame p) bits buf) -> (forall img, decodes imdecode' p c bits img -> m_channels img = N.to_nat c) ->
    (forall img, decodes imdecode' p c bits img -> exists img1, resizes cv_resize' p img img1) -> exists q, tells bits q.
  Proof.
    intros (buf & U) Ch Rz. destruct (mode_ok imdecode' cv_resize' p c h w Args) as (m & M & _). destruct (imdecode m buf) as [img|why] eqn:I.
    2:{ eexists. eapply T_exception; eauto. }
    destruct (mat_empty img) eqn:Em; [eexists; eapply T_empty; eauto|].
    assert (D : decodes imdecode' p c bits img). { exists m, buf. repeat split; auto. cbn. rewrite I. reflexivity. }
    destruct (Rz img D) as (img1 & R1). assert (Pr : prepared bits img1) by (exists img; auto).
    assert (Co : convertible img1 \/ ~ convertible img1).
    { unfold Spec_imreport.convertible. destruct (p_rgb p); [|auto]. destruct (N.eq_dec c 1) as [->|]; [auto|]. destruct (m_depth img1); try (left; right; right; discriminate). right. intros [|[|]]; congruence. }
    destruct Co as [Co|Co]; [|eexists; eapply T_unconvertible; eauto].
    destruct (Z_lt_ge_dec (m_rows img1) (Z.of_N h)); [eexists; eapply T_small; eauto|].
    destruct (Z_lt_ge_dec (m_cols img1) (Z.of_N w)); [eexists; eapply T_small; eauto|].
    eexists. eapply T_fine; eauto; lia.
  Qed.
End Texts.
