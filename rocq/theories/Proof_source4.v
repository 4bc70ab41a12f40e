(* The records of a data store. *)
From Verif Require Import Common Model_rec Spec_rec Proof_rec Proof_rec_text Proof_rec_bin Proof_rec_more Proof_rec_props Model_gzip Spec_gzip Proof_gzip Model_utf8 Spec_utf8 Proof_utf8 Model_names
  Model_source Spec_source Proof_source Proof_source2 Proof_source3.

Lemma stable_tame D G norm : stable D G norm -> tame D /\ fuelless D.
Proof. intros S. split; [exact (st_rest _ _ _ S)|]. intros c b. apply (st_safe _ _ _ S). Qed.

Definition no_hint (D : decoder) : Prop := forall c b r rest v, D c b <> Ok (r, rest, Some v).
Lemma csv_no_hint p : no_hint (csv_decode p).
Proof.
  intros c b r rest v. unfold csv_decode, text_decode_record. destruct c as [|a c]; [discriminate|]. destruct (skip_utf8_bom (a :: c) b) as [ys|]; [|discriminate].
  unfold csv_decode_text. generalize (length ys + 1). intros n. revert ys. induction n as [|n IH]; intros ys; [discriminate|]. rewrite csv_loop_eq.
  destruct ys as [|d ys]; [discriminate|]. destruct (is_comment_line p (d :: ys)).
  - destruct (read_line (d :: ys) b None) as [[[pl|] ys']|e| |]; cbn [bind]; try discriminate. apply IH.
  - destruct (row_line p (d :: ys) b) as [[[pl|] ys']|e| |]; cbn [bind]; try discriminate. destruct (_ || _)%bool; [discriminate|apply IH].
Qed.
Lemma rio_hints : hints_within (2 ^ 30) recordio_decode.
Proof.
  intros c b r rest v. unfold recordio_decode. destruct c as [|a c]; [discriminate|]. destruct (decode_recordio_header (a :: c)) as [[d|]|e| |]; cbn [bind]; try discriminate.
  - destruct (_ <? _)%N; [|discriminate]. destruct b; [|discriminate]. intros E. assert (Ev : v = (header_size + align (header_payload_size d) 4)%N) by congruence. rewrite Ev. clear E Ev. rewrite header_size_mod, align_spec. unfold header_size.
    pose proof (N.mod_lt d (2 ^ 29) ltac:(discriminate)). change (2 ^ 29)%N with 536870912%N in *. change (2 ^ 30)%N with 1073741824%N. set (x := (d mod 536870912)%N) in *. pose proof (N.div_mod (x + 3) 4). lia.
  - destruct b; discriminate.
Qed.

(* Data with records that do not depend on how it is read. *)
Definition steady (D : decoder) (data : list byte) : Prop :=
  (forall zc sched size, (0 < size)%N -> records D zc sched size data = whole D data) /\ snd (whole D data) <> UB /\ snd (whole D data) <> Fuel.
Lemma stable_steady D G norm data : stable D G norm -> G data -> steady D data.
Proof.
  intros S g. split; [|apply (records_safe _ _ _ S); [lia|exact g]]. intros. apply (records_independent _ _ _ S); auto; lia.
Qed.
Lemma rio_steady data : steady recordio_decode data.
Proof. apply (stable_steady _ _ _ _ recordio_stable). exact I. Qed.

Lemma text_ext D D' zc sched size data : (forall xs b, D xs b = D' xs b) -> records D zc sched size data = records D' zc sched size data.
Proof. intros E. unfold records. apply read_all_ext. exact E. Qed.

Lemma csv_steady p text : one_bom text -> cp_allow_quoted_new_lines p = true /\ cp_comment p = None \/ skips_blank p \/ ~ contains [CR; LF] text -> steady (csv_decode p) text.
Proof.
  intros [B1 B2] [K|[(K1 & K2 & K3)|K]].
  - apply (stable_steady _ _ _ _ (csv_stable1 p)). apply bom_hyp; auto.
    + intros a b Ha HG Hp. eapply no_crlf_suffix; [exact Ha|exact (HG Hp)].
    + intros Hp. destruct K as [K1 K2]. destruct Hp; congruence.
  - apply (stable_steady _ _ _ _ (csv_stable2 p ltac:(split; auto))). apply bom_hyp; auto.
  - apply (stable_steady _ _ _ _ (csv_stable1 p)). apply bom_hyp; auto.
    + intros a b Ha HG Hp. eapply no_crlf_suffix; [exact Ha|exact (HG Hp)].
    + intros _ a b E. apply K. exists a, b. exact E.
Qed.
Lemma format_ok D text : text_format D text -> steady D text /\ tame D /\ fuelless D /\ no_hint D.
Proof.
  intros [sb t B K|p t B K].
  - assert (E : forall xs b, text_line_decode sb xs b = csv_decode (text_params sb) xs b) by (intros; apply text_line_csv).
    destruct (stable_tame _ _ _ (csv_stable1 (text_params sb))) as [T F]. split; [|split; [|split]].
    + destruct (csv_steady (text_params sb) t B) as (S1 & S2 & S3); [right; destruct K as [->|K]; [left; repeat split; discriminate|auto]|].
      unfold steady, whole. rewrite (text_ext _ _ _ _ _ _ E). split; [|auto]. intros. rewrite (text_ext _ _ _ _ _ _ E). auto.
    + intros c b r rest h. rewrite E. apply T.
    + intros c b. rewrite E. apply F.
    + intros c b r rest h. rewrite E. apply csv_no_hint.
  - destruct (stable_tame _ _ _ (csv_stable1 p)) as [T F]. split; [apply csv_steady; auto|]. repeat split; auto; try apply T; auto. 1-2: eapply T; eauto. apply csv_no_hint.
Qed.

(* The records read from a stream. *)
Lemma delivered_l Src rd lim f s data D H size fuel :
  feeds Src rd lim s data f -> tame D -> hints_within H D -> fuelless D -> steady D data ->
  (0 < size)%N -> (size < lim)%N -> (2 * H < lim)%N -> (2 * N.of_nat (length data) < lim)%N -> length data + 3 <= fuel ->
  delivered f (srecords Src rd D fuel size s) (whole D data).
Proof.
  intros F T HH HF (S & SU & SF) S0 S1 S2 S3 FU.
  destruct (source_records Src rd lim f s data D H size fuel F T HH HF S0 S1 S2 S3 FU) as (sched & xs & ys & e & e' & E & E2 & Q).
  rewrite S in E2 by exact S0. rewrite E. rewrite E2 in *. cbn [snd] in *. destruct f as [|P]; cbn [delivered].
  - destruct Q as [(-> & -> & _)|(P & x & X & _)]; [now rewrite app_nil_r|discriminate].
  - destruct Q as [(-> & <- & X)|(P' & x & X & Hx & ->)].
    + destruct e as [[]|x| |]; try congruence; [discriminate (X eq_refl)|]. exists xs, [], x, (Throw x). auto.
    + injection X as <-. exists xs, ys, x, e'. auto.
Qed.

Section Stores.
  Variable Z : Type.
  Variable z_init : Z.
  Variable z_step : Z -> byte -> list byte * znext Z.
  Variable z_stops : Z -> bool.
  Hypothesis z_eager : eager Z z_step z_stops.
  Hypothesis z_checked : checked Z z_step.
  Variable St : Type.
  Variable iconv_open : encoding -> option St.
  Variable cv : encoding -> St -> list byte -> cres St.
  Hypothesis good : converter St cv.
  Variable default : St.

  Lemma plain_store D H size content sched sk zc fuel comp : comp = Co_none \/ comp = Co_infer ->
    tame D -> hints_within H D -> fuelless D -> steady D content -> (0 < size)%N -> length content + 3 <= fuel ->
    store_records Z z_init z_step z_stops D fuel size (mk_dstore comp content sched sk zc) = whole D content.
  Proof.
    intros Hc T HH HF S S0 FU.
    assert (E : srecords stream plain_rd D fuel size (mk_stream content sched) = whole D content).
    { refine (delivered_l stream plain_rd (size + 2 * H + 2 * N.of_nat (length content) + 1)%N Ends (mk_stream content sched) content D H size fuel _ T HH HF S S0 _ _ _ FU); try lia. apply plain_feeds. }
    destruct Hc as [-> | ->]; cbn [store_records d_comp d_zero_copy d_bytes d_sched]; (destruct zc; [apply S; exact S0|exact E]).
  Qed.
  Lemma gzip_store D H size content sched sk zc fuel data f : lively_file Z z_init z_step content sched data f ->
    tame D -> hints_within H D -> fuelless D -> steady D data -> (0 < size < 2 ^ 32)%N -> (2 * H < 2 ^ 32)%N -> (2 * N.of_nat (length data) < 2 ^ 32)%N -> length data + 3 <= fuel ->
    delivered f (store_records Z z_init z_step z_stops D fuel size (mk_dstore Co_gzip content sched sk zc)) (whole D data).
  Proof.
    intros L T HH HF S S0 S1 S2 FU. cbn [store_records d_comp d_bytes d_sched].
    refine (delivered_l _ _ (2 ^ 32)%N f _ data D H size fuel _ T HH HF S _ _ S1 S2 FU); try lia. apply lively_feeds; auto. apply N.le_refl.
  Qed.

  Lemma made_exists src given out t : in_utf8 St iconv_open cv (effective given (i_content src)) (i_content src) out t ->
    exists m, make_utf8_stream St iconv_open default src given = Ok m.
  Proof.
    intros U. destruct (encoding_eqb (effective given (i_content src)) E_utf8) eqn:E8.
    - destruct src as [content seekable sched]. unfold make_utf8_stream. cbn [i_content i_seekable i_sched] in *. destruct given as [e|].
      + cbn [effective] in E8. rewrite E8. cbn. eauto.
      + destruct (fill_spec (S (length content)) (mk_stream content sched) 4 [] ltac:(cbn; lia)) as (s2 & E2 & _). rewrite E2. cbn [bind s_rest app].
        change (N.to_nat 4) with 4. pose proof (infer_declared content) as D. cbn [effective] in E8.
        change (Pos.to_nat 4) with 4. destruct (infer_bom (firstn 4 content)) as [e|].
        * rewrite D in E8. unfold new_ustream. rewrite E8. cbn [bind]. destruct seekable; eauto.
        * unfold new_ustream. cbn. destruct seekable; eauto.
    - unfold in_utf8 in U. rewrite E8 in U. destruct U as (s & E & _). apply made_l. congruence.
  Qed.

  Lemma plain_text D size content sched sk zc fuel comp given out t : comp = Co_none \/ comp = Co_infer -> given <> Some E_latin1 ->
    in_utf8 St iconv_open cv (effective given content) content out t ->
    sk = true \/ given <> None \/ effective given content = E_utf8 \/ 4 < length content ->
    text_format D out -> (0 < size)%N -> length out + 3 <= fuel ->
    delivered (outcome Ends t) (text_records Z z_init z_step z_stops St iconv_open cv default D fuel size given (mk_dstore comp content sched sk zc)) (whole D out).
  Proof.
    intros Hc NL U K FM S0 FU. destruct (format_ok _ _ FM) as (S & T & HF & NH). assert (HH : hints_within 0 D) by (intros a b c d v E; destruct (NH _ _ _ _ _ E)).
    destruct (made_exists (mk_source content sk sched) given out t U) as [m E].
    pose proof (made_ok St iconv_open cv default (mk_source content sk sched) given out t m NL U K E) as M.
    set (lim := (size + 2 * N.of_nat (length out) + 1)%N).
    assert (W : delivered (outcome Ends t) (srecords (made St) (made_rd cv) D fuel size m) (whole D out)).
    { refine (delivered_l _ _ lim _ m out D 0 size fuel _ T HH HF S S0 _ _ _ FU); subst lim; try lia. apply made_feeds; auto. }
    assert (G : delivered (outcome Ends t) (match m with
          | M_same _ s => if zc then records D true [] size (s_rest s) else srecords stream plain_rd D fuel size s
          | M_wrapped _ _ => srecords (made St) (made_rd cv) D fuel size m
          end) (whole D out)).
    { destruct m as [s|u]; [|exact W]. cbn [minv] in M. destruct M as [Ms Mt]. subst t. cbn [outcome delivered]. destruct s as [rest sc]. cbn [s_rest] in *. subst out.
      destruct zc; [apply S; exact S0|].
      refine (delivered_l stream plain_rd lim Ends (mk_stream rest sc) rest D 0 size fuel _ T HH HF S S0 _ _ _ FU); subst lim; try lia. apply plain_feeds. }
    destruct Hc as [-> | ->]; cbn [text_records d_comp d_zero_copy d_bytes d_sched d_seekable]; rewrite E; exact G.
  Qed.

  Lemma gzip_text D size content sched sk zc fuel given data f out t : lively_file Z z_init z_step content sched data f -> given <> Some E_latin1 ->
    in_utf8 St iconv_open cv (effective given data) data out t ->
    given <> None \/ effective given data = E_utf8 \/ 4 < length data ->
    text_format D out -> (0 < size < 2 ^ 32)%N -> (2 * N.of_nat (length out) < 2 ^ 32)%N -> length data + length out + 3 <= fuel ->
    delivered (outcome f t) (text_records Z z_init z_step z_stops St iconv_open cv default D fuel size given (mk_dstore Co_gzip content sched sk zc)) (whole D out).
  Proof.
    intros L NL U K FM S0 S1 FU. destruct (format_ok _ _ FM) as (S & T & HF & NH). assert (HH : hints_within 0 D) by (intros a b c d v E; destruct (NH _ _ _ _ _ E)).
    cbn [text_records d_comp d_bytes d_sched].
    pose proof (lively_feeds Z z_init z_step z_stops z_eager z_checked (2 ^ 32)%N content sched data f (N.le_refl _) L) as F.
    assert (UB : (u_block < 2 ^ 32)%N) by reflexivity.
    assert (Io : effective given data = E_utf8 \/ iconv_open (effective given data) <> None).
    { unfold in_utf8 in U. destruct (encoding_eqb (effective given data) E_utf8) eqn:E8; [left; destruct (effective given data); try discriminate; reflexivity|]. right. destruct U as (s & E & _). congruence. }
    destruct (make_cstream_ok (gstream Z) (gzip_rd z_init z_step z_stops) (2 ^ 32)%N f St iconv_open UB fuel default _ data given F ltac:(lia) Io) as [(m & E)|(x & P & E & -> & Hx)]; rewrite E.
    - pose proof (made_cinv _ _ _ _ _ _ _ UB fuel default _ data given out t m NL F ltac:(lia) U K E) as M.
      refine (delivered_l _ _ (2 ^ 32)%N _ m out D 0 size fuel _ T HH HF S _ _ _ S1 _); try lia. apply cinv_feeds; auto.
    - destruct (whole D out) as [ys e]. destruct t; cbn [outcome delivered]; exists [], ys, x, e; auto.
  Qed.
End Stores.
