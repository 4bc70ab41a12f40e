(* Proofs about the image reader. *)
From Verif Require Import Common Model_csv Model_image Spec_image.
Import List.
Local Open Scope Z_scope.

Lemma to_int_small n : (n < 2 ^ 31)%N -> to_int n = Z.of_N n.
Proof.
  intro H. unfold to_int. cbv zeta. rewrite Z.mod_small by lia.
  destruct (Z.ltb_spec (Z.of_N n) 2147483648); lia.
Qed.

Lemma int_ok z : -2147483648 <= z <= 2147483647 -> int z = Ok z.
Proof. intro H. unfold int. replace (_ && _) with true by lia. reflexivity. Qed.

Lemma div_ge n a b : 0 < b <= a -> 0 <= n -> n <= n * a / b.
Proof. intros H N. apply Z.div_le_lower_bound; nia. Qed.

Lemma resize_size_ok rows cols n : 0 < rows -> 0 < cols -> (0 < n < 2 ^ 31)%N ->
  Z.of_N n * Z.max rows cols <= 2147483647 ->
  exists w h, resize_size rows cols n = Ok (w, h) /\ scaled rows cols (Z.of_N n) w h.
Proof.
  intros R C N M. unfold resize_size. cbv zeta. rewrite to_int_small by lia.
  set (v := Z.of_N n) in *. assert (V : 0 < v) by lia. clearbody v.
  destruct (Z.gtb_spec rows cols) as [G|G].
  - rewrite int_ok by nia. cbn [bind]. replace (cols =? 0) with false by lia.
    eexists _, _. split; [reflexivity|]. rewrite Z.quot_div_nonneg by nia.
    pose proof (div_ge v rows cols ltac:(lia) ltac:(lia)). unfold scaled. lia.
  - rewrite int_ok by nia. cbn [bind]. replace (rows =? 0) with false by lia.
    eexists _, _. split; [reflexivity|]. rewrite Z.quot_div_nonneg by nia.
    pose proof (div_ge v cols rows ltac:(lia) ltac:(lia)). unfold scaled. split; [lia|]. split; [lia|].
    intro K. assert (cols = rows) as -> by lia. rewrite Z.div_mul by lia. lia.
Qed.

Lemma scaled_unique rows cols n w h w' h' :
  scaled rows cols n w h -> scaled rows cols n w' h' -> w = w' /\ h = h'.
Proof.
  unfold scaled. intros (_ & A & B) (_ & A' & B').
  destruct (Z.le_ge_cases rows cols) as [L|L].
  - destruct (A L), (A' L). lia.
  - destruct (B L), (B' L). lia.
Qed.

Lemma centred_unique a b x y : centred a b x -> centred a b y -> x = y.
Proof. unfold centred. lia. Qed.

Lemma centred_half a b : 0 <= b <= a -> centred a b (Z.quot (a - b) 2).
Proof.
  intro H. unfold centred. rewrite Z.quot_div_nonneg by lia.
  pose proof (Z.div_mod (a - b) 2 ltac:(lia)). pose proof (Z.mod_pos_bound (a - b) 2 ltac:(lia)). lia.
Qed.

Lemma shows_unique m y x h w out out' : shows m y x h w out -> shows m y x h w out' -> out = out'.
Proof.
  intros (r & -> & L & F & E) (r' & -> & L' & F' & E'). do 2 f_equal.
  apply nth_ext with (d := []) (d' := []); [lia|]. intros i I.
  rewrite Forall_forall in F, F'.
  pose proof (F _ (nth_In r [] I)) as A.
  assert (I' : (i < length r')%nat) by lia. pose proof (F' _ (nth_In r' [] I')) as A'.
  apply nth_ext with (d := []) (d' := []); [lia|]. intros j J.
  specialize (E (Z.of_nat i) (Z.of_nat j) ltac:(lia) ltac:(lia)).
  specialize (E' (Z.of_nat i) (Z.of_nat j) ltac:(lia) ltac:(lia)).
  rewrite !Nat2Z.id in E, E'. rewrite <- E' in E.
  assert (J' : (j < length (nth i r' []))%nat) by lia.
  pose proof (nth_error_nth' (nth i r []) ([] : pixel) J) as K.
  pose proof (nth_error_nth' (nth i r' []) ([] : pixel) J') as K'.
  congruence.
Qed.

Lemma nth_skipn {A} (d : A) n l i : nth i (skipn n l) d = nth (n + i) l d.
Proof.
  revert l. induction n; intros [|x l]; cbn; auto. destruct i; reflexivity.
Qed.
Lemma nth_firstn {A} (d : A) n l i : (i < n)%nat -> nth i (firstn n l) d = nth i l d.
Proof.
  revert l i. induction n; intros l i H; [lia|]. destruct l as [|x l]; [now destruct i|].
  destruct i; cbn; auto. apply IHn. lia.
Qed.
Lemma nth_error_skipn {A} n (l : list A) i : nth_error (skipn n l) i = nth_error l (n + i).
Proof. revert l. induction n; intros [|x l]; cbn; auto. now destruct i. Qed.
Lemma nth_error_firstn {A} n (l : list A) i : (i < n)%nat -> nth_error (firstn n l) i = nth_error l i.
Proof.
  revert l i. induction n; intros l i H; [lia|]. destruct l as [|x l]; [now destruct i|].
  destruct i; cbn; auto. apply IHn. lia.
Qed.

Lemma in_skipn {A} n (l : list A) x : In x (skipn n l) -> In x l.
Proof. intro H. rewrite <- (firstn_skipn n l). apply in_or_app. now right. Qed.
Lemma in_firstn {A} n (l : list A) x : In x (firstn n l) -> In x l.
Proof. intro H. rewrite <- (firstn_skipn n l). apply in_or_app. now left. Qed.

Lemma roi_shows m x y h w : well_formed m -> 0 <= x -> 0 <= y -> 0 <= w -> 0 <= h ->
  x + w <= m_cols m -> y + h <= m_rows m ->
  exists m', mat_roi m x y w h = Some m' /\ well_formed m' /\ m_depth m' = m_depth m /\
  m_channels m' = m_channels m /\ m_rows m' = h /\ m_cols m' = w /\
  shows m y x h w (concat (concat (m_pixels m'))).
Proof.
  intros (R & C & L & F) X Y W H Xw Yh. unfold mat_roi. replace (_ && _) with true by lia.
  eexists. split; [reflexivity|].
  unfold well_formed. cbn [m_depth m_channels m_rows m_cols m_pixels].
  assert (Ln : length (firstn (Z.to_nat h) (skipn (Z.to_nat y) (m_pixels m))) = Z.to_nat h).
  { rewrite firstn_length, skipn_length. lia. }
  assert (Fr : forall row, In row (firstn (Z.to_nat h) (skipn (Z.to_nat y) (m_pixels m))) ->
               Z.of_nat (length row) = m_cols m /\ Forall (fun p => length p = m_channels m) row).
  { intros row I. apply in_firstn, in_skipn in I. rewrite Forall_forall in F. auto. }
  assert (Fw : Forall (fun row => Z.of_nat (length row) = w /\ Forall (fun p => length p = m_channels m) row)
                 (map (fun row => firstn (Z.to_nat w) (skipn (Z.to_nat x) row))
                      (firstn (Z.to_nat h) (skipn (Z.to_nat y) (m_pixels m))))).
  { apply Forall_forall. intros r I. apply in_map_iff in I. destruct I as (row & <- & I).
    destruct (Fr row I) as [A B]. split.
    - rewrite firstn_length, skipn_length. lia.
    - apply Forall_forall. intros p Ip. apply in_firstn, in_skipn in Ip.
      rewrite Forall_forall in B. auto. }
  repeat split; try lia; auto.
  - rewrite map_length, Ln. lia.
  - eexists. split; [reflexivity|]. split; [rewrite map_length, Ln; lia|]. split.
    + eapply Forall_impl; [|exact Fw]. intros a K. apply K.
    + intros i j Ii Jj. unfold pixel_at.
      rewrite (nth_indep _ [] ((fun row => firstn (Z.to_nat w) (skipn (Z.to_nat x) row)) [])) by (rewrite map_length, Ln; lia).
      rewrite (map_nth (fun row => firstn (Z.to_nat w) (skipn (Z.to_nat x) row))).
      rewrite nth_firstn by lia. rewrite nth_skipn. rewrite nth_error_firstn by lia. rewrite nth_error_skipn.
      replace (Z.to_nat (y + i)) with (Z.to_nat y + Z.to_nat i)%nat by lia.
      replace (Z.to_nat (x + j)) with (Z.to_nat x + Z.to_nat j)%nat by lia. reflexivity.
Qed.

Lemma samples_length (rows : list (list pixel)) w c :
  Forall (fun row => length row = w /\ Forall (fun p => length p = c) row) rows ->
  length (concat (concat rows)) = (length rows * w * c)%nat.
Proof.
  induction 1 as [|row rows [L F] _ IH]; [reflexivity|]. cbn [concat length]. rewrite concat_app, app_length, IH.
  assert (K : length (concat row) = (length row * c)%nat).
  { clear L. induction F as [|p row P _ IHr]; [reflexivity|]. cbn [concat length]. rewrite app_length, IHr. lia. }
  rewrite K. nia.
Qed.

Lemma crop_gen p img c h w : well_formed img -> m_depth img = D8 -> m_channels img = c ->
  0 < h <= m_rows img -> 0 < w <= m_cols img ->
  exists out y x, crop p img (mk_header D8 c h w) = Ok (Some (Some out)) /\
  centred (m_rows img) h y /\ centred (m_cols img) w x /\
  shows img y x h w out /\ Z.of_nat (length out) = h * w * Z.of_nat c.
Proof.
  intros Wf D C H W. pose proof Wf as (R1 & R2 & _).
  unfold crop. cbn [d_rows d_cols].
  replace (_ || _) with false by lia.
  rewrite int_ok by lia. cbn [bind]. rewrite int_ok by lia. cbn [bind].
  pose proof (centred_half (m_rows img) h ltac:(lia)) as Cy.
  pose proof (centred_half (m_cols img) w ltac:(lia)) as Cx.
  destruct (roi_shows img (Z.quot (m_cols img - w) 2) (Z.quot (m_rows img - h) 2) h w)
    as (m' & -> & Wf' & D' & C' & R' & K' & S); auto; try (unfold centred in *; lia).
  unfold copy_to, mat_empty. rewrite R', K', D', C', D, C. cbn [depth_eqb d_depth d_channels d_rows d_cols].
  replace (_ || _) with false by lia. rewrite Nat.eqb_refl, !Z.eqb_refl. cbn [andb].
  eexists _, _, _. split; [reflexivity|]. split; [exact Cy|]. split; [exact Cx|]. split; [exact S|].
  destruct Wf' as (_ & _ & L & F). rewrite (samples_length _ (Z.to_nat w) c).
  - lia.
  - eapply Forall_impl; [|exact F]. intros row [A B]. split; [lia|]. now rewrite C', C in B.
Qed.

Lemma crop_reject p img c h w : m_rows img < h \/ m_cols img < w ->
  crop p img (mk_header D8 c h w) = if p_error p then Throw Invalid_argument else Ok None.
Proof.
  intro H. unfold crop. cbn [d_rows d_cols]. replace (_ || _) with true by lia. reflexivity.
Qed.

Lemma resize_overflow cv_resize p img n : well_formed img -> mat_empty img = false -> (0 < n < 2 ^ 31)%N ->
  resize cv_resize p img n = UB <-> Z.of_N n * Z.max (m_rows img) (m_cols img) > 2147483647.
Proof.
  intros Wf Em N. unfold mat_empty in Em. destruct Wf as (R & C & _). split.
  - intro U. destruct (Z_gt_le_dec (Z.of_N n * Z.max (m_rows img) (m_cols img)) 2147483647) as [G|G]; auto.
    destruct (resize_size_ok (m_rows img) (m_cols img) n) as (w & h & S & _); auto; try lia.
    unfold resize in U. rewrite S in U. cbn [bind] in U.
    destruct (cv_resize img w h); [discriminate|]. destruct (p_warn p || p_error p); discriminate.
  - intro G. unfold resize, resize_size. cbv zeta. rewrite to_int_small by lia.
    destruct (Z.gtb_spec (m_rows img) (m_cols img)).
    + rewrite Z.max_l in G by lia. unfold int at 1. replace (_ && _) with false by lia. reflexivity.
    + rewrite Z.max_r in G by lia. unfold int at 1. replace (_ && _) with false by lia. reflexivity.
Qed.

Lemma resize_scaled cv_resize p img n img' : resizer_ok cv_resize -> well_formed img -> mat_empty img = false ->
  (0 < n < 2 ^ 31)%N -> resize cv_resize p img n = Ok (Some img') ->
  scaled (m_rows img) (m_cols img) (Z.of_N n) (m_cols img') (m_rows img').
Proof.
  intros Res Wf Em N E.
  destruct (Z_gt_le_dec (Z.of_N n * Z.max (m_rows img) (m_cols img)) 2147483647) as [G|G].
  - apply (resize_overflow cv_resize p img n Wf Em N) in G. congruence.
  - unfold mat_empty in Em. pose proof Wf as (R & C & _).
    destruct (resize_size_ok (m_rows img) (m_cols img) n) as (w & h & S & Sc); auto; try lia.
    unfold resize in E. rewrite S in E. cbn [bind] in E.
    destruct (cv_resize img w h) as [i|] eqn:K; [|destruct (p_warn p || p_error p); discriminate].
    injection E as <-. destruct (Res _ _ _ _ Wf K) as (_ & _ & _ & -> & -> & _). exact Sc.
Qed.

Section Reader.
  Variable imdecode : mode -> list byte -> option mat.
  Variable cv_resize : mat -> Z -> Z -> option mat.
  Variable p : params.
  Variable c h w : N.
  Hypothesis Dec : decoder_ok imdecode.
  Hypothesis Res : resizer_ok cv_resize.
  Hypothesis Args : arguments_ok p c h w.

  Let core := decode_core imdecode cv_resize p (Z.of_N c, Z.of_N h, Z.of_N w).

  Lemma reader_dims : make_reader p = Ok (Z.of_N c, Z.of_N h, Z.of_N w).
  Proof.
    destruct Args as (D & H & W & C & _). unfold make_reader. rewrite D.
    rewrite !to_int_small; auto; try lia.
  Qed.

  Lemma crop_ok img : well_formed img -> m_depth img = D8 -> m_channels img = N.to_nat c ->
    Z.of_N h <= m_rows img -> Z.of_N w <= m_cols img ->
    exists out y x, crop p img (mk_header D8 (N.to_nat c) (Z.of_N h) (Z.of_N w)) = Ok (Some (Some out)) /\
    centred (m_rows img) (Z.of_N h) y /\ centred (m_cols img) (Z.of_N w) x /\
    shows img y x (Z.of_N h) (Z.of_N w) out /\ length out = N.to_nat (h * w * c).
  Proof.
    intros Wf D C H W. destruct Args as (_ & Hh & Ww & _).
    destruct (crop_gen p img (N.to_nat c) (Z.of_N h) (Z.of_N w) Wf D C) as (out & y & x & A & B & E & F & G); try lia.
    exists out, y, x. repeat (split; [assumption|]). lia.
  Qed.

  Lemma payload_ok bits buf : unframed (p_frame p) bits buf <-> payload p bits = Ok buf.
  Proof.
    unfold unframed, payload. destruct (p_frame p).
    - split; [intros ->; reflexivity|intros [= ->]; reflexivity].
    - destruct (Nat.ltb_spec (length bits) 24) as [L|L].
      + split; [|discriminate]. intros (hd & H & ->). rewrite app_length in L. lia.
      + split.
        * intros (hd & H & ->). rewrite <- H. f_equal. rewrite skipn_app, Nat.sub_diag, skipn_all. reflexivity.
        * intros [= <-]. exists (firstn 24 bits). split; [rewrite firstn_length; lia|].
          now rewrite firstn_skipn.
  Qed.

  Lemma mode_ok : exists m, mode_of c = Some m /\ channel_mode (Z.of_N c) = Ok (m, N.to_nat c) /\
    (m = M_unchanged <-> c = 4%N).
  Proof.
    destruct Args as (_ & _ & _ & [-> |[-> | ->]] & _); eexists; (split; [reflexivity|]);
      (split; [reflexivity|]); split; intro; try discriminate; auto.
  Qed.

  Lemma wf_rgb img : well_formed img ->
    well_formed (mk_mat (m_depth img) (m_channels img) (m_rows img) (m_cols img) (map (map rgb) (m_pixels img))).
  Proof.
    intros (R & C & L & F). unfold well_formed. cbn [m_depth m_channels m_rows m_cols m_pixels].
    rewrite map_length. repeat split; try lia. apply Forall_forall. intros r I. apply in_map_iff in I.
    destruct I as (row & <- & I). rewrite Forall_forall in F. destruct (F row I) as [A B].
    split; [now rewrite map_length|]. apply Forall_forall. intros q J. apply in_map_iff in J.
    destruct J as (px & <- & J). rewrite Forall_forall in B. rewrite <- (B px J).
    unfold rgb. destruct px as [|? [|? [|? ?]]]; reflexivity.
  Qed.

  Lemma map_rgb_one (l : list (list pixel)) :
    Forall (Forall (fun px => length px = 1%nat)) l -> map (map rgb) l = l.
  Proof.
    intro F. induction F as [|row l Fr _ IH]; [reflexivity|]. cbn [map]. rewrite IH. f_equal.
    induction Fr as [|px row P _ IHr]; [reflexivity|]. cbn [map]. rewrite IHr. f_equal.
    unfold rgb. destruct px as [|? [|? [|? ?]]]; try discriminate; reflexivity.
  Qed.
  Lemma map_rgb_three (l : list (list pixel)) :
    Forall (Forall (fun px => length px = 3%nat)) l -> map (map swap_blue) l = map (map rgb) l.
  Proof.
    intro F. induction F as [|row l Fr _ IH]; [reflexivity|]. cbn [map]. rewrite IH. f_equal.
    induction Fr as [|px row P _ IHr]; [reflexivity|]. cbn [map]. rewrite IHr. f_equal.
    unfold swap_blue, rgb. destruct px as [|? [|? [|? [|? ?]]]]; try discriminate; reflexivity.
  Qed.

  (* The colours, for images of the expected type. *)
  Lemma colours_ok img : well_formed img -> m_depth img = D8 -> m_channels img = N.to_nat c ->
    (c = 4%N -> p_rgb p = false) ->
    exists img', to_rgb p img = Ok (Some img') /\ colours p img img' /\ well_formed img' /\
    m_depth img' = D8 /\ m_channels img' = N.to_nat c /\ m_rows img' = m_rows img /\ m_cols img' = m_cols img.
  Proof.
    intros Wf D C P. unfold to_rgb, colours. destruct (p_rgb p) eqn:Rgb; cbn [andb].
    - assert (Px : Forall (Forall (fun px => length px = N.to_nat c)) (m_pixels img)).
      { destruct Wf as (_ & _ & _ & F). eapply Forall_impl; [|exact F]. intros a [_ K]. now rewrite C in K. }
      destruct Args as (_ & _ & _ & [E|[E|E]] & _); [| |now specialize (P E)].
      + rewrite C, E. cbn [Nat.eqb negb N.to_nat Pos.to_nat Pos.iter_op]. exists img.
        split; [reflexivity|]. split; [|split; [exact Wf|]; split; [exact D|]; split; [rewrite C, E; reflexivity|]; auto].
        rewrite map_rgb_one by (now rewrite E in Px). change (Pos.to_nat 1) with (N.to_nat 1). replace (N.to_nat 1) with (m_channels img) by (rewrite C, E; reflexivity).
        now destruct img.
      + rewrite C, E. cbn [Nat.eqb negb N.to_nat Pos.to_nat Pos.iter_op Nat.add].
        unfold cvt_bgr2rgb. rewrite D, C, E.
        cbn [Nat.eqb orb N.to_nat Pos.to_nat Pos.iter_op Nat.add].
        eexists. split; [reflexivity|]. rewrite map_rgb_three by (now rewrite E in Px).
        split; [reflexivity|]. pose proof (wf_rgb img Wf) as W'. rewrite D, C, E in W'.
        split; [exact W'|]. cbn. auto.
    - exists img. split; [reflexivity|]. split; [reflexivity|]. auto.
  Qed.

  Lemma resizes_ok img n img' : p_resize p = Some n -> well_formed img -> mat_empty img = false ->
    Z.of_N n * Z.max (m_rows img) (m_cols img) <= 2147483647 ->
    exists w' h', resize_size (m_rows img) (m_cols img) n = Ok (w', h') /\
    (resizes cv_resize p img img' <-> cv_resize img w' h' = Some img').
  Proof.
    intros E Wf Em M. destruct Args as (_ & _ & _ & _ & Rn). rewrite E in Rn.
    unfold mat_empty in Em. destruct Wf as (R & C & _).
    destruct (resize_size_ok (m_rows img) (m_cols img) n) as (w' & h' & S & Sc); auto; try lia.
    exists w', h'. split; auto. unfold resizes. rewrite E. split.
    - intros (w1 & h1 & S1 & C1). destruct (scaled_unique _ _ _ _ _ _ _ Sc S1) as [-> ->]. exact C1.
    - intro C1. eauto.
  Qed.

  Lemma decode_image_some bits img m buf : mode_of c = Some m -> payload p bits = Ok buf ->
    decode_image imdecode p m buf = Ok (Some img) ->
    decodes imdecode p c bits img /\ m_channels img = N.to_nat c /\ well_formed img /\ mat_empty img = false.
  Proof.
    intros M P E. unfold decode_image in E.
    destruct (imdecode m buf) as [img'|] eqn:I; [|unfold reject in E; destruct (p_error p); discriminate].
    destruct (mat_empty img') eqn:Em; [unfold reject in E; destruct (p_error p); discriminate|].
    destruct (Dec _ _ _ I) as [Wf T].
    assert (K : img' = img /\ m_channels img' = N.to_nat c).
    { destruct Args as (_ & _ & _ & [Ec|[Ec|Ec]] & _); rewrite Ec in M; injection M as <-.
      - injection E as ->. rewrite Ec. split; [auto|apply T].
      - injection E as ->. rewrite Ec. split; [auto|apply T].
      - destruct (Nat.eqb_spec (m_channels img') 4); [|discriminate]. injection E as ->. rewrite Ec. auto. }
    destruct K as [-> K]. repeat split; auto; try apply Wf.
    exists m, buf. repeat split; auto. now apply payload_ok.
  Qed.

  Lemma depth8 bits img : plain imdecode p c bits -> decodes imdecode p c bits img -> m_depth img = D8.
  Proof.
    intros Pl (m & buf & M & U & I & Em). destruct Args as (_ & _ & _ & C & _).
    destruct (Dec _ _ _ I) as [Wf T]. destruct C as [E|[E|E]].
    - rewrite E in M. injection M as <-. apply T.
    - rewrite E in M. injection M as <-. apply T.
    - destruct (Pl E) as [_ K]. apply K. exists m, buf. auto.
  Qed.

  (* An image that is delivered is one that should be. *)
  Lemma core_some bits o : plain imdecode p c bits -> moderate imdecode p c bits ->
    core bits = Ok (Some o) -> exists out, o = Some out /\ delivers imdecode cv_resize p c h w bits out /\
    length out = N.to_nat (h * w * c).
  Proof.
    intros Pl Mo E. unfold core, decode_core in E.
    destruct (payload p bits) as [buf| | |] eqn:P; try discriminate. cbn [bind] in E.
    destruct mode_ok as (m & M & Cm & _). rewrite Cm in E. cbn [bind] in E.
    destruct (decode_image imdecode p m buf) as [[img|]| | |] eqn:D; try discriminate. cbn [bind] in E.
    destruct (decode_image_some bits img m buf M P D) as (Dc & Ch & Wf & Em).
    pose proof (depth8 bits img Pl Dc) as D8i.
    assert (K : exists img1, resizes cv_resize p img img1 /\ well_formed img1 /\ m_depth img1 = D8 /\
      m_channels img1 = N.to_nat c /\
      (let* o := to_rgb p img1 in
       match o with None => Ok None | Some img2 => crop p img2 (mk_header D8 (N.to_nat c) (Z.of_N h) (Z.of_N w)) end)
      = Ok (Some o)).
    { destruct (p_resize p) as [n|] eqn:Rn.
      - unfold resize in E.
        destruct (resizes_ok img n img Rn Wf Em (Mo img n Dc Rn)) as (w' & h' & S & _).
        rewrite S in E. cbn [bind] in E.
        destruct (cv_resize img w' h') as [img1|] eqn:R.
        + cbn [bind] in E. exists img1. destruct (Res _ _ _ _ Wf R) as (Wf1 & D1 & C1 & _).
          split; [|split; [|split; [|split]]]; auto; try congruence.
          unfold resizes. rewrite Rn. exists w', h'. split; auto.
          destruct (resize_size_ok (m_rows img) (m_cols img) n) as (w1 & h1 & S1 & Sc1).
          * unfold mat_empty in Em. destruct Wf. lia.
          * unfold mat_empty in Em. destruct Wf as (_ & ? & _). lia.
          * destruct Args as (_ & _ & _ & _ & Rr). now rewrite Rn in Rr.
          * exact (Mo img n Dc Rn).
          * congruence.
        + destruct (p_warn p || p_error p); discriminate.
      - cbn [bind] in E. exists img. unfold resizes. rewrite Rn. auto. }
    destruct K as (img1 & Rz & Wf1 & D1 & C1 & E1).
    destruct (colours_ok img1 Wf1 D1 C1) as (img2 & T & Co & Wf2 & D2 & C2 & R2 & K2).
    { intro E4. apply (Pl E4). }
    rewrite T in E1. cbn [bind] in E1.
    destruct (Z_le_gt_dec (Z.of_N h) (m_rows img2)) as [Lh|Lh].
    - destruct (Z_le_gt_dec (Z.of_N w) (m_cols img2)) as [Lw|Lw].
      + destruct (crop_ok img2 Wf2 D2 C2 Lh Lw) as (out & y & x & Cr & Cy & Cx & Sh & Ln).
        rewrite Cr in E1. injection E1 as <-. exists out. split; auto. split; auto.
        exists img, img1, img2, y, x. repeat split; auto; try apply Cy; try apply Cx.
      + unfold crop in E1. cbn [d_rows d_cols] in E1. replace (_ || _) with true in E1 by lia.
        unfold reject in E1. destruct (p_error p); discriminate.
    - unfold crop in E1. cbn [d_rows d_cols] in E1. replace (_ || _) with true in E1 by lia.
      unfold reject in E1. destruct (p_error p); discriminate.
  Qed.

  (* What should be delivered is delivered. *)
  Lemma core_decodes bits img : decodes imdecode p c bits img -> m_channels img = N.to_nat c ->
    well_formed img /\ mat_empty img = false /\
    core bits =
    (let* o := match p_resize p with Some n => resize cv_resize p img n | None => Ok (Some img) end in
     match o with
     | None => Ok None
     | Some img => let* o := to_rgb p img in
         match o with None => Ok None
         | Some img => crop p img (mk_header D8 (N.to_nat c) (Z.of_N h) (Z.of_N w)) end
     end).
  Proof.
    intros (m & buf & M & U & I & Em) Ch. destruct (Dec _ _ _ I) as [Wf T]. split; auto. split; auto.
    unfold core, decode_core. apply payload_ok in U. rewrite U. cbn [bind].
    destruct mode_ok as (m' & M' & -> & Mu). assert (m' = m) as -> by congruence. cbn [bind].
    replace (decode_image imdecode p m buf) with (Ok (Some img)); [reflexivity|].
    unfold decode_image. rewrite I, Em. destruct m; auto.
    assert (E4 : c = 4%N) by (now apply Mu). rewrite Ch, E4. reflexivity.
  Qed.

  Lemma core_resizes bits img img1 : moderate imdecode p c bits ->
    decodes imdecode p c bits img -> m_channels img = N.to_nat c -> resizes cv_resize p img img1 ->
    well_formed img1 /\ m_depth img1 = m_depth img /\ m_channels img1 = N.to_nat c /\
    core bits = (let* o := to_rgb p img1 in
         match o with None => Ok None
         | Some img => crop p img (mk_header D8 (N.to_nat c) (Z.of_N h) (Z.of_N w)) end).
  Proof.
    intros Mo Dc Ch Rz. destruct (core_decodes bits img Dc Ch) as (Wf & Em & ->).
    destruct (p_resize p) as [n|] eqn:Rn.
    - destruct (resizes_ok img n img1 Rn Wf Em (Mo img n Dc Rn)) as (w' & h' & S & Eq).
      apply Eq in Rz. destruct (Res _ _ _ _ Wf Rz) as (Wf1 & D1 & C1 & _).
      split; auto. split; auto. split; [congruence|]. unfold resize. rewrite S. cbn [bind]. rewrite Rz. reflexivity.
    - unfold resizes in Rz. rewrite Rn in Rz. subst img1. auto.
  Qed.

  Lemma core_good bits out : plain imdecode p c bits -> moderate imdecode p c bits ->
    delivers imdecode cv_resize p c h w bits out ->
    core bits = Ok (Some (Some out)) /\ length out = N.to_nat (h * w * c).
  Proof.
    intros Pl Mo (img & img1 & img2 & y & x & Dc & Ch & Rz & Co & Cy & Cx & Sh).
    destruct (core_resizes bits img img1 Mo Dc Ch Rz) as (Wf1 & D1 & C1 & ->).
    pose proof (depth8 bits img Pl Dc) as D8i.
    destruct (colours_ok img1 Wf1) as (img2' & -> & Co' & Wf2 & D2 & C2 & R2 & K2); auto; try congruence.
    { intro E4. apply (Pl E4). }
    unfold colours in Co, Co'. assert (img2' = img2) as -> by congruence. cbn [bind].
    destruct (crop_ok img2 Wf2 D2 C2) as (out' & y' & x' & -> & Cy' & Cx' & Sh' & Ln).
    - unfold centred in Cy. lia.
    - unfold centred in Cx. lia.
    - rewrite (centred_unique _ _ _ _ Cy Cy'), (centred_unique _ _ _ _ Cx Cx') in Sh.
      rewrite (shows_unique _ _ _ _ _ _ _ Sh Sh'). auto.
  Qed.

  Lemma core_undecodable bits : undecodable imdecode p c bits -> core bits = reject p Invalid_instance.
  Proof.
    intros (m & buf & M & U & I). unfold core, decode_core. apply payload_ok in U. rewrite U. cbn [bind].
    destruct mode_ok as (m' & M' & -> & Mu). assert (m' = m) as -> by congruence. cbn [bind].
    unfold decode_image, reject. destruct (imdecode m buf); [rewrite I|]; destruct (p_error p); reflexivity.
  Qed.

  Lemma core_small bits : plain imdecode p c bits -> moderate imdecode p c bits ->
    too_small imdecode cv_resize p c h w bits -> core bits = reject p Invalid_argument.
  Proof.
    intros Pl Mo (img & img1 & Dc & Ch & Rz & Sm).
    destruct (core_resizes bits img img1 Mo Dc Ch Rz) as (Wf1 & D1 & C1 & ->).
    pose proof (depth8 bits img Pl Dc) as D8i.
    destruct (colours_ok img1 Wf1) as (img2' & -> & Co' & Wf2 & D2 & C2 & R2 & K2); auto; try congruence.
    { intro E4. apply (Pl E4). }
    cbn [bind]. unfold crop. cbn [d_rows d_cols]. replace (_ || _) with true by lia. reflexivity.
  Qed.

  (* ---- Batches ---- *)

  Lemma write_at_app done rest bs : (length bs <= length rest)%nat ->
    write_at (done ++ rest) (length done) bs = Ok ((done ++ bs) ++ skipn (length bs) rest).
  Proof.
    intro L. unfold write_at. rewrite app_length.
    replace (Nat.ltb _ _) with false by (symmetry; apply Nat.ltb_ge; lia).
    rewrite firstn_app, Nat.sub_diag, firstn_all. cbn [firstn]. rewrite app_nil_r.
    rewrite skipn_app, skipn_all2 by lia. cbn [app].
    replace (length done + length bs - length done)%nat with (length bs) by lia.
    now rewrite app_assoc.
  Qed.

  Lemma write_zeros done k n bs : length done = (n * k)%nat -> length bs = k -> forall room,
    (n < room)%nat ->
    write_at (done ++ repeat 0%N ((room - n) * k)) (n * k) bs =
    Ok ((done ++ bs) ++ repeat 0%N ((room - S n) * k)).
  Proof.
    intros L B room R. rewrite <- L. rewrite write_at_app.
    - f_equal. f_equal. rewrite B.
      replace ((room - n) * k)%nat with (k + (room - S n) * k)%nat.
      + rewrite repeat_app, skipn_app, repeat_length, Nat.sub_diag.
        rewrite (skipn_all2 (repeat 0%N k)) by (rewrite repeat_length; lia). reflexivity.
      + replace (room - n)%nat with (S (room - S n)) by lia. reflexivity.
    - rewrite repeat_length. nia.
  Qed.

  Let stride := N.to_nat (h * w * c).

  Lemma loop_some room instances : Forall (plain imdecode p c) instances -> Forall (moderate imdecode p c) instances ->
    forall n done r, length done = (n * stride)%nat -> (n + length instances <= room)%nat ->
    decode_loop imdecode cv_resize p (Z.of_N c, Z.of_N h, Z.of_N w) stride instances n
      (done ++ repeat 0%N ((room - n) * stride)) = Ok (Some r) ->
    exists outs, images imdecode cv_resize p c h w instances outs /\
    (match p_bad p with B_pad | B_pad_warn => True | _ => length outs = length instances end) /\
    Forall (fun o => length o = stride) outs /\
    r = (n + length outs, (done ++ concat outs) ++ repeat 0%N ((room - (n + length outs)) * stride))%nat.
  Proof.
    intros Fp Fm. induction instances as [|bits rest IH]; intros n done r L R E.
    - cbn [decode_loop] in E. injection E as <-. exists []. cbn [length concat].
      rewrite Nat.add_0_r, app_nil_r. split; [constructor|]. split; [destruct (p_bad p); auto|]. split; auto.
    - cbn [decode_loop] in E. inversion Fp as [|? ? Pl Fp']; inversion Fm as [|? ? Mo Fm']; subst.
      fold core in E. destruct (core bits) as [[o|]| | |] eqn:Cb; try discriminate; cbn [bind] in E.
      + destruct (core_some bits o Pl Mo Cb) as (out & -> & Dl & Ln).
        cbn [length] in R. rewrite (write_zeros done stride n out) in E; auto; try lia. cbn [bind] in E.
        destruct (IH Fp' Fm' (S n) (done ++ out) r) as (outs & Im & Md & Fo & ->); auto.
        * rewrite app_length, L. fold stride in Ln. rewrite Ln. lia.
        * lia.
        * exists (out :: outs). split; [constructor; auto|]. cbn [length concat].
          split; [destruct (p_bad p); auto; lia|]. split; [constructor; auto|].
          rewrite <- !app_assoc. replace (S n + length outs)%nat with (n + S (length outs))%nat by lia. reflexivity.
      + assert (Ng : ~ good imdecode cv_resize p c h w bits).
        { intros (out & Dl). destruct (core_good bits out Pl Mo Dl). congruence. }
        assert (K : (p_bad p = B_pad \/ p_bad p = B_pad_warn) /\
          decode_loop imdecode cv_resize p (Z.of_N c, Z.of_N h, Z.of_N w) stride rest n
            (done ++ repeat 0%N ((room - n) * stride)) = Ok (Some r)).
        { destruct (p_bad p); try discriminate; auto. }
        destruct K as (Pad & E'). cbn [length] in R.
        destruct (IH Fp' Fm' n done r) as (outs & Im & Md & Fo & ->); auto; [lia|].
        exists outs. split; [now apply images_bad|]. split; [|auto].
        destruct Pad as [-> | ->]; auto.
  Qed.

  Lemma dims_stride : batch_stride p = (h * w * c)%N.
  Proof. destruct Args as (D & _). unfold batch_stride. rewrite D. reflexivity. Qed.

  Lemma decode_ok instances (size : N) ex : Forall (plain imdecode p c) instances ->
    Forall (moderate imdecode p c) instances -> (N.of_nat (length instances) <= size)%N ->
    decode imdecode cv_resize p instances size = Ok (Some ex) ->
    exists outs, images imdecode cv_resize p c h w instances outs /\
    (match p_bad p with B_pad | B_pad_warn => True | _ => length outs = length instances end) /\
    Forall (fun o => length o = stride) outs /\
    x_shape ex = [size; h; w; c] /\
    x_padding ex = (size - N.of_nat (length outs))%N /\
    x_values ex = concat outs ++ repeat 0%N (N.to_nat (size - N.of_nat (length outs)) * stride).
  Proof.
    intros Fp Fm L E. unfold decode in E. rewrite reader_dims, dims_stride in E. cbn [bind] in E.
    fold stride in E.
    destruct (decode_loop _ _ _ _ _ _ _ _) as [[r|]| | |] eqn:Dl; try discriminate. cbn [bind] in E.
    destruct (loop_some (N.to_nat size) instances Fp Fm 0 [] r) as (outs & Im & Md & Fo & ->).
    - reflexivity.
    - lia.
    - rewrite Nat.sub_0_r. exact Dl.
    - injection E as <-. exists outs. split; auto. split; auto. split; auto.
      cbn [x_shape x_padding x_values plus app]. split; [|split].
      + destruct Args as (D & _). unfold schema_shape. rewrite D. reflexivity.
      + reflexivity.
      + do 2 f_equal. f_equal. lia.
  Qed.

  Lemma core_bad bits : plain imdecode p c bits -> moderate imdecode p c bits ->
    ordinary imdecode cv_resize p c h w bits -> ~ good imdecode cv_resize p c h w bits ->
    core bits = if p_error p then Throw (if match core bits with Throw Invalid_instance => true | _ => false end
                                         then Invalid_instance else Invalid_argument) else Ok None.
  Proof.
    intros Pl Mo [G|[U|T]] Ng; [contradiction| |].
    - rewrite (core_undecodable bits U). unfold reject. now destruct (p_error p).
    - rewrite (core_small bits Pl Mo T). unfold reject. now destruct (p_error p).
  Qed.

  Lemma good_dec bits : plain imdecode p c bits -> moderate imdecode p c bits ->
    good imdecode cv_resize p c h w bits \/ ~ good imdecode cv_resize p c h w bits.
  Proof.
    intros Pl Mo. destruct (core bits) as [[o|]| | |] eqn:Cb;
      [destruct (core_some bits o Pl Mo Cb) as (out & _ & Dl & _); left; now exists out|..];
      right; intros (out & Dl); destruct (core_good bits out Pl Mo Dl); congruence.
  Qed.

  (* The outcome of the loop when all instances are ordinary. *)
  Lemma loop_ordinary room instances : Forall (plain imdecode p c) instances -> Forall (moderate imdecode p c) instances ->
    Forall (ordinary imdecode cv_resize p c h w) instances ->
    forall n done, length done = (n * stride)%nat -> (n + length instances <= room)%nat ->
    let r := decode_loop imdecode cv_resize p (Z.of_N c, Z.of_N h, Z.of_N w) stride instances n
      (done ++ repeat 0%N ((room - n) * stride)) in
    (Forall (good imdecode cv_resize p c h w) instances -> exists x, r = Ok (Some x)) /\
    match p_bad p with
    | B_error => ~ Forall (good imdecode cv_resize p c h w) instances ->
                 r = Throw Invalid_instance \/ r = Throw Invalid_argument
    | B_skip | B_skip_warn => ~ Forall (good imdecode cv_resize p c h w) instances -> r = Ok None
    | B_pad | B_pad_warn => exists x, r = Ok (Some x)
    end.
  Proof.
    intros Fp Fm Fo. induction instances as [|bits rest IH]; intros n done L R.
    - cbn. split; [eauto|]. destruct (p_bad p); eauto; intros []; constructor.
    - inversion Fp as [|? ? Pl Fp']; inversion Fm as [|? ? Mo Fm']; inversion Fo as [|? ? Or Fo']; subst.
      cbn [length] in R. cbn [decode_loop]. fold core.
      destruct (good_dec bits Pl Mo) as [(out & Dl)|Ng].
      + destruct (core_good bits out Pl Mo Dl) as [-> Ln]. cbn [bind].
        rewrite (write_zeros done stride n out); auto; try lia. cbn [bind].
        destruct (IH Fp' Fm' Fo' (S n) (done ++ out)) as [A B].
        * rewrite app_length, L. fold stride in Ln. rewrite Ln. lia.
        * lia.
        * assert (G : good imdecode cv_resize p c h w bits) by (now exists out). split.
          -- intro F. inversion F; subst. auto.
          -- destruct (p_bad p); auto; intro F; apply B; intro F'; apply F; constructor; auto.
      + pose proof (core_bad bits Pl Mo Or Ng) as Cb. split.
        * intro F. inversion F; subst. contradiction.
        * unfold p_error in Cb. destruct (p_bad p) eqn:Pb; rewrite Cb; cbn [bind].
          -- intros _. destruct (match core bits with Throw Invalid_instance => true | _ => false end); auto.
          -- reflexivity.
          -- reflexivity.
          -- apply (IH Fp' Fm' Fo' n done L ltac:(lia)).
          -- apply (IH Fp' Fm' Fo' n done L ltac:(lia)).
  Qed.

  Lemma decode_ordinary instances (size : N) : Forall (plain imdecode p c) instances ->
    Forall (moderate imdecode p c) instances -> Forall (ordinary imdecode cv_resize p c h w) instances ->
    (N.of_nat (length instances) <= size)%N ->
    let r := decode imdecode cv_resize p instances size in
    (Forall (good imdecode cv_resize p c h w) instances -> exists x, r = Ok (Some x)) /\
    match p_bad p with
    | B_error => ~ Forall (good imdecode cv_resize p c h w) instances ->
                 r = Throw Invalid_instance \/ r = Throw Invalid_argument
    | B_skip | B_skip_warn => ~ Forall (good imdecode cv_resize p c h w) instances -> r = Ok None
    | B_pad | B_pad_warn => exists x, r = Ok (Some x)
    end.
  Proof.
    intros Fp Fm Fo L. cbv zeta. unfold decode. rewrite reader_dims, dims_stride. cbn [bind]. fold stride.
    destruct (loop_ordinary (N.to_nat size) instances Fp Fm Fo 0 [] eq_refl) as [A B]; [lia|].
    cbn [app] in A, B. rewrite Nat.sub_0_r in A, B. split.
    - intro F. destruct (A F) as ([n d] & ->). cbn [bind]. eauto.
    - destruct (p_bad p).
      + intro F. destruct (B F) as [-> | ->]; auto.
      + intro F. now rewrite (B F).
      + intro F. now rewrite (B F).
      + destruct B as ([n d] & ->). cbn [bind]. eauto.
      + destruct B as ([n d] & ->). cbn [bind]. eauto.
  Qed.

  (* The first bad image decides. *)
  Lemma loop_first room pre bits post e : Forall (plain imdecode p c) pre -> Forall (moderate imdecode p c) pre ->
    Forall (good imdecode cv_resize p c h w) pre -> core bits = Throw e ->
    forall n done, length done = (n * stride)%nat -> (n + length pre <= room)%nat ->
    decode_loop imdecode cv_resize p (Z.of_N c, Z.of_N h, Z.of_N w) stride (pre ++ bits :: post) n
      (done ++ repeat 0%N ((room - n) * stride)) = Throw e.
  Proof.
    intros Fp Fm Fg Cb. induction pre as [|b rest IH]; intros n done L R.
    - cbn [app decode_loop]. fold core. now rewrite Cb.
    - inversion Fp as [|? ? Pl Fp']; inversion Fm as [|? ? Mo Fm']; inversion Fg as [|? ? [out Dl] Fg']; subst.
      cbn [length] in R. cbn [app decode_loop]. fold core.
      destruct (core_good b out Pl Mo Dl) as [-> Ln]. cbn [bind].
      rewrite (write_zeros done stride n out); auto; try lia. cbn [bind].
      apply IH; auto; [|lia]. rewrite app_length, L. fold stride in Ln. rewrite Ln. lia.
  Qed.

  Lemma decode_first pre bits post (size : N) e : Forall (plain imdecode p c) pre -> Forall (moderate imdecode p c) pre ->
    Forall (good imdecode cv_resize p c h w) pre -> core bits = Throw e ->
    (N.of_nat (length pre) <= size)%N ->
    decode imdecode cv_resize p (pre ++ bits :: post) size = Throw e.
  Proof.
    intros Fp Fm Fg Cb L. unfold decode. rewrite reader_dims, dims_stride. cbn [bind]. fold stride.
    pose proof (loop_first (N.to_nat size) pre bits post e Fp Fm Fg Cb 0 [] eq_refl ltac:(lia)) as K.
    cbn [app] in K. rewrite Nat.sub_0_r in K. now rewrite K.
  Qed.

  Lemma core_short bits : p_frame p = F_recordio -> (length bits < 24)%nat -> core bits = Throw Invalid_argument.
  Proof.
    intros F L. unfold core, decode_core, payload. rewrite F.
    apply Nat.ltb_lt in L. now rewrite L.
  Qed.

  Lemma core_channels bits img : c = 4%N -> decodes imdecode p c bits img -> m_channels img <> 4%nat ->
    core bits = Throw Invalid_argument.
  Proof.
    intros C (m & buf & M & U & I & Em) N. unfold core, decode_core. apply payload_ok in U. rewrite U. cbn [bind].
    destruct mode_ok as (m' & M' & -> & Mu). assert (m' = m) as -> by congruence. cbn [bind].
    apply Mu in C. subst m. unfold decode_image. rewrite I, Em.
    destruct (Nat.eqb_spec (m_channels img) 4); [contradiction|reflexivity].
  Qed.

  Lemma core_resize_fails bits img n w' h' : decodes imdecode p c bits img -> m_channels img = N.to_nat c ->
    moderate imdecode p c bits -> p_resize p = Some n -> scaled (m_rows img) (m_cols img) (Z.of_N n) w' h' ->
    cv_resize img w' h' = None -> p_warn p = true -> core bits = Throw Other_err.
  Proof.
    intros Dc Ch Mo Rn Sc Cv Wn. destruct (core_decodes bits img Dc Ch) as (Wf & Em & ->). rewrite Rn.
    unfold resize. pose proof Em as Em'. unfold mat_empty in Em. pose proof Wf as (R & C & _).
    destruct (resize_size_ok (m_rows img) (m_cols img) n) as (w1 & h1 & S & Sc1); try lia.
    - destruct Args as (_ & _ & _ & _ & Rr). now rewrite Rn in Rr.
    - exact (Mo img n Dc Rn).
    - rewrite S. cbn [bind]. destruct (scaled_unique _ _ _ _ _ _ _ Sc Sc1) as [<- <-].
      rewrite Cv, Wn. reflexivity.
  Qed.
End Reader.

(* ---- An example of a decoder and a resizer ---- *)

Definition paint (ch r c : nat) (f : nat -> nat -> nat -> N) : list (list pixel) :=
  map (fun i => map (fun j => map (f i j) (seq 0 ch)) (seq 0 c)) (seq 0 r).

Definition toy_type (m : mode) (t : N) : depth * nat :=
  match m with
  | M_gray => (D8, 1%nat)
  | M_color => (D8, 3%nat)
  | M_unchanged => match t with 0%N => (D8, 4%nat) | 1%N => (D16, 4%nat) | _ => (D8, 3%nat) end
  end.

(* [rows; columns; first value; type] *)
Definition toy_decode (m : mode) (buf : list byte) : option mat :=
  match buf with
  | [r; c; v; t] =>
      if ((r <? 256) && (c <? 256))%N then
        Some (mk_mat (fst (toy_type m t)) (snd (toy_type m t)) (Z.of_N r) (Z.of_N c)
                (paint (snd (toy_type m t)) (N.to_nat r) (N.to_nat c)
                   (fun i j k => v + 100 * N.of_nat i + 10 * N.of_nat j + N.of_nat k)%N))
      else None
  | _ => None
  end.

Definition toy_resize (img : mat) (w h : Z) : option mat :=
  if (0 <? w) && (w <? 256) && (0 <? h) && (h <? 256)
  then Some (mk_mat (m_depth img) (m_channels img) h w
               (paint (m_channels img) (Z.to_nat h) (Z.to_nat w)
                  (fun i j k => 10 * N.of_nat i + 3 * N.of_nat j + N.of_nat k)%N))
  else None.

Lemma paint_ok d ch r c f : 0 <= r <= 2147483647 -> 0 <= c <= 2147483647 ->
  well_formed (mk_mat d ch r c (paint ch (Z.to_nat r) (Z.to_nat c) f)).
Proof.
  intros R C. unfold well_formed, paint. cbn [m_rows m_cols m_pixels m_channels].
  rewrite map_length, seq_length. split; [lia|]. split; [lia|]. split; [lia|].
  apply Forall_forall. intros row I. apply in_map_iff in I. destruct I as (i & <- & _).
  rewrite map_length, seq_length. split; [lia|]. apply Forall_forall. intros px J.
  apply in_map_iff in J. destruct J as (j & <- & _). now rewrite map_length, seq_length.
Qed.

Lemma toy_decoder_ok : decoder_ok toy_decode.
Proof.
  intros m buf img E. unfold toy_decode in E.
  destruct buf as [|r [|c [|v [|t [|? ?]]]]]; try discriminate.
  destruct ((r <? 256) && (c <? 256))%N eqn:B; [|discriminate]. injection E as <-. split.
  - replace (N.to_nat r) with (Z.to_nat (Z.of_N r)) by lia. replace (N.to_nat c) with (Z.to_nat (Z.of_N c)) by lia.
    apply paint_ok; lia.
  - destruct m; cbn; auto.
Qed.

Lemma toy_resizer_ok : resizer_ok toy_resize.
Proof.
  intros img w h img' _ E. unfold toy_resize in E.
  destruct ((0 <? w) && (w <? 256) && (0 <? h) && (h <? 256)) eqn:B; [|discriminate]. injection E as <-.
  split; [apply paint_ok; lia|]. cbn. repeat split; lia.
Qed.
