From Coq Require Import Permutation.
From Verif Require Import Common Model_rec Spec_rec Proof_rec_props Model_strm Props_strm Model_inst Spec_inst Proof_inst Proof_inst_props
  Model_par Spec_par Proof_par Proof_par_props Model_text Spec_text Proof_text Model_csv Spec_csvfile Proof_csvfile Model_pbfile Spec_pbfile Proof_pbfile
  Model_image Spec_image Proof_image Model_imgfile Spec_imgfile.

(* ---------------- files ---------------- *)

Lemma image_stores fr fls : Forall (fun fl => image_source fr (fst fl) (snd fl)) fls ->
  Forall2 store_instances (map (fun fl => image_store fr (fst fl)) fls) (map (instances_in fr) fls).
Proof.
  destruct fr.
  - induction 1 as [|[f l] fls (H1 & _) HF IH]; [constructor|]. cbn [map fst snd] in *. constructor; [|exact IH].
    left. subst l. split; reflexivity.
  - intro H. assert (G : Forall (fun fl => recordio_file (fst fl) (snd fl)) (map (fun fl => (im_file (fst fl), snd fl)) fls)).
    { rewrite Forall_map. eapply Forall_impl; [|exact H]. intros [f l] (_ & K). exact K. }
    pose proof (recordio_stores _ G) as K. rewrite !map_map in K. cbn [fst snd] in K.
    erewrite map_ext_in; [exact K|]. intros [f l] I. rewrite Forall_forall in H. destruct (H _ I) as (E & _). cbn in *. now rewrite E.
Qed.

Lemma instances_length fr fls : length (image_instances fr fls) = length (concat (map snd fls)).
Proof.
  unfold image_instances. induction fls as [|[f l] fls IH]; [reflexivity|]. cbn [map concat]. rewrite !app_length, IH. f_equal.
  unfold instances_in. cbn [fst snd]. destruct fr; [|unfold Spec_inst.numbered]; rewrite map_length, ?combine_length, seq_length; lia.
Qed.

Lemma in_numbered id l i : In i (Spec_inst.numbered id l) ->
  exists b, i = mk_instance id (i_index i) (Some b) /\ nth_error l (i_index i) = Some b.
Proof.
  unfold Spec_inst.numbered. rewrite in_map_iff. intros ((k & b) & <- & I). cbn [fst snd i_index]. exists b. split; [reflexivity|].
  assert (G : forall s, In (k, b) (combine (seq s (length l)) l) -> s <= k /\ nth_error l (k - s) = Some b).
  { clear I. induction l as [|x l IH]; intros s I; [destruct I|]. cbn [length seq combine] in I. destruct I as [[= -> ->]|I].
    - split; [lia|]. now rewrite Nat.sub_diag.
    - destruct (IH _ I) as [L K]. split; [lia|]. replace (k - s) with (S (k - S s)) by lia. exact K. }
  destruct (G 0 I) as [_ K]. now rewrite Nat.sub_0_r in K.
Qed.

Lemma find_unique (fls : list (image_file * list (list byte))) f l : NoDup (map (fun fl => im_id (fst fl)) fls) -> In (f, l) fls ->
  find (fun g => N.eqb (im_id g) (im_id f)) (map fst fls) = Some f.
Proof.
  induction fls as [|[g m] fls IH]; intros N I; [destruct I|]. cbn [map fst find] in *. inversion N as [|x y N1 N2]; subst.
  destruct I as [[= -> ->]|I]; [now rewrite N.eqb_refl|].
  destruct (N.eqb_spec (im_id g) (im_id f)) as [E|E]; [|auto]. exfalso. apply N1. rewrite in_map_iff. exists (f, l). auto.
Qed.

Lemma same_file (fls : list (image_file * list (list byte))) f l g m : NoDup (map (fun fl => im_id (fst fl)) fls) ->
  In (f, l) fls -> In (g, m) fls -> im_id f = im_id g -> f = g /\ l = m.
Proof.
  induction fls as [|[k n] fls IH]; intros N I J E; [destruct I|]. cbn [map fst] in N. inversion N as [|x y N1 N2]; subst.
  destruct I as [[= -> ->]|I], J as [[= -> ->]|J]; auto; exfalso; apply N1; rewrite in_map_iff; [exists (g, m)|exists (f, l)]; auto.
Qed.

Lemma image_of_fun fls i b b' : NoDup (map (fun fl => im_id (fst fl)) fls) -> image_of fls i b -> image_of fls i b' -> b = b'.
Proof.
  intros N (f & l & I & E & K) (g & m & J & F & L). destruct (same_file fls f l g m N I J) as [-> ->]; congruence.
Qed.

Definition loads fls (i : Model_inst.instance) (b : list byte) : Prop :=
  image_of fls i b /\ In b (concat (map snd fls)) /\
  exists f l, In (f, l) fls /\ im_id f = i_store i /\
    match im_error f with None => load (map fst fls) i = Ok b | Some x => load (map fst fls) i = Throw x end.

Lemma instance_loads fr fls : Forall (fun fl => image_source fr (fst fl) (snd fl)) fls -> NoDup (map (fun fl => im_id (fst fl)) fls) ->
  Forall (fun i => exists b, loads fls i b) (image_instances fr fls).
Proof.
  intros HF N. rewrite Forall_forall. intros i I. unfold image_instances in I. rewrite in_concat in I. destruct I as (is & I & J).
  rewrite in_map_iff in I. destruct I as ((f & l) & <- & I). rewrite Forall_forall in HF. pose proof (HF _ I) as S.
  cbn [fst snd] in S. unfold instances_in in J. cbn [fst snd] in J. destruct fr.
  - destruct S as (-> & S). cbn [length seq map] in J. destruct J as [<-|[]]. exists (tf_text (im_file f)). split; [|split].
    + exists f, [tf_text (im_file f)]. auto.
    + rewrite in_concat. exists [tf_text (im_file f)]. split; [|now left]. rewrite in_map_iff. eexists. split; [|exact I]. reflexivity.
    + exists f, [tf_text (im_file f)]. split; [exact I|]. split; [reflexivity|]. unfold load. cbn [i_bits i_store]. rewrite (find_unique fls f _ N I).
      destruct (im_error f) as [x|]; [reflexivity|]. apply C49_whole_content; [reflexivity| |lia]. destruct S as [S|S]; [congruence|exact S].
  - destruct S as (E & _). destruct (in_numbered _ _ _ J) as (b & Ei & K). exists b. split; [|split].
    + exists f, l. split; [exact I|]. split; [rewrite Ei; reflexivity|exact K].
    + rewrite in_concat. exists l. split; [|apply nth_error_In in K; exact K]. rewrite in_map_iff. eexists. split; [|exact I]. reflexivity.
    + exists f, l. split; [exact I|]. split; [rewrite Ei; reflexivity|]. rewrite E. unfold load. rewrite Ei. reflexivity.
Qed.

Lemma load_all_ok fs is bs : Forall2 (fun i b => load fs i = Ok b) is bs -> load_all fs is = (bs, Ok tt).
Proof. induction 1 as [|i b is bs H F IH]; [reflexivity|]. cbn [load_all]. now rewrite H, IH. Qed.

Lemma load_all_good fs is bs : load_all fs is = (bs, Ok tt) -> Forall (fun i => exists b, load fs i = Ok b) is.
Proof.
  revert bs. induction is as [|i is IH]; intros bs E; [constructor|]. cbn [load_all] in E. destruct (load fs i) as [b| | |] eqn:L; try discriminate.
  destruct (load_all fs is) as [bs' e]. injection E as <- ->. constructor; eauto.
Qed.

(* No example only if batches are skipped. *)
Lemma loop_none imdecode cv_resize p dims stride : forall l n data, decode_loop imdecode cv_resize p dims stride l n data = Ok None ->
  p_bad p = B_skip \/ p_bad p = B_skip_warn.
Proof.
  induction l as [|b l IH]; intros n data E; [discriminate|]. cbn [decode_loop] in E.
  destruct (decode_core imdecode cv_resize p dims b) as [[[o|]|]| | |]; cbn [bind] in E; try discriminate.
  - destruct (write_at data (n * stride) o) as [d| | |]; try discriminate. eauto.
  - eauto.
  - destruct (p_bad p); try discriminate; eauto.
Qed.

Lemma decode_none imdecode cv_resize p l size : Model_image.decode imdecode cv_resize p l size = Ok None -> p_bad p = B_skip \/ p_bad p = B_skip_warn.
Proof.
  unfold Model_image.decode. destruct (make_reader p) as [dims| | |]; cbn [bind]; try discriminate.
  destruct (decode_loop _ _ _ _ _ _ _ _) as [[[n d]|]| | |] eqn:E; cbn [bind]; try discriminate. intros _. eapply loop_none, E.
Qed.

Lemma images_all imdecode cv_resize p c h w l outs : images imdecode cv_resize p c h w l outs -> length outs = length l ->
  Forall2 (Spec_image.delivers imdecode cv_resize p c h w) l outs.
Proof.
  assert (L : forall l outs, images imdecode cv_resize p c h w l outs -> length outs <= length l) by (induction 1; cbn; lia).
  induction 1 as [|b o l outs D H IH|b l outs D H IH]; intro E; [constructor|constructor; auto|]. apply L in H. cbn in E. lia.
Qed.

Lemma images_good imdecode cv_resize p c h w l outs : images imdecode cv_resize p c h w l outs ->
  Forall (Spec_image.good imdecode cv_resize p c h w) l -> length outs = length l.
Proof.
  induction 1 as [|b o l outs D H IH|b l outs D H IH]; intro E; [reflexivity|inversion E; subst; cbn; auto|inversion E; subst; contradiction].
Qed.

Lemma pick {A B} (R : A -> B -> Prop) l : Forall (fun a => exists b, R a b) l -> exists bs, Forall2 R l bs.
Proof. induction 1 as [|a l (b & H) F (bs & IH)]; [exists []; constructor|exists (b :: bs); now constructor]. Qed.

Lemma pick_all {A B} (R : A -> B -> Prop) (Q : B -> Prop) l bs : (forall a b, R a b -> Q b) -> Forall2 R l bs -> Forall Q bs.
Proof. intros H F. induction F; constructor; eauto. Qed.

Lemma forall2_imp {A B} (R S : A -> B -> Prop) l bs : (forall a b, R a b -> S a b) -> Forall2 R l bs -> Forall2 S l bs.
Proof. intros H F. induction F; constructor; auto. Qed.

Lemma forall2_len {A B} (R : A -> B -> Prop) l bs : Forall2 R l bs -> length l = length bs.
Proof. induction 1; cbn; auto. Qed.

Lemma forall2_fun {A B} (R : A -> B -> Prop) l : (forall a b b', R a b -> R a b' -> b = b') ->
  forall xs ys, Forall2 R l xs -> Forall2 R l ys -> xs = ys.
Proof.
  intro H. induction l as [|a l IH]; intros xs ys F G; inversion F; inversion G; subst; [reflexivity|]. f_equal; eauto.
Qed.

Lemma batches_concat {A} size last k (xs : list A) bs : last <> last_drop /\ last <> last_drop_warn -> batches_of size last k xs bs ->
  concat (map ba_instances bs) = xs.
Proof.
  intros [H1 H2]. induction 1 as [k|k xs Hne Hl [E|E]|k xs r Hne Hl H3 H4 Hr0|k xs ys bs Hl HB IH]; cbn; auto; try contradiction.
  - apply app_nil_r.
  - now rewrite IH.
Qed.

Lemma numbered_images id l (R : Model_inst.instance -> list byte -> Prop) s :
  (forall k b, nth_error l k = Some b -> R (mk_instance id (s + k) (Some b)) b) ->
  Forall2 R (map (fun x => mk_instance id (fst x) (Some (snd x))) (combine (seq s (length l)) l)) l.
Proof.
  revert s. induction l as [|b l IH]; intros s H; [constructor|]. cbn [length seq combine map fst snd]. constructor.
  - specialize (H 0 b eq_refl). now rewrite Nat.add_0_r in H.
  - apply IH. intros k x E. specialize (H (S k) x E). now rewrite Nat.add_succ_r in H.
Qed.

Lemma instances_images fr fls : Forall (fun fl => image_source fr (fst fl) (snd fl)) fls ->
  Forall2 (image_of fls) (image_instances fr fls) (concat (map snd fls)).
Proof.
  intro H. assert (G : forall sub, (forall x, In x sub -> In x fls) -> Forall2 (image_of fls) (image_instances fr sub) (concat (map snd sub))).
  { induction sub as [|[f l] sub IH]; intro HI; [constructor|]. unfold image_instances. cbn [map concat snd]. apply Forall2_app.
    - pose proof (HI (f, l) (or_introl eq_refl)) as I. rewrite Forall_forall in H. pose proof (H _ I) as S. cbn [fst snd] in S.
      unfold instances_in. cbn [fst snd]. destruct fr.
      + destruct S as (-> & _). cbn [length seq map]. constructor; [|constructor]. eexists _, _. split; [exact I|]. auto.
      + unfold Spec_inst.numbered. apply numbered_images. intros k b E. eexists _, _. split; [exact I|]. auto.
    - apply IH. intros x Hx. apply HI. now right. }
  now apply G.
Qed.

(* ---------------- the reader ---------------- *)

Section Img.
  Context (imdecode : mode -> list byte -> option mat) (cv_resize : mat -> Z -> Z -> option mat) (ip : params) (c h w : N).
  Context {rng : Type} (seeded : rng) (draw : nat -> rng -> nat * rng) (shuf : list Model_inst.instance -> rng -> list Model_inst.instance * rng) (size_max : nat).
  Context (p : rd_params) (fls : list (image_file * list (list byte))).
  Context (dec : batch Model_inst.instance -> dres image_example) (M : machine Model_inst.instance).
  Context (src : nat -> list (batch Model_inst.instance)) (src_end : nat -> option exn).
  Context (HX : image_reading imdecode cv_resize ip c h w seeded draw shuf size_max p fls dec M src src_end).
  Context (bytes : batch Model_inst.instance -> nat).
  Context (cores np pr prefetch reads : nat) (HG : graph_params cores np pr = (prefetch, reads)) (HC : 1 <= cores).
  Context (s : @st image_example) (HR : reachable dec bytes src src_end prefetch reads s).

  Local Notation Good := (Spec_image.good imdecode cv_resize ip c h w).
  Local Notation Full := (full_example imdecode cv_resize ip c h w fls).
  Local Notation Padded := (padded_example imdecode cv_resize ip c h w fls).
  Local Notation Bad := (bad_image imdecode cv_resize ip c h w fls).

  Lemma img_batches : src_end (epoch s) = None /\ image_batches ip p fls (src (epoch s)).
  Proof.
    destruct HX as (HD & HRz & HA & HF & HN & HM & Hr & Hd & Hp & Hm & Hb & Hfed & Hdec). rewrite <- (instances_length (p_frame ip)) in Hm.
    exact (whole_batches seeded draw shuf size_max p _ _ M src src_end (image_stores _ fls HF) HM Hr Hd Hp Hm Hb Hfed s).
  Qed.

  Lemma img_loads : Forall (fun b => Forall (fun i => exists x, loads fls i x) (ba_instances b) /\ length (ba_instances b) <= ba_size b /\ ba_size b <= p_batch p)
    (src (epoch s)).
  Proof.
    destruct HX as (HD & HRz & HA & HF & HN & HM & Hr & Hd & Hp & Hm & Hb & Hfed & Hdec).
    exact (whole_rows p _ _ _ Hb (instance_loads _ _ HF HN) (proj2 img_batches)).
  Qed.

  Definition img_row (b : batch Model_inst.instance) (imgs : list (list byte)) : Prop :=
    Forall2 (image_of fls) (ba_instances b) imgs /\ (forall x, In x imgs -> In x (concat (map snd fls))) /\
    Forall (plain imdecode ip c) imgs /\ Forall (moderate imdecode ip c) imgs /\ Forall (ordinary imdecode cv_resize ip c h w) imgs /\
    (N.of_nat (length imgs) <= N.of_nat (ba_size b))%N /\
    dec b = dres_of (Model_image.decode imdecode cv_resize ip imgs (N.of_nat (ba_size b))).

  Lemma img_rows : regular imdecode cv_resize ip c h w fls -> Forall (fun b => exists imgs, img_row b imgs) (src (epoch s)).
  Proof.
    intros (R1 & R2). eapply Forall_impl; [|exact img_loads]. cbv beta. intros b (L1 & L2 & _).
    destruct (pick _ _ L1) as (imgs & F). exists imgs.
    destruct HX as (HD & HRz & HA & HF & HN & HM & Hr & Hd & Hp & Hm & Hb & Hfed & Hdec).
    assert (F1 : Forall2 (image_of fls) (ba_instances b) imgs) by (eapply forall2_imp; [|exact F]; intros i x H; apply H).
    assert (F2 : Forall2 (fun i x => load (map fst fls) i = Ok x) (ba_instances b) imgs).
    { eapply forall2_imp; [|exact F]. intros i x (_ & _ & f & l & I & _ & K). rewrite Forall_forall in R1. specialize (R1 _ I).
      unfold readable in R1. cbn [fst] in R1. now rewrite R1 in K. }
    assert (F3 : Forall (fun x => In x (concat (map snd fls))) imgs) by (eapply pick_all; [|exact F]; intros i x H; apply H).
    assert (F4 : Forall (fun b => plain imdecode ip c b /\ moderate imdecode ip c b /\ ordinary imdecode cv_resize ip c h w b) imgs).
    { rewrite Forall_forall in *. auto. }
    split; [exact F1|]. split; [now rewrite Forall_forall in F3|].
    split; [eapply Forall_impl; [|exact F4]; cbv beta; tauto|]. split; [eapply Forall_impl; [|exact F4]; cbv beta; tauto|].
    split; [eapply Forall_impl; [|exact F4]; cbv beta; tauto|].
    split; [apply forall2_len in F1; lia|]. rewrite Hdec. unfold image_decode. now rewrite (load_all_ok _ _ _ F2).
  Qed.

  Lemma img_end : In O_end (log s) -> Forall (decodable dec) (src (epoch s)) /\ delivered (log s) = sequential dec (src (epoch s)).
  Proof. exact (whole_end src src_end dec bytes cores np pr prefetch reads HG HC s HR). Qed.

  Lemma img_calls : Forall (decodable dec) (src (epoch s)) -> In O_end (log s) \/ length (concat (map snd fls)) < length (log s) -> In O_end (log s).
  Proof.
    destruct HX as (HD & HRz & HA & HF & HN & HM & Hr & Hd & Hp & Hm & Hb & Hfed & Hdec). rewrite <- (instances_length (p_frame ip)) in Hm |- *.
    exact (whole_calls seeded draw shuf size_max p _ _ M src src_end (image_stores _ fls HF) HM Hr Hd Hp Hm Hb Hfed dec bytes cores np pr prefetch reads HG HC s HR).
  Qed.

  (* The example of a batch, if there is one. *)
  Lemma row_example b imgs e : img_row b imgs -> Model_image.decode imdecode cv_resize ip imgs (N.of_nat (ba_size b)) = Ok (Some e) ->
    Padded e b /\ (Forall Good imgs -> Full e b) /\
    (match p_bad ip with B_pad | B_pad_warn => True | _ => Full e b /\ Forall Good imgs end).
  Proof.
    intros (F1 & _ & P & Mo & O & L & _) E. destruct HX as (HD & HRz & HA & _).
    destruct (decode_ok imdecode cv_resize ip c h w HD HRz HA imgs _ e P Mo L E) as (outs & I1 & I2 & I3 & I4 & I5 & I6).
    assert (H : example_holds c h w (ba_size b) e outs).
    { split; [exact I4|]. split; [exact I5|]. split; [exact I3|]. rewrite I6. do 2 f_equal. f_equal. lia. }
    assert (K : length outs = length imgs -> Full e b).
    { intro K. exists imgs, outs. split; [exact F1|]. split; [|exact H]. now apply images_all. }
    split; [exists imgs, outs; auto|]. split.
    - intro G. apply K. eapply images_good; eassumption.
    - assert (G : length outs = length imgs -> Forall Good imgs).
      { intro Le. pose proof (images_all _ _ _ _ _ _ _ _ I1 Le) as A. clear - A. induction A; constructor; auto. eexists; eassumption. }
      destruct (p_bad ip); auto.
  Qed.

  Lemma row_ordinary b imgs : img_row b imgs ->
    let r := Model_image.decode imdecode cv_resize ip imgs (N.of_nat (ba_size b)) in
    (Forall Good imgs -> exists x, r = Ok (Some x)) /\
    match p_bad ip with
    | B_error => ~ Forall Good imgs -> r = Throw Invalid_instance \/ r = Throw Invalid_argument
    | B_skip | B_skip_warn => ~ Forall Good imgs -> r = Ok None
    | B_pad | B_pad_warn => exists x, r = Ok (Some x)
    end.
  Proof.
    intros (F1 & _ & P & Mo & O & L & _). destruct HX as (HD & HRz & HA & _).
    exact (decode_ordinary imdecode cv_resize ip c h w HD HRz HA imgs _ P Mo O L).
  Qed.

  Lemma row_all b imgs : img_row b imgs -> Forall Good imgs \/ ~ Forall Good imgs /\ Exists Bad (ba_instances b).
  Proof.
    intros (F1 & _ & P & Mo & _). destruct HX as (HD & HRz & HA & _).
    induction F1 as [|i x is imgs H F1 IH]; [left; constructor|]. inversion P; inversion Mo; subst.
    destruct (good_dec imdecode cv_resize ip c h w HD HRz HA x) as [G|G]; auto.
    - destruct IH as [IH|[IH1 IH2]]; auto. right. split; [|now right]. intro K. inversion K; auto.
    - right. split; [intro K; inversion K; auto|]. left. exists x. auto.
  Qed.

  Lemma examples_each (R : image_example -> batch Model_inst.instance -> Prop) :
    Forall (fun b => exists e, dec b = D_example e /\ R e b) (src (epoch s)) ->
    In O_end (log s) \/ length (concat (map snd fls)) < length (log s) ->
    exists bs, image_batches ip p fls bs /\ Forall2 R (delivered (log s)) bs.
  Proof.
    intros HS HE0.
    assert (HE : In O_end (log s)).
    { apply img_calls; [|exact HE0]. eapply Forall_impl; [|exact HS]. intros b (e & He & _) x Hx. congruence. }
    exists (src (epoch s)). split; [apply img_batches|]. rewrite (proj2 (img_end HE)).
    clear - HS. induction HS as [|b bs (e & E1 & E2) HS IH]; [constructor|]. cbn [sequential]. rewrite E1. now constructor.
  Qed.

  Lemma img_good : regular imdecode cv_resize ip c h w fls -> Forall Good (concat (map snd fls)) ->
    In O_end (log s) \/ length (concat (map snd fls)) < length (log s) ->
    exists bs, image_batches ip p fls bs /\ Forall2 Full (delivered (log s)) bs.
  Proof.
    intros HRg HGd. apply examples_each. eapply Forall_impl; [|exact (img_rows HRg)]. cbv beta. intros b (imgs & Hb).
    assert (G : Forall Good imgs). { destruct Hb as (_ & K & _). rewrite Forall_forall in *. auto. }
    destruct (proj1 (row_ordinary b imgs Hb) G) as (e & E). exists e. split.
    - destruct Hb as (_ & _ & _ & _ & _ & _ & ->). now rewrite E.
    - exact (proj1 (proj2 (row_example b imgs e Hb E)) G).
  Qed.

  Lemma img_pad : regular imdecode cv_resize ip c h w fls -> p_bad ip = B_pad \/ p_bad ip = B_pad_warn ->
    In O_end (log s) \/ length (concat (map snd fls)) < length (log s) ->
    exists bs, image_batches ip p fls bs /\ Forall2 Padded (delivered (log s)) bs.
  Proof.
    intros HRg HB. apply examples_each. eapply Forall_impl; [|exact (img_rows HRg)]. cbv beta. intros b (imgs & Hb).
    assert (G : exists e, Model_image.decode imdecode cv_resize ip imgs (N.of_nat (ba_size b)) = Ok (Some e)).
    { pose proof (proj2 (row_ordinary b imgs Hb)) as K. destruct HB as [HB|HB]; rewrite HB in K; exact K. }
    destruct G as (e & E). exists e. split.
    - destruct Hb as (_ & _ & _ & _ & _ & _ & ->). now rewrite E.
    - exact (proj1 (row_example b imgs e Hb E)).
  Qed.

  Lemma img_error : regular imdecode cv_resize ip c h w fls -> p_bad ip = B_error -> In O_end (log s) ->
    exists bs, image_batches ip p fls bs /\ Forall2 Full (delivered (log s)) bs.
  Proof.
    intros HRg HB HE. apply examples_each; [|now left]. destruct (img_end HE) as [HD _]. pose proof (img_rows HRg) as HW.
    rewrite Forall_forall in *. intros b Hin. destruct (HW b Hin) as (imgs & Hb). specialize (HD b Hin).
    pose proof (row_ordinary b imgs Hb) as K. cbv zeta in K. rewrite HB in K. destruct K as [K1 K2].
    pose proof Hb as (_ & _ & _ & _ & _ & _ & Ed).
    destruct (row_all b imgs Hb) as [G|[G _]].
    - destruct (K1 G) as (e & E). exists e. split; [now rewrite Ed, E|]. exact (proj1 (proj2 (row_example b imgs e Hb E)) G).
    - exfalso. destruct (K2 G) as [E|E]; rewrite E in Ed; exact (HD _ Ed).
  Qed.

  Lemma img_skip : regular imdecode cv_resize ip c h w fls -> p_bad ip = B_skip \/ p_bad ip = B_skip_warn ->
    In O_end (log s) \/ length (concat (map snd fls)) < length (log s) ->
    exists bs cs, image_batches ip p fls bs /\ spared Bad bs cs /\ Forall2 Full (delivered (log s)) cs.
  Proof.
    intros HRg HB HE0.
    assert (HS : Forall (fun b => (dec b = D_skip /\ Exists Bad (ba_instances b)) \/
      (exists e, dec b = D_example e /\ Full e b /\ Forall (fun i => ~ Bad i) (ba_instances b))) (src (epoch s))).
    { eapply Forall_impl; [|exact (img_rows HRg)]. cbv beta. intros b (imgs & Hb).
      pose proof (row_ordinary b imgs Hb) as K. cbv zeta in K. destruct K as [K1 K2].
      pose proof Hb as (F1 & _ & _ & _ & _ & _ & Ed).
      destruct (row_all b imgs Hb) as [G|[G Ex]]; [right|left].
      - destruct (K1 G) as (e & E). exists e. split; [now rewrite Ed, E|]. split; [exact (proj1 (proj2 (row_example b imgs e Hb E)) G)|].
        destruct HX as (_ & _ & _ & _ & HN & _). clear - F1 G HN. induction F1 as [|i x is imgs H F1 IH]; [constructor|].
        inversion G; subst. constructor; [|auto]. intros (y & Y1 & Y2). rewrite (image_of_fun fls i y x HN Y1 H) in Y2. contradiction.
      - split; [|exact Ex]. assert (E : Model_image.decode imdecode cv_resize ip imgs (N.of_nat (ba_size b)) = Ok None).
        { destruct HB as [HB|HB]; rewrite HB in K2; auto. } now rewrite Ed, E. }
    assert (HE : In O_end (log s)).
    { apply img_calls; [|exact HE0]. eapply Forall_impl; [|exact HS]. cbv beta. intros b [[He _]|(e & He & _)] x Hx; congruence. }
    destruct (sequential_spared dec _ Full _ HS) as (cs & C1 & C2).
    exists (src (epoch s)), cs. split; [apply img_batches|]. split; [exact C1|]. now rewrite (proj2 (img_end HE)).
  Qed.

  (* A file that cannot be read. *)
  Lemma img_unreadable : p_bad ip <> B_skip -> p_bad ip <> B_skip_warn -> In O_end (log s) ->
    exists bs, image_batches ip p fls bs /\
      Forall (fun b => Forall (fun i => exists f l, In (f, l) fls /\ im_id f = i_store i /\ readable f) (ba_instances b)) bs.
  Proof.
    intros B1 B2 HE. exists (src (epoch s)). split; [apply img_batches|]. destruct (img_end HE) as [HD _]. pose proof img_loads as HL.
    rewrite Forall_forall in *. intros b Hin. destruct (HL b Hin) as (L & _). specialize (HD b Hin).
    assert (A : Forall (fun i => exists x, load (map fst fls) i = Ok x) (ba_instances b)).
    { destruct (load_all (map fst fls) (ba_instances b)) as [bs e] eqn:El.
      destruct HX as (_ & _ & _ & _ & _ & _ & _ & _ & _ & _ & _ & _ & Hdec). specialize (Hdec b). unfold image_decode in Hdec. rewrite El in Hdec.
      destruct e as [[]| | |]; [exact (load_all_good _ _ _ El)|..]; exfalso;
        (destruct (Model_image.decode imdecode cv_resize ip bs (N.of_nat (ba_size b))) as [[e0|]| | |] eqn:Ed;
         [|destruct (decode_none _ _ _ _ _ Ed); contradiction|..]; cbn in Hdec; eapply HD; exact Hdec). }
    rewrite Forall_forall in *. intros i Hi. destruct (L i Hi) as (x & _ & _ & f & l & I & E & K). destruct (A i Hi) as (y & Y).
    exists f, l. split; [exact I|]. split; [exact E|]. unfold readable. destruct (im_error f); [congruence|reflexivity].
  Qed.

  (* Without a selection, every image is delivered once, in order. *)
  Lemma img_all : regular imdecode cv_resize ip c h w fls -> Forall Good (concat (map snd fls)) ->
    p_skip p = 0 -> p_take p = None -> p_num_shards p <= 1 -> p_ratio p = None -> p_shuffle p = false ->
    p_last p <> last_drop -> p_last p <> last_drop_warn ->
    In O_end (log s) \/ length (concat (map snd fls)) < length (log s) ->
    exists outss, Forall2 (Spec_image.delivers imdecode cv_resize ip c h w) (concat (map snd fls)) (concat outss) /\
      Forall2 (fun e outs => exists size, length outs <= size <= p_batch p /\ example_holds c h w size e outs) (delivered (log s)) outss.
  Proof.
    intros HRg HGd S1 S2 S3 S4 S5 S6 S7 HE. destruct (img_good HRg HGd HE) as (bs & (ys & zs & B1 & B2 & B3) & HF).
    pose proof HX as (_ & _ & _ & Hs & HN & _ & _ & _ & _ & _ & Hb & _ & _).
    assert (Ez : zs = image_instances (p_frame ip) fls).
    { unfold ordered in B2. rewrite S5 in B2. subst zs. unfold Spec_inst.selected, range_of in B1.
      destruct (Nat.ltb_spec 1 (p_num_shards p)); [lia|]. rewrite S4, S1, S2 in B1. exact B1. }
    assert (Ec : concat (map ba_instances bs) = image_instances (p_frame ip) fls).
    { subst zs. eapply batches_concat; [|exact B3]. unfold effective. destruct (p_last p); try congruence; split; congruence. }
    pose proof (batches_limit _ _ _ _ _ Hb B3) as BL. pose proof (batches_sizes _ _ _ _ _ B3) as BS.
    assert (G : exists imgss outss, Forall2 (image_of fls) (concat (map ba_instances bs)) (concat imgss) /\
      Forall2 (Spec_image.delivers imdecode cv_resize ip c h w) (concat imgss) (concat outss) /\
      Forall2 (fun e outs => exists size, length outs <= size <= p_batch p /\ example_holds c h w size e outs) (delivered (log s)) outss).
    { clear - HF BL BS. induction HF as [|e b es bs (imgs & outs & F1 & F2 & F3) HF IH].
      - exists [], []. repeat constructor.
      - inversion BL; inversion BS; subst. destruct IH as (imgss & outss & I1 & I2 & I3); auto.
        exists (imgs :: imgss), (outs :: outss). cbn [map concat]. split; [now apply Forall2_app|]. split; [now apply Forall2_app|].
        constructor; [|exact I3]. exists (ba_size b). split; [|exact F3]. apply forall2_len in F1, F2. lia. }
    destruct G as (imgss & outss & G1 & G2 & G3). rewrite Ec in G1. exists outss. split; [|exact G3].
    replace (concat (map snd fls)) with (concat imgss); [exact G2|]. pose proof (instances_images _ _ Hs) as K.
    eapply forall2_fun; [|exact G1|exact K]. intros i x y. now apply image_of_fun.
  Qed.
End Img.
