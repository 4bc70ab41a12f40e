From Coq Require Import Permutation.
From Verif Require Import Common Model_rec Spec_rec Proof_rec_props Props_rec Model_inst Spec_inst Proof_inst Proof_inst_filters Proof_inst_shuffle
  Proof_inst_core Proof_inst_props Model_par Spec_par Proof_par Proof_par_props Model_text Spec_text Proof_text Model_tsr Model_csv
  Model_pb Spec_pb Proof_pb_props Props_pb Spec_csvfile Proof_csvfile Model_pbfile Spec_pbfile.

(* ---------------- any format ---------------- *)

  Lemma batches_limit {A} size last k (xs : list A) bs : 0 < size -> batches_of size last k xs bs -> Forall (fun b => ba_size b <= size) bs.
  Proof.
    intros Hs. induction 1 as [k|k xs Hne Hl Hl2|k xs r Hne Hl H1 H2 Hr0|k xs ys bs Hl HB IH]; constructor; cbn; auto.
    subst r. destruct last; lia.
  Qed.

  Definition the_batches_of (p : rd_params) (iss : list (list Model_inst.instance)) (bs : list (batch Model_inst.instance)) : Prop :=
    exists ys zs, Spec_inst.selected p (concat iss) ys /\ ordered p ys zs /\ batches_of (p_batch p) (effective (p_last p)) 0 zs bs.

  Lemma whole_rows p iss (P : Model_inst.instance -> Prop) bs : 0 < p_batch p -> Forall P (concat iss) -> the_batches_of p iss bs ->
    Forall (fun b => Forall P (ba_instances b) /\ length (ba_instances b) <= ba_size b /\ ba_size b <= p_batch p) bs.
  Proof.
    intros Hb HP (ys & zs & H1 & H2 & H3).
    pose proof (batch_part _ _ _ _ _ H3) as HB. pose proof (batches_sizes _ _ _ _ _ H3) as HS. pose proof (batches_limit _ _ _ _ _ Hb H3) as HL.
    assert (HI : incl zs (concat iss)) by (eapply incl_tran; [eapply ordered_incl, H2|eapply selected_incl, H1]).
    rewrite Forall_forall in *. intros b Hin. split; [|split; auto]. rewrite Forall_forall. intros i Hi. apply HP, HI, (HB b Hin i Hi).
  Qed.

Section Whole.
  Context {rng : Type} (seeded : rng) (draw : nat -> rng -> nat * rng) (shuf : list Model_inst.instance -> rng -> list Model_inst.instance * rng) (size_max : nat).
  Context (p : rd_params) (ds : list Model_inst.store) (iss : list (list Model_inst.instance)).
  Context (M : machine Model_inst.instance) (src : nat -> list (batch Model_inst.instance)) (src_end : nat -> option exn).
  Context (HF : Forall2 store_instances ds iss) (HM : make_instance_reader seeded draw shuf size_max p ds = Ok M).
  Context (Hr : forall r, p_ratio p = Some r -> float_ratio r).
  Context (Hd : forall w g, 0 < w -> fst (draw w g) < w) (Hp : forall l g, Permutation (fst (shuf l g)) l).
  Context (Hm : length (concat iss) < size_max) (Hb : 0 < p_batch p) (Hfed : fed_by M (p_batch p) (p_last p) src src_end).
  Context {E : Type} (dec : batch Model_inst.instance -> dres E) (bytes : batch Model_inst.instance -> nat).
  Context (cores np pr prefetch reads : nat) (HG : graph_params cores np pr = (prefetch, reads)) (HC : 1 <= cores).
  Context (s : @st E) (HR : reachable dec bytes src src_end prefetch reads s).

  Lemma whole_batches : src_end (epoch s) = None /\ the_batches_of p iss (src (epoch s)).
  Proof.
    destruct (fed_batches seeded draw shuf size_max p ds iss M src src_end HF HM Hr Hd Hp Hm Hb Hfed (epoch s)) as (H0 & ys & zs & H1 & H2 & H3).
    split; [exact H0|]. exists ys, zs. auto.
  Qed.

  Lemma whole_end : In O_end (log s) -> Forall (decodable dec) (src (epoch s)) /\ delivered (log s) = sequential dec (src (epoch s)).
  Proof. intro HE. edestruct @end_ok as ((n & H4) & H5 & _); eauto. rewrite H4, delivered_examples. auto. Qed.

  Lemma whole_calls : Forall (decodable dec) (src (epoch s)) -> In O_end (log s) \/ length (concat iss) < length (log s) -> In O_end (log s).
  Proof.
    intros HD [H|H]; [exact H|]. destruct whole_batches as (Hend & ys & zs & H1 & H2 & H3).
    eapply enough_calls; eauto.
    pose proof (sequential_len dec (src (epoch s))) as L1. pose proof (batches_len _ _ _ _ _ Hb H3) as L2.
    pose proof (selected_len seeded draw shuf size_max p _ _ H1) as L3.
    assert (L4 : length zs = length ys).
    { unfold ordered in H2. destruct (p_shuffle p); [apply Permutation_length, H2|congruence]. }
    lia.
  Qed.
End Whole.

(* The examples of the batches that have one. *)
Lemma sequential_spared {A E} (dec : batch A -> dres E) (bad : A -> Prop) (R : E -> batch A -> Prop) bs :
  Forall (fun b => (dec b = D_skip /\ Exists bad (ba_instances b)) \/
    (exists e, dec b = D_example e /\ R e b /\ Forall (fun i => ~ bad i) (ba_instances b))) bs ->
  exists cs, spared bad bs cs /\ Forall2 R (sequential dec bs) cs.
Proof.
  induction 1 as [|b bs Hb HF (cs & C1 & C2)]; [exists []; split; constructor|]. cbn [sequential].
  destruct Hb as [[-> HE]|(e & -> & HR & HN)].
  - exists cs. split; [now apply sp_drop|exact C2].
  - exists (b :: cs). split; [now apply sp_keep|now constructor].
Qed.

(* ---------------- RecordIO files ---------------- *)

Lemma recordio_stores fls : Forall (fun fl => recordio_file (fst fl) (snd fl)) fls ->
  Forall2 store_instances (map (fun fl => recordio_store (fst fl)) fls) (map (fun fl => Spec_inst.numbered (tf_id (fst fl)) (snd fl)) fls).
Proof.
  induction 1 as [|[f ps] fls (H1 & rs & H2 & H3 & H4) HF IH]; [constructor|]. cbn [map fst snd] in *. constructor; [|exact IH].
  right. exists (map fst rs), ps. split; [|split; [exact H4|reflexivity]]. unfold recordio_store. cbn [sopen].
  rewrite H2, C07_recordio_round_trip by assumption. reflexivity.
Qed.

Lemma file_bits fls : map bits (file_instances fls) = concat (map snd fls).
Proof. exact (bits_instances fls). Qed.

Lemma usable_smaller size size' s : (size' <= size)%nat -> usable_schema size s -> usable_schema size' s.
Proof. intros H (H1 & batch & H2 & H3). split; [exact H1|]. exists batch. split; [lia|exact H3]. Qed.

Lemma all_or_some V size s is : usable_schema size s -> Forall (clean V) is -> Forall (good V s) is \/ Exists (fun i => ~ good V s i) is.
Proof.
  intros US C. induction C as [|i is C F IH]; [left; constructor|].
  destruct (good_dec V size s i US C) as [G|G]; [|right; left; auto]. destruct IH; [left; constructor; auto|right; right; auto].
Qed.

Lemma goods_all V s is : Forall (good V s) is -> exists ms, is = map Some ms /\ goods V s is ms /\ Forall (fits V s) ms.
Proof.
  induction 1 as [|i is (m & -> & Hm) HF (ms & -> & IH1 & IH2)]; [exists []; repeat constructor|].
  exists (m :: ms). split; [reflexivity|]. split; constructor; assumption.
Qed.

Section Pb.
  Context (V : Type) (vzero : V) (parse : list byte -> option (message V)).
  Context {rng : Type} (seeded : rng) (draw : nat -> rng -> nat * rng) (shuf : list Model_inst.instance -> rng -> list Model_inst.instance * rng) (size_max : nat).
  Context (p : rd_params) (h : beh) (sc : schema) (fls : list (text_file * list (list byte))).
  Context (dec : batch Model_inst.instance -> dres (example (feature V))) (M : machine Model_inst.instance).
  Context (src : nat -> list (batch Model_inst.instance)) (src_end : nat -> option exn).
  Context (HX : pb_reading V vzero parse seeded draw shuf size_max p h sc fls dec M src src_end).
  Context (bytes : batch Model_inst.instance -> nat).
  Context (cores np pr prefetch reads : nat) (HG : graph_params cores np pr = (prefetch, reads)) (HC : 1 <= cores).
  Context (s : @st (example (feature V))) (HR : reachable dec bytes src src_end prefetch reads s).

  Lemma pb_batches : src_end (epoch s) = None /\ file_batches p fls (src (epoch s)).
  Proof.
    destruct HX as (HF & Hcl & Hus & HM & Hr & Hd & Hp & Hm & Hb & Hfed & Hdec).
    exact (whole_batches seeded draw shuf size_max p _ _ M src src_end (recordio_stores fls HF) HM Hr Hd Hp Hm Hb Hfed s).
  Qed.

  Lemma pb_rows (P : list byte -> Prop) : Forall P (concat (map snd fls)) ->
    Forall (fun b => exists out, decode_batch V vzero h sc (ba_size b) (messages V parse b) out /\ dec b = dres_of out /\
      Forall (clean V) (messages V parse b) /\ length (messages V parse b) <= ba_size b /\ usable_schema (ba_size b) sc /\
      Forall (fun i => P (bits i)) (ba_instances b)) (src (epoch s)).
  Proof.
    intro HP. destruct HX as (HF & Hcl & Hus & HM & Hr & Hd & Hp & Hm & Hb & Hfed & Hdec).
    assert (HQ : Forall (fun i => P (bits i) /\ clean V (parse (bits i))) (file_instances fls)).
    { rewrite <- file_bits in HP, Hcl. rewrite Forall_map in HP, Hcl. rewrite Forall_forall in *. auto. }
    pose proof (whole_rows p _ _ _ Hb HQ (proj2 pb_batches)) as HW. rewrite Forall_forall in HW. rewrite Forall_forall. intros b Hin.
    destruct (Hdec _ _ Hin) as (out & D1 & D2). destruct (HW b Hin) as (W1 & W2 & W3). exists out.
    split; [exact D1|]. split; [exact D2|]. split; [|split; [|split]].
    - unfold messages. rewrite Forall_map. eapply Forall_impl; [|exact W1]. cbv beta. tauto.
    - unfold messages. now rewrite map_length.
    - eapply usable_smaller; eassumption.
    - eapply Forall_impl; [|exact W1]. cbv beta. tauto.
  Qed.

  Lemma pb_end : In O_end (log s) -> Forall (decodable dec) (src (epoch s)) /\ delivered (log s) = sequential dec (src (epoch s)).
  Proof. exact (whole_end src src_end dec bytes cores np pr prefetch reads HG HC s HR). Qed.

  Lemma pb_calls : Forall (decodable dec) (src (epoch s)) -> In O_end (log s) \/ length (concat (map snd fls)) < length (log s) -> In O_end (log s).
  Proof.
    destruct HX as (HF & Hcl & Hus & HM & Hr & Hd & Hp & Hm & Hb & Hfed & Hdec). rewrite <- file_bits, map_length.
    exact (whole_calls seeded draw shuf size_max p _ _ M src src_end (recordio_stores fls HF) HM Hr Hd Hp Hm Hb Hfed dec bytes cores np pr prefetch reads HG HC s HR).
  Qed.

  Definition full (e : example (feature V)) (b : batch Model_inst.instance) : Prop :=
    exists ms, messages V parse b = map Some ms /\ Forall (fits V sc) ms /\ example_of V sc (ba_size b) e ms.

  Lemma good_decodes b out : decode_batch V vzero h sc (ba_size b) (messages V parse b) out -> Forall (clean V) (messages V parse b) ->
    length (messages V parse b) <= ba_size b -> usable_schema (ba_size b) sc -> Forall (good V sc) (messages V parse b) ->
    exists e, out = Ok (Some e) /\ full e b.
  Proof.
    intros D1 W1 W2 W3 HGd. destruct (goods_all _ _ _ HGd) as (ms & Em & Gm & Fm).
    destruct (C68_all_good V vzero h (ba_size b) sc _ ms out W3 Gm) as (fs & -> & H1 & _); auto.
    { now rewrite Em, map_length. }
    eexists. split; [reflexivity|]. exists ms. split; [exact Em|]. split; [exact Fm|]. split; [reflexivity|]. split; [reflexivity|]. exact H1.
  Qed.

  Lemma pb_good : Forall (fun b => good V sc (parse b)) (concat (map snd fls)) ->
    In O_end (log s) \/ length (concat (map snd fls)) < length (log s) ->
    exists bs, file_batches p fls bs /\ Forall2 full (delivered (log s)) bs.
  Proof.
    intros Hgood HE0. pose proof (pb_rows _ Hgood) as HW.
    assert (HS : Forall (fun b => exists e, dec b = D_example e /\ full e b) (src (epoch s))).
    { eapply Forall_impl; [|exact HW]. cbv beta. intros b (out & D1 & D2 & W1 & W2 & W3 & W4).
      destruct (good_decodes b out D1 W1 W2 W3) as (e & -> & He). { unfold messages. rewrite Forall_map. exact W4. } eauto. }
    assert (HE : In O_end (log s)).
    { apply pb_calls; [|exact HE0]. eapply Forall_impl; [|exact HS]. intros b (e & He & _) x Hx. congruence. }
    exists (src (epoch s)). split; [apply pb_batches|]. rewrite (proj2 (pb_end HE)).
    clear - HS. induction HS as [|b bs (e & E1 & E2) HS IH]; [constructor|]. cbn [sequential]. rewrite E1. now constructor.
  Qed.

  Lemma pb_error : h = B_error -> In O_end (log s) -> exists bs, file_batches p fls bs /\ Forall2 full (delivered (log s)) bs.
  Proof.
    intros Hh HE. destruct (pb_end HE) as [HD ->]. exists (src (epoch s)). split; [apply pb_batches|].
    assert (HT : Forall (fun _ : list byte => True) (concat (map snd fls))) by (rewrite Forall_forall; auto).
    pose proof (pb_rows _ HT) as HW. clear HT.
    assert (HS : Forall (fun b => exists e, dec b = D_example e /\ full e b) (src (epoch s))).
    { rewrite Forall_forall in *. intros b Hin. destruct (HW b Hin) as (out & D1 & D2 & W1 & W2 & W3 & _). specialize (HD b Hin).
      assert (HGd : Forall (good V sc) (messages V parse b)).
      { destruct (all_or_some V _ sc _ W3 W1) as [G|G]; [exact G|]. exfalso. rewrite Hh in D1.
        pose proof (C68_error V vzero _ _ _ _ W3 G W1 W2 D1) as ->. exact (HD _ D2). }
      destruct (good_decodes b out D1 W1 W2 W3 HGd) as (e & -> & He). eauto. }
    clear - HS. induction HS as [|b bs (e & E1 & E2) HS IH]; [constructor|]. cbn [sequential]. rewrite E1. now constructor.
  Qed.

  Lemma pb_skip : h = B_skip \/ h = B_skip_warn -> In O_end (log s) \/ length (concat (map snd fls)) < length (log s) ->
    exists bs cs, file_batches p fls bs /\ spared (fun i => ~ good V sc (parse (bits i))) bs cs /\ Forall2 full (delivered (log s)) cs.
  Proof.
    intros Hh HE0.
    assert (HT : Forall (fun _ : list byte => True) (concat (map snd fls))) by (rewrite Forall_forall; auto).
    pose proof (pb_rows _ HT) as HW. clear HT.
    assert (HS : Forall (fun b => (dec b = D_skip /\ Exists (fun i => ~ good V sc (parse (bits i))) (ba_instances b)) \/
      (exists e, dec b = D_example e /\ full e b /\ Forall (fun i => ~ ~ good V sc (parse (bits i))) (ba_instances b))) (src (epoch s))).
    { eapply Forall_impl; [|exact HW]. cbv beta. intros b (out & D1 & D2 & W1 & W2 & W3 & _).
      destruct (all_or_some V _ sc _ W3 W1) as [G|G]; [right|left].
      - destruct (good_decodes b out D1 W1 W2 W3 G) as (e & -> & He). exists e. split; [exact D2|]. split; [exact He|].
        unfold messages in G. rewrite Forall_map in G. eapply Forall_impl; [|exact G]. cbv beta. tauto.
      - pose proof (C68_skip V vzero h _ _ _ _ W3 Hh G W1 W2 D1) as ->. split; [exact D2|].
        unfold messages in G. rewrite Exists_map in G. exact G. }
    assert (HE : In O_end (log s)).
    { apply pb_calls; [|exact HE0]. eapply Forall_impl; [|exact HS]. cbv beta. intros b [[He _]|(e & He & _)] x Hx; congruence. }
    destruct (sequential_spared dec _ full _ HS) as (cs & C1 & C2).
    exists (src (epoch s)), cs. split; [apply pb_batches|]. split; [exact C1|]. now rewrite (proj2 (pb_end HE)).
  Qed.

  Lemma pb_pad : h_pad h = true -> (has_sparse sc = false \/ Forall (fun b => good V sc (parse b) \/ found_early V sc (parse b)) (concat (map snd fls))) ->
    In O_end (log s) \/ length (concat (map snd fls)) < length (log s) ->
    exists bs, file_batches p fls bs /\
      Forall2 (fun e b => exists ms, goods V sc (messages V parse b) ms /\ example_of V sc (ba_size b) e ms) (delivered (log s)) bs.
  Proof.
    intros Hh Hs HE0.
    assert (HT : Forall (fun x => has_sparse sc = false \/ good V sc (parse x) \/ found_early V sc (parse x)) (concat (map snd fls))).
    { rewrite Forall_forall in *. intros x Hx. destruct Hs as [Hs|Hs]; [auto|]. right. auto. }
    pose proof (pb_rows _ HT) as HW. clear HT.
    assert (HS : Forall (fun b => exists e, dec b = D_example e /\
      exists ms, goods V sc (messages V parse b) ms /\ example_of V sc (ba_size b) e ms) (src (epoch s))).
    { eapply Forall_impl; [|exact HW]. cbv beta. intros b (out & D1 & D2 & W1 & W2 & W3 & W4).
      destruct (goods_exist V _ sc _ W3 W1) as (ms & Gm).
      assert (HO : exists fs, out = Ok (Some (mk_example sc fs (Z.of_nat (ba_size b) - Z.of_nat (length ms)))) /\
        Forall2 (holds_rows V (ba_size b) ms) (s_attributes sc) fs).
      { destruct (has_sparse sc) eqn:Hsp.
        - apply (C42_found_early_partial V vzero h (ba_size b) sc (messages V parse b)); auto. unfold messages. rewrite Forall_map.
          eapply Forall_impl; [|exact W4]. cbv beta. intros i [Hi|Hi]; [discriminate|exact Hi].
        - exact (C42_dense V vzero h (ba_size b) sc _ ms out W3 Hsp Hh Gm W1 W2 D1). }
      destruct HO as (fs & -> & HV). eexists. split; [exact D2|]. exists ms. split; [exact Gm|]. split; [reflexivity|]. split; [reflexivity|exact HV]. }
    assert (HE : In O_end (log s)).
    { apply pb_calls; [|exact HE0]. eapply Forall_impl; [|exact HS]. intros b (e & He & _) x Hx. congruence. }
    exists (src (epoch s)). split; [apply pb_batches|]. rewrite (proj2 (pb_end HE)).
    clear - HS. induction HS as [|b bs (e & E1 & E2) HS IH]; [constructor|]. cbn [sequential]. rewrite E1. now constructor.
  Qed.
End Pb.
