(* The examples of the epochs of a whole reader. *)
From Coq Require Import Permutation.
From Verif Require Import Common Model_rec Model_inst Spec_inst Proof_inst Proof_inst_shuffle Proof_inst_props Model_par Spec_par Proof_par Proof_par_props
  Model_text Spec_text Proof_text Model_whole Spec_whole Proof_whole Proof_wholegood Proof_repro.

Lemma batches_yield {A} (M : machine A) size last zs i bs : 0 < size -> batches_of size (effective last) 0 zs bs -> yields M i zs (Ok tt) ->
  yields (batch_reader size last M) (None, (0, i)) bs (Ok tt).
Proof.
  intros Hs HB Hi. destruct last; cbn [effective] in HB; try (apply (batch_ok M size _ Hs 0 zs bs); [discriminate|exact HB|exact Hi]).
  change (yields (batch_reader size last_none M) (None, (0, i)) bs (Ok tt)). apply (batch_ok M size _ Hs 0 zs bs); [discriminate|exact HB|exact Hi].
Qed.

Lemma yields_core {A} (M : machine A) zs s : yields M (None, s) zs (Ok tt) ->
  match zs with
  | [] => fst (m_core M s) = Ok None
  | z :: zs' => exists s', m_core M s = (Ok (Some z), s') /\ yields M (None, s') zs' (Ok tt)
  end.
Proof.
  intro H. pose proof (yields_read _ _ _ _ H) as HR. destruct zs as [|z zs]; destruct HR as (s' & E1 & HR); unfold b_read in E1; cbn [fst snd] in E1.
  - destruct (m_core M s) as [r s1]. injection E1 as -> _. reflexivity.
  - destruct (m_core M s) as [r s1]. injection E1 as -> <-. eauto.
Qed.

Lemma yields_ends (M : machine instance) : forall zs k s, yields M (None, cores_after M k s) zs (Ok tt) ->
  fst (m_core M (cores_after M (length zs + k) s)) = Ok None.
Proof.
  induction zs as [|z zs IH]; intros k s H; pose proof (yields_core M _ _ H) as HC; [exact HC|].
  destruct HC as (s' & E1 & H'). cbn [length]. replace (S (length zs) + k) with (length zs + S k) by lia. apply IH.
  cbn [cores_after]. rewrite E1. exact H'.
Qed.

Section Epochs.
  Context {rng : Type} (seeded : rng) (draw : nat -> rng -> nat * rng) (shuf : list instance -> rng -> list instance * rng) (size_max : nat).
  Context (p : rd_params) (ds : list store) (iss : list (list instance)) (M : machine instance).
  Context {E : Type} (decode : batch instance -> dres E) (size_bytes : batch instance -> nat).
  Hypothesis HF : Forall2 store_instances ds iss.
  Hypothesis HM : make_instance_reader seeded draw shuf size_max p ds = Ok M.
  Hypothesis Hr : forall r, p_ratio p = Some r -> float_ratio r.
  Hypothesis Hd : forall w g, 0 < w -> fst (draw w g) < w.
  Hypothesis Hp : forall l g, Permutation (fst (shuf l g)) l.
  Hypothesis Hm : length (concat iss) < size_max.
  Hypothesis Hb : 0 < p_batch p.

  (* what is received when the epoch began in the state m *)
  Lemma gets_from cores np pr prefetch reads w m n stt zs bs : graph_params cores np pr = (prefetch, reads) -> 1 <= cores ->
    w_reachable M (p_batch p) (p_last p) decode size_bytes prefetch reads w ->
    bpath M (p_batch p) (p_last p) (0, looked M n m) (w_read w) (w_reader w) stt -> flags (w_par w) stt ->
    yields M (None, m) zs (Ok tt) -> batches_of (p_batch p) (effective (p_last p)) 0 zs bs ->
    receives (sequential decode bs) (log (w_par w)).
  Proof.
    intros HG HC HR HB Hf Hz Hbs.
    assert (HY : yields (batch_reader (p_batch p) (p_last p) M) (None, (0, looked M n m)) bs (Ok tt)).
    { apply (batches_yield M _ _ zs); [exact Hb|exact Hbs|]. apply yields_peeks. exact Hz. }
    destruct (K_delivers seeded draw shuf size_max p ds iss M decode size_bytes cores np pr prefetch reads HF HM Hr Hd Hp Hm Hb HG HC w _ stt bs HR HB Hf HY)
      as (rest & E1 & E2).
    exists rest. split; [exact E1|]. intro Hin. destruct (E2 Hin) as (-> & _ & H). auto.
  Qed.

  Lemma some_batches (zs : list instance) : exists bs, batches_of (p_batch p) (effective (p_last p)) 0 zs bs.
  Proof. exact (batches_of_total (p_batch p) (effective (p_last p)) Hb (S (length zs)) 0 zs (le_n _)). Qed.

  Theorem same_every_epoch : p_shuffle p = false \/ p_reshuffle p = false ->
    exists ys zs bs, selected p (concat iss) ys /\ ordered p ys zs /\ batches_of (p_batch p) (effective (p_last p)) 0 zs bs /\
      forall cores np pr prefetch reads w, graph_params cores np pr = (prefetch, reads) -> 1 <= cores ->
        w_reachable M (p_batch p) (p_last p) decode size_bytes prefetch reads w -> receives (sequential decode bs) (log (w_par w)).
  Proof.
    intro Hsh. destruct (reader_ok_init seeded draw shuf size_max p ds iss M HF HM Hr Hd Hp Hm) as (ys & zs & H1 & H2 & H3). apply yields_iff in H3.
    destruct (some_batches zs) as (bs & HB). exists ys, zs, bs. split; [exact H1|]. split; [exact H2|]. split; [exact HB|].
    intros cores np pr prefetch reads w HG HC HR.
    pose proof (make_resets seeded draw shuf size_max p ds M HM Hsh) as Hrs.
    destruct (K_all seeded draw shuf size_max p ds iss M decode size_bytes cores np pr prefetch reads HF HM Hr Hd Hp Hm Hb HG HC
      (fun _ => True) (fun _ m => m = m_init M) eq_refl (fun w m n stt _ _ _ _ _ => Hrs _) w) as (m & n & stt & -> & Hbp & Hf).
    { apply (reach_resets p M decode size_bytes prefetch reads). exact HR. }
    eapply gets_from; eauto.
  Qed.

End Epochs.

(* ---------------- reshuffling ---------------- *)

Section Reshuffled.
  Context {rng : Type} (seeded : rng) (draw : nat -> rng -> nat * rng) (shuf : list instance -> rng -> list instance * rng) (size_max : nat).
  Context (p : rd_params) (ds : list store) (iss : list (list instance)).
  Context {E : Type} (decode : batch instance -> dres E) (size_bytes : batch instance -> nat).
  Hypothesis HF : Forall2 store_instances ds iss.
  Hypothesis Hr : forall r, p_ratio p = Some r -> float_ratio r.
  Hypothesis Hd : forall w g, 0 < w -> fst (draw w g) < w.
  Hypothesis Hp : forall l g, Permutation (fst (shuf l g)) l.
  Hypothesis Hm : length (concat iss) < size_max.
  Hypothesis Hb : 0 < p_batch p.
  Hypothesis Hs : p_shuffle p = true.
  Hypothesis Hrs : p_reshuffle p = true.

  Lemma delivered_read M (HM : make_instance_reader seeded draw shuf size_max p ds = Ok M) cores np pr prefetch reads w : graph_params cores np pr = (prefetch, reads) -> 1 <= cores ->
    w_reachable M (p_batch p) (p_last p) decode size_bytes prefetch reads w -> delivered (log (w_par w)) <> [] -> w_read w <> [].
  Proof.
    intros HG HC HR HD Hn. apply HD. clear HD.
    destruct (good_J seeded draw shuf size_max p ds iss M decode size_bytes cores np pr prefetch reads HF HM Hr Hd Hp Hm Hb HG HC w HR) as (src & src_end & HJ).
    pose proof (j_reach _ _ _ _ _ _ _ _ _ _ _ HJ) as Hre. set (s := w_par w) in *.
    assert (HI : inv decode size_bytes src src_end prefetch reads s) by (eapply reach_inv; eauto).
    destruct (rstate_started (rstate s)) as [Ers|Ers].
    - destruct (i_new _ _ _ _ _ _ _ HI Ers) as [E1|E1]; rewrite E1; reflexivity.
    - destruct (j_cur _ _ _ _ _ _ _ _ _ _ _ HJ Ers) as [Ew _]. fold s in Ew. rewrite Hn in Ew.
      pose proof (i_next _ _ _ _ _ _ _ HI) as Hx. pose proof (i_ord _ _ _ _ _ _ _ HI) as Ho.
      assert (Ef : firstn (o_next s) (src (epoch s)) = []).
      { apply (f_equal (firstn (o_next s))) in Ew. rewrite firstn_firstn, firstn_nil in Ew. replace (Nat.min (o_next s) (s_next s)) with (o_next s) in Ew by lia. auto. }
      destruct (i_data _ _ _ _ _ _ _ HI) as (rest & Hdt & _). rewrite Ef in Hdt. cbn in Hdt. apply app_eq_nil in Hdt. apply Hdt.
  Qed.

  Theorem same_when_settled M e : make_instance_reader seeded draw shuf size_max p ds = Ok M ->
    exists ys zs bs, selected p (concat iss) ys /\ ordered p ys zs /\ batches_of (p_batch p) (effective (p_last p)) 0 zs bs /\
      forall cores np pr prefetch reads w, graph_params cores np pr = (prefetch, reads) -> 1 <= cores ->
        w_resets M (p_batch p) (p_last p) decode size_bytes prefetch reads (fun w => settled (p_window p) (length (concat iss)) (log (w_par w))) w -> epoch (w_par w) = e ->
        receives (sequential decode bs) (log (w_par w)).
  Proof.
    intro HM. destruct (make_split seeded draw shuf size_max p ds M HM) as (M3 & H3 & EM). rewrite Hs, Hrs in EM.
    pose proof (make3_resets seeded draw shuf size_max _ _ _ H3) as Hr3. destruct (make3_ok seeded draw shuf size_max p ds iss M3 HF H3 Hr) as (ys & Hsel & Hy).
    assert (Hlen : length ys <= length (concat iss)) by (eapply @selected_len; eauto).
    assert (Hok : forall g, exists zs, Permutation zs ys /\ (0 < p_window p -> displaced (p_window p) ys zs) /\
      yields (shuffled seeded draw shuf size_max (p_window p) true M3) (None, ([], true, g, b_init M3)) zs (Ok tt)).
    { intro g. destruct (shuffled_ok M3 seeded draw shuf size_max Hp (p_window p) true g (b_init M3) ys) as (zs & Hz & HP & HD); eauto.
      - lia. - right. lia. }
    assert (Hsd : forall e, exists g, seeds seeded draw shuf size_max (p_window p) M3 e g).
    { clear e. induction e as [|e (g & IH)]; [eexists; constructor|]. destruct (Hok g) as (zs & _ & _ & Hz).
      eexists. eapply (sd_next _ _ _ _ _ _ e g (S (length zs + 0))); [exact IH|]. cbn [cores_after]. apply end_drained; [lia|].
      apply yields_ends. exact Hz. }
    destruct (Hsd e) as (g & Hg). destruct (Hok g) as (zs & HP & HD & Hz). destruct (some_batches p Hb zs) as (bs & HB).
    exists ys, zs, bs. split; [exact Hsel|]. split; [unfold ordered; rewrite Hs; auto|]. split; [exact HB|].
    intros cores np pr prefetch reads w HG HC HR He.
    subst M.
    destruct (K_all seeded draw shuf size_max p ds iss _ decode size_bytes cores np pr prefetch reads HF HM Hr Hd Hp Hm Hb HG HC
      (fun w => settled (p_window p) (length (concat iss)) (log (w_par w))) (fun e m => exists g, seeds seeded draw shuf size_max (p_window p) M3 e g /\ m = ([], true, g, b_init M3))
      (ex_intro _ seeded (conj (sd_first _ _ _ _ _ _) eq_refl))) with (w := w) as (m & n & stt & (g' & Hg' & ->) & Hbp & Hf).
    - clear w HR He. intros w m n stt HRw Hw (g1 & Hg1 & ->) Hbp Hf.
      destruct (bpath_iter _ _ _ _ _ _ _ _ Hb Hbp) as (k & (Ek & _) & Hk & Hend).
      assert (HDr : drained (p_window p) M3 (cores_after (shuffled seeded draw shuf size_max (p_window p) true M3) k ([], true, g1, b_init M3))).
      { destruct Hw as [Hw|[Hw|[Hw Hw2]]].
        - destruct (good_J seeded draw shuf size_max p ds iss _ decode size_bytes cores np pr prefetch reads HF HM Hr Hd Hp Hm Hb HG HC w HRw) as (src & src_end & HJ).
          pose proof (end_logged decode size_bytes src src_end cores np pr prefetch reads HG HC _ (j_reach _ _ _ _ _ _ _ _ _ _ _ HJ) Hw) as He1.
          destruct (Hend (proj1 Hf He1)) as (j & Ej & Hj). rewrite <- Ek, Ej. cbn [cores_after]. apply end_drained; [lia|exact Hj].
        - left. exact Hw.
        - pose proof (Hk (delivered_read _ HM _ _ _ _ _ w HG HC HRw Hw2)) as Hk1. apply (drained_mono _ _ _ _ _ _ _ 1); [exact Hk1|].
          cbn [cores_after]. apply full_drained with (ys := ys); [exact Hp|lia|exact Hy|lia]. }
      rewrite Ek. eexists. split; [eapply sd_next; [exact Hg1|exact HDr]|].
      destruct (cores_after _ k _) as [[[buf has] g2] i]. cbn. f_equal. apply resets_b. exact Hr3.
    - exact HR.
    - subst e. rewrite <- (seeds_same _ _ _ _ _ _ _ _ _ Hg Hg') in Hbp. eapply gets_from; eauto. eapply resets_reach. exact HR.
  Qed.
End Reshuffled.

(* ---------------- several readers ---------------- *)

Section Shards.
  Context {E X : Type} (decode : batch instance -> dres E) (content : E -> list X) (item : instance -> X).
  Hypothesis Hc : forall b e, length (ba_instances b) <= ba_size b -> decode b = D_example e -> content e = map item (ba_instances b).
  Hypothesis Hns : forall b, length (ba_instances b) <= ba_size b -> decode b <> D_skip.

  Lemma contents_all bs : Forall (fun b => length (ba_instances b) <= ba_size b) bs -> Forall (decodable decode) bs ->
    concat (map content (sequential decode bs)) = map item (concat (map ba_instances bs)).
  Proof.
    induction 1 as [|b bs Hl HF IH]; intro HD; [reflexivity|]. inversion HD as [|? ? H1 H2]; subst. cbn [sequential map concat].
    destruct (decode b) as [e| |x] eqn:Eb.
    - cbn [map concat]. rewrite map_app, (Hc b e Hl Eb), (IH H2). reflexivity.
    - destruct (Hns b Hl Eb).
    - destruct (H1 x Eb).
  Qed.

  Lemma shard_delivers {rng} (seeded : rng) draw shuf size_max p ds iss M bytes cores np pr prefetch reads w skip take i num :
    Forall2 store_instances ds iss -> make_instance_reader seeded draw shuf size_max p ds = Ok M ->
    (forall w g, 0 < w -> fst (draw w g) < w) -> (forall l g, Permutation (fst (shuf l g)) l) ->
    length (concat iss) < size_max -> 0 < p_batch p -> graph_params cores np pr = (prefetch, reads) -> 1 <= cores ->
    p_skip p = skip -> p_take p = take -> p_shard_index p = i -> p_num_shards p = num -> p_ratio p = None ->
    p_last p <> last_drop -> p_last p <> last_drop_warn -> i < num ->
    w_reachable M (p_batch p) (p_last p) decode bytes prefetch reads w -> In O_end (log (w_par w)) ->
    Permutation (concat (map content (delivered (log (w_par w))))) (map item (shard_of i num (range_of skip take (concat iss)))).
  Proof.
    intros HF HM Hd Hp Hm Hb HG HC P1 P2 P3 P4 P5 P6 P7 Hi HR HE.
    assert (Hr : forall r, p_ratio p = Some r -> float_ratio r) by (rewrite P5; discriminate).
    destruct (good_refines seeded draw shuf size_max p ds iss M decode bytes cores np pr prefetch reads HF HM Hr Hd Hp Hm Hb HG HC w HR) as (src & src_end & Hf & Hre).
    destruct (pipeline seeded draw shuf size_max p ds iss M src src_end decode bytes cores np pr prefetch reads (w_par w)
      HF HM Hr Hd Hp Hm Hb Hf HG HC Hre HE) as (ys & zs & bs & n & H1 & H2 & H3 & _ & H5 & _ & H7).
    rewrite H7, contents_all by (exact (batches_sizes _ _ _ _ _ H3) || exact H5). apply Permutation_map.
    destruct (batches_meaning _ _ _ _ _ Hb H3) as ((rest & R1 & _ & R3) & _).
    assert (rest = []) as -> by (destruct R3 as [->|R3]; [reflexivity|exfalso; destruct (p_last p); cbn in R3; destruct R3; congruence]).
    rewrite app_nil_r in R1. rewrite R1.
    assert (HZ : Permutation zs ys) by (unfold ordered in H2; destruct (p_shuffle p); [apply H2|subst; reflexivity]).
    rewrite HZ. unfold selected in H1. rewrite P1, P2, P3, P4, P5 in H1. destruct (Nat.ltb_spec 1 num) as [L|L]; subst ys; [reflexivity|].
    assert (num = 1) as -> by lia. replace i with 0 by lia.
    pose proof (shards_partition 1 (range_of skip take (concat iss)) (le_n 1)) as HS. cbn [seq map concat] in HS. rewrite app_nil_r in HS. symmetry. exact HS.
  Qed.

  Lemma concat_perm {Y} (f g : nat -> list Y) l : (forall i, In i l -> Permutation (f i) (g i)) -> Permutation (concat (map f l)) (concat (map g l)).
  Proof.
    induction l as [|i l IH]; intro H; [constructor|]. cbn. apply Permutation_app; [apply H; left; reflexivity|]. apply IH. intros j Hj. apply H. right. exact Hj.
  Qed.
End Shards.
