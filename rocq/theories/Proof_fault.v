(* Faults from the data store to the client. *)
From Coq Require Import Permutation.
From Verif Require Import Common Model_rec Model_inst Spec_inst Proof_inst Proof_inst_core Proof_inst_filters Proof_inst_shuffle Proof_inst_props
  Model_par Spec_par Proof_par_props Model_text Spec_text Proof_text Spec_rec Proof_rec_props Props_rec Model_pbfile Spec_pbfile Spec_fault.

Local Arguments fill_inner : simpl never.
Local Arguments Nat.ltb : simpl never.
Local Arguments Nat.eqb : simpl never.

(* ---------------- the store ---------------- *)

Lemma sticky_yields {A} (M : machine A) s xs x : reads_as_sticky M s xs (Throw x) -> yields M s xs (Throw x).
Proof.
  intro H. apply yields_iff. cbn. rewrite (H (S (length xs))).
  rewrite firstn_app, map_length, firstn_all2 by (rewrite map_length; lia).
  replace (S (length xs) - length xs) with 1 by lia. reflexivity.
Qed.

(* a store that cannot be opened *)
Lemma read_unopened d post x s : fresh (d :: post) s -> sopen d = Throw x ->
  exists s', core_read s = (Throw x, s').
Proof.
  intros (Hi & Hb & Hr) Ho. destruct s as [it st rd ki kr bad]. cbn in Hi, Hb, Hr. subst it bad.
  unfold core_read, read_payload. cbn [c_bad]. unfold core_read_record. cbn [c_reader].
  destruct Hr as [-> | ->].
  - unfold init_next. cbn [c_iter]. rewrite Ho. eexists. reflexivity.
  - cbn [c_iter length Nat.add]. rewrite Nat.add_1_r. cbn [rr_loop c_reader rr_read cast_err].
    unfold init_next. cbn [c_iter]. rewrite Ho. eexists. reflexivity.
Qed.

Lemma stores_fresh ds0 pre iss : Forall2 store_instances pre iss -> forall post s, fresh (pre ++ post) s ->
  exists s' s'', delivers (core_reader ds0) (None, s) (concat iss) (None, s') /\ fresh post s'' /\
    core_read s' = core_read s''.
Proof.
  induction 1 as [|d is pre iss Hd HF IH]; intros post s Hs.
  - exists s, s. split; [constructor|]. auto.
  - cbn [concat app] in *. assert (Hod : opens (d :: pre ++ post)).
    { destruct Hd as [[Eo _]|(rs & ps & Eo & _)]; eexists; exact Eo. }
    pose proof (fresh_core' _ _ Hs Hod) as Ec. destruct Hd as [[Eo ->]|(rs & ps & Eo & HG & ->)].
    + destruct (IH post (mk_core (pre ++ post) (Some (sid d)) None 0 0 false)) as (s' & s'' & Hd & E').
      { repeat split. left. reflexivity. }
      exists s', s''. split; [|exact E']. cbn [app]. econstructor; [|exact Hd]. apply b_read_core. cbn [m_core core_reader].
      rewrite Ec. unfold core_read, read_payload, core_init, core_read_record, init_next. cbn. rewrite Eo. reflexivity.
    + destruct (store_delivers ds0 (sid d) (pre ++ post) (Ok tt) [] rs ps HG 0 0) as (c' & Hd). rewrite app_nil_r in Hd.
      destruct (IH post _ (fresh_inside (sid d) (pre ++ post) (length ps + 0) c')) as (s' & s'' & Hd' & E').
      pose proof (enter_store d (pre ++ post) rs (Ok tt) Eo) as Ee.
      change (numbered_from (sid d) 0 ps) with (numbered (sid d) ps) in Hd.
      pose proof (delivers_app _ _ _ _ _ _ Hd Hd') as Hall.
      destruct (numbered (sid d) ps ++ concat iss) as [|x xs] eqn:El.
      * exists s, s''. split; [constructor|]. inversion Hall; subst. split; [apply E'|]. rewrite Ec, Ee. apply E'.
      * exists s', s''. split; [|exact E']. eapply delivers_same; [|exact Hall]. cbn [m_core core_reader]. rewrite Ec, Ee. reflexivity.
Qed.

Lemma unopened pre iss d post x : Forall2 store_instances pre iss -> sopen d = Throw x ->
  yields (core_reader (pre ++ d :: post)) (b_init (core_reader (pre ++ d :: post))) (concat iss) (Throw x).
Proof.
  intros HF Ho. set (ds0 := pre ++ d :: post).
  destruct (stores_fresh ds0 pre iss HF (d :: post) (core_init ds0) (fresh_init _)) as (s' & s'' & Hd & Hf & E).
  rewrite <- (app_nil_r (concat iss)). eapply delivers_yields; [exact Hd|].
  destruct (read_unopened d post x s'' Hf Ho) as (s3 & E3).
  eapply y_err; [discriminate|]. apply b_read_core. cbn [m_core core_reader cast_err]. rewrite E. exact E3.
Qed.

(* an error inside a split record *)
Lemma inside_split pre iss d post rs ps bad x :
  Forall2 store_instances pre iss -> sopen d = Ok (Some (rs ++ bad, Throw x)) -> groups rs ps -> truncated bad ->
  yields (core_reader (pre ++ d :: post)) (b_init (core_reader (pre ++ d :: post))) (concat iss ++ numbered (sid d) ps) (Throw x).
Proof.
  intros HF Eo HG (b & ms & -> & Hb & Hm). set (ds0 := pre ++ d :: post).
  destruct (stores_deliver ds0 pre iss HF (d :: post) (core_init ds0) (ex_intro _ _ Eo) (fresh_init _)) as (s' & Hd & E).
  eapply delivers_yields; [exact Hd|]. eapply first_step.
  { cbn [m_core core_reader]. rewrite E. apply enter_store. exact Eo. }
  destruct (store_delivers ds0 (sid d) post (Throw x) (b :: ms) rs ps HG 0 0) as (c' & Hd').
  change (numbered_from (sid d) 0 ps) with (numbered (sid d) ps) in Hd'.
  rewrite <- (app_nil_r (numbered (sid d) ps)). eapply delivers_yields; [exact Hd'|].
  eapply y_err; [discriminate|]. apply b_read_core. cbn [m_core core_reader cast_err].
  unfold core_read, read_payload. cbn [c_bad inside]. fold (inside (sid d) post (b :: ms) (Throw x) (length ps + 0) c').
  rewrite read_one, Hb. change (kBegin =? kComplete)%N with false. rewrite N.eqb_refl. set (fuel := records_left _ + 1).
  assert (Hf : length ms < fuel).
  { subst fuel. unfold records_left, inside. cbn [c_reader reader_len fst]. lia. }
  pose proof (split_mid (sid d) post (Throw x) (length ps + 0) [] ms fuel (S c') (payload b) Hm ltac:(lia)) as HS.
  rewrite app_nil_r in HS. rewrite HS. destruct (fuel - length ms) as [|f] eqn:Ef; [lia|]. cbn [split_loop].
  rewrite read_err by discriminate. reflexivity.
Qed.

Lemma faulty_reads ds xs x : faulty ds xs x -> yields (core_reader ds) (b_init (core_reader ds)) xs (Throw x).
Proof.
  intros (pre & iss & d & is & post & -> & HF & Hd & ->). destruct Hd as [x Ho|rs ps x Ho HG|rs ps bad x Ho HG HT|rs ps bad e Ho HG HB].
  - rewrite app_nil_r. now apply unopened.
  - apply sticky_yields. apply (reader_error pre iss d post rs ps (Throw x)); auto. discriminate.
  - now apply (inside_split pre iss d post rs ps bad).
  - apply sticky_yields. now apply (framing_error pre iss d post rs ps bad e).
Qed.

(* ---------------- sampling ---------------- *)

Section SampleErr.
  Context {A : Type} (M : machine A) (keepr : nat -> res nat) (keep : nat -> nat) (x : exn).
  Hypothesis keepr_ok : forall n, n <= 100 -> keepr n = Ok (keep n).
  Hypothesis keep_le : forall n, n <= 100 -> keep n <= n.
  Hypothesis keep_some : 0 < keep 100.
  Local Notation SM := (sampled keepr M).

  Lemma sampled_fault : forall k xs, length xs < k -> forall ys s i,
    sample_of keep (firstn (100 * (length xs / 100)) xs) ys ->
    drained M s i -> yields M i xs (Throw x) -> yields SM (None, s) ys (Throw x).
  Proof.
    induction k as [|k IH]; intros xs Hk ys s i HS Hd Hi; [lia|].
    pose proof (fill_inner_spec M 100 i xs (Throw x) [] Hi) as HF.
    destruct (Nat.leb_spec 100 (length xs)) as [Hl|Hl]; destruct HF as (i' & E & Hi').
    - set (b := firstn 100 xs) in *. set (r := skipn 100 xs) in *.
      assert (Hb : length b = 100) by (subst b; rewrite firstn_length; lia).
      assert (Hr : length r = length xs - 100) by apply skipn_length.
      assert (Ed : length xs / 100 = S (length r / 100)).
      { rewrite Hr. replace (length xs) with (length xs - 100 + 1 * 100) at 1 by lia. rewrite Nat.div_add by lia. lia. }
      assert (Ex : firstn (100 * (length xs / 100)) xs = b ++ firstn (100 * (length r / 100)) r).
      { rewrite Ed. rewrite <- (firstn_skipn 100 xs) at 1. fold b r.
        replace (100 * S (length r / 100)) with (length b + 100 * (length r / 100)) by (rewrite Hb; lia).
        rewrite firstn_app_2. reflexivity. }
      rewrite Ex in HS. set (r' := firstn (100 * (length r / 100)) r) in *.
      assert (exists ys', ys = firstn (keep 100) b ++ ys' /\ sample_of keep r' ys') as (ys' & -> & HS').
      { inversion HS as [b0 Hb0 E1 E2|b0 l0 ys0 Hb0 HS0 E1 E2]; subst.
        - exfalso. rewrite app_length in Hb0. lia.
        - exists ys0. assert (b0 = b) as ->.
          { apply (f_equal (firstn 100)) in E1. rewrite <- Hb0 in E1 at 1. rewrite firstn_len in E1. rewrite <- Hb in E1 at 1.
            rewrite firstn_len in E1. exact E1. }
          apply app_inv_head in E1. subst. auto. }
      cbn [app] in E. rewrite <- Hb.
      apply (sampled_refill M keepr keep keepr_ok keep_le s i b true i' ys' (Throw x)); auto.
      + intro E0. rewrite E0 in Hb. discriminate.
      + lia.
      + rewrite Hb. exact keep_some.
      + intros s' Hs'. apply (IH r) with (i := i'); auto. lia.
    - rewrite Nat.div_small in HS by exact Hl. cbn [Nat.mul firstn] in HS. change (100 * 0) with 0 in HS. cbn [firstn] in HS.
      assert (ys = []) as ->.
      { inversion HS as [b0 Hb0 E1 E2|b0 l0 ys0 Hb0 HS0 E1 E2]; subst; [now rewrite firstn_nil|].
        apply app_eq_nil in E1. destruct E1 as [-> _]. discriminate. }
      destruct Hd as (buf & pos & -> & Hp). cbn [cast_err app] in E.
      eapply y_err; [discriminate|]. apply b_read_core. cbn [m_core sampled cast_err].
      destruct (Nat.eqb_spec pos (length buf)) as [_|]; [|lia]. rewrite E. reflexivity.
  Qed.
End SampleErr.

(* ---------------- shuffling ---------------- *)

Section ShuffleErr.
  Context {A : Type} (M : machine A).
  Context {rng : Type} (seeded : rng) (draw : nat -> rng -> nat * rng) (shuf : list A -> rng -> list A * rng).
  Context (size_max window : nat) (reshuffle : bool) (x : exn).
  Hypothesis draw_lt : forall g, 0 < window -> fst (draw window g) < window.
  Hypothesis max_pos : 0 < size_max.
  Local Notation SH := (shuffled seeded draw shuf size_max window reshuffle M).
  Local Notation w := (if window =? 0 then size_max else window).

  Lemma sh_fill_fault : forall room buf g i xs, yields M i xs (Throw x) ->
    if room <=? length xs
    then exists i', sh_fill shuf M room (buf, true, g, i) = (Ok tt, (buf ++ firstn room xs, true, g, i')) /\
           yields M i' (skipn room xs) (Throw x)
    else exists s', sh_fill shuf M room (buf, true, g, i) = (Throw x, s').
  Proof.
    induction room as [|room IH]; intros buf g i xs H; [exists i; rewrite app_nil_r; auto|].
    pose proof (yields_read _ _ _ _ H) as HR.
    destruct xs as [|y xs]; cbn [length Nat.leb skipn firstn sh_fill]; destruct HR as (i' & E & HR); rewrite E.
    - eexists. reflexivity.
    - specialize (IH (buf ++ [y]) g i' xs HR). rewrite <- app_assoc in IH. exact IH.
  Qed.

  Lemma shuffled_fault : window <> 1 -> forall k buf g i xs, length xs < k -> yields M i xs (Throw x) ->
    length buf <= w -> (0 < window \/ length buf + length xs < size_max) -> (0 < window -> length buf <= window - 1) ->
    exists ys lost, yields SH (None, (buf, true, g, i)) ys (Throw x) /\ Permutation (ys ++ lost) (buf ++ xs) /\
      (if window =? 0 then ys = [] else length lost = min (length buf + length xs) (window - 1)) /\
      forall j, exists others, Permutation (firstn j ys ++ others) (buf ++ firstn (j + w - 1 - length buf) xs).
  Proof.
    intro not1. induction k as [|k IH]; intros buf g i xs Hk Hi Hb Hw Hlb; [lia|].
    assert (Hpos : 0 < w) by (destruct (Nat.eqb_spec window 0); lia).
    pose proof (sh_fill_fault (w - length buf) buf g i xs Hi) as HF. set (room := w - length buf) in *.
    destruct (Nat.leb_spec room (length xs)) as [Hr|Hr].
    - destruct HF as (i' & E & Hi'). set (full := buf ++ firstn room xs) in *.
      assert (Hfl : length full = w).
      { subst full. rewrite app_length, firstn_length. rewrite Nat.min_l by exact Hr. subst room. lia. }
      assert (Hwin : 0 < window).
      { destruct Hw as [|Hw]; [assumption|]. destruct (Nat.eqb_spec window 0) as [E0|]; [|lia]. subst room. lia. }
      assert (Ew : (if window =? 0 then size_max else window) = window). { destruct (Nat.eqb_spec window 0); lia. }
      specialize (Hlb Hwin).
      destruct (draw window g) as [d g'] eqn:Ed.
      assert (Hd : d < length full). { rewrite Hfl, Ew. specialize (draw_lt g Hwin). rewrite Ed in draw_lt. exact draw_lt. }
      destruct (pop_at_ok d full Hd) as (y & buf' & Ep & HP).
      assert (Hl' : length buf' = w - 1). { apply Permutation_length in HP. cbn in HP. lia. }
      assert (Hs : length (skipn room xs) = length xs - room) by apply skipn_length.
      destruct (IH buf' g' i' (skipn room xs)) as (ys & lost & Hy & HPy & Hll & Hj).
      + lia.
      + exact Hi'.
      + lia.
      + left. exact Hwin.
      + lia.
      + exists (y :: ys), lost. split; [|split; [|split]].
        * apply (y_item SH _ _ (buf', true, g', i')); [|exact Hy].
          cbn [m_core shuffled fst]. destruct (Nat.eqb_spec window 1); [lia|]. fold room. rewrite E.
          destruct full as [|f0 full']; [cbn in Hd; lia|]. rewrite Ed, Ep. reflexivity.
        * cbn [app]. transitivity (y :: buf' ++ skipn room xs); [now constructor|].
          change (y :: buf' ++ skipn room xs) with ((y :: buf') ++ skipn room xs). rewrite HP. subst full.
          rewrite <- app_assoc, firstn_skipn. reflexivity.
        * destruct (Nat.eqb_spec window 0); [lia|]. rewrite Hll. lia.
        * intros [|j].
          -- eexists. cbn [firstn app]. reflexivity.
          -- destruct (Hj j) as (others & Ho). exists others. cbn [firstn app]. rewrite Ho.
             change (y :: buf' ++ firstn (j + w - 1 - length buf') (skipn room xs))
               with ((y :: buf') ++ firstn (j + w - 1 - length buf') (skipn room xs)). rewrite HP. subst full.
             rewrite <- app_assoc. apply Permutation_app_head.
             replace (j + w - 1 - length buf') with j by lia.
             replace (S j + w - 1 - length buf) with (room + j) by (subst room; lia).
             rewrite <- (firstn_skipn room xs) at 3.
             rewrite firstn_app, firstn_length, Nat.min_l by exact Hr.
             rewrite firstn_firstn. replace (Nat.min (room + j) room) with room by lia.
             replace (room + j - room) with j by lia. reflexivity.
    - destruct HF as (s' & E). exists [], (buf ++ xs). split; [|split; [reflexivity|split]].
      + eapply y_err; [discriminate|]. apply b_read_core. cbn [m_core shuffled fst].
        destruct (Nat.eqb_spec window 1); [lia|]. fold room. rewrite E. reflexivity.
      + destruct (Nat.eqb_spec window 0); [reflexivity|]. rewrite app_length. subst room. lia.
      + intros j. eexists. destruct j; cbn [firstn app]; reflexivity.
  Qed.

  Lemma shuffled_one g : window = 1 -> forall xs i, yields M i xs (Throw x) -> yields SH (None, ([], true, g, i)) xs (Throw x).
  Proof.
    intro H1. induction xs as [|y xs IH]; intros i Hi; pose proof (yields_read _ _ _ _ Hi) as (i' & E & Hi').
    - eapply y_err; [discriminate|]. apply b_read_core. cbn [m_core shuffled]. rewrite H1. change (1 =? 1) with true. cbn iota.
      rewrite E. reflexivity.
    - apply (y_item SH _ _ ([], true, g, i')); [|apply IH; exact Hi'].
      cbn [m_core shuffled]. rewrite H1. change (1 =? 1) with true. cbn iota. rewrite E. reflexivity.
  Qed.
End ShuffleErr.

(* ---------------- batches ---------------- *)

Lemma batch_fault {A} (M : machine A) size last x : 0 < size -> forall k xs idx i bs, length xs < k ->
  yields M i xs (Throw x) -> batches_of size last_drop idx xs bs -> yields (batch_reader size last M) (None, (idx, i)) bs (Throw x).
Proof.
  intros Hs. induction k as [|k IH]; intros xs idx i bs Hk Hi HB; [lia|].
  pose proof (fill_inner_spec M size i xs (Throw x) [] Hi) as HF.
  destruct (Nat.leb_spec size (length xs)) as [Hl|Hl]; destruct HF as (i' & E & Hi').
  - apply batches_of_inv in HB; [|exact Hs].
    destruct HB as [(-> & _)|[(_ & Hn & _)|[(_ & Hn & _)|(a & b & bs' & -> & Ha & HB & ->)]]]; [cbn in Hl; lia|lia|lia|].
    rewrite <- Ha, skipn_len in Hi'. rewrite <- Ha in E at 2. rewrite firstn_len in E. cbn [app] in E.
    apply (y_item (batch_reader size last M) _ _ (S idx, i')).
    + cbn [m_core batch_reader]. rewrite E. destruct a as [|a0 a]; [cbn in Ha; lia|].
      remember (a0 :: a) as l eqn:El. cbn match. rewrite Ha, Nat.eqb_refl. destruct last; reflexivity.
    + apply (IH b); auto. rewrite app_length in Hk. lia.
  - assert (bs = []) as ->.
    { apply batches_of_inv in HB; [|exact Hs].
      destruct HB as [(_ & ->)|[(_ & _ & _ & ->)|[(_ & _ & Hd & _)|(a & b & bs' & -> & Ha & _)]]]; auto; [congruence|].
      rewrite app_length in Hl. lia. }
    eapply y_err; [discriminate|]. apply b_read_core. cbn [m_core batch_reader cast_err]. rewrite E. reflexivity.
Qed.

(* ---------------- the whole reader ---------------- *)

Section Whole.
  Context {rng : Type} (seeded : rng) (draw : nat -> rng -> nat * rng)
    (shuf : list instance -> rng -> list instance * rng) (size_max : nat).
  Hypothesis draw_lt : forall w g, 0 < w -> fst (draw w g) < w.

  Lemma make3_fault p ds xs x M : faulty ds xs x -> make3 seeded draw shuf size_max p ds = Ok M ->
    ~ out_of_range p xs -> (forall r, p_ratio p = Some r -> float_ratio r /\ keeps_some r) ->
    exists ys, selected_before p xs ys /\ yields M (b_init M) ys (Throw x).
  Proof.
    intros HF H Hin Hk. apply make3_inv in H. destruct H as (Hsh & -> & Hrej). unfold selected_before.
    pose proof (faulty_reads ds xs x HF) as H0. set (a := range_of _ _ _).
    set (r1 := if _ : bool then ranged _ _ _ else _).
    assert (H1 : yields r1 (b_init r1) a (Throw x)).
    { subst r1 a. destruct (_ || _) eqn:E.
      - pose proof (ranged_ok (core_reader ds) (p_skip p) (p_take p) _ _ _ H0) as HR.
        unfold out_of_range in Hin. destruct (range_full _ _ _); [congruence|exact HR].
      - apply orb_false_iff in E. destruct E as [E1 E2]. apply Nat.ltb_ge in E1.
        replace (p_skip p) with 0 by lia. destruct (p_take p); [discriminate|]. exact H0. }
    set (b := if _ : bool then shard_of _ _ _ else _). set (r2 := if _ : bool then sharded _ _ _ else _).
    assert (H2 : yields r2 (b_init r2) b (Throw x)).
    { subst r2 b. destruct (Nat.ltb_spec 1 (p_num_shards p)) as [Hn|Hn]; [|exact H1].
      apply (sharded_ok r1 (p_shard_index p) (p_num_shards p) (b_init r1)); auto. }
    destruct (p_ratio p) as [r|]; [|eauto]. destruct (Hk r eq_refl) as [Hfr (k & Hks)].
    destruct (ratio_keep r Hfr (Hrej r eq_refl)) as (keep & Hkr & Hle & H100).
    set (c := firstn (100 * (length b / 100)) b).
    destruct (sample_of_total (num_keep r) keep Hkr Hle (S (length c)) c (le_n _)) as (ys & Hy).
    exists ys. split; [eauto|].
    assert (Hk0 : 0 < keep 100). { rewrite (Hkr 100 ltac:(lia)) in Hks. injection Hks as ->. lia. }
    apply (sampled_fault r2 (num_keep r) keep x Hkr Hle Hk0 (S (length b)) b (le_n _) ys ([], 0, b_init r2) (b_init r2) Hy); [|exact H2].
    exists [], 0. auto.
  Qed.

  Lemma selected_before_len p xs ys : selected_before p xs ys -> length ys <= length xs.
  Proof.
    unfold selected_before. set (a := range_of _ _ _).
    assert (Ha : length a <= length xs).
    { subst a. unfold range_of. destruct (p_take p); rewrite ?firstn_length, skipn_length; lia. }
    set (b := if _ : bool then _ else _).
    assert (Hb : length b <= length a).
    { subst b. destruct (1 <? _); [|lia]. eapply (map_combine_filter_le (rng := rng)); eassumption. }
    destruct (p_ratio p) as [r|]; [intros (keep & _ & H); eapply (sample_len (rng := rng)) in H; try eassumption; rewrite firstn_length in H|intros ->]; lia.
  Qed.

  Lemma shuffle_fault p M g i ys x : 0 < size_max -> length ys < size_max -> p_shuffle p = true -> yields M i ys (Throw x) ->
    exists zs, ordered_before p ys zs /\
      yields (shuffled seeded draw shuf size_max (p_window p) (p_reshuffle p) M) (None, ([], true, g, i)) zs (Throw x).
  Proof.
    intros Hm Hl Hs Hi. unfold ordered_before. rewrite Hs. destruct (Nat.eq_dec (p_window p) 1) as [E1|E1].
    - exists ys. split; [|now apply shuffled_one]. exists []. rewrite app_nil_r, E1. split; [reflexivity|]. split.
      + intro j. exists []. rewrite app_nil_r, Nat.sub_diag, Nat.add_0_r. reflexivity.
      + change (1 =? 0) with false. cbn [length]. lia.
    - destruct (shuffled_fault M seeded draw shuf size_max (p_window p) (p_reshuffle p) x (draw_lt (p_window p)) Hm E1
        (S (length ys)) [] g i ys) as (zs & lost & Hz & HP & Hll & Hj); [lia|exact Hi|cbn; lia|cbn; lia|cbn; lia|].
      exists zs. split; [|exact Hz]. exists lost. split; [exact HP|]. split; [|exact Hll].
      intro j. destruct (Nat.eqb_spec (p_window p) 0) as [E0|E0].
      + rewrite Hll. eexists. destruct j; cbn [firstn app]; reflexivity.
      + destruct (Hj j) as (o & Ho). exists o. cbn [app length] in Ho. rewrite Ho.
        replace (j + p_window p - 1 - 0) with (j + (p_window p - 1)) by lia. reflexivity.
  Qed.

  Definition restarted {A} (M : machine A) (s : bstate M) : Prop := s = b_init M \/ exists s', s = b_reset M s'.

  Lemma reader_fault p ds xs x M s : faulty ds xs x -> make_instance_reader seeded draw shuf size_max p ds = Ok M ->
    ~ out_of_range p xs -> (forall r, p_ratio p = Some r -> float_ratio r /\ keeps_some r) ->
    length xs < size_max -> restarted M s ->
    exists ys zs, selected_before p xs ys /\ ordered_before p ys zs /\ yields M s zs (Throw x).
  Proof.
    intros HF H Hin Hk Hm Hst. apply make_split in H. destruct H as (M3 & H3 & ->).
    pose proof (make3_resets _ _ _ _ _ _ _ H3) as Hr. destruct (make3_fault p ds xs x M3 HF H3 Hin Hk) as (ys & Hs & Hy).
    exists ys. pose proof (selected_before_len _ _ _ Hs) as Hlen. destruct (p_shuffle p) eqn:Es.
    - destruct Hst as [-> |([pk [[[buf has] g] i]] & ->)].
      + destruct (shuffle_fault p M3 seeded (b_init M3) ys x ltac:(lia) ltac:(lia) Es Hy) as (zs & Ho & Hz).
        exists zs. auto.
      + destruct (shuffle_fault p M3 (if p_reshuffle p then g else seeded) (b_reset M3 i) ys x ltac:(lia) ltac:(lia) Es) as (zs & Ho & Hz).
        { rewrite (resets_b M3 i Hr). exact Hy. }
        exists zs. auto.
    - exists ys. split; [exact Hs|]. split; [unfold ordered_before; rewrite Es; reflexivity|].
      destruct Hst as [-> |(s' & ->)]; [exact Hy|]. rewrite (resets_b M3 s' Hr). exact Hy.
  Qed.

  Lemma yields_peeks_err {A} (M : machine A) xs e n : forall s, yields M s xs e ->
    Forall (fun r => exists y, r = Ok (Some y)) (fst (run M s (repeat Peek n))) -> yields M (snd (run M s (repeat Peek n))) xs e.
  Proof.
    induction n as [|n IH]; intros s H HP; [exact H|]. cbn [repeat run] in *.
    pose proof (yields_peek _ _ _ _ H) as HR. destruct xs as [|y xs]; destruct HR as (s' & E & HR); rewrite E in *.
    - exfalso. destruct (run M s' (repeat Peek n)). cbn [fst] in HP. inversion HP as [|? ? (z & Ez) _]; subst. destruct e; discriminate.
    - specialize (IH s' HR). destruct (run M s' (repeat Peek n)). apply IH. cbn [fst] in *. now inversion HP.
  Qed.

  Lemma fed_fault p ds xs x M src src_end : faulty ds xs x -> make_instance_reader seeded draw shuf size_max p ds = Ok M ->
    ~ out_of_range p xs -> (forall r, p_ratio p = Some r -> float_ratio r /\ keeps_some r) ->
    length xs < size_max -> 0 < p_batch p -> fed_well M (p_batch p) (p_last p) src src_end ->
    forall ep, src_end ep = Some x /\ exists ys zs, selected_before p xs ys /\ ordered_before p ys zs /\
      batches_of (p_batch p) last_drop 0 zs (src ep).
  Proof.
    intros HF HM Hin Hk Hm Hb Hfed ep. destruct (Hfed ep) as (st & Hst & HR). apply yields_iff in HR.
    assert (exists ys zs, selected_before p xs ys /\ ordered_before p ys zs /\ fst st = 0 /\ yields M (snd st) zs (Throw x))
      as (ys & zs & H1 & H2 & H3 & H4).
    { destruct Hst as [n HP|e s n HP].
      - destruct (reader_fault p ds xs x M (b_init M) HF HM Hin Hk Hm (or_introl eq_refl)) as (ys & zs & H1 & H2 & H3).
        exists ys, zs. split; [exact H1|]. split; [exact H2|]. split; [reflexivity|]. cbn [snd]. now apply yields_peeks_err.
      - destruct (reader_fault p ds xs x M (b_reset M s) HF HM Hin Hk Hm (or_intror (ex_intro _ s eq_refl))) as (ys & zs & H1 & H2 & H3).
        exists ys, zs. split; [exact H1|]. split; [exact H2|]. split; [reflexivity|]. cbn [snd]. now apply yields_peeks_err. }
    destruct st as [k i]. cbn in H3, H4. subst k.
    destruct (batches_of_total (p_batch p) last_drop Hb (S (length zs)) 0 zs (le_n _)) as (bs & HB).
    pose proof (batch_fault M (p_batch p) (p_last p) x Hb (S (length zs)) zs 0 i bs (le_n _) H4 HB) as HY.
    destruct (yields_unique _ _ _ _ HY _ _ HR) as [-> E].
    split; [destruct (src_end ep); congruence|]. eauto.
  Qed.

  Lemma fault_surfaces p ds xs x M src src_end {E} (decode : batch instance -> dres E) bytes cores np pr prefetch reads s :
    faulty ds xs x -> make_instance_reader seeded draw shuf size_max p ds = Ok M ->
    ~ out_of_range p xs -> (forall r, p_ratio p = Some r -> float_ratio r /\ keeps_some r) ->
    length xs < size_max -> 0 < p_batch p -> fed_well M (p_batch p) (p_last p) src src_end ->
    graph_params cores np pr = (prefetch, reads) -> 1 <= cores -> reachable decode bytes src src_end prefetch reads s ->
    ~ In O_end (log s) /\
    exists ys zs bs, selected_before p xs ys /\ ordered_before p ys zs /\ batches_of (p_batch p) last_drop 0 zs bs /\
      (exists rest, delivered (log s) ++ rest = sequential decode bs) /\
      (Forall (decodable decode) bs ->
        (forall y, In (O_error y) (log s) -> y = x) /\
        (length (sequential decode bs) < length (log s) -> In (O_error x) (log s))).
  Proof.
    intros HF HM Hin Hk Hm Hb Hfed HG HC HR.
    destruct (fed_fault p ds xs x M src src_end HF HM Hin Hk Hm Hb Hfed (epoch s)) as (He & ys & zs & H1 & H2 & H3).
    assert (Hne : ~ In O_end (log s)). { eapply error_no_end; eauto. left. exact He. }
    split; [exact Hne|]. exists ys, zs, (src (epoch s)). split; [exact H1|]. split; [exact H2|]. split; [exact H3|].
    assert (Hpre : exists rest, delivered (log s) ++ rest = sequential decode (src (epoch s))) by (eapply order_ok; eauto).
    split; [exact Hpre|]. intro HD.
    assert (Hy : forall y, In (O_error y) (log s) -> y = x).
    { intros y Hy. edestruct @error_ok as (_ & [Hs|(b & Hbb & Hx)]); eauto; [congruence|].
      rewrite Forall_forall in HD. destruct (HD b Hbb y Hx). }
    split; [exact Hy|]. intro HL. destruct (log_cases (log s)) as [H|[[y H]|H]]; [contradiction|rewrite <- (Hy y H); exact H|].
    exfalso. destruct Hpre as (rest & Er). apply (f_equal (@length _)) in Er. rewrite app_length in Er. lia.
  Qed.
  Lemma fed_fault_exists p ds xs x M : faulty ds xs x -> make_instance_reader seeded draw shuf size_max p ds = Ok M ->
    ~ out_of_range p xs -> (forall r, p_ratio p = Some r -> float_ratio r /\ keeps_some r) ->
    length xs < size_max -> 0 < p_batch p ->
    exists src, fed_well M (p_batch p) (p_last p) src (fun _ => Some x).
  Proof.
    intros HF HM Hin Hk Hm Hb.
    assert (G : forall s, restarted M s -> exists bs, reads_as (batch_reader (p_batch p) (p_last p) M) (None, (0, s)) bs (Throw x)).
    { intros s Hs. destruct (reader_fault p ds xs x M s HF HM Hin Hk Hm Hs) as (ys & zs & _ & _ & Hz).
      destruct (batches_of_total (p_batch p) last_drop Hb (S (length zs)) 0 zs (le_n _)) as (bs & HB).
      exists bs. apply yields_iff. apply (batch_fault M (p_batch p) (p_last p) x Hb (S (length zs)) zs 0 s bs (le_n _) Hz HB). }
    destruct (G (b_init M) (or_introl eq_refl)) as (b0 & H0).
    destruct (G (b_reset M (b_init M)) (or_intror (ex_intro _ _ eq_refl))) as (b1 & H1).
    exists (fun e => match e with 0 => b0 | S _ => b1 end). intros [|e].
    - exists (0, b_init M). split; [|exact H0]. apply (eb_first M 0). constructor.
    - exists (0, b_reset M (b_init M)). split; [|exact H1]. apply (eb_later M e (b_init M) 0). constructor.
  Qed.
End Whole.

(* ---------------- RecordIO files of any content ---------------- *)

Lemma recordio_any f : (0 < tf_chunk f)%N -> Forall is_byte (tf_text f) ->
  (exists payloads, recordio_file f payloads) \/ (exists is x, failing (recordio_store f) is x) \/ cut_in_split (recordio_store f).
Proof.
  intros Hc Hb.
  destruct (C08_arbitrary (tf_text f) (tf_in_memory f) (tf_reads f) (tf_chunk f) Hc Hb) as (rs & tl & e & E & Et & Hw & He).
  assert (Eo : sopen (recordio_store f) = Ok (Some (map fst rs, e))) by (cbn; rewrite E; reflexivity).
  destruct (every_sequence (map fst rs)) as (good & bad & ps & Es & HG & Hbad). rewrite Es in Eo.
  destruct Hbad as [-> |[Hbr|Htr]].
  - rewrite app_nil_r in *. destruct He as [[-> ->]|(-> & _)].
    + left. exists ps. split; [exact Hc|]. exists rs. rewrite app_nil_r in Et. rewrite Es. auto.
    + right. left. eexists. eexists. eapply f_read; eassumption.
  - right. left. eexists. eexists. eapply f_kinds; eassumption.
  - destruct He as [[-> ->]|(-> & _)].
    + right. right. exists good, ps, bad. auto.
    + right. left. eexists. eexists. eapply f_split; eassumption.
Qed.

Lemma recordio_dataset fs : Forall (fun f => (0 < tf_chunk f)%N /\ Forall is_byte (tf_text f) /\ ~ cut_in_split (recordio_store f)) fs ->
  (exists pss, Forall2 recordio_file fs pss) \/ exists xs x, faulty (map recordio_store fs) xs x.
Proof.
  induction 1 as [|f fs (Hc & Hb & Hn) HF IH]; [left; exists []; constructor|].
  destruct (recordio_any f Hc Hb) as [(ps & Hp)|[(is & x & Hx)|Hcut]]; [..|contradiction].
  - destruct IH as [(pss & HP)|(xs & x & pre & iss & d & is & post & E & HF2 & Hd & Exs)].
    + left. exists (ps :: pss). constructor; assumption.
    + right. exists (numbered (sid (recordio_store f)) ps ++ xs), x.
      exists (recordio_store f :: pre), (numbered (sid (recordio_store f)) ps :: iss), d, is, post.
      split; [cbn [map app]; now rewrite E|]. split; [|split; [exact Hd|rewrite Exs; cbn [concat]; apply app_assoc]].
      constructor; [|exact HF2]. right. destruct Hp as (_ & rs & Et & Hw & HG).
      exists (map fst rs), ps. split; [|split; [exact HG|reflexivity]].
      cbn [sopen recordio_store]. rewrite Et, C07_recordio_round_trip by assumption. reflexivity.
  - right. exists is, x, [], [], (recordio_store f), is, (map recordio_store fs). cbn. auto.
Qed.
