(* The shuffle buffer and the batches. *)
From Coq Require Import Permutation.
From Verif Require Import Common Model_rec Model_inst Spec_inst Proof_inst Proof_inst_filters.

Local Arguments fill_inner : simpl never.
Local Arguments Nat.ltb : simpl never.
Local Arguments Nat.eqb : simpl never.

Lemma pop_at_ok {A} k (buf : list A) : k < length buf ->
  exists x buf', pop_at k buf = Some (x, buf') /\ Permutation (x :: buf') buf.
Proof.
  intro Hk. unfold pop_at. destruct (nth_error buf k) as [x|] eqn:En; [|apply nth_error_None in En; lia].
  destruct (rev buf) as [|l r] eqn:Er.
  { apply (f_equal (@rev A)) in Er. rewrite rev_involutive in Er. subst. cbn in Hk. lia. }
  assert (Eb : buf = rev r ++ [l]). { rewrite <- (rev_involutive buf), Er. reflexivity. }
  exists x. eexists. split; [reflexivity|]. rewrite Eb, app_length in *. cbn [length] in *.
  set (a := rev r) in *. clearbody a. clear Er r.
  destruct (Nat.eqb_spec k (length a + 1 - 1)) as [E|E].
  - replace k with (length a) in En by lia. rewrite nth_error_app2, Nat.sub_diag in En by lia. cbn in En.
    injection En as ->. apply Permutation_cons_append.
  - rewrite nth_error_app1 in En by lia. destruct (nth_error_split _ _ En) as (a1 & a2 & -> & Hl). subst k.
    rewrite firstn_len. replace (skipn (S (length a1)) (a1 ++ x :: a2)) with a2.
    2:{ replace (S (length a1)) with (length (a1 ++ [x])) by (rewrite app_length; cbn; lia).
        change (a1 ++ x :: a2) with (a1 ++ [x] ++ a2). rewrite app_assoc, skipn_len. reflexivity. }
    transitivity (x :: a1 ++ a2 ++ [l]).
    + constructor. apply Permutation_app_head. apply Permutation_cons_append.
    + rewrite <- app_assoc. cbn. apply Permutation_middle.
Qed.

Section Shuffle.
  Context {A : Type} (M : machine A).
  Context {rng : Type} (seeded : rng) (draw : nat -> rng -> nat * rng) (shuf : list A -> rng -> list A * rng).
  Context (size_max : nat).
  Hypothesis shuf_perm : forall l g, Permutation (fst (shuf l g)) l.

  Section Window.
    Variables (window : nat) (reshuffle : bool).
    Hypothesis draw_lt : forall g, 0 < window -> fst (draw window g) < window.
    Hypothesis max_pos : 0 < size_max.
    Hypothesis not1 : window <> 1.
    Local Notation SH := (shuffled seeded draw shuf size_max window reshuffle M).
    Local Notation w := (if window =? 0 then size_max else window).

    Lemma w_pos : 0 < w.
    Proof. destruct (Nat.eqb_spec window 0); lia. Qed.

    Lemma sh_fill_false : forall room buf g i, sh_fill shuf M room (buf, false, g, i) = (Ok tt, (buf, false, g, i)).
    Proof. destruct room; reflexivity. Qed.

    Lemma sh_fill_spec : forall room buf g i xs, yields M i xs (Ok tt) ->
      if room <=? length xs
      then exists i', sh_fill shuf M room (buf, true, g, i) = (Ok tt, (buf ++ firstn room xs, true, g, i')) /\
             yields M i' (skipn room xs) (Ok tt)
      else exists buf' g' i', sh_fill shuf M room (buf, true, g, i) = (Ok tt, (buf', false, g', i')) /\
             Permutation buf' (buf ++ xs).
    Proof.
      induction room as [|room IH]; intros buf g i xs H; [exists i; rewrite app_nil_r; auto|].
      pose proof (yields_read _ _ _ _ H) as HR.
      destruct xs as [|x xs]; cbn [length Nat.leb skipn firstn sh_fill]; destruct HR as (i' & E & HR); rewrite E.
      - cbn [cast_err]. destruct (shuf buf g) as [buf' g'] eqn:Es. exists buf', g', i'. split; [reflexivity|].
        rewrite app_nil_r. specialize (shuf_perm buf g). rewrite Es in shuf_perm. exact shuf_perm.
      - specialize (IH (buf ++ [x]) g i' xs HR). rewrite <- app_assoc in IH. cbn [app] in IH.
        destruct (room <=? length xs).
        + destruct IH as (i2 & E2 & H2). exists i2. auto.
        + destruct IH as (b2 & g2 & i2 & E2 & H2). rewrite <- app_assoc in H2. exists b2, g2, i2. auto.
    Qed.

    Lemma shuffled_tail : forall r g i, yields SH (None, (rev r, false, g, i)) r (Ok tt).
    Proof.
      induction r as [|x r IH]; intros g i.
      - apply (y_end_inv SH (fun s => s = ([], false, g, i))); [reflexivity|].
        intros s ->. cbn [m_core shuffled]. destruct (Nat.eqb_spec window 1); [lia|].
        rewrite sh_fill_false. eexists. split; reflexivity.
      - apply (y_item SH _ _ (rev r, false, g, i)); [|apply IH].
        cbn [m_core shuffled]. destruct (Nat.eqb_spec window 1); [lia|]. rewrite sh_fill_false.
        destruct (rev (x :: r)) as [|y l] eqn:Er; [cbn in Er; destruct (rev r); discriminate|].
        rewrite <- Er, rev_involutive. reflexivity.
    Qed.

    Lemma shuffled_go : forall k buf g i xs, length buf + length xs < k -> yields M i xs (Ok tt) ->
      length buf <= w -> (0 < window \/ length buf + length xs < size_max) ->
      exists ys, yields SH (None, (buf, true, g, i)) ys (Ok tt) /\ Permutation ys (buf ++ xs) /\
        forall j, exists others, Permutation (firstn j ys ++ others) (buf ++ firstn (j + w - 1 - length buf) xs).
    Proof.
      induction k as [|k IH]; intros buf g i xs Hk Hi Hb Hw; [lia|]. pose proof w_pos as Hpos.
      pose proof (sh_fill_spec (w - length buf) buf g i xs Hi) as HF. set (room := w - length buf) in *.
      destruct (Nat.leb_spec room (length xs)) as [Hr|Hr].
      - destruct HF as (i' & E & Hi'). set (full := buf ++ firstn room xs) in *.
        assert (Hfl : length full = w).
        { subst full. rewrite app_length, firstn_length. rewrite Nat.min_l by exact Hr. subst room. lia. }
        assert (Hwin : 0 < window).
        { destruct Hw as [|Hw]; [assumption|]. destruct (Nat.eqb_spec window 0) as [E0|]; [|lia].
          subst room. lia. }
        assert (Ew : (if window =? 0 then size_max else window) = window). { destruct (Nat.eqb_spec window 0); lia. }
        destruct (draw window g) as [d g'] eqn:Ed.
        assert (Hd : d < length full). { rewrite Hfl, Ew. specialize (draw_lt g Hwin). rewrite Ed in draw_lt. exact draw_lt. }
        destruct (pop_at_ok d full Hd) as (x & buf' & Ep & HP).
        assert (Hl' : length buf' = w - 1). { apply Permutation_length in HP. cbn in HP. lia. }
        assert (HE : buf' ++ skipn room xs ++ [x] = buf' ++ skipn room xs ++ [x]) by reflexivity.
        pose proof (Permutation_length HP) as HPl. cbn in HPl.
        assert (Hs : length (skipn room xs) = length xs - room) by apply skipn_length.
        assert (Hfl2 : length full = length buf + room).
        { subst full. rewrite app_length, firstn_length. lia. }
        destruct (IH buf' g' i' (skipn room xs)) as (ys & Hy & HPy & Hj).
        + lia.
        + exact Hi'.
        + lia.
        + left. exact Hwin.
        + exists (x :: ys). split; [|split].
          * apply (y_item SH _ _ (buf', true, g', i')); [|exact Hy].
            cbn [m_core shuffled fst]. destruct (Nat.eqb_spec window 1); [lia|]. fold room. rewrite E.
            destruct full as [|f0 full']; [cbn in Hd; lia|]. rewrite Ed, Ep. reflexivity.
          * transitivity (x :: buf' ++ skipn room xs); [now constructor|].
            change (x :: buf' ++ skipn room xs) with ((x :: buf') ++ skipn room xs). rewrite HP. subst full.
            rewrite <- app_assoc, firstn_skipn. reflexivity.
          * intros [|j].
            -- eexists. cbn [firstn app]. reflexivity.
            -- destruct (Hj j) as (others & Ho). exists others. cbn [firstn app]. rewrite Ho.
               change (x :: buf' ++ firstn (j + w - 1 - length buf') (skipn room xs))
                 with ((x :: buf') ++ firstn (j + w - 1 - length buf') (skipn room xs)). rewrite HP. subst full.
               rewrite <- app_assoc. apply Permutation_app_head.
               replace (j + w - 1 - length buf') with j by lia.
               replace (S j + w - 1 - length buf) with (room + j) by (subst room; lia).
               rewrite <- (firstn_skipn room xs) at 3.
               rewrite firstn_app, firstn_length, Nat.min_l by exact Hr.
               rewrite firstn_firstn. replace (Nat.min (room + j) room) with room by lia.
               replace (room + j - room) with j by lia. reflexivity.
      - destruct HF as (buf' & g' & i' & E & HP). exists (rev buf'). split; [|split].
        + apply (first_step SH (buf, true, g, i) (buf', false, g', i')).
          * cbn [m_core shuffled fst]. destruct (Nat.eqb_spec window 1); [lia|]. fold room. rewrite E, sh_fill_false.
            reflexivity.
          * rewrite <- (rev_involutive buf') at 1. apply shuffled_tail.
        + rewrite <- Permutation_rev. exact HP.
        + intros j. exists (skipn j (rev buf')). rewrite firstn_skipn, <- Permutation_rev, HP.
          rewrite firstn_all2; [reflexivity|]. subst room. lia.
    Qed.
  End Window.

  Lemma shuffled_ok window reshuffle g i xs : (forall g, 0 < window -> fst (draw window g) < window) -> 0 < size_max ->
    (0 < window \/ length xs < size_max) -> yields M i xs (Ok tt) ->
    exists ys, yields (shuffled seeded draw shuf size_max window reshuffle M) (None, ([], true, g, i)) ys (Ok tt) /\
      Permutation ys xs /\ (0 < window -> displaced window xs ys).
  Proof.
    intros Hd Hm Hw Hi. destruct (Nat.eq_dec window 1) as [->|Hn].
    - exists xs. split; [|split; [reflexivity|]].
      + clear Hw. revert i Hi. induction xs as [|x xs IH]; intros i Hi; pose proof (yields_read _ _ _ _ Hi) as (i' & E & Hi').
        * apply (y_end_inv (shuffled seeded draw shuf size_max 1 reshuffle M)
            (fun s => exists i, s = ([], true, g, i) /\ yields M i [] (Ok tt))); [eauto|].
          intros s (j & -> & Hj). pose proof (yields_read _ _ _ _ Hj) as (j' & Ej & Hj').
          cbn. change (1 =? 1) with true. cbn iota. rewrite Ej. eexists. split; [reflexivity|]. eauto.
        * apply (y_item (shuffled seeded draw shuf size_max 1 reshuffle M) _ _ ([], true, g, i')).
          -- cbn. change (1 =? 1) with true. cbn iota. rewrite E. reflexivity.
          -- apply IH. exact Hi'.
      + intros _ j. exists []. rewrite app_nil_r, Nat.sub_diag, Nat.add_0_r. reflexivity.
    - destruct (shuffled_go window reshuffle Hd Hm Hn (S (length xs)) [] g i xs) as (ys & Hy & HP & Hj);
        [cbn; lia|exact Hi|cbn; lia|cbn; exact Hw|].
      exists ys. split; [exact Hy|]. split; [exact HP|]. intros Hwin j. destruct (Hj j) as (o & Ho). exists o.
      cbn [app length] in Ho. destruct (Nat.eqb_spec window 0); [lia|]. rewrite Ho.
      replace (j + window - 1 - 0) with (j + (window - 1)) by lia. reflexivity.
  Qed.
End Shuffle.

(* ---------------- batches ---------------- *)

Section Batch.
  Context {A : Type} (M : machine A) (size : nat) (last : last_handling).
  Local Notation BM := (batch_reader size last M).
  Hypothesis size_pos : 0 < size.

  Lemma batch_end idx i : yields M i [] (Ok tt) -> yields BM (None, (idx, i)) [] (Ok tt).
  Proof.
    intro Hi. apply (y_end_inv BM (fun s => yields M (snd s) [] (Ok tt))); [exact Hi|].
    intros [k j] Hj. cbn in Hj. pose proof (fill_inner_spec M size j [] (Ok tt) [] Hj) as HF. cbn [length] in HF.
    destruct (Nat.leb_spec size 0) as [|_]; [lia|]. destruct HF as (j' & E & Hj'). cbn. rewrite E. cbn.
    eexists. split; [reflexivity|]. cbn. auto.
  Qed.

  (* what the code hands out: a size of [size] is reported for an incomplete batch only in the padding mode *)
  Definition reported (n : nat) : nat := match last with last_pad => size | _ => n end.

  Lemma batch_short idx i xs : yields M i xs (Ok tt) -> length xs < size -> xs <> [] ->
    yields BM (None, (idx, i))
      (match last with last_drop | last_drop_warn => [] | _ => [mk_batch idx xs (reported (length xs))] end) (Ok tt).
  Proof.
    intros Hi Hl Hne. pose proof (fill_inner_spec M size i xs (Ok tt) [] Hi) as HF.
    destruct (Nat.leb_spec size (length xs)) as [|_]; [lia|]. destruct HF as (i' & E & Hi'). cbn [app cast_err] in E.
    specialize (Hi' eq_refl).
    assert (Ec : m_core BM (idx, i) = match last with last_drop | last_drop_warn => (Ok None, (idx, i'))
      | _ => (Ok (Some (mk_batch idx xs (reported (length xs)))), (S idx, i')) end).
    { cbn [m_core batch_reader]. rewrite E. destruct xs as [|x xs]; [congruence|].
      remember (x :: xs) as l eqn:El. cbn match.
      destruct (Nat.eqb_spec (length l) size); [lia|]. unfold reported. destruct last; reflexivity. }
    pose proof (batch_end idx i' Hi') as HE. pose proof (batch_end (S idx) i' Hi') as HE2.
    destruct last; first [eapply y_end_step; [exact Ec|exact HE]|eapply y_item; [exact Ec|exact HE2]].
  Qed.

  Lemma batch_full idx i xs ys bs e : yields M i (xs ++ ys) e -> length xs = size ->
    (forall i, yields M i ys e -> yields BM (None, (S idx, i)) bs (Ok tt)) ->
    yields BM (None, (idx, i)) (mk_batch idx xs size :: bs) (Ok tt).
  Proof.
    intros Hi Hl IH. pose proof (fill_inner_spec M size i (xs ++ ys) e [] Hi) as HF.
    destruct (Nat.leb_spec size (length (xs ++ ys))) as [_|Hlt]; [|rewrite app_length in Hlt; lia].
    destruct HF as (i' & E & Hi'). rewrite <- Hl, skipn_len in Hi'. rewrite <- Hl in E at 2. rewrite firstn_len in E.
    cbn [app] in E. apply (y_item BM _ _ (S idx, i')); [|auto].
    cbn [m_core batch_reader]. rewrite E. destruct xs as [|x xs]; [cbn in Hl; lia|].
    remember (x :: xs) as l eqn:El. cbn match. rewrite Hl, Nat.eqb_refl. destruct last; reflexivity.
  Qed.

  Lemma batch_ok idx xs bs : last <> last_pad_warn -> batches_of size last idx xs bs -> forall i, yields M i xs (Ok tt) ->
    yields BM (None, (idx, i)) bs (Ok tt).
  Proof.
    intros Hw HB. induction HB as [k|k xs Hne Hl Hd|k xs r Hne Hl H1 H2 Hr|k xs ys bs Hl HB IH]; intros i Hi.
    - apply batch_end. exact Hi.
    - pose proof (batch_short k i xs Hi Hl Hne) as HS. destruct Hd as [Ed|Ed]; rewrite Ed in HS at 2; exact HS.
    - pose proof (batch_short k i xs Hi Hl Hne) as HS. rewrite Hr. unfold reported in HS.
      destruct last; congruence || exact HS.
    - eapply batch_full; eauto.
  Qed.

  Lemma batches_of_total : forall k idx (xs : list A), length xs < k -> exists bs, batches_of size last idx xs bs.
  Proof.
    induction k as [|k IH]; intros idx xs Hk; [lia|]. destruct (Nat.ltb_spec (length xs) size) as [Hl|Hl].
    - destruct xs as [|x xs]; [eexists; constructor|].
      destruct last eqn:E;
        try (eexists; apply ba_drop; [discriminate|exact Hl|auto]; fail);
        eexists; (apply ba_last; [discriminate|exact Hl|discriminate|discriminate|reflexivity]).
    - destruct (IH (S idx) (skipn size xs)) as [bs Hb]. { rewrite skipn_length. lia. }
      exists (mk_batch idx (firstn size xs) size :: bs). rewrite <- (firstn_skipn size xs) at 1. apply ba_full; [rewrite firstn_length; lia|exact Hb].
  Qed.

  Lemma batches_of_inv idx (xs : list A) bs : batches_of size last idx xs bs ->
    (xs = [] /\ bs = []) \/
    (xs <> [] /\ length xs < size /\ (last = last_drop \/ last = last_drop_warn) /\ bs = []) \/
    (xs <> [] /\ length xs < size /\ last <> last_drop /\ last <> last_drop_warn /\
     bs = [mk_batch idx xs (match last with last_pad | last_pad_warn => size | _ => length xs end)]) \/
    (exists a b bs', xs = a ++ b /\ length a = size /\ batches_of size last (S idx) b bs' /\
       bs = mk_batch idx a size :: bs').
  Proof.
    intros [k|k l Hne Hl Hd|k l r Hne Hl H1 H2 Hr|k l ys bs' Hl HB]; subst.
    - auto.
    - right. left. auto.
    - right. right. left. auto 6.
    - right. right. right. exists l, ys, bs'. auto.
  Qed.

  Lemma batches_of_fun idx (xs : list A) bs : batches_of size last idx xs bs -> forall bs', batches_of size last idx xs bs' ->
    bs = bs'.
  Proof.
    intro H. induction H as [k|k xs Hne Hl Hd|k xs r Hne Hl H1 H2 Hr|k xs ys bs Hl HB IH]; intros bs' H';
      apply batches_of_inv in H';
      destruct H' as [(E & ->)|[(Hn & Hs & Hdd & ->)|[(Hn & Hs & Hd1 & Hd2 & ->)|(a & b & bs2 & E & Ha & H2' & ->)]]];
      try congruence; try reflexivity; try tauto.
    - symmetry in E. apply app_eq_nil in E. destruct E as [-> ->]. cbn in Ha. lia.
    - rewrite E, app_length in Hl. lia.
    - rewrite E, app_length in Hl. lia.
    - apply app_eq_nil in E. destruct E as [-> ->]. cbn in Hl. lia.
    - rewrite app_length in Hs. lia.
    - rewrite app_length in Hs. lia.
    - assert (a = xs) as ->.
      { assert (Hx : firstn (length xs) (xs ++ ys) = firstn (length xs) (a ++ b)) by (now rewrite E).
        rewrite firstn_len, Hl, <- Ha, firstn_len in Hx. congruence. }
      apply app_inv_head in E. subst b. f_equal. auto.
  Qed.
End Batch.
