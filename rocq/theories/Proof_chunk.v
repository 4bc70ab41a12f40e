(* Blocks of memory: the records the caller holds stay what they are, and the reader delivers what Model_rec says. *)
From Verif Require Import Common Model_rec Proof_rec Proof_rec_text Proof_rec_bin Model_chunk Spec_chunk.

Local Open Scope nat_scope.

(* What the proofs need of a decoder: it never runs into undefined behaviour, leaves a suffix of the chunk, and takes at
   least one byte for a record. *)
Definition consuming (D : decoder) : Prop :=
  (forall chunk b, D chunk b <> UB /\ D chunk b <> Fuel) /\
  (forall b, D [] b = Ok (None, [], None)) /\
  forall chunk b r rest hint, D chunk b = Ok (r, rest, hint) ->
    (exists taken, chunk = taken ++ rest) /\ (r <> None -> length rest < length chunk).

(* ---------------- memory ---------------- *)
Lemma set_same heap i b : i < length heap -> nth_error (set_block heap i b) i = Some b.
Proof.
  intro H. unfold set_block. rewrite nth_error_app2; rewrite firstn_length_le by lia; [|lia]. now rewrite Nat.sub_diag.
Qed.
Lemma set_other heap i j b : i < length heap -> i <> j -> nth_error (set_block heap i b) j = nth_error heap j.
Proof.
  unfold set_block. revert i j; induction heap as [|x heap IH]; intros i j H N; cbn in H; [lia|].
  destruct i as [|i]; [destruct j; [lia|reflexivity]|].
  destruct j as [|j]; [reflexivity|]. apply IH; lia.
Qed.
Lemma set_length heap i b : i < length heap -> length (set_block heap i b) = length heap.
Proof. intro H. unfold set_block. rewrite app_length, firstn_length_le by lia. cbn [length]. rewrite skipn_length. lia. Qed.

Definition valid (heap : list block) (held : list (rec * slice)) : Prop :=
  Forall (fun h => slice_bytes heap (snd h) = Ok (payload (fst h))) held.
Definition free (i : nat) (held : list (rec * slice)) : Prop := forall h, In h held -> l_block (snd h) <> i.

Lemma valid_set heap held i b : valid heap held -> free i held -> i < length heap -> valid (set_block heap i b) held.
Proof.
  intros V F L. unfold valid in *. rewrite Forall_forall in *. intros h Hh. specialize (V h Hh). specialize (F h Hh).
  unfold slice_bytes in *. now rewrite set_other by auto.
Qed.
Lemma valid_new heap held b : valid heap held -> valid (heap ++ [b]) held /\ free (length heap) held.
Proof.
  intro V. unfold valid, free in *. rewrite Forall_forall in *. split; intros h Hh; specialize (V h Hh); unfold slice_bytes in *.
  - destruct (nth_error heap (l_block (snd h))) eqn:E; [|discriminate].
    rewrite nth_error_app1 by (apply nth_error_Some; congruence). now rewrite E.
  - intro Eh. rewrite Eh, (proj2 (nth_error_None heap (length heap)) (le_n _)) in V. discriminate.
Qed.

(* ---------------- the pure reader ---------------- *)
Definition blk (m : mem) : option N :=
  match m_chunk m with Some i => option_map (fun b => N.of_nat (length (k_bytes b))) (nth_error (m_heap m) i) | None => None end.
Definition pure (m : mem) : dchunk := mk_dchunk (m_stream m) (m_next m) (blk m) (m_eof m).

Definition inv (m : mem) : Prop :=
  valid (m_heap m) (m_held m) /\ (0 < m_next m)%N /\ (m_eof m = true -> m_chunk m = None) /\
  match m_chunk m with
  | Some i => exists b l, nth_error (m_heap m) i = Some b /\ m_slice m = Some l /\ l_block l = i /\ l_gen l = k_gen b /\
      l_off l + l_len l = length (k_bytes b) /\ (N.of_nat (length (k_bytes b)) <= m_next m)%N /\
      (l_off l = 0 -> free i (m_held m))
  | None => m_eof m = false -> m_slice m = None
  end.

Lemma firstn_app_len {A} (a b : list A) : firstn (length a) (a ++ b) = a.
Proof. rewrite firstn_app, Nat.sub_diag, firstn_all. cbn. apply app_nil_r. Qed.
Lemma skipn_app_len {A} (a b : list A) : skipn (length a) (a ++ b) = b.
Proof. rewrite skipn_app, Nat.sub_diag, skipn_all. reflexivity. Qed.

Lemma filter_nil {A} (f : A -> bool) l : length (filter f l) = 0 -> forall x, In x l -> f x = false.
Proof.
  induction l as [|y l IH]; cbn; [tauto|]. destruct (f y) eqn:E; [discriminate|]. intros H x [->|Hx]; auto.
Qed.

Section Run.
  Variable junk : byte.
  Variable resizable : bool.

  Lemma resize_ok heap held i b size leftover :
    nth_error heap i = Some b -> valid heap held -> free i held ->
    length leftover <= N.to_nat size -> firstn (length leftover) (k_bytes b) = leftover ->
    exists j heap' b', resize_block junk resizable heap i b size = (j, heap') /\ nth_error heap' j = Some b' /\
      length (k_bytes b') = N.to_nat size /\ firstn (length leftover) (k_bytes b') = leftover /\
      valid heap' held /\ free j held.
  Proof.
    intros Hb V F Hn Hl. unfold resize_block.
    set (n := N.to_nat size) in *.
    set (bytes := firstn n (k_bytes b) ++ repeat junk (n - length (k_bytes b))).
    assert (Li : i < length heap) by (apply nth_error_Some; congruence).
    assert (Lb : length bytes = n) by (unfold bytes; rewrite app_length, firstn_length, repeat_length; lia).
    assert (Ll : length leftover <= length (k_bytes b)).
    { rewrite <- Hl at 1. rewrite firstn_length. lia. }
    assert (Lf : firstn (length leftover) bytes = leftover).
    { unfold bytes. rewrite firstn_app_le by (rewrite firstn_length; lia).
      rewrite firstn_firstn. replace (Nat.min (length leftover) n) with (length leftover) by lia. exact Hl. }
    destruct resizable.
    - eexists _, _, _. split; [reflexivity|]. split; [apply set_same; exact Li|]. cbn [k_bytes].
      split; [exact Lb|]. split; [exact Lf|]. split; [apply valid_set; auto|exact F].
    - eexists _, _, _. split; [reflexivity|]. split; [rewrite nth_error_app2, Nat.sub_diag by lia; reflexivity|]. cbn [k_bytes].
      split; [exact Lb|]. split; [exact Lf|]. exact (valid_new heap held _ V).
  Qed.

  Lemma chunk_len m leftover : inv m -> chunk_bytes m = Ok leftover ->
    match m_slice m with Some l => length leftover = l_len l | None => leftover = [] end.
  Proof.
    intros _ H. unfold chunk_bytes in H. destruct (m_slice m) as [l|]; [|congruence].
    unfold slice_bytes in H. destruct (nth_error (m_heap m) (l_block l)) as [b|]; [|discriminate].
    destruct (Nat.eqb_spec (k_gen b) (l_gen l)), (Nat.leb_spec (l_off l + l_len l) (length (k_bytes b))); cbn [andb] in H; try discriminate.
    injection H as <-. rewrite firstn_length, skipn_length. lia.
  Qed.

  Definition next_of (m : mem) (leftover : list byte) : N :=
    match blk m with
    | Some b => if (b =? N.of_nat (length leftover))%N && (b =? m_next m)%N then (2 * m_next m)%N else m_next m
    | None => m_next m
    end.

  Lemma take_ok m leftover :
    inv m -> m_eof m = false -> chunk_bytes m = Ok leftover ->
    exists p i heap b, plan m leftover = Ok p /\ take_block junk resizable p leftover = Ok (i, heap) /\
      snd (fst p) = next_of m leftover /\ nth_error heap i = Some b /\
      length (k_bytes b) = N.to_nat (next_of m leftover) /\ length leftover < N.to_nat (next_of m leftover) /\
      firstn (length leftover) (k_bytes b) = leftover /\ valid heap (m_held m) /\ free i (m_held m).
  Proof.
    intros HI He Hc. pose proof (chunk_len m leftover HI Hc) as Hl. destruct HI as (V & Hn & _ & Hk).
    unfold plan, next_of, blk. destruct (m_chunk m) as [i|] eqn:Ech.
    - destruct Hk as (b & l & Hb & Hs & Hli & Hg & Hsz & Hnx & Hfr). rewrite Hb. cbn [option_map]. rewrite Hs in Hl.
      assert (Li : i < length (m_heap m)) by (apply nth_error_Some; congruence).
      assert (Hcb : leftover = firstn (l_len l) (skipn (l_off l) (k_bytes b))).
      { unfold chunk_bytes in Hc. rewrite Hs in Hc. unfold slice_bytes in Hc. rewrite Hli, Hb, Hg, Nat.eqb_refl in Hc.
        replace (Nat.leb (l_off l + l_len l) (length (k_bytes b))) with true in Hc by (symmetry; apply Nat.leb_le; lia).
        cbn [andb] in Hc. congruence. }
      destruct (N.eqb_spec (N.of_nat (length (k_bytes b))) (N.of_nat (length leftover))) as [Ew|Ew]; cbn [andb].
      + (* the whole chunk is leftover *)
        assert (Ho : l_off l = 0) by lia.
        assert (Hw : leftover = k_bytes b).
        { rewrite Hcb, Ho. cbn [skipn]. apply firstn_all2. lia. }
        set (nx := if (N.of_nat (length (k_bytes b)) =? m_next m)%N then (2 * m_next m)%N else m_next m).
        assert (Hlt : (N.of_nat (length (k_bytes b)) < nx)%N).
        { unfold nx. destruct (N.eqb_spec (N.of_nat (length (k_bytes b))) (m_next m)); lia. }
        destruct (resize_ok (m_heap m) (m_held m) i b nx leftover Hb V (Hfr Ho)) as (j & heap' & b' & E1 & E2 & E3 & E4 & E5 & E6).
        { lia. } { rewrite <- Hw. apply firstn_all. }
        eexists _, j, heap', b'. split; [reflexivity|]. cbn [take_block fst snd]. rewrite Hb.
        replace (N.of_nat (length (k_bytes b)) =? nx)%N with false by (symmetry; apply N.eqb_neq; lia).
        rewrite E1. refine (conj eq_refl (conj eq_refl (conj E2 (conj E3 (conj _ (conj E4 (conj E5 E6))))))). lia.
      + destruct (Nat.leb_spec (use_count m i) 2) as [Hu|Hu].
        * assert (F : free i (m_held m)).
          { unfold use_count in Hu. rewrite Ech, Hs, Hli, !Nat.eqb_refl in Hu.
            intros h Hh Eh. assert (Hz : length (filter (fun h => Nat.eqb i (l_block (snd h))) (m_held m)) = 0) by lia.
            pose proof (filter_nil _ _ Hz h Hh) as Hq. cbn beta in Hq. rewrite Eh, Nat.eqb_refl in Hq. discriminate. }
          assert (Hm : exists heap1 b1, move_front (m_heap m) i b (m_slice m) leftover = Ok heap1 /\ nth_error heap1 i = Some b1 /\
            length (k_bytes b1) = length (k_bytes b) /\ firstn (length leftover) (k_bytes b1) = leftover /\ valid heap1 (m_held m)).
          { unfold move_front. destruct leftover as [|x leftover'] eqn:El.
            - exists (m_heap m), b. repeat split; auto.
            - rewrite <- El in *. rewrite Hs, Hli, Nat.eqb_refl. cbn [andb].
              assert (Hlen : length leftover = S (length leftover')) by (rewrite El; reflexivity).
              destruct (Nat.eqb_spec (l_off l) 0); [lia|]. cbn [orb].
              destruct (Nat.ltb_spec (length (k_bytes b)) (length leftover)); [lia|].
              eexists _, _. split; [reflexivity|]. split; [apply set_same; exact Li|]. cbn [k_bytes].
              split; [rewrite app_length, skipn_length; lia|]. split; [apply firstn_app_len|]. apply valid_set; auto. }
          destruct Hm as (heap1 & b1 & Em & Eb1 & Lb1 & Fb1 & V1). rewrite Em. cbn [bind].
          destruct (N.eqb_spec (N.of_nat (length (k_bytes b1))) (m_next m)) as [Es|Es].
          -- eexists _, i, heap1, b1. split; [reflexivity|]. cbn [take_block fst snd]. rewrite Eb1.
             rewrite (proj2 (N.eqb_eq _ _) Es).
             refine (conj eq_refl (conj eq_refl (conj eq_refl (conj _ (conj _ (conj Fb1 (conj V1 F))))))); lia.
          -- destruct (resize_ok heap1 (m_held m) i b1 (m_next m) leftover Eb1 V1 F) as (j & heap' & b' & E1 & E2 & E3 & E4 & E5 & E6).
             { lia. } { exact Fb1. }
             eexists _, j, heap', b'. split; [reflexivity|]. cbn [take_block fst snd]. rewrite Eb1.
             rewrite (proj2 (N.eqb_neq _ _) Es). rewrite E1.
             refine (conj eq_refl (conj eq_refl (conj E2 (conj E3 (conj _ (conj E4 (conj E5 E6))))))). lia.
        * destruct (valid_new (m_heap m) (m_held m) (mk_block (leftover ++ repeat junk (N.to_nat (m_next m) - length leftover)) 0) V) as [V' F'].
          eexists _, _, _, _. split; [reflexivity|]. cbn [take_block fst snd].
          destruct (Nat.ltb_spec (N.to_nat (m_next m)) (length leftover)); [lia|].
          split; [reflexivity|]. split; [reflexivity|]. split; [rewrite nth_error_app2, Nat.sub_diag by lia; reflexivity|]. cbn [k_bytes].
          rewrite app_length, repeat_length, firstn_app_len. repeat split; auto; lia.
    - rewrite (Hk He) in Hl. subst leftover.
      destruct (valid_new (m_heap m) (m_held m) (mk_block ([] ++ repeat junk (N.to_nat (m_next m) - 0)) 0) V) as [V' F'].
      eexists _, _, _, _. split; [reflexivity|]. cbn [take_block fst snd length].
      replace (Nat.ltb (N.to_nat (m_next m)) 0) with false by (symmetry; apply Nat.ltb_ge; lia).
      split; [reflexivity|]. split; [reflexivity|]. split; [rewrite nth_error_app2, Nat.sub_diag by lia; reflexivity|]. cbn [k_bytes].
      rewrite app_length, repeat_length. cbn [length firstn]. repeat split; auto; lia.
  Qed.

  Lemma fill_len fuel : forall s room acc bs s' e, fill fuel s room acc = Ok (bs, s', e) ->
    (N.of_nat (length bs) <= N.of_nat (length acc) + room)%N /\ (e = false -> (N.of_nat (length bs) = N.of_nat (length acc) + room)%N).
  Proof.
    induction fuel as [|fuel IH]; intros s room acc bs s' e H; cbn [fill] in H; [discriminate|].
    destruct (N.eqb_spec room 0) as [->|Hr].
    { injection H as <- <- <-. split; intros; lia. }
    destruct (stream_read s room) as [ys s1] eqn:Er.
    assert (Hy : (N.of_nat (length ys) <= room)%N).
    { unfold stream_read in Er. injection Er as <- _. rewrite firstn_length. lia. }
    destruct ys as [|y ys].
    - injection H as <- <- <-. split; [lia|discriminate].
    - apply IH in H. rewrite app_length in H. split; [lia|]. intro He. destruct H as [_ H]. specialize (H He). lia.
  Qed.

  Lemma read_chunk_ok m leftover :
    inv m -> m_eof m = false -> chunk_bytes m = Ok leftover ->
    exists m' bs, read_chunk junk resizable m = Ok m' /\ inv m' /\ m_held m' = m_held m /\ chunk_bytes m' = Ok bs /\
      dchunk_read (pure m) leftover = Ok (bs, pure m').
  Proof.
    intros HI He Hc.
    destruct (take_ok m leftover HI He Hc) as (p & i & heap & b & E1 & E2 & E3 & E4 & E5 & E6 & E7 & V & F).
    destruct HI as (_ & Hn & _).
    assert (Li : i < length heap) by (apply nth_error_Some; congruence).
    set (nx := next_of m leftover) in *.
    destruct (fill_spec (length (s_rest (m_stream m)) + 2) (m_stream m) (nx - N.of_nat (length leftover)) leftover ltac:(lia)) as (s' & Hf & Hs').
    unfold read_chunk. rewrite He, Hc. cbn [bind]. rewrite E1. cbn [bind]. rewrite E2. cbn [bind]. rewrite E4.
    replace (Nat.ltb (length (k_bytes b)) (length leftover)) with false by (symmetry; apply Nat.ltb_ge; lia).
    rewrite E7.
    replace (N.of_nat (length (k_bytes b) - length leftover)) with (nx - N.of_nat (length leftover))%N by lia.
    assert (Hd : dchunk_read (pure m) leftover =
      let* r := fill (length (s_rest (m_stream m)) + 2) (m_stream m) (nx - N.of_nat (length leftover)) leftover in
      let '(bs, s', eof) := r in Ok (bs, mk_dchunk s' nx (if eof then None else Some nx) eof)).
    { unfold dchunk_read. cbn [pure cr_eof cr_block cr_next cr_stream]. rewrite He. fold (next_of m leftover). fold nx.
      replace (nx <? N.of_nat (length leftover))%N with false by (symmetry; apply N.ltb_ge; lia). reflexivity. }
    rewrite Hd. destruct (fill _ _ _ leftover) as [[[bs s2] eof]|e| |] eqn:Hfill; try discriminate. cbn [bind].
    clear Hf Hs'. apply fill_len in Hfill. destruct Hfill as [Hbl Hbe].
    eexists _, bs. split; [reflexivity|].
    set (b' := mk_block (bs ++ skipn (length bs) (k_bytes b)) (k_gen b)).
    assert (Lb' : length (k_bytes b') = N.to_nat nx).
    { unfold b'. cbn [k_bytes]. rewrite app_length, skipn_length. lia. }
    assert (Hcb : slice_bytes (set_block heap i b') (mk_slice i (k_gen b) 0 (length bs)) = Ok bs).
    { unfold slice_bytes. cbn [l_block l_gen l_off l_len]. rewrite set_same by exact Li. unfold b' at 1. cbn [k_gen].
      rewrite Nat.eqb_refl. replace (Nat.leb (0 + length bs) (length (k_bytes b'))) with true by (symmetry; apply Nat.leb_le; lia).
      cbn [andb skipn]. unfold b'. cbn [k_bytes]. now rewrite firstn_app_len. }
    split.
    { split; [apply valid_set; auto|]. cbn [m_next m_chunk m_held m_heap m_slice m_eof]. rewrite E3.
      split; [lia|]. split; [now destruct eof|]. destruct eof.
      - discriminate.
      - eexists b', _. split; [apply set_same; exact Li|]. split; [reflexivity|]. cbn [l_block l_gen l_off l_len].
        split; [reflexivity|]. split; [reflexivity|]. split; [specialize (Hbe eq_refl); lia|]. split; [lia|]. intros _. exact F. }
    cbn [m_held]. split; [reflexivity|]. split; [exact Hcb|].
    unfold pure, blk. cbn [m_stream m_next m_chunk m_eof m_heap]. rewrite E3. destruct eof; [reflexivity|].
    rewrite set_same by exact Li. cbn [option_map]. rewrite Lb', N2Nat.id. reflexivity.
  Qed.

  Variable D : decoder.
  Variable locate : list byte -> bool -> nat.
  Hypothesis HD : consuming D.
  Hypothesis HL : located D locate.

  Definition hinted (m : mem) (hint : option N) : N :=
    match hint with Some h => double_until (N.size_nat h) (m_next m) h | None => m_next m end.

  Definition adv (m : mem) (chunk rest : list byte) (hint : option N) : mem :=
    mk_mem (m_heap m) (m_chunk m) (hinted m hint) (m_eof m) (m_stream m) (advance m chunk rest) (m_held m).

  Lemma hinted_le m hint : (0 < m_next m)%N -> (m_next m <= hinted m hint)%N.
  Proof.
    intro H. unfold hinted. destruct hint as [h|]; [|lia]. pose proof (hint_spec (pure m) h H) as Hh. cbn in Hh. lia.
  Qed.

  Lemma slice_inv heap l bs : slice_bytes heap l = Ok bs -> exists b, nth_error heap (l_block l) = Some b /\ k_gen b = l_gen l /\
    l_off l + l_len l <= length (k_bytes b) /\ bs = firstn (l_len l) (skipn (l_off l) (k_bytes b)) /\ length bs = l_len l.
  Proof.
    unfold slice_bytes. destruct (nth_error heap (l_block l)) as [b|]; [|discriminate].
    destruct (Nat.eqb_spec (k_gen b) (l_gen l)), (Nat.leb_spec (l_off l + l_len l) (length (k_bytes b))); cbn [andb]; try discriminate.
    intro Q; injection Q as <-. exists b. rewrite firstn_length, skipn_length. repeat split; auto. lia.
  Qed.

  (* A part of a slice. *)
  Lemma sub_slice heap l bs o n : slice_bytes heap l = Ok bs -> o + n <= length bs ->
    slice_bytes heap (mk_slice (l_block l) (l_gen l) (l_off l + o) n) = Ok (firstn n (skipn o bs)).
  Proof.
    intros H Ho. destruct (slice_inv _ _ _ H) as (b & Hb & Hg & Hs & Hbs & Hlen).
    unfold slice_bytes. cbn [l_block l_gen l_off l_len]. rewrite Hb, Hg, Nat.eqb_refl.
    replace (Nat.leb (l_off l + o + n) (length (k_bytes b))) with true by (symmetry; apply Nat.leb_le; lia). cbn [andb].
    f_equal. rewrite Hbs. rewrite skipn_firstn_comm, firstn_firstn, skipn_add.
    replace (Nat.min n (l_len l - o)) with n by lia. reflexivity.
  Qed.

  Lemma adv_ok m chunk rest hint taken :
    inv m -> chunk_bytes m = Ok chunk -> chunk = taken ++ rest ->
    inv (adv m chunk rest hint) /\ chunk_bytes (adv m chunk rest hint) = Ok rest /\
    CR_default (pure (adv m chunk rest hint)) = match hint with Some h => cr_hint (CR_default (pure m)) h | None => CR_default (pure m) end.
  Proof.
    intros (V & Hn & He & Hk) Hc Hr. pose proof (hinted_le m hint Hn) as Hle. unfold adv. split; [|split].
    - split; [exact V|]. cbn [m_next m_chunk m_slice m_held m_eof m_heap]. split; [lia|]. split; [exact He|].
      destruct (m_chunk m) as [i|] eqn:Ech.
      + destruct Hk as (b & l & Hb & Hs & Hli & Hg & Hsz & Hnx & Hfr).
        destruct (m_eof m) eqn:Ee; [discriminate (He eq_refl)|].
        unfold chunk_bytes in Hc. rewrite Hs in Hc. destruct (slice_inv _ _ _ Hc) as (b0 & _ & _ & _ & _ & Hlen).
        assert (Hll : length rest <= length chunk) by (rewrite Hr, app_length; lia).
        eexists b, _. split; [exact Hb|]. split; [unfold advance; rewrite Hs, Ee; destruct rest; reflexivity|].
        cbn [l_block l_gen l_off l_len]. split; [exact Hli|]. split; [exact Hg|]. split; [lia|]. split; [lia|].
        intro H0. apply Hfr. lia.
      + intro Ee. unfold advance. rewrite (Hk Ee), Ee. destruct rest; reflexivity.
    - unfold chunk_bytes, advance in *. cbn [m_slice m_heap].
      assert (Hll : length rest <= length chunk) by (rewrite Hr, app_length; lia).
      assert (Hgen : match option_map (fun l => mk_slice (l_block l) (l_gen l) (l_off l + (length chunk - length rest)) (length rest)) (m_slice m) with
        | Some l => slice_bytes (m_heap m) l | None => Ok [] end = Ok rest).
      { destruct (m_slice m) as [l|]; cbn [option_map].
        - rewrite (sub_slice _ _ _ (length chunk - length rest) (length rest) Hc ltac:(lia)).
          rewrite Hr, app_length. replace (length taken + length rest - length rest) with (length taken) by lia.
          rewrite skipn_app_len, firstn_all. reflexivity.
        - injection Hc as <-. destruct rest; [reflexivity|]. cbn [length] in Hll. lia. }
      destruct rest; [destruct (m_eof m); [reflexivity|exact Hgen]|exact Hgen].
    - unfold pure, hinted, blk. destruct hint; reflexivity.
  Qed.

  Definition mmeasure (m : mem) : nat := if m_eof m then 1 else length (s_rest (m_stream m)) + 2.

  Definition agrees (o : res (option rec)) (m m' : mem) (r : res (option rec * sreader)) : Prop :=
    match r with
    | Ok (x, r') => o = Ok x /\ (exists chunk', chunk_bytes m' = Ok chunk' /\ r' = mk_sreader (CR_default (pure m')) chunk')
    | Throw e => o = Throw e
    | UB => False
    | Fuel => False
    end.

  Lemma mread_core_ok fuel : forall m chunk,
    inv m -> chunk_bytes m = Ok chunk -> mmeasure m <= fuel ->
    exists o m', mread_core junk resizable locate D fuel m = Ok (o, m') /\ inv m' /\ (exists chunk', chunk_bytes m' = Ok chunk') /\
      (exists new, m_held m' = new ++ m_held m /\ map fst new = match o with Ok (Some r) => [r] | _ => [] end) /\
      agrees o m m' (read_record_core D fuel (mk_sreader (CR_default (pure m)) chunk)).
  Proof.
    destruct HD as (Hsafe & Hempty & Hrest).
    induction fuel as [|fuel IH]; intros m chunk HI Hc Hm.
    { unfold mmeasure in Hm. destruct (m_eof m); lia. }
    cbn [mread_core read_record_core sr_chunk sr_cr cr_is_eof]. rewrite Hc. cbn [bind].
    replace (cr_eof (pure m)) with (m_eof m) by reflexivity.
    destruct (Hsafe chunk (negb (m_eof m))) as [Hub Hfu].
    destruct (D chunk (negb (m_eof m))) as [[[record rest] hint]|e| |] eqn:HDc; try congruence.
    2:{ exists (Throw e), m. refine (conj eq_refl (conj HI (conj (ex_intro _ chunk Hc) (conj _ eq_refl)))). exists []. split; reflexivity. }
    destruct (Hrest _ _ _ _ _ HDc) as [[taken Ht] Hlt].
    destruct (adv_ok m chunk rest hint taken HI Hc Ht) as (HI1 & Hc1 & Hp1). cbn [bind].
    fold (hinted m hint). fold (adv m chunk rest hint). set (m1 := adv m chunk rest hint) in *.
    destruct record as [r|].
    - destruct (m_slice m) as [l|] eqn:Hs.
      2:{ unfold chunk_bytes in Hc. rewrite Hs in Hc. injection Hc as <-. rewrite Hempty in HDc. discriminate. }
      destruct (HL _ _ _ _ _ HDc) as [Hloc Hrange].
      replace (Nat.leb (locate chunk (negb (m_eof m)) + length (payload r)) (length chunk)) with true by (symmetry; apply Nat.leb_le; exact Hrange).
      eexists _, _. split; [reflexivity|].
      assert (Hh : slice_bytes (m_heap m) (mk_slice (l_block l) (l_gen l) (l_off l + locate chunk (negb (m_eof m))) (length (payload r))) = Ok (payload r)).
      { unfold chunk_bytes in Hc. rewrite Hs in Hc. rewrite (sub_slice _ _ _ _ _ Hc Hrange), Hloc. reflexivity. }
      split; [|split; [|split]].
      + destruct HI1 as (V1 & Hn1 & He1 & Hk1). split; [|split; [exact Hn1|split; [exact He1|]]].
        * cbn [m_heap m_held]. constructor; [exact Hh|exact V1].
        * cbn [m_chunk m_heap m_slice m_next m_held m_eof]. destruct (m_chunk m1) as [i|] eqn:Ech; [|exact Hk1].
          destruct Hk1 as (b & l' & Hb & Hs' & Hli & Hg & Hsz & Hnx & Hfr).
          exists b, l'. repeat split; auto. intro H0. exfalso.
          unfold m1, adv in Hs', Hb, Ech. cbn [m_slice m_heap m_chunk] in Hs', Hb, Ech.
          unfold advance in Hs'. rewrite Hs in Hs'.
          specialize (Hlt ltac:(discriminate)).
          assert (He' : m_eof m = false).
          { destruct (m_eof m) eqn:Ee; [|reflexivity]. discriminate (He1 Ee). }
          rewrite He' in Hs'. assert (Hl' : l' = mk_slice (l_block l) (l_gen l) (l_off l + (length chunk - length rest)) (length rest)).
          { destruct rest; cbn [option_map] in Hs'; congruence. }
          rewrite Hl' in H0. cbn [l_off] in H0. lia.
      + exists rest. exact Hc1.
      + eexists [_]. split; reflexivity.
      + cbn [agrees]. split; [reflexivity|]. exists rest. split; [exact Hc1|]. f_equal. rewrite <- Hp1. reflexivity.
    - rewrite <- Hp1. cbn [cr_read].
      destruct (m_eof m) eqn:Ee.
      + (* the end of the stream was seen before *)
        assert (Ee1 : m_eof m1 = true) by exact Ee.
        unfold read_chunk. rewrite Ee1. cbn [bind chunk_bytes m_slice].
        rewrite dchunk_read_eof by exact Ee1. cbn [bind fst snd].
        eexists _, _. split; [reflexivity|]. split; [|split; [|split]].
        * destruct HI1 as (V1 & Hn1 & He1 & Hk1). split; [exact V1|]. cbn [m_next m_chunk m_eof m_slice m_heap m_held].
          split; [exact Hn1|]. split; [intros _; exact (He1 Ee1)|]. rewrite (He1 Ee1). discriminate.
        * exists []. reflexivity.
        * exists []. split; reflexivity.
        * cbn [agrees]. split; [reflexivity|]. exists []. split; [reflexivity|]. f_equal. f_equal. unfold pure, blk. cbn. now rewrite Ee.
      + assert (Ee1 : m_eof m1 = false) by exact Ee.
        destruct (read_chunk_ok m1 rest HI1 Ee1 Hc1) as (m2 & bs & Hrc & HI2 & Hh2 & Hc2 & Hd2).
        rewrite Hrc. cbn [bind]. rewrite Hc2. cbn [bind]. rewrite Hd2. cbn [bind fst snd].
        destruct bs as [|x bs].
        * eexists _, _. split; [reflexivity|]. split; [exact HI2|]. split; [eauto|]. split.
          -- exists []. split; [exact Hh2|reflexivity].
          -- cbn [agrees]. split; [reflexivity|]. exists []. split; [exact Hc2|reflexivity].
        * destruct (IH m2 (x :: bs) HI2 Hc2) as (o & m' & E1 & E2 & E3 & (new & E4 & E4') & E5).
          { unfold mmeasure in *. rewrite Ee in Hm.
            destruct (dchunk_read_spec (pure m1) rest Ee1) as (room & d' & Hroom & Hrd & Hs2 & He2 & _).
            - exact (proj1 (proj2 HI1)).
            - pose proof (chunk_len m1 rest HI1 Hc1) as Hcl. destruct HI1 as (V1 & Hn1 & _ & Hk1). unfold pure, blk. cbn [cr_block cr_next].
              destruct (m_chunk m1) as [i|].
              + destruct Hk1 as (b & l & Hb & Hs & Hli & Hg & Hsz & Hnx & _). rewrite Hb. cbn [option_map]. rewrite Hs in Hcl. split; [exact Hnx|lia].
              + rewrite (Hk1 Ee1) in Hcl. exact Hcl.
            - rewrite Hd2 in Hrd. injection Hrd as _ Ed. rewrite <- Ed in Hs2, He2. cbn [pure cr_stream cr_eof] in Hs2, He2.
              rewrite Hs2, He2. replace (m_stream m1) with (m_stream m) in * by reflexivity.
              destruct (N.ltb_spec (N.of_nat (length (s_rest (m_stream m)))) room); [lia|]. rewrite skipn_length. lia. }
          exists o, m'. refine (conj E1 (conj E2 (conj E3 (conj _ E5)))). exists new. rewrite E4, Hh2. split; [reflexivity|exact E4'].
  Qed.

  Lemma mread_ok m chunk :
    inv m -> chunk_bytes m = Ok chunk ->
    exists o m', mread junk resizable locate D m = Ok (o, m') /\ inv m' /\ (exists chunk', chunk_bytes m' = Ok chunk') /\
      (exists new, m_held m' = new ++ m_held m /\ map fst new = match o with Ok (Some r) => [r] | _ => [] end) /\
      agrees o m m' (read_record D (mk_sreader (CR_default (pure m)) chunk)).
  Proof.
    intros HI Hc. unfold mread, read_record. cbn [sr_cr cr_bytes_left].
    cbn [pure cr_stream].
    apply mread_core_ok; auto. unfold mmeasure. destruct (m_eof m); lia.
  Qed.

  (* ---------------- histories ---------------- *)
  Lemma hold_inv m held : inv m -> valid (m_heap m) held -> (forall i, free i (m_held m) -> free i held) -> inv (hold m held).
  Proof.
    intros (V & Hn & He & Hk) V' F. split; [exact V'|]. cbn [hold m_next m_chunk m_eof m_slice m_heap m_held].
    split; [exact Hn|]. split; [exact He|]. destruct (m_chunk m) as [i|]; [|exact Hk].
    destruct Hk as (b & l & Hb & Hs & Hli & Hg & Hsz & Hnx & Hfr). exists b, l. repeat split; auto.
  Qed.

  Lemma step_inv o m chunk : inv m -> chunk_bytes m = Ok chunk ->
    exists x m', step junk resizable locate D o m = Ok (x, m') /\ inv m' /\ (exists chunk', chunk_bytes m' = Ok chunk').
  Proof.
    intros HI Hc. destruct o as [|i|i]; cbn [step].
    - destruct (mread_ok m chunk HI Hc) as (o & m' & E1 & E2 & E3 & _). rewrite E1. cbn [bind]. eauto.
    - destruct (nth_error (m_held m) i) as [h|] eqn:Eh; [|eauto 6].
      eexists _, _. split; [reflexivity|]. split; [|exists chunk; exact Hc].
      apply nth_error_In in Eh. apply hold_inv; [exact HI| |].
      + destruct HI as (V & _). constructor; [|exact V]. exact (proj1 (Forall_forall _ _) V h Eh).
      + intros j F x [<-|Hx]; apply F; auto.
    - eexists _, _. split; [reflexivity|]. split; [|exists chunk; exact Hc].
      assert (Hin : forall x, In x (firstn i (m_held m) ++ skipn (S i) (m_held m)) -> In x (m_held m)).
      { intros x Hx. apply in_app_or in Hx. rewrite <- (firstn_skipn i (m_held m)). apply in_or_app. destruct Hx as [Hx|Hx]; [now left|right].
        replace (S i) with (i + 1) in Hx by lia. rewrite <- skipn_add in Hx.
        rewrite <- (firstn_skipn 1 (skipn i (m_held m))). apply in_or_app. now right. }
      apply hold_inv; [exact HI| |].
      + destruct HI as (V & _). apply Forall_forall. intros x Hx. exact (proj1 (Forall_forall _ _) V x (Hin x Hx)).
      + intros j F x Hx. apply F; auto.
  Qed.

  Lemma run_inv ops : forall m chunk, inv m -> chunk_bytes m = Ok chunk ->
    exists xs m', run junk resizable locate D ops m = Ok (xs, m') /\ inv m'.
  Proof.
    induction ops as [|o ops IH]; intros m chunk HI Hc; cbn [run]; [eauto|].
    destruct (step_inv o m chunk HI Hc) as (x & m1 & E1 & HI1 & chunk1 & Hc1). rewrite E1. cbn [bind].
    destruct (IH m1 chunk1 HI1 Hc1) as (xs & m2 & E2 & HI2). rewrite E2. cbn [bind]. eauto.
  Qed.

  Lemma new_inv content sched size : (0 < size)%N -> inv (new_mem content sched size) /\ chunk_bytes (new_mem content sched size) = Ok [].
  Proof.
    intro H. split; [|reflexivity]. split; [constructor|]. cbn. split; [exact H|]. split; [discriminate|reflexivity].
  Qed.

  Lemma held_intact content sched size ops : (0 < size)%N ->
    exists xs m, run junk resizable locate D ops (new_mem content sched size) = Ok (xs, m) /\ intact m.
  Proof.
    intro H. destruct (new_inv content sched size H) as [HI Hc].
    destruct (run_inv ops _ _ HI Hc) as (xs & m & E & HI' ). exists xs, m. split; [exact E|]. exact (proj1 HI').
  Qed.

  (* ---------------- the reader comes to an end ---------------- *)
  Definition total (d : dchunk) (chunk : list byte) : nat := length chunk + length (s_rest (cr_stream d)).

  Lemma dchunk_read_total d chunk bs d' : cr_eof d = false -> dchunk_read d chunk = Ok (bs, d') -> total d' bs = total d chunk.
  Proof.
    intros He H. unfold dchunk_read in H. rewrite He in H. cbv zeta in H.
    match type of H with (if ?c then _ else _) = _ => destruct c; [discriminate|] end.
    match type of H with context [fill ?f ?s ?r ?a] => generalize dependent r; intros room H; destruct (fill_spec f s room a ltac:(lia)) as (s' & Hf & Hs') end.
    rewrite Hf in H. cbn [bind] in H. injection H as <- <-. unfold total. cbn [cr_stream]. rewrite Hs', app_length, firstn_length, skipn_length.
    lia.
  Qed.

  Lemma read_record_total fuel : forall d chunk x r',
    read_record_core D fuel (mk_sreader (CR_default d) chunk) = Ok (Some x, r') ->
    forall d' chunk', r' = mk_sreader (CR_default d') chunk' -> total d' chunk' < total d chunk.
  Proof.
    destruct HD as (_ & _ & Hrest).
    induction fuel as [|fuel IH]; intros d chunk x r' H d' chunk' Er; cbn [read_record_core sr_cr sr_chunk cr_is_eof] in H; [discriminate|].
    destruct (D chunk (negb (cr_eof d))) as [[[record rest] hint]|e| |] eqn:HDc; try discriminate. cbn [bind] in H.
    destruct (Hrest _ _ _ _ _ HDc) as [[taken Ht] Hlt].
    assert (Hd : exists d1, match hint with Some h => cr_hint (CR_default d) h | None => CR_default d end = CR_default d1 /\
      cr_stream d1 = cr_stream d /\ cr_eof d1 = cr_eof d).
    { destruct hint as [h|]; cbn [cr_hint]; eexists; repeat split. }
    destruct Hd as (d1 & Ed & Es & Ee). rewrite Ed in H.
    assert (Hll : length rest <= length chunk) by (rewrite Ht, app_length; lia).
    destruct record as [r|].
    - injection H as <- <-. injection Er as -> ->. specialize (Hlt ltac:(discriminate)). unfold total. rewrite Es. lia.
    - cbn [cr_read] in H. destruct (cr_eof d1) eqn:Ee1.
      + rewrite dchunk_read_eof in H by exact Ee1. cbn [bind fst snd] in H. discriminate.
      + destruct (dchunk_read d1 rest) as [[bs d2]|e| |] eqn:Hr; try discriminate. cbn [bind fst snd] in H.
        apply dchunk_read_total in Hr; [|exact Ee1].
        destruct bs as [|y bs]; [discriminate|]. specialize (IH _ _ _ _ H _ _ Er). unfold total in *. rewrite Es in *. lia.
  Qed.

  Lemma read_all_ends fuel : forall m chunk, inv m -> chunk_bytes m = Ok chunk -> total (pure m) chunk < fuel ->
    snd (read_all D fuel (mk_sreader (CR_default (pure m)) chunk)) <> Fuel.
  Proof.
    induction fuel as [|fuel IH]; intros m chunk HI Hc Hl; [lia|]. cbn [read_all].
    destruct (mread_ok m chunk HI Hc) as (q & m' & _ & F2 & _ & _ & F5).
    destruct (read_record D (mk_sreader (CR_default (pure m)) chunk)) as [[[z|] r']|e| |] eqn:Hr; cbn [agrees] in F5; try contradiction; try discriminate.
    destruct F5 as (_ & chunk' & Hc' & Er).
    pose proof (read_record_total _ _ _ _ _ Hr _ _ Er) as Hlt. subst r'.
    specialize (IH m' chunk' F2 Hc' ltac:(lia)).
    destruct (read_all D fuel _) as [zs e]. exact IH.
  Qed.

  (* The outcomes of the reads do not depend on what the caller keeps. *)
  Definition is_prefix {A} (a b : list A) : Prop := exists c, b = a ++ c.

  Lemma step_read_only o m chunk x m' : o <> Op_read -> chunk_bytes m = Ok chunk ->
    step junk resizable locate D o m = Ok (x, m') -> x = [] /\ pure m' = pure m /\ chunk_bytes m' = Ok chunk.
  Proof.
    intros Ho Hc H. destruct o as [|i|i]; [congruence| |]; cbn [step] in H.
    - destruct (nth_error (m_held m) i); injection H as <- <-; repeat split; exact Hc.
    - injection H as <- <-. repeat split; exact Hc.
  Qed.

  Lemma run_agrees ops : forall fuel m chunk xs m',
    inv m -> chunk_bytes m = Ok chunk -> run junk resizable locate D ops m = Ok (xs, m') ->
    snd (read_all D fuel (mk_sreader (CR_default (pure m)) chunk)) <> Fuel ->
    forall k, k < length xs -> k <= length (fst (read_all D fuel (mk_sreader (CR_default (pure m)) chunk))) ->
      nth_error xs k = nth_error (outcomes (read_all D fuel (mk_sreader (CR_default (pure m)) chunk))) k.
  Proof.
    induction ops as [|o ops IH]; intros fuel m chunk xs m' HI Hc H Hf k Hk Hk2; cbn [run] in H.
    { injection H as <- <-. cbn in Hk. lia. }
    destruct (step_inv o m chunk HI Hc) as (x & m1 & E1 & HI1 & chunk1 & Hc1). rewrite E1 in H. cbn [bind] in H.
    destruct (run junk resizable locate D ops m1) as [[y m2]| | |] eqn:E2; try discriminate. cbn [bind] in H. injection H as <- <-.
    destruct o as [|i|i].
    - destruct fuel as [|fuel]; [cbn in Hf; congruence|].
      cbn [step] in E1. destruct (mread_ok m chunk HI Hc) as (q & m1' & F1 & _ & _ & _ & F5). rewrite F1 in E1. cbn [bind] in E1. injection E1 as <- <-.
      cbn [read_all] in *. destruct (read_record D (mk_sreader (CR_default (pure m)) chunk)) as [[[z|] r']|e| |]; cbn [agrees] in F5; try contradiction.
      + destruct F5 as (-> & chunk' & Hc' & ->). rewrite Hc1 in Hc'. injection Hc' as <-.
        destruct (read_all D fuel (mk_sreader (CR_default (pure m1')) chunk1)) as [zs e] eqn:Er. cbn [fst snd] in *.
        destruct k as [|k]; [reflexivity|]. cbn [app nth_error outcomes map fst].
        specialize (IH fuel m1' chunk1 y m2 HI1 Hc1 E2). rewrite Er in IH. cbn [fst snd] in IH. cbn [app length] in Hk, Hk2.
        rewrite (IH Hf k ltac:(lia) ltac:(lia)). reflexivity.
      + destruct F5 as (-> & _). cbn [fst length] in Hk2. assert (k = 0) by lia. subst k. reflexivity.
      + subst q. cbn [fst length] in Hk2. assert (k = 0) by lia. subst k. reflexivity.
    - destruct (step_read_only (Op_copy i) m chunk x m1 ltac:(discriminate) Hc E1) as (-> & Ep & Hc').
      rewrite Hc1 in Hc'. injection Hc' as <-. rewrite <- Ep in *. exact (IH fuel m1 chunk1 y m2 HI1 Hc1 E2 Hf k Hk Hk2).
    - destruct (step_read_only (Op_drop i) m chunk x m1 ltac:(discriminate) Hc E1) as (-> & Ep & Hc').
      rewrite Hc1 in Hc'. injection Hc' as <-. rewrite <- Ep in *. exact (IH fuel m1 chunk1 y m2 HI1 Hc1 E2 Hf k Hk Hk2).
  Qed.
  Lemma run_records content sched size ops xs m : (0 < size)%N ->
    run junk resizable locate D ops (new_mem content sched size) = Ok (xs, m) ->
    forall k, k < length xs -> k <= length (fst (records D false sched size content)) ->
      nth_error xs k = nth_error (outcomes (records D false sched size content)) k.
  Proof.
    intros H Hr. destruct (new_inv content sched size H) as [HI Hc].
    apply (run_agrees ops (length content + 1) (new_mem content sched size) [] xs m HI Hc Hr).
    apply (read_all_ends _ _ _ HI Hc). unfold total. cbn. lia.
  Qed.
End Run.

(* ---------------- the record readers ---------------- *)
Lemma stable_consuming D G norm : stable D G norm -> consuming D.
Proof.
  intro H. split; [exact (st_safe D G norm H)|]. split; [exact (st_empty D G norm H)|].
  intros chunk b r rest hint E. exact (st_rest D G norm H _ _ _ _ _ E).
Qed.

Fixpoint find_sub (x chunk : list byte) : nat :=
  if list_eq_dec N.eq_dec (firstn (length x) chunk) x then 0 else match chunk with [] => 0 | _ :: rest => S (find_sub x rest) end.
Lemma find_sub_ok x suf : forall pre, firstn (length x) (skipn (find_sub x (pre ++ x ++ suf)) (pre ++ x ++ suf)) = x /\
  find_sub x (pre ++ x ++ suf) + length x <= length (pre ++ x ++ suf).
Proof.
  induction pre as [|c pre [IH1 IH2]]; cbn [app].
  - destruct (x ++ suf) as [|y l] eqn:E; cbn [find_sub]; rewrite <- E, firstn_app_len;
      (destruct (list_eq_dec N.eq_dec x x); [|congruence]); cbn [skipn]; rewrite firstn_app_len, app_length; split; auto; lia.
  - cbn [find_sub]. destruct (list_eq_dec N.eq_dec (firstn (length x) (c :: pre ++ x ++ suf)) x) as [E|_].
    + cbn [skipn]. split; [exact E|]. cbn [length]. rewrite !app_length. lia.
    + cbn [skipn length]. split; [exact IH1|lia].
Qed.

Definition placed (D : decoder) : Prop := forall chunk b r rest hint, D chunk b = Ok (Some r, rest, hint) ->
  exists pre suf, chunk = pre ++ payload r ++ suf.
Lemma placed_located D : placed D -> exists locate, located D locate.
Proof.
  intro H. exists (fun chunk b => match D chunk b with Ok (Some r, _, _) => find_sub (payload r) chunk | _ => 0 end).
  intros chunk b r rest hint E. rewrite E. destruct (H _ _ _ _ _ E) as (pre & suf & ->). apply find_sub_ok.
Qed.

Lemma firstn_placed {A} k (l : list A) : exists suf, l = firstn k l ++ suf.
Proof. exists (skipn k l). now rewrite firstn_skipn. Qed.

Lemma read_line_placed chunk b m pl rest : read_line chunk b m = Ok (Some pl, rest) -> exists suf, chunk = pl ++ suf.
Proof.
  unfold read_line. destruct chunk as [|c chunk]; [destruct b; discriminate|]. destruct (lscan (c :: chunk) 0) as [[k hc] e].
  destruct (match m with Some m => m <=? k | None => false end); [discriminate|]. destruct (e && b); [discriminate|].
  intro H. injection H as <- _. destruct hc; apply firstn_placed.
Qed.
Lemma csv_read_line_placed p chunk b pl rest : csv_read_line p chunk b = Ok (Some pl, rest) -> exists suf, chunk = pl ++ suf.
Proof.
  unfold csv_read_line. destruct chunk as [|c chunk]; [destruct b; discriminate|].
  destruct (qscan _ _ q_new_field (c :: chunk) 0) as [[st k] nl]. destruct (check_line_length _ k); cbn [bind]; try discriminate.
  destruct nl.
  - intro H. injection H as <- _. destruct st; apply firstn_placed.
  - destruct b; [discriminate|]. destruct st; intro H; try discriminate H; injection H as <- _;
      try apply firstn_placed; exists []; now rewrite app_nil_r.
Qed.
Lemma csv_loop_placed fuel p b : forall chunk r rest hint, csv_loop fuel p chunk b = Ok (Some r, rest, hint) ->
  exists pre suf, chunk = pre ++ payload r ++ suf.
Proof.
  induction fuel as [|fuel IH]; intros chunk r rest hint H; cbn [csv_loop] in H; [discriminate|].
  destruct chunk as [|c chunk]; [discriminate|]. set (xs := c :: chunk) in *.
  destruct (is_comment_line p xs).
  - destruct (read_line xs b None) as [[[pl|] xs']| | |] eqn:E; cbn [bind] in H; try discriminate.
    destruct (read_line_some _ _ _ _ _ E) as [[t Ht] _]. destruct (IH _ _ _ _ H) as (pre & suf & E2).
    exists (t ++ pre), suf. rewrite Ht, E2, <- !app_assoc. reflexivity.
  - destruct (if cp_allow_quoted_new_lines p then csv_read_line p xs b else read_line xs b (cp_max_line_length p)) as [[[pl|] xs']| | |] eqn:E;
      cbn [bind] in H; try discriminate.
    destruct (negb (cp_skip_blank_lines p) || negb (length pl =? 0)).
    + injection H as <- _ _. cbn [payload]. exists []. destruct (cp_allow_quoted_new_lines p); [eapply csv_read_line_placed|eapply read_line_placed]; exact E.
    + assert (Hs : suffix_of xs' xs).
      { destruct (cp_allow_quoted_new_lines p); [apply csv_read_line_some in E|apply read_line_some in E]; tauto. }
      destruct Hs as [t Ht]. destruct (IH _ _ _ _ H) as (pre & suf & E2).
      exists (t ++ pre), suf. rewrite Ht, E2, <- !app_assoc. reflexivity.
Qed.
Lemma csv_placed p : placed (csv_decode p).
Proof.
  intros chunk b r rest hint H. unfold csv_decode, text_decode_record in H. destruct chunk as [|c chunk]; [discriminate|].
  set (xs := c :: chunk) in *.
  assert (Hb : forall xs', skip_utf8_bom xs b = Some xs' -> suffix_of xs' xs).
  { intros xs' E. unfold skip_utf8_bom in E. destruct xs as [|x [|y [|z l]]]; [destruct b; [discriminate|]; injection E as <-; apply suffix_refl..|].
    destruct (N.eqb x 239 && N.eqb y 187 && N.eqb z 191); injection E as <-; [exists [x; y; z]; reflexivity|apply suffix_refl]. }
  destruct (skip_utf8_bom xs b) as [xs'|]; [|discriminate]. destruct (Hb _ eq_refl) as [t Ht].
  destruct (csv_loop_placed _ _ _ _ _ _ _ H) as (pre & suf & E2). exists (t ++ pre), suf. rewrite Ht, E2, <- !app_assoc. reflexivity.
Qed.
Lemma recordio_placed : placed recordio_decode.
Proof.
  intros chunk b r rest hint H. unfold recordio_decode in H. destruct chunk as [|c chunk]; [discriminate|]. set (xs := c :: chunk) in *.
  destruct (decode_recordio_header xs) as [[data|]| | |]; cbn [bind] in H; try discriminate; [|destruct b; discriminate].
  destruct (N.of_nat (length xs) <? header_size + align (header_payload_size data) 4)%N; [destruct b; discriminate|].
  injection H as <- _ _. cbn [payload]. exists (firstn 8 xs). destruct (firstn_placed (N.to_nat (header_payload_size data)) (skipn 8 xs)) as [suf E].
  exists suf. etransitivity; [symmetry; exact (firstn_skipn 8 xs)|]. f_equal. exact E.
Qed.
Lemma parquet_placed : placed parquet_decode.
Proof.
  intros chunk b r rest hint H. unfold parquet_decode in H. destruct chunk as [|c chunk]; [discriminate|]. set (xs := c :: chunk) in *.
  destruct (length xs <? 4); [destruct b; discriminate|]. destruct (is_magic_number xs 0) as [[|]| | |]; cbn [bind negb] in H; try discriminate.
  destruct (length xs <? 12); [destruct b; discriminate|].
  destruct (parquet_scan xs (length xs - 11) 8) as [[e|]| | |]; cbn [bind] in H; try discriminate; [|destruct b; discriminate].
  injection H as <- _ _. exists []. apply firstn_placed.
Qed.

Lemma reader_ok D : stream_reader D -> consuming D /\ placed D.
Proof.
  assert (Hcsv : forall p, consuming (csv_decode p)) by (intro p; eapply stable_consuming; apply csv_stable1).
  intros [sb|p| |].
  - split.
    + destruct (Hcsv (text_params sb)) as (A & B & C). split; [|split]; intros; rewrite ?text_line_csv in *; auto. eapply C; eassumption.
    + intros chunk b r rest hint H. rewrite text_line_csv in H. eapply csv_placed; eassumption.
  - split; [apply Hcsv|apply csv_placed].
  - split; [eapply stable_consuming; apply recordio_stable|apply recordio_placed].
  - split; [eapply stable_consuming; apply parquet_stable|apply parquet_placed].
Qed.

Lemma C12_locatable_l : forall D, stream_reader D -> exists locate, located D locate.
Proof. intros D H. apply placed_located. apply reader_ok. exact H. Qed.

Lemma C12_stay_l : forall D locate junk resizable content sched size ops,
  stream_reader D -> located D locate -> (0 < size)%N ->
  exists outs m, run junk resizable locate D ops (new_mem content sched size) = Ok (outs, m) /\ intact m.
Proof. intros D locate junk resizable content sched size ops HD HL. apply held_intact; [apply reader_ok; exact HD|exact HL]. Qed.

Lemma C12_records_l : forall D locate junk resizable content sched size ops outs m,
  stream_reader D -> located D locate -> (0 < size)%N ->
  run junk resizable locate D ops (new_mem content sched size) = Ok (outs, m) ->
  forall k, k < length outs -> k <= length (fst (records D false sched size content)) ->
    nth_error outs k = nth_error (outcomes (records D false sched size content)) k.
Proof.
  intros D locate junk resizable content sched size ops outs m HD HL Hs Hr.
  apply (run_records junk resizable D locate (proj1 (reader_ok D HD)) HL content sched size ops outs m Hs Hr).
Qed.


Lemma recordio_at : located recordio_decode (fun _ _ => 8).
Proof.
  intros chunk b r rest hint H. unfold recordio_decode in H. destruct chunk as [|c chunk]; [discriminate|]. set (xs := c :: chunk) in *.
  destruct (decode_recordio_header xs) as [[data|]| | |]; cbn [bind] in H; try discriminate; [|destruct b; discriminate].
  destruct (N.ltb_spec (N.of_nat (length xs)) (header_size + align (header_payload_size data) 4)); [destruct b; discriminate|].
  assert (Er : payload r = firstn (N.to_nat (header_payload_size data)) (skipn 8 xs)) by (injection H as <- _ _; reflexivity).
  rewrite Er. pose proof (align_ge (header_payload_size data)). unfold header_size in *.
  rewrite firstn_length, skipn_length. replace (Nat.min _ _) with (N.to_nat (header_payload_size data)) by lia.
  split; [reflexivity|lia].
Qed.
Lemma parquet_at : located parquet_decode (fun _ _ => 0).
Proof.
  intros chunk b r rest hint H. unfold parquet_decode in H. destruct chunk as [|c chunk]; [discriminate|]. set (xs := c :: chunk) in *.
  destruct (length xs <? 4); [destruct b; discriminate|]. destruct (is_magic_number xs 0) as [[|]| | |]; cbn [bind negb] in H; try discriminate.
  destruct (length xs <? 12); [destruct b; discriminate|].
  destruct (parquet_scan xs (length xs - 11) 8) as [[e|]| | |]; cbn [bind] in H; try discriminate; [|destruct b; discriminate].
  injection H as <- _ _. cbn [payload skipn]. rewrite firstn_length. split; [|lia].
  destruct (Nat.le_ge_cases e (length xs)).
  - replace (Nat.min e (length xs)) with e by lia. reflexivity.
  - replace (Nat.min e (length xs)) with (length xs) by lia. rewrite !firstn_all2 by lia. reflexivity.
Qed.
