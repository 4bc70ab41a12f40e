From Coq Require Import Permutation.
From Verif Require Import Common Model_rec Proof_rec Model_inst Spec_inst Proof_inst Proof_inst_shuffle Proof_inst_props Model_par Spec_par Proof_par Proof_par_props
  Model_text Spec_text Proof_text Spec_fault Proof_fault Model_whole Spec_whole Proof_whole Proof_wholegood.

Lemma rstate_started (r : run_state) : {r = not_started} + {r <> not_started}.
Proof. destruct r; [left; reflexivity|right; discriminate..]. Qed.
Lemma in_end_dec {E} (l : list (@out E)) : {In O_end l} + {~ In O_end l}.
Proof.
  induction l as [|o l [IH|IH]]; [right; auto|left; now right|].
  destruct o; [right; intros [H|H]; [discriminate|auto]|left; now left|right; intros [H|H]; [discriminate|auto]].
Qed.

(* ---------------- end of data has been read ---------------- *)

Section End.
  Context {B E : Type} (decode : B -> dres E) (size_bytes : B -> nat) (src : nat -> list B) (src_end : nat -> option exn) (cores np pr prefetch reads : nat).
  Hypothesis HG : graph_params cores np pr = (prefetch, reads).
  Hypothesis HC : 1 <= cores.
  Notation step := (step decode size_bytes src src_end prefetch reads).
  Notation reachable := (reachable decode size_bytes src src_end prefetch reads).

  Lemma end_logged s : reachable s -> In O_end (log s) -> s_end s = true.
  Proof.
    intros (l & Hl). revert s Hl. induction l as [|a l IH] using rev_ind; intros s Hl Hin; [cbn in Hl; injection Hl as <-; destruct Hin|].
    rewrite exec_snoc in Hl. destruct (exec _ _ _ _ _ _ _ l) as [s0|] eqn:E0; [|discriminate]. specialize (IH s0 eq_refl).
    assert (HI : inv decode size_bytes src src_end prefetch reads s0) by (eapply reach_inv; eauto; exists l; exact E0).
    destruct s0 as [ep nx ca en lc ld dl ob on qp qr cn fl rs fq rq by_ p lg nr cs qs]. cbn [log s_end] in IH.
    destruct a; cbn [Model_par.step] in Hl;
      try (repeat match type of Hl with context [match ?x with _ => _ end] => destruct x eqn:?; try discriminate end; injection Hl as <-; cbn [log s_end] in *; auto; fail).
    - destruct p; try discriminate. destruct rq; injection Hl as <-; cbn [log s_end] in *; [auto|].
      apply in_app_or in Hin. destruct Hin as [Hin|[Hin|[]]]; [auto|discriminate].
    - destruct p; try discriminate. destruct cs; [discriminate|]. destruct rs.
      + destruct (i_wait _ _ _ _ _ _ _ HI eq_refl) as [_ Hn]. destruct (Hn eq_refl).
      + destruct fq; [discriminate|]. injection Hl as <-. cbn [log s_end] in *.
        apply in_app_or in Hin. destruct Hin as [Hin|[Hin|[]]]; [auto|discriminate].
      + assert (He : en = true).
        { destruct (i_stopped _ _ _ _ _ _ _ HI eq_refl) as [Hf Hq]. cbn in Hf. subst fl.
          destruct cn eqn:Ec.
          - destruct (i_stop _ _ _ _ _ _ _ HI eq_refl eq_refl) as [X|[X|X]]; discriminate X.
          - pose proof (graph_params_ok _ _ _ _ _ HG HC) as (G1 & G2 & _).
            edestruct @quiet_all as (Hon & _); [..|exact HI|exact Hq|reflexivity|]; try assumption. cbn in Hon.
            unfold quiet in Hq. cbn in Hq. rewrite !andb_true_iff in Hq. destruct Hq as [_ Hq]. destruct Hq as [[[[[Hq _] _] _] _] _].
            apply orb_prop in Hq. destruct Hq as [Hq|Hq]; [exact Hq|]. subst ca.
            exfalso. destruct (i_perm _ _ _ _ _ _ _ HI) as (lost & HP & HL). cbn in HP.
            pose proof (i_next _ _ _ _ _ _ _ HI) as Hx. pose proof (i_ord _ _ _ _ _ _ _ HI) as Ho. cbn in Hx, Ho.
            replace (nx - on) with 0 in HP by lia. apply Permutation_length in HP. rewrite !app_length in HP. cbn in HP. lia. }
        destruct fq; injection Hl as <-; exact He.
      + destruct fl; [|discriminate]. injection Hl as <-. cbn [log s_end] in *.
        apply in_app_or in Hin. destruct Hin as [Hin|[Hin|[]]]; [auto|discriminate].
  Qed.
End End.

(* ---------------- the batches read in an epoch, from the state in which it began ---------------- *)

Inductive status := going | ended | failed.

Section Path.
  Context {A : Type} (M : machine A) (size : nat) (last : last_handling).
  Notation BM := (batch_reader size last M).

  Inductive bpath (st0 : nat * bstate M) : list (batch A) -> nat * bstate M -> status -> Prop :=
  | bp_nil : bpath st0 [] st0 going
  | bp_item bs r b r' : bpath st0 bs r going -> m_core BM r = (Ok (Some b), r') -> bpath st0 (bs ++ [b]) r' going
  | bp_end bs r r' : bpath st0 bs r going -> m_core BM r = (Ok None, r') -> bpath st0 bs r' ended
  | bp_fail bs r r' e : bpath st0 bs r going -> m_core BM r = (Throw e, r') -> bpath st0 bs r' failed.

  Lemma bpath_nil st0 r : bpath st0 [] r going -> r = st0.
  Proof.
    intro H. inversion H as [|bs r0 b r' H0 E1 E2| |]; [reflexivity|]. destruct bs; discriminate.
  Qed.

  Lemma bpath_yields st0 bs (H : yields BM (None, st0) bs (Ok tt)) l r stt : bpath st0 l r stt ->
    exists rest, bs = l ++ rest /\ (stt = ended -> rest = []) /\ (stt = going -> yields BM (None, r) rest (Ok tt)).
  Proof.
    induction 1 as [|l r b r' HB (rest & E1 & _ & Hy) E|l r r' HB (rest & E1 & _ & Hy) E|l r r' e HB (rest & E1 & _ & Hy) E].
    - exists bs. split; [reflexivity|]. split; [discriminate|auto].
    - specialize (Hy eq_refl). pose proof (core_yields M size last r rest (Ok tt) Hy) as HM. destruct rest as [|b' rest].
      + destruct HM as (r2 & E2 & _). rewrite E in E2. discriminate.
      + destruct HM as (r2 & E2 & H2). rewrite E in E2. injection E2 as <- <-. exists rest.
        split; [rewrite E1, <- app_assoc; reflexivity|]. split; [discriminate|auto].
    - specialize (Hy eq_refl). pose proof (core_yields M size last r rest (Ok tt) Hy) as HM. destruct rest as [|b' rest].
      + exists []. split; [exact E1|]. split; [auto|discriminate].
      + destruct HM as (r2 & E2 & _). rewrite E in E2. discriminate.
    - exists rest. split; [exact E1|]. split; discriminate.
  Qed.
End Path.

Section Repro.
  Context {rng : Type} (seeded : rng) (draw : nat -> rng -> nat * rng) (shuf : list instance -> rng -> list instance * rng) (size_max : nat).
  Context (p : rd_params) (ds : list store) (iss : list (list instance)) (M : machine instance).
  Context {E : Type} (decode : batch instance -> dres E) (size_bytes : batch instance -> nat) (cores np pr prefetch reads : nat).
  Hypothesis HF : Forall2 store_instances ds iss.
  Hypothesis HM : make_instance_reader seeded draw shuf size_max p ds = Ok M.
  Hypothesis Hr : forall r, p_ratio p = Some r -> float_ratio r.
  Hypothesis Hd : forall w g, 0 < w -> fst (draw w g) < w.
  Hypothesis Hp : forall l g, Permutation (fst (shuf l g)) l.
  Hypothesis Hm : length (concat iss) < size_max.
  Hypothesis Hb : 0 < p_batch p.
  Hypothesis HG : graph_params cores np pr = (prefetch, reads).
  Hypothesis HC : 1 <= cores.
  Notation BM := (batch_reader (p_batch p) (p_last p) M).
  Notation wstep := (wstep M (p_batch p) (p_last p) decode size_bytes prefetch reads).
  Notation wexec := (wexec M (p_batch p) (p_last p) decode size_bytes prefetch reads).
  Notation w_reachable := (w_reachable M (p_batch p) (p_last p) decode size_bytes prefetch reads).
  Notation w_resets := (w_resets M (p_batch p) (p_last p) decode size_bytes prefetch reads).
  Notation bpath := (bpath M (p_batch p) (p_last p)).
  Notation J := (J M (p_batch p) (p_last p) decode size_bytes prefetch reads (good_begin M)).

  (* the state that the calls of peek_instance for the schema leave *)
  Definition looked (n : nat) (m : ms M) : bstate M := snd (run M (None, m) (repeat Peek n)).

  Definition flags (s : @st E) (stt : status) : Prop :=
    (s_end s = true -> stt = ended) /\ (s_end s = false -> cancelled s = false -> stt = going).

  (* [starts e m]: the instance reader may begin epoch e in the state m *)
  Definition K (starts : nat -> ms M -> Prop) (w : wst E M) : Prop :=
    exists m n stt, starts (epoch (w_par w)) m /\ bpath (0, looked n m) (w_read w) (w_reader w) stt /\ flags (w_par w) stt.

  Lemma wexec_snoc w l a : wexec w (l ++ [a]) =
    match wexec w l with Ok (Some w') => let* o := wstep w' a in Ok o | r => r end.
  Proof.
    revert w. induction l as [|b l IH]; intro w; cbn [app Model_whole.wexec].
    - destruct (wstep w a) as [[w'|]| | |]; reflexivity.
    - destruct (wstep w b) as [[w'|]| | |]; cbn [bind]; auto.
  Qed.
  Lemma reach_snoc w a w' : w_reachable w -> wstep w a = Ok (Some w') -> w_reachable w'.
  Proof. intros (l & Hl) Ha. exists (l ++ [a]). rewrite wexec_snoc, Hl, Ha. reflexivity. Qed.
  Lemma resets_reach R w : w_resets R w -> w_reachable w.
  Proof. induction 1 as [|w a w' _ IH Ha _]; [exists []; reflexivity|exact (reach_snoc _ _ _ IH Ha)]. Qed.
  Lemma reach_resets w : w_reachable w -> w_resets (fun _ => True) w.
  Proof.
    intros (l & Hl). revert w Hl. induction l as [|a l IH] using rev_ind; intros w Hl; [cbn in Hl; injection Hl as <-; constructor|].
    rewrite wexec_snoc in Hl. destruct (wexec (w_init M) l) as [[w0|]| | |] eqn:E0; try discriminate.
    destruct (wstep w0 a) as [[w1|]| | |] eqn:E1; cbn [bind] in Hl; try discriminate. injection Hl as ->.
    apply (wr_step _ _ _ _ _ _ _ _ w0 a); auto.
  Qed.

  Section Invariant.
    Context (R : wst E M -> Prop) (starts : nat -> ms M -> Prop).
    Hypothesis starts_init : starts 0 (m_init M).
    Hypothesis starts_reset : forall w m n stt, w_reachable w -> R w -> starts (epoch (w_par w)) m ->
      bpath (0, looked n m) (w_read w) (w_reader w) stt -> flags (w_par w) stt ->
      starts (S (epoch (w_par w))) (m_reset M (snd (snd (w_reader w)))).

    Lemma K_step w a w' : w_reachable w -> K starts w -> wstep w a = Ok (Some w') -> (a = W_act A_reset -> R w) -> K starts w'.
    Proof.
      intros HR (m & n & stt & Hs & HB & Hf) Ha HRa.
      destruct (good_J seeded draw shuf size_max p ds iss M decode size_bytes cores np pr prefetch reads HF HM Hr Hd Hp Hm Hb HG HC w HR) as (src & src_end & HJ).
      destruct a as [ok|a].
      - (* a look at the first instance *)
        pose proof (j_schema _ _ _ _ _ _ _ _ _ _ _ HJ) as Hsc. pose proof (j_new _ _ _ _ _ _ _ _ _ _ _ HJ) as Hn.
        pose proof (j_reach _ _ _ _ _ _ _ _ _ _ _ HJ) as Hre.
        destruct w as [s r bs sc]. cbn [Model_whole.wstep w_par w_reader w_read w_schema] in *. destruct sc; [discriminate|]. specialize (Hsc eq_refl).
        destruct (pc s) eqn:Epc; try discriminate. destruct (Hn Hsc) as (-> & _).
        assert (HI : inv decode size_bytes src src_end prefetch reads s) by (eapply reach_inv; eauto).
        assert (Hi : s_end s = false /\ cancelled s = false) by (destruct (i_new _ _ _ _ _ _ _ HI Hsc) as [E1|E1]; rewrite E1; auto).
        destruct Hi as [H1 H2]. pose proof (proj2 Hf H1 H2) as ->. apply bpath_nil in HB. subst r. cbn [snd fst] in Ha.
        destruct (b_peek M (looked n m)) as [x i'] eqn:Ei.
        assert (Ei' : i' = looked (S n) m).
        { unfold looked in *. rewrite <- peek_again. rewrite Ei. reflexivity. }
        assert (exists ok', w' = mk_wst s (0, i') [] ok') as (ok' & ->) by (destruct x; try discriminate; injection Ha as <-; eauto).
        exists m, (S n), going. cbn [w_par w_reader w_read]. split; [exact Hs|]. split; [rewrite Ei'; constructor|exact Hf].
      - destruct (match a with T_source | A_reset | A_read => true | _ => false end) eqn:Epl.
        + destruct a; try discriminate Epl; clear Epl.
          * (* read_example *)
            destruct w as [s r bs sc]. cbn [Model_whole.wstep w_par w_reader w_read w_schema] in *. destruct sc; [|discriminate].
            destruct (pstep decode size_bytes prefetch reads bs None s A_read) as [s'|] eqn:Es; [|discriminate]. injection Ha as <-.
            exists m, n, stt. cbn [w_par w_reader w_read].
            assert (Hx : epoch s' = epoch s /\ s_end s' = s_end s /\ cancelled s' = cancelled s).
            { destruct s as [ep nx ca en lc ld dl ob on qp qr cn fl rs fq rq by_ pc_ lg nr cs qs]. unfold pstep in Es. cbn [Model_par.step] in Es.
              destruct pc_; try discriminate; destruct rq; injection Es as <-; auto. }
            destruct Hx as (F1 & F2 & F3). unfold flags. rewrite F1, F2, F3. auto.
          * (* reset *)
            specialize (HRa eq_refl). pose proof (starts_reset w m n stt HR HRa Hs HB Hf) as Hs'.
            destruct (J_reset M (p_batch p) (p_last p) decode size_bytes prefetch reads cores np pr HG HC (good_begin M)
              (good_reset seeded draw shuf size_max p ds iss M HF HM Hr Hd Hp Hm)
              src src_end w w' HJ Ha) as (HJ' & E1 & E2 & _).
            destruct (j_new _ _ _ _ _ _ _ _ _ _ _ HJ') as (E3 & _); [rewrite E1; reflexivity|].
            exists (m_reset M (snd (snd (w_reader w)))), 0, going. rewrite E1, E2, E3. cbn [epoch init]. split; [exact Hs'|].
            split; [constructor|]. split; [discriminate|reflexivity].
          * (* a batch is read *)
            destruct w as [s r bs sc]. cbn [Model_whole.wstep w_par w_reader w_read w_schema] in *.
            assert (Hen : forall x bs' s', pstep decode size_bytes prefetch reads bs' x s T_source = Some s' ->
              s_end s = false /\ cancelled s = false /\ epoch s' = epoch s).
            { intros x bs' s' Hs'. destruct s as [ep nx ca en lc ld dl ob on qp qr cn fl rs fq rq by_ pc_ lg nr cs qs]. unfold pstep in Hs'. cbn [Model_par.step] in Hs'.
              destruct rs; try discriminate. destruct (cn || ca || en) eqn:Ef; [discriminate|].
              apply orb_false_elim in Ef. destruct Ef as [Ef En]. apply orb_false_elim in Ef. destruct Ef as [Ec Ea].
              destruct (nth_error bs' nx); [|destruct x]; injection Hs' as <-; auto. }
            destruct (pstep decode size_bytes prefetch reads bs None s T_source) as [s1|] eqn:Es1; [|discriminate].
            destruct (Hen _ _ _ Es1) as (F1 & F2 & F3). pose proof (proj2 Hf F1 F2) as ->.
            destruct (m_core BM r) as [x r'] eqn:Er.
            assert (Hnth : nth_error bs (s_next s) = None).
            { pose proof (j_reach _ _ _ _ _ _ _ _ _ _ _ HJ) as Hre. cbn [w_par] in Hre.
              assert (HI : inv decode size_bytes src src_end prefetch reads s) by (eapply reach_inv; eauto).
              pose proof (J_prefix M (p_batch p) (p_last p) decode size_bytes prefetch reads (good_begin M) src src_end _ HJ) as HP. cbn [w_par w_read] in HP.
              assert (Hrun : rstate s = running) by (clear - Es1; destruct s as [ep nx ca en lc ld dl ob on qp qr cn fl rs fq rq by_ pc_ lg nr cs qs]; cbn in Es1; destruct rs; try discriminate; reflexivity).
              rewrite (HP Hrun). apply nth_error_None. rewrite firstn_length. lia. }
            destruct x as [[b|]|e| |]; try discriminate.
            -- destruct (pstep decode size_bytes prefetch reads (bs ++ [b]) None s T_source) as [s2|] eqn:Es2; [|discriminate]. injection Ha as <-.
               destruct (Hen _ _ _ Es2) as (_ & _ & F4). exists m, n, going. cbn [w_par w_reader w_read]. rewrite F4. split; [exact Hs|].
               split; [eapply bp_item; eauto|]. split; [|reflexivity].
               intro He. exfalso. clear - He Es2 F1 HJ Hnth HG HC.
               destruct s as [ep nx ca en lc ld dl ob on qp qr cn fl rs fq rq by_ pc_ lg nr cs qs]. unfold pstep in Es2. cbn [Model_par.step] in Es2. cbn in F1, Hnth.
               destruct rs; try discriminate. destruct (cn || ca || en) eqn:Ef; [discriminate|].
               assert (Hl : length bs <= nx) by (now apply nth_error_None).
               pose proof (J_prefix M (p_batch p) (p_last p) decode size_bytes prefetch reads (good_begin M) src src_end _ HJ eq_refl) as HP. cbn [w_par w_read s_next epoch] in HP.
               pose proof (i_next _ _ _ _ _ _ _ (reach_inv' decode size_bytes prefetch reads cores np pr HG HC src src_end _ (j_reach _ _ _ _ _ _ _ _ _ _ _ HJ))) as Hx.
               cbn [w_par s_next epoch] in Hx.
               assert (Hl2 : length bs = nx) by (rewrite HP, firstn_length; lia).
               rewrite nth_error_app2 in Es2 by lia. replace (nx - length bs) with 0 in Es2 by lia. cbn in Es2. injection Es2 as <-. cbn in He. congruence.
            -- injection Ha as <-. exists m, n, ended. cbn [w_par w_reader w_read]. rewrite F3. split; [exact Hs|].
               split; [eapply bp_end; eauto|]. split; [reflexivity|].
               intros He. exfalso. clear - He Es1 Hnth.
               destruct s as [ep nx ca en lc ld dl ob on qp qr cn fl rs fq rq by_ pc_ lg nr cs qs]. unfold pstep in Es1. cbn [Model_par.step] in Es1. cbn in Hnth.
               destruct rs; try discriminate. destruct (cn || ca || en) eqn:Ef; [discriminate|]. rewrite Hnth in Es1. injection Es1 as <-. discriminate.
            -- destruct (pstep decode size_bytes prefetch reads bs (Some e) s T_source) as [s2|] eqn:Es2; [|discriminate]. injection Ha as <-.
               destruct (Hen _ _ _ Es2) as (_ & _ & F4). exists m, n, failed. cbn [w_par w_reader w_read]. rewrite F4. split; [exact Hs|].
               split; [eapply bp_fail; eauto|]. clear - Es2 Hnth F1.
               destruct s as [ep nx ca en lc ld dl ob on qp qr cn fl rs fq rq by_ pc_ lg nr cs qs]. unfold pstep in Es2. cbn [Model_par.step] in Es2. cbn in Hnth, F1.
               destruct rs; try discriminate. destruct (cn || ca || en) eqn:Ef; [discriminate|]. rewrite Hnth in Es2. injection Es2 as <-. split; cbn; congruence.
        + assert (Hpl : plain a) by (destruct a; try discriminate Epl; repeat split; discriminate).
          rewrite (wstep_plain M (p_batch p) (p_last p) decode size_bytes prefetch reads w a Hpl) in Ha.
          destruct (pstep decode size_bytes prefetch reads (w_read w) None (w_par w) a) as [s'|] eqn:Es; [|discriminate]. injection Ha as <-.
          destruct Hpl as (P1 & P2 & P3). destruct (step_frame _ _ _ _ _ _ _ _ _ P1 P2 P3 Es) as (F1 & F2 & F3 & F4 & F5).
          exists m, n, stt. cbn [w_par w_reader w_read]. rewrite F1. split; [exact Hs|]. split; [exact HB|].
          unfold flags in *. rewrite F3. destruct Hf. auto.
    Qed.

    Lemma K_all w : w_resets R w -> K starts w.
    Proof.
      induction 1 as [|w a w' Hw IH Ha HRa].
      - exists (m_init M), 0, going. cbn. split; [exact starts_init|]. split; [constructor|]. split; [discriminate|reflexivity].
      - exact (K_step w a w' (resets_reach R w Hw) IH Ha HRa).
    Qed.
  End Invariant.

  (* what the client has, in terms of the batches from the state in which the epoch began *)
  Lemma K_delivers w st0 stt bs : w_reachable w -> bpath st0 (w_read w) (w_reader w) stt -> flags (w_par w) stt ->
    yields BM (None, st0) bs (Ok tt) ->
    exists rest, delivered (log (w_par w)) ++ rest = sequential decode bs /\
      (In O_end (log (w_par w)) -> rest = [] /\ Forall (decodable decode) bs /\ exists n, log (w_par w) = map O_example (sequential decode bs) ++ repeat O_end (S n)).
  Proof.
    intros HR HB Hf HY.
    destruct (good_J seeded draw shuf size_max p ds iss M decode size_bytes cores np pr prefetch reads HF HM Hr Hd Hp Hm Hb HG HC w HR) as (src & src_end & HJ).
    pose proof (j_reach _ _ _ _ _ _ _ _ _ _ _ HJ) as Hre. set (s := w_par w) in *.
    assert (HI : inv decode size_bytes src src_end prefetch reads s) by (eapply reach_inv; eauto).
    destruct (bpath_yields M (p_batch p) (p_last p) st0 bs HY _ _ _ HB) as (more & Eb & He & _).
    destruct (rstate_started (rstate s)) as [Ers|Ers].
    - assert (H0 : delivered (log s) = [] /\ ~ In O_end (log s)) by (destruct (i_new _ _ _ _ _ _ _ HI Ers) as [E1|E1]; rewrite E1; cbn; auto).
      destruct H0 as [-> Hne]. exists (sequential decode bs). split; [reflexivity|]. intro Hin. destruct (Hne Hin).
    - destruct (j_cur _ _ _ _ _ _ _ _ _ _ _ HJ Ers) as [Ew _]. fold s in Ew.
      pose proof (i_next _ _ _ _ _ _ _ HI) as Hx. pose proof (i_ord _ _ _ _ _ _ _ HI) as Ho.
      assert (Ef : firstn (o_next s) (src (epoch s)) = firstn (o_next s) bs).
      { rewrite Eb, firstn_app, Ew, firstn_firstn, firstn_length. replace (Nat.min (o_next s) (s_next s)) with (o_next s) by lia.
        replace (o_next s - Nat.min (s_next s) (length (src (epoch s)))) with 0 by lia. cbn [firstn]. now rewrite app_nil_r. }
      destruct (i_data _ _ _ _ _ _ _ HI) as (rest & Hdt & _). pose proof (i_dec _ _ _ _ _ _ _ HI) as Hdc. rewrite Ef in Hdt, Hdc.
      destruct (exs_prefix decode _ _ Hdc) as (r & Hr0). rewrite <- Hdt in Hr0.
      destruct (in_end_dec (log s)) as [Hin|Hin].
      + pose proof (end_logged decode size_bytes src src_end cores np pr prefetch reads HG HC s Hre Hin) as Hend.
        destruct (i_end _ _ _ _ _ _ _ HI Hend) as [En _]. rewrite (He (proj1 Hf Hend)), app_nil_r in Eb.
        rewrite Ew, En, firstn_all in Eb.
        edestruct @end_ok as ((k & Hlog) & Hdec & _); eauto. rewrite <- Eb in Hlog, Hdec.
        exists []. split; [rewrite Hlog, delivered_examples, app_nil_r; reflexivity|]. intros _. eauto.
      + eexists. split; [rewrite <- Hr0, <- !app_assoc; reflexivity|]. intro Hin'. destruct (Hin Hin').
  Qed.
End Repro.

(* ---------------- the state of the instance reader is that after some number of its own reads ---------------- *)

Section Iter.
  Context (M : machine instance).

  Fixpoint cores_after (k : nat) (m : ms M) : ms M := match k with 0 => m | S k' => snd (m_core M (cores_after k' m)) end.

  (* the last own read has returned end of data *)
  Definition at_end (m0 m : ms M) : Prop := exists k, m = cores_after (S k) m0 /\ fst (m_core M (cores_after k m0)) = Ok None.

  Definition at_read (m0 : ms M) (i : bstate M) (k : nat) : Prop := snd i = cores_after k m0 /\ (fst i <> None -> 1 <= k).

  Lemma read_iter m0 i k r i' : at_read m0 i k -> b_read M i = (r, i') ->
    exists k', at_read m0 i' k' /\ k <= k' /\ 1 <= k' /\ (r = Ok None -> at_end m0 (snd i')).
  Proof.
    destruct i as [[x|] s]; intros [E1 E2] H; cbn [b_read fst snd] in *.
    - injection H as <- <-. exists k. split; [split; [exact E1|cbn; congruence]|]. split; [lia|]. split; [apply E2; discriminate|discriminate].
    - subst s. unfold b_read in H. cbn [fst snd] in H. destruct (m_core M (cores_after k m0)) as [v s'] eqn:Ev. injection H as <- <-.
      exists (S k). split; [split; [cbn [cores_after snd]; rewrite Ev; reflexivity|cbn; lia]|]. split; [lia|]. split; [lia|].
      intros ->. exists k. cbn [cores_after snd]. rewrite Ev. auto.
  Qed.
  Lemma peek_iter m0 i k : at_read m0 i k -> exists k', at_read m0 (snd (b_peek M i)) k' /\ k <= k'.
  Proof.
    destruct i as [[x|] s]; intros [E1 E2]; cbn [fst snd] in *.
    - exists k. split; [split; assumption|lia].
    - subst s. unfold b_peek. cbn [fst snd]. destruct (m_core M (cores_after k m0)) as [v s'] eqn:Ev.
      exists (S k). split; [|lia]. destruct v; (split; [cbn [cores_after snd]; rewrite Ev; reflexivity|lia]).
  Qed.
  Lemma looked_iter m0 n : exists k, at_read m0 (looked M n m0) k.
  Proof.
    unfold looked. induction n as [|n IH]; [exists 0; split; [reflexivity|cbn; congruence]|].
    destruct IH as (k & IH). rewrite <- peek_again. destruct (peek_iter _ _ _ IH) as (k' & H & _). eauto.
  Qed.
  Lemma fill_iter m0 : forall room i k buf r buf' i', at_read m0 i k -> fill_inner M room i buf = (r, buf', i') ->
    exists k', at_read m0 i' k' /\ k <= k' /\ (1 <= room -> 1 <= k') /\ (r = Ok false -> at_end m0 (snd i')) /\
      (r = Ok true -> length buf' = length buf + room).
  Proof.
    induction room as [|room IH]; intros i k buf r buf' i' Hi H; cbn [fill_inner] in H.
    - injection H as <- <- <-. exists k. split; [exact Hi|]. split; [lia|]. split; [lia|]. split; [discriminate|lia].
    - destruct (b_read M i) as [v i1] eqn:Ev. destruct (read_iter _ _ _ _ _ Hi Ev) as (k1 & H1 & L1 & L2 & He).
      destruct v as [[x|]|e| |].
      + destruct (IH _ _ _ _ _ _ H1 H) as (k2 & H2 & L3 & L4 & He2 & Hl). exists k2. split; [exact H2|]. split; [lia|]. split; [lia|]. split; [exact He2|].
        intro Er. rewrite (Hl Er), app_length. cbn. lia.
      + injection H as <- <- <-. exists k1. split; [exact H1|]. split; [lia|]. split; [lia|]. split; [auto|discriminate].
      + injection H as <- <- <-. exists k1. split; [exact H1|]. split; [lia|]. split; [lia|]. split; discriminate.
      + injection H as <- <- <-. exists k1. split; [exact H1|]. split; [lia|]. split; [lia|]. split; discriminate.
      + injection H as <- <- <-. exists k1. split; [exact H1|]. split; [lia|]. split; [lia|]. split; discriminate.
  Qed.

  Lemma batch_iter size last m0 r k v r' : 0 < size -> at_read m0 (snd r) k -> m_core (batch_reader size last M) r = (v, r') ->
    exists k', at_read m0 (snd r') k' /\ 1 <= k' /\ (v = Ok None -> at_end m0 (snd (snd r'))).
  Proof.
    intros Hs Hi H. destruct r as [idx i]. cbn [m_core batch_reader snd] in *.
    destruct (fill_inner M size i []) as [[b xs] i'] eqn:Ef. destruct (fill_iter _ _ _ _ _ _ _ _ Hi Ef) as (k' & H1 & _ & L & He & Hl).
    exists k'. specialize (L Hs). destruct b as [b|e| |].
    - destruct xs as [|x xs].
      + injection H as <- <-. split; [exact H1|]. split; [exact L|]. intros _. destruct b; [|now apply He].
        specialize (Hl eq_refl). cbn in Hl. lia.
      + destruct (negb (length (x :: xs) =? size) && match last with last_drop | last_drop_warn => true | _ => false end) eqn:Ed; injection H as <- <-;
          (split; [exact H1|]); (split; [exact L|]); [intros _|discriminate].
        destruct b; [|now apply He]. exfalso. specialize (Hl eq_refl). apply andb_prop in Ed. destruct Ed as [Ed _]. apply negb_true_iff, Nat.eqb_neq in Ed.
        cbn [length] in *. lia.
    - injection H as <- <-. split; [exact H1|]. split; [exact L|]. discriminate.
    - injection H as <- <-. split; [exact H1|]. split; [exact L|]. discriminate.
    - injection H as <- <-. split; [exact H1|]. split; [exact L|]. discriminate.
  Qed.

  Lemma bpath_iter size last m0 n l r stt : 0 < size -> bpath M size last (0, looked M n m0) l r stt ->
    exists k, at_read m0 (snd r) k /\ (l <> [] -> 1 <= k) /\ (stt = ended -> at_end m0 (snd (snd r))).
  Proof.
    intros Hs H. induction H as [|l r b r' HB (k & H1 & _ & _) Ev|l r r' HB (k & H1 & L1 & _) Ev|l r r' e HB (k & H1 & L1 & _) Ev].
    - destruct (looked_iter m0 n) as (k & Hk). exists k. split; [exact Hk|]. split; [congruence|discriminate].
    - destruct (batch_iter _ _ _ _ _ _ _ Hs H1 Ev) as (k' & H2 & L2 & _). exists k'. split; [exact H2|]. split; [auto|discriminate].
    - destruct (batch_iter _ _ _ _ _ _ _ Hs H1 Ev) as (k' & H2 & L2 & He). exists k'. split; [exact H2|]. split; auto.
    - destruct (batch_iter _ _ _ _ _ _ _ Hs H1 Ev) as (k' & H2 & L2 & _). exists k'. split; [exact H2|]. split; [auto|discriminate].
  Qed.
End Iter.

(* ---------------- the random engine between two epochs ---------------- *)

Section Engine.
  Context {rng : Type} (seeded : rng) (draw : nat -> rng -> nat * rng) (shuf : list instance -> rng -> list instance * rng) (size_max window : nat) (M3 : machine instance).
  Notation SH := (shuffled seeded draw shuf size_max window true M3).
  Definition engine (m : shst (rng := rng) M3) : rng := snd (fst m).
  Definition drained (m : shst (rng := rng) M3) : Prop := window = 1 \/ snd (fst (fst m)) = false.

  Lemma drained_core (m : ms SH) : drained m -> drained (snd (m_core SH m)) /\ engine (snd (m_core SH m)) = engine m.
  Proof.
    destruct m as [[[buf has] g] i]. unfold drained, engine. cbn [fst snd]. cbn [m_core shuffled]. intros [->|Eh].
    - cbn [Nat.eqb]. destruct (b_read M3 i) as [r i']. cbn. auto.
    - destruct (window =? 1) eqn:E1.
      + destruct (b_read M3 i) as [r i']. cbn. apply Nat.eqb_eq in E1. auto.
      + subst has. rewrite sh_fill_false. destruct buf as [|x buf]; [cbn; auto|]. destruct (rev (x :: buf)); cbn; auto.
  Qed.
  Lemma drained_after (m : ms SH) j : drained m -> drained (cores_after SH j m) /\ engine (cores_after SH j m) = engine m.
  Proof.
    intro H. induction j as [|j [I1 I2]]; [auto|]. cbn [cores_after]. destruct (drained_core _ I1) as [D1 D2]. split; [exact D1|congruence].
  Qed.
  Lemma cores_add (m : ms SH) a b : cores_after SH (b + a) m = cores_after SH b (cores_after SH a m).
  Proof. induction b as [|b IH]; [reflexivity|]. cbn [Nat.add cores_after]. now rewrite IH. Qed.
  Lemma drained_same (m : ms SH) j k : drained (cores_after SH j m) -> drained (cores_after SH k m) ->
    engine (cores_after SH j m) = engine (cores_after SH k m).
  Proof.
    intros Hj Hk. destruct (Nat.le_ge_cases j k) as [L|L].
    - replace k with ((k - j) + j) by lia. rewrite cores_add. symmetry. apply (drained_after _ (k - j) Hj).
    - replace j with ((j - k) + k) by lia. rewrite cores_add. apply (drained_after _ (j - k) Hk).
  Qed.
  Lemma drained_mono (m : ms SH) j k : j <= k -> drained (cores_after SH j m) -> drained (cores_after SH k m).
  Proof. intros L Hj. replace k with ((k - j) + j) by lia. rewrite cores_add. apply (drained_after _ (k - j) Hj). Qed.

  Lemma sh_fill_empty : forall room buf g i u buf' g' i', sh_fill shuf M3 room (buf, true, g, i) = (Ok u, (buf', true, g', i')) -> length buf' = length buf + room.
  Proof.
    induction room as [|room IH]; intros buf g i u buf' g' i' H; cbn [sh_fill] in H; [injection H; intros; subst; lia|].
    destruct (b_read M3 i) as [[[x|]|e| |] i1]; try discriminate.
    - apply IH in H. rewrite H, app_length. cbn. lia.
    - destruct (shuf buf g) as [b2 g2]. discriminate.
  Qed.

  Lemma end_drained (m : ms SH) : 0 < size_max -> fst (m_core SH m) = Ok None -> drained (snd (m_core SH m)).
  Proof.
    intros Hmx. destruct m as [[[buf has] g] i]. unfold drained. cbn [m_core shuffled fst snd]. destruct (Nat.eqb_spec window 1) as [->|N1]; [auto|].
    set (room := (if window =? 0 then size_max else window) - length buf).
    destruct (sh_fill shuf M3 room (buf, has, g, i)) as [u [[[b1 h1] g1] i1]] eqn:Ef. destruct u as [u|e| |]; try discriminate.
    destruct b1 as [|x b1].
    - intros _. cbn. right. destruct h1; [|reflexivity]. exfalso. destruct has; [|rewrite sh_fill_false in Ef; discriminate].
      apply sh_fill_empty in Ef. cbn in Ef. destruct buf; cbn in Ef; [|lia]. subst room. cbn in Ef. destruct (Nat.eqb_spec window 0); lia.
    - destruct h1.
      + destruct (draw window g1) as [k g2]. destruct (pop_at k (x :: b1)) as [[y b2]|]; discriminate.
      + destruct (rev (x :: b1)); discriminate.
  Qed.

  (* a window larger than the data: everything is read at once *)
  Lemma full_drained g ys : (forall l g, Permutation (fst (shuf l g)) l) -> window = 0 \/ length ys < window -> yields M3 (b_init M3) ys (Ok tt) ->
    length ys < size_max -> drained (snd (m_core SH ([], true, g, b_init M3))).
  Proof.
    intros Hp Hw Hy Hl. unfold drained. cbn [m_core shuffled]. destruct (Nat.eqb_spec window 1) as [|N1]; [auto|right].
    cbn [fst length]. rewrite Nat.sub_0_r. set (room := if window =? 0 then size_max else window).
    assert (Hr : length ys < room) by (subst room; destruct (Nat.eqb_spec window 0); lia).
    pose proof (sh_fill_spec M3 shuf Hp room [] g (b_init M3) ys Hy) as HS. destruct (Nat.leb_spec room (length ys)) as [|_]; [lia|].
    destruct HS as (b' & g' & i' & -> & _). destruct b' as [|x b']; [reflexivity|]. destruct (rev (x :: b')); reflexivity.
  Qed.

  (* the engine at the beginning of an epoch when the engine is drained before every reset *)
  Inductive seeds : nat -> rng -> Prop :=
  | sd_first : seeds 0 seeded
  | sd_next e g k : seeds e g -> drained (cores_after SH k ([], true, g, b_init M3)) ->
      seeds (S e) (engine (cores_after SH k ([], true, g, b_init M3))).
  Lemma seeds_same : forall e g g', seeds e g -> seeds e g' -> g = g'.
  Proof.
    induction e as [|e IH]; intros g g' H H'; [inversion H; inversion H'; subst; reflexivity|].
    inversion H as [|e1 g1 k1 A1 D1 Q1 Q2]. inversion H' as [|e2 g2 k2 A2 D2 Q3 Q4]. subst e1 e2.
    rewrite <- (IH _ _ A1 A2) in *. apply drained_same; assumption.
  Qed.
End Engine.
