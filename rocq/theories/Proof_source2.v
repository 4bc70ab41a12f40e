(* A stream of any kind behaves like one with a schedule; conversion to UTF-8 on any stream. *)
From Verif Require Import Common Model_rec Proof_rec Model_utf8 Spec_utf8 Proof_utf8 Model_source Spec_source Proof_source.

Lemma fill_more f : forall s room acc r, fill f s room acc = r -> r <> Fuel -> forall f', f <= f' -> fill f' s room acc = r.
Proof.
  induction f as [|f IH]; intros s room acc r E NF f' L; [cbn in E; congruence|]. destruct f' as [|f']; [lia|]. cbn [fill] in *.
  destruct (room =? 0)%N; [exact E|]. destruct (stream_read s room) as [[|b bs] s']; [exact E|]. apply IH; auto. lia.
Qed.
Lemma fill_fuel f f' s room acc : length (s_rest s) < f -> length (s_rest s) < f' -> fill f s room acc = fill f' s room acc.
Proof.
  intros L L'. destruct (fill_spec (S (length (s_rest s))) s room acc ltac:(lia)) as (s' & E & _).
  rewrite (fill_more _ _ _ _ _ E ltac:(discriminate) f) by lia. rewrite (fill_more _ _ _ _ _ E ltac:(discriminate) f') by lia. reflexivity.
Qed.
Lemma stream_read_sched data bs data' n sched : data = bs ++ data' -> (0 < n)%N -> (N.of_nat (length bs) <= n)%N -> (bs = [] -> data = []) ->
  stream_read (mk_stream data (length bs :: sched)) n = (bs, mk_stream data' sched).
Proof.
  intros -> Hn L Z. unfold stream_read. cbn [s_rest s_sched tl]. destruct bs as [|b bs].
  - cbn [app] in *. rewrite (Z eq_refl). cbn [length]. rewrite N.min_0_r. reflexivity.
  - replace (Nat.min _ _) with (length (b :: bs)) by (rewrite app_length; cbn [length] in *; lia).
    rewrite firstn_app_le, firstn_all by lia. rewrite skipn_app_le, skipn_all by lia. reflexivity.
Qed.

Section Sim.
  Variable Src : Type.
  Variable rd : Src -> N -> res (list byte) * Src.
  Variable lim : N.
  Variable f : fate.
  Notation feeds s data := (feeds Src rd lim s data f).
  Notation sfill := (sfill Src rd).

  Lemma sim_fill fuel : forall s data room acc, feeds s data -> (room < lim)%N ->
    (exists acc' s' eof data' sch, sfill fuel s room acc = Ok (acc', s', eof) /\ feeds s' data' /\ length data' <= length data /\ (eof = true -> f = Ends) /\
       forall sched, fill fuel (mk_stream data (sch ++ sched)) room acc = Ok (acc', mk_stream data' sched, eof)) \/
    (exists x P, sfill fuel s room acc = Throw x /\ f = Fails P /\ P x) \/
    (sfill fuel s room acc = Fuel /\ fuel <= length data).
  Proof.
    induction fuel as [|fuel IH]; intros s data room acc F R; [right; right; split; [reflexivity|lia]|].
    cbn [Model_source.sfill fill]. destruct (N.eqb_spec room 0) as [->|Nr].
    - left. exists acc, s, false, data, []. repeat split; auto. discriminate.
    - pose proof (feeds_step Src rd lim s data f room F ltac:(lia)) as H. destruct (rd s room) as [[bs|x| |] s']; try contradiction.
      2:{ destruct H as (P & -> & H). right. left. exists x, P. auto. }
      destruct H as (L & (data' & E & F') & Z). cbn [bind]. destruct bs as [|b bs].
      + left. exists acc, s', true, data', [0]. subst data. split; [reflexivity|]. split; [exact F'|]. split; [cbn; lia|]. split; [intros _; apply Z; reflexivity|]. intros sched. cbn [app].
        pose proof (stream_read_sched data' [] data' room sched eq_refl ltac:(lia) ltac:(cbn; lia) (fun _ => proj1 (Z eq_refl))) as Q. cbn [length] in Q. rewrite Q. reflexivity.
      + destruct (IH s' data' (room - N.of_nat (length (b :: bs)))%N (acc ++ b :: bs) F' ltac:(lia)) as [(acc' & s2 & eof & data2 & sch & E2 & F2 & L2 & Z2 & S2)|[(x & P & E2 & H)|(E2 & L2)]].
        * left. exists acc', s2, eof, data2, (length (b :: bs) :: sch). split; [exact E2|]. split; [exact F2|]. split; [rewrite E, app_length; lia|]. split; [exact Z2|].
          intros sched. rewrite <- app_comm_cons. rewrite (stream_read_sched data (b :: bs) data' room _ E ltac:(lia) L ltac:(discriminate)). apply S2.
        * right. left. exists x, P. auto.
        * right. right. split; [exact E2|]. rewrite E. cbn [app length]. rewrite app_length. lia.
  Qed.

  (* ---------------- conversion ---------------- *)
  Variable St : Type.
  Variable iconv_open : encoding -> option St.
  Variable cv : encoding -> St -> list byte -> cres St.
  Hypothesis good : converter St cv.
  Hypothesis room_enough : (u_block < lim)%N.
  Variable fuel : nat.
  Notation cstream := (cstream Src St).
  Notation c_convert := (c_convert Src rd St cv fuel).
  Notation u_convert := (u_convert St cv).
  Notation iconv := (iconv St cv).

  Definition to_u (u : cstream) (s : stream) : ustream St :=
    mk_u St s (c_enc _ _ u) (c_conv _ _ u) (c_fill _ _ u) (c_held _ _ u) (c_end _ _ u) (c_rem _ _ u).
  Definition end_ok (n : N) : Prop := (n <= u_block)%N /\ (f = Ends \/ n = u_block).
  Definition fails_as {A B} (a : res A) (b : res B) : Prop :=
    match a, b with Throw x, Throw y => x = y | UB, UB => True | Fuel, Fuel => True | _, _ => False end.

  Lemma sim_convert fuel1 : forall room u data, feeds (c_inner _ _ u) data -> length data < fuel -> end_ok (c_end _ _ u) ->
    (exists bs u' data' sch, c_convert fuel1 room u = Ok (bs, u') /\ feeds (c_inner _ _ u') data' /\ end_ok (c_end _ _ u') /\ (bs = [] -> f = Ends) /\ length data' <= length data /\
       forall sched, u_convert fuel1 room (to_u u (mk_stream data (sch ++ sched))) = Ok (bs, to_u u' (mk_stream data' sched))) \/
    (exists x P, c_convert fuel1 room u = Throw x /\ f = Fails P /\ P x) \/
    (exists sch, forall sched, fails_as (c_convert fuel1 room u) (u_convert fuel1 room (to_u u (mk_stream data (sch ++ sched))))).
  Proof.
    induction fuel1 as [|fuel1 IH]; intros room u data F L B; [right; right; exists []; intros; exact I|].
    assert (GO : forall u1 data1, feeds (c_inner _ _ u1) data1 -> length data1 < fuel -> end_ok (c_end _ _ u1) ->
      let cgo := let* r := iconv (S (length (c_held _ _ u1))) (c_enc _ _ u1) (c_conv _ _ u1) (c_held _ _ u1) room in
        let '(outs, inp, conv, st) := r in
        let u2 := match st with
          | I_incomplete => mk_c Src St (c_inner _ _ u1) (c_enc _ _ u1) conv true inp (c_end _ _ u1) (c_rem _ _ u1)
          | I_leftover => mk_c Src St (c_inner _ _ u1) (c_enc _ _ u1) conv false inp (c_end _ _ u1) (c_rem _ _ u1)
          | I_ok => mk_c Src St (c_inner _ _ u1) (c_enc _ _ u1) conv true [] (c_end _ _ u1) (c_rem _ _ u1)
          end in
        match outs with [] => c_convert fuel1 room u2 | _ => Ok (outs, u2) end in
      let ugo s := let* r := iconv (S (length (c_held _ _ u1))) (c_enc _ _ u1) (c_conv _ _ u1) (c_held _ _ u1) room in
        let '(outs, inp, conv, st) := r in
        let u2 := match st with
          | I_incomplete => mk_u St s (c_enc _ _ u1) conv true inp (c_end _ _ u1) (c_rem _ _ u1)
          | I_leftover => mk_u St s (c_enc _ _ u1) conv false inp (c_end _ _ u1) (c_rem _ _ u1)
          | I_ok => mk_u St s (c_enc _ _ u1) conv true [] (c_end _ _ u1) (c_rem _ _ u1)
          end in
        match outs with [] => u_convert fuel1 room u2 | _ => Ok (outs, u2) end in
      (exists bs u' data' sch, cgo = Ok (bs, u') /\ feeds (c_inner _ _ u') data' /\ end_ok (c_end _ _ u') /\ (bs = [] -> f = Ends) /\ length data' <= length data1 /\
         forall sched, ugo (mk_stream data1 (sch ++ sched)) = Ok (bs, to_u u' (mk_stream data' sched))) \/
      (exists x P, cgo = Throw x /\ f = Fails P /\ P x) \/
      (exists sch, forall sched, fails_as cgo (ugo (mk_stream data1 (sch ++ sched))))).
    { intros u1 data1 F1 L1 B1. cbv zeta. destruct (iconv (S (length (c_held _ _ u1))) (c_enc _ _ u1) (c_conv _ _ u1) (c_held _ _ u1) room) as [[[[outs inp] conv] st]|x| |]; cbn [bind];
        try (right; right; exists []; intros; first [exact I|reflexivity]).
      destruct outs as [|o outs].
      - set (u2 := match st with I_ok => _ | _ => _ end). assert (E2 : c_inner _ _ u2 = c_inner _ _ u1 /\ c_end _ _ u2 = c_end _ _ u1) by (subst u2; destruct st; auto).
        destruct E2 as [E2 E2']. pose proof (IH room u2 data1) as K. rewrite E2, E2' in K. specialize (K F1 L1 B1).
        assert (T : forall s, match st with
          | I_ok => mk_u St s (c_enc _ _ u1) conv true [] (c_end _ _ u1) (c_rem _ _ u1)
          | I_incomplete => mk_u St s (c_enc _ _ u1) conv true inp (c_end _ _ u1) (c_rem _ _ u1)
          | I_leftover => mk_u St s (c_enc _ _ u1) conv false inp (c_end _ _ u1) (c_rem _ _ u1) end = to_u u2 s) by (subst u2; destruct st; reflexivity).
        destruct K as [(bs & u' & data' & sch & E & K)|[K|(sch & K)]].
        + left. exists bs, u', data', sch. split; [exact E|]. destruct K as (K1 & K2 & K0 & K3 & K4). refine (conj K1 (conj K2 (conj K0 (conj K3 _)))). intros sched. rewrite T. apply K4.
        + right. left. exact K.
        + right. right. exists sch. intros sched. rewrite T. apply K.
      - left. exists (o :: outs). eexists. exists data1, []. split; [reflexivity|]. cbn [app]. destruct B1. destruct st; cbn; repeat split; auto; discriminate. }
    cbn [Model_source.c_convert Model_utf8.u_convert]. destruct (c_fill _ _ u) eqn:Fi.
    - destruct (sim_fill fuel (c_inner _ _ u) data (c_end _ _ u - N.of_nat (length (c_held _ _ u))) (c_held _ _ u) F ltac:(destruct B; lia)) as [(held & s' & eof & data' & sch & E & F' & L' & Ze & S')|[(x & P & E & H)|(_ & X)]]; [| |lia].
      + assert (Lh : (N.of_nat (length held) <= N.max (c_end _ _ u) (N.of_nat (length (c_held _ _ u))))%N).
        { specialize (S' []). destruct (fill_spec fuel (mk_stream data (sch ++ [])) (c_end _ _ u - N.of_nat (length (c_held _ _ u))) (c_held _ _ u) ltac:(cbn; lia)) as (s2 & E2 & _).
          rewrite S' in E2. injection E2 as -> _ _. rewrite app_length, firstn_length. lia. }
        assert (Lf : f = Ends \/ N.of_nat (length held) = N.max u_block (N.of_nat (length (c_held _ _ u)))).
        { destruct B as [_ [B|B]]; [auto|]. destruct eof; [auto|right].
          specialize (S' []). destruct (fill_spec fuel (mk_stream data (sch ++ [])) (c_end _ _ u - N.of_nat (length (c_held _ _ u))) (c_held _ _ u) ltac:(cbn; lia)) as (s2 & E2 & _).
          rewrite S' in E2. injection E2 as -> _ X. cbn [s_rest] in *. symmetry in X. apply N.ltb_ge in X. rewrite app_length, firstn_length. lia. }
        rewrite E. cbn [bind].
        assert (UF : forall sched, u_fill_buffer St (to_u u (mk_stream data (sch ++ sched))) = Ok (held, mk_stream data' sched)).
        { intros sched. unfold u_fill_buffer. cbn [to_u u_inner u_end u_held s_rest]. rewrite (fill_fuel _ fuel) by (cbn; lia). rewrite S'. reflexivity. }
        destruct (length held =? length (c_held _ _ u))%nat eqn:Eh.
        * destruct held as [|h held].
          -- left. exists []. eexists. exists data', sch. split; [reflexivity|]. split; [exact F'|].
             assert (Fe : f = Ends). { destruct Lf as [X|X]; [exact X|]. exfalso. cbn in X. unfold u_block in X. lia. }
             split; [split; [cbn; lia|auto]|]. split; [auto|]. split; [exact L'|].
             intros sched. cbn [to_u u_fill]. rewrite Fi. rewrite UF. cbn [bind to_u u_held]. rewrite Eh. reflexivity.
          -- right. right. exists sch. intros sched. cbn [to_u u_fill]. rewrite Fi. rewrite UF. cbn [bind to_u u_held]. rewrite Eh. reflexivity.
        * assert (Lh' : length (c_held _ _ u) < length held).
          { specialize (S' []). destruct (fill_spec fuel (mk_stream data (sch ++ [])) (c_end _ _ u - N.of_nat (length (c_held _ _ u))) (c_held _ _ u) ltac:(cbn; lia)) as (s2 & E2 & _).
            rewrite S' in E2. injection E2 as -> _ _. apply Nat.eqb_neq in Eh. rewrite app_length in *. lia. }
          assert (Eo : end_ok (N.of_nat (length held))) by (destruct B; split; [lia|destruct Lf; [auto|right; lia]]).
          set (u1 := mk_c Src St s' (c_enc _ _ u) (c_conv _ _ u) false held (N.of_nat (length held)) (c_rem _ _ u)).
          destruct (GO u1 data' F' ltac:(lia) Eo) as [(bs & u' & data2 & sch2 & K1 & K2 & K3 & K6 & K4 & K5)|[K|(sch2 & K)]].
          -- left. exists bs, u', data2, (sch ++ sch2). split; [exact K1|]. split; [exact K2|]. split; [exact K3|]. split; [exact K6|]. split; [lia|].
             intros sched. cbn [to_u u_fill]. rewrite Fi. rewrite <- app_assoc, UF. cbn [bind to_u u_held]. rewrite Eh. apply K5.
          -- right. left. exact K.
          -- right. right. exists (sch ++ sch2). intros sched. cbn [to_u u_fill]. rewrite Fi. rewrite <- app_assoc, UF. cbn [bind to_u u_held]. rewrite Eh. apply K.
      + right. left. exists x, P. rewrite E. auto.
    - destruct (GO u data F L B) as [(bs & u' & data2 & sch2 & K1 & K2 & K3 & K6 & K4 & K5)|[K|(sch2 & K)]].
      + left. exists bs, u', data2, sch2. split; [exact K1|]. split; [exact K2|]. split; [exact K3|]. split; [exact K6|]. split; [exact K4|].
        intros sched. cbn [to_u u_fill]. rewrite Fi. apply K5.
      + right. left. exact K.
      + right. right. exists sch2. intros sched. cbn [to_u u_fill]. rewrite Fi. apply K.
  Qed.

  Notation minv := (minv St cv).
  Notation cmade := (cmade Src St).
  Notation n_read := (n_read Src rd St cv fuel).
  Definition to_m (m : cmade) (s : stream) : made St :=
    match m with N_same _ _ _ => M_same St s | N_wrapped _ _ u => M_wrapped St (to_u u s) end.
  Definition m_src (m : cmade) : Src := match m with N_same _ _ s => s | N_wrapped _ _ u => c_inner _ _ u end.
  Definition m_end (m : cmade) : Prop := match m with N_same _ _ _ => True | N_wrapped _ _ u => c_is_utf8 _ _ u = true \/ end_ok (c_end _ _ u) end.
  Definition cinv (m : cmade) (d : list byte) (t : text_end) : Prop := exists data,
    feeds (m_src m) data /\ length data + 3 <= fuel /\ m_end m /\ minv (to_m m (mk_stream data [])) d t.
  Lemma minv_sched m data sched d t : minv (to_m m (mk_stream data [])) d t -> minv (to_m m (mk_stream data sched)) d t.
  Proof. destruct m; exact (fun x => x). Qed.
  Lemma minv_sched' m data sched d t : minv (to_m m (mk_stream data sched)) d t -> minv (to_m m (mk_stream data [])) d t.
  Proof. destruct m; exact (fun x => x). Qed.

  Lemma nread_ok m n d t : (0 < n < lim)%N -> cinv m d t ->
    match n_read m n with
    | (Ok bs, m') => (N.of_nat (length bs) <= n)%N /\ (exists d', d = bs ++ d' /\ cinv m' d' t) /\ (bs = [] -> d = [] /\ t = T_complete /\ f = Ends)
    | (Throw x, _) => (exists P, f = Fails P /\ P x) \/ (x = Stream_err /\ t <> T_complete)
    | _ => False
    end.
  Proof.
    intros Hn (data & F & L & Me & I). destruct m as [s|u].
    - cbn [Model_source.n_read m_src to_m Proof_utf8.minv s_rest] in *. destruct I as [-> ->]. pose proof (feeds_step Src rd lim s data f n F Hn) as H.
      destruct (rd s n) as [[bs|x| |] s']; try contradiction; auto. destruct H as (Lb & (data' & E & F') & Z). split; [exact Lb|]. split.
      + exists data'. split; [exact E|]. exists data'. split; [exact F'|]. split; [rewrite E, app_length in L; lia|]. split; [exact Logic.I|split; reflexivity].
      + intros Zb. destruct (Z Zb). auto.
    - cbn [Model_source.n_read m_src]. cbn [to_m Proof_utf8.minv m_end] in *. unfold c_read. replace (N.to_nat n =? 0)%nat with false by (symmetry; apply Nat.eqb_neq; lia).
      cbn [m_src] in F. unfold is_utf8 in I. cbn [to_u u_enc] in I. fold (c_is_utf8 Src St u) in I.
      assert (COPY : forall u1 data1 d1, feeds (c_inner _ _ u1) data1 -> length data1 + 3 <= fuel -> m_end (N_wrapped _ _ u1) -> minv (M_wrapped St (to_u u1 (mk_stream data1 []))) d1 t -> c_rem _ _ u1 <> [] ->
        match c_copy Src St u1 (N.to_nat n) with
        | Ok (bs, u') => (N.of_nat (length bs) <= n)%N /\ (exists d', d1 = bs ++ d' /\ cinv (N_wrapped _ _ u') d' t) /\ (bs = [] -> d1 = [] /\ t = T_complete /\ f = Ends)
        | _ => False
        end).
      { intros u1 data1 d1 F1 L1 M1 I1 Nr. pose proof (copy_ok St cv (to_u u1 (mk_stream data1 [])) (N.to_nat n) d1 t ltac:(lia)) as K.
        cbn [Proof_utf8.minv] in I1. specialize (K ltac:(intros X; rewrite X in I1; exact I1) ltac:(intros X; rewrite X in I1; exact I1) Nr).
        unfold u_copy in K. unfold c_copy. cbn [to_u u_rem] in K. destruct K as (K1 & d' & K2 & K3 & K4). split; [lia|]. split.
        - exists d'. split; [exact K2|]. exists data1. split; [exact F1|]. split; [exact L1|]. split; [exact M1|exact K3].
        - intros X. exfalso. destruct (c_rem _ _ u1) as [|b r]; [congruence|]. destruct (N.to_nat n) eqn:En; [lia|]. discriminate. }
      destruct (c_rem _ _ u) as [|b rem] eqn:Rem.
      + destruct (c_is_utf8 Src St u) eqn:U.
        * destruct I as [-> ->]. rewrite N2Nat.id. pose proof (feeds_step Src rd lim _ data f n F Hn) as H.
          destruct (rd (c_inner _ _ u) n) as [[bs|x| |] s']; try contradiction; cbn [bind]; auto. destruct H as (Lb & (data' & E & F') & Z).
          cbn [u_rem u_inner to_u s_rest] in *. rewrite Rem. cbn [app]. split; [exact Lb|]. split.
          -- exists data'. split; [exact E|]. exists data'. split; [exact F'|]. split; [rewrite E, app_length in L; lia|].
             split; [left; exact U|]. cbn. unfold is_utf8. cbn. unfold c_is_utf8 in U. rewrite U. auto.
          -- intros Zb. destruct (Z Zb). auto.
        * destruct Me as [X|Me]; [discriminate|].
          assert (CONV : forall room, 4 <= room ->
            match c_convert fuel room u with
            | Ok (bs, u') => length bs <= room /\ c_rem _ _ u' = [] /\ (exists data', feeds (c_inner _ _ u') data' /\ length data' + 3 <= fuel /\ end_ok (c_end _ _ u') /\
                exists d', d = bs ++ d' /\ inv St cv (to_u u' (mk_stream data' [])) d' t) /\ (bs = [] -> d = [] /\ t = T_complete /\ f = Ends)
            | Throw x => (exists P, f = Fails P /\ P x) \/ (x = Stream_err /\ t <> T_complete)
            | _ => False
            end).
          { intros room R. assert (Nd : forall sched, need St (to_u u (mk_stream data sched)) < fuel) by (intros; unfold need; cbn; destruct (c_fill _ _ u); lia).
            destruct (sim_convert fuel room u data F ltac:(lia) Me) as [(bs & u' & data' & sch & E & F' & Eo & Z & L' & S')|[(x & P & E & H)|(sch & S')]].
            - rewrite E. pose proof (convert_ok St iconv_open cv good fuel room (to_u u (mk_stream data (sch ++ []))) d t (Nd _) R I Rem) as K. rewrite S' in K. cbn [conv_ok] in K.
              destruct K as (K1 & K2 & (d' & K3 & K4) & K5). split; [exact K1|]. split; [exact K2|]. split.
              + exists data'. split; [exact F'|]. split; [lia|]. split; [exact Eo|]. exists d'. auto.
              + intros X. destruct (K5 X). auto.
            - rewrite E. eauto.
            - pose proof (convert_ok St iconv_open cv good fuel room (to_u u (mk_stream data (sch ++ []))) d t (Nd _) R I Rem) as K. specialize (S' []).
              destruct (c_convert fuel room u) as [?|x| |], (u_convert fuel room (to_u u (mk_stream data (sch ++ [])))) as [?|y| |]; cbn in S', K; try contradiction.
              subst y. auto. }
          assert (WRAP : forall u' data' d', feeds (c_inner _ _ u') data' -> length data' + 3 <= fuel -> end_ok (c_end _ _ u') -> inv St cv (to_u u' (mk_stream data' [])) d' t -> cinv (N_wrapped _ _ u') d' t).
          { intros u' data' d' F' L' Eo I'. exists data'. split; [exact F'|]. split; [exact L'|]. split; [right; exact Eo|]. cbn [to_m Proof_utf8.minv]. rewrite (proj1 I'). exact I'. }
          destruct (Nat.leb_spec 4 (N.to_nat n)) as [Ln|Ln].
          -- pose proof (CONV (N.to_nat n) Ln) as K. destruct (c_convert fuel (N.to_nat n) u) as [[bs u']|x| |]; auto.
             destruct K as (K1 & K2 & (data' & F' & L' & Eo & d' & E & I') & K4). split; [lia|]. split; [|exact K4]. exists d'. split; [exact E|]. eapply WRAP; eauto.
          -- pose proof (CONV 4 (Nat.le_refl 4)) as K. destruct (c_convert fuel 4 u) as [[bs u']|x| |]; cbn [bind]; auto.
             destruct K as (K1 & K2 & (data' & F' & L' & Eo & d' & E & I') & K4). destruct bs as [|b bs].
             ++ split; [cbn; lia|]. split; [|exact K4]. exists d'. split; [exact E|]. eapply WRAP; eauto.
             ++ set (u2 := mk_c Src St (c_inner _ _ u') (c_enc _ _ u') (c_conv _ _ u') (c_fill _ _ u') (c_held _ _ u') (c_end _ _ u') (b :: bs)).
                assert (I2 : inv St cv (to_u u2 (mk_stream data' [])) ((b :: bs) ++ d') t).
                { destruct I' as (U' & (dd & Ed & C) & Rest). cbn [to_u u_rem] in Ed. rewrite K2 in Ed. cbn in Ed. subst dd. split; [exact U'|]. split; [exists d'; auto|exact Rest]. }
                pose proof (COPY u2 data' ((b :: bs) ++ d') F' L' (or_intror Eo)) as Q. cbn [Proof_utf8.minv] in Q. rewrite (proj1 I2) in Q. specialize (Q I2 ltac:(discriminate)).
                destruct (c_copy Src St u2 (N.to_nat n)) as [[bs' u3]|x| |]; auto; try contradiction. subst d. exact Q.
      + pose proof (COPY u data d F L Me) as Q. cbn [Proof_utf8.minv] in Q. unfold is_utf8 in Q. cbn [to_u u_enc] in Q. fold (c_is_utf8 Src St u) in Q. specialize (Q I ltac:(congruence)).
        destruct (c_copy Src St u (N.to_nat n)) as [[bs' u3]|x| |]; auto; contradiction.
  Qed.

  (* The end of the converted text. *)
  Lemma cinv_feeds m d t : cinv m d t -> Spec_source.feeds cmade n_read lim m d (outcome f t).
  Proof.
    intros I. exists (fun m d => cinv m d t). split; [exact I|]. intros m1 d1 n I1 Hn. pose proof (nread_ok m1 n d1 t Hn I1) as K.
    destruct (n_read m1 n) as [[bs|x| |] m']; auto.
    - destruct K as (K1 & K2 & K3). split; [exact K1|]. split; [exact K2|]. intros X. destruct (K3 X) as (-> & -> & E). auto.
    - destruct K as [(P & E & H)|[-> Nt]].
      + destruct t; cbn [outcome]; [eauto| |]; rewrite E; eexists; (split; [reflexivity|]); cbn; auto.
      + destruct t; [congruence| |]; cbn [outcome]; destruct f as [|P]; eexists; (split; [reflexivity|]); cbn; auto.
  Qed.

  (* Making the stream. *)
  Lemma made_cinv default s data given out t m : given <> Some E_latin1 -> feeds s data -> length data + 3 <= fuel ->
    in_utf8 St iconv_open cv (effective given data) data out t ->
    given <> None \/ effective given data = E_utf8 \/ 4 < length data ->
    make_cstream Src rd St iconv_open fuel default s given = Ok m -> cinv m out t.
  Proof.
    intros NL F L T K H.
    assert (W : forall data' sched m', feeds (m_src m') data' -> length data' <= length data -> m_end m' ->
      make_utf8_stream St iconv_open default (mk_source data false sched) given = Ok (to_m m' (mk_stream data' [])) -> cinv m' out t).
    { intros data' sched m' F' L' M' E. exists data'. split; [exact F'|]. split; [lia|]. split; [exact M'|].
      apply (made_ok St iconv_open cv default (mk_source data false sched) given out t _ NL T); [|exact E]. cbn. tauto. }
    assert (EU : end_ok u_block) by (split; [lia|auto]).
    unfold make_cstream in H. destruct given as [e|].
    - destruct (encoding_eqb e E_utf8 || encoding_eqb e E_latin1)%bool eqn:Ee.
      + injection H as <-. apply (W data [] (N_same Src St s)); auto; [exact Logic.I|]. cbn. rewrite Ee. reflexivity.
      + unfold new_cstream in H. destruct (encoding_eqb e E_utf8) eqn:E8; [discriminate|].
        destruct (iconv_open e) as [st|] eqn:Io; [|discriminate]. cbn [bind] in H. injection H as <-. unfold c_set_preamble, c_is_utf8. cbn [c_enc]. rewrite E8.
        apply (W data []); auto; [right; exact EU|]. cbn [make_utf8_stream i_content i_seekable i_sched]. rewrite E8, Ee. unfold new_ustream. rewrite E8, Io. cbn [bind].
        unfold set_preamble, is_utf8. cbn [u_enc]. rewrite E8. reflexivity.
    - destruct (sim_fill fuel s data 4 [] F) as [(pre & s' & eof & data' & sch & E & F' & L' & Ze & S')|[(x & P & E & _)|(E & X)]]; [unfold u_block in room_enough; lia| | |lia]; rewrite E in H; [|discriminate].
      cbn [bind] in H. specialize (S' []). rewrite (fill_fuel _ (S (length data))) in S' by (cbn; lia).
      unfold new_cstream in H. set (e := match infer_bom pre with Some e => e | None => E_utf8 end) in *.
      destruct (encoding_eqb e E_utf8) eqn:E8.
      + cbn [bind] in H. injection H as <-. unfold c_set_preamble, c_is_utf8. cbn [c_enc]. rewrite E8.
        apply (W data' (sch ++ [])); auto; [left; unfold c_is_utf8; cbn; exact E8|]. cbn [make_utf8_stream i_content i_seekable i_sched]. rewrite S'. cbn [bind].
        subst e. destruct (infer_bom pre) as [e|]; unfold new_ustream; rewrite E8; cbn [bind]; unfold set_preamble, is_utf8; cbn [u_enc]; rewrite E8; reflexivity.
      + destruct (iconv_open e) as [st|] eqn:Io; [|discriminate]. cbn [bind] in H. injection H as <-. unfold c_set_preamble, c_is_utf8. cbn [c_enc]. rewrite E8.
        apply (W data' (sch ++ [])); auto; [right; exact EU|]. cbn [make_utf8_stream i_content i_seekable i_sched]. rewrite S'. cbn [bind].
        subst e. destruct (infer_bom pre) as [e|]; [|discriminate]. unfold new_ustream. rewrite E8, Io. cbn [bind]. unfold set_preamble, is_utf8. cbn [u_enc]. rewrite E8. reflexivity.
  Qed.
  Lemma make_cstream_ok default s data given : feeds s data -> length data + 3 <= fuel -> effective given data = E_utf8 \/ iconv_open (effective given data) <> None ->
    (exists m, make_cstream Src rd St iconv_open fuel default s given = Ok m) \/
    (exists x P, make_cstream Src rd St iconv_open fuel default s given = Throw x /\ f = Fails P /\ P x).
  Proof.
    intros F L Io. unfold make_cstream. destruct given as [e|].
    - left. destruct (_ || _)%bool eqn:Ee; [eauto|]. unfold new_cstream. destruct (encoding_eqb e E_utf8) eqn:E8; [cbn; eauto|].
      cbn [effective] in Io. destruct (iconv_open e); [cbn; eauto|]. destruct Io as [->|Io]; [discriminate E8|congruence].
    - destruct (sim_fill fuel s data 4 [] F) as [(pre & s' & eof & data' & sch & E & F' & L' & Ze & S')|[(x & P & E & H)|(E & X)]]; [unfold u_block in room_enough; lia| | |lia]; rewrite E; cbn [bind]; [|right; eauto].
      left. unfold new_cstream.
      specialize (S' []). destruct (fill_spec fuel (mk_stream data (sch ++ [])) 4 [] ltac:(cbn; lia)) as (s2 & E2 & _). rewrite S' in E2.
      assert (Ep : pre = firstn 4 data) by (injection E2 as -> _ _; reflexivity).
      pose proof (infer_declared data) as D. cbn [effective] in Io. rewrite <- Ep in D. clear E2 S' Ep. destruct (infer_bom pre) as [e|].
      + rewrite D in Io. destruct (encoding_eqb e E_utf8) eqn:E8; [cbn; eauto|]. destruct (iconv_open e); [cbn; eauto|]. destruct Io as [->|Io]; [discriminate E8|congruence].
      + cbn. eauto.
  Qed.
End Sim.

(* The stream made from one that can seek. *)
Lemma made_feeds St (iconv_open : encoding -> option St) cv lim m d t : converter St cv -> minv St cv m d t -> feeds (made St) (made_rd cv) lim m d (outcome Ends t).
Proof.
  intros G I. exists (fun m d => minv St cv m d t). split; [exact I|]. intros m1 d1 n I1 Hn. unfold made_rd.
  pose proof (mread_ok St iconv_open cv G m1 (N.to_nat n) d1 t ltac:(lia) I1) as K. destruct (m_read St cv m1 (N.to_nat n)) as [[bs m']|x| |]; auto.
  - destruct K as (K1 & d' & K2 & K3 & K4). split; [lia|]. split; [eauto|]. intros X. destruct (K4 X) as [-> ->]. auto.
  - destruct K as [-> Nt]. destruct t; [congruence| |]; eexists; (split; [reflexivity|]); reflexivity.
Qed.
