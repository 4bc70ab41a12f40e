(* Lemmas about the decompressing stream. *)
From Verif Require Import Common Model_rec Model_gzip Spec_gzip.

Section Proofs.
  Variable St : Type.
  Variable z_init : St.
  Variable z_step : St -> byte -> list byte * znext St.
  Variable z_stops : St -> bool.
  Notation decodes := (decodes St z_step).
  Notation compressed := (compressed St z_init z_step).
  Notation truncated := (truncated St z_init z_step).
  Notation corrupt := (corrupt St z_init z_step).
  Notation zst := (zst St). Notation mk_z := (mk_z St). Notation z_pend := (z_pend St). Notation z_next := (z_next St).
  Notation z_loop := (z_loop St z_step z_stops).
  Notation gstream := (gstream St).

  Inductive ending := E_done | E_trunc | E_bad.
  Definition app1 (o : list byte) (p : list byte * ending) : list byte * ending := (o ++ fst p, snd p).
  Lemma app1_nil p : app1 [] p = p. Proof. now destruct p. Qed.
  Lemma app1_app a b p : app1 a (app1 b p) = app1 (a ++ b) p.
  Proof. unfold app1. cbn. now rewrite app_assoc. Qed.

  (* The decompression of all that is left of the input. *)
  Fixpoint expand (fresh : bool) (s : St) (inp : list byte) : list byte * ending :=
    match inp with
    | [] => ([], if fresh then E_done else E_trunc)
    | c :: inp' =>
        let (o, nx) := z_step s c in
        app1 o (match nx with
                | Z_go s' => expand false s' inp'
                | Z_fin => expand true z_init inp'
                | Z_bad => ([], E_bad)
                end)
    end.
  Definition follow (fresh : bool) (nx : znext St) (inp : list byte) : list byte * ending :=
    match nx with Z_go s => expand fresh s inp | Z_fin => expand true z_init inp | Z_bad => ([], E_bad) end.
  Definition owe (fresh : bool) (z : zst) (inp : list byte) : list byte * ending :=
    app1 (z_pend z) (follow fresh (z_next z) inp).
  Lemma expand_cons fresh s c inp : expand fresh s (c :: inp) = let (o, nx) := z_step s c in owe false (mk_z o nx) inp.
  Proof. cbn. destruct (z_step s c) as [o [s'| |]]; reflexivity. Qed.

  (* ---------- the specification ---------- *)

  Lemma decodes_expand s m o e : decodes s m o e -> forall fresh rest,
    match e with
    | Z_go s' => expand fresh s (m ++ rest) = app1 o (expand (fresh && match m with [] => true | _ => false end) s' rest)
    | Z_fin => expand fresh s (m ++ rest) = app1 o (expand true z_init rest)
    | Z_bad => expand fresh s (m ++ rest) = (o, E_bad)
    end.
  Proof.
    induction 1 as [s|s c o e E G|s c o s' cs os e E D IH]; intros fresh rest.
    - cbn. rewrite app1_nil, andb_true_r. reflexivity.
    - cbn [app]. rewrite expand_cons, E. unfold owe. cbn. destruct e as [s'| |]; [now destruct (G s')|reflexivity|].
      cbn. unfold app1. cbn. now rewrite app_nil_r.
    - cbn [app]. rewrite expand_cons, E. unfold owe. cbn [Model_gzip.z_pend Model_gzip.z_next follow]. specialize (IH false rest).
      destruct e; rewrite IH; rewrite ?app1_app; rewrite ?andb_false_r; reflexivity.
  Qed.
  Lemma compressed_expand content data : compressed content data -> forall rest,
    expand true z_init (content ++ rest) = app1 data (expand true z_init rest).
  Proof.
    induction 1 as [|m o cs os D C IH]; intros rest; [now rewrite app1_nil|].
    rewrite <- app_assoc, (decodes_expand _ _ _ _ D), IH, app1_app. reflexivity.
  Qed.
  Lemma compressed_owed content data : compressed content data -> expand true z_init content = (data, E_done).
  Proof.
    intros C. rewrite <- (app_nil_r content), (compressed_expand _ _ C). unfold app1. cbn. now rewrite app_nil_r.
  Qed.
  Lemma truncated_owed content data : truncated content data -> expand true z_init content = (data, E_trunc).
  Proof.
    intros (cs & os & m & o & s & C & N & D & -> & ->). rewrite (compressed_expand _ _ C), <- (app_nil_r m), (decodes_expand _ _ _ _ D).
    destruct m; [congruence|]. unfold app1. cbn. now rewrite app_nil_r.
  Qed.
  Lemma corrupt_owed content data : corrupt content data -> expand true z_init content = (data, E_bad).
  Proof.
    intros (cs & os & m & o & rest & C & D & -> & ->). rewrite (compressed_expand _ _ C), (decodes_expand _ _ _ _ D). reflexivity.
  Qed.

  Definition means (e : ending) : list byte -> list byte -> Prop :=
    match e with E_done => compressed | E_trunc => truncated | E_bad => corrupt end.
  Lemma means_member m o cs os e : decodes z_init m o Z_fin -> means e cs os -> means e (m ++ cs) (o ++ os).
  Proof.
    intros D M. destruct e; cbn in *.
    - now constructor.
    - destruct M as (cs' & os' & m' & o' & s & C & N & D' & -> & ->). exists (m ++ cs'), (o ++ os'), m', o', s.
      rewrite <- !app_assoc. repeat split; auto. now constructor.
    - destruct M as (cs' & os' & m' & o' & rest & C & D' & -> & ->). exists (m ++ cs'), (o ++ os'), m', o', rest.
      rewrite <- !app_assoc. repeat split; auto. now constructor.
  Qed.
  Lemma expand_means inp : forall s fresh,
    let (d, e) := expand fresh s inp in
    (inp = [] /\ d = [] /\ e = (if fresh then E_done else E_trunc)) \/
    (exists m o cs os, inp = m ++ cs /\ d = o ++ os /\ decodes s m o Z_fin /\ means e cs os) \/
    (inp <> [] /\ exists s', e = E_trunc /\ decodes s inp d (Z_go s')) \/
    (exists m rest, inp = m ++ rest /\ e = E_bad /\ decodes s m d Z_bad).
  Proof.
    induction inp as [|c inp IH]; intros s fresh; [now left|].
    rewrite expand_cons. destruct (z_step s c) as [o [s'| |]] eqn:E; unfold owe; cbn [Model_gzip.z_pend Model_gzip.z_next follow].
    - specialize (IH s' false). destruct (expand false s' inp) as [d e]. unfold app1. cbn.
      destruct IH as [(-> & -> & ->)|[(m & o' & cs & os & -> & -> & D & M)|[(N & s2 & -> & D)|(m & rest & -> & -> & D)]]].
      + right. right. left. split; [discriminate|]. exists s'. split; auto. eapply D_more; eauto. constructor.
      + right. left. exists (c :: m), (o ++ o'), cs, os. rewrite app_assoc. repeat split; auto. eapply D_more; eauto.
      + right. right. left. split; [discriminate|]. exists s2. split; auto. eapply D_more; eauto.
      + right. right. right. exists (c :: m), rest. repeat split; auto. eapply D_more; eauto.
    - specialize (IH z_init true). destruct (expand true z_init inp) as [d e]. unfold app1. cbn.
      right. left. exists [c], o, inp, d. repeat split; auto. { apply D_last; auto. discriminate. }
      destruct IH as [(-> & -> & ->)|[(m & o' & cs & os & -> & -> & D & M)|[(N & s2 & -> & D)|(m & rest & -> & -> & D)]]].
      + constructor.
      + now apply means_member.
      + exists [], [], inp, d, s2. repeat split; auto. constructor.
      + exists [], [], m, d, rest. repeat split; auto. constructor.
    - unfold app1. cbn. right. right. right. exists [c], inp. repeat split; auto. rewrite app_nil_r. apply D_last; auto. discriminate.
  Qed.
  Lemma content_kind content : exists data, compressed content data \/ truncated content data \/ corrupt content data.
  Proof.
    pose proof (expand_means content z_init true) as H. destruct (expand true z_init content) as [d e]. exists d.
    destruct H as [(-> & -> & ->)|[(m & o' & cs & os & -> & -> & D & M)|[(N & s2 & -> & D)|(m & rest & -> & -> & D)]]].
    - left. constructor.
    - pose proof (means_member _ _ _ _ _ D M). destruct e; auto.
    - right. left. exists [], [], content, d, s2. repeat split; auto. constructor.
    - right. right. exists [], [], m, d, rest. repeat split; auto. constructor.
  Qed.

  (* ---------- ::inflate ---------- *)

  Ltac open_case := split; [reflexivity|]; split; [assumption|]; split; [|split; [|split; [|split]]]; cbn [Model_gzip.z_pend Model_gzip.z_next]; try discriminate; auto; try (intros; eauto; fail).
  Lemma loop_spec inp : forall z room out inp' z' r, z_loop inp z room = (out, inp', z', r) ->
    exists used, inp = used ++ inp' /\ (N.of_nat (length out) <= room)%N /\
    (forall fresh rest,
       match r with
       | ZR_ok => owe fresh z (inp ++ rest) = app1 out (owe (fresh && match used with [] => true | _ => false end) z' (inp' ++ rest))
       | ZR_end => owe fresh z (inp ++ rest) = app1 out (expand true z_init (inp' ++ rest))
       | ZR_data => owe fresh z (inp ++ rest) = (out, E_bad)
       | ZR_buf => False
       end) /\
    (r = ZR_ok -> (N.of_nat (length out) < room)%N -> inp' = [] /\ exists s, z' = mk_z [] (Z_go s)) /\
    (r = ZR_ok -> z_pend z' = [] -> exists s, z_next z' = Z_go s) /\
    (used = [] -> (length out <= length (z_pend z))%nat) /\ (r = ZR_end -> used = [] -> z_next z = Z_fin).
  Proof.
    induction inp as [|c inp IH]; intros [pend nx] room out inp' z' r.
    - cbn [Model_gzip.z_loop Model_gzip.z_pend Model_gzip.z_next]. set (k := Nat.min _ _).
      assert (K : (N.of_nat (length (firstn k pend)) <= room)%N /\ firstn k pend ++ skipn k pend = pend).
      { split; [|apply firstn_skipn]. rewrite firstn_length. lia. }
      destruct K as [K1 K2]. assert (K3 : skipn k pend <> [] -> (room <= N.of_nat (length (firstn k pend)))%N).
      { intros H. rewrite firstn_length. destruct (Nat.eq_dec k (length pend)) as [->|]; [now rewrite skipn_all in H|]. lia. }
      destruct (skipn k pend) as [|b p] eqn:Sk; [destruct nx as [s| |]|].
      + rewrite app_nil_r in K2. rewrite K2 in *.
        assert (G : (if ((room - N.of_nat k =? 0)%N && z_stops s)%bool then (pend, [], mk_z [] (Z_go s), ZR_ok) else (pend, [], mk_z [] (Z_go s), ZR_ok)) = (pend, @nil byte, mk_z [] (Z_go s), ZR_ok)) by now destruct (_ && _)%bool.
        rewrite G. intros [= <- <- <- <-]. exists []. open_case; try (split; eauto; fail).
        intros. cbn. rewrite andb_true_r. unfold owe. cbn. now rewrite app1_nil.
      + rewrite app_nil_r in K2. rewrite K2 in *. intros [= <- <- <- <-]. exists []. open_case.
      + rewrite app_nil_r in K2. rewrite K2 in *. intros [= <- <- <- <-]. exists []. open_case.
        intros. unfold owe, app1. cbn. now rewrite app_nil_r.
      + intros [= <- <- <- <-]. exists []. open_case.
        * intros. cbn [andb]. rewrite andb_true_r. unfold owe. cbn [Model_gzip.z_pend Model_gzip.z_next]. rewrite app1_app. f_equal. symmetry. exact K2.
        * specialize (K3 ltac:(discriminate)). lia.
        * intros _. rewrite firstn_length. lia.
    - cbn [Model_gzip.z_loop Model_gzip.z_pend Model_gzip.z_next]. set (k := Nat.min _ _).
      assert (K : (N.of_nat (length (firstn k pend)) <= room)%N /\ firstn k pend ++ skipn k pend = pend).
      { split; [|apply firstn_skipn]. rewrite firstn_length. lia. }
      destruct K as [K1 K2]. assert (K3 : skipn k pend <> [] -> (room <= N.of_nat (length (firstn k pend)))%N).
      { intros H. rewrite firstn_length. destruct (Nat.eq_dec k (length pend)) as [->|]; [now rewrite skipn_all in H|]. lia. }
      assert (K4 : k = length (firstn k pend)). { rewrite firstn_length. lia. }
      destruct (skipn k pend) as [|b p] eqn:Sk; [destruct nx as [s| |]|].
      + rewrite app_nil_r in K2. rewrite K2 in *. destruct ((room - N.of_nat k =? 0)%N && z_stops s)%bool eqn:B.
        * intros [= <- <- <- <-]. exists []. apply andb_true_iff in B. destruct B as [B _]. apply N.eqb_eq in B.
          split; [reflexivity|]. split; [auto|]. split; [|split; [intros; lia|split; [cbn; eauto|split; [cbn; auto|discriminate]]]].
          intros. cbn [andb]. rewrite andb_true_r. unfold owe. cbn [Model_gzip.z_pend Model_gzip.z_next]. now rewrite app1_nil.
        * destruct (z_step s c) as [o nx'] eqn:E. destruct (z_loop inp (mk_z o nx') (room - N.of_nat k)%N) as [[[out2 inp2] z2] r2] eqn:L.
          intros [= <- <- <- <-]. specialize (IH _ _ _ _ _ _ L). destruct IH as (used & -> & B1 & B2 & B3 & B4 & B5 & B6).
          exists (c :: used). split; [reflexivity|]. rewrite app_length. split; [lia|]. split; [|split; [|split; [|split; discriminate]]].
          -- intros fresh rest. specialize (B2 false rest). cbn in B2. rewrite andb_false_r. unfold owe at 1.
             destruct r2; [| | |contradiction]; unfold owe at 1; cbn [Model_gzip.z_pend Model_gzip.z_next follow app]; rewrite expand_cons, E, B2; unfold app1; cbn; now rewrite ?app_assoc.
          -- intros -> H. apply B3; auto. lia.
          -- auto.
      + rewrite app_nil_r in K2. rewrite K2 in *. intros [= <- <- <- <-]. exists []. open_case.
      + rewrite app_nil_r in K2. rewrite K2 in *. intros [= <- <- <- <-]. exists []. open_case.
        intros. unfold owe, app1. cbn. now rewrite app_nil_r.
      + intros [= <- <- <- <-]. exists []. open_case.
        * intros. cbn [andb]. rewrite andb_true_r. unfold owe. cbn [Model_gzip.z_pend Model_gzip.z_next]. rewrite app1_app. f_equal. symmetry. exact K2.
        * specialize (K3 ltac:(discriminate)). lia.
        * intros _. rewrite firstn_length. lia.
  Qed.

  Notation g_read := (g_read St z_init z_step z_stops).
  Notation opened content sched := (g_open St z_init (mk_stream content sched)).

  (* ---------- empty reads before the end ---------- *)

  Lemma loop_silent s m e : decodes s m [] e -> forall room, (0 < room)%N ->
    match e with
    | Z_go s' => z_loop m (mk_z [] (Z_go s)) room = ([], [], mk_z [] (Z_go s'), ZR_ok)
    | Z_fin => forall rest, z_loop (m ++ rest) (mk_z [] (Z_go s)) room = ([], rest, mk_z [] Z_fin, ZR_end)
    | Z_bad => True
    end.
  Proof.
    intros D0. remember [] as o eqn:Eo. induction D0 as [s|s c o e E G|s c o s' cs os e E D IH]; intros room R.
    - cbn. rewrite N.min_0_r. cbn. now destruct (_ && _)%bool.
    - subst o. destruct e as [s'| |]; [now destruct (G s')| |exact Logic.I]. intros rest. cbn [app Model_gzip.z_loop Model_gzip.z_pend Model_gzip.z_next length].
      rewrite N.min_0_r. cbn [N.to_nat N.of_nat Nat.min firstn skipn]. rewrite N.sub_0_r.
      replace (room =? 0)%N with false by (symmetry; apply N.eqb_neq; lia). cbn [andb]. rewrite E. destruct rest; cbn; rewrite N.min_0_r; reflexivity.
    - apply app_eq_nil in Eo. destruct Eo as [-> ->]. specialize (IH eq_refl room R).
      destruct e as [s2| |]; [|intros rest|exact Logic.I]; cbn [app Model_gzip.z_loop Model_gzip.z_pend Model_gzip.z_next length];
      rewrite N.min_0_r; cbn [N.to_nat N.of_nat Nat.min firstn skipn]; rewrite N.sub_0_r;
      (replace (room =? 0)%N with false by (symmetry; apply N.eqb_neq; lia)); cbn [andb]; rewrite E; [|specialize (IH rest)]; rewrite IH; reflexivity.
  Qed.
  Lemma silent_read h rest sched n s : usual n -> h <> [] -> decodes z_init h [] (Z_go s) -> (N.of_nat (length h) <= g_block)%N ->
    exists g', g_read (opened (h ++ rest) (length h :: sched)) n = (Ok (0%N, []), g').
  Proof.
    intros U NE D L. unfold g_read. assert (Z : (n =? 0)%N = false) by (apply N.eqb_neq; unfold usual in U; lia). rewrite Z.
    cbn [g_open Model_gzip.g_buf Model_gzip.g_inner Model_gzip.g_inflater]. unfold stream_read. cbn [s_rest s_sched tl].
    replace (Nat.min (Nat.max 1 (length h)) (N.to_nat (N.min g_block (N.of_nat (length (h ++ rest)))))) with (length h).
    2:{ rewrite app_length. destruct h; [congruence|]. cbn [length] in *. lia. }
    rewrite firstn_app, Nat.sub_diag, firstn_all, app_nil_r. destruct h as [|c h'] eqn:Eh; [congruence|]. rewrite <- Eh in *.
    unfold g_deliver, i_inflate. cbn [Model_gzip.g_buf Model_gzip.g_inner Model_gzip.g_inflater Model_gzip.i_state Model_gzip.i_stream new_inflater validate_state].
    rewrite N.mod_small by apply U. unfold z_inflate, z_new. rewrite (loop_silent _ _ _ D n) by apply U.
    rewrite Eh. cbn. rewrite N.sub_0_r, N.sub_diag. eauto.
  Qed.
  Lemma empty_member_read m rest n : usual n -> decodes z_init m [] Z_fin -> (N.of_nat (length (m ++ rest)) <= g_block)%N ->
    exists g', g_read (opened (m ++ rest) []) n = (Ok (0%N, []), g').
  Proof.
    intros U D L. unfold g_read. assert (Z : (n =? 0)%N = false) by (apply N.eqb_neq; unfold usual in U; lia). rewrite Z.
    cbn [g_open Model_gzip.g_buf Model_gzip.g_inner Model_gzip.g_inflater]. unfold stream_read. cbn [s_rest s_sched tl].
    rewrite Nat.min_id. replace (N.to_nat (N.min g_block (N.of_nat (length (m ++ rest))))) with (length (m ++ rest)) by lia.
    rewrite firstn_all. destruct (m ++ rest) as [|c h] eqn:Eh; [destruct m; [inversion D|discriminate]|]. rewrite <- Eh.
    unfold g_deliver, i_inflate. cbn [Model_gzip.g_buf Model_gzip.g_inner Model_gzip.g_inflater Model_gzip.i_state Model_gzip.i_stream new_inflater validate_state].
    rewrite N.mod_small by apply U. unfold z_inflate, z_new. rewrite (loop_silent _ _ _ D n) by apply U.
    cbn. rewrite N.sub_0_r, N.sub_diag. eauto.
  Qed.
  Variable checksummed : forall s c o, z_step s c = (o, Z_fin) -> o = [].

  Lemma loop_nofin inp : forall z room out inp' z', z_loop inp z room = (out, inp', z', ZR_ok) ->
    z_next z <> Z_fin \/ z_pend z = [] -> z_next z' <> Z_fin.
  Proof.
    induction inp as [|c inp IH]; intros [pend nx] room out inp' z'; cbn [Model_gzip.z_loop Model_gzip.z_pend Model_gzip.z_next];
      set (k := Nat.min _ _); intros H N.
    - destruct (skipn k pend) eqn:Sk; [destruct nx; [|congruence|congruence]; destruct (_ && _)%bool|]; injection H as <- <- <-; cbn; try congruence.
      destruct N as [N| ->]; auto. now rewrite skipn_nil in Sk.
    - destruct (skipn k pend) eqn:Sk.
      + destruct nx as [s| |]; [|congruence|congruence]. destruct (_ && _)%bool; [injection H as <- <- <-; cbn; congruence|].
        destruct (z_step s c) as [o nx'] eqn:E. destruct (z_loop inp (mk_z o nx') (room - N.of_nat k)%N) as [[[out2 inp2] z2] r2] eqn:L.
        injection H as <- <- <- ->. eapply IH; eauto. cbn. destruct nx' as [s'| |]; [left; congruence| |left; congruence].
        right. eauto.
      + injection H as <- <- <-; cbn. destruct N as [N| ->]; auto. now rewrite skipn_nil in Sk.
  Qed.

  (* ---------- the stream ---------- *)

  Notation g_reads := (g_reads St z_init z_step z_stops).
  Notation i_state := (i_state St). Notation i_stream := (i_stream St).
  Notation g_inflater := (g_inflater St). Notation g_buf := (g_buf St). Notation g_inner := (g_inner St).

  Definition input (g : gstream) : list byte := g_buf g ++ s_rest (g_inner g).
  Definition owed (g : gstream) : list byte * ending := owe (i_eof St (g_inflater g)) (i_stream (g_inflater g)) (input g).
  (* Between two reads, none of which has failed. *)
  Definition sound (g : gstream) : Prop :=
    match i_state (g_inflater g) with
    | ZR_end => i_stream (g_inflater g) = z_new St z_init
    | ZR_ok => z_next (i_stream (g_inflater g)) <> Z_fin
    | _ => False
    end.
  Definition failed (g : gstream) : Prop :=
    i_state (g_inflater g) = ZR_data \/ (i_state (g_inflater g) = ZR_ok /\ input g = []).
  Definition todo (g : gstream) : nat := length (input g) + length (fst (owed g)).

  Lemma inflate_step i inp n rest r i' : usual n -> inp <> [] ->
    (match i_state i with ZR_end => i_stream i = z_new St z_init | ZR_ok => z_next (i_stream i) <> Z_fin | _ => False end) ->
    i_inflate St z_init z_step z_stops i inp n = (r, i') ->
    (exists out used inp', r = Ok (out, inp', (n - N.of_nat (length out))%N) /\ inp = used ++ inp' /\ (N.of_nat (length out) <= n)%N /\
       (match i_state i' with ZR_end => i_stream i' = z_new St z_init | ZR_ok => z_next (i_stream i') <> Z_fin | _ => False end) /\
       owe (i_eof St i) (i_stream i) (inp ++ rest) = app1 out (owe (i_eof St i') (i_stream i') (inp' ++ rest)) /\
       (out <> [] \/ used <> []) /\
       (i_state i' = ZR_ok -> (N.of_nat (length out) < n)%N -> inp' = [] /\ z_pend (i_stream i') = [])) \/
    (exists out, r = Throw Inflate_err /\ i_state i' = ZR_data /\ owe (i_eof St i) (i_stream i) (inp ++ rest) = (out, E_bad)).
  Proof.
    intros U NE I H. unfold i_inflate in H. destruct i as [z st]. cbn [Model_gzip.i_state Model_gzip.i_stream] in *.
    assert (V : validate_state st = Ok tt) by (destruct st; try contradiction; reflexivity). rewrite V in H.
    rewrite N.mod_small in H by apply U. unfold z_inflate in H.
    destruct (z_loop inp z n) as [[[out inp'] z'] r0] eqn:L.
    destruct (loop_spec _ _ _ _ _ _ _ L) as (used & E & B1 & B2 & B3 & B4 & B5 & B6). specialize (B2 (i_eof St (mk_inflater St z st)) rest).
    destruct r0; cbn in H; [|injection H as <- <-; left|injection H as <- <-; right|contradiction].
    - assert (P : out <> [] \/ used <> []).
      { destruct out; [|left; discriminate]. right. intros ->. destruct (B3 eq_refl) as [-> _]; [unfold usual in U; cbn; lia|]. now subst. }
      assert (P' : ((length out =? 0)%nat && (length inp' =? length inp)%nat)%bool = false).
      { apply andb_false_iff. destruct P as [P|P]; [left|right]; apply Nat.eqb_neq; [destruct out; cbn; congruence|].
        subst inp. rewrite app_length. destruct used; cbn; [congruence|lia]. }
      rewrite P' in H. cbn in H. injection H as <- <-. left. exists out, used, inp'.
      refine (conj eq_refl (conj E (conj B1 (conj _ (conj _ (conj P _)))))); cbn.
      + eapply loop_nofin; eauto. destruct st; try contradiction; [auto|subst z; cbn; left; discriminate].
      + rewrite B2. f_equal. f_equal. destruct st; try contradiction; cbn; auto. destruct used; cbn; auto.
        destruct P as [P|P]; [|congruence]. exfalso. specialize (B5 eq_refl). subst z. destruct out; cbn in B5; [congruence|lia].
      + intros _ H. destruct (B3 eq_refl H) as [-> (s & ->)]. auto.
    - exists out, used, inp'. refine (conj eq_refl (conj E (conj B1 (conj eq_refl (conj _ (conj _ _)))))); cbn; try discriminate.
      + rewrite B2. unfold owe. cbn. now rewrite app1_nil.
      + right. intros ->. specialize (B6 eq_refl eq_refl). destruct st; try contradiction; subst z; discriminate.
    - exists out. auto.
  Qed.

  Lemma stream_read_split (s : stream) n : let (bs, s') := stream_read s n in
    s_rest s = bs ++ s_rest s' /\ (bs = [] <-> n = 0%N \/ s_rest s = []).
  Proof.
    destruct s as [rest sched]. cbn. split; [now rewrite firstn_skipn|].
    destruct rest as [|b rest]; [rewrite firstn_nil; intuition|]. set (k := Nat.min _ _). split.
    - intros H. left. assert (K : k = 0%nat). { destruct k; auto. discriminate. } subst k. cbn [length] in K.
      destruct sched as [|[|j] sched]; lia.
    - intros [-> |]; [|discriminate]. replace k with 0%nat by (subst k; cbn; lia). reflexivity.
  Qed.

  Lemma deliver_step g n : usual n -> sound g -> g_buf g <> [] ->
    let (r, g') := g_deliver St z_init z_step z_stops g n in
    (exists bs used, r = Ok (N.of_nat (length bs), bs) /\ (N.of_nat (length bs) <= n)%N /\ sound g' /\ owed g = app1 bs (owed g') /\
       g_inner g' = g_inner g /\ g_buf g = used ++ g_buf g' /\ (bs <> [] \/ used <> [])) \/
    (r = Throw Inflate_err /\ failed g' /\ snd (owed g) <> E_done).
  Proof.
    intros U I NE. unfold g_deliver. destruct (i_inflate St z_init z_step z_stops (g_inflater g) (g_buf g) n) as [r i'] eqn:H.
    destruct (inflate_step _ _ _ (s_rest (g_inner g)) _ _ U NE I H) as [(out & used & inp' & -> & E & L & I' & O & P & _)|(out & -> & D & O)].
    - left. exists out, used. split; [do 2 f_equal; lia|]. split; [exact L|]. split; [exact I'|]. split; [exact O|]. auto.
    - right. split; auto. split; [now left|]. unfold owed, input. rewrite O. cbn. discriminate.
  Qed.

  Lemma read_step g n : usual n -> sound g ->
    let (r, g') := g_read g n in
    (exists bs, r = Ok (N.of_nat (length bs), bs) /\ (N.of_nat (length bs) <= n)%N /\ sound g' /\ owed g = app1 bs (owed g') /\
       (todo g' < todo g \/ (bs = [] /\ owed g = ([], E_done) /\ input g = [] /\ input g' = []))) \/
    (r = Throw Inflate_err /\ failed g' /\ snd (owed g) <> E_done).
  Proof.
    intros U I. unfold g_read. assert (Z : (n =? 0)%N = false) by (apply N.eqb_neq; unfold usual in U; lia). rewrite Z.
    assert (K : forall g', sound g' -> g_buf g' <> [] -> owed g' = owed g -> input g' = input g ->
      let (r, g'') := g_deliver St z_init z_step z_stops g' n in
      (exists bs, r = Ok (N.of_nat (length bs), bs) /\ (N.of_nat (length bs) <= n)%N /\ sound g'' /\ owed g = app1 bs (owed g'') /\
       (todo g'' < todo g \/ (bs = [] /\ owed g = ([], E_done) /\ input g = [] /\ input g'' = []))) \/
      (r = Throw Inflate_err /\ failed g'' /\ snd (owed g) <> E_done)).
    { intros g' I' NE O E. pose proof (deliver_step g' n U I' NE) as D. destruct (g_deliver St z_init z_step z_stops g' n) as [r g''].
      rewrite O in D. destruct D as [(bs & used & -> & L & S & O' & Ei & Eb & P)|D]; [|auto].
      left. exists bs. refine (conj eq_refl (conj L (conj S (conj O' _)))). left. unfold todo. rewrite O', <- E. unfold input. rewrite Eb, Ei.
      cbn [app1 fst]. rewrite !app_length. destruct P as [P|P]; [destruct bs|destruct used]; cbn [length]; try congruence; lia. }
    destruct (g_buf g) as [|b buf] eqn:B; [|apply K; auto; congruence].
    pose proof (stream_read_split (g_inner g) g_block) as Sp. destruct (stream_read (g_inner g) g_block) as [bs inner].
    destruct Sp as [E Em]. destruct bs as [|b bs].
    - assert (R : s_rest (g_inner g) = []). { destruct (proj1 Em eq_refl) as [X|X]; [discriminate|exact X]. }
      assert (In : input g = []). { unfold input. now rewrite B, R. }
      assert (In' : forall i, input (mk_g St inner i []) = []). { intros. unfold input. cbn. rewrite R in E. now symmetry. }
      destruct (i_eof St (g_inflater g)) eqn:F.
      + left. exists []. assert (O : owed g = ([], E_done)).
        { unfold owed. rewrite F, In. unfold sound in I. unfold i_eof in F. destruct (i_state (g_inflater g)); try discriminate. rewrite I. reflexivity. }
        refine (conj eq_refl (conj _ (conj I (conj _ _)))); [cbn; lia| |right; auto]. rewrite O. unfold owed. cbn [Model_gzip.g_inflater].
        rewrite In', F. unfold sound in I. unfold i_eof in F. destruct (i_state (g_inflater g)); try discriminate. rewrite I. reflexivity.
      + right. split; auto. unfold sound in I. unfold i_eof in F. split.
        * right. cbn [Model_gzip.g_inflater]. rewrite In'. destruct (i_state (g_inflater g)); try discriminate; try contradiction. auto.
        * unfold owed, i_eof. rewrite In. destruct (i_state (g_inflater g)); try discriminate; try contradiction.
          unfold owe. destruct (z_next (i_stream (g_inflater g))); cbn; congruence.
    - apply K; [exact I|discriminate| |].
      + unfold owed, input. cbn. rewrite B, E. reflexivity.
      + unfold input. cbn. now rewrite B, E.
  Qed.

  Lemma read_failed g n : usual n -> failed g -> exists g', g_read g n = (Throw Inflate_err, g') /\ failed g'.
  Proof.
    intros U F. unfold g_read. assert (Z : (n =? 0)%N = false) by (apply N.eqb_neq; unfold usual in U; lia). rewrite Z.
    assert (K : forall g', i_state (g_inflater g') = ZR_data -> exists g'', g_deliver St z_init z_step z_stops g' n = (Throw Inflate_err, g'') /\ failed g'').
    { intros g' E. unfold g_deliver, i_inflate. rewrite E. cbn. eexists. split; [reflexivity|]. now left. }
    pose proof (stream_read_split (g_inner g) g_block) as Sp. destruct (stream_read (g_inner g) g_block) as [bs inner]. destruct Sp as [E Em].
    destruct (g_buf g) as [|b buf] eqn:B.
    - assert (NE : i_eof St (g_inflater g) = false). { unfold i_eof. destruct F as [F|[F _]]; now rewrite F. }
      rewrite NE. destruct bs as [|b bs].
      + eexists. split; [reflexivity|]. assert (R : s_rest (g_inner g) = []). { destruct (proj1 Em eq_refl) as [X|X]; [discriminate|exact X]. }
        rewrite R in E. destruct F as [F|[F _]]; [now left|right]. split; [exact F|]. unfold input. cbn. now symmetry.
      + destruct F as [F|[_ F]]; [now apply K|]. unfold input in F. rewrite B in F. cbn in F. rewrite F in E. discriminate.
    - destruct F as [F|[_ F]]; [now apply K|]. unfold input in F. rewrite B in F. discriminate.
  Qed.

  (* The answers to a client: successful reads, then errors for ever. *)
  Lemma reads_failed ns : Forall usual ns -> forall g, failed g -> g_reads ns g = repeat (Throw Inflate_err) (length ns).
  Proof.
    induction 1 as [|n ns U F IH]; intros g X; [reflexivity|]. cbn [Model_gzip.g_reads length repeat].
    destruct (read_failed g n U X) as (g' & -> & X'). now rewrite IH.
  Qed.
  Lemma reads_sound ns : Forall usual ns -> forall g, sound g ->
    (Forall2 served ns (g_reads ns g) /\ prefix_of (received (g_reads ns g)) (fst (owed g)) /\
       (todo g <= length ns -> received (g_reads ns g) = fst (owed g)) /\ (todo g < length ns -> snd (owed g) = E_done)) \/
    (exists ns1 ns2 rs, ns = ns1 ++ ns2 /\ ns2 <> [] /\ g_reads ns g = rs ++ repeat (Throw Inflate_err) (length ns2) /\ Forall2 served ns1 rs /\
       prefix_of (received rs) (fst (owed g)) /\ snd (owed g) <> E_done).
  Proof.
    induction 1 as [|n ns U F IH]; intros g X.
    - left. cbn [Model_gzip.g_reads received length]. refine (conj (Forall2_nil _) (conj _ (conj _ _))); [now exists (fst (owed g))| |intros T; inversion T].
      intros T. unfold todo in T. destruct (fst (owed g)); [reflexivity|cbn in T; lia].
    - cbn [Model_gzip.g_reads]. pose proof (read_step g n U X) as R. destruct (g_read g n) as [r g'].
      destruct R as [(bs & -> & L & S & O & T)|(-> & Fl & D)].
      + rewrite O. cbn [app1 fst snd]. destruct (IH g' S) as [(A & (c & P) & C1 & C2)|(ns1 & ns2 & rs & -> & N2 & E & A & (c & P) & D)].
        * left. refine (conj _ (conj _ (conj _ _))).
          -- constructor; auto. exists bs. auto.
          -- cbn [received]. exists c. rewrite P. apply app_assoc.
          -- intros Le. cbn [received length] in *. destruct T as [T|(-> & O' & In & In')].
             ++ rewrite C1 by lia. auto.
             ++ rewrite O in O'. unfold app1 in O'. destruct (owed g') as [d e]. cbn [fst snd app] in *. injection O' as -> ->.
                destruct c; [|destruct (received (g_reads ns g')); discriminate]. rewrite app_nil_r in P. auto.
          -- intros Le. cbn [length] in *. destruct T as [T|(-> & O' & In & In')]; [apply C2; lia|].
             rewrite O in O'. now injection O'.
        * right. exists (n :: ns1), ns2, (Ok (N.of_nat (length bs), bs) :: rs). cbn [received app]. rewrite E. repeat split; auto.
          -- constructor; auto. exists bs. auto.
          -- exists c. rewrite P. apply app_assoc.
      + right. exists [], (n :: ns), []. rewrite (reads_failed _ F _ Fl). repeat split; auto; try discriminate. now exists (fst (owed g)).
  Qed.

  Lemma opened_sound (content : list byte) sched : sound (opened content sched). Proof. reflexivity. Qed.
  Lemma opened_owed (content : list byte) sched : owed (opened content sched) = expand true z_init content.
  Proof. unfold owed, owe. cbn. apply app1_nil. Qed.
  Lemma opened_todo (content : list byte) sched data e : expand true z_init content = (data, e) -> todo (opened content sched) = length content + length data.
  Proof. intros E. unfold todo. rewrite opened_owed, E. reflexivity. Qed.

  Lemma received_l (content data : list byte) sched ns : Forall usual ns ->
    compressed content data \/ truncated content data \/ corrupt content data ->
    exists ns1 ns2 rs1, ns = ns1 ++ ns2 /\ g_reads ns (opened content sched) = rs1 ++ repeat (Throw Inflate_err) (length ns2) /\
      Forall2 served ns1 rs1 /\ prefix_of (received rs1) data /\ (compressed content data -> ns2 = []).
  Proof.
    intros U K. assert (E : exists e, expand true z_init content = (data, e)).
    { destruct K as [K|[K|K]]; eauto using compressed_owed, truncated_owed, corrupt_owed. }
    destruct E as [e E]. destruct (reads_sound ns U _ (opened_sound content sched)) as [(A & P & _)|(ns1 & ns2 & rs & -> & N2 & R & A & P & D)];
      rewrite opened_owed, E in *; cbn [fst snd] in *.
    - exists ns, [], (g_reads ns (opened content sched)). cbn. rewrite !app_nil_r. auto.
    - exists ns1, ns2, rs. repeat split; auto. intros C. rewrite (compressed_owed _ _ C) in E. congruence.
  Qed.
  Lemma complete_l (content data : list byte) sched ns : Forall usual ns -> compressed content data ->
    length content + length data <= length ns ->
    Forall2 served ns (g_reads ns (opened content sched)) /\ received (g_reads ns (opened content sched)) = data.
  Proof.
    intros U C L. pose proof (compressed_owed _ _ C) as E.
    destruct (reads_sound ns U _ (opened_sound content sched)) as [(A & P & R & _)|(ns1 & ns2 & rs & -> & N2 & R & A & P & D)];
      rewrite opened_owed, E in *; cbn [fst snd] in *; [|congruence].
    split; auto. apply R. rewrite (opened_todo _ _ _ _ E). exact L.
  Qed.
  Lemma reported_l (content data : list byte) sched ns : Forall usual ns -> truncated content data \/ corrupt content data ->
    length content + length data < length ns -> exists rs, g_reads ns (opened content sched) = rs ++ [Throw Inflate_err].
  Proof.
    intros U K L. assert (E : exists e, expand true z_init content = (data, e) /\ e <> E_done).
    { destruct K as [K|K]; eexists; (split; [eauto using truncated_owed, corrupt_owed|discriminate]). }
    destruct E as [e [E D]].
    destruct (reads_sound ns U _ (opened_sound content sched)) as [(A & P & R & Q)|(ns1 & ns2 & rs & -> & N2 & R & A & P & _)];
      rewrite opened_owed, E in *; cbn [fst snd] in *.
    - exfalso. apply D, Q. rewrite (opened_todo _ _ _ _ E). exact L.
    - rewrite R. destruct ns2 as [|n ns2]; [congruence|]. exists (rs ++ repeat (Throw Inflate_err) (length ns2)).
      cbn [length]. replace (S (length ns2)) with (length ns2 + 1) by lia. rewrite repeat_app, app_assoc. reflexivity.
  Qed.

  (* ---------- one member in one buffer ---------- *)

  Lemma loop_member inp : forall s d pend room out inp' z' r, decodes s inp d Z_fin -> z_loop inp (mk_z pend (Z_go s)) room = (out, inp', z', r) ->
    (r = ZR_end /\ inp' = [] /\ out = pend ++ d) \/
    (r = ZR_ok /\ N.of_nat (length out) = room /\ exists s' pend' d', z' = mk_z pend' (Z_go s') /\ decodes s' inp' d' Z_fin /\ pend ++ d = out ++ pend' ++ d').
  Proof.
    induction inp as [|c inp IH]; intros s d pend room out inp' z' r D; [inversion D|].
    cbn [Model_gzip.z_loop Model_gzip.z_pend Model_gzip.z_next]. set (k := Nat.min _ _).
    assert (K : (N.of_nat (length (firstn k pend)) <= room)%N /\ firstn k pend ++ skipn k pend = pend).
    { split; [|apply firstn_skipn]. rewrite firstn_length. lia. }
    destruct K as [K1 K2]. assert (K3 : skipn k pend <> [] -> (room <= N.of_nat (length (firstn k pend)))%N).
    { intros H. rewrite firstn_length. destruct (Nat.eq_dec k (length pend)) as [->|]; [now rewrite skipn_all in H|]. lia. }
    assert (K4 : k = length (firstn k pend)). { rewrite firstn_length. lia. }
    destruct (skipn k pend) as [|b p] eqn:Sk.
    - rewrite app_nil_r in K2. rewrite K2 in *. destruct ((room - N.of_nat k =? 0)%N && z_stops s)%bool eqn:B.
      + intros [= <- <- <- <-]. right. apply andb_true_iff in B. destruct B as [B _]. apply N.eqb_eq in B. split; auto. split; [lia|].
        exists s, [], d. auto.
      + destruct (z_step s c) as [o nx'] eqn:E. destruct (z_loop inp (mk_z o nx') (room - N.of_nat k)%N) as [[[out2 inp2] z2] r2] eqn:L.
        intros [= <- <- <- <-]. inversion D as [|? ? ? ? E1 G1|? ? ? s1 ? os1 ? E1 D1]; subst.
        * rewrite E in E1. injection E1 as -> ->. rewrite (checksummed _ _ _ E) in *. left. cbn in L.
          rewrite N.min_0_r in L. cbn in L. injection L as <- <- <- <-. auto.
        * rewrite E in E1. injection E1 as -> ->. destruct (IH _ _ _ _ _ _ _ _ D1 L) as [(-> & -> & ->)|(-> & Q & s2 & pend' & d' & -> & D' & EQ)]; [left; auto|right].
          split; auto. split; [rewrite app_length; lia|]. exists s2, pend', d'. rewrite <- app_assoc, EQ. auto.
    - intros [= <- <- <- <-]. right. split; auto. split; [specialize (K3 ltac:(discriminate)); lia|]. exists s, (b :: p), d.
      split; auto. split; auto. rewrite app_assoc. f_equal. symmetry. exact K2.
  Qed.

  (* What is left of the member: [d], or nothing and the source is at its end. *)
  Definition in_member (g : gstream) (d : list byte) : Prop :=
    s_rest (g_inner g) = [] /\
    ((i_state (g_inflater g) = ZR_end /\ i_stream (g_inflater g) = z_new St z_init /\ g_buf g = [] /\ d = []) \/
     (validate_state (i_state (g_inflater g)) = Ok tt /\
      exists s pend d', i_stream (g_inflater g) = mk_z pend (Z_go s) /\ decodes s (g_buf g) d' Z_fin /\ d = pend ++ d')).
  Lemma member_deliver g n d : usual n -> in_member g d -> g_buf g <> [] ->
    exists bs d' g', g_deliver St z_init z_step z_stops g n = (Ok (N.of_nat (length bs), bs), g') /\ d = bs ++ d' /\ in_member g' d' /\ (bs = [] -> d' = []).
  Proof.
    intros U [R [(_ & _ & B & _)|(V & s & pend & d' & Z & D & ->)]] NE; [congruence|]. unfold g_deliver, i_inflate. rewrite V, Z.
    rewrite N.mod_small by apply U. unfold z_inflate.
    destruct (z_loop (g_buf g) (mk_z pend (Z_go s)) n) as [[[out inp'] z'] r] eqn:L.
    destruct (loop_member _ _ _ _ _ _ _ _ _ D L) as [(-> & -> & ->)|(-> & Q & s2 & pend' & d2 & -> & D' & EQ)].
    - cbn. exists (pend ++ d'), []. eexists. split.
      + f_equal. f_equal. f_equal. destruct (loop_spec _ _ _ _ _ _ _ L) as (used & _ & B1 & _). lia.
      + split; [now rewrite app_nil_r|]. split; [|auto]. split; [exact R|]. left. auto.
    - assert (Z0 : (length out =? 0)%nat = false). { apply Nat.eqb_neq. unfold usual in U. intros E. rewrite E in Q. cbn in Q. lia. }
      rewrite Z0. cbn. exists out, (pend' ++ d2). eexists. split.
      + f_equal. f_equal. f_equal. lia.
      + split; [exact EQ|]. split; [|intros ->; discriminate Z0]. split; [exact R|]. right. split; [reflexivity|]. exists s2, pend', d2. auto.
  Qed.
  Lemma member_read g n d : usual n -> in_member g d ->
    exists bs d' g', g_read g n = (Ok (N.of_nat (length bs), bs), g') /\ d = bs ++ d' /\ in_member g' d' /\ (bs = [] -> d' = []).
  Proof.
    intros U I. unfold g_read. assert (Z : (n =? 0)%N = false) by (apply N.eqb_neq; unfold usual in U; lia). rewrite Z.
    destruct (g_buf g) as [|b buf] eqn:B; [|apply member_deliver; auto; congruence].
    destruct I as [R [(St0 & Z0 & _ & ->)|(V & s & pend & d' & Zs & D & ->)]]; [|rewrite B in D; inversion D].
    pose proof (stream_read_split (g_inner g) g_block) as Sp. destruct (stream_read (g_inner g) g_block) as [bs inner]. destruct Sp as [E Em].
    rewrite R in E. destruct bs; [|discriminate]. unfold i_eof. rewrite St0. exists [], []. eexists. split; [reflexivity|]. split; [reflexivity|].
    split; [|auto]. split; [now symmetry|]. left. auto.
  Qed.
  Lemma member_zero ns : Forall usual ns -> forall g d i, in_member g d ->
    nth_error (g_reads ns g) i = Some (Ok (0%N, [])) -> received (firstn i (g_reads ns g)) = d.
  Proof.
    induction 1 as [|m ns Um F IH]; intros g d i I H; [destruct i; discriminate|].
    cbn [Model_gzip.g_reads] in *. destruct (member_read g m d Um I) as (bs & d' & g' & E & -> & I' & Z). rewrite E in *.
    destruct i as [|i]; cbn [nth_error firstn received] in *.
    - injection H as L H. subst bs. rewrite (Z eq_refl). reflexivity.
    - f_equal. eapply IH; eauto.
  Qed.
  Lemma single_l (content data : list byte) ns i : Forall usual ns -> decodes z_init content data Z_fin ->
    (N.of_nat (length content) <= g_block)%N -> nth_error (g_reads ns (opened content [])) i = Some (Ok (0%N, [])) ->
    received (firstn i (g_reads ns (opened content []))) = data.
  Proof.
    intros F D L.
    assert (R' : g_reads ns (opened content []) = g_reads ns (mk_g St (mk_stream [] []) (new_inflater St z_init) content)).
    { destruct F as [|n' ns U' F]; [reflexivity|]. cbn [Model_gzip.g_reads]. replace (g_read (opened content []) n') with (g_read (mk_g St (mk_stream [] []) (new_inflater St z_init) content) n'); [reflexivity|].
      symmetry. unfold g_read. assert (Z : (n' =? 0)%N = false) by (apply N.eqb_neq; unfold usual in U'; lia). rewrite Z. cbn [g_open Model_gzip.g_buf Model_gzip.g_inner Model_gzip.g_inflater].
      destruct content as [|c content]; [inversion D|]. unfold stream_read. cbn [s_rest s_sched tl].
      rewrite Nat.min_id. replace (N.to_nat (N.min g_block (N.of_nat (length (c :: content))))) with (length (c :: content)) by lia.
      rewrite firstn_all, skipn_all. reflexivity. }
    rewrite R'. apply member_zero; auto. split; [reflexivity|]. right. split; [reflexivity|]. exists z_init, [], data. auto.
  Qed.

End Proofs.
