(* Lemmas about the converting stream. *)
From Verif Require Import Common Model_rec Proof_rec Model_utf8 Spec_utf8.

Section Proofs.
  Variable St : Type.
  Variable iconv_open : encoding -> option St.
  Variable cv : encoding -> St -> list byte -> cres St.
  Notation converts := (converts St cv).
  Notation iconv := (iconv St cv).
  Notation ustream := (ustream St).
  Notation u_inner := (u_inner St). Notation u_enc := (u_enc St). Notation u_conv := (u_conv St). Notation u_fill := (u_fill St).
  Notation u_held := (u_held St). Notation u_end := (u_end St). Notation u_rem := (u_rem St). Notation is_utf8 := (is_utf8 St).
  Notation u_convert := (u_convert St cv). Notation u_read := (u_read St cv). Notation m_read := (m_read St cv). Notation m_reads := (m_reads St cv).

  Lemma begins_nil x p : begins (x :: p) [] = false.
  Proof. unfold begins. cbn. destruct (list_eq_dec N.eq_dec [] (x :: p)); congruence. Qed.
  Lemma begins_cons x p c content : begins (x :: p) (c :: content) = ((c =? x)%N && begins p content)%bool.
  Proof.
    unfold begins. cbn [length firstn]. destruct (list_eq_dec N.eq_dec (c :: firstn (length p) content) (x :: p)) as [Q|Q];
    destruct (N.eqb_spec c x) as [->|Nx]; destruct (list_eq_dec N.eq_dec (firstn (length p) content) p); cbn; congruence.
  Qed.
  Lemma infer_declared content : match infer_bom (firstn 4 content) with Some e => declared content = e | None => declared content = E_utf8 end.
  Proof.
    unfold declared, infer_bom. destruct content as [|a [|b [|c [|d rest]]]]; cbn [firstn length Nat.leb Nat.eqb nth_error andb];
    rewrite ?begins_cons, ?begins_nil; change (begins []) with (fun _ : list byte => true); cbn [andb]; rewrite ?andb_false_r, ?andb_true_r;
    repeat match goal with |- context [(?x =? ?y)%N] => destruct (x =? y)%N; cbn [andb]; rewrite ?andb_false_r, ?andb_true_r end; reflexivity.
  Qed.

  Notation make := (make_utf8_stream St iconv_open).
  Lemma new_wrapped inner e default u : e <> E_utf8 -> new_ustream St iconv_open inner e default = Ok u ->
    exists s, iconv_open e = Some s /\ u = mk_u St inner e s true [] u_block [].
  Proof.
    intros N H. unfold new_ustream in H. assert (X : encoding_eqb e E_utf8 = false) by (destruct e; try reflexivity; congruence). rewrite X in H.
    destruct (iconv_open e) as [s|]; [|discriminate]. injection H as <-. eauto.
  Qed.
  Lemma short_l default content sched m n : declared content <> E_utf8 -> length content <= 4 -> 0 < n ->
    make default (mk_source content false sched) None = Ok m -> m_reads [n] m = [Throw Stream_err].
  Proof.
    intros D L P H. unfold make_utf8_stream in H. cbn [i_content i_seekable i_sched] in H.
    destruct (fill_spec (S (length content)) (mk_stream content sched) 4 []) as (inner & Ef & Es); [cbn; lia|]. rewrite Ef in H. cbn [bind s_rest app] in H, Es.
    change (N.to_nat 4) with 4 in *. pose proof (infer_declared content) as I. destruct (infer_bom (firstn 4 content)) as [e|]; [|congruence]. rewrite I in D.
    destruct (new_ustream St iconv_open inner e default) as [u| | |] eqn:Nu; try discriminate. destruct (new_wrapped _ _ _ _ D Nu) as (s & O & ->).
    assert (X : encoding_eqb e E_utf8 = false) by (destruct e; try reflexivity; congruence).
    cbn [bind] in H. unfold set_preamble, Model_utf8.is_utf8 in H. cbn [Model_utf8.u_enc] in H. rewrite X in H.
    cbn [Model_utf8.u_inner Model_utf8.u_enc Model_utf8.u_conv Model_utf8.u_fill Model_utf8.u_held Model_utf8.u_end Model_utf8.u_rem] in H.
    assert (M : m = M_wrapped St (mk_u St inner e s true (firstn 4 content) u_block [])) by congruence. clear H. subst m.
    rewrite firstn_all2 by lia. rewrite skipn_all2 in Es by lia.
    assert (K : forall room fuel, u_convert (S fuel) room (mk_u St inner e s true content u_block []) = Throw Stream_err).
    { intros room fuel. cbn [Model_utf8.u_convert Model_utf8.u_fill]. unfold u_fill_buffer. cbn [Model_utf8.u_inner Model_utf8.u_held Model_utf8.u_end].
      destruct (fill_spec (S (length (s_rest inner))) inner (u_block - N.of_nat (length content)) content ltac:(lia)) as (s' & -> & _). cbn [bind].
      rewrite Es, firstn_nil, app_nil_r, Nat.eqb_refl. destruct content; [exfalso; apply D; rewrite <- I; reflexivity|reflexivity]. }
    cbn [Model_utf8.m_reads Model_utf8.m_read]. unfold Model_utf8.u_read. replace (n =? 0)%nat with false by (symmetry; apply Nat.eqb_neq; lia).
    cbn [Model_utf8.u_rem Model_utf8.u_inner]. unfold Model_utf8.is_utf8. cbn [Model_utf8.u_enc]. rewrite X, Es. cbn [length plus].
    destruct (4 <=? n)%nat; rewrite K; reflexivity.
  Qed.
  Lemma converts_unit e s inp out t n o s' : inp <> [] -> cv e s inp = Cv_unit n o s' -> converts e s inp out t ->
    exists out', out = o ++ out' /\ converts e s' (skipn n inp) out' t.
  Proof. intros N E C. inversion C; subst; try congruence. rewrite E in H0. injection H0 as <- <- <-. eauto. Qed.
  Lemma app_ne {A} (a b : list A) : a <> [] -> a ++ b <> []. Proof. destruct a; cbn; congruence. Qed.

  Variable good : converter St cv.
  Lemma iconv_spec e fuel : forall s a b room out t, length a < fuel -> converts e s (a ++ b) out t ->
    match iconv fuel e s a room with
    | Ok (outs, a', s', st) => exists used out', a = used ++ a' /\ length outs <= room /\ out = outs ++ out' /\ converts e s' (a' ++ b) out' t /\
        match st with
        | I_ok => a' = []
        | I_incomplete => a' <> [] /\ cv e s' a' = Cv_incomplete
        | I_leftover => a' <> [] /\ room < length outs + 4
        end
    | Throw x => x = Stream_err /\ t = T_invalid
    | _ => False
    end.
  Proof.
    induction fuel as [|fuel IH]; intros s a b room out t L C; [lia|]. cbn [Model_utf8.iconv].
    destruct a as [|c a0] eqn:Ea; [exists [], out; cbn; repeat split; auto; lia|]. rewrite <- Ea in *.
    assert (N : a <> []) by (subst; discriminate). clear Ea. pose proof (good e s a N) as G. destruct (cv e s a) as [n o s'| |] eqn:E.
    - destruct G as (G1 & G2 & G3). destruct (Nat.leb_spec (length o) room) as [R|R].
      + destruct (converts_unit _ _ _ _ _ _ _ _ (app_ne a b N) (G3 b) C) as (out1 & -> & C1). rewrite skipn_app_le in C1 by lia.
        assert (L1 : length (skipn n a) < fuel) by (rewrite skipn_length; lia).
        specialize (IH s' (skipn n a) b (room - length o) out1 t L1 C1).
        destruct (iconv fuel e s' (skipn n a) (room - length o)) as [[[[outs a'] s2] st]|x| |]; cbn [bind]; auto.
        destruct IH as (used & out' & E1 & E2 & -> & C2 & K). exists (firstn n a ++ used), out'.
        rewrite <- app_assoc, <- E1, firstn_skipn, app_length. repeat split; auto; [lia|now rewrite app_assoc|]. destruct st; intuition lia.
      + exists [], out. cbn [app length]. repeat split; auto; lia.
    - exists [], out. cbn [app length]. repeat split; auto; lia.
    - split; auto. specialize (G b). inversion C as [|? ? ? E1|? ? ? E1|? ? ? ? ? ? ? ? E1]; subst; try congruence.
      exfalso. apply (app_ne a b N). congruence.
  Qed.

  Definition inv (u : ustream) (d : list byte) (t : text_end) : Prop :=
    is_utf8 u = false /\ (exists dd, d = u_rem u ++ dd /\ converts (u_enc u) (u_conv u) (u_held u ++ s_rest (u_inner u)) dd t) /\
    (s_rest (u_inner u) <> [] -> u_end u = u_block) /\
    (u_fill u = true -> (N.of_nat (length (u_held u)) < u_block)%N /\
       (s_rest (u_inner u) = [] -> u_held u = [] \/ cv (u_enc u) (u_conv u) (u_held u) = Cv_incomplete)) /\
    (u_fill u = false -> u_held u <> []).

  Definition conv_ok (room : nat) (d : list byte) (t : text_end) (r : res (list byte * ustream)) : Prop :=
    match r with
    | Ok (bs, u') => length bs <= room /\ u_rem u' = [] /\ (exists d', d = bs ++ d' /\ inv u' d' t) /\ (bs = [] -> d = [] /\ t = T_complete)
    | Throw x => x = Stream_err /\ t <> T_complete
    | _ => False
    end.
  Lemma go_ok fuel room u d t :
    (forall u', inv u' d t -> u_rem u' = [] -> u_fill u' = true -> s_rest (u_inner u') = s_rest (u_inner u) -> conv_ok room d t (u_convert fuel room u')) ->
    4 <= room -> inv u d t -> u_rem u = [] -> u_fill u = false ->
    conv_ok room d t (
      let* r := iconv (S (length (u_held u))) (u_enc u) (u_conv u) (u_held u) room in
      let '(outs, inp, conv, st) := r in
      let u2 :=
        match st with
        | I_incomplete => mk_u St (u_inner u) (u_enc u) conv true inp (u_end u) (u_rem u)
        | I_leftover => mk_u St (u_inner u) (u_enc u) conv false inp (u_end u) (u_rem u)
        | I_ok => mk_u St (u_inner u) (u_enc u) conv true [] (u_end u) (u_rem u)
        end in
      match outs with
      | [] => u_convert fuel room u2
      | _ => Ok (outs, u2)
      end).
  Proof.
    intros IH R (U & (dd & D & C) & B & F & NF) Rem Fill. rewrite Rem in D. cbn in D. subst dd.
    pose proof (iconv_spec (u_enc u) (S (length (u_held u))) (u_conv u) (u_held u) (s_rest (u_inner u)) room d t ltac:(lia) C) as K.
    destruct (iconv (S (length (u_held u))) (u_enc u) (u_conv u) (u_held u) room) as [[[[outs inp] conv] st]|x| |]; cbn [bind]; auto.
    2:{ destruct K as [-> ->]. split; auto. discriminate. }
    destruct K as (used & out' & E & L & -> & C' & K).
    set (u2 := match st with I_ok => _ | _ => _ end). cbv zeta.
    assert (I2 : inv u2 out' t /\ u_rem u2 = [] /\ s_rest (u_inner u2) = s_rest (u_inner u) /\ (u_fill u2 = true \/ st = I_leftover)).
    { subst u2. destruct st; cbn in K |- *; (split; [|repeat split; auto]); unfold inv, Model_utf8.is_utf8; cbn [Model_utf8.u_inner Model_utf8.u_enc Model_utf8.u_conv Model_utf8.u_fill Model_utf8.u_held Model_utf8.u_end Model_utf8.u_rem] in *; rewrite Rem.
      - subst inp. refine (conj U (conj (ex_intro _ out' (conj eq_refl C')) (conj B (conj _ _)))); [|discriminate]. intros _. split; [reflexivity|auto].
      - destruct K as [K1 K2]. refine (conj U (conj (ex_intro _ out' (conj eq_refl C')) (conj B (conj _ _)))); [|discriminate].
        intros _. split; auto. pose proof (good (u_enc u) conv inp K1) as G. rewrite K2 in G. exact G.
      - destruct K as [K1 K2]. refine (conj U (conj (ex_intro _ out' (conj eq_refl C')) (conj B (conj _ _)))); [discriminate|auto]. }
    destruct I2 as (I2 & R2 & S2 & F2). destruct outs as [|b outs].
    - apply IH; auto. destruct F2 as [F2| ->]; auto. destruct K as [_ K]. cbn in K. lia.
    - cbn [conv_ok]. repeat split; auto; [|discriminate|discriminate]. exists out'. auto.
  Qed.

  Definition need (u : ustream) : nat := length (s_rest (u_inner u)) + (if u_fill u then 1 else 2).
  Lemma convert_ok fuel : forall room u d t, need u < fuel -> 4 <= room -> inv u d t -> u_rem u = [] -> conv_ok room d t (u_convert fuel room u).
  Proof.
    induction fuel as [|fuel IH]; intros room u d t N R I Rem; [lia|]. unfold need in N. cbn [Model_utf8.u_convert].
    destruct (u_fill u) eqn:Fill; [|apply go_ok; auto; intros u' I' R' F' S'; apply IH; auto; unfold need; rewrite F', S'; lia].
    destruct I as (U & (dd & D & C) & B & F & _). rewrite Rem in D. cbn in D. subst dd. destruct (F Fill) as [L E0].
    unfold u_fill_buffer. destruct (fill_spec (S (length (s_rest (u_inner u)))) (u_inner u) (u_end u - N.of_nat (length (u_held u))) (u_held u) ltac:(lia)) as (s' & -> & Es).
    cbn [bind]. rewrite app_length, firstn_length.
    destruct (s_rest (u_inner u)) as [|c rest] eqn:Er.
    - rewrite Nat.min_0_r, Nat.add_0_r, Nat.eqb_refl, firstn_nil. rewrite app_nil_r in C |- *. rewrite skipn_nil in Es.
      destruct (u_held u) as [|b held] eqn:Eh.
      + inversion C; subst; try congruence. cbn [conv_ok length]. split; [lia|]. split; [exact Rem|]. split; [|auto]. exists []. split; auto.
        refine (conj U (conj _ (conj _ (conj _ _)))); cbn; rewrite ?Es, ?Rem; try congruence; auto.
        exists []. auto.
      + cbn. split; auto. intros ->. destruct (E0 eq_refl) as [X|X]; [discriminate|]. inversion C; subst; congruence.
    - rewrite <- Er in *. rewrite B in * by (rewrite Er; discriminate). set (room' := (u_block - N.of_nat (length (u_held u)))%N) in *.
      assert (P : 0 < Nat.min (N.to_nat room') (length (s_rest (u_inner u)))). { rewrite Er. cbn [length]. subst room'. lia. }
      destruct (Nat.eqb_spec (length (u_held u) + Nat.min (N.to_nat room') (length (s_rest (u_inner u)))) (length (u_held u))); [lia|].
      set (held := u_held u ++ firstn (N.to_nat room') (s_rest (u_inner u))).
      apply (go_ok fuel room (mk_u St s' (u_enc u) (u_conv u) false held (N.of_nat (length (u_held u) + Nat.min (N.to_nat room') (length (s_rest (u_inner u))))) (u_rem u)) d t); auto.
      + cbn. intros u' I' R' F' S'. apply IH; auto. unfold need. rewrite F', S', Es, skipn_length. lia.
      + refine (conj U (conj _ (conj _ (conj _ _)))); cbn [Model_utf8.u_inner Model_utf8.u_enc Model_utf8.u_conv Model_utf8.u_fill Model_utf8.u_held Model_utf8.u_end Model_utf8.u_rem]; rewrite ?Rem; try discriminate.
        * exists d. split; auto. subst held. rewrite Es, <- app_assoc, firstn_skipn. exact C.
        * rewrite Es. intros Ne. assert (Lt : N.to_nat room' < length (s_rest (u_inner u))).
          { destruct (Nat.lt_ge_cases (N.to_nat room') (length (s_rest (u_inner u)))); auto. rewrite skipn_all2 in Ne by lia. congruence. }
          subst room'. lia.
        * intros _. subst held. intros Z. apply app_eq_nil in Z. destruct Z as [_ Z]. rewrite Er in Z, P. destruct (N.to_nat room'); [cbn in P; lia|discriminate].
  Qed.

  Definition minv (m : made St) (d : list byte) (t : text_end) : Prop :=
    match m with
    | M_same _ s => d = s_rest s /\ t = T_complete
    | M_wrapped _ u => if is_utf8 u then d = u_rem u ++ s_rest (u_inner u) /\ t = T_complete else inv u d t
    end.
  Lemma stream_read_shape (s : stream) n : let (bs, s') := stream_read s n in
    s_rest s = bs ++ s_rest s' /\ (N.of_nat (length bs) <= n)%N /\ ((0 < n)%N -> bs = [] -> s_rest s = []).
  Proof.
    pose proof (stream_read_spec s n) as H. destruct (stream_read s n) as [bs s']. destruct H as (k & -> & E & K1 & K2 & K3).
    rewrite E, firstn_skipn. split; auto. rewrite firstn_length. split; [lia|]. intros P Z. destruct (s_rest s) as [|c r]; auto.
    destruct k; [|discriminate]. specialize (K3 ltac:(discriminate) P). lia.
  Qed.
  Lemma copy_ok u n d t : 0 < n -> (is_utf8 u = true -> d = u_rem u ++ s_rest (u_inner u) /\ t = T_complete) -> (is_utf8 u = false -> inv u d t) -> u_rem u <> [] ->
    match u_copy St u n with
    | Ok (bs, u') => length bs <= n /\ exists d', d = bs ++ d' /\ minv (M_wrapped St u') d' t /\ (bs = [] -> d = [] /\ t = T_complete)
    | _ => False
    end.
  Proof.
    intros P A B Rem. unfold u_copy. set (k := Nat.min _ _). split; [rewrite firstn_length; lia|].
    exists (skipn k (u_rem u) ++ skipn (length (u_rem u)) d).
    assert (Ed : exists dd, d = u_rem u ++ dd). { destruct (is_utf8 u); [destruct A; eauto|]. destruct B as (_ & (dd & -> & _) & _); eauto. }
    destruct Ed as [dd ->]. rewrite skipn_app, skipn_all, Nat.sub_diag. cbn [skipn app]. rewrite !app_assoc, firstn_skipn. split; auto. split.
    - unfold minv, Model_utf8.is_utf8. cbn [Model_utf8.u_enc Model_utf8.u_rem Model_utf8.u_inner]. fold (is_utf8 u). destruct (is_utf8 u) eqn:U.
      + destruct (A eq_refl) as [Ed ->]. apply app_inv_head in Ed. subst. auto.
      + destruct (B eq_refl) as (_ & (d2 & E2 & C) & I). apply app_inv_head in E2. subst d2. split; [exact U|]. cbn. split; [eauto|exact I].
    - intros Z. exfalso. subst k. destruct (u_rem u); [congruence|]. destruct n; [lia|]. discriminate.
  Qed.
  Lemma mread_ok m n d t : 0 < n -> minv m d t ->
    match m_read m n with
    | Ok (bs, m') => length bs <= n /\ exists d', d = bs ++ d' /\ minv m' d' t /\ (bs = [] -> d = [] /\ t = T_complete)
    | Throw x => x = Stream_err /\ t <> T_complete
    | _ => False
    end.
  Proof.
    intros P I. destruct m as [s|u]; cbn [Model_utf8.m_read].
    - destruct I as [-> ->]. pose proof (stream_read_shape s (N.of_nat n)) as H. destruct (stream_read s (N.of_nat n)) as [bs s'].
      destruct H as (E & L & Z). split; [lia|]. exists (s_rest s'). split; [exact E|]. split; [split; reflexivity|]. intros ->. split; [|reflexivity]. apply Z; auto. lia.
    - cbn [minv] in I. unfold Model_utf8.u_read. replace (n =? 0)%nat with false by (symmetry; apply Nat.eqb_neq; lia).
      destruct (u_rem u) as [|b rem] eqn:Rem.
      + destruct (is_utf8 u) eqn:U.
        * destruct I as [-> ->]. pose proof (stream_read_shape (u_inner u) (N.of_nat n)) as H. destruct (stream_read (u_inner u) (N.of_nat n)) as [bs s'].
          destruct H as (E & L & Z). cbn [bind]. split; [lia|]. exists (s_rest s'). cbn [app]. rewrite E. split; auto. split.
          -- cbn [minv]. unfold Model_utf8.is_utf8 in *. cbn. rewrite U. auto.
          -- intros ->. rewrite <- E. split; auto. apply Z; auto. lia.
        * destruct (Nat.leb_spec 4 n) as [L|L].
          -- assert (Nd : need u < length (s_rest (u_inner u)) + 3) by (unfold need; destruct (u_fill u); lia).
             pose proof (convert_ok _ n u d t Nd L I Rem) as H. destruct (u_convert _ n u) as [[bs u']|x| |]; cbn [bind conv_ok] in *; auto.
             destruct H as (H1 & H2 & (d' & -> & I') & H4). split; auto. exists d'. split; auto. split; auto. cbn [minv].
             rewrite (proj1 I'). exact I'.
          -- assert (Nd : need u < length (s_rest (u_inner u)) + 3) by (unfold need; destruct (u_fill u); lia).
             pose proof (convert_ok _ 4 u d t Nd (Nat.le_refl 4) I Rem) as H. destruct (u_convert _ 4 u) as [[bs u']|x| |]; cbn [bind conv_ok] in *; auto.
             destruct H as (H1 & H2 & (d' & -> & I') & H4). destruct bs as [|b bs].
             ++ cbn [bind]. split; [cbn; lia|]. exists d'. split; auto. split; auto. cbn [minv]. rewrite (proj1 I'). exact I'.
             ++ set (u2 := mk_u St _ _ _ _ _ _ _). assert (Iu : inv u2 ((b :: bs) ++ d') t).
                { destruct I' as (U' & (dd & E & C) & Rest). rewrite H2 in E. cbn in E. subst dd. split; [exact U'|]. split; [exists d'; auto|exact Rest]. }
                pose proof (copy_ok u2 n ((b :: bs) ++ d') t P ltac:(rewrite (proj1 Iu); discriminate) (fun _ => Iu) ltac:(discriminate)) as K.
                destruct (u_copy St u2 n) as [[bs' u3]|x| |]; cbn [bind]; auto; contradiction.
      + pose proof (copy_ok u n d t P ltac:(intros U; rewrite U in I; rewrite Rem; exact I) ltac:(intros U; rewrite U in I; exact I) ltac:(congruence)) as K.
        destruct (u_copy St u n) as [[bs' u3]|x| |]; cbn [bind]; auto; contradiction.
  Qed.

  Lemma reads_ok ns : Forall (fun n => 0 < n) ns -> forall m d t, minv m d t -> delivers d t ns (m_reads ns m).
  Proof.
    induction 1 as [|n ns P F IH]; intros m d t I; cbn [Model_utf8.m_reads].
    - exists [], [], []. repeat split; auto.
      + exists d. reflexivity.
      + destruct i; discriminate.
      + destruct i; discriminate.
      + cbn. intros L _. destruct d; [auto|cbn in L; lia].
      + cbn. lia.
    - pose proof (mread_ok m n d t P I) as H. destruct (m_read m n) as [[bs m']|x| |]; try contradiction.
      + destruct H as (L & d' & -> & I' & Z). destruct (IH m' d' t I') as (ns1 & ns2 & rs1 & -> & A & (more & E) & K1 & K2 & K3 & K4).
        exists (n :: ns1), ns2, (Ok bs :: rs1). split; [reflexivity|]. split; [constructor; auto; exists bs; auto|].
        split; [exists more; cbn; rewrite E; apply app_assoc|]. split; [|split; [|split]].
        * destruct K1 as [[-> ->]|(-> & Ne & T)]; [left; auto|right; auto].
        * intros [|i] Hi; cbn [nth_error firstn got] in *.
          -- injection Hi as ->. destruct (Z eq_refl) as [Z1 Z2]. auto.
          -- destruct (K2 i Hi) as [<- T]. auto.
        * rewrite app_length. cbn [length got]. intros Le T. destruct bs as [|b bs].
          -- destruct (Z eq_refl) as [Z1 _]. cbn [app] in *. apply K3; auto. rewrite Z1. cbn. lia.
          -- rewrite K3; auto. cbn [length] in Le. lia.
        * rewrite app_length. cbn [length]. intros Lt T. destruct bs as [|b bs]; [now destruct (Z eq_refl)|].
          destruct (K4 ltac:(cbn [length] in Lt; lia) T) as [rs' ->]. now exists (Ok (b :: bs) :: rs').
      + destruct H as [-> T]. exists [], (n :: ns), []. split; [reflexivity|]. split; [constructor|]. split; [exists d; reflexivity|].
        split; [right; repeat split; auto; discriminate|]. split; [|split].
        * intros [|[|i]]; discriminate.
        * congruence.
        * intros _ _. now exists [].
  Qed.

  Lemma converting inner e s held out t : e <> E_utf8 -> converts e s (held ++ s_rest inner) out t -> held = [] \/ s_rest inner <> [] ->
    (N.of_nat (length held) <= 4)%N -> minv (M_wrapped St (mk_u St inner e s true held u_block [])) out t.
  Proof.
    intros N C H L. assert (X : encoding_eqb e E_utf8 = false) by (destruct e; try reflexivity; congruence).
    cbn [minv]. unfold Model_utf8.is_utf8. cbn. rewrite X. split; [exact X|]. cbn. split; [eauto|]. split; [reflexivity|]. split; [|discriminate].
    intros _. split; [unfold u_block; lia|]. intros E. destruct H; [auto|congruence].
  Qed.
  (* The stream that was made holds the text. *)
  Lemma made_ok default src given out t m : given <> Some E_latin1 ->
    in_utf8 St iconv_open cv (effective given (i_content src)) (i_content src) out t ->
    i_seekable src = true \/ given <> None \/ effective given (i_content src) = E_utf8 \/ 4 < length (i_content src) ->
    make default src given = Ok m -> minv m out t.
  Proof.
    intros NL T K H. destruct src as [content seekable sched]. cbn [i_content i_seekable i_sched] in *. unfold make_utf8_stream in H. cbn [i_content i_seekable i_sched] in H.
    destruct given as [e|].
    - cbn [effective] in *. assert (N1 : encoding_eqb e E_latin1 = false) by (destruct e; try reflexivity; congruence). rewrite N1, orb_false_r in H.
      unfold in_utf8 in T. destruct (encoding_eqb e E_utf8) eqn:E.
      + injection H as <-. destruct T as [-> ->]. split; reflexivity.
      + destruct T as (s & O & C). assert (Ne : e <> E_utf8) by (intros ->; discriminate).
        destruct (new_ustream St iconv_open _ e default) as [u| | |] eqn:Nu; try discriminate. destruct (new_wrapped _ _ _ _ Ne Nu) as (s1 & O1 & ->).
        rewrite O in O1. injection O1 as <-. cbn [bind] in H. destruct seekable; injection H as <-; cbn [Model_utf8.u_enc Model_utf8.u_conv Model_utf8.u_fill Model_utf8.u_held Model_utf8.u_end Model_utf8.u_rem].
        * apply converting; auto. cbn. lia.
        * unfold set_preamble, Model_utf8.is_utf8. cbn [Model_utf8.u_enc]. rewrite E. apply converting; auto. cbn. lia.
    - destruct (fill_spec (S (length content)) (mk_stream content sched) 4 []) as (inner & Ef & Es); [cbn; lia|]. rewrite Ef in H. cbn [bind s_rest app] in H, Es.
      change (N.to_nat 4) with 4 in *. pose proof (infer_declared content) as I. cbn [effective] in *.
      assert (W : forall e preamble, declared content = e -> preamble = firstn 4 content ->
        (let* u := new_ustream St iconv_open inner e default in
         if seekable then Ok (M_wrapped St (mk_u St (mk_stream content (s_sched inner)) (u_enc u) (u_conv u) (u_fill u) (u_held u) (u_end u) (u_rem u)))
         else Ok (M_wrapped St (set_preamble St u preamble))) = Ok m -> minv m out t).
      { intros e preamble De -> Hm. rewrite De in *. unfold in_utf8 in T. destruct (encoding_eqb e E_utf8) eqn:E.
        - destruct T as [-> ->]. unfold new_ustream in Hm. rewrite E in Hm. cbn [bind] in Hm. destruct seekable; injection Hm as <-.
          + cbn [minv]. unfold Model_utf8.is_utf8. cbn. rewrite E. auto.
          + unfold set_preamble, Model_utf8.is_utf8. cbn [Model_utf8.u_enc]. rewrite E. cbn [minv]. unfold Model_utf8.is_utf8. cbn [Model_utf8.u_enc Model_utf8.u_rem Model_utf8.u_inner].
            rewrite E, Es. split; [exact (eq_sym (firstn_skipn 4 content))|reflexivity].
        - destruct T as (s & O & C). assert (Ne : e <> E_utf8) by (intros ->; discriminate).
          destruct (new_ustream St iconv_open inner e default) as [u| | |] eqn:Nu; try discriminate. destruct (new_wrapped _ _ _ _ Ne Nu) as (s1 & O1 & ->).
          rewrite O in O1. injection O1 as <-. cbn [bind] in Hm. destruct seekable; injection Hm as <-; cbn [Model_utf8.u_enc Model_utf8.u_conv Model_utf8.u_fill Model_utf8.u_held Model_utf8.u_end Model_utf8.u_rem].
          + apply converting; auto. cbn. lia.
          + unfold set_preamble, Model_utf8.is_utf8. cbn [Model_utf8.u_enc]. rewrite E. apply converting; auto.
            * cbn [Model_utf8.u_inner]; rewrite Es. change (converts e s (firstn 4 content ++ skipn 4 content) out t). rewrite firstn_skipn. exact C.
            * right. cbn [Model_utf8.u_inner]; rewrite Es. intros Z. destruct K as [K|[K|[K|K]]]; try congruence. pose proof (skipn_length 4 content) as Sl. rewrite Z in Sl. cbn [length] in Sl. lia.
            * change (N.of_nat (length (firstn 4 content)) <= 4)%N. rewrite firstn_length. lia. }
      destruct (infer_bom (firstn 4 content)) as [e|].
      + apply (W e (firstn 4 content)); auto.
      + destruct seekable.
        * injection H as <-. unfold in_utf8 in T. rewrite I in T. cbn in T. destruct T as [-> ->]. split; reflexivity.
        * apply (W E_utf8 (firstn 4 content)); auto.
  Qed.
  Lemma delivered_l default src given out t m ns : given <> Some E_latin1 ->
    in_utf8 St iconv_open cv (effective given (i_content src)) (i_content src) out t ->
    i_seekable src = true \/ given <> None \/ effective given (i_content src) = E_utf8 \/ 4 < length (i_content src) ->
    make default src given = Ok m -> Forall (fun n => 0 < n) ns -> delivers out t ns (m_reads ns m).
  Proof. intros A B C D E. apply reads_ok; auto. eapply made_ok; eauto. Qed.

  (* A stream can be made if there is a converter. *)
  Lemma made_l default src given : iconv_open (effective given (i_content src)) <> None -> exists m, make default src given = Ok m.
  Proof.
    intros O. destruct src as [content seekable sched]. unfold make_utf8_stream. cbn [i_content i_seekable i_sched] in *.
    assert (W : forall inner e, iconv_open e <> None -> exists u, new_ustream St iconv_open inner e default = Ok u).
    { intros inner e Oe. unfold new_ustream. destruct (encoding_eqb e E_utf8); eauto. destruct (iconv_open e); [eauto|congruence]. }
    assert (W8 : forall inner, exists u, new_ustream St iconv_open inner E_utf8 default = Ok u) by (intros; unfold new_ustream; cbn; eauto).
    destruct given as [e|].
    - destruct (_ || _)%bool; [eauto|]. destruct (W (mk_stream content sched) e O) as [u ->]. cbn. destruct seekable; eauto.
    - destruct (fill_spec (S (length content)) (mk_stream content sched) 4 []) as (inner & Ef & Es); [cbn; lia|]. rewrite Ef. cbn [bind s_rest app].
      change (N.to_nat 4) with 4 in *. pose proof (infer_declared content) as I. cbn [effective] in O.
      destruct (infer_bom (firstn 4 content)) as [e|].
      + rewrite I in O. destruct (W inner e O) as [u ->]. cbn. destruct seekable; eauto.
      + destruct seekable; [eauto|]. destruct (W8 inner) as [u ->]. cbn. eauto.
  Qed.
  (* Every text has a conversion. *)
  Lemma converts_total e n : forall s inp, length inp <= n -> exists out t, converts e s inp out t.
  Proof.
    induction n as [|n IH]; intros s inp L.
    - destruct inp; [|cbn in L; lia]. exists [], T_complete. constructor.
    - destruct inp as [|c inp0] eqn:Ei; [exists [], T_complete; constructor|]. rewrite <- Ei in *. assert (N : inp <> []) by congruence. clear Ei.
      pose proof (good e s inp N) as G. destruct (cv e s inp) as [k o s'| |] eqn:E.
      + destruct (IH s' (skipn k inp)) as (out & t & C); [rewrite skipn_length; lia|]. exists (o ++ out), t. eapply V_unit; eauto.
      + exists [], T_incomplete. now constructor.
      + exists [], T_invalid. now constructor.
  Qed.
End Proofs.
