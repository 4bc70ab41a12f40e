(* Proofs about starting the background thread. *)
From Verif Require Import Common Model_par Spec_par Model_start Spec_start Proof_par.

Section P.
  Context {B E : Type}.
  Context (decode : B -> dres E).
  Context (size_bytes : B -> nat).
  Context (src : nat -> list B) (src_end : nat -> option exn).
  Context (prefetch reads : nat).
  Context (all : mask).
  Hypothesis Hp : 1 <= prefetch.
  Hypothesis Hr : 1 <= reads.
  Local Notation pstep := (step decode size_bytes src src_end prefetch reads).
  Local Notation pexec := (exec decode size_bytes src src_end prefetch reads).
  Local Notation hstep := (hstep decode size_bytes src src_end prefetch reads all).
  Local Notation hexec := (hexec decode size_bytes src src_end prefetch reads all).
  Local Notation inv := (inv decode size_bytes src src_end prefetch reads).

  (* There is a thread exactly between start and join. *)
  Definition matched (m : mask) (h : host E) : Prop :=
    h_mask h = m /\ inv (h_par h) /\
    h_thread h = (match rstate (h_par h), pc (h_par h) with not_started, _ | _, c_joined => None | _, _ => Some all end).

  Lemma matched_init m : matched m (host_init m).
  Proof. split; [reflexivity|]. split; [apply inv_init; assumption|reflexivity]. Qed.

  Lemma background_runs s a s' : inv s -> background a = true -> pstep s a = Some s' -> rstate s <> not_started /\ pc s <> c_joined.
  Proof.
    intros I Bg H. split; intros X.
    - destruct (i_new _ _ _ _ _ _ s I X) as [E1|E1]; rewrite E1 in H; destruct a; try discriminate Bg; discriminate H.
    - destruct (i_joined _ _ _ _ _ _ s I X) as [_ [_ [R N]]]. destruct s. cbn in R, N, X. subst.
      destruct a; try discriminate Bg; cbn in H; destruct rstate; try congruence; try discriminate H.
  Qed.

  (* What a step does to the run state and to the place of the client. *)
  Lemma step_place s a s' : inv s -> pstep s a = Some s' ->
    match a with
    | A_reset => rstate s' = not_started
    | C_join => rstate s' <> not_started /\ pc s' = c_joined
    | A_read => rstate s' <> not_started /\ pc s' <> c_joined
    | A_stop => (rstate s = not_started /\ rstate s' = not_started) \/ (rstate s <> not_started /\ rstate s' <> not_started /\ pc s' <> c_joined)
    | C_sleep | C_wake | C_notify => rstate s' = rstate s /\ pc s' <> c_joined /\ pc s <> c_joined
    | _ => (rstate s <> not_started -> rstate s' <> not_started) /\ pc s' = pc s
    end.
  Proof.
    intros I H. destruct (rstate s) eqn:R.
    - destruct (i_new _ _ _ _ _ _ s I R) as [E1|E1]; rewrite E1 in *; destruct a; try discriminate H; cbn in H; injection H as <-; cbn;
        repeat split; try discriminate; auto.
    - destruct s as [ep nx ca en lc ld dl ob on qp qr cn fl rs fq rq by_ p lg nr cs qs]. cbn in R. subst rs.
      destruct a; cbn in H; repeat match type of H with context [match ?x with _ => _ end] => destruct x eqn:?; try discriminate H end;
        inversion H; subst; clear H; cbn; repeat split; try discriminate; auto; right; repeat split; discriminate.
    - destruct s as [ep nx ca en lc ld dl ob on qp qr cn fl rs fq rq by_ p lg nr cs qs]. cbn in R. subst rs.
      destruct a; cbn in H; repeat match type of H with context [match ?x with _ => _ end] => destruct x eqn:?; try discriminate H end;
        inversion H; subst; clear H; cbn; repeat split; try discriminate; auto; right; repeat split; discriminate.
    - destruct s as [ep nx ca en lc ld dl ob on qp qr cn fl rs fq rq by_ p lg nr cs qs]. cbn in R. subst rs.
      destruct a; cbn in H; repeat match type of H with context [match ?x with _ => _ end] => destruct x eqn:?; try discriminate H end;
        inversion H; subst; clear H; cbn; repeat split; try discriminate; auto; right; repeat split; discriminate.
  Qed.

  Lemma hstep_read h g : (forall s', pstep (h_par h) A_read = Some s' -> g = Granted) -> forall r, hstep h (H_read g) = Some r ->
    exists s', pstep (h_par h) A_read = Some s' /\
      r = Alive (mk_host s' (match rstate (h_par h) with not_started => match readq (h_par h) with [] => Some all | _ => h_thread h end | _ => h_thread h end) (h_mask h)).
  Proof.
    intros G r H. destruct h as [s t m]. cbn [h_par h_thread h_mask] in *. cbn [Model_start.hstep] in H.
    destruct (pc s) eqn:P; try (destruct s; cbn in P, H; subst; discriminate H).
    destruct (readq s) eqn:Q.
    - destruct (rstate s) eqn:R.
      + rewrite (G (match pstep s A_read with Some x => x | None => s end)) in H by (destruct s; cbn in P, Q |- *; subst; reflexivity).
        cbn [start_thread] in H. destruct (pstep s A_read) as [s'|] eqn:S; [|discriminate]. exists s'. split; [reflexivity|]. injection H as <-. reflexivity.
      + destruct (pstep s A_read) as [s'|] eqn:S; [|discriminate]. exists s'. split; [reflexivity|]. injection H as <-. reflexivity.
      + destruct (pstep s A_read) as [s'|] eqn:S; [|discriminate]. exists s'. split; [reflexivity|]. injection H as <-. reflexivity.
      + destruct (pstep s A_read) as [s'|] eqn:S; [|discriminate]. exists s'. split; [reflexivity|]. injection H as <-. reflexivity.
    - destruct (pstep s A_read) as [s'|] eqn:S; [|discriminate]. exists s'. split; [reflexivity|]. injection H as <-.
      destruct (rstate s); reflexivity.
  Qed.

  Lemma granted_step m h a r : matched m h -> granted a -> hstep h a = Some r ->
    exists h', r = Alive h' /\ matched m h' /\ pstep (h_par h) (plain a) = Some (h_par h').
  Proof.
    intros [Hm [I Ht]] G H. destruct a as [g|a].
    - destruct g; try contradiction G. apply hstep_read in H; [|reflexivity]. destruct H as [s' [S ->]]. eexists. split; [reflexivity|].
      split; [|exact S]. split; [exact Hm|]. split; [exact (inv_step _ _ _ _ _ _ Hp Hr _ _ _ I S)|]. cbn [h_thread h_par].
      destruct (step_place _ _ _ I S) as [N1 N2].
      assert (Q : rstate (h_par h) = not_started -> readq (h_par h) = []).
      { intros R. destruct (i_new _ _ _ _ _ _ _ I R) as [->| ->]; reflexivity. }
      assert (P0 : pc (h_par h) = c_idle).
      { clear - S. destruct (h_par h); cbn in *. destruct pc; cbn in S; congruence. }
      rewrite Ht, P0. destruct (rstate s'), (pc s'); try congruence; destruct (rstate (h_par h)); try rewrite Q by reflexivity; reflexivity.
    - destruct h as [s t mm]. cbn [h_mask h_par h_thread] in *. subst mm.
      assert (Gen : a <> A_read -> a <> C_join -> hstep (mk_host s t m) (H_act a) =
                    match t, background a with None, true => None | _, _ => option_map (fun s' => Alive (mk_host s' t m)) (pstep s a) end)
        by (intros; destruct a; try congruence; reflexivity).
      assert (D : a = A_read \/ a = C_join \/ (a <> A_read /\ a <> C_join)) by (destruct a; auto; right; right; split; discriminate).
      destruct D as [-> |[-> |[K1 K2]]].
      + discriminate H.
      + cbn [Model_start.hstep] in H.
        destruct (pc s) eqn:P; try (destruct s; cbn in P, H; subst; discriminate H).
        destruct t as [w|].
        * destruct (pstep s C_join) as [s'|] eqn:S; [|discriminate]. injection H as <-. eexists. split; [reflexivity|]. split; [|exact S].
          split; [reflexivity|]. split; [exact (inv_step _ _ _ _ _ _ Hp Hr _ _ _ I S)|]. cbn [h_thread h_par].
          destruct (step_place _ _ _ I S) as [N1 N2]. rewrite N2. destruct (rstate s'); reflexivity.
        * destruct (i_join _ _ _ _ _ _ _ I (or_introl P)) as [_ [_ [_ N]]]. destruct (rstate s); try congruence; discriminate Ht.
      + rewrite Gen in H by assumption. destruct (pstep s a) as [s'|] eqn:S.
        * assert (X : r = Alive (mk_host s' t m)) by (destruct t, (background a); cbn [option_map] in H; congruence). subst r.
          eexists. split; [reflexivity|]. split; [|exact S]. split; [reflexivity|].
          split; [exact (inv_step _ _ _ _ _ _ Hp Hr _ _ _ I S)|]. cbn [h_thread h_par].
          pose proof (step_place _ _ _ I S) as Pl. pose proof (background_runs s a s' I) as Bg.
          rewrite Ht. destruct a; try congruence; cbn [background] in *;
            try (destruct (Bg eq_refl S) as [B1 B2]; destruct Pl as [P1 P2]; specialize (P1 B1); rewrite P2;
                 destruct (rstate s), (rstate s'), (pc s); congruence).
          -- destruct Pl as [[P1 P2]|[P1 [P2 P3]]].
             ++ rewrite P1, P2. reflexivity.
             ++ assert (PI : pc s = c_idle) by (clear - S; destruct s; cbn in *; destruct pc; cbn in S; congruence).
                rewrite PI. destruct (rstate s), (rstate s'), (pc s'); congruence.
          -- assert (PI : pc s = c_joined) by (clear - S; destruct s; cbn in *; destruct pc; cbn in S; congruence).
             rewrite PI, Pl. destruct (rstate s); reflexivity.
          -- destruct Pl as [P1 [P2 P3]]. rewrite P1. destruct (rstate s), (pc s), (pc s'); congruence.
          -- destruct Pl as [P1 [P2 P3]]. rewrite P1. destruct (rstate s), (pc s), (pc s'); congruence.
          -- destruct Pl as [P1 [P2 P3]]. rewrite P1. destruct (rstate s), (pc s), (pc s'); congruence.
        * destruct t, (background a); discriminate H.
  Qed.

  Lemma granted_run m l : forall h r, matched m h -> Forall granted l -> hexec h l = Some r ->
    exists h', r = Alive h' /\ matched m h' /\ pexec (h_par h) (map plain l) = Some (h_par h').
  Proof.
    induction l as [|a l IH]; intros h r M G H; cbn [Model_start.hexec map exec] in *.
    - injection H as <-. exists h. auto.
    - inversion G as [|? ? G1 G2]; subst. destruct (hstep h a) as [o|] eqn:S; [|discriminate].
      destruct (granted_step m h a o M G1 S) as [h1 [-> [M1 S1]]]. rewrite S1. exact (IH h1 r M1 G2 H).
  Qed.

  (* The other way round: every history of the reader happens if all threads are granted. *)
  Definition lift (a : action) : hact := match a with A_read => H_read Granted | a => H_act a end.
  Lemma lift_granted a : granted (lift a). Proof. destruct a; exact Logic.I. Qed.
  Lemma lift_plain a : plain (lift a) = a. Proof. destruct a; reflexivity. Qed.

  Lemma lift_step m h a s' : matched m h -> pstep (h_par h) a = Some s' -> exists r, hstep h (lift a) = Some r.
  Proof.
    intros [Hm [I Ht]] S. pose proof (background_runs _ a s' I) as Bg. destruct h as [s t mm]. cbn [h_par h_thread h_mask] in *.
    destruct (background a) eqn:Eb.
    - destruct (Bg eq_refl S) as [B1 B2]. assert (T : t = Some all) by (rewrite Ht; destruct (rstate s), (pc s); congruence). clear Ht. subst t.
      destruct a; try discriminate Eb; cbn [lift Model_start.hstep background]; rewrite S; eexists; reflexivity.
    - destruct a; try discriminate Eb; cbn [lift Model_start.hstep background start_thread].
      + assert (PI : pc s = c_idle) by (clear - S; destruct s; cbn in *; destruct pc; cbn in S; congruence).
        rewrite PI, S. destruct (readq s), (rstate s); eexists; reflexivity.
      + rewrite S. destruct t; eexists; reflexivity.
      + rewrite S. destruct t; eexists; reflexivity.
      + rewrite S. destruct t; eexists; reflexivity.
      + rewrite S. destruct t; eexists; reflexivity.
      + rewrite S. destruct t; eexists; reflexivity.
      + destruct (pc s), t; rewrite ?S; eexists; reflexivity.
  Qed.

  Lemma lift_run m l : forall h s', matched m h -> pexec (h_par h) l = Some s' ->
    exists h', hexec h (map lift l) = Some (Alive h') /\ h_par h' = s'.
  Proof.
    induction l as [|a l IH]; intros h s' M H; cbn [Model_start.hexec map exec] in *.
    - injection H as <-. exists h. auto.
    - destruct (pstep (h_par h) a) as [s1|] eqn:S; [|discriminate].
      destruct (lift_step m h a s1 M S) as [r R]. rewrite R.
      destruct (granted_step m h (lift a) r M (lift_granted a) R) as [h1 [-> [M1 S1]]].
      rewrite lift_plain, S in S1. injection S1 as ->. exact (IH h1 s' M1 H).
  Qed.

  (* ---------------- a refused thread ---------------- *)

  (* The reader believes that it runs, and nobody works for it. *)
  Definition stuck (lg : list (@out E)) (h : host E) : Prop :=
    h_thread h = None /\ rstate (h_par h) = running /\ fillq (h_par h) = [] /\ readq (h_par h) = [] /\ log (h_par h) = lg /\
    (pc (h_par h) = c_idle \/ pc (h_par h) = c_wait \/ pc (h_par h) = c_notify_stop \/ pc (h_par h) = c_join).

  Lemma stuck_step lg h a r : stuck lg h -> hstep h a = Some r ->
    match r with Alive h' => stuck lg h' /\ h_mask h' = h_mask h | Terminated => a = H_act C_join end.
  Proof.
    intros [T [R [F [Q [L P]]]]] H.
    destruct h as [[ep nx ca en lc ld dl ob on qp qr cn fl rs fq rq by_ p lg0 nr cs qs] t m].
    cbn [h_thread h_par rstate fillq readq log pc] in *. subst t rs fq rq lg0.
    destruct P as [-> |[-> |[-> | ->]]]; destruct a as [g|[]]; cbn in H; try discriminate H;
      try (destruct cs; try discriminate H); try (inversion H; subst; clear H); cbn; unfold stuck; cbn; auto 12.
  Qed.

  Lemma stuck_run lg l : forall h r, stuck lg h -> hexec h l = Some r ->
    match r with
    | Alive h' => log (h_par h') = lg /\ h_mask h' = h_mask h /\ pc (h_par h') <> c_joined
    | Terminated => exists l', l = l' ++ [H_act C_join]
    end.
  Proof.
    induction l as [|a l IH]; intros h r St H; cbn [Model_start.hexec] in H.
    - injection H as <-. destruct St as [_ [_ [_ [_ [L P]]]]]. split; [exact L|]. split; [reflexivity|]. intuition congruence.
    - destruct (hstep h a) as [[h1|]|] eqn:S; [| |discriminate].
      + destruct (stuck_step lg h a _ St S) as [St1 M1]. specialize (IH h1 r St1 H).
        destruct r as [h2|]; [rewrite <- M1; exact IH|]. destruct IH as [l' ->]. exists (a :: l'). reflexivity.
      + pose proof (stuck_step lg h a _ St S) as K. cbn in K. subst a. destruct l; [|discriminate]. injection H as <-. exists []. reflexivity.
  Qed.

  Lemma refused_step m h : matched m h -> pc (h_par h) = c_idle -> rstate (h_par h) = not_started -> forall g, g = No_block \/ g = No_thread ->
    exists h', hstep h (H_read g) = Some (Alive h') /\ stuck (log (h_par h) ++ [O_error System_err]) h' /\
      h_mask h' = (match g with No_thread => all | _ => m end) /\
      hexec h' [H_act A_stop; H_act C_notify; H_act C_join] = Some Terminated /\
      hexec h' [H_read Granted] <> None.
  Proof.
    intros [Hm [I Ht]] P R g G. destruct (i_new _ _ _ _ _ _ _ I R) as [E1|E1]; [|rewrite E1 in P; discriminate P].
    destruct h as [s t mm]. cbn [h_par h_thread h_mask] in *. subst mm. rewrite R in Ht. subst t. rewrite E1.
    destruct G as [-> | ->]; cbn; eexists; (split; [reflexivity|]); unfold stuck; cbn;
      (split; [auto 12|]); (split; [reflexivity|]); (split; [reflexivity|discriminate]).
  Qed.
End P.
