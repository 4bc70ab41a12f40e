From Coq Require Import Permutation.
From Verif Require Import Common Model_par Spec_par Proof_par.

Lemma graph_params_ok : forall cores np pr p r, graph_params cores np pr = (p, r) -> 1 <= cores -> 1 <= p /\ 1 <= r /\ r <= p.
Proof.
  intros cores np pr p r H C. unfold graph_params in H. injection H as Hp Hr.
  assert (P : 1 <= p). { rewrite <- Hp. destruct (np =? 0) eqn:E; [lia|]. apply Nat.eqb_neq in E. lia. }
  rewrite Hp in Hr. destruct (pr =? 0) eqn:E1; cbn [orb] in Hr; [lia|]. apply Nat.eqb_neq in E1.
  destruct (p <? pr) eqn:E2; [lia|]. apply Nat.ltb_ge in E2. lia.
Qed.

Lemma graph_params_meaning : forall cores np pr p r, graph_params cores np pr = (p, r) -> 1 <= cores ->
  p = (if np =? 0 then cores else np) /\ 1 <= r <= p /\ (1 <= pr <= p -> r = pr).
Proof.
  intros cores np pr p r H C. destruct (graph_params_ok _ _ _ _ _ H C) as (P1 & P2 & P3).
  unfold graph_params in H. injection H as Hp Hr. split; [auto|]. split; [lia|]. intros Q.
  rewrite Hp in Hr. destruct (pr =? 0) eqn:E1; cbn [orb] in Hr. { apply Nat.eqb_eq in E1. lia. }
  destruct (p <? pr) eqn:E2; [|auto]. apply Nat.ltb_lt in E2. lia.
Qed.

Section P.
  Context {B E : Type} (decode : B -> dres E) (size_bytes : B -> nat).
  Context (src : nat -> list B) (src_end : nat -> option exn).
  Context (cores np pr prefetch reads : nat).
  Hypothesis params : graph_params cores np pr = (prefetch, reads).
  Hypothesis cores_pos : 1 <= cores.

  Notation st := (@st E).
  Notation step := (step decode size_bytes src src_end prefetch reads).
  Notation exec := (exec decode size_bytes src src_end prefetch reads).
  Notation reachable := (reachable decode size_bytes src src_end prefetch reads).
  Notation inv := (inv decode size_bytes src src_end prefetch reads).
  Notation exs := (exs decode).

  Lemma pre_pos : 1 <= prefetch. Proof. apply (graph_params_ok _ _ _ _ _ params cores_pos). Qed.
  Lemma reads_pos : 1 <= reads. Proof. apply (graph_params_ok _ _ _ _ _ params cores_pos). Qed.

  Lemma reach_inv : forall s, reachable s -> inv s.
  Proof. apply inv_reachable; [apply pre_pos|apply reads_pos]. Qed.

  Lemma exs_prefix : forall k bs, Forall (decodable decode) (firstn k bs) ->
    exists r, exs (firstn k bs) ++ r = sequential decode bs.
  Proof.
    induction k as [|k IH]; intros bs H.
    - exists (sequential decode bs). reflexivity.
    - destruct bs as [|b bs]; [exists []; reflexivity|]. cbn [firstn] in *.
      destruct (IH bs (Forall_inv_tail H)) as [r R]. pose proof (Forall_inv H) as D. unfold decodable in D.
      exists r. unfold Proof_par.exs in *. cbn [map sequential]. destruct (decode b) as [e| |x]; cbn.
      + cbn in R. f_equal. exact R.
      + exact R.
      + destruct (D x eq_refl).
  Qed.

  Lemma exs_all : forall bs, Forall (decodable decode) bs -> exs bs = sequential decode bs.
  Proof.
    induction 1 as [|b bs D _ IH]; [reflexivity|]. unfold Proof_par.exs in *. cbn. unfold decodable in D.
    destruct (decode b) as [e| |x]; cbn; [f_equal; exact IH|exact IH|destruct (D x eq_refl)].
  Qed.

  Lemma sum_bytes : forall bs, sum (map (sz decode size_bytes) bs) = total_bytes decode size_bytes bs.
  Proof. induction bs as [|b bs IH]; cbn [map sum total_bytes]; [reflexivity|rewrite IH; reflexivity]. Qed.

  (* C25 *)
  Lemma order_ok : forall s, reachable s -> exists rest, delivered (log s) ++ rest = sequential decode (src (epoch s)).
  Proof.
    intros s R. pose proof (reach_inv _ R) as I. destruct (i_data _ _ _ _ _ _ _ I) as (rest & D & _).
    destruct (exs_prefix _ _ (i_dec _ _ _ _ _ _ _ I)) as [r Hr]. rewrite <- D in Hr.
    eexists. rewrite <- Hr, <- !app_assoc. reflexivity.
  Qed.

  Lemma in_map_example : forall (ds : list E) o, In o (map O_example ds) -> exists e, o = O_example e.
  Proof. intros ds o H. apply in_map_iff in H. destruct H as (e & <- & _). eauto. Qed.

  Lemma delivered_err : forall x n, delivered (repeat (@O_error E x) n) = [].
  Proof. induction n; cbn; congruence. Qed.

  (* C26, C63 *)
  Lemma end_ok : forall s, reachable s -> In O_end (log s) ->
    (exists n, log s = map O_example (sequential decode (src (epoch s))) ++ repeat O_end (S n)) /\
    Forall (decodable decode) (src (epoch s)) /\ src_end (epoch s) = None /\
    bytes s = total_bytes decode size_bytes (src (epoch s)).
  Proof.
    intros s R H. pose proof (reach_inv _ R) as I. destruct (i_log _ _ _ _ _ _ _ I) as (ds & tl & L & D).
    rewrite L in H. apply in_app_or in H. destruct H as [H|H].
    { apply in_map_example in H. destruct H; discriminate. }
    destruct D as [->|[([n ->] & _ & _ & _ & -> & F & SE & Bs)|([n [x [-> _]]] & _)]].
    - destruct H.
    - rewrite <- (exs_all _ F), <- sum_bytes. eauto 8.
    - apply repeat_spec in H. discriminate.
  Qed.

  (* C29 *)
  Lemma error_ok : forall s x, reachable s -> In (O_error x) (log s) ->
    (exists ds n rest, log s = map O_example ds ++ repeat (O_error x) (S n) /\ ds ++ rest = sequential decode (src (epoch s))) /\
    error_of decode src src_end (epoch s) x.
  Proof.
    intros s x R H. destruct (order_ok _ R) as [rest O]. pose proof (reach_inv _ R) as I.
    destruct (i_log _ _ _ _ _ _ _ I) as (ds & tl & L & D).
    rewrite L in H. apply in_app_or in H. destruct H as [H|H].
    { apply in_map_example in H. destruct H; discriminate. }
    destruct D as [->|[([n ->] & _)|([n [y [-> F]]] & _)]].
    - destruct H.
    - apply repeat_spec in H. discriminate.
    - apply repeat_spec in H. injection H as <-. split.
      + exists ds, n, rest. split; [assumption|].
        rewrite L, delivered_app, delivered_map, delivered_err, app_nil_r in O. exact O.
      + apply (i_fail _ _ _ _ _ _ _ I). assumption.
  Qed.

  Lemma error_no_end : forall s x, reachable s -> error_of decode src src_end (epoch s) x -> ~ In O_end (log s).
  Proof.
    intros s x R F H. destruct (end_ok _ R H) as (_ & D & SE & _). destruct F as [F|(b & Hb & Hd)].
    - congruence.
    - rewrite Forall_forall in D. exact (D b Hb x Hd).
  Qed.

  (* C27 *)
  Lemma bounds_ok : forall s, reachable s ->
    in_decoding s <= reads /\ length (readq s) + length (fillq s) < 2 * prefetch /\ undelivered s < 2 * prefetch + reads.
  Proof.
    intros s R. pose proof (reach_inv _ R) as I. destruct I. unfold in_decoding, undelivered. lia.
  Qed.

  (* C28 *)
  Definition b2n (b : bool) : nat := if b then 1 else 0.
  Fixpoint d_rank (l : list (nat * bool)) : nat := match l with [] => 0 | (_, b) :: r => (if b then 8 else 9) + d_rank r end.
  Definition q_rank (s : st) : nat := match q_run s with Some _ => if q_sleep s then 4 else 5 | None => 0 end.
  Definition pc_rank (s : st) : nat :=
    match pc s with
    | c_idle | c_joined => 0
    | c_wait => if c_sleep s then 4 else 5
    | c_notify => 2
    | c_notify_stop => 4
    | c_join => 1
    end.
  Definition rank (s : st) : nat :=
    11 * (length (src (epoch s)) - s_next s) + 10 * b2n (s_cached s) + d_rank (d_list s) + 7 * length (o_buf s) +
    6 * length (q_pend s) + q_rank s + l_decr s + b2n (negb (s_end s || cancelled s)) +
    match rstate s with not_started | running => 3 | _ => 0 end + 2 * n_read s + pc_rank s.

  Lemma d_rank_perm : forall a b, Permutation a b -> d_rank a = d_rank b.
  Proof. induction 1 as [|[? []]| [? []] [? []]|]; cbn; lia. Qed.
  Lemma d_rank_app : forall a b, d_rank (a ++ b) = d_rank a + d_rank b.
  Proof. induction a as [|[? []]]; cbn; intros; rewrite ?IHa; lia. Qed.

  Ltac flds := cbn [epoch s_next s_cached s_end l_count l_decr d_list o_buf o_next q_pend q_run cancelled rstate pc n_read c_sleep q_sleep b2n negb orb opt_len length] in *.

  Lemma rank_internal : forall a s s', internal a = true -> step s a = Some s' -> rank s' < rank s.
  Proof.
    intros a s s' Ia H. destruct s as [ep nx ca en lc ld dl ob on qp qr cn fl rs fq rq by_ p lg nr cs qs].
    destruct a; try discriminate; cbn beta iota delta [Model_par.step] in H; unfold rank, q_rank, pc_rank.
    - destruct p; try discriminate. destruct rs; try discriminate. destruct fq; [|discriminate]. destruct cs; [discriminate|].
      injection H as <-. flds. lia.
    - destruct p; try discriminate. destruct cs; [discriminate|].
      destruct rs, fq, fl; try discriminate; injection H as <-; flds; lia.
    - destruct p; try discriminate; injection H as <-; flds; destruct qr, qs; lia.
    - destruct p; try discriminate; destruct rs; try discriminate; (destruct nr; [|discriminate]); injection H as <-; flds; lia.
    - destruct rs; try discriminate.
      destruct (cn || ca || en) eqn:E0; [discriminate|]. rewrite !orb_false_iff in E0. destruct E0 as [[-> ->] ->].
      destruct (nth_error (src ep) nx) eqn:En.
      + assert (nx < length (src ep)) by (apply nth_error_Some; congruence). injection H as <-. flds. lia.
      + destruct (src_end ep); injection H as <-; flds; lia.
    - destruct rs; try discriminate. destruct (negb cn && ca && (lc <? reads)) eqn:E0; [|discriminate]. rewrite !andb_true_iff in E0.
      destruct E0 as [[_ ->] _]. injection H as <-. flds.
      rewrite d_rank_app. cbn [d_rank]. lia.
    - destruct rs; try discriminate. destruct ld; [discriminate|]. destruct cn; [discriminate|]. injection H as <-. flds. lia.
    - destruct rs; try discriminate. destruct cn; [discriminate|]. destruct (take_first _ dl) as [[[j b] dl']|] eqn:Et; [|discriminate]. injection H as <-.
      apply take_first_perm in Et. destruct Et as [P F]. cbn in F. apply andb_true_iff in F. destruct F as [_ F].
      destruct b; [discriminate|]. flds. rewrite (d_rank_perm _ _ P). cbn [d_rank]. lia.
    - destruct rs; try discriminate. destruct (take_first _ dl) as [[[j b] dl']|] eqn:Et; [|discriminate].
      apply take_first_perm in Et. destruct Et as [P F]. cbn in F. apply andb_true_iff in F. destruct F as [_ F]. subst b.
      destruct (nth_error (src ep) i); [|discriminate].
      destruct (decode b); injection H as <-; flds;
        rewrite ?(d_rank_perm _ _ P), ?app_length; cbn [d_rank length]; try lia.
      rewrite orb_true_r. cbn [negb b2n]. lia.
    - destruct rs; try discriminate. destruct cn; [discriminate|]. destruct (take_first _ ob) as [[[j m] ob']|] eqn:Et; [|discriminate]. injection H as <-.
      apply take_first_perm in Et. destruct Et as [P F]. apply Permutation_length in P. cbn [length] in P.
      flds. rewrite app_length. cbn [length]. lia.
    - destruct rs; try discriminate. destruct qr; [discriminate|]. destruct qp; [discriminate|]. destruct cn; [discriminate|]. injection H as <-.
      flds. destruct qs; lia.
    - destruct rs; try discriminate. destruct qr as [[e|]|]; try discriminate. destruct qs; [discriminate|].
      destruct (length fq <? prefetch); [discriminate|]. injection H as <-. flds. lia.
    - destruct rs; try discriminate. destruct qr as [[e|]|]; try discriminate.
      + destruct qs; [discriminate|]. destruct (length fq <? prefetch); [|discriminate]. destruct cn; injection H as <-; flds; lia.
      + injection H as <-. flds. destruct qs; lia.
    - destruct nr; [discriminate|]. injection H as <-. flds. destruct p, cs; lia.
    - destruct rs; try discriminate. destruct (quiet _ _); [|discriminate]. cbn [andb] in H. destruct nr; [|discriminate]. cbn in H.
      injection H as <-. flds. destruct fl; lia.
  Qed.

  Lemma rank_client : forall a s s', internal a = false -> a <> A_reset -> step s a = Some s' -> rank s' <= rank s + 5.
  Proof.
    intros a s s' Ia Na H. destruct s as [ep nx ca en lc ld dl ob on qp qr cn fl rs fq rq by_ p lg nr cs qs].
    destruct a; try discriminate; try congruence; cbn beta iota delta [Model_par.step] in H; destruct p; try discriminate;
      unfold rank, q_rank, pc_rank.
    - destruct rq; injection H as <-; flds; [destruct rs|]; lia.
    - destruct rs; injection H as <-; flds; rewrite ?orb_true_r; cbn [negb b2n]; lia.
  Qed.

  Lemma rank_run : forall l s s', ~ In A_reset l -> exec s l = Some s' -> rank s' + internal_steps l <= rank s + 5 * calls l.
  Proof.
    induction l as [|a l IH]; intros s s' N H.
    - injection H as <-. unfold internal_steps, calls. cbn [filter length]. lia.
    - cbn [Model_par.exec] in H. destruct (step s a) as [s1|] eqn:Es; [|discriminate].
      assert (N' : ~ In A_reset l) by (intros X; apply N; right; exact X).
      specialize (IH _ _ N' H). unfold internal_steps, calls in *. cbn [filter].
      destruct (internal a) eqn:Ia; cbn [negb].
      + pose proof (rank_internal _ _ _ Ia Es). cbn [length]. lia.
      + assert (Na : a <> A_reset) by (intros ->; apply N; left; reflexivity).
        pose proof (rank_client _ _ _ Ia Na Es). cbn [length]. lia.
  Qed.

  Lemma epoch_steps : forall ep l s, ~ In A_reset l -> exec (init ep) l = Some s ->
    internal_steps l <= 11 * length (src ep) + 5 * calls l + 4.
  Proof.
    intros ep l s N H. pose proof (rank_run _ _ _ N H) as R. unfold rank at 2 in R. unfold q_rank, pc_rank, init in R. flds.
    cbn [d_rank] in R. lia.
  Qed.

  (* a running pipeline that is not blocked by a full queue does something *)
  Lemma progress : forall s, inv s -> rstate s = running -> fillq s = [] -> q_sleep s = false ->
    exists a s', internal a = true /\ step s a = Some s'.
  Proof.
    intros s I R F QS. pose proof pre_pos as PP. destruct (quiet reads s) eqn:Q.
    { destruct s as [ep nx ca en lc ld dl ob on qp qr cn fl rs fq rq by_ p lg nr cs qs]. cbn in R. subst rs.
      destruct nr.
      - exists T_done. cbn beta iota delta [Model_par.step]. rewrite Q. cbn. eauto.
      - exists T_notify. cbn beta iota delta [Model_par.step]. eauto. }
    assert (SRC : forall i, In i (map fst (d_list s)) -> exists b, nth_error (src (epoch s)) i = Some b).
    { intros i Hi. destruct (i_perm _ _ _ _ _ _ _ I) as (lost & P & _).
      assert (X : In i (seq (o_next s) (s_next s - o_next s))).
      { eapply Permutation_in; [exact P|]. apply in_or_app. right. apply in_or_app. left. exact Hi. }
      apply in_seq in X. pose proof (i_next _ _ _ _ _ _ _ I). pose proof (i_ord _ _ _ _ _ _ _ I).
      destruct (nth_error (src (epoch s)) i) eqn:En; [eauto|]. apply nth_error_None in En. lia. }
    destruct s as [ep nx ca en lc ld dl ob on qp qr cn fl rs fq rq by_ p lg nr cs qs]. cbn in R, F, SRC, QS. subst rs fq qs.
    unfold quiet in Q. cbn [q_run d_list cancelled s_end s_cached l_count l_decr o_next o_buf q_pend] in Q.
    destruct qr as [[e|]|].
    { exists T_qfinish. cbn beta iota delta [Model_par.step]. cbn [length].
      destruct (0 <? prefetch) eqn:E0; [destruct cn; eauto|]. apply Nat.ltb_ge in E0. lia. }
    { exists T_qfinish. cbn beta iota delta [Model_par.step]. eauto. }
    cbn [andb] in Q. destruct (has snd dl) eqn:Hd.
    { unfold has in Hd. apply existsb_exists in Hd. destruct Hd as ([i b] & Hin & Hb). cbn in Hb. subst b.
      exists (T_dfinish i). cbn beta iota delta [Model_par.step].
      destruct (take_first_some _ (fun m => (fst m =? i) && snd m) dl (i, true) Hin) as ([j b] & r & Et).
      { cbn. rewrite Nat.eqb_refl. reflexivity. }
      rewrite Et. destruct (SRC i) as [b' Eb]. { apply in_map_iff. exists (i, true). auto. }
      rewrite Eb. destruct (decode b'); eauto. }
    cbn [negb andb] in Q. destruct cn; [discriminate|]. cbn [orb] in Q.
    destruct (en || ca) eqn:Es.
    2:{ rewrite orb_false_iff in Es. destruct Es as [-> ->]. exists T_source. cbn beta iota delta [Model_par.step]. cbn [orb].
        destruct (nth_error (src ep) nx); [eauto|]. destruct (src_end ep); eauto. }
    cbn [andb] in Q. destruct (ca && (lc <? reads)) eqn:El.
    { exists T_limit. cbn beta iota delta [Model_par.step]. cbn [negb andb]. rewrite El. eauto. }
    cbn [negb andb] in Q. destruct ld as [|ld].
    2:{ exists T_decr. cbn beta iota delta [Model_par.step]. eauto. }
    cbn [Nat.eqb andb] in Q. destruct dl as [|[i b] dl].
    2:{ exists (T_dstart i). cbn beta iota delta [Model_par.step]. unfold has in Hd. cbn in Hd. apply orb_false_iff in Hd.
        destruct Hd as [-> _]. cbn. rewrite Nat.eqb_refl. cbn. eauto. }
    cbn [length Nat.eqb andb] in Q. destruct (has _ ob) eqn:Ho.
    { unfold has in Ho. apply existsb_exists in Ho. destruct Ho as (m & Hin & Hm).
      destruct (take_first_some _ (fun m => fst m =? on) _ _ Hin Hm) as ([j y] & r & Et).
      exists T_forward. cbn beta iota delta [Model_par.step]. rewrite Et. eauto. }
    cbn [negb andb] in Q. destruct qp as [|m qp]; [discriminate|].
    exists T_qstart. cbn beta iota delta [Model_par.step]. eauto.
  Qed.


  (* where the client's thread is during a call of read_example, and of stop *)
  Definition in_read (p : cpc) : Prop := p = c_wait \/ p = c_notify.
  Definition in_stop (p : cpc) : Prop := p = c_notify_stop \/ p = c_join.

  Lemma read_progress : forall s, inv s -> in_read (pc s) -> exists a s', internal a = true /\ step s a = Some s'.
  Proof.
    intros s I [W|W].
    - destruct (c_sleep s) eqn:CS.
      + destruct (i_csleep _ _ _ _ _ _ _ I CS) as [_ [[R F]|N]].
        * apply progress; auto. destruct (q_sleep s) eqn:QS; [|reflexivity].
          destruct (i_qsleep _ _ _ _ _ _ _ I QS) as [_ [Z|[Z|Z]]]; try congruence.
          rewrite F in Z. pose proof pre_pos. cbn in Z. lia.
        * exists T_notify. destruct s as [ep nx ca en lc ld dl ob on qp qr cn fl rs fq rq by_ p lg nr cs qs]. cbn in N.
          destruct nr; [lia|]. cbn beta iota delta [Model_par.step]. eauto.
      + destruct (i_wait _ _ _ _ _ _ _ I W) as [_ NS]. pose proof (i_faulted _ _ _ _ _ _ _ I) as IF.
        destruct s as [ep nx ca en lc ld dl ob on qp qr cn fl rs fq rq by_ p lg nr cs qs].
        cbn [pc rstate failure fillq c_sleep] in *. subst p cs. destruct rs.
        * congruence.
        * destruct fq; [exists C_sleep|exists C_wake]; cbn beta iota delta [Model_par.step]; eauto.
        * exists C_wake. cbn beta iota delta [Model_par.step]. destruct fq; eauto.
        * exists C_wake. cbn beta iota delta [Model_par.step]. destruct fl; [eauto|]. destruct (IF eq_refl). congruence.
    - exists C_notify. destruct s as [ep nx ca en lc ld dl ob on qp qr cn fl rs fq rq by_ p lg nr cs qs]. cbn in W. subst p.
      cbn beta iota delta [Model_par.step]. eauto.
  Qed.

  Lemma stop_progress : forall s, inv s -> in_stop (pc s) -> exists a s', internal a = true /\ step s a = Some s'.
  Proof.
    intros s I [W|W].
    - exists C_notify. destruct s as [ep nx ca en lc ld dl ob on qp qr cn fl rs fq rq by_ p lg nr cs qs]. cbn in W. subst p.
      cbn beta iota delta [Model_par.step]. eauto.
    - destruct (i_join _ _ _ _ _ _ _ I (or_introl W)) as (_ & _ & F & NS).
      assert (QS : q_sleep s = false).
      { destruct (q_sleep s) eqn:QS; [|reflexivity].
        destruct (i_qsleep _ _ _ _ _ _ _ I QS) as [_ [Z|[Z|Z]]]; try congruence.
        rewrite F in Z. pose proof pre_pos. cbn in Z. lia. }
      destruct (rstate s) eqn:R; [congruence|apply progress; assumption| |];
        (destruct s as [ep nx ca en lc ld dl ob on qp qr cn fl rs fq rq by_ p lg nr cs qs]; cbn in R, W; subst p rs;
         destruct nr; [exists C_join|exists T_notify]; cbn beta iota delta [Model_par.step]; eauto).
  Qed.

  Lemma read_stays : forall a s s', internal a = true -> step s a = Some s' -> in_read (pc s) -> in_read (pc s') \/ pc s' = c_idle.
  Proof.
    intros a s s' Ia H W. destruct s as [ep nx ca en lc ld dl ob on qp qr cn fl rs fq rq by_ p lg nr cs qs]. unfold in_read in *.
    destruct a; try discriminate; cbn beta iota delta [Model_par.step] in H;
      repeat match type of H with
             | (if ?c then _ else _) = _ => destruct c
             | match ?c with _ => _ end = _ => destruct c
             end; try discriminate; injection H as <-; cbn in *; intuition congruence.
  Qed.

  Lemma stop_stays : forall a s s', internal a = true -> step s a = Some s' -> in_stop (pc s) -> in_stop (pc s') \/ pc s' = c_joined.
  Proof.
    intros a s s' Ia H W. destruct s as [ep nx ca en lc ld dl ob on qp qr cn fl rs fq rq by_ p lg nr cs qs]. unfold in_stop in *.
    destruct a; try discriminate; cbn beta iota delta [Model_par.step] in H;
      repeat match type of H with
             | (if ?c then _ else _) = _ => destruct c
             | match ?c with _ => _ end = _ => destruct c
             end; try discriminate; injection H as <-; cbn in *; intuition congruence.
  Qed.

  Lemma inevitable_by_rank : forall (Q : cpc -> Prop) (q : cpc),
    (forall s, inv s -> Q (pc s) -> exists a s', internal a = true /\ step s a = Some s') ->
    (forall a s s', internal a = true -> step s a = Some s' -> Q (pc s) -> Q (pc s') \/ pc s' = q) ->
    forall n s, rank s <= n -> inv s -> Q (pc s) -> inevitable step (fun s' => pc s' = q) s.
  Proof.
    intros Q q HP HS. induction n as [|n IH]; intros s Rk I W; (right; [apply HP; assumption|]);
      intros a s' Ia Es; pose proof (rank_internal _ _ _ Ia Es); [lia|].
    destruct (HS _ _ _ Ia Es W) as [W'|W']; [|left; exact W'].
    apply IH; [lia| |exact W'].
    eapply inv_step; [apply pre_pos|apply reads_pos|exact I|exact Es].
  Qed.

  Lemma read_returns : forall s, reachable s -> pc s = c_wait \/ pc s = c_notify -> inevitable step (fun s' => pc s' = c_idle) s.
  Proof.
    intros s R W. eapply inevitable_by_rank with (Q := in_read) (n := rank s); auto using read_progress, reach_inv.
    exact read_stays.
  Qed.

  Lemma stop_returns : forall s, reachable s -> pc s = c_notify_stop \/ pc s = c_join -> inevitable step (fun s' => pc s' = c_joined) s.
  Proof.
    intros s R W. eapply inevitable_by_rank with (Q := in_stop) (n := rank s); auto using stop_progress, reach_inv.
    exact stop_stays.
  Qed.

  (* C30 *)
  Lemma stopped_is_quiet : forall s, reachable s -> pc s = c_joined ->
    (forall a, internal a = true -> step s a = None) /\ step s A_reset = Some (init (S (epoch s))).
  Proof.
    intros s R W. pose proof (reach_inv _ R) as I. destruct (i_joined _ _ _ _ _ _ _ I W) as (RQ & FQ & NR & NN). split.
    - intros a Ia. destruct s as [ep nx ca en lc ld dl ob on qp qr cn fl rs fq rq by_ p lg nr cs qs]. cbn in NR, NN, W. subst nr p.
      destruct a; try discriminate; cbn beta iota delta [Model_par.step]; try reflexivity; destruct rs; congruence || (try destruct ld; reflexivity).
    - destruct (step s A_reset) as [s'|] eqn:Es.
      + f_equal. eapply reset_init; [exact I|exact Es].
      + destruct s as [ep nx ca en lc ld dl ob on qp qr cn fl rs fq rq by_ p lg nr cs qs]. cbn in W, Es. subst p. discriminate.
  Qed.

  Lemma stop_possible : forall s, pc s = c_idle -> step s A_stop <> None.
  Proof.
    intros s W. destruct s as [ep nx ca en lc ld dl ob on qp qr cn fl rs fq rq by_ p lg nr cs qs]. cbn in W. subst.
    cbn beta iota delta [Model_par.step]. destruct rs; discriminate.
  Qed.
End P.
