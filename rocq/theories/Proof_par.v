From Coq Require Import Permutation.
From Verif Require Import Common Model_par Spec_par.

Lemma take_first_perm : forall X (f : X -> bool) l x r, take_first f l = Some (x, r) -> Permutation l (x :: r) /\ f x = true.
Proof.
  induction l as [|a l IH]; cbn; intros x r H; [discriminate|].
  destruct (f a) eqn:Ef.
  - injection H as <- <-. split; [reflexivity|assumption].
  - destruct (take_first f l) as [[y r']|] eqn:Et; [|discriminate]. injection H as <- <-.
    destruct (IH _ _ eq_refl) as [P Q]. split; [|assumption].
    rewrite P. apply perm_swap.
Qed.

Lemma take_first_some : forall X (f : X -> bool) l x, In x l -> f x = true -> exists y r, take_first f l = Some (y, r).
Proof.
  induction l as [|a l IH]; cbn; intros x [] Hf.
  - subst. rewrite Hf. eauto.
  - destruct (f a); [eauto|]. destruct (IH _ H Hf) as (y & r & ->). eauto.
Qed.

Definition somes {E} (l : list (option E)) : list E := flat_map (fun o => match o with Some e => [e] | None => [] end) l.
Lemma somes_app : forall E (a b : list (option E)), somes (a ++ b) = somes a ++ somes b.
Proof. intros; apply flat_map_app. Qed.

Lemma delivered_app : forall E (a b : list (@out E)), delivered (a ++ b) = delivered a ++ delivered b.
Proof. induction a as [|[]]; cbn; intros; rewrite ?IHa; reflexivity. Qed.

Section P.
  Context {B E : Type} (decode : B -> dres E) (size_bytes : B -> nat).
  Context (src : nat -> list B) (src_end : nat -> option exn) (prefetch reads : nat).
  Hypothesis pre_pos : 1 <= prefetch.
  Hypothesis reads_pos : 1 <= reads.

  Notation st := (@st E).
  Notation step := (step decode size_bytes src src_end prefetch reads).
  Notation exec := (exec decode size_bytes src src_end prefetch reads).
  Notation reachable := (reachable decode size_bytes src src_end prefetch reads).

  (* examples and sizes of the first k batches *)
  Definition exs (bs : list B) : list E := somes (map (fun b => message (decode b)) bs).
  Definition sz (b : B) : nat := match decode b with D_example _ => size_bytes b | _ => 0 end.
  Definition szi (ep i : nat) : nat := match nth_error (src ep) i with Some b => sz b | None => 0 end.
  Fixpoint sum (l : list nat) : nat := match l with [] => 0 | a :: r => a + sum r end.

  Definition good_msg (ep : nat) (m : nat * option E) : Prop :=
    exists b, nth_error (src ep) (fst m) = Some b /\ decodable decode b /\ snd m = message (decode b).

  Definition cached_l (s : st) : list nat := if s_cached s then [s_next s - 1] else [].

  (* a reader that was stopped before it started *)
  Definition init_joined (ep : nat) : st :=
    mk_st ep 0 false false 0 0 [] [] 0 [] None false None not_started [] [] 0 c_joined [] 0 false false.

  Definition log_ok (s : st) : Prop :=
    exists ds tl, log s = map O_example ds ++ tl /\
      (tl = [] \/
       (exists n, tl = repeat O_end (S n)) /\ rstate s = stopped /\ readq s = [] /\ fillq s = [] /\
          ds = exs (src (epoch s)) /\ Forall (decodable decode) (src (epoch s)) /\ src_end (epoch s) = None /\
          bytes s = sum (map sz (src (epoch s))) \/
       (exists n x, tl = repeat (O_error x) (S n) /\ failure s = Some x) /\ rstate s = faulted /\ readq s = []).

  Record inv (s : st) : Prop := mk_inv {
    i_next : s_next s <= length (src (epoch s));
    i_end : s_end s = true -> s_next s = length (src (epoch s)) /\ src_end (epoch s) = None;
    i_ord : o_next s <= s_next s;
    i_perm : exists lost, Permutation (lost ++ map fst (d_list s) ++ map fst (o_buf s) ++ cached_l s)
                            (seq (o_next s) (s_next s - o_next s)) /\ (cancelled s = false -> lost = []);
    i_cached : s_cached s = true -> 1 <= s_next s;
    i_buf : Forall (good_msg (epoch s)) (o_buf s);
    i_dec : Forall (decodable decode) (firstn (o_next s) (src (epoch s)));
    i_data : exists rest, delivered (log s) ++ readq s ++ fillq s ++ rest = exs (firstn (o_next s) (src (epoch s))) /\
                (cancelled s = false -> rest = somes (match q_run s with Some m => [m] | None => [] end ++ q_pend s));
    i_count : length (d_list s) + length (o_buf s) + length (q_pend s) + opt_len (q_run s) + l_decr s <= l_count s;
    i_count_eq : cancelled s = false ->
                length (d_list s) + length (o_buf s) + length (q_pend s) + opt_len (q_run s) + l_decr s = l_count s;
    i_limit : l_count s <= reads;
    i_fill : length (fillq s) <= prefetch;
    i_read : S (length (readq s)) <= prefetch;
    i_fail : forall x, failure s = Some x -> cancelled s = true /\ error_of decode src src_end (epoch s) x;
    i_stop : cancelled s = true -> failure s = None -> pc s = c_notify_stop \/ pc s = c_join \/ pc s = c_joined;
    i_new : rstate s = not_started -> s = init (epoch s) \/ s = init_joined (epoch s);
    i_stopped : rstate s = stopped -> failure s = None /\ quiet reads s = true;
    i_faulted : rstate s = faulted -> failure s <> None /\ quiet reads s = true;
    i_wait : pc s = c_wait -> readq s = [] /\ rstate s <> not_started;
    i_join : pc s = c_join \/ pc s = c_notify_stop -> cancelled s = true /\ readq s = [] /\ fillq s = [] /\ rstate s <> not_started;
    i_joined : pc s = c_joined -> readq s = [] /\ fillq s = [] /\ rstate s <> running /\ n_read s = 0;
    i_bytes : bytes s = sum (map sz (firstn (o_next s) (src (epoch s)))) + sum (map (szi (epoch s)) (map fst (o_buf s)));
    i_qsleep : q_sleep s = true -> (exists e, q_run s = Some (Some e)) /\
                 (prefetch <= length (fillq s) \/ pc s = c_notify \/ pc s = c_notify_stop);
    i_csleep : c_sleep s = true -> pc s = c_wait /\ ((rstate s = running /\ fillq s = []) \/ 1 <= n_read s);
    i_log : log_ok s }.

  Lemma inv_init : forall ep, inv (init ep).
  Proof.
    intros ep. constructor; cbn; try discriminate; try lia; try (intros; discriminate); try (intros [?|?]; discriminate); auto.
    - exists []. split; [reflexivity|auto].
    - exists []. split; [reflexivity|auto].
    - exists [], []. split; [reflexivity|auto].
  Qed.

  Lemma sum_perm : forall a b, Permutation a b -> sum a = sum b.
  Proof. induction 1; cbn; lia. Qed.

  Lemma firstn_S : forall X (l : list X) n x, nth_error l n = Some x -> firstn (S n) l = firstn n l ++ [x].
  Proof.
    induction l as [|a l IH]; destruct n; cbn; intros x H; try discriminate.
    - injection H as ->. reflexivity.
    - f_equal. apply IH. assumption.
  Qed.

  Lemma exs_app : forall a b, exs (a ++ b) = exs a ++ exs b.
  Proof. intros. unfold exs. rewrite map_app, somes_app. reflexivity. Qed.

  Lemma sum_app : forall a b, sum (a ++ b) = sum a + sum b.
  Proof. induction a; cbn; intros; rewrite ?IHa; lia. Qed.

  (* what a quiet pipeline that was not cancelled has done *)
  Lemma quiet_all : forall s, inv s -> quiet reads s = true -> cancelled s = false ->
    o_next s = length (src (epoch s)) /\ o_buf s = [] /\ q_pend s = [] /\ q_run s = None /\ src_end (epoch s) = None.
  Proof.
    intros s I Q C. unfold quiet in Q. rewrite C in Q. cbn [orb] in Q.
    rewrite !andb_true_iff in Q.
    destruct Q as [[Q1 _] [[[[[Q2 Q3] Q4] Q5] Q6] Q7]].
    apply Nat.eqb_eq in Q4, Q5, Q7.
    destruct (d_list s) eqn:Ed; [|discriminate]. destruct (q_pend s) eqn:Ep; [|discriminate].
    destruct (q_run s) eqn:Er; [discriminate|].
    destruct (i_perm _ I) as (lost & P & L). rewrite (L C), Ed in P. cbn [map app] in P.
    pose proof (i_count_eq _ I C) as K. rewrite Ed, Ep, Er, Q4 in K. cbn in K.
    assert (N : s_next s = o_next s).
    { destruct (Nat.eq_dec (s_next s) (o_next s)) as [|N]; [assumption|exfalso].
      pose proof (i_ord _ I).
      assert (X : In (o_next s) (map fst (o_buf s) ++ cached_l s)).
      { eapply Permutation_in; [symmetry; exact P|]. apply in_seq. lia. }
      apply in_app_or in X. destruct X as [X|X].
      - apply in_map_iff in X. destruct X as (m & M1 & M2).
        apply negb_true_iff in Q6. unfold has in Q6. assert (Y : existsb (fun m => fst m =? o_next s) (o_buf s) = true).
        { apply existsb_exists. exists m. split; [assumption|]. apply Nat.eqb_eq; assumption. }
        congruence.
      - unfold cached_l in *. destruct (s_cached s) eqn:Ec; [|destruct X].
        destruct X as [X|[]]. assert (s_next s - o_next s = 1) as Z by lia. rewrite Z in P.
        apply Permutation_length in P. rewrite app_length, map_length in P. cbn in P.
        cbn [andb] in Q3. apply negb_true_iff, Nat.ltb_ge in Q3. lia. }
    rewrite N, Nat.sub_diag in P. cbn [seq] in P. symmetry in P. apply Permutation_nil in P.
    apply app_eq_nil in P. destruct P as [P1 P2]. apply map_eq_nil in P1.
    unfold cached_l in P2. destruct (s_cached s); [discriminate|]. rewrite orb_false_r in Q2.
    destruct (i_end _ I Q2). repeat split; auto; congruence.
  Qed.

  Lemma log_running : forall s, log_ok s -> rstate s = running -> exists ds, log s = map O_example ds.
  Proof.
    intros s (ds & tl & H & D) R. exists ds. destruct D as [->|[(_ & X & _)|(_ & X & _)]]; [|congruence|congruence].
    rewrite H, app_nil_r. reflexivity.
  Qed.
  Lemma log_plain : forall s ds, log s = map O_example ds -> log_ok s.
  Proof. intros s ds H. exists ds, []. rewrite app_nil_r. auto. Qed.

  Ltac opn I :=
    destruct I as [Inext Iend Iord [lost [Iperm Ilost]] Icached Ibuf Idec [rest [Idata Irest]] Icount Icounteq Ilimit Ifill Iread
      Ifail Istop Inew Istopped Ifaulted Iwait Ijoin Ijoined Ibytes Iqsleep Icsleep Ilog];
    cbn [epoch s_next s_cached s_end l_count l_decr d_list o_buf o_next q_pend q_run cancelled failure rstate fillq readq
         bytes pc log n_read c_sleep q_sleep] in *.
  Ltac fin := cbn [epoch s_next s_cached s_end l_count l_decr d_list o_buf o_next q_pend q_run cancelled failure rstate fillq readq
         bytes pc log n_read c_sleep q_sleep cached_l opt_len] in *; try assumption; try (eapply log_plain; eassumption); try (intros; discriminate); try (intros [?|?]; discriminate); try (intros; congruence).
  Ltac start s := destruct s as [ep nx ca en lc ld dl ob on qp qr cn fl rs fq rq by_ p lg nr cs qs].

  Lemma inv_source : forall s s', inv s -> step s T_source = Some s' -> inv s'.
  Proof.
    intros s s' I H. start s. cbn beta iota delta [Model_par.step] in H. destruct rs; try discriminate.
    destruct (cn || ca || en) eqn:E0; [discriminate|]. rewrite !orb_false_iff in E0. destruct E0 as [[-> ->] ->].
    opn I. destruct (log_running _ Ilog eq_refl) as [ds Hds]. cbn in Hds.
    destruct (nth_error (src ep) nx) as [b|] eqn:En.
    - injection H as <-. assert (nx < length (src ep)) by (apply nth_error_Some; congruence).
      constructor; fin; try lia.
      + exists lost. split; [|assumption]. unfold cached_l in *. cbn [s_cached s_next] in *. rewrite app_nil_r in Iperm.
        replace (S nx - on) with ((nx - on) + 1) by lia. rewrite seq_app. cbn [seq].
        replace (S nx - 1) with nx by lia. replace (on + (nx - on)) with nx by lia.
        rewrite !app_assoc. apply Permutation_app_tail. rewrite <- app_assoc. assumption.
      + exists rest. auto.
    - apply nth_error_None in En. destruct (src_end ep) as [x|] eqn:Ee; injection H as <-.
      + constructor; fin; try lia.
        * exists lost. split; [assumption|discriminate].
        * exists rest. split; [assumption|discriminate].
        * intros y [= <-]. split; [reflexivity|left; assumption].
      + constructor; fin; try lia.
        * intros _. split; [lia|assumption].
        * exists lost. auto.
        * exists rest. auto.
  Qed.

  Lemma inv_limit : forall s s', inv s -> step s T_limit = Some s' -> inv s'.
  Proof.
    intros s s' I H. start s. cbn beta iota delta [Model_par.step] in H. destruct rs; try discriminate.
    destruct (negb cn && ca && (lc <? reads)) eqn:E0; [|discriminate]. rewrite !andb_true_iff in E0.
    destruct E0 as [[E1 ->] E2]. apply negb_true_iff in E1. subst cn. apply Nat.ltb_lt in E2. injection H as <-.
    opn I. destruct (log_running _ Ilog eq_refl) as [ds Hds]. cbn in Hds.
    constructor; fin; rewrite ?app_length; cbn [length]; try lia.
    - exists lost. split; [|assumption]. rewrite <- Iperm. unfold cached_l. cbn [s_cached s_next]. rewrite map_app. cbn [map fst].
      apply Permutation_app_head. rewrite app_nil_r, <- app_assoc. apply Permutation_app_head. apply Permutation_app_comm.
    - exists rest. auto.
  Qed.

  Lemma inv_decr : forall s s', inv s -> step s T_decr = Some s' -> inv s'.
  Proof.
    intros s s' I H. start s. cbn beta iota delta [Model_par.step] in H. destruct rs; try discriminate. destruct ld as [|ld]; [discriminate|].
    destruct cn; [discriminate|]. injection H as <-.
    opn I. destruct (log_running _ Ilog eq_refl) as [ds Hds]. cbn in Hds. specialize (Icounteq eq_refl).
    constructor; fin; try lia.
    - exists lost. auto.
    - exists rest. auto.
  Qed.

  Lemma inv_dstart : forall i s s', inv s -> step s (T_dstart i) = Some s' -> inv s'.
  Proof.
    intros i s s' I H. start s. cbn beta iota delta [Model_par.step] in H. destruct rs; try discriminate. destruct cn; [discriminate|].
    destruct (take_first _ dl) as [[[j b] dl']|] eqn:Et; [|discriminate]. injection H as <-.
    apply take_first_perm in Et. destruct Et as [P F]. cbn in F. apply andb_true_iff in F. destruct F as [F _].
    apply Nat.eqb_eq in F. subst j.
    opn I. destruct (log_running _ Ilog eq_refl) as [ds Hds]. cbn in Hds. specialize (Icounteq eq_refl).
    pose proof (Permutation_length P) as Pl. cbn in Pl.
    constructor; fin; cbn [length]; try lia.
    - exists lost. split; [|assumption]. rewrite <- Iperm. apply Permutation_app_head. apply Permutation_app_tail.
      apply (Permutation_map fst) in P. cbn in *. symmetry. exact P.
    - exists rest. auto.
  Qed.

  Lemma inv_dfinish : forall i s s', inv s -> step s (T_dfinish i) = Some s' -> inv s'.
  Proof.
    intros i s s' I H. start s. cbn beta iota delta [Model_par.step] in H. destruct rs; try discriminate.
    destruct (take_first _ dl) as [[[j b] dl']|] eqn:Et; [|discriminate].
    destruct (nth_error (src ep) i) as [bt|] eqn:En; [|discriminate].
    apply take_first_perm in Et. destruct Et as [P F]. cbn in F. apply andb_true_iff in F. destruct F as [F _].
    apply Nat.eqb_eq in F. subst j.
    opn I. destruct (log_running _ Ilog eq_refl) as [ds Hds]. cbn in Hds.
    pose proof (Permutation_length P) as Pl. cbn in Pl.
    apply (Permutation_map fst) in P. cbn [map fst] in P.
    assert (OK : decodable decode bt ->
      inv (mk_st ep nx ca en lc ld dl' (ob ++ [(i, message (decode bt))]) on qp qr cn fl running fq rq
             (by_ + sz bt) p lg nr cs qs)).
    { intros D. constructor; fin; rewrite ?app_length; cbn [length]; try lia.
      - exists lost. split; [|assumption]. rewrite <- Iperm. apply Permutation_app_head. rewrite P.
        rewrite map_app. cbn [map fst]. rewrite <- app_assoc. unfold cached_l; cbn [s_cached s_next app].
        rewrite app_assoc. symmetry. rewrite app_assoc. apply Permutation_middle.
      - apply Forall_app. split; [assumption|]. constructor; [|constructor]. exists bt. auto.
      - exists rest. auto.
      - rewrite !map_app, sum_app. cbn [map fst sum]. unfold szi at 2. rewrite En. lia. }
    destruct (decode bt) as [e| |x] eqn:Ed; injection H as <-.
    - unfold sz in OK. rewrite Ed in OK. apply OK. intros y; congruence.
    - unfold sz in OK. rewrite Ed in OK. apply OK. intros y; congruence.
    - constructor; fin; try lia.
      + exists (i :: lost). split; [|discriminate]. rewrite <- Iperm. rewrite P. cbn [app].
        apply Permutation_middle.
      + exists rest. split; [assumption|discriminate].
      + intros y Hy. split; [reflexivity|]. destruct cn.
        * apply Ifail; assumption.
        * injection Hy as ->. right. exists bt. split; [|assumption]. eapply nth_error_In; eassumption.
      + destruct cn; [|discriminate]. auto.
      + intros X. destruct (Ijoin X) as (_ & Y). split; [reflexivity|exact Y].
  Qed.

  Lemma inv_forward : forall s s', inv s -> step s T_forward = Some s' -> inv s'.
  Proof.
    intros s s' I H. start s. cbn beta iota delta [Model_par.step] in H. destruct rs; try discriminate. destruct cn; [discriminate|].
    destruct (take_first _ ob) as [[[j m] ob']|] eqn:Et; [|discriminate]. injection H as <-.
    apply take_first_perm in Et. destruct Et as [P F]. cbn in F. apply Nat.eqb_eq in F. subst j.
    opn I. destruct (log_running _ Ilog eq_refl) as [ds Hds]. cbn in Hds. specialize (Icounteq eq_refl).
    pose proof (Permutation_length P) as Pl. cbn in Pl.
    pose proof (Permutation_Forall P Ibuf) as Ib. destruct (Forall_inv Ib) as [b [G1 [G2 G3]]].
    pose proof (Forall_inv_tail Ib) as Ib'. cbn in G1, G3.
    apply (Permutation_map fst) in P. cbn [map fst] in P.
    rewrite (Ilost eq_refl) in *. cbn [app] in Iperm.
    assert (Hin : In on (seq on (nx - on))).
    { eapply Permutation_in; [exact Iperm|]. apply in_or_app. right. apply in_or_app. left.
      eapply Permutation_in; [symmetry; exact P|]. left; reflexivity. }
    apply in_seq in Hin.
    constructor; fin; rewrite ?app_length; cbn [length]; try lia.
    - exists []. split; [|reflexivity]. cbn [app].
      apply (Permutation_cons_inv (a := on)).
      replace (nx - on) with (S (nx - S on)) in Iperm by lia. cbn [seq] in Iperm. rewrite <- Iperm.
      transitivity (map fst dl ++ (on :: map fst ob') ++ cached_l (mk_st ep nx ca en lc ld dl ob' (S on) (qp ++ [m]) qr false fl running fq rq by_ p lg nr cs qs)).
      + cbn [app]. apply Permutation_middle.
      + apply Permutation_app_head. unfold cached_l; cbn [s_cached s_next]. apply Permutation_app_tail. symmetry. exact P.
    - rewrite (firstn_S _ _ _ _ G1). apply Forall_app. split; [assumption|]. constructor; [assumption|constructor].
    - exists (rest ++ somes [m]). rewrite (firstn_S _ _ _ _ G1), exs_app, <- Idata. split.
      + rewrite <- !app_assoc. unfold exs. cbn [map]. rewrite G3. reflexivity.
      + intros _. rewrite (Irest eq_refl). rewrite app_assoc, !somes_app. reflexivity.
    - rewrite (firstn_S _ _ _ _ G1), map_app, sum_app. cbn [map sum].
      rewrite Ibytes. rewrite (sum_perm _ _ (Permutation_map (szi ep) P)). cbn [map sum].
      unfold szi at 1. rewrite G1. lia.
  Qed.

  Lemma inv_qstart : forall s s', inv s -> step s T_qstart = Some s' -> inv s'.
  Proof.
    intros s s' I H. start s. cbn beta iota delta [Model_par.step] in H. destruct rs; try discriminate.
    destruct qr; [discriminate|]. destruct qp as [|m qp]; [discriminate|]. destruct cn; [discriminate|]. injection H as <-.
    opn I. destruct (log_running _ Ilog eq_refl) as [ds Hds]. cbn in Hds.
    constructor; fin; cbn [length] in *; try lia.
    - exists lost. auto.
    - exists rest. auto.
    - intros X. destruct (Iqsleep X) as [[e Y] _]. discriminate.
  Qed.

  Lemma inv_qsleep : forall s s', inv s -> step s T_qsleep = Some s' -> inv s'.
  Proof.
    intros s s' I H. start s. cbn beta iota delta [Model_par.step] in H. destruct rs; try discriminate.
    destruct qr as [[e|]|]; try discriminate. destruct qs; [discriminate|].
    destruct (length fq <? prefetch) eqn:El; [discriminate|]. apply Nat.ltb_ge in El. injection H as <-.
    opn I. destruct (log_running _ Ilog eq_refl) as [ds Hds]. cbn in Hds.
    constructor; fin; try lia.
    - exists lost. auto.
    - exists rest. auto.
    - intros _. eauto.
  Qed.

  Lemma inv_notify : forall s s', inv s -> step s T_notify = Some s' -> inv s'.
  Proof.
    intros s s' I H. start s. cbn beta iota delta [Model_par.step] in H. destruct nr as [|nr]; [discriminate|]. injection H as <-.
    opn I. constructor; fin; try lia.
    - exists lost. auto.
    - exists rest. auto.
    - intros R. destruct (Inew R); discriminate.
  Qed.

  Lemma inv_qfinish : forall s s', inv s -> step s T_qfinish = Some s' -> inv s'.
  Proof.
    intros s s' I H. start s. cbn beta iota delta [Model_par.step] in H. destruct rs; try discriminate.
    destruct qr as [[e|]|]; try discriminate.
    - destruct qs; [discriminate|].
      destruct (length fq <? prefetch) eqn:El; [|discriminate]. apply Nat.ltb_lt in El.
      opn I. destruct (log_running _ Ilog eq_refl) as [ds Hds]. cbn in Hds.
      destruct cn; injection H as <-; constructor; fin; try lia.
      + exists lost. auto.
      + exists rest. split; [assumption|discriminate].
      + exists lost. auto.
      + exists (somes qp). split; [|auto]. rewrite <- Idata, (Irest eq_refl), <- !app_assoc. reflexivity.
      + rewrite app_length. cbn. lia.
      + intros X. destruct (Ijoined X) as (_ & _ & Y & _). destruct (Y eq_refl).
      + intros X. split; [apply Icsleep; assumption|]. right. lia.
    - injection H as <-.
      opn I. destruct (log_running _ Ilog eq_refl) as [ds Hds]. cbn in Hds.
      constructor; fin; try lia.
      + exists lost. auto.
      + exists rest. auto.
      + intros X. destruct (Iqsleep X) as [[e Y] _]. discriminate.
  Qed.

  Lemma inv_done : forall s s', inv s -> step s T_done = Some s' -> inv s'.
  Proof.
    intros s s' I H. start s. cbn beta iota delta [Model_par.step] in H. destruct rs; try discriminate.
    destruct (quiet _ _) eqn:Q; [|discriminate]. cbn [andb] in H. destruct (nr =? 0); [|discriminate]. injection H as <-.
    opn I. destruct (log_running _ Ilog eq_refl) as [ds Hds]. cbn in Hds.
    constructor; fin.
    - exists lost. auto.
    - exists rest. auto.
    - destruct fl; discriminate.
    - destruct fl; [discriminate|]. auto.
    - destruct fl; [|discriminate]. split; [discriminate|]. assumption.
    - intros X. split; [apply Iwait; assumption|]. destruct fl; discriminate.
    - intros X. destruct (Ijoin X) as (? & ? & ? & ?). repeat split; auto. destruct fl; discriminate.
    - intros X. destruct (Ijoined X) as (? & ? & Y & _). destruct (Y eq_refl).
    - intros X. split; [apply Icsleep; assumption|]. right. lia.
  Qed.

  Lemma inv_sleep : forall s s', inv s -> step s C_sleep = Some s' -> inv s'.
  Proof.
    intros s s' I H. start s. cbn beta iota delta [Model_par.step] in H. destruct p; try discriminate. destruct rs; try discriminate.
    destruct fq; [|discriminate]. destruct cs; [discriminate|]. injection H as <-.
    opn I. constructor; fin; try lia.
    - exists lost. auto.
    - exists rest. auto.
    - auto.
  Qed.

  Lemma inv_cnotify : forall s s', inv s -> step s C_notify = Some s' -> inv s'.
  Proof.
    intros s s' I H. start s. cbn beta iota delta [Model_par.step] in H.
    destruct p; try discriminate; injection H as <-; opn I; constructor; fin; try lia.
    - exists lost. auto.
    - exists rest. auto.
    - intros C N. destruct (Istop C N) as [|[|]]; discriminate.
    - intros R. destruct (Inew R); discriminate.
    - intros X. destruct (Icsleep X); discriminate.
    - exists lost. auto.
    - exists rest. auto.
    - auto.
    - intros R. destruct (Inew R); discriminate.
    - auto.
    - intros X. destruct (Icsleep X); discriminate.
  Qed.

  Lemma inv_read : forall s s', inv s -> step s A_read = Some s' -> inv s'.
  Proof.
    intros s s' I H. start s. cbn beta iota delta [Model_par.step] in H. destruct p; try discriminate.
    destruct rq as [|e rq]; injection H as <-.
    - assert (Q : rs = not_started -> mk_st ep nx ca en lc ld dl ob on qp qr cn fl rs fq [] by_ c_idle lg nr cs qs = init ep).
      { intros R. destruct (i_new _ I R) as [X|X]; [exact X|discriminate X]. }
      opn I.
      constructor; fin.
      + exists lost. auto.
      + exists rest. auto.
      + intros C N. destruct (Istop C N) as [|[|]]; discriminate.
      + destruct rs; discriminate.
      + destruct rs; try discriminate. auto.
      + destruct rs; try discriminate. auto.
      + intros _. split; [reflexivity|]. destruct rs; discriminate.
      + intros X. destruct (Iqsleep X) as [Y [Z|[Z|Z]]]; try discriminate. auto.
      + destruct Ilog as (ds & tl & L & D). cbn in *. exists ds, tl. cbn. split; [assumption|].
        destruct D as [D|[(D1 & -> & D2)|(D1 & -> & D2)]]; auto.
    - opn I.
      constructor; fin; cbn [length] in *; try lia.
      + exists lost. auto.
      + exists rest. split; [|assumption]. rewrite delivered_app. cbn [delivered]. rewrite <- app_assoc. exact Idata.
      + intros R. destruct (Inew R) as [X|X]; discriminate X.
      + destruct Ilog as (ds & tl & L & D). cbn in *.
        destruct D as [->|[(_ & _ & X & _)|(_ & _ & X)]]; try discriminate X.
        eapply (log_plain _ (ds ++ [e])). cbn. rewrite L, app_nil_r, map_app. reflexivity.
  Qed.

  Lemma delivered_map : forall ds, delivered (map (@O_example E) ds) = ds.
  Proof. induction ds; cbn; congruence. Qed.
  Lemma delivered_end : forall n, delivered (repeat (@O_end E) n) = [].
  Proof. induction n; cbn; congruence. Qed.
  Lemma repeat_snoc : forall X (x : X) n, repeat x n ++ [x] = repeat x (S n).
  Proof. induction n; cbn in *; congruence. Qed.

  Lemma inv_wake : forall s s', inv s -> step s C_wake = Some s' -> inv s'.
  Proof.
    intros s s' I H.
    assert (QA : quiet reads s = true -> cancelled s = false -> _) by (exact (quiet_all s I)).
    start s. cbn beta iota delta [Model_par.step] in H. destruct p; try discriminate. destruct cs; [discriminate|].
    opn I. destruct (Iwait eq_refl) as [-> NS].
    assert (NC : fl = None -> cn = false).
    { intros ->. destruct cn; [|reflexivity]. destruct (Istop eq_refl eq_refl) as [|[|]]; discriminate. }
    assert (EX : forall e fq', fq = e :: fq' -> rs <> faulted ->
       inv (mk_st ep nx ca en lc ld dl ob on qp qr cn fl rs [] fq' by_ c_notify (lg ++ [O_example e]) nr false qs)).
    { intros e fq' -> NF. cbn [length] in *. constructor; fin; cbn [length]; try lia.
      - exists lost. auto.
      - exists rest. split; [|assumption]. rewrite delivered_app. cbn [delivered]. rewrite <- app_assoc. exact Idata.
      - intros X. split; [apply Iqsleep; assumption|auto].
      - destruct Ilog as (ds & tl & L & D). cbn in *.
        destruct D as [->|[(_ & _ & _ & X & _)|(_ & X & _)]]; try congruence.
        eapply (log_plain _ (ds ++ [e])). cbn. rewrite L, app_nil_r, map_app. reflexivity. }
    destruct rs; try congruence.
    - destruct fq as [|e fq]; [discriminate|]. injection H as <-. apply EX; congruence.
    - destruct fq as [|e fq].
      2:{ injection H as <-. apply EX; congruence. }
      injection H as <-. destruct (Istopped eq_refl) as [-> Q]. specialize (NC eq_refl). subst cn.
      destruct (QA Q eq_refl) as (N & -> & -> & -> & SE). cbn in N. subst on.
      rewrite firstn_all in *. rewrite (Irest eq_refl) in Idata. cbn in Idata, Ibytes. rewrite app_nil_r in Idata.
      constructor; fin; cbn [length]; rewrite ?firstn_all; auto.
      + exists lost. auto.
      + exists []. split; [|reflexivity]. rewrite delivered_app. cbn [delivered app]. rewrite !app_nil_r. exact Idata.
      + intros X. split; [apply Iqsleep; assumption|auto].
      + destruct Ilog as (ds & tl & L & D). cbn in L, D. exists ds, (tl ++ [O_end]). cbn.
        split; [rewrite L, app_assoc; reflexivity|]. right. left.
        assert (X : (exists n, tl = repeat O_end n) /\ ds = exs (src ep)).
        { destruct D as [->|[([n ->] & _ & _ & _ & D & _)|(_ & X & _)]]; [| |discriminate].
          - split; [exists 0; reflexivity|]. rewrite L, app_nil_r, delivered_map in Idata. assumption.
          - split; [exists (S n); reflexivity|assumption]. }
        destruct X as [[n ->] ->]. repeat split; auto; try lia.
        exists n. apply repeat_snoc.
    - destruct fl as [x|]; [|discriminate]. injection H as <-.
      destruct Ilog as (ds & tl & L & D). cbn in L, D.
      constructor; fin; try lia.
      + exists lost. auto.
      + exists rest. split; [|assumption]. rewrite delivered_app. cbn [delivered]. rewrite app_nil_r. exact Idata.
      + intros X. destruct (Iqsleep X) as [[e Y] _]. subst qr. destruct (Ifaulted eq_refl) as [_ Q]. discriminate Q.
      + exists ds, (tl ++ [O_error x]). cbn. split; [rewrite L, app_assoc; reflexivity|]. right. right.
        split; [|auto].
        destruct D as [->|[(_ & X & _)|([n [y [-> Y]]] & _)]]; [|discriminate|].
        * exists 0, x. auto.
        * injection Y as <-. exists (S n), x. split; [exact (repeat_snoc _ (O_error x) (S n))|reflexivity].
  Qed.

  Lemma quiet_cancel : forall ep nx ca en lc ld dl ob on qp qr cn fl rs fq rq by_ p lg nr cs qs fq' rq' p',
    quiet reads (mk_st (E := E) ep nx ca en lc ld dl ob on qp qr cn fl rs fq rq by_ p lg nr cs qs) = true ->
    quiet reads (mk_st ep nx ca en lc ld dl ob on qp qr true fl rs fq' rq' by_ p' lg nr cs qs) = true.
  Proof. intros *. unfold quiet. cbn. rewrite !andb_true_iff. tauto. Qed.

  Lemma inv_stop : forall s s', inv s -> step s A_stop = Some s' -> inv s'.
  Proof.
    intros s s' I H.
    start s. cbn beta iota delta [Model_par.step] in H. destruct p; try discriminate.
    destruct (match rs with not_started => true | _ => false end) eqn:NS.
    - destruct rs; try discriminate. injection H as <-. destruct (i_new _ I eq_refl) as [X|X]; [|discriminate X]. unfold init in X.
      cbn [epoch] in X. injection X as -> -> -> -> -> -> -> -> -> -> -> -> -> -> -> -> -> -> ->.
      opn I. constructor; fin; auto.
      + exists []. cbn. auto.
      + exists []. auto.
      + intros _. repeat split; congruence.
    - assert (Hs : s' = mk_st ep nx ca en lc ld dl ob on qp qr true fl rs [] [] by_ c_notify_stop lg nr cs qs) by (destruct rs; congruence).
      subst s'. clear H. opn I.
      constructor; fin; cbn [length]; try lia.
      + exists lost. split; [assumption|discriminate].
      + exists (rq ++ fq ++ rest). split; [assumption|discriminate].
      + intros x Hx. split; [reflexivity|]. apply Ifail. assumption.
      + auto.
      + intros ->. discriminate.
      + intros R. destruct (Istopped R). split; [assumption|]. eapply quiet_cancel; eassumption.
      + intros R. destruct (Ifaulted R). split; [assumption|]. eapply quiet_cancel; eassumption.
      + intros _. repeat split; auto. intros ->; discriminate.
      + intros X. split; [apply Iqsleep; assumption|auto].
      + intros X. destruct (Icsleep X); discriminate.
      + destruct Ilog as (ds & tl & L & D). cbn in *. exists ds, tl. cbn. split; [assumption|].
        destruct D as [D|[(D1 & D2 & D3 & D4 & D5)|(D1 & D2 & D3)]]; auto.
        right. left. repeat split; auto; tauto.
  Qed.

  Lemma inv_join : forall s s', inv s -> step s C_join = Some s' -> inv s'.
  Proof.
    intros s s' I H. start s. cbn beta iota delta [Model_par.step] in H. destruct p; try discriminate.
    assert (Hs : s' = mk_st ep nx ca en lc ld dl ob on qp qr cn fl rs fq rq by_ c_joined lg nr cs qs /\ rs <> running /\ rs <> not_started /\ nr = 0)
      by (destruct rs, nr; try discriminate; repeat split; congruence).
    destruct Hs as (-> & R1 & R2 & R3). clear H. opn I.
    constructor; fin.
    - exists lost. auto.
    - exists rest. auto.
    - auto.
    - intros _. destruct (Ijoin (or_introl eq_refl)) as (_ & ? & ? & _). auto.
    - intros X. destruct (Iqsleep X) as [Y [Z|[Z|Z]]]; try discriminate. auto.
    - intros X. destruct (Icsleep X); discriminate.
  Qed.

  Lemma reset_init : forall s s', inv s -> step s A_reset = Some s' -> s' = init (S (epoch s)).
  Proof.
    intros s s' I H. start s. cbn beta iota delta [Model_par.step] in H. destruct p; try discriminate. injection H as <-.
    pose proof (i_joined _ I eq_refl) as (F1 & F2 & F3 & F4). cbn in F1, F2, F3, F4. subst.
    assert (qs = false) as ->.
    { destruct qs; [|reflexivity]. destruct (i_qsleep _ I eq_refl) as [[e Y] _]. cbn in Y. subst qr.
      destruct rs; try congruence.
      - destruct (i_new _ I eq_refl); discriminate.
      - destruct (i_stopped _ I eq_refl) as [_ Q]. discriminate Q.
      - destruct (i_faulted _ I eq_refl) as [_ Q]. discriminate Q. }
    destruct cs; [|reflexivity]. destruct (i_csleep _ I eq_refl). discriminate.
  Qed.

  Lemma inv_step : forall a s s', inv s -> step s a = Some s' -> inv s'.
  Proof.
    intros [] s s' I H; try (rewrite (reset_init _ _ I H); apply inv_init).
    - eapply inv_read; eassumption.
    - eapply inv_stop; eassumption.
    - eapply inv_sleep; eassumption.
    - eapply inv_wake; eassumption.
    - eapply inv_cnotify; eassumption.
    - eapply inv_join; eassumption.
    - eapply inv_source; eassumption.
    - eapply inv_limit; eassumption.
    - eapply inv_decr; eassumption.
    - eapply inv_dstart; eassumption.
    - eapply inv_dfinish; eassumption.
    - eapply inv_forward; eassumption.
    - eapply inv_qstart; eassumption.
    - eapply inv_qsleep; eassumption.
    - eapply inv_qfinish; eassumption.
    - eapply inv_notify; eassumption.
    - eapply inv_done; eassumption.
  Qed.

  Lemma inv_exec : forall l s s', inv s -> exec s l = Some s' -> inv s'.
  Proof.
    induction l as [|a l IH]; cbn; intros s s' I H; [congruence|].
    destruct (step s a) as [s1|] eqn:Es; [|discriminate]. eapply IH; [|eassumption]. eapply inv_step; eassumption.
  Qed.

  Lemma inv_reachable : forall s, reachable s -> inv s.
  Proof. intros s [l H]. eapply inv_exec; [apply inv_init|exact H]. Qed.
End P.
