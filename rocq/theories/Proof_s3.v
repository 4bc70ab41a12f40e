(* Proofs about S3 objects read while they are written, and about clients. *)
From Verif Require Import Common Model_s3 Spec_s3.

Lemma text_eqb_iff a b : text_eqb a b = true <-> a = b.
Proof. unfold text_eqb. destruct (list_eq_dec N.eq_dec a b); split; intros; congruence. Qed.

Lemma error_reported e : reported e (error_code e).
Proof. destruct e; constructor. Qed.

(* ---------------- the world ---------------- *)

Lemma known_in w id : known w id = true <-> In id (map fst w).
Proof.
  unfold known. rewrite existsb_exists, in_map_iff. split.
  - intros [p [Hp E]]. apply text_eqb_iff in E. exists p; auto.
  - intros [p [E Hp]]. exists p; split; [exact Hp|]. apply text_eqb_iff; exact E.
Qed.

Lemma put_nodup w id e : NoDup (map fst w) -> NoDup (map fst (put w id e)).
Proof.
  intros H. unfold put. destruct (known w id) eqn:K; [exact H|]. cbn [map fst]. constructor; [|exact H].
  intros C. apply known_in in C. congruence.
Qed.

Lemma filter_nodup (f : text * entry -> bool) w : NoDup (map fst w) -> NoDup (map fst (filter f w)).
Proof.
  induction w as [|p w IH]; intros H; [exact H|]. cbn in H. inversion H; subst. cbn [filter].
  destruct (f p); [|exact (IH H3)]. cbn [map]. constructor; [|exact (IH H3)].
  intros C. apply H2. apply in_map_iff in C. destruct C as [q [E Q]]. apply filter_In in Q. apply in_map_iff. exists q. tauto.
Qed.

Lemma find_version w v c : NoDup (map fst w) -> In (v, Content c) w ->
  find (fun p => text_eqb (fst p) v) w = Some (v, Content c).
Proof.
  induction w as [|[i e] w IH]; intros N I; [destruct I|]. cbn in N. inversion N; subst. cbn [find fst].
  destruct (text_eqb i v) eqn:E.
  - apply text_eqb_iff in E. subst i. destruct I as [I|I]; [rewrite I; reflexivity|].
    exfalso. apply H1. apply in_map_iff. exists (v, Content c); auto.
  - destruct I as [I|I]; [|exact (IH H2 I)]. injection I as -> ->.
    assert (text_eqb v v = true) by (apply text_eqb_iff; reflexivity). congruence.
Qed.

Lemma version_lookup w v c : version w v c -> lookup w v = inr c.
Proof.
  intros [V [I N]]. unfold lookup. destruct v as [|a v]; [congruence|]. rewrite (find_version w (a :: v) c N I). reflexivity.
Qed.

Lemma newest_lookup w v c : newest w v c -> lookup w [] = inr c.
Proof. intros [_ [older ->]]. reflexivity. Qed.

Definition keeps (v : text) (s : step) : Prop := s <> W_remove v.

Lemma version_step v c s w : keeps v s -> version w v c -> version (world_step s w) v c.
Proof.
  intros K [V [I N]]. split; [exact V|]. destruct s; cbn [world_step]; auto.
  - split; [|apply put_nodup; exact N]. unfold put. destruct (known w id); [exact I|right; exact I].
  - split; [|apply put_nodup; exact N]. unfold put. destruct (known w id); [exact I|right; exact I].
  - split; [|apply filter_nodup; exact N]. apply filter_In. split; [exact I|]. cbn [fst].
    destruct (text_eqb v id) eqn:E; [|reflexivity]. apply text_eqb_iff in E. subst id. exfalso; apply K; reflexivity.
Qed.

Lemma newest_step v c s w : quiet v s -> newest w v c -> newest (world_step s w) v c.
Proof.
  intros K [N [older E]]. destruct s; cbn [world_step quiet] in *; try (split; [exact N|exists older; exact E]); try tauto.
  split; [apply filter_nodup; exact N|]. subst w. cbn [filter fst].
  assert (text_eqb v id = false) as -> by (destruct (text_eqb v id) eqn:E; [apply text_eqb_iff in E; congruence|reflexivity]).
  cbn [negb]. eexists; reflexivity.
Qed.

(* ---------------- reading ---------------- *)

Lemma read_object_ok w v c off n :
  lookup w v = inr c -> (off < N.of_nat (length c))%N -> (off + n < 2 ^ 64)%N ->
  read_object w v off n None = R_ok (firstn (N.to_nat n) (skipn (N.to_nat off) c)).
Proof.
  intros L Ho Hn. unfold read_object, answer_body, svc_get. rewrite L, (N.mod_small _ _ Hn).
  destruct (off + n <? off)%N eqn:E1; [apply N.ltb_lt in E1; lia|].
  destruct (N.of_nat (length c) <=? off)%N eqn:E2; [apply N.leb_le in E2; lia|].
  rewrite firstn_firstn. f_equal. f_equal. lia.
Qed.

Section Run.
  Variable v : text.
  Variable content : list byte.
  Variable J : object -> Prop.
  Variable allowed : step -> Prop.
  Hypothesis Jlook : forall w, J w -> lookup w v = inr content.
  Hypothesis Jstep : forall s w, allowed s -> J w -> J (world_step s w).
  Hypothesis Len : (N.of_nat (length content) < 2 ^ 64)%N.

  Lemma run_sees : forall l w pos closed, Forall allowed l -> J w -> (pos <= N.of_nat (length content))%N ->
    sees content pos closed l (run l w (mk_stream v (N.of_nat (length content)) pos closed)).
  Proof.
    induction l as [|s l IH]; intros w pos closed Fa Hw Hp; [constructor|]. inversion Fa as [|? ? A Fl]; subst.
    cbn [run]. destruct s; cbn [call x_closed x_pos x_size x_version].
    - destruct closed; [constructor; apply IH; assumption|].
      destruct (n =? 0)%N eqn:E0.
      + apply N.eqb_eq in E0. cbn [orb]. subst n.
        apply sees_read with (rest := skipn (N.to_nat pos) content); auto; try (cbn; lia).
        replace (pos + N.of_nat (@length byte []))%N with pos by (cbn; lia). apply IH; assumption.
      + destruct (pos =? N.of_nat (length content))%N eqn:E1.
        * apply N.eqb_eq in E1. cbn [orb].
          apply sees_read with (rest := []); auto; try (cbn; lia).
          -- subst pos. rewrite Nat2N.id, skipn_all. reflexivity.
          -- replace (pos + N.of_nat (@length byte []))%N with pos by (cbn; lia). apply IH; assumption.
        * apply N.eqb_neq in E0. apply N.eqb_neq in E1. cbn [orb]. destruct fault as [e|].
          -- unfold read_object, answer_body, svc_get.
             apply sees_fault; auto using error_reported.
          -- rewrite (read_object_ok w v content) by (auto; lia).
             set (m := N.to_nat (N.min (N.of_nat (length content) - pos) n)).
             assert (Lm : length (firstn m (skipn (N.to_nat pos) content)) = m)
               by (rewrite firstn_length, skipn_length; unfold m; lia).
             apply sees_read with (rest := skipn m (skipn (N.to_nat pos) content)); auto.
             ++ symmetry; apply firstn_skipn.
             ++ rewrite Lm. unfold m. lia.
             ++ rewrite Lm. intros H. apply length_zero_iff_nil. rewrite !skipn_length. unfold m in *. lia.
             ++ apply IH; auto. rewrite Lm. unfold m. lia.
    - destruct closed; [constructor; apply IH; assumption|].
      destruct (N.of_nat (length content) <? p)%N eqn:E.
      + apply N.ltb_lt in E. apply sees_far; auto.
      + apply N.ltb_ge in E. apply sees_seek; auto.
    - constructor. apply IH; assumption.
    - constructor. apply IH; assumption.
    - constructor. apply IH; assumption.
    - constructor. apply IH; [assumption|apply (Jstep (W_put id c)); assumption|assumption].
    - constructor. apply IH; [assumption|apply (Jstep (W_delete id)); assumption|assumption].
    - constructor. apply IH; [assumption|apply (Jstep (W_remove id)); assumption|assumption].
  Qed.
End Run.

Lemma open_ok w v c : lookup w v = inr c -> open_stream w v None = R_ok (mk_stream v (N.of_nat (length c)) 0 false).
Proof. intros L. unfold open_stream, read_object_size, svc_head. rewrite L. reflexivity. Qed.

Lemma C81_version_l w v content l :
  version w v content -> ~ In (W_remove v) l -> (N.of_nat (length content) < 2 ^ 64)%N ->
  exists x, open_stream w v None = R_ok x /\ sees content 0 false l (run l w x).
Proof.
  intros V NR Len. eexists. split; [apply open_ok; apply version_lookup; exact V|].
  apply (run_sees v content (fun w => version w v content) (keeps v)).
  - intros; apply version_lookup; assumption.
  - intros; apply version_step; assumption.
  - exact Len.
  - apply Forall_forall. intros s Hs E. subst s. contradiction.
  - exact V.
  - lia.
Qed.

Lemma C81_newest_l w v content l :
  newest w v content -> Forall (quiet v) l -> (N.of_nat (length content) < 2 ^ 64)%N ->
  exists x, open_stream w [] None = R_ok x /\ sees content 0 false l (run l w x).
Proof.
  intros V NR Len. eexists. split; [apply open_ok; eapply newest_lookup; exact V|].
  apply (run_sees [] content (fun w => newest w v content) (quiet v)).
  - intros; eapply newest_lookup; eassumption.
  - intros; apply newest_step; assumption.
  - exact Len.
  - exact NR.
  - exact V.
  - lia.
Qed.

(* ---------------- clients ---------------- *)

Lemma is_empty_iff t : is_empty t = true <-> t = [].
Proof. destruct t; cbn; split; congruence. Qed.

Lemma given_ok t : given t (if is_empty t then None else Some t).
Proof. destruct t; cbn; [left|right]; split; congruence. Qed.

Lemma client_with_keys flag q : ~ without_keys q ->
  exists k, make_client flag q = (flag, Ok k) /\ proper_client q k /\ keys_given q (fst k).
Proof.
  intros H. unfold make_client.
  destruct (is_empty (o_access_key (q_options q)) && is_empty (o_secret_key (q_options q))) eqn:E.
  - apply andb_true_iff in E. destruct E as [A B]. apply is_empty_iff in A. apply is_empty_iff in B.
    exfalso; apply H; split; assumption.
  - eexists. split; [reflexivity|]. unfold proper_client, keys_given. cbn [fst snd cfg_profile cfg_region cfg_https].
    repeat split; auto using given_ok.
Qed.

Lemma client_without_keys flag q : without_keys q ->
  make_client flag q =
    if flag then (true, UB) else if q_throws q then (false, Throw Other_err)
    else (true, Ok (q_found q, mk_config (if is_empty (o_profile (q_options q)) then None else Some (o_profile (q_options q)))
                                         (if is_empty (o_region (q_options q)) then None else Some (o_region (q_options q)))
                                         (o_https (q_options q)))).
Proof.
  intros [A B]. unfold make_client, default_credentials. rewrite A, B. cbn [is_empty andb].
  destruct flag; [reflexivity|]. destruct (q_throws q); reflexivity.
Qed.

Lemma without_dec q : {without_keys q} + {~ without_keys q}.
Proof.
  unfold without_keys. destruct (o_access_key (q_options q)), (o_secret_key (q_options q)).
  - left; auto.
  - right; intros [_ H]; discriminate.
  - right; intros [H _]; discriminate.
  - right; intros [H _]; discriminate.
Qed.

(* The answers of a process that makes at most one client from the default credentials. *)
Definition fine (q : request) (r : res (credentials * config)) : Prop :=
  (exists k, r = Ok k /\ proper_client q k) \/ (without_keys q /\ q_throws q = true /\ r = Throw Other_err).

Lemma keyed_fine : forall l flag, Forall (fun q => ~ without_keys q) l -> Forall2 fine l (make_clients flag l).
Proof.
  induction l as [|q l IH]; intros flag H; [constructor|]. inversion H; subst. cbn [make_clients].
  destruct (client_with_keys flag q H2) as [k [E [P _]]]. rewrite E. constructor; [left; exists k; auto|apply IH; assumption].
Qed.

Lemma clients_fine : forall l,
  (forall a q b, l = a ++ q :: b -> without_keys q -> q_throws q = false -> Forall (fun p => ~ without_keys p) b) ->
  Forall2 fine l (make_clients false l).
Proof.
  induction l as [|q l IH]; intros H; [constructor|].
  assert (Hl : forall a p b, l = a ++ p :: b -> without_keys p -> q_throws p = false -> Forall (fun p => ~ without_keys p) b).
  { intros a p b E. apply (H (q :: a) p b). rewrite E. reflexivity. }
  cbn [make_clients]. destruct (without_dec q) as [W|W].
  - rewrite (client_without_keys false q W). destruct (q_throws q) eqn:T.
    + constructor; [right; auto|apply IH; exact Hl].
    + constructor.
      * left. eexists. split; [reflexivity|]. unfold proper_client. cbn [fst snd cfg_profile cfg_region cfg_https].
        repeat split; auto using given_ok.
      * apply keyed_fine. apply (H [] q l eq_refl W T).
  - destruct (client_with_keys false q W) as [k [E [P _]]]. rewrite E. constructor; [left; exists k; auto|apply IH; exact Hl].
Qed.

Lemma second_ub : forall l1 q l2 p l3,
  Forall (fun p => ~ without_keys p) l1 -> Forall (fun p => ~ without_keys p) l2 ->
  without_keys q -> q_throws q = false -> without_keys p ->
  exists rs, make_clients false (l1 ++ q :: l2 ++ p :: l3) = rs ++ [UB] /\ length rs = length l1 + 1 + length l2.
Proof.
  assert (K : forall l flag t, Forall (fun p => ~ without_keys p) l ->
            exists rs, make_clients flag (l ++ t) = rs ++ make_clients flag t /\ length rs = length l).
  { induction l as [|q l IH]; intros flag t H; [exists []; auto|]. inversion H; subst.
    destruct (client_with_keys flag q H2) as [k [E _]]. destruct (IH flag t H3) as [rs [E2 L]].
    exists (Ok k :: rs). cbn [app make_clients]. rewrite E, E2. cbn [length app]. auto. }
  intros l1 q l2 p l3 F1 F2 Wq T Wp.
  destruct (K l1 false (q :: l2 ++ p :: l3) F1) as [r1 [E1 L1]].
  destruct (K l2 true (p :: l3) F2) as [r2 [E2 L2]].
  rewrite E1. cbn [make_clients]. rewrite (client_without_keys false q Wq), T, E2. cbn [make_clients].
  rewrite (client_without_keys true p Wp).
  eexists (r1 ++ _ :: r2). split; [rewrite <- app_assoc; reflexivity|].
  rewrite app_length. cbn [length]. lia.
Qed.

(* ---------------- the answers are determined ---------------- *)

Lemma reported_det e c d : reported e c -> reported e d -> c = d.
Proof. intros A B. destruct A; inversion B; reflexivity. Qed.

Lemma prefix_det (bs cs r t : list byte) (n : N) :
  bs ++ r = cs ++ t -> (N.of_nat (length bs) <= n)%N -> (N.of_nat (length cs) <= n)%N ->
  ((N.of_nat (length bs) < n)%N -> r = []) -> ((N.of_nat (length cs) < n)%N -> t = []) -> bs = cs.
Proof.
  intros E B C HB HC.
  assert (L : length bs = length cs).
  { assert (LL := f_equal (@length byte) E). rewrite !app_length in LL.
    destruct (N.eq_dec (N.of_nat (length bs)) n) as [X|X], (N.eq_dec (N.of_nat (length cs)) n) as [Y|Y].
    - lia.
    - rewrite HC in LL by lia. cbn in LL. lia.
    - rewrite HB in LL by lia. cbn in LL. lia.
    - rewrite HB, HC in LL by lia. cbn in LL. lia. }
  apply (f_equal (firstn (length bs))) in E. rewrite firstn_app, Nat.sub_diag, firstn_all in E. cbn [firstn] in E.
  rewrite app_nil_r in E. rewrite E, L, firstn_app, Nat.sub_diag, firstn_all. cbn [firstn]. apply app_nil_r.
Qed.

Lemma sees_det content : forall l pos closed r1 r2,
  sees content pos closed l r1 -> sees content pos closed l r2 -> r1 = r2.
Proof.
  intros l pos closed r1 r2 H. revert r2. induction H; intros r2 K; inversion K; subst; try congruence;
    try (f_equal; auto; fail); try lia.
  - assert (bs = bs0) as <- by (eapply prefix_det; [rewrite <- H0; eassumption|eassumption..]). f_equal. auto.
  - exfalso. destruct H as [X|[X|X]]; [discriminate|contradiction|contradiction].
  - exfalso. match goal with X : Some _ = None \/ _ |- _ => destruct X as [X|[X|X]]; [discriminate|contradiction|contradiction] end.
  - f_equal; [|auto]. f_equal. eapply reported_det; eassumption.
Qed.
