(* Proofs about the state of the process. *)
From Verif Require Import Common Model_proc Spec_proc.
From Coq Require Import Lia Bool Arith.

Lemma snoc_split {A} (h : list A) x a y b : h ++ [x] = a ++ y :: b -> (b = [] /\ a = h /\ y = x) \/ (exists b', b = b' ++ [x] /\ h = a ++ y :: b').
Proof.
  destruct b as [|z b _] using rev_ind; intro E.
  - apply app_inj_tail in E. destruct E as (-> & ->). left. auto.
  - right. exists b. change (y :: b ++ [z]) with ((y :: b) ++ [z]) in E. rewrite app_assoc in E. apply app_inj_tail in E. destruct E as (-> & ->). auto.
Qed.

Lemma up_snoc h o : up (h ++ [o]) <-> o = Initialize_aws \/ (o <> Deallocate_aws /\ up h).
Proof.
  split.
  - intros (a & b & E & N). apply snoc_split in E. destruct E as [(_ & _ & E) | (b' & -> & ->)]; [left; auto|].
    right. split.
    + intros ->. apply N. apply in_or_app. right. left. reflexivity.
    + exists a, b'. split; auto. intro I. apply N. apply in_or_app. auto.
  - intros [-> | (N & a & b & -> & I)].
    + exists h, []. split; auto.
    + exists a, (b ++ [o]). split; [rewrite <- app_assoc; reflexivity|]. intro J. apply in_app_or in J. destruct J as [J|[->|[]]]; auto.
Qed.

Lemma up_nil : ~ up [].
Proof. intros (a & b & E & _). destruct a; discriminate. Qed.

Lemma made_snoc h o : made (h ++ [o]) = (made h + if is_make o then 1 else 0)%nat.
Proof. unfold made. rewrite filter_app, app_length. cbn. destruct (is_make o); reflexivity. Qed.

Lemma usable_snoc h o k : usable (h ++ [o]) k <->
  (is_make o = true /\ k = made h) \/ (o <> Deallocate_aws /\ o <> Drop_client k /\ usable h k).
Proof.
  split.
  - intros (a & d & b & E & M & N1 & N2). apply snoc_split in E. destruct E as [(_ & -> & <-) | (b' & -> & ->)].
    + left. cbn. auto.
    + right. repeat split.
      * intros ->. apply N1, in_or_app. right. left. reflexivity.
      * intros ->. apply N2, in_or_app. right. left. reflexivity.
      * exists a, d, b'. repeat split; auto; intro I; [apply N1|apply N2]; apply in_or_app; auto.
  - intros [(M & ->) | (N1 & N2 & a & d & b & -> & E & I1 & I2)].
    + destruct o; try discriminate. exists h, default_keys, []. repeat split; auto.
    + exists a, d, (b ++ [o]). split; [rewrite <- app_assoc; reflexivity|]. repeat split; auto; intro J; apply in_app_or in J; destruct J as [J|[->|[]]]; auto.
Qed.

Lemma usable_bound h k : usable h k -> (k < made h)%nat.
Proof.
  intros (a & d & b & -> & <- & _). unfold made. rewrite filter_app, app_length. cbn. lia.
Qed.

Lemma in_use_snoc h o a : in_use (h ++ [o]) a <-> installs h o a \/ ((forall a', ~ installs h o a') /\ in_use h a).
Proof.
  split.
  - intros (x & q & y & E & I & N). apply snoc_split in E. destruct E as [(_ & -> & ->) | (y' & -> & ->)]; [left; auto|].
    right. split.
    + intros a' J. exact (N y' o [] a' eq_refl J).
    + exists x, q, y'. repeat split; auto. intros y1 o' y2 a' ->. apply (N y1 o' (y2 ++ [o]) a'). rewrite <- app_assoc. reflexivity.
  - intros [I | (N & x & q & y & -> & I & M)].
    + exists h, o, []. repeat split; auto. intros y1 ? ? ? E. destruct y1; discriminate.
    + exists x, q, (y ++ [o]). split; [rewrite <- app_assoc; reflexivity|]. split; auto.
      intros y1 o' y2 a' E J. apply snoc_split in E. destruct E as [(_ & -> & ->) | (y2' & _ & ->)]; [exact (N _ J)|exact (M _ _ _ _ eq_refl J)].
Qed.

Lemma in_use_fun h : forall a b, in_use h a -> in_use h b -> a = b.
Proof.
  induction h as [|o h IH] using rev_ind; intros a b A B.
  - destruct A as (x & ? & ? & E & _). destruct x; discriminate.
  - apply in_use_snoc in A. apply in_use_snoc in B. destruct A as [A|(A & A')], B as [B|(B & B')].
    + inversion A; subst; inversion B; auto.
    + destruct (B _ A).
    + destruct (A _ B).
    + auto.
Qed.

Lemma no_use_nil a : ~ in_use [] a.
Proof. intros (x & ? & ? & E & _). destruct x; discriminate. Qed.

(* The state says what the history says. *)
Record Inv (h : list op) (p : proc) : Prop := {
  v_inited : p_inited p = true <-> In Initialize h;
  v_alloc : forall a, p_alloc p = Some a <-> in_use h (Some a);
  v_aws : p_aws p = p_sdk p;
  v_up : p_sdk p = true <-> up h;
  v_chain : p_chain p = true <-> In (Make_client true) h;
  v_count : length (p_clients p) = made h;
  v_live : forall k, live p k = true <-> usable h k;
  v_life : Forall (fun c => (c_life c <= p_life p)%nat) (p_clients p)
}.

Lemma live_nil l s : forall k, live (mk_proc l s false false false 0 []) k = false.
Proof. intros [|k]; reflexivity. Qed.

Lemma inv_fresh : Inv [] fresh.
Proof.
  constructor; cbn; try (split; [discriminate|tauto]); auto.
  - intro a. split; [discriminate|]. intro U. destruct (no_use_nil _ U).
  - split; [discriminate|]. intro U. destruct (up_nil U).
  - intro k. unfold fresh. rewrite live_nil. split; [discriminate|]. intro U. apply usable_bound in U. cbn in U. lia.
Qed.

Lemma in_snoc (h : list op) o q : In q (h ++ [o]) <-> In q h \/ q = o.
Proof. rewrite in_app_iff. cbn. intuition. Qed.

Lemma live_sdk p k : live p k = true -> p_sdk p = true.
Proof. unfold live. destruct (nth_error _ _); [|discriminate]. rewrite !andb_true_iff. tauto. Qed.

Lemma gone_length k cs : length (gone k cs) = length cs.
Proof. revert k. induction cs as [|c cs IH]; intros [|k]; cbn; auto. Qed.
Lemma gone_nth k cs : forall j, nth_error (gone k cs) j = if Nat.eqb j k then option_map (fun c => mk_client false (c_life c)) (nth_error cs j) else nth_error cs j.
Proof. revert k. induction cs as [|c cs IH]; intros [|k] [|j]; cbn; auto. destruct (Nat.eqb j k); reflexivity. Qed.
Lemma gone_life k cs n : Forall (fun c => (c_life c <= n)%nat) cs -> Forall (fun c => (c_life c <= n)%nat) (gone k cs).
Proof. intro F. revert k. induction F as [|c cs H F IH]; intros [|k]; cbn; constructor; auto. Qed.

Ltac other := try (rewrite in_snoc; intuition congruence).

Lemma not_installs h o : match o with Initialize | Set_allocator _ => False | _ => True end -> forall a, ~ installs h o a.
Proof. intros H a I. destruct I; exact H. Qed.

Ltac quietly := match goal with |- context [in_use (?h ++ [?o]) _] => rewrite in_use_snoc; let N := fresh in pose proof (not_installs h o I) as N;
  split; [intro; right; split; [exact N|assumption]|let J := fresh in intros [J|(_ & J)]; [destruct (N _ J)|exact J]] end.

Lemma live_same p q k : p_clients p = p_clients q -> p_sdk p = p_sdk q -> p_life p = p_life q -> live p k = live q k.
Proof. unfold live. intros -> -> ->. reflexivity. Qed.

Lemma step_inv h p o : Inv h p ->
  match step p o with
  | Ok (p', es) => allowed h o /\ does h o es /\ Inv (h ++ [o]) p'
  | UB => ~ allowed h o
  | _ => False
  end.
Proof.
  intros [VI VA VW VU VC VN VL VF]. destruct o; cbn [step].
  - (* Initialize *) unfold initialize. destruct (p_inited p) eqn:E.
    + split; [constructor|]. split; [apply D_again, VI; auto|].
      assert (N : forall a, ~ installs h Initialize a). { intros a I. inversion I. apply H, VI. reflexivity. }
      constructor; auto; try rewrite E; other.
      * intro a. rewrite in_use_snoc, VA. specialize (N (Some a)) as N'. intuition.
      * rewrite up_snoc, VU. intuition congruence.
      * rewrite made_snoc. cbn. lia.
      * intro k. rewrite usable_snoc, VL. cbn. intuition congruence.
    + assert (N : ~ In Initialize h). { intro I. apply VI in I. congruence. }
      split; [constructor|]. split; [apply D_first; auto|].
      constructor; cbn; auto; other.
      * intro a. rewrite in_use_snoc. split.
        -- intros [= <-]. left. constructor; auto.
        -- intros [I|(M & _)]; [inversion I; auto|]. destruct (M (Some Default)). constructor; auto.
      * rewrite up_snoc, VU. intuition congruence.
      * rewrite made_snoc. cbn. lia.
      * intro k. rewrite usable_snoc, <- VL. cbn. rewrite (live_same _ p k) by reflexivity. intuition congruence.
  - (* Set_allocator *) split; [constructor|]. split; [constructor|]. constructor; cbn; auto; other.
    + intro b. rewrite in_use_snoc. split.
      * intros ->. left. constructor.
      * intros [I|(M & _)]; [inversion I; auto|]. destruct (M a). constructor.
    + rewrite up_snoc, VU. intuition congruence.
    + rewrite made_snoc. cbn. lia.
    + intro k. rewrite usable_snoc, <- VL. cbn. rewrite (live_same _ p k) by reflexivity. intuition congruence.
  - (* Allocate *) unfold allocate. destruct (p_alloc p) as [a|] eqn:E.
    + assert (U : in_use h (Some a)) by (apply VA; auto).
      split; [econstructor; eauto|]. split; [constructor; auto|]. constructor; auto; other.
      * intro b. rewrite E, VA. quietly.
      * rewrite up_snoc, VU. intuition congruence.
      * rewrite made_snoc. cbn. lia.
      * intro k. rewrite usable_snoc, <- VL. cbn. intuition congruence.
    + intro A. inversion A; subst. apply VA in H. discriminate.
  - (* Initialize_aws *) unfold initialize_aws. rewrite VW. destruct (p_sdk p) eqn:E.
    + assert (U : up h) by (apply VU; auto).
      split; [constructor|]. split; [constructor; auto|]. constructor; auto; other; rewrite ?E; auto.
      * intro b. rewrite VA. quietly.
      * rewrite up_snoc. intuition.
      * rewrite made_snoc. cbn. lia.
      * intro k. rewrite usable_snoc, <- VL. cbn. intuition congruence.
    + assert (U : ~ up h) by (intro U; apply VU in U; congruence).
      unfold sdk_init. rewrite E. cbn [bind]. split; [constructor|]. split; [constructor; auto|]. constructor; cbn; auto; other.
      * intro b. rewrite VA. quietly.
      * rewrite up_snoc. intuition.
      * rewrite made_snoc. cbn. lia.
      * intro k. rewrite usable_snoc, <- VL. cbn [is_make]. split.
        -- unfold live. cbn. destruct (nth_error (p_clients p) k) as [c|] eqn:C; [|discriminate].
           rewrite !andb_true_iff, Nat.eqb_eq. intros (_ & H). rewrite Forall_forall in VF. specialize (VF _ (nth_error_In _ _ C)). lia.
        -- intros [([=] & _)|(_ & _ & L)]. apply live_sdk in L. congruence.
      * eapply Forall_impl; [|exact VF]. cbn. intros. lia.
  - (* Deallocate_aws *) unfold deallocate_aws. rewrite VW. destruct (p_sdk p) eqn:E.
    + assert (U : up h) by (apply VU; auto). unfold sdk_shutdown. rewrite E. cbn [bind].
      split; [constructor|]. split; [constructor; auto|]. constructor; cbn; auto; other.
      * intro b. rewrite VA. quietly.
      * rewrite up_snoc. intuition congruence.
      * rewrite made_snoc. cbn. lia.
      * intro k. rewrite usable_snoc. cbn [is_make]. split; [|intuition congruence].
        intro L. apply live_sdk in L. discriminate.
    + assert (U : ~ up h) by (intro U; apply VU in U; congruence).
      split; [constructor|]. split; [constructor; auto|]. constructor; cbn; auto; other.
      * intro b. rewrite VA. quietly.
      * rewrite E, up_snoc. intuition congruence.
      * rewrite made_snoc. cbn. lia.
      * intro k. rewrite usable_snoc. cbn [is_make]. split; [|intuition congruence].
        intro L. apply live_sdk in L. cbn in L. congruence.
  - (* Make_client *) unfold make_client. destruct (p_sdk p) eqn:E.
    2:{ intro A. inversion A; subst. apply VU in H0. discriminate. }
    assert (U : up h) by (apply VU; auto).
    assert (G : forall q, p_alloc q = p_alloc p -> p_inited q = p_inited p -> p_aws q = p_aws p -> p_sdk q = p_sdk p -> p_life q = p_life p -> p_clients q = p_clients p ->
      (p_chain q = true <-> In (Make_client true) (h ++ [Make_client default_keys])) ->
      Inv (h ++ [Make_client default_keys]) (mk_proc (p_alloc q) (p_inited q) (p_aws q) (p_chain q) (p_sdk q) (p_life q) (p_clients q ++ [mk_client true (p_life q)]))).
    { intros q Q1 Q2 Q3 Q4 Q5 Q6 Q7. constructor; cbn; rewrite ?Q1, ?Q2, ?Q3, ?Q4, ?Q5, ?Q6; auto; other.
      - intro b. rewrite VA. quietly.
      - congruence.
      - rewrite up_snoc. rewrite ?E. intuition congruence.
      - rewrite app_length, made_snoc. cbn. lia.
      - intro k. rewrite usable_snoc, <- VL, <- VN. cbn [is_make]. unfold live. cbn.
        destruct (Nat.lt_trichotomy k (length (p_clients p))) as [L|[->|L]].
        + rewrite nth_error_app1 by lia. intuition (try lia; try congruence).
        + rewrite nth_error_app2, Nat.sub_diag by lia. cbn. rewrite E, Nat.eqb_refl. intuition.
        + rewrite (proj2 (nth_error_None _ _)) by (rewrite app_length; cbn; lia). rewrite (proj2 (nth_error_None (p_clients p) k)) by lia. intuition (try lia; try congruence).
      - apply Forall_app. split; auto. }
    destruct default_keys.
    + unfold Model_proc.default_keys. destruct (p_chain p) eqn:C; cbn [bind].
      * intro A. inversion A; subst. apply (H1 eq_refl). apply VC. reflexivity.
      * split; [constructor; auto; intros _ I; apply VC in I; congruence|]. split; [constructor|].
        refine (G (mk_proc (p_alloc p) (p_inited p) (p_aws p) true (p_sdk p) (p_life p) (p_clients p)) eq_refl eq_refl eq_refl eq_refl eq_refl eq_refl _).
        cbn. rewrite in_snoc. intuition.
    + cbn [bind]. split; [constructor; auto; discriminate|]. split; [constructor|].
      refine (G p eq_refl eq_refl eq_refl eq_refl eq_refl eq_refl _). rewrite in_snoc. intuition congruence.
  - (* Use_client *) unfold use_client. destruct (live p k) eqn:L.
    + split; [constructor; apply VL; auto|]. split; [constructor|]. constructor; auto; other.
      * intro b. rewrite VA. quietly.
      * rewrite up_snoc, VU. intuition congruence.
      * rewrite made_snoc. cbn. lia.
      * intro j. rewrite usable_snoc, <- VL. cbn. intuition congruence.
    + intro A. inversion A; subst. apply VL in H0. congruence.
  - (* Drop_client *) unfold drop_client. destruct (live p k) eqn:L.
    + split; [constructor; apply VL; auto|]. split; [constructor|]. constructor; cbn; auto; other.
      * intro b. rewrite VA. quietly.
      * rewrite up_snoc, VU. intuition congruence.
      * rewrite gone_length, made_snoc. cbn. lia.
      * intro j. rewrite usable_snoc, <- VL. cbn [is_make]. unfold live at 1. cbn. rewrite gone_nth. destruct (Nat.eqb_spec j k) as [->|N].
        -- destruct (nth_error (p_clients p) k); cbn; intuition congruence.
        -- change (live p j = true <-> false = true /\ j = made h \/ Drop_client k <> Deallocate_aws /\ Drop_client k <> Drop_client j /\ live p j = true). intuition congruence.
      * apply gone_life. auto.
    + intro A. inversion A; subst. apply VL in H0. congruence.
Qed.

Lemma run_spec : forall r h p, Inv h p ->
  match run p r with
  | (t, Ok p') => (forall a o b, r = a ++ o :: b -> allowed (h ++ a) o /\ exists es, nth_error t (length a) = Some es /\ does (h ++ a) o es) /\ Inv (h ++ r) p'
  | (t, UB) => exists a o b, r = a ++ o :: b /\ length t = length a /\ ~ allowed (h ++ a) o
  | _ => False
  end.
Proof.
  induction r as [|o r IH]; intros h p V; cbn [run].
  - split; [intros [|? ?] ? ? [=]|rewrite app_nil_r; auto].
  - pose proof (step_inv h p o V) as S. destruct (step p o) as [(p' & es)| | |]; try contradiction.
    + destruct S as (A & D & V'). specialize (IH _ _ V'). destruct (run p' r) as (t & [q| | |]); try contradiction.
      * destruct IH as (IH & W). rewrite <- app_assoc in W. split; auto. intros [|x a] q0 b [= <- E].
        -- rewrite app_nil_r. split; auto. exists es. split; auto.
        -- specialize (IH a q0 b E). rewrite <- app_assoc in IH. exact IH.
      * destruct IH as (a & q & b & -> & L & N). exists (o :: a), q, b. rewrite <- app_assoc in N. repeat split; auto. cbn. f_equal. auto.
    + exists [], o, r. rewrite app_nil_r. auto.
Qed.

Lemma run_in_turn : forall r p, p_aws p = p_sdk p -> in_turn (p_sdk p) (filter is_call (concat (fst (run p r)))).
Proof.
  induction r as [|o r IH]; intros p W; cbn [run]; [constructor|].
  assert (S : match step p o with Ok (p', es) => p_aws p' = p_sdk p' /\ (forall l, in_turn (p_sdk p') l -> in_turn (p_sdk p) (filter is_call es ++ l)) | _ => True end).
  { destruct o; cbn [step].
    - unfold initialize. destruct (p_inited p); cbn; auto.
    - cbn; auto.
    - unfold allocate. destruct (p_alloc p); cbn; auto.
    - unfold initialize_aws. rewrite W. destruct (p_sdk p) eqn:E; cbn; [rewrite W, E; auto|]. unfold sdk_init. rewrite E. cbn. split; auto. intros l L. constructor. auto.
    - unfold deallocate_aws. rewrite W. destruct (p_sdk p) eqn:E; cbn; [unfold sdk_shutdown; rewrite E; cbn; split; auto; intros l L; constructor; auto|]. rewrite E. auto.
    - unfold make_client. destruct (p_sdk p) eqn:E; auto. destruct default_keys; [unfold Model_proc.default_keys; destruct (p_chain p); cbn; auto; rewrite W, E; auto|cbn; rewrite W, E; auto].
    - unfold use_client. destruct (live p k); cbn; auto.
    - unfold drop_client. destruct (live p k); cbn; auto. }
  destruct (step p o) as [(p' & es)| | |]; try constructor. destruct S as (W' & S).
  specialize (IH p' W'). destruct (run p' r) as (t & q). cbn [fst concat] in *. rewrite filter_app. auto.
Qed.

(* Threads under the lock. *)
Fixpoint up_after (b : bool) (l : list effect) : bool := match l with [] => b | Sdk_init :: r => up_after true r | Sdk_shutdown :: r => up_after false r | _ :: r => up_after b r end.
Lemma up_after_app l : forall b m, up_after b (l ++ m) = up_after (up_after b l) m.
Proof. induction l as [|e l IH]; intros b m; auto. destruct e; cbn; auto. Qed.
Lemma in_turn_app l : forall b m, in_turn b l -> in_turn (up_after b l) m -> in_turn b (l ++ m).
Proof. induction l as [|e l IH]; intros b m H M; auto. inversion H; subst; cbn in *; constructor; auto. Qed.

Lemma set_nth_nth {A} (x : A) : forall l i j, nth_error (set_nth i x l) j = if Nat.eqb j i then option_map (fun _ => x) (nth_error l j) else nth_error l j.
Proof. induction l as [|y l IH]; intros [|i] [|j]; cbn; auto. destruct (Nat.eqb j i); reflexivity. Qed.

(* A thread inside a call holds the lock, and the flag and the SDK agree but for the step it is about to take. *)
Definition agrees (s : shared) (c : option pc) : Prop :=
  let u := up_after false (h_calls s) in
  match c with
  | None | Some At_init | Some At_free => h_flag s = u
  | Some At_init_call => h_flag s = false /\ u = false
  | Some At_init_set => h_flag s = false /\ u = true
  | Some At_free_call => h_flag s = true /\ u = true
  | Some At_free_set => u = false
  end.

Definition Held (w : shared * list thread) : Prop :=
  in_turn false (h_calls (fst w)) /\
  (forall i t, nth_error (snd w) i = Some t -> fst t <> None -> h_holder (fst w) = Some i) /\
  match h_holder (fst w) with
  | None => agrees (fst w) None
  | Some i => exists t, nth_error (snd w) i = Some t /\ agrees (fst w) (fst t)
  end.

Lemma turn_held i w : Held w -> Held (turn true i w).
Proof.
  destruct w as (s & ts). intros (T & O & G). unfold turn. destruct (nth_error ts i) as [t|] eqn:E; [|repeat split; auto].
  destruct (enter t) as ([c|] & r) eqn:En; [|repeat split; auto].
  destruct (may_run true i s) eqn:M; [|repeat split; auto]. cbn [fst snd] in *.
  (* the thread agrees where it is *)
  assert (A : agrees s (Some c)).
  { destruct t as ([d|] & q).
    - cbn in En. inversion En; subst. assert (H : h_holder s = Some i) by (apply (O i (Some c, r)); auto; discriminate).
      rewrite H in G. destruct G as (t & E' & A). rewrite E in E'. inversion E'; subst. exact A.
    - destruct q as [|b q]; cbn in En; inversion En; subst.
      unfold may_run in M. destruct (h_holder s) as [j|] eqn:H.
      + cbn in M. apply Nat.eqb_eq in M. subst j. destruct G as (t & E' & A). rewrite E in E'. inversion E'; subst. cbn in A. destruct b; exact A.
      + destruct b; exact G. }
  assert (Only : forall j u, nth_error ts j = Some u -> j <> i -> fst u = None).
  { intros j u Ej N. destruct (fst u) eqn:F; auto. assert (H : h_holder s = Some j) by (apply (O j u); auto; congruence).
    unfold may_run in M. rewrite H in M. cbn in M. apply Nat.eqb_eq in M. congruence. }
  assert (Step : let '(s', n) := micro c s in in_turn false (h_calls s') /\ agrees s' n).
  { destruct c; cbn [micro]; unfold agrees in *; cbn in *.
    - destruct (h_flag s) eqn:F; cbn; rewrite ?F; auto.
    - destruct A as (F & U). rewrite F, up_after_app, U. cbn. split; auto. apply in_turn_app; auto. rewrite U. repeat constructor.
    - destruct A as (F & U). rewrite U. auto.
    - destruct (h_flag s) eqn:F; cbn; rewrite ?F; auto.
    - destruct A as (F & U). rewrite up_after_app, U. cbn. split; auto. apply in_turn_app; auto. rewrite U. repeat constructor.
    - rewrite A. auto. }
  destruct (micro c s) as (s' & n) eqn:Mi. destruct Step as (T' & A').
  split; [exact T'|]. cbn [fst snd h_holder]. split.
  - intros j u Ej F. rewrite set_nth_nth in Ej. destruct (Nat.eqb_spec j i) as [->|N].
    + rewrite E in Ej. cbn in Ej. inversion Ej; subst. cbn in F. destruct n; congruence.
    + destruct (F (Only j u Ej N)).
  - destruct n as [n|].
    + exists (Some n, r). split; [rewrite set_nth_nth, Nat.eqb_refl, E; reflexivity|]. exact A'.
    + exact A'.
Qed.

Lemma play_held sched : forall w, Held w -> Held (play true sched w).
Proof. induction sched as [|i l IH]; intros w H; auto. apply IH, turn_held, H. Qed.

Lemma threads_held calls : Held (threads calls).
Proof.
  repeat split; cbn; try constructor. intros i t E F. rewrite nth_error_map in E. destruct (nth_error calls i); inversion E; subst. cbn in F. congruence.
Qed.
