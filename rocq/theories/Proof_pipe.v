From Verif Require Import Common Model_strm Model_pipe Spec_pipe.

Local Open Scope Z_scope.
Local Opaque path_dec.

(* ---------------- Lists ---------------- *)

Lemma sn_same : forall A (l : list A) h x y, nth_error l h = Some y -> nth_error (set_nth h x l) h = Some x.
Proof. induction l; intros [|h] x y H; cbn in *; try discriminate; eauto. Qed.
Lemma sn_other : forall A (l : list A) h h' x, h <> h' -> nth_error (set_nth h x l) h' = nth_error l h'.
Proof. induction l; intros [|h] [|h'] x N; cbn in *; auto; try congruence. Qed.
Lemma sn_in : forall A (l : list A) h x y, In y (set_nth h x l) -> y = x \/ In y l.
Proof. induction l; intros [|h] x y H; cbn in *; auto; destruct H as [ <- | H]; auto. apply IHl in H. tauto. Qed.

Lemma filter_le1 : forall A (f : A -> bool) l,
  (forall h1 h2 a b, nth_error l h1 = Some a -> nth_error l h2 = Some b -> f a = true -> f b = true -> h1 = h2) ->
  (length (filter f l) <= 1)%nat.
Proof.
  induction l as [|x l IH]; intros H; cbn; [lia|].
  assert (IH' : (length (filter f l) <= 1)%nat).
  { apply IH. intros h1 h2 a b A1 A2 F1 F2. assert (E0 : S h1 = S h2) by (eapply (H (S h1) (S h2)); eauto). congruence. }
  destruct (f x) eqn:F; [|exact IH'].
  cbn. destruct (filter f l) as [|y r] eqn:Q; [cbn; lia|].
  exfalso. assert (In y (filter f l)) by (rewrite Q; left; auto).
  apply filter_In in H0. destruct H0 as [I0 F0]. apply In_nth_error in I0. destruct I0 as [k K].
  assert (O = S k) by (eapply (H O (S k)); cbn; eauto). discriminate.
Qed.

(* ---------------- Sequences ---------------- *)

Fixpoint next_of (p : path) (n : Z) (tr : list pevent) : Z :=
  match tr with
  | [] => n
  | Ev_start q i :: t => if path_dec q p then next_of p i t else next_of p n t
  | Ev_open q i :: t => if path_dec q p then next_of p (i + 1) t else next_of p n t
  end.
Lemma next_app : forall p a b n, next_of p n (a ++ b) = next_of p (next_of p n a) b.
Proof. induction a as [|[q i|q i] a IH]; intros; cbn; auto; destruct (path_dec q p); auto. Qed.
Lemma seq_app : forall p a b n, in_sequence p n (a ++ b) <-> in_sequence p n a /\ in_sequence p (next_of p n a) b.
Proof.
  induction a as [|[q i|q i] a IH]; intros; cbn; [tauto| |]; destruct (path_dec q p); auto.
  rewrite IH. tauto.
Qed.

Definition sole (p : path) (s : pstate) (n : Z) : Prop :=
  (forall h st, nth_error (pp_streams s) h = Some st -> exists_on p st = false) /\ pp_chan s p = n \/
  exists h st, nth_error (pp_streams s) h = Some st /\ exists_on p st = true /\ ps_id st = n /\
    pp_chan s p = (if holds p st then -1 else n) /\
    forall h' st', nth_error (pp_streams s) h' = Some st' -> exists_on p st' = true -> h' = h.
Definition inv1 (p : path) (s : pstate) : Prop :=
  in_sequence p 0 (pp_trace s) /\ 0 <= next_of p 0 (pp_trace s) /\ sole p s (next_of p 0 (pp_trace s)).
Definition inv (s : pstate) : Prop := sane_stores (pp_stores s) /\ forall p, inv1 p s.

Lemma holds_exists : forall p st, holds p st = true -> exists_on p st = true.
Proof. unfold holds, exists_on. intros p st. destruct (path_dec _ _), (ps_phase st); cbn; auto. Qed.
Lemma exists_path : forall p st, exists_on p st = true -> ps_path st = p.
Proof. unfold exists_on. intros p st. destruct (path_dec _ _); cbn; congruence. Qed.
Lemma exists_phase : forall st, exists_on (ps_path st) st = match ps_phase st with Ph_dead => false | _ => true end.
Proof. intros. unfold exists_on. destruct (path_dec _ _); [auto|congruence]. Qed.

Lemma as_ssize_pos : forall n, (n < 2 ^ 63)%N -> 0 <= as_ssize n.
Proof. intros n H. unfold as_ssize. destruct (n <? 2 ^ 63)%N eqn:Q; lia. Qed.

Lemma inv_start : forall stores, sane_stores stores -> inv (pipe_start stores).
Proof.
  intros stores H. split; [exact H|]. intros p. split; [exact I|]. split; [cbn; lia|].
  left. split; [|reflexivity]. intros [|h] st K; discriminate.
Qed.

(* A stream that exists is the only one on its channel. *)
Lemma sole_of : forall p s n h st, sole p s n -> nth_error (pp_streams s) h = Some st -> exists_on p st = true ->
  ps_id st = n /\ pp_chan s p = (if holds p st then -1 else n) /\
  forall h' st', nth_error (pp_streams s) h' = Some st' -> exists_on p st' = true -> h' = h.
Proof.
  intros p s n h st [[H _]|(h0 & st0 & H0 & X0 & E0 & C0 & U)] K X.
  - rewrite (H _ _ K) in X. discriminate.
  - assert (h = h0) by eauto. subst h0. rewrite K in H0. injection H0 as <-. auto.
Qed.

(* Replacing a stream by one of the same channel. *)
Lemma sole_set : forall p s h st st' c stores tr n n',
  inv1 p s -> nth_error (pp_streams s) h = Some st -> exists_on (ps_path st) st = true -> ps_path st' = ps_path st ->
  n = next_of p 0 (pp_trace s) ->
  (ps_path st <> p -> n' = n /\ c p = pp_chan s p) ->
  (ps_path st = p -> ps_phase st' = Ph_dead -> c p = n') ->
  (ps_path st = p -> ps_phase st' <> Ph_dead -> ps_id st' = n' /\ c p = (if holds p st' then -1 else n')) ->
  sole p (mk_pstate c (set_nth h st' (pp_streams s)) stores tr) n'.
Proof.
  intros p s h st st' c stores tr n n' (_ & _ & S0) K X P En Hne Hd Hl. subst n.
  destruct (path_dec (ps_path st) p) as [Q|Q].
  - subst p. destruct (sole_of _ _ _ _ _ S0 K X) as (_ & _ & U).
    destruct (ps_phase st') eqn:F.
    3:{ left. cbn. split; [|auto]. intros h' st0 K0. destruct (Nat.eq_dec h h') as [ <- |N].
        - rewrite (sn_same _ _ _ _ _ K) in K0. injection K0 as <-. rewrite <- P, exists_phase, F. auto.
        - rewrite (sn_other _ _ _ _ _ N) in K0. destruct (exists_on (ps_path st) st0) eqn:G; auto. exfalso; apply N; symmetry; eauto. }
    all: destruct Hl as [L1 L2]; auto; try discriminate;
      right; exists h, st'; cbn [pp_streams pp_chan]; split; [eapply sn_same; eauto|];
      (split; [rewrite <- P, exists_phase, F; auto|]); split; [auto|]; split; [exact L2|];
      intros h' st0 K0 G; destruct (Nat.eq_dec h h') as [ <- |N]; auto;
      rewrite (sn_other _ _ _ _ _ N) in K0; eauto.
  - destruct (Hne Q) as [-> Hc].
    assert (NX : exists_on p st' = false). { unfold exists_on. destruct (path_dec _ _); [congruence|auto]. }
    assert (NX0 : exists_on p st = false). { unfold exists_on. destruct (path_dec _ _); [congruence|auto]. }
    destruct S0 as [[H C]|(h0 & st0 & H0 & X0 & E0 & C0 & U)].
    + left. cbn. rewrite Hc. split; [|auto]. intros h' st0 K0. destruct (Nat.eq_dec h h') as [ <- |N].
      * rewrite (sn_same _ _ _ _ _ K) in K0. congruence.
      * rewrite (sn_other _ _ _ _ _ N) in K0. eauto.
    + right. exists h0, st0. cbn. assert (N : h <> h0) by (intros ->; congruence).
      rewrite (sn_other _ _ _ _ _ N). rewrite Hc. refine (conj H0 (conj X0 (conj E0 (conj C0 _)))).
      intros h' st1 K1 G. destruct (Nat.eq_dec h h') as [ <- |N'].
      * rewrite (sn_same _ _ _ _ _ K) in K1. congruence.
      * rewrite (sn_other _ _ _ _ _ N') in K1. eauto.
Qed.

Lemma inv_acquire : forall s p e, inv s -> sane_id e ->
  (forall st, In st (pp_streams s) -> exists_on p st = true -> holds p st = true) ->
  inv (snd (p_acquire s p e)).
Proof.
  intros s p e [Hs Hi] He Ht. unfold p_acquire. destruct (valid_path p); cbn [negb]; [|split; auto].
  destruct (Hi p) as (Q1 & Q2 & Q3). destruct (pp_chan s p =? -1) eqn:C; cbn [snd].
  - split; [exact Hs|]. intros q. destruct (Hi q) as (R1 & R2 & R3). split; [exact R1|]. split; [exact R2|].
    cbn [pp_trace]. apply Z.eqb_eq in C.
    unfold sole in *. cbn [pp_streams pp_chan]. unfold set_chan. destruct (path_dec p q) as [ <- |N]; [|exact R3].
    rewrite C in R3. exact R3.
  - assert (NS : forall h st, nth_error (pp_streams s) h = Some st -> exists_on p st = false).
    { destruct Q3 as [[H _]|(h0 & st0 & H0 & X0 & E0 & C0 & U)]; [exact H|].
      rewrite (Ht st0 (nth_error_In _ _ H0) X0) in C0. lia. }
    assert (CH : pp_chan s p = next_of p 0 (pp_trace s)).
    { destruct Q3 as [[_ H]|(h0 & st0 & H0 & X0 & E0 & C0 & U)]; [exact H|]. rewrite (NS _ _ H0) in X0. discriminate. }
    split; [exact Hs|]. intros q. destruct (Hi q) as (R1 & R2 & R3).
    set (st := mk_ps p (match e with Some e0 => as_ssize e0 | None => pp_chan s p end) false Ph_made).
    set (tr := match e with Some e0 => [Ev_start p (as_ssize e0)] | None => [] end).
    assert (NXT : next_of q 0 (pp_trace s ++ tr) = if path_dec p q then ps_id st else next_of q 0 (pp_trace s)).
    { rewrite next_app. unfold tr, st. destruct e; cbn; destruct (path_dec p q) as [ <- |N]; auto. }
    split; [|split]; cbn [pp_trace].
    + rewrite seq_app. split; [exact R1|]. unfold tr. destruct e; cbn; auto. destruct (path_dec p q); exact I.
    + rewrite NXT. destruct (path_dec p q); [|exact R2]. unfold st; cbn. destruct e; cbn in He; [apply as_ssize_pos; auto|lia].
    + rewrite NXT. unfold sole. cbn [pp_streams pp_chan]. unfold set_chan. destruct (path_dec p q) as [ <- |N].
      * right. exists (length (pp_streams s)), st. rewrite nth_error_app2, Nat.sub_diag by lia.
        assert (HX : exists_on p st = true) by (change p with (ps_path st); rewrite exists_phase; reflexivity).
        split; [reflexivity|]. split; [exact HX|]. split; [reflexivity|]. split.
        { unfold holds, st; cbn. destruct (path_dec p p); [reflexivity|congruence]. }
        intros h' st' K G. destruct (Nat.lt_ge_cases h' (length (pp_streams s))) as [L|L].
        { rewrite nth_error_app1 in K by lia. rewrite (NS _ _ K) in G. discriminate. }
        { assert (h' < length (pp_streams s ++ [st]))%nat by (apply nth_error_Some; congruence). rewrite app_length in *. cbn in *. lia. }
      * assert (NX : exists_on q st = false) by (unfold exists_on, st; cbn; destruct (path_dec p q); [congruence|reflexivity]).
        assert (LST : forall h' st', nth_error (pp_streams s ++ [st]) h' = Some st' -> nth_error (pp_streams s) h' = Some st' \/ st' = st).
        { intros h' st' K. destruct (Nat.lt_ge_cases h' (length (pp_streams s))) as [L|L].
          - rewrite nth_error_app1 in K by lia. auto.
          - rewrite nth_error_app2 in K by lia. destruct (h' - length (pp_streams s))%nat as [|[|]]; cbn in K; try discriminate. injection K as <-. auto. }
        destruct R3 as [[H C']|(h0 & st0 & H0 & X0 & E0 & C0 & U)].
        { left. split; [|exact C']. intros h' st' K. destruct (LST _ _ K) as [K'| ->]; eauto. }
        { right. exists h0, st0. split; [rewrite nth_error_app1; auto; apply nth_error_Some; congruence|].
          refine (conj X0 (conj E0 (conj C0 _))). intros h' st' K G. destruct (LST _ _ K) as [K'| ->]; eauto. congruence. }
Qed.

Lemma inv_release : forall s h st ph, inv s -> nth_error (pp_streams s) h = Some st -> exists_on (ps_path st) st = true ->
  ph <> Ph_made -> inv (p_release s h st ph).
Proof.
  intros s h st ph [Hs Hi] K X Np. split; [exact Hs|]. intros q. destruct (Hi q) as (R1 & R2 & R3).
  split; [exact R1|]. split; [exact R2|]. cbn [pp_trace p_release].
  assert (ID : ps_path st = q -> ps_id st = next_of q 0 (pp_trace s)).
  { intros <-. destruct (sole_of _ _ _ _ _ R3 K X) as (E0 & _). exact E0. }
  eapply sole_set; [exact (Hi q)|exact K|exact X|reflexivity|reflexivity| | |].
  - intros N. split; [reflexivity|]. unfold set_chan. destruct (path_dec _ _); congruence.
  - intros <- _. unfold set_chan. destruct (path_dec _ _); [apply ID; reflexivity|congruence].
  - intros <- _. cbn [ps_id]. split; [apply ID; reflexivity|]. unfold set_chan. destruct (path_dec _ _); [|congruence].
    unfold holds; cbn. destruct (path_dec _ _); [|congruence]. cbn. destruct ph; try congruence; apply ID; reflexivity.
Qed.

Lemma inv_step : forall s o, inv s -> sane_op o -> tidy_at s o -> inv (snd (p_step s o)).
Proof.
  intros s o Hi Ho Ht. destruct o as [p e|k|h att rdy|h|h]; cbn [p_step].
  - apply inv_acquire; [exact Hi|exact Ho|]. intros st J X. exact (Ht p eq_refl st J X).
  - unfold p_store. destruct (nth_error (pp_stores s) k) as [[p e]|] eqn:K; [|exact Hi].
    destruct Hi as [Hs Hi]. apply inv_acquire.
    + split; [|intros q; exact (Hi q)]. cbn. unfold sane_stores in *. rewrite Forall_forall in *. intros x J.
      apply sn_in in J. destruct J as [ -> |J]; [exact I|auto].
    + unfold sane_stores in Hs. rewrite Forall_forall in Hs. exact (Hs _ (nth_error_In _ _ K)).
    + intros st J X. refine (Ht p _ st J X). cbn. rewrite K. reflexivity.
  - unfold p_fifo. destruct (nth_error (pp_streams s) h) as [st|] eqn:K; [|exact Hi].
    destruct (ps_phase st) eqn:F; try exact Hi.
    assert (X : exists_on (ps_path st) st = true) by (rewrite exists_phase, F; auto).
    destruct (opens att); [|apply inv_release; auto; discriminate].
    destruct (ps_id st =? 2 ^ 63 - 1); [exact Hi|].
    match goal with |- context [p_release ?a _ _ _] => set (s' := a) end.
    set (st' := mk_ps (ps_path st) (ps_id st + 1) true Ph_ready) in *.
    assert (I' : inv s').
    { destruct Hi as [Hs Hi]. split; [exact Hs|]. intros q. destruct (Hi q) as (R1 & R2 & R3).
      assert (NXT : next_of q 0 (pp_trace s') = if path_dec (ps_path st) q then ps_id st + 1 else next_of q 0 (pp_trace s)).
      { unfold s'. cbn. rewrite next_app. cbn. auto. }
      assert (ID : ps_path st = q -> ps_id st = next_of q 0 (pp_trace s)).
      { intros <-. destruct (sole_of _ _ _ _ _ R3 K X) as (E0 & _). exact E0. }
      assert (CH : ps_path st = q -> pp_chan s q = -1).
      { intros <-. destruct (sole_of _ _ _ _ _ R3 K X) as (_ & E0 & _). rewrite E0. unfold holds. rewrite F.
        destruct (path_dec _ _); [reflexivity|congruence]. }
      split; [|split].
      - unfold s'. cbn [pp_trace]. rewrite seq_app. split; [exact R1|]. cbn. destruct (path_dec _ _) as [Q|Q]; auto.
      - rewrite NXT. destruct (path_dec _ _) as [Q|Q]; [|exact R2]. specialize (ID Q). lia.
      - rewrite NXT. unfold s'. eapply sole_set; [exact (Hi q)|exact K|exact X|reflexivity|reflexivity| | |].
        + intros N. destruct (path_dec _ _); [congruence|]. auto.
        + discriminate.
        + intros <- _. destruct (path_dec _ _); [|congruence]. split; [reflexivity|]. rewrite CH by auto.
          unfold holds, st'; cbn. destruct (path_dec _ _); [reflexivity|congruence]. }
    destruct ((rdy =? 0) || (rdy =? -1)); cbn [snd]; [|exact I'].
    apply inv_release; auto; [|rewrite exists_phase; reflexivity|discriminate].
    unfold s'. cbn. eapply sn_same; eauto.
  - destruct (nth_error (pp_streams s) h) as [st|] eqn:K; [|exact Hi]. destruct (ps_phase st) eqn:F; try exact Hi.
    apply inv_release; auto; [rewrite exists_phase, F; auto|discriminate].
  - destruct (nth_error (pp_streams s) h) as [st|] eqn:K; [|exact Hi]. destruct (ps_phase st) eqn:F; try exact Hi.
    apply inv_release; auto; [rewrite exists_phase, F; auto|discriminate].
Qed.

Lemma run_snd : forall s o t, snd (p_run s (o :: t)) = snd (p_run (snd (p_step s o)) t).
Proof. intros. cbn. destruct (p_step s o) as [r s1]. cbn. destruct (p_run s1 t). reflexivity. Qed.

Lemma inv_run : forall ops s, inv s -> Forall sane_op ops -> tidy s ops -> inv (snd (p_run s ops)).
Proof.
  induction ops as [|o ops IH]; intros s Hi Ho Ht; [exact Hi|]. rewrite run_snd. destruct Ht as [T1 T2].
  inversion Ho; subst. apply IH; auto. apply inv_step; auto.
Qed.

Lemma C48_single_l : forall stores ops p, sane_stores stores -> Forall sane_op ops -> tidy (pipe_start stores) ops ->
  let s := snd (p_run (pipe_start stores) ops) in
  (holders p s <= 1)%nat /\ (existing p s <= 1)%nat /\ in_sequence p 0 (pp_trace s).
Proof.
  intros stores ops p Hs Ho Ht s. assert (Hi : inv s) by (apply inv_run; auto; apply inv_start; auto).
  destruct Hi as [_ Hi]. destruct (Hi p) as (R1 & _ & R3).
  assert (U : forall h1 h2 a b, nth_error (pp_streams s) h1 = Some a -> nth_error (pp_streams s) h2 = Some b ->
            exists_on p a = true -> exists_on p b = true -> h1 = h2).
  { intros h1 h2 a b K1 K2 X1 X2. destruct (sole_of _ _ _ _ _ R3 K2 X2) as (_ & _ & U). eauto. }
  split; [|split; [|exact R1]]; unfold holders, existing; apply filter_le1; intros; eauto using holds_exists.
Qed.

(* Whether a channel can be had. *)
Lemma C48_available_l : forall stores ops p e, sane_stores stores -> Forall sane_op ops -> tidy (pipe_start stores) ops ->
  valid_path p = true ->
  let s := snd (p_run (pipe_start stores) ops) in
  (holders p s = O <-> exists h, fst (p_step s (P_acquire p e)) = Ok (Po_stream h)) /\
  (holders p s <> O -> fst (p_step s (P_acquire p e)) = Throw System_err).
Proof.
  intros stores ops p e Hs Ho Ht V s. assert (Hi : inv s) by (apply inv_run; auto; apply inv_start; auto).
  destruct Hi as [_ Hi]. destruct (Hi p) as (R1 & R2 & R3).
  cbn [p_step]. unfold p_acquire. rewrite V. cbn [negb].
  destruct (holders p s) as [|n] eqn:Q.
  - assert (C : pp_chan s p <> -1).
    { destruct R3 as [[_ H]|(h0 & st0 & H0 & X0 & E0 & C0 & U)]; [lia|]. destruct (holds p st0) eqn:G; [|lia].
      exfalso. assert (In st0 (filter (holds p) (pp_streams s))) by (apply filter_In; eauto using nth_error_In).
      unfold holders in Q. destruct (filter (holds p) (pp_streams s)); [contradiction|discriminate]. }
    destruct (pp_chan s p =? -1) eqn:G; [lia|]. cbn. split; [|congruence]. split; eauto.
  - assert (C : pp_chan s p = -1).
    { unfold holders in Q. destruct (filter (holds p) (pp_streams s)) as [|st r] eqn:G; [discriminate|].
      assert (J : In st (filter (holds p) (pp_streams s))) by (rewrite G; left; auto).
      apply filter_In in J. destruct J as [J Hh]. apply In_nth_error in J. destruct J as [h K].
      destruct (sole_of _ _ _ _ _ R3 K (holds_exists _ _ Hh)) as (_ & E0 & _). rewrite Hh in E0. exact E0. }
    rewrite C. cbn. split; auto. split; [discriminate|]. intros [h H]. discriminate.
Qed.

(* ---------------- Without explicit closing and numbers ---------------- *)

Definition unclosed (s : pstate) : Prop :=
  Forall (fun st => match ps_phase st with Ph_ready => ps_fd st = true | _ => True end) (pp_streams s).

Lemma Forall_sn : forall A (P : A -> Prop) l h x, Forall P l -> P x -> Forall P (set_nth h x l).
Proof. intros A P l h x H K. rewrite Forall_forall in *. intros y J. apply sn_in in J. destruct J as [ -> |J]; auto. Qed.

Lemma unclosed_step : forall s o, unclosed s -> never_closes o -> unclosed (snd (p_step s o)).
Proof.
  assert (A : forall s p e, unclosed s -> unclosed (snd (p_acquire s p e))).
  { intros s p e H. unfold p_acquire. destruct (negb _); auto. destruct (_ =? _); cbn; auto.
    unfold unclosed in *. cbn. apply Forall_app. split; auto. constructor; cbn; auto. }
  assert (R : forall s h st, unclosed s -> unclosed (p_release s h st Ph_dead)).
  { intros s h st H. unfold unclosed in *. cbn. apply Forall_sn; cbn; auto. }
  intros s [p e|k|h att rdy|h|h] H N; cbn [p_step]; auto.
  - unfold p_store. destruct (nth_error (pp_stores s) k) as [[p e]|]; auto.
  - unfold p_fifo. destruct (nth_error (pp_streams s) h) as [st|]; auto. destruct (ps_phase st); auto.
    destruct (opens att); cbn; auto. destruct (_ =? _); auto.
    assert (H' : unclosed (mk_pstate (pp_chan s) (set_nth h (mk_ps (ps_path st) (ps_id st + 1) true Ph_ready) (pp_streams s)) (pp_stores s)
                    (pp_trace s ++ [Ev_open (ps_path st) (ps_id st)]))) by (apply Forall_sn; cbn; auto).
    destruct (_ || _); cbn [snd]; auto.
  - contradiction.
  - destruct (nth_error (pp_streams s) h) as [st|]; auto. destruct (ps_phase st); cbn [snd]; auto.
Qed.

Lemma unclosed_tidy : forall s o, unclosed s -> tidy_at s o.
Proof.
  intros s o H p _ st J X. unfold unclosed in H. rewrite Forall_forall in H. specialize (H _ J).
  unfold exists_on in X. unfold holds. destruct (path_dec _ _); cbn in *; auto. destruct (ps_phase st); auto.
Qed.

Lemma never_tidy : forall ops s, unclosed s -> Forall never_closes ops -> tidy s ops.
Proof.
  induction ops as [|o ops IH]; intros s H F; cbn; auto. inversion F; subst. split; [apply unclosed_tidy; auto|].
  apply IH; auto. apply unclosed_step; auto.
Qed.

Lemma C48_destroyed_only_l : forall stores ops, Forall never_closes ops -> tidy (pipe_start stores) ops.
Proof. intros. apply never_tidy; auto. constructor. Qed.

Definition no_start (tr : list pevent) : Prop := Forall (fun e => match e with Ev_start _ _ => False | _ => True end) tr.

Lemma plain_step : forall s o, plain_stores (pp_stores s) -> no_start (pp_trace s) -> plain_op o ->
  plain_stores (pp_stores (snd (p_step s o))) /\ no_start (pp_trace (snd (p_step s o))).
Proof.
  assert (A : forall s p, plain_stores (pp_stores s) -> no_start (pp_trace s) ->
            plain_stores (pp_stores (snd (p_acquire s p None))) /\ no_start (pp_trace (snd (p_acquire s p None)))).
  { intros s p H1 H2. unfold p_acquire. destruct (negb _); auto. destruct (_ =? _); cbn; auto. rewrite app_nil_r. auto. }
  intros s [p e|k|h att rdy|h|h] H1 H2 P; cbn [p_step].
  - cbn in P. subst e. auto.
  - unfold p_store. destruct (nth_error (pp_stores s) k) as [[p e]|] eqn:K; auto.
    assert (e = None). { unfold plain_stores in H1. rewrite Forall_forall in H1. exact (H1 _ (nth_error_In _ _ K)). }
    subst e. apply A; auto. cbn. apply Forall_sn; auto.
  - unfold p_fifo. destruct (nth_error (pp_streams s) h) as [st|]; auto. destruct (ps_phase st); auto.
    destruct (opens att); cbn; auto. destruct (_ =? _); auto. destruct (_ || _); cbn; (split; [auto|]); apply Forall_app; split; auto; constructor; cbn; auto.
  - destruct (nth_error (pp_streams s) h) as [st|]; auto. destruct (ps_phase st); cbn; auto.
  - destruct (nth_error (pp_streams s) h) as [st|]; auto. destruct (ps_phase st); cbn; auto.
Qed.

Lemma plain_run : forall ops s, plain_stores (pp_stores s) -> no_start (pp_trace s) -> Forall plain_op ops ->
  no_start (pp_trace (snd (p_run s ops))).
Proof.
  induction ops as [|o ops IH]; intros s H1 H2 F; [exact H2|]. rewrite run_snd. inversion F; subst.
  destruct (plain_step s o) as [A B]; auto.
Qed.

Lemma plain_seq : forall p tr n, no_start tr -> in_sequence p n tr ->
  opened_of p tr = map (fun k => n + Z.of_nat k) (seq 0 (length (opened_of p tr))).
Proof.
  induction tr as [|[q i|q i] tr IH]; intros n H S0; inversion H as [|? ? H1 H2]; subst; cbn in *; auto; [contradiction|].
  destruct (path_dec q p); auto. destruct S0 as [-> S0]. cbn. f_equal; [lia|]. rewrite (IH _ H2 S0) at 1.
  rewrite <- seq_shift, map_map. apply map_ext. intros. lia.
Qed.

Lemma C48_numbers_l : forall stores ops p, plain_stores stores -> Forall plain_op ops -> tidy (pipe_start stores) ops ->
  let l := opened_of p (pp_trace (snd (p_run (pipe_start stores) ops))) in
  l = map Z.of_nat (seq 0 (length l)).
Proof.
  intros stores ops p Hp Ho Ht l. unfold l. rewrite (plain_seq p _ 0) at 1.
  - apply map_ext. intros; lia.
  - apply plain_run; auto. constructor.
  - apply C48_single_l; auto.
    + unfold plain_stores, sane_stores in *. rewrite Forall_forall in *. intros x J. rewrite (Hp _ J). exact I.
    + rewrite Forall_forall in *. intros o J. specialize (Ho _ J). destruct o; cbn in *; auto. subst; exact I.
Qed.

(* ---------------- Reading ---------------- *)

Lemma sys_read : forall f n a f', fifo_sys_read f n = (a, f') -> (0 < n)%nat ->
  match a with
  | Some l => l ++ ff_rest f' = ff_rest f /\ (length l <= n)%nat /\ (l = [] -> ff_rest f' = [])
  | None => ff_rest f' = ff_rest f
  end.
Proof.
  intros [rest sched] n a f'. unfold fifo_sys_read. cbn [ff_sched ff_rest].
  assert (T : forall m, (0 < m)%nat -> (m <= n)%nat -> firstn m rest ++ skipn m rest = rest /\ (length (firstn m rest) <= n)%nat /\
            (firstn m rest = [] -> skipn m rest = [])).
  { intros m Lm Ln. split; [apply firstn_skipn|]. split; [rewrite firstn_length; lia|].
    destruct m, rest; cbn; try lia; auto; discriminate. }
  destruct sched as [|[|k] t]; intros H L; cbv zeta in H.
  - injection H as <- <-; cbn [ff_rest]. apply T; lia.
  - injection H as <- <-; cbn [ff_rest]. reflexivity.
  - assert (M : (0 < Nat.min (S k) n <= n)%nat) by lia. remember (Nat.min (S k) n) as m eqn:Em.
    injection H as <- <-; cbn [ff_rest]. apply T; lia.
Qed.

Lemma read_spec : forall f n w r f', fifo_read f n w = (r, f') ->
  match r with
  | Ok l => l ++ ff_rest f' = ff_rest f /\ (length l <= n)%nat /\ (n <> 0%nat -> l = [] -> ff_rest f' = [])
  | Throw e => e = System_err /\ ff_rest f' = ff_rest f
  | _ => False
  end.
Proof.
  intros f n w r f'. unfold fifo_read. destruct (n =? 0)%nat eqn:N.
  - intros H; injection H as <- <-. cbn. split; auto. split; [lia|]. intros; lia.
  - assert (L : (0 < n)%nat) by lia.
    destruct (fifo_sys_read f n) as [a1 f1] eqn:E1. pose proof (sys_read _ _ _ _ E1 L) as S1.
    destruct a1; [intros H; injection H as <- <-; destruct S1 as (A & B & C); auto|].
    destruct (fifo_sys_read f1 n) as [a2 f2] eqn:E2. pose proof (sys_read _ _ _ _ E2 L) as S2.
    destruct a2; [intros H; injection H as <- <-; destruct S2 as (A & B & C); rewrite A; auto|].
    destruct (_ || _); [intros H; injection H as <- <-; split; auto; congruence|].
    destruct (fifo_sys_read f2 n) as [a3 f3] eqn:E3. pose proof (sys_read _ _ _ _ E3 L) as S3.
    destruct a3; intros H; injection H as <- <-; [destruct S3 as (A & B & C); rewrite A, S2; auto|split; auto; congruence].
Qed.

Lemma C48_read_l : forall content sched calls rs f',
  fifo_reads (mk_fifo content sched) calls = (rs, f') ->
  delivered rs ++ ff_rest f' = content /\
  Forall2 (fun c r => match r with Ok l => (length l <= fst c)%nat | Throw e => e = System_err | _ => False end) calls rs /\
  (forall k c, nth_error calls k = Some c -> fst c <> O -> nth_error rs k = Some (Ok []) -> delivered (firstn k rs) = content).
Proof.
  intros content sched. generalize (mk_fifo content sched) as f, (eq_refl : ff_rest (mk_fifo content sched) = content).
  intros f <-. clear sched. intros calls. revert f. induction calls as [|[n w] calls IH]; intros f rs f' H; cbn in H.
  - injection H as <- <-. split; auto. split; [constructor|]. intros [|k] c K; discriminate.
  - destruct (fifo_read f n w) as [r f1] eqn:E1. destruct (fifo_reads f1 calls) as [rs1 f2] eqn:E2. injection H as <- <-.
    pose proof (read_spec _ _ _ _ _ E1) as R. specialize (IH _ _ _ E2). destruct IH as (A & B & C).
    destruct r as [l|e| |]; try contradiction; cbn [delivered].
    + destruct R as (R1 & R2 & R3). split; [rewrite <- app_assoc, A; auto|]. split; [constructor; auto|].
      intros [|k] c K N J; cbn in *.
      * injection K as <-. injection J as ->. cbn in *. rewrite <- R1. cbn. rewrite (R3 N eq_refl). auto.
      * rewrite (C _ _ K N J). auto.
    + destruct R as [-> R]. rewrite <- R. split; auto. split; [constructor; auto|].
      intros [|k] c K N J; cbn in *; [discriminate|]. eauto.
Qed.

Lemma C48_waits_l : forall content sched n w, (0 < n)%nat ->
  ((exists f', fifo_read (mk_fifo content sched) n w = (Throw System_err, f')) <->
   firstn 2 sched = [O; O] /\ (w = 0 \/ w = -1 \/ nth_error sched 2 = Some O)).
Proof.
  intros content sched n w L. unfold fifo_read. destruct (n =? 0)%nat eqn:N; [lia|].
  destruct sched as [|[|a] [|[|b] t]]; cbn [fifo_sys_read ff_sched ff_rest firstn nth_error];
    try (split; [intros [f' H]; discriminate|intros [H _]; discriminate]).
  destruct (Z.eqb_spec w 0) as [->|W0]; cbn [orb]; [split; eauto|].
  destruct (Z.eqb_spec w (-1)) as [->|W1]; [split; eauto|].
  destruct t as [|[|c] t]; cbn [fifo_sys_read ff_sched ff_rest nth_error].
  - split; [intros [f' H]; discriminate|intros [_ [H|[H|H]]]; congruence].
  - split; eauto.
  - split; [intros [f' H]; discriminate|intros [_ [H|[H|H]]]; congruence].
Qed.

(* ---------------- Paths and opening ---------------- *)

Lemma valid_names : forall p, valid_path p = true <-> names_file p.
Proof.
  intros p. unfold valid_path, names_file. destruct (rev p) as [|c r] eqn:R.
  - split; [discriminate|]. intros (d & c & -> & _). rewrite rev_app_distr in R. discriminate.
  - assert (P : p = rev r ++ [c]) by (rewrite <- (rev_involutive p), R; reflexivity).
    destruct (N.eqb_spec c 47) as [A|A]; [|destruct (N.eqb_spec c 92) as [B|B]]; cbn [orb negb].
    + split; [discriminate|]. intros (d & c' & Q & X & Y). rewrite P in Q. apply app_inj_tail in Q. destruct Q; congruence.
    + split; [discriminate|]. intros (d & c' & Q & X & Y). rewrite P in Q. apply app_inj_tail in Q. destruct Q; congruence.
    + split; [|reflexivity]. intros _. exists (rev r), c. auto.
Qed.

Lemma opens_three : forall l, opens l = true <-> exists k, (k < 3)%nat /\ nth_error l k = Some true.
Proof.
  intros l. unfold opens. rewrite existsb_exists. split.
  - intros (b & I & ->). apply In_nth_error in I. destruct I as [k K]. exists k.
    assert (k < 3)%nat by (assert (k < length (firstn 3 l))%nat by (apply nth_error_Some; congruence); rewrite firstn_length in *; lia).
    split; [assumption|]. rewrite <- K. symmetry. clear K. revert l. destruct k as [|[|[|k]]]; [..|lia]; intros [|a [|b [|c l]]]; reflexivity.
  - intros (k & L & K). exists true. split; [|reflexivity]. apply nth_error_In with k. rewrite <- K. clear K.
    destruct k as [|[|[|k]]]; [..|lia]; destruct l as [|a [|b [|c l]]]; reflexivity.
Qed.

Lemma C48_open_l : forall s h st attempts ready,
  nth_error (pp_streams s) h = Some st -> ps_phase st = Ph_made -> ps_id st <> 2 ^ 63 - 1 ->
  let ok := (exists k, (k < 3)%nat /\ nth_error attempts k = Some true) /\ ready <> 0 /\ ready <> -1 in
  let '(r, s') := p_step s (P_fifo h attempts ready) in
  (ok -> r = Ok Po_done /\ exists st', nth_error (pp_streams s') h = Some st' /\ ps_path st' = ps_path st /\ ps_phase st' = Ph_ready) /\
  (~ ok -> r = Throw System_err /\ exists st', nth_error (pp_streams s') h = Some st' /\ ps_path st' = ps_path st /\ ps_phase st' = Ph_dead).
Proof.
  intros s h st attempts ready H P I. cbv zeta. cbn [p_step]. unfold p_fifo. rewrite H, P.
  destruct (opens attempts) eqn:O.
  - apply opens_three in O. destruct (Z.eqb_spec (ps_id st) (2 ^ 63 - 1)); [contradiction|].
    destruct (Z.eqb_spec ready 0) as [A|A]; [|destruct (Z.eqb_spec ready (-1)) as [B|B]]; cbn [orb].
    + split; [intros (_ & K & _); congruence|]. intros _. split; [reflexivity|]. eexists. split; [cbn; eapply sn_same; eapply sn_same; exact H|split; reflexivity].
    + split; [intros (_ & _ & K); congruence|]. intros _. split; [reflexivity|]. eexists. split; [cbn; eapply sn_same; eapply sn_same; exact H|split; reflexivity].
    + split; [|intros K; exfalso; apply K; auto]. intros _. split; [reflexivity|]. eexists. split; [cbn; eapply sn_same; exact H|split; reflexivity].
  - split.
    + intros (K & _). apply opens_three in K. congruence.
    + intros _. split; [reflexivity|]. eexists. split; [cbn; eapply sn_same; exact H|split; reflexivity].
Qed.
