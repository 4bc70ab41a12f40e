From Verif Require Import Common Model_ptr Spec_ptr.

(* ---------------- Lists ---------------- *)

Lemma upd_same : forall A (l : list A) h x y, nth_error l h = Some y -> nth_error (upd h x l) h = Some x.
Proof. induction l; intros [|h] x y H; cbn in *; try discriminate; eauto. Qed.
Lemma upd_other : forall A (l : list A) h h' x, h <> h' -> nth_error (upd h x l) h' = nth_error l h'.
Proof. induction l; intros [|h] [|h'] x N; cbn in *; auto; try congruence. Qed.
Lemma upd_len : forall A (l : list A) h x, length (upd h x l) = length l.
Proof. induction l; intros [|h] x; cbn; auto. Qed.
Lemma upd_upd : forall A (l : list A) h x y, upd h x (upd h y l) = upd h x l.
Proof. induction l; intros [|h] x y; cbn; auto. f_equal; auto. Qed.
Lemma upd_comm : forall A (l : list A) i j x y, i <> j -> upd i x (upd j y l) = upd j y (upd i x l).
Proof. induction l; intros [|i] [|j] x y N; cbn; auto; try congruence. f_equal. apply IHl. congruence. Qed.
Lemma upd_id : forall A (l : list A) h x, nth_error l h = Some x -> upd h x l = l.
Proof. induction l; intros [|h] x H; cbn in *; auto; try congruence. f_equal; auto. Qed.
Lemma upd_none : forall A (l : list A) h x, nth_error l h = None -> upd h x l = l.
Proof. induction l; intros [|h] x H; cbn in *; auto; try congruence. f_equal; auto. Qed.

Definition occ (o : nat) (l : list nat) : nat := count_occ Nat.eq_dec l o.
Lemma occ_nil : forall o, occ o [] = 0.
Proof. reflexivity. Qed.
Local Arguments occ : simpl never.
Local Arguments targets : simpl never.
Ltac olia := rewrite ?occ_nil in *; lia.
Lemma occ_app : forall o a b, occ o (a ++ b) = occ o a + occ o b.
Proof. intros. apply count_occ_app. Qed.
Lemma occ_in : forall o l, In o l <-> 0 < occ o l.
Proof. intros. unfold occ. rewrite (count_occ_In Nat.eq_dec). olia. Qed.

Lemma occ_upd : forall A (f : A -> list nat) l i x y o, nth_error l i = Some y ->
  occ o (flat_map f (upd i x l)) + occ o (f y) = occ o (flat_map f l) + occ o (f x).
Proof.
  induction l as [|a l IH]; intros [|i] x y o H; cbn in H; try discriminate; cbn [upd flat_map]; rewrite !occ_app.
  - injection H as ->. olia.
  - specialize (IH i x y o H). olia.
Qed.
Lemma occ_del : forall l i y o, nth_error l i = Some y -> occ o (del i l) + occ o [y] = occ o l.
Proof.
  induction l as [|a l IH]; intros [|i] y o H; cbn [nth_error del] in *; try discriminate.
  - injection H as ->. change (y :: l) with ([y] ++ l). rewrite occ_app. olia.
  - specialize (IH i y o H). change (a :: l) with ([a] ++ l). change (a :: del i l) with ([a] ++ del i l). rewrite !occ_app. olia.
Qed.

Definition vrefs (v : option nat) : list nat := match v with Some o => [o] | None => [] end.
Lemma targets_flat : forall l, targets l = flat_map vrefs l.
Proof. reflexivity. Qed.
Lemma targets_app : forall a b, targets (a ++ b) = targets a ++ targets b.
Proof. intros. apply flat_map_app. Qed.
Lemma targets_one : forall v, targets [v] = vrefs v.
Proof. destruct v; reflexivity. Qed.

(* ---------------- The invariant ---------------- *)

Definition brefs (b : obj) : list nat := if o_alive b then targets (o_fields b) else [].
Definition hrefs (h : heap) : list nat := flat_map brefs h.
Local Arguments hrefs : simpl never.
Definition sref (x : option (option nat)) : list nat := match x with Some v => vrefs v | None => [] end.
Definition refs (s : rstate) (P : list nat) : list nat :=
  flat_map sref (r_roots s) ++ targets (r_raws s) ++ hrefs (r_heap s) ++ P.

Definition cd (h : heap) (o : nat) : option (nat * nat) := option_map (fun b => (o_cnt b, o_dels b)) (nth_error h o).
Definition good (c : option (nat * nat)) (f : nat) : Prop :=
  match c with
  | None => f = 0
  | Some (n, 0) => n = f /\ 0 < n
  | Some (_, 1) => f = 0
  | Some _ => False
  end.
Definition inv (s : rstate) (P : list nat) : Prop := forall o, good (cd (r_heap s) o) (occ o (refs s P)).

Local Arguments refs : simpl never.
Lemma occ_refs : forall s P o,
  occ o (refs s P) = occ o (flat_map sref (r_roots s)) + occ o (targets (r_raws s)) + occ o (hrefs (r_heap s)) + occ o P.
Proof. intros. unfold refs. rewrite !occ_app. olia. Qed.

Lemma inv_alive : forall s P o, inv s P -> 0 < occ o (refs s P) ->
  exists b, nth_error (r_heap s) o = Some b /\ o_dels b = 0 /\ o_cnt b = occ o (refs s P).
Proof.
  intros s P o H L. specialize (H o). unfold cd in H. destruct (nth_error (r_heap s) o) as [b|]; cbn in H; [|olia].
  exists b. destruct (o_dels b) as [|[|d]]; try olia; try contradiction. intuition.
Qed.

Lemma in_flat_nth : forall A (f : A -> list nat) l i x o, nth_error l i = Some x -> In o (f x) -> 0 < occ o (flat_map f l).
Proof. intros A f l i x o H K. apply occ_in. apply in_flat_map. exists x. eauto using nth_error_In. Qed.

Lemma refs_root : forall s P r o, nth_error (r_roots s) r = Some (Some (Some o)) -> 0 < occ o (refs s P).
Proof. intros s P r o H. rewrite occ_refs. pose proof (in_flat_nth _ sref _ _ _ o H (or_introl eq_refl)). olia. Qed.
Lemma refs_raw : forall s P r o, nth_error (r_raws s) r = Some (Some o) -> 0 < occ o (refs s P).
Proof. intros s P r o H. rewrite occ_refs, targets_flat. pose proof (in_flat_nth _ vrefs _ _ _ o H (or_introl eq_refl)). olia. Qed.
Lemma refs_field : forall s P i b k o, nth_error (r_heap s) i = Some b -> o_alive b = true -> nth_error (o_fields b) k = Some (Some o) ->
  0 < occ o (refs s P).
Proof.
  intros s P i b k o H A K. rewrite occ_refs. assert (0 < occ o (hrefs (r_heap s))).
  { unfold hrefs. eapply in_flat_nth; eauto. unfold brefs. rewrite A, targets_flat. apply occ_in. eapply in_flat_nth; eauto. left; auto. }
  olia.
Qed.
Lemma refs_slot : forall s P x o, get_slot s x = Ok (Some o) -> 0 < occ o (refs s P).
Proof.
  intros s P [r|i k] o H; cbn in H.
  - destruct (nth_error (r_roots s) r) as [[v|]|] eqn:K; try discriminate. injection H as ->. eapply refs_root; eauto.
  - destruct (nth_error (r_heap s) i) as [b|] eqn:K; try discriminate. destruct (o_alive b) eqn:A; try discriminate.
    destruct (nth_error (o_fields b) k) as [v|] eqn:F; try discriminate. injection H as ->. eapply refs_field; eauto.
Qed.

Lemma alive_0 : forall b, o_alive b = true <-> o_dels b = 0.
Proof. intros. unfold o_alive. apply Nat.eqb_eq. Qed.

(* ---------------- Counting up ---------------- *)

Lemma inc_ok : forall s P v, (forall o, v = Some o -> 0 < occ o (refs s P)) -> inv s P ->
  exists h1, inc_ref (r_heap s) v = Ok h1 /\
    (forall o f, good (cd (r_heap s) o) f -> f = occ o (refs s P) -> good (cd h1 o) (f + occ o (vrefs v))) /\
    hrefs h1 = hrefs (r_heap s) /\
    (forall s', r_heap s' = h1 -> forall o k, r_roots s' = r_roots s -> get_slot s' (Field o k) = get_slot s (Field o k)).
Proof.
  intros s P [a|] Hv Hi; cbn [inc_ref].
  2:{ exists (r_heap s). split; auto. split; [intros; cbn; rewrite Nat.add_0_r; auto|]. split; auto.
      intros s' E o k _. cbn. rewrite E. reflexivity. }
  destruct (inv_alive _ _ _ Hi (Hv a eq_refl)) as (b & K & D & C). rewrite K.
  assert (A : o_alive b = true) by (apply alive_0; auto). rewrite A.
  set (b' := mk_obj (S (o_cnt b)) 0 (o_fields b)). exists (upd a b' (r_heap s)). split; auto. split; [|split].
  - intros o f G Ef. unfold cd in *. destruct (Nat.eq_dec a o) as [ <- |N].
    + rewrite (upd_same _ _ _ _ _ K). rewrite K in G. cbn in *. rewrite D in G. unfold occ. cbn.
      destruct (Nat.eq_dec a a); [|congruence]. olia.
    + rewrite (upd_other _ _ _ _ _ N). replace (f + occ o (vrefs (Some a))) with f; auto.
      unfold occ. cbn. destruct (Nat.eq_dec a o); [congruence|olia].
  - unfold hrefs. clear -K A D. revert a K. induction (r_heap s) as [|x l IH]; intros [|a] K; cbn in *; try discriminate; auto.
    + injection K as ->. unfold brefs. rewrite A. reflexivity.
    + rewrite IH; auto.
  - intros s' E o k _. cbn. rewrite E. destruct (Nat.eq_dec a o) as [ <- |N].
    + rewrite (upd_same _ _ _ _ _ K), K, A. reflexivity.
    + rewrite (upd_other _ _ _ _ _ N). reflexivity.
Qed.

(* ---------------- Writing a pointer ---------------- *)

Definition setf (h : heap) (o k : nat) (v : option nat) : heap :=
  match nth_error h o with
  | Some b => upd o (mk_obj (o_cnt b) (o_dels b) (upd k v (o_fields b))) h
  | None => h
  end.

Lemma put_ok : forall s P x v old, get_slot s x = Ok old ->
  exists s1, put_slot s x v = Ok s1 /\
    (forall o, cd (r_heap s1) o = cd (r_heap s) o) /\
    (forall o, occ o (refs s1 P) + occ o (vrefs old) = occ o (refs s P) + occ o (vrefs v)) /\
    get_slot s1 x = Ok v /\ (forall y, y <> x -> get_slot s1 y = get_slot s y) /\
    r_raws s1 = r_raws s /\
    match x with
    | Root r => r_roots s1 = upd r (Some v) (r_roots s) /\ r_heap s1 = r_heap s
    | Field o k => r_roots s1 = r_roots s /\ r_heap s1 = setf (r_heap s) o k v
    end.
Proof.
  intros s P [r|o k] v old H; cbn [get_slot put_slot] in *.
  - destruct (nth_error (r_roots s) r) as [[v0|]|] eqn:K; try discriminate. injection H as ->.
    eexists. split; [reflexivity|]. split; [auto|]. split.
    { intros o. rewrite !occ_refs. cbn. pose proof (occ_upd _ sref (r_roots s) r (Some v) _ o K) as U. cbn in U. olia. }
    split; [cbn; rewrite (upd_same _ _ _ _ _ K); auto|]. split; [|cbn; auto].
    intros [r'|o k] N; cbn; auto. rewrite upd_other by congruence. auto.
  - destruct (nth_error (r_heap s) o) as [b|] eqn:K; try discriminate. destruct (o_alive b) eqn:A; try discriminate.
    destruct (nth_error (o_fields b) k) as [v0|] eqn:F; try discriminate. injection H as ->.
    assert (L : k <? length (o_fields b) = true) by (apply Nat.ltb_lt, nth_error_Some; congruence). rewrite L.
    set (b' := mk_obj (o_cnt b) (o_dels b) (upd k v (o_fields b))).
    assert (A' : o_alive b' = true) by (apply alive_0; apply alive_0 in A; exact A).
    eexists. split; [reflexivity|]. split; [|split].
    + intros o'. unfold cd. cbn. destruct (Nat.eq_dec o o') as [ <- |N].
      * rewrite (upd_same _ _ _ _ _ K), K. reflexivity.
      * rewrite upd_other; auto.
    + intros o'. rewrite !occ_refs. cbn. pose proof (occ_upd _ brefs (r_heap s) o b' _ o' K) as U.
      pose proof (occ_upd _ vrefs (o_fields b) k v _ o' F) as U2. unfold hrefs in *. unfold brefs at 2 4 in U. rewrite A, A' in U.
      cbn in U. rewrite (targets_flat (o_fields b)), (targets_flat (upd k v (o_fields b))) in U. olia.
    + split; [cbn; rewrite (upd_same _ _ _ _ _ K), A'; cbn; rewrite (upd_same _ _ _ _ _ F); auto|]. split; [|split; auto; split; auto].
      * intros [r'|o' k'] N; cbn; auto. destruct (Nat.eq_dec o o') as [ <- |N'].
        { rewrite (upd_same _ _ _ _ _ K), K, A, A'. cbn. rewrite upd_other by congruence. auto. }
        { rewrite upd_other; auto. }
      * cbn. unfold setf. rewrite K. reflexivity.
Qed.

(* ---------------- Counting down ---------------- *)

Lemma total_upd : forall h o b b', nth_error h o = Some b -> total (upd o b' h) + o_cnt b = total h + o_cnt b'.
Proof. induction h as [|x h IH]; intros [|o] b b' H; cbn in *; try discriminate; [injection H as ->; olia|]. specialize (IH o b b' H). olia. Qed.

Lemma dec_one_ok : forall s P P' o, inv s P -> (forall x, occ x P = occ x P' + occ x [o]) ->
  exists h1 more, dec_one (r_heap s) o = Ok (h1, more) /\ inv (with_heap s h1) (more ++ P') /\ S (total h1) = total (r_heap s).
Proof.
  intros s P P' o Hi HP.
  assert (occ_o : forall x, x <> o -> occ x [o] = 0) by (intros x N; unfold occ; cbn; destruct (Nat.eq_dec o x); [congruence|auto]).
  assert (occ_s : occ o [o] = 1) by (unfold occ; cbn; destruct (Nat.eq_dec o o); [auto|congruence]).
  assert (L : 0 < occ o (refs s P)) by (rewrite occ_refs, HP, occ_s; olia).
  destruct (inv_alive _ _ _ Hi L) as (b & K & D & C). unfold dec_one. rewrite K.
  assert (A : o_alive b = true) by (apply alive_0; auto). rewrite A.
  destruct (o_cnt b) as [|[|c]] eqn:Ec; [olia| |].
  - set (b' := mk_obj 0 (S (o_dels b)) (o_fields b)). exists (upd o b' (r_heap s)), (targets (o_fields b)). split; auto. split.
    + intros x. assert (OC : occ x (refs (with_heap s (upd o b' (r_heap s))) (targets (o_fields b) ++ P')) + occ x [o] = occ x (refs s P)).
      { rewrite !occ_refs, occ_app, HP. cbn. pose proof (occ_upd _ brefs (r_heap s) o b' _ x K) as U. unfold brefs at 2 4 in U. rewrite A in U.
        replace (o_alive b') with false in U by reflexivity. cbn in U. unfold hrefs in *. olia. }
      unfold cd. cbn. destruct (Nat.eq_dec o x) as [ <- |N].
      * rewrite (upd_same _ _ _ _ _ K). cbn. rewrite D. olia.
      * rewrite (upd_other _ _ _ _ _ N). rewrite occ_o in OC by auto. rewrite Nat.add_0_r in OC. rewrite OC. apply Hi.
    + pose proof (total_upd _ _ _ b' K) as T. cbn in T. olia.
  - set (b' := mk_obj (S c) (o_dels b) (o_fields b)). exists (upd o b' (r_heap s)), []. split; auto. split.
    + intros x. assert (OC : occ x (refs (with_heap s (upd o b' (r_heap s))) ([] ++ P')) + occ x [o] = occ x (refs s P)).
      { rewrite !occ_refs, HP. cbn. pose proof (occ_upd _ brefs (r_heap s) o b' _ x K) as U. unfold brefs at 2 4 in U. rewrite A in U.
        replace (o_alive b') with true in U by (unfold o_alive, b'; cbn; rewrite D; reflexivity). cbn in U. unfold hrefs in *. olia. }
      unfold cd. cbn. destruct (Nat.eq_dec o x) as [ <- |N].
      * rewrite (upd_same _ _ _ _ _ K). cbn. rewrite D. cbn in OC. olia.
      * rewrite (upd_other _ _ _ _ _ N). rewrite occ_o in OC by auto. rewrite Nat.add_0_r in OC. cbn in OC. rewrite OC. apply Hi.
    + pose proof (total_upd _ _ _ b' K) as T. cbn in T. olia.
Qed.

Lemma dec_all_ok : forall fuel s P, inv s P -> total (r_heap s) <= fuel ->
  exists h1, dec_all fuel (r_heap s) P = Ok h1 /\ inv (with_heap s h1) [].
Proof.
  induction fuel as [|f IH]; intros s P Hi L; destruct P as [|o P].
  - exists (r_heap s). split; auto.
  - destruct (dec_one_ok s (o :: P) P o Hi) as (h1 & more & E & _ & T); [|olia].
    intros x. change (o :: P) with ([o] ++ P). rewrite occ_app. olia.
  - exists (r_heap s). split; auto.
  - cbn. destruct (dec_one_ok s (o :: P) P o Hi) as (h1 & more & E & I1 & T).
    { intros x. change (o :: P) with ([o] ++ P). rewrite occ_app. olia. }
    rewrite E. cbn. destruct (IH (with_heap s h1) (more ++ P) I1) as (h2 & E2 & I2); [cbn; olia|]. exists h2. auto.
Qed.

Lemma dec_one_fields : forall h o h1 more i b1, dec_one h o = Ok (h1, more) -> nth_error h1 i = Some b1 ->
  exists b, nth_error h i = Some b /\ o_fields b = o_fields b1 /\ (o_alive b1 = true -> o_alive b = true).
Proof.
  intros h o h1 more i b1 H K. unfold dec_one in H. destruct (nth_error h o) as [b|] eqn:Ko; [|discriminate].
  destruct (o_alive b) eqn:A; [|discriminate].
  destruct (o_cnt b) as [|[|c]]; try discriminate; injection H as <- _; destruct (Nat.eq_dec o i) as [ <- |N].
  1,3: rewrite (upd_same _ _ _ _ _ Ko) in K; injection K as <-; exists b; auto.
  all: rewrite (upd_other _ _ _ _ _ N) in K; exists b1; auto.
Qed.
Lemma dec_all_fields : forall fuel h P h1 i b1, dec_all fuel h P = Ok h1 -> nth_error h1 i = Some b1 ->
  exists b, nth_error h i = Some b /\ o_fields b = o_fields b1 /\ (o_alive b1 = true -> o_alive b = true).
Proof.
  induction fuel as [|f IH]; intros h P h1 i b1 H K; destruct P as [|o P]; cbn in H; try discriminate;
    try (injection H as <-; eauto; fail).
  destruct (dec_one h o) as [[h2 more]| | |] eqn:E; cbn in H; try discriminate.
  destruct (IH _ _ _ _ _ H K) as (b2 & K2 & F2 & A2). destruct (dec_one_fields _ _ _ _ _ _ E K2) as (b & K' & F & A).
  exists b. split; auto. split; [congruence|auto].
Qed.

(* A pointer inside an object that survives does not matter meanwhile. *)
Lemma setf_nth_other : forall h oc k v i, oc <> i -> nth_error (setf h oc k v) i = nth_error h i.
Proof. intros. unfold setf. destruct (nth_error h oc); auto. apply upd_other; auto. Qed.
Lemma setf_nth_same : forall h oc k v b, nth_error h oc = Some b ->
  nth_error (setf h oc k v) oc = Some (mk_obj (o_cnt b) (o_dels b) (upd k v (o_fields b))).
Proof. intros h oc k v b H. unfold setf. rewrite H. eapply upd_same; eauto. Qed.
Lemma setf_total : forall h oc k v, total (setf h oc k v) = total h.
Proof. intros. unfold setf. destruct (nth_error h oc) as [b|] eqn:K; auto. pose proof (total_upd _ _ _ (mk_obj (o_cnt b) (o_dels b) (upd k v (o_fields b))) K) as T. cbn in T. olia. Qed.
Lemma setf_setf : forall h oc k v w, setf (setf h oc k v) oc k w = setf h oc k w.
Proof.
  intros. destruct (nth_error h oc) as [b|] eqn:K.
  - unfold setf at 1. rewrite (setf_nth_same _ _ _ _ _ K). cbn. unfold setf. rewrite K, !upd_upd. reflexivity.
  - unfold setf. rewrite !K. reflexivity.
Qed.

Lemma dec_one_setf : forall h oc k v o h1' more, dec_one (setf h oc k v) o = Ok (h1', more) ->
  (forall b, nth_error h1' oc = Some b -> o_alive b = true) ->
  exists h1, dec_one h o = Ok (h1, more) /\ setf h1 oc k v = h1'.
Proof.
  intros h oc k v o h1' more H A. destruct (Nat.eq_dec oc o) as [ <- |N].
  - unfold dec_one in *. destruct (nth_error h oc) as [b|] eqn:K.
    + rewrite (setf_nth_same _ _ _ _ _ K) in H. cbn in H. unfold o_alive in H. cbn in H. fold (o_alive b) in H.
      destruct (o_alive b) eqn:AL; [|discriminate].
      assert (S0 : nth_error (setf h oc k v) oc = Some (mk_obj (o_cnt b) (o_dels b) (upd k v (o_fields b)))) by (apply setf_nth_same; auto).
      destruct (o_cnt b) as [|[|c]] eqn:Ec; [discriminate| |]; injection H as <- <-.
      * exfalso. specialize (A _ (upd_same _ _ _ _ _ S0)). apply alive_0 in A. discriminate.
      * eexists. split; [reflexivity|]. unfold setf. rewrite (upd_same _ _ _ _ _ K), K. cbn. rewrite !upd_upd. reflexivity.
    + unfold setf in H. rewrite K in H. rewrite K in H. discriminate.
  - unfold dec_one in *. rewrite setf_nth_other in H by auto. destruct (nth_error h o) as [b|] eqn:K; [|discriminate].
    destruct (o_alive b); [|discriminate].
    assert (C : forall b', setf (upd o b' h) oc k v = upd o b' (setf h oc k v)).
    { intros b'. unfold setf. rewrite upd_other by auto. destruct (nth_error h oc); auto. apply upd_comm. auto. }
    destruct (o_cnt b) as [|[|c]]; try discriminate; injection H as <- <-; eexists; (split; [reflexivity|apply C]).
Qed.

Lemma dec_all_setf : forall fuel h oc k v P h1', dec_all fuel (setf h oc k v) P = Ok h1' ->
  (exists b, nth_error h1' oc = Some b /\ o_alive b = true) ->
  exists h1, dec_all fuel h P = Ok h1 /\ setf h1 oc k v = h1'.
Proof.
  induction fuel as [|f IH]; intros h oc k v P h1' H A; destruct P as [|o P]; cbn [dec_all] in *; try discriminate;
    try (injection H as <-; eauto; fail).
  destruct (dec_one (setf h oc k v) o) as [[h2' more]| | |] eqn:E; cbn in H; try discriminate.
  destruct A as (b & K & AL). destruct (dec_all_fields _ _ _ _ _ _ H K) as (b2 & K2 & _ & A2).
  destruct (dec_one_setf _ _ _ _ _ _ _ E) as (h2 & E2 & S2); [intros b' K'; rewrite K2 in K'; injection K' as <-; auto|].
  rewrite E2. cbn. subst h2'. apply IH; eauto.
Qed.

(* Giving up the value of a pointer. *)
Lemma within_get : forall s P d x, inv s P -> within_reach s d x -> exists v, get_slot s x = Ok v.
Proof.
  intros s P d [r|o k] Hi H; cbn in *.
  - destruct H as [v ->]. eauto.
  - destruct H as [(r & K & _) (b & Kb & L)]. rewrite Kb.
    destruct (inv_alive _ _ _ Hi (refs_root _ _ _ _ K)) as (b' & K' & D & _). rewrite Kb in K'. injection K' as <-.
    apply alive_0 in D. rewrite D. destruct (nth_error (o_fields b) k) eqn:F; eauto. apply nth_error_None in F. olia.
Qed.

Lemma drop_ok : forall s d old, inv s [] -> within_reach s None d -> get_slot s d = Ok old ->
  exists h1 s1, dec_ref (r_heap s) old = Ok h1 /\ inv s1 [] /\ get_slot s1 d = Ok None /\
    (forall v, put_slot (with_heap s h1) d v = put_slot s1 d v) /\
    put_slot (with_heap s h1) d None = Ok s1 /\
    (forall x, x <> d -> within_reach s (Some d) x -> get_slot s1 x = get_slot s x) /\
    (match d with Root r => r_roots s1 = upd r (Some None) (r_roots s) | Field _ _ => r_roots s1 = r_roots s end) /\
    (match d with Root _ => r_heap s1 = h1 | Field _ _ => True end) /\ r_raws s1 = r_raws s.
Proof.
  intros s d old Hi Hw Hg.
  destruct (put_ok s [] d None old Hg) as (s0 & E0 & C0 & O0 & G0 & Y0 & W0 & X0).
  assert (I0 : inv s0 (vrefs old)).
  { intros o. rewrite C0. specialize (O0 o). rewrite occ_refs in *. cbn in O0. rewrite Nat.add_0_r in O0.
    replace (_ + _) with (occ o (refs s [])); [apply Hi|]. rewrite !occ_refs. cbn in *. rewrite !occ_refs in O0. cbn in O0. olia. }
  destruct (dec_all_ok (total (r_heap s0)) s0 _ I0 (le_n _)) as (h1' & E1 & I1).
  assert (KEEP : forall x, x <> d -> within_reach s (Some d) x -> get_slot (with_heap s0 h1') x = get_slot s x).
  { intros [r|o k] N W.
    - rewrite <- (Y0 (Root r) N). reflexivity.
    - cbn in W. destruct W as [(r & K & Nd) (b & Kb & L)].
      assert (R1 : nth_error (r_roots (with_heap s0 h1')) r = Some (Some (Some o))).
      { cbn. assert (Gr : get_slot s0 (Root r) = get_slot s (Root r)) by (apply Y0; congruence). cbn in Gr. rewrite K in Gr.
        destruct (nth_error (r_roots s0) r) as [[v|]|]; congruence. }
      destruct (inv_alive _ _ _ I1 (refs_root _ _ _ _ R1)) as (b1 & K1 & D1 & _). cbn in K1.
      destruct (dec_all_fields _ _ _ _ _ _ E1 K1) as (b0 & K0 & F0 & A0).
      rewrite <- (Y0 (Field o k) N). cbn. rewrite K1, K0, <- F0. apply alive_0 in D1. rewrite D1, (A0 D1). reflexivity. }
  destruct d as [r|oc k]; destruct X0 as [X0 X1].
  - (* a variable: the objects are not touched by writing it *)
    exists h1', (with_heap s0 h1'). unfold dec_ref. rewrite targets_one. rewrite X1 in E1. split; [exact E1|]. split; [exact I1|].
    cbn in Hg. destruct (nth_error (r_roots s) r) as [[v0|]|] eqn:K; try discriminate.
    split; [cbn; rewrite X0, (upd_same _ _ _ _ _ K); auto|]. split; [|split; [|split; [exact KEEP|cbn; auto]]].
    + intros v. cbn. rewrite X0, K, (upd_same _ _ _ _ _ K), upd_upd, W0. reflexivity.
    + cbn. rewrite K. unfold with_heap. cbn. rewrite X0, W0. reflexivity.
  - (* a member: its object survives because a variable holds it *)
    cbn in Hw. destruct Hw as [(r & K & _) (b & Kb & L)].
    assert (R1 : nth_error (r_roots (with_heap s0 h1')) r = Some (Some (Some oc))) by (cbn; rewrite X0; exact K).
    destruct (inv_alive _ _ _ I1 (refs_root _ _ _ _ R1)) as (b1 & K1 & D1 & _). cbn in K1.
    rewrite X1, setf_total in E1. destruct (dec_all_setf _ _ _ _ _ _ _ E1) as (h1 & E1' & S1); [exists b1; split; auto; apply alive_0; auto|].
    assert (KH : exists b0, nth_error h1 oc = Some b0 /\ o_alive b0 = true /\ k < length (o_fields b0)).
    { rewrite <- S1 in K1. destruct (nth_error h1 oc) as [b0|] eqn:Kh; [|unfold setf in K1; rewrite Kh in K1; congruence].
      rewrite (setf_nth_same _ _ _ _ _ Kh) in K1. injection K1 as <-. exists b0. split; auto. split; [apply alive_0; exact D1|].
      destruct (dec_all_fields _ _ _ _ _ _ E1' Kh) as (bb & Kbb & Fb & _). rewrite Kb in Kbb. injection Kbb as <-. rewrite <- Fb. auto. }
    destruct KH as (b0 & Kh & Ah & Lh).
    exists h1, (with_heap s0 h1'). unfold dec_ref. rewrite targets_one. split; [exact E1'|]. split; [exact I1|].
    assert (PUT : forall s' v, r_heap s' = h1 -> put_slot s' (Field oc k) v = Ok (with_heap s' (setf h1 oc k v))).
    { intros s' v <-. unfold put_slot. rewrite Kh, Ah. apply Nat.ltb_lt in Lh. rewrite Lh. unfold setf. rewrite Kh. reflexivity. }
    split; [|split; [|split; [|split; [exact KEEP|cbn; auto]]]].
    + cbn. rewrite <- S1, (setf_nth_same _ _ _ _ _ Kh). unfold o_alive in *. cbn. rewrite Ah.
      destruct (nth_error (o_fields b0) k) eqn:F; [|apply nth_error_None in F; olia]. rewrite (upd_same _ _ _ _ _ F). reflexivity.
    + intros v. rewrite PUT by reflexivity. unfold put_slot. cbn [with_heap r_heap r_roots r_raws]. rewrite <- S1, (setf_nth_same _ _ _ _ _ Kh). unfold o_alive in *. cbn [o_dels o_cnt o_fields]. rewrite Ah.
      rewrite upd_len. assert (k <? length (o_fields b0) = true) as -> by (apply Nat.ltb_lt; auto). rewrite upd_upd.
      unfold with_heap. cbn. rewrite X0, W0. do 2 f_equal. unfold setf. rewrite Kh. rewrite upd_upd. reflexivity.
    + rewrite PUT by reflexivity. unfold with_heap. cbn. rewrite X0, W0, S1. reflexivity.
Qed.

(* ---------------- Operations ---------------- *)

Lemma inv_eq : forall s P s' P', inv s P -> (forall o, cd (r_heap s') o = cd (r_heap s) o) ->
  (forall o, occ o (refs s' P') = occ o (refs s P)) -> inv s' P'.
Proof. intros s P s' P' H C O o. rewrite C, O. apply H. Qed.

Lemma opt_eqb_eq : forall a b, opt_eqb a b = true <-> a = b.
Proof. intros [a|] [b|]; cbn; split; intros H; try congruence; try discriminate. apply Nat.eqb_eq in H. congruence. injection H as ->. apply Nat.eqb_refl. Qed.

Lemma refs_new_root : forall s v P o, occ o (refs (new_root s v) P) = occ o (refs s P) + occ o (vrefs v).
Proof. intros. rewrite !occ_refs. cbn. rewrite flat_map_app, occ_app. cbn. rewrite app_nil_r. olia. Qed.

Lemma refs_heap : forall s h P o, hrefs h = hrefs (r_heap s) -> occ o (refs (with_heap s h) P) = occ o (refs s P).
Proof. intros s h P o H. rewrite !occ_refs. cbn. rewrite H. reflexivity. Qed.

(* Copying a pointer value into a new variable. *)
Lemma copy_new : forall s P v, inv s P -> (forall o, v = Some o -> 0 < occ o (refs s P)) ->
  exists h1, inc_ref (r_heap s) v = Ok h1 /\ inv (new_root (with_heap s h1) v) P.
Proof.
  intros s P v Hi Hv. destruct (inc_ok s P v Hv Hi) as (h1 & E & G & R & _). exists h1. split; auto.
  intros o. rewrite refs_new_root, refs_heap by auto. apply G; auto.
Qed.

(* Creating an object. *)
Lemma cd_fresh : forall s P, inv s P -> occ (length (r_heap s)) (refs s P) = 0.
Proof. intros s P H. specialize (H (length (r_heap s))). unfold cd in H. destruct (nth_error (r_heap s) (length (r_heap s))) eqn:K; [|exact H]. assert (length (r_heap s) < length (r_heap s)) by (apply nth_error_Some; congruence). olia. Qed.

Lemma targets_repeat : forall n, targets (repeat None n) = [].
Proof. induction n; auto. Qed.

Lemma make_ok : forall s P n, inv s P ->
  let v := length (r_heap s) in
  exists h1, inc_ref (r_heap s ++ [mk_obj 0 0 (repeat None n)]) (Some v) = Ok h1 /\
    (forall o, good (cd h1 o) (occ o (refs s P) + occ o [v])) /\ hrefs h1 = hrefs (r_heap s) /\
    forall o, o < length (r_heap s) -> nth_error h1 o = nth_error (r_heap s) o.
Proof.
  intros s P n Hi v. unfold inc_ref, v. rewrite nth_error_app2, Nat.sub_diag by olia. cbn [nth_error]. cbn [o_alive o_dels Nat.eqb o_cnt o_fields].
  set (b := mk_obj 1 0 (repeat None n)). assert (U : forall l : heap, forall x, upd (length l) b (l ++ [x]) = l ++ [b]).
  { induction l; intros; cbn; auto. f_equal; auto. }
  rewrite U. eexists. split; [reflexivity|]. split; [|split].
  - intros o. unfold cd. pose proof (cd_fresh s P Hi) as F. destruct (Nat.lt_ge_cases o (length (r_heap s))) as [L|L].
    + rewrite nth_error_app1 by auto. unfold occ at 2. cbn. destruct (Nat.eq_dec (length (r_heap s)) o); [olia|]. rewrite Nat.add_0_r. apply Hi.
    + rewrite nth_error_app2 by auto. destruct (o - length (r_heap s)) as [|m] eqn:Q.
      * assert (o = length (r_heap s)) as -> by olia. cbn. rewrite F. unfold occ; cbn. destruct (Nat.eq_dec _ _); [olia|congruence].
      * assert (cd (r_heap s) o = None). { unfold cd. assert (nth_error (r_heap s) o = None) as -> by (apply nth_error_None; olia). auto. }
        specialize (Hi o). rewrite H in Hi. cbn in *. destruct m; cbn; rewrite Hi; unfold occ; cbn; destruct (Nat.eq_dec _ _); olia.
  - unfold hrefs. rewrite flat_map_app. cbn. unfold brefs at 2. cbn. rewrite targets_repeat. cbn. apply app_nil_r.
  - intros o L. apply nth_error_app1; auto.
Qed.

Lemma step_ok : forall s o, inv s [] -> proper s o -> exists s1, r_step s o = Ok s1 /\ inv s1 [].
Proof.
  intros s op Hi Hp. destruct op as [n| |x|x|d x|d x|d|r|d|i c|x]; cbn [r_step proper] in *.
  - (* make *)
    destruct (make_ok s [] n Hi) as (h1 & E & G & R & _). rewrite E. cbn. eexists. split; [reflexivity|].
    intros o. rewrite refs_new_root, refs_heap by auto. apply G.
  - eexists. split; [reflexivity|]. apply (inv_eq s []); auto. intros o. rewrite refs_new_root. cbn. olia.
  - destruct (within_get _ _ _ _ Hi Hp) as [v Gv]. rewrite Gv. cbn.
    destruct (copy_new s [] v Hi) as (h1 & E & I1); [intros o ->; eapply refs_slot; eauto|]. rewrite E. cbn. eauto.
  - destruct (within_get _ _ _ _ Hi Hp) as [v Gv]. rewrite Gv. cbn.
    destruct (put_ok s [] x None v Gv) as (s1 & E & C & O & _). rewrite E. cbn. eexists. split; [reflexivity|].
    apply (inv_eq s []); auto. intros o. rewrite refs_new_root. specialize (O o). cbn in O. olia.
  - (* copy assignment *)
    destruct Hp as [Wd Wx]. unfold copy_assign.
    assert (Gx : exists v, get_slot s x = Ok v) by (eapply within_get; eauto). destruct Gx as [v Gx].
    destruct (within_get _ _ _ _ Hi Wd) as [old Gd]. rewrite Gx, Gd. cbn.
    destruct (opt_eqb old v) eqn:Q; [eauto|].
    assert (Nx : x <> d). { intros ->. assert (old = v) by congruence. apply opt_eqb_eq in H. congruence. }
    destruct (drop_ok s d old Hi Wd Gd) as (h1 & s1 & E1 & I1 & G1 & P1 & _ & K1 & _). rewrite E1. cbn. rewrite P1.
    destruct (put_ok s1 [] d v None G1) as (s2 & E2 & C2 & O2 & _). rewrite E2. cbn.
    assert (Gx1 : get_slot s1 x = Ok v) by (rewrite K1; auto).
    assert (L1 : forall o, v = Some o -> 0 < occ o (refs s1 [])) by (intros o ->; eapply refs_slot; eauto).
    (* counting up does not look at the pointers *)
    destruct v as [a|]; cbn [inc_ref].
    2:{ eexists. split; [reflexivity|]. apply (inv_eq s1 []); auto. intros o. specialize (O2 o). cbn in O2. unfold with_heap. destruct s2; cbn in *. olia. }
    destruct (inv_alive _ _ _ I1 (L1 a eq_refl)) as (b & Kb & D & Cb).
    assert (Kb2 : exists b2, nth_error (r_heap s2) a = Some b2 /\ o_dels b2 = 0 /\ o_cnt b2 = o_cnt b).
    { specialize (C2 a). unfold cd in C2. rewrite Kb in C2. destruct (nth_error (r_heap s2) a) as [b2|]; [|discriminate]. cbn in C2. injection C2 as Q1 Q2. exists b2. rewrite Q1, Q2. auto. }
    destruct Kb2 as (b2 & Kb2 & D2 & Cb2). rewrite Kb2. assert (A2 : o_alive b2 = true) by (apply alive_0; auto). rewrite A2. cbn.
    set (b3 := mk_obj (S (o_cnt b2)) 0 (o_fields b2)).
    eexists. split; [reflexivity|].
    assert (HR : hrefs (upd a b3 (r_heap s2)) = hrefs (r_heap s2)).
    { unfold hrefs. clear -Kb2 A2. revert a Kb2 b3. induction (r_heap s2) as [|y l IH]; intros [|a] K b3; cbn in *; try discriminate; auto.
      - injection K as ->. unfold brefs. rewrite A2. reflexivity.
      - rewrite IH; auto. }
    intros o. rewrite refs_heap by auto. specialize (O2 o). cbn in O2. rewrite Nat.add_0_r in O2. rewrite O2. unfold cd. cbn [with_heap r_heap].
    destruct (Nat.eq_dec a o) as [ <- |N].
    + rewrite (upd_same _ _ _ _ _ Kb2). cbn. rewrite Cb2, Cb. unfold occ at 3. cbn. destruct (Nat.eq_dec a a); [olia|congruence].
    + rewrite (upd_other _ _ _ _ _ N). replace (occ o [a]) with 0 by (unfold occ; cbn; destruct (Nat.eq_dec a o); [congruence|auto]).
      rewrite Nat.add_0_r. fold (cd (r_heap s2) o). rewrite C2. apply I1.
  - (* move assignment *)
    destruct Hp as [Wd Wx]. unfold move_assign.
    assert (Gx : exists v, get_slot s x = Ok v) by (eapply within_get; eauto). destruct Gx as [v Gx].
    destruct (within_get _ _ _ _ Hi Wd) as [old Gd]. rewrite Gx, Gd. cbn.
    destruct (drop_ok s d old Hi Wd Gd) as (h1 & s1 & E1 & I1 & G1 & P1 & _ & K1 & _). rewrite E1. cbn. rewrite P1.
    destruct (put_ok s1 [] d v None G1) as (s2 & E2 & C2 & O2 & G2 & Y2 & _). rewrite E2. cbn.
    assert (Gx2 : get_slot s2 x = Ok v).
    { assert (DEC : x = d \/ x <> d) by (destruct x as [r1|o1 k1], d as [r2|o2 k2]; try (right; discriminate);
        [destruct (Nat.eq_dec r1 r2); [left|right]; congruence|destruct (Nat.eq_dec o1 o2), (Nat.eq_dec k1 k2); [left; congruence|right; congruence..]]).
      destruct DEC as [ -> |N]; [exact G2|]. rewrite Y2 by auto. rewrite K1; auto. }
    destruct (put_ok s2 [] x None v Gx2) as (s3 & E3 & C3 & O3 & _). exists s3. split; [exact E3|].
    apply (inv_eq s1 []); auto; [intros; rewrite C3; auto|]. intros o. specialize (O2 o). specialize (O3 o). cbn in O2, O3. olia.
  - destruct (within_get _ _ _ _ Hi Hp) as [old Gd]. rewrite Gd. cbn.
    destruct (drop_ok s d old Hi Hp Gd) as (h1 & s1 & E1 & I1 & _ & _ & P1 & _). rewrite E1. cbn. rewrite P1. eauto.
  - assert (W : within_reach s None (Root r)) by exact Hp. destruct (within_get _ _ _ _ Hi W) as [old Gd]. cbn [get_slot] in Gd.
    destruct (drop_ok s (Root r) old Hi W Gd) as (h1 & s1 & E1 & I1 & _ & _ & _ & _ & R1 & H1 & W1). cbn [get_slot]. rewrite Gd. cbn. rewrite E1. cbn.
    eexists. split; [reflexivity|]. cbn in Gd. destruct (nth_error (r_roots s) r) as [[v0|]|] eqn:K; try discriminate.
    apply (inv_eq s1 []); auto; [intros; cbn; rewrite H1; reflexivity|].
    intros o. rewrite !occ_refs. cbn. rewrite H1, W1, R1.
    pose proof (occ_upd _ sref (r_roots s) r None _ o K) as U1. pose proof (occ_upd _ sref (r_roots s) r (Some None) _ o K) as U2. cbn in U1, U2. olia.
  - destruct (within_get _ _ _ _ Hi Hp) as [v Gv]. rewrite Gv. cbn.
    destruct (put_ok s [] d None v Gv) as (s1 & E & C & O & _). rewrite E. cbn. eexists. split; [reflexivity|].
    apply (inv_eq s []); auto. intros o. specialize (O o). rewrite !occ_refs in *. cbn in *.
    rewrite targets_app, occ_app, targets_one. olia.
  - destruct (nth_error (r_raws s) i) as [v|] eqn:K; [|apply nth_error_None in K; olia]. destruct c.
    + destruct (copy_new s [] v Hi) as (h1 & E & I1); [intros o ->; eapply refs_raw; eauto|]. rewrite E. cbn. eauto.
    + eexists. split; [reflexivity|]. apply (inv_eq s []); auto. intros o. rewrite refs_new_root, !occ_refs. cbn.
      rewrite (targets_flat (r_raws s)), (targets_flat (upd i None (r_raws s))).
      pose proof (occ_upd _ vrefs (r_raws s) i None _ o K) as U. cbn in U. olia.
  - destruct Hp as [W N]. destruct (within_get _ _ _ _ Hi W) as [v Gv]. rewrite Gv in *. cbn. destruct v as [o|]; [|congruence].
    destruct (inv_alive _ _ _ Hi (refs_slot _ _ _ _ Gv)) as (b & K & D & _). rewrite K. apply alive_0 in D. rewrite D. eauto.
Qed.

Lemma inv_start : inv r_start [].
Proof. intros o. unfold cd. cbn. destruct o; reflexivity. Qed.

Lemma run_ok : forall ops s, inv s [] -> proper_run s ops -> exists s1, r_run s ops = Ok s1 /\ inv s1 [].
Proof.
  induction ops as [|o ops IH]; intros s Hi Hp; cbn; eauto. destruct Hp as [P1 P2].
  destruct (step_ok s o Hi P1) as (s1 & E & I1). rewrite E. cbn. apply IH; auto.
Qed.

Lemma referenced_occ : forall s o, referenced s o <-> 0 < occ o (refs s []).
Proof.
  intros s o. split.
  - intros [H|[H|(i & b & K & D & H)]]; apply In_nth_error in H; destruct H as [n H].
    + eapply refs_root; eauto.
    + eapply refs_raw; eauto.
    + eapply refs_field; eauto. apply alive_0; auto.
  - rewrite <- occ_in. unfold refs. rewrite !in_app_iff. intros [H|[H|[H|[]]]]; apply in_flat_map in H; destruct H as (x & J & Hx).
    + left. destruct x as [[a|]|]; cbn in Hx; try contradiction. destruct Hx as [ -> |[]]. auto.
    + right; left. destruct x as [a|]; cbn in Hx; try contradiction. destruct Hx as [ -> |[]]. auto.
    + right; right. apply In_nth_error in J. destruct J as [i K]. exists i, x. unfold brefs in Hx. destruct (o_alive x) eqn:A; [|contradiction].
      apply alive_0 in A. split; auto. split; auto. apply in_flat_map in Hx. destruct Hx as ([a|] & J & Ha); cbn in Ha; try contradiction.
      destruct Ha as [ -> |[]]. auto.
Qed.

Lemma inv_exact : forall s, inv s [] -> exact s.
Proof.
  intros s Hi. split.
  - intros o R. apply referenced_occ in R. destruct (inv_alive _ _ _ Hi R) as (b & K & D & _). eauto.
  - intros o b K. rewrite referenced_occ. specialize (Hi o). unfold cd in Hi. rewrite K in Hi. cbn in Hi.
    destruct (o_dels b) as [|[|d]]; try contradiction; olia.
Qed.

Lemma C50_exact_l : forall ops, proper_run r_start ops -> exists s, r_run r_start ops = Ok s /\ exact s.
Proof. intros ops H. destruct (run_ok ops r_start inv_start H) as (s & E & I1). exists s. split; auto. apply inv_exact; auto. Qed.

(* ---------------- Several threads ---------------- *)

Lemma refs_due : forall s P o, occ o (refs s P) = occ o (refs s []) + occ o P.
Proof. intros. rewrite !occ_refs. cbn. olia. Qed.

(* A value into a null pointer, counted up first. *)
Lemma kstep_ok : forall k o, inv (k_state k) (k_due k) -> proper_k k o -> exists k1, k_step k o = Ok k1 /\ inv (k_state k1) (k_due k1).
Proof.
  intros [s P] op Hi Hp. destruct op as [|d n|d x|d x|d|i]; cbn [k_step proper_k k_state k_due] in *.
  - eexists. split; [reflexivity|]. apply (inv_eq s P); auto. intros o. cbn. rewrite refs_new_root. cbn. olia.
  - destruct Hp as [Wd Gd]. destruct (make_ok s P n Hi) as (h1 & E & G & R & KN). rewrite E. cbn.
    assert (Gd1 : get_slot (with_heap s h1) d = Ok None).
    { destruct d as [r|oc k]; [exact Gd|]. cbn in Gd |- *. rewrite KN; auto.
      destruct (nth_error (r_heap s) oc) eqn:Q; [apply nth_error_Some; congruence|discriminate]. }
    destruct (put_ok (with_heap s h1) P d (Some (length (r_heap s))) None Gd1) as (s2 & E2 & C2 & O2 & _). rewrite E2. cbn.
    eexists. split; [reflexivity|]. intros o. cbn [k_state k_due]. rewrite C2. specialize (O2 o). cbn in O2. rewrite Nat.add_0_r in O2. rewrite O2.
    rewrite refs_heap by auto. apply G.
  - destruct Hp as (Wd & Gd & Wx). destruct (within_get _ _ _ _ Hi Wx) as [v Gx]. rewrite Gx. cbn.
    destruct (put_ok s P d v None Gd) as (s1 & E1 & C1 & O1 & _). rewrite E1. cbn.
    destruct v as [a|]; cbn [inc_ref].
    2:{ eexists. split; [reflexivity|]. apply (inv_eq s P); auto. intros o. specialize (O1 o). cbn in O1. unfold with_heap. destruct s1; cbn in *. olia. }
    destruct (inv_alive _ _ _ Hi (refs_slot _ _ _ _ Gx)) as (b & Kb & D & Cb).
    assert (Kb2 : exists b2, nth_error (r_heap s1) a = Some b2 /\ o_dels b2 = 0 /\ o_cnt b2 = o_cnt b).
    { specialize (C1 a). unfold cd in C1. rewrite Kb in C1. destruct (nth_error (r_heap s1) a) as [b2|]; [|discriminate]. cbn in C1. injection C1 as Q1 Q2. exists b2. rewrite Q1, Q2. auto. }
    destruct Kb2 as (b2 & Kb2 & D2 & Cb2). rewrite Kb2. assert (A2 : o_alive b2 = true) by (apply alive_0; auto). rewrite A2. cbn.
    set (b3 := mk_obj (S (o_cnt b2)) 0 (o_fields b2)).
    eexists. split; [reflexivity|]. cbn [k_state k_due].
    assert (HR : hrefs (upd a b3 (r_heap s1)) = hrefs (r_heap s1)).
    { unfold hrefs. clear -Kb2 A2. revert a Kb2 b3. induction (r_heap s1) as [|y l IH]; intros [|a] K b3; cbn in *; try discriminate; auto.
      - injection K as ->. unfold brefs. rewrite A2. reflexivity.
      - rewrite IH; auto. }
    intros o. rewrite refs_heap by auto. specialize (O1 o). cbn in O1. rewrite Nat.add_0_r in O1. rewrite O1. unfold cd. cbn [with_heap r_heap].
    destruct (Nat.eq_dec a o) as [ <- |N].
    + rewrite (upd_same _ _ _ _ _ Kb2). cbn. rewrite Cb2, Cb. unfold occ at 3. cbn. destruct (Nat.eq_dec a a); [olia|congruence].
    + rewrite (upd_other _ _ _ _ _ N). replace (occ o [a]) with 0 by (unfold occ; cbn; destruct (Nat.eq_dec a o); [congruence|auto]).
      rewrite Nat.add_0_r. fold (cd (r_heap s1) o). rewrite C1. apply Hi.
  - destruct Hp as (Wd & Gd & Wx). destruct (within_get _ _ _ _ Hi Wx) as [v Gx]. rewrite Gx. cbn.
    destruct (put_ok s P d v None Gd) as (s1 & E1 & C1 & O1 & G1 & Y1 & _). rewrite E1. cbn.
    assert (Gx1 : get_slot s1 x = Ok v).
    { assert (DEC : x = d \/ x <> d) by (destruct x as [r1|o1 k1], d as [r2|o2 k2]; try (right; discriminate);
        [destruct (Nat.eq_dec r1 r2); [left|right]; congruence|destruct (Nat.eq_dec o1 o2), (Nat.eq_dec k1 k2); [left; congruence|right; congruence..]]).
      destruct DEC as [ -> |N]; [exact G1|]. rewrite Y1 by auto. exact Gx. }
    destruct (put_ok s1 P x None v Gx1) as (s2 & E2 & C2 & O2 & _). rewrite E2. cbn. eexists. split; [reflexivity|]. cbn.
    apply (inv_eq s P); auto; [intros; rewrite C2; auto|]. intros o. specialize (O1 o). specialize (O2 o). cbn in O1, O2. olia.
  - destruct (within_get _ _ _ _ Hi Hp) as [v Gv]. rewrite Gv. cbn [bind].
    destruct (put_ok s P d None v Gv) as (s1 & E & C & O & _). rewrite E. cbn [bind]. eexists. split; [reflexivity|]. cbn [k_state k_due].
    apply (inv_eq s P); auto. intros o. specialize (O o). rewrite targets_one. rewrite (refs_due s1), occ_app. rewrite (refs_due s1 P) in O. cbn in O. olia.
  - destruct (nth_error P i) as [o|] eqn:K; [|apply nth_error_None in K; olia].
    destruct (dec_one_ok s P (del i P) o Hi) as (h1 & more & E & I1 & _); [intros x; rewrite (occ_del _ _ _ x K); auto|].
    rewrite E. cbn. eexists. split; [reflexivity|]. exact I1.
Qed.

Lemma krun_ok : forall ops k, inv (k_state k) (k_due k) -> proper_sched k ops -> exists k1, k_run k ops = Ok k1 /\ inv (k_state k1) (k_due k1).
Proof.
  induction ops as [|o ops IH]; intros k Hi Hp; cbn; eauto. destruct Hp as [P1 P2].
  destruct (kstep_ok k o Hi P1) as (k1 & E & I1). rewrite E. cbn. apply IH; auto.
Qed.

Lemma C50_threads_l : forall ops, proper_sched k_start ops -> exists k, k_run k_start ops = Ok k /\
  (forall o, referenced (k_state k) o \/ In o (k_due k) -> exists b, nth_error (r_heap (k_state k)) o = Some b /\ o_dels b = 0) /\
  (forall o b, nth_error (r_heap (k_state k)) o = Some b ->
     (o_dels b = 1 <-> ~ (referenced (k_state k) o \/ In o (k_due k))) /\ o_dels b <= 1).
Proof.
  intros ops H. destruct (krun_ok ops k_start inv_start H) as (k & E & I1). exists k. split; auto.
  assert (EQ : forall o, referenced (k_state k) o \/ In o (k_due k) <-> 0 < occ o (refs (k_state k) (k_due k))).
  { intros o. rewrite referenced_occ, occ_in, (refs_due _ (k_due k)). olia. }
  split.
  - intros o R. apply EQ in R. destruct (inv_alive _ _ _ I1 R) as (b & K & D & _). eauto.
  - intros o b K. rewrite EQ. specialize (I1 o). unfold cd in I1. rewrite K in I1. cbn in I1.
    destruct (o_dels b) as [|[|d]]; try contradiction; olia.
Qed.

(* The decrements that are due can always be carried out, and end. *)
Lemma C50_ends_l : forall ops k, proper_sched k_start ops -> k_run k_start ops = Ok k ->
  exists works, (forall w, In w works -> w = K_work 0) /\ exists k1, k_run k works = Ok k1 /\ k_due k1 = [] /\ exact (k_state k1).
Proof.
  intros ops k H E. destruct (krun_ok ops k_start inv_start H) as (k' & E' & I1). rewrite E in E'. injection E' as <-. clear E H.
  remember (total (r_heap (k_state k))) as n eqn:Q. revert k I1 Q. induction n as [n IH] using lt_wf_ind. intros [s P] Hi Q. cbn in *.
  destruct P as [|o P].
  - exists []. split; [intros w []|]. exists (mk_ks s []). split; auto. split; auto. apply inv_exact; auto.
  - destruct (dec_one_ok s (o :: P) P o Hi) as (h1 & more & E1 & I1 & T).
    { intros x. change (o :: P) with ([o] ++ P). rewrite occ_app. olia. }
    destruct (IH (total h1)) with (k := mk_ks (with_heap s h1) (more ++ P)) as (works & Hw & k1 & E2 & D2); auto; [olia|].
    exists (K_work 0 :: works). split; [intros w [ <- |Hx]; auto|]. exists k1. split; auto. cbn. rewrite E1. cbn. exact E2.
Qed.
