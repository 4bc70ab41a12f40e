From Verif Require Import Common Model_iter Spec_iter Proof_iter Proof_iter2.
From Coq Require Import List Arith Lia Bool.
Import ListNotations.

(* ---------------- An exhausted iterator ---------------- *)
Definition spent_reader (th : list thing) (i : nat) : Prop :=
  exists b d ep pos, nth_error th i = Some (T_reader b d ep pos) /\ at_pos d ep pos V_stop = V_stop.
Definition spent (w : world) (v : nat) : Prop :=
  exists j i, w_vars w v = Some j /\ nth_error (w_things w) j = Some (T_iter i) /\ spent_reader (w_things w) i.

Lemma at_stop d ep pos : at_pos d ep pos V_stop = V_stop -> nth_error (ds_items d ep) pos = None /\ ds_tail d ep = None.
Proof.
  unfold at_pos. destruct (nth_error _ _); [discriminate|]. destruct (ds_tail d ep); [discriminate|]. auto.
Qed.

Lemma spent_next w v : spent w v -> snd (meaning w (S_next v)) = V_stop.
Proof.
  intros (j & i & V & T & b & d & ep & pos & R & A). cbn. rewrite V, T, R. exact A.
Qed.

Lemma next_spent w v : snd (meaning w (S_next v)) = V_stop -> spent (fst (meaning w (S_next v))) v.
Proof.
  cbn. destruct (w_vars w v) as [j|] eqn:V; [|discriminate].
  destruct (nth_error (w_things w) j) as [[b d ep pos|i]|] eqn:T; try discriminate.
  destruct (nth_error (w_things w) i) as [[b d ep pos|]|] eqn:R; try discriminate. cbn. intros A.
  destruct (at_stop _ _ _ A) as [N Tl]. rewrite (after_none _ _ _ N). unfold upd_thing. rewrite (put_id _ _ _ R).
  exists j, i. cbn. repeat split; auto. exists b, d, ep, pos. auto.
Qed.

Lemma spent_reader_put th i k b d ep pos :
  nth_error th k = Some (T_reader b d ep pos) -> spent_reader th i -> spent_reader (put th k (T_reader b d ep (after d ep pos))) i.
Proof.
  intros K (b' & d' & ep' & pos' & R & A). destruct (Nat.eq_dec k i) as [-> | N].
  - rewrite K in R. injection R as -> -> -> ->. destruct (at_stop _ _ _ A) as [N Tl]. rewrite (after_none _ _ _ N).
    rewrite (put_id _ _ _ K). exists b', d', ep', pos'. auto.
  - exists b', d', ep', pos'. rewrite put_other by auto. auto.
Qed.

Lemma iter_put th j i k b d ep pos p :
  nth_error th k = Some (T_reader b d ep pos) -> nth_error th j = Some (T_iter i) ->
  nth_error (put th k (T_reader b d ep p)) j = Some (T_iter i).
Proof. intros K J. rewrite put_other; auto. intros ->. congruence. Qed.

Lemma nth_app {A} (l : list A) i x t : nth_error l i = Some t -> nth_error (l ++ [x]) i = Some t.
Proof. intros H. rewrite nth_error_app1; auto. apply nth_error_Some. congruence. Qed.

Lemma spent_keep w v c : no_reset c = true -> assigns v c = false -> spent w v -> spent (fst (meaning w c)) v.
Proof.
  intros NR NA (j & i & V & T & SR). unfold meaning.
  assert (B : forall u x, (u =? v) = false -> bound (w_vars w) u x v = Some j).
  { intros u x H. unfold bound. rewrite Nat.eqb_sym, H. exact V. }
  assert (SA : forall x, spent_reader (w_things w ++ [x]) i).
  { intros x. destruct SR as (b & d & ep & pos & R & A). exists b, d, ep, pos. split; auto. apply nth_app. auto. }
  destruct c as [u data d|u z|u z|u|u|u|u|u]; cbn [no_reset assigns] in *; try discriminate.
  - exists j, i. cbn. repeat split; auto. apply nth_app; auto.
  - destruct (w_vars w z) as [k|]; [|exists j, i; auto].
    destruct (nth_error (w_things w) k) as [[? ? ? ?|?]|]; exists j, i; cbn; repeat split; auto. apply nth_app; auto.
  - destruct (w_vars w z) as [k|]; exists j, i; cbn; repeat split; auto.
  - destruct (w_vars w u) as [k|]; [|exists j, i; auto].
    destruct (nth_error (w_things w) k) as [[? ? ? ?|q]|]; try (exists j, i; auto; fail).
    destruct (nth_error (w_things w) q) as [[b d ep pos|?]|] eqn:K; try (exists j, i; auto; fail).
    exists j, i. cbn. repeat split; auto. eapply iter_put; eauto. apply spent_reader_put; auto.
  - destruct (w_vars w u) as [k|]; [|exists j, i; auto].
    destruct (nth_error (w_things w) k) as [[b d ep pos|q]|] eqn:K; try (exists j, i; auto; fail).
    exists j, i. cbn. repeat split; auto. eapply iter_put; eauto. apply spent_reader_put; auto.
  - destruct (w_vars w u) as [k|]; [|exists j, i; auto].
    destruct (nth_error (w_things w) k) as [[b d ep pos|q]|] eqn:K; exists j, i; auto.
  - destruct (w_vars w u) as [k|]; exists j, i; cbn; repeat split; auto.
Qed.

Lemma spent_keeps : forall q w v, forallb no_reset q = true -> existsb (assigns v) q = false -> spent w v -> spent (world_after w q) v.
Proof.
  induction q as [|c q IH]; intros w v N A S; cbn in *; auto.
  apply andb_prop in N. apply orb_false_elim in A. destruct N, A. apply IH; auto. apply spent_keep; auto.
Qed.

Lemma meanings_app : forall p q w, meanings w (p ++ q) = meanings w p ++ meanings (world_after w p) q.
Proof.
  induction p as [|c p IH]; intros q w; cbn; auto. destruct (meaning w c) as [w' x] eqn:E. cbn. rewrite IH. reflexivity.
Qed.

Lemma meanings_len : forall p w, length (meanings w p) = length p.
Proof. induction p as [|c p IH]; intros w; cbn; auto. destruct (meaning w c). cbn. auto. Qed.

Lemma meanings_cons w c p : meanings w (c :: p) = snd (meaning w c) :: meanings (fst (meaning w c)) p.
Proof. cbn. destruct (meaning w c). reflexivity. Qed.

(* ---------------- A loop over a new reader ---------------- *)
Definition loop_world (b : bool) (d : dataset) (pos : nat) (w : world) : Prop :=
  w_things w = [T_reader b d 0 pos; T_iter 0] /\ w_vars w 1 = Some 1.

Lemma next_loop b d pos w : loop_world b d pos w ->
  snd (meaning w (S_next 1)) = at_pos d 0 pos V_stop /\ loop_world b d (after d 0 pos) (fst (meaning w (S_next 1))).
Proof.
  intros [T V]. cbn. rewrite V, T. cbn. unfold loop_world, upd_thing. cbn. rewrite T. auto.
Qed.

Definition last_seen (d : dataset) : seen := match ds_tail d 0 with None => V_stop | Some x => V_raise x end.

Lemma loop_end b d : forall k w, loop_world b d (length (ds_items d 0)) w ->
  meanings w (repeat (S_next 1) k) = repeat (last_seen d) k.
Proof.
  induction k as [|k IH]; intros w L; cbn [repeat]; auto. rewrite meanings_cons. destruct (next_loop _ _ _ _ L) as [-> L'].
  assert (N : nth_error (ds_items d 0) (length (ds_items d 0)) = None) by (apply nth_error_None; lia).
  rewrite (after_none _ _ _ N) in L'. rewrite (IH _ L'). unfold at_pos. rewrite N. reflexivity.
Qed.

Lemma loop_all b d : forall l pre k w, loop_world b d (length pre) w -> ds_items d 0 = pre ++ l ->
  meanings w (repeat (S_next 1) (length l + k)) = map V_item l ++ repeat (last_seen d) k.
Proof.
  induction l as [|x l IH]; intros pre k w L E.
  - cbn [length plus map app]. apply (loop_end b d). rewrite E, app_nil_r. exact L.
  - cbn [length plus repeat map app]. rewrite meanings_cons. destruct (next_loop _ _ _ _ L) as [-> L'].
    assert (N : nth_error (ds_items d 0) (length pre) = Some x).
    { rewrite E, nth_error_app2, Nat.sub_diag by lia. reflexivity. }
    rewrite (after_some _ _ _ _ N) in L'. unfold at_pos at 1. rewrite N. f_equal. apply (IH (pre ++ [x])).
    + rewrite app_length, Nat.add_comm. exact L'.
    + rewrite E, <- app_assoc. reflexivity.
Qed.

(* ---------------- Threads that call one at a time ---------------- *)
Definition oitem (p : option item) : list item := match p with Some x => [x] | None => [] end.

(* The reader while thread i, if any, is at p; rem: the items not delivered by calls that returned. *)
Definition tinv (t : tstate) (p : pc) (rem : list item) : Prop :=
  exists q f, t_fill t = map (map Some) f /\ Forall (fun b => b <> []) f /\
  match p with
  | P_idle | P_peeked => t_queue t = map Some q /\ rem = oitem (t_peeked t) ++ q ++ concat f
  | P_exchange => t_queue t = map Some q /\ t_peeked t <> None /\ rem = oitem (t_peeked t) ++ q ++ concat f
  | P_empty => t_queue t = map Some q /\ t_peeked t = None /\ rem = q ++ concat f
  | P_swap => t_queue t = [] /\ t_peeked t = None /\ rem = concat f
  | P_empty2 => t_queue t = map Some q /\ t_peeked t = None /\ rem = q ++ concat f /\ (q = [] -> f = [])
  | P_front => t_queue t = map Some q /\ t_peeked t = None /\ rem = q ++ concat f /\ q <> []
  | P_pop x => exists e, x = Some e /\ t_queue t = None :: map Some q /\ t_peeked t = None /\ rem = e :: q ++ concat f
  | P_return x => t_queue t = map Some q /\ t_peeked t = None /\
      match x with Some e => rem = e :: q ++ concat f | None => rem = [] /\ q ++ concat f = [] end
  end.

Record alone (all : list item) (t : tstate) : Prop := mk_alone {
  al_results : forall k x, nth_error (t_results t) k = Some x -> x = nth_error all k;
  al_who : exists i p, tinv t p (skipn (length (t_results t)) all) /\
    (nth_error (t_pcs t) i = Some p \/ (p = P_idle /\ nth_error (t_pcs t) i = None)) /\
    (forall j, j <> i -> forall p', nth_error (t_pcs t) j = Some p' -> p' = P_idle) }.

Lemma skipn_nth (all : list item) : forall n e r, skipn n all = e :: r -> nth_error all n = Some e /\ skipn (S n) all = r.
Proof.
  induction all as [|a l IH]; intros [|n] e r H; cbn in H; try discriminate.
  - injection H as -> ->. auto.
  - destruct (IH _ _ _ H) as [A B]. split; auto.
Qed.
Lemma skipn_nil (all : list item) n : skipn n all = [] -> nth_error all n = None /\ skipn (S n) all = [].
Proof.
  intros H. assert (length all <= n). { pose proof (skipn_length n all) as Q. rewrite H in Q. cbn in Q. lia. }
  split; [apply nth_error_None; auto|apply skipn_all2; lia].
Qed.

Lemma map_some_nil (q : list item) : map Some q = [] -> q = [].
Proof. destruct q; [auto|discriminate]. Qed.

Lemma all_idle l : existsb inside l = false -> forall j p, nth_error l j = Some p -> p = P_idle.
Proof.
  intros H j p N. destruct (inside p) eqn:E; [|destruct p; cbn in E; congruence].
  assert (existsb inside l = true). { apply existsb_exists. exists p. split; auto. eapply nth_error_In; eauto. } congruence.
Qed.

(* A step of the thread that is at p. *)
Lemma tstep_alone all t i p :
  nth_error (t_pcs t) i = Some p -> tinv t p (skipn (length (t_results t)) all) ->
  (forall k x, nth_error (t_results t) k = Some x -> x = nth_error all k) ->
  (forall j, j <> i -> forall p', nth_error (t_pcs t) j = Some p' -> p' = P_idle) ->
  exists t', tstep t i = Ok t' /\ alone all t'.
Proof.
  intros N (q & f & F & NE & I) RS O.
  assert (Li : i < length (t_pcs t)) by (apply nth_error_Some; congruence).
  assert (PC : forall t' p', t_pcs t' = put (t_pcs t) i p' -> t_results t' = t_results t ->
                tinv t' p' (skipn (length (t_results t)) all) -> alone all t').
  { intros t' p' E1 E2 T. constructor; rewrite E2; auto. exists i, p'. rewrite E1. split; auto. split.
    - left. apply put_same. auto.
    - intros j D p2. rewrite put_other by auto. apply O. auto. }
  unfold tstep. rewrite N. destruct p as [ | | | | | | |x|x].
  - eexists. split; [reflexivity|]. eapply PC; [reflexivity|reflexivity|]. exists q, f. auto.
  - eexists. split; [reflexivity|]. eapply PC; [reflexivity|reflexivity|]. exists q, f. destruct I as [I1 I2].
    cbn [set_pc t_fill t_queue t_peeked]. repeat split; auto. destruct (t_peeked t) eqn:E; cbn [t_queue t_peeked]; repeat split; auto; congruence.
  - eexists. split; [reflexivity|]. eapply PC; [reflexivity|reflexivity|]. exists q, f. destruct I as (I1 & I2 & I3).
    cbn [t_fill t_queue t_peeked]. repeat split; auto. destruct (t_peeked t) eqn:E; [exact I3|congruence].
  - eexists. split; [reflexivity|]. eapply PC; [reflexivity|reflexivity|]. exists q, f. destruct I as (I1 & I2 & I3).
    cbn [set_pc t_fill t_queue t_peeked]. repeat split; auto. rewrite I1. destruct q as [|a q]; cbn [map].
    + repeat split; auto.
    + repeat split; auto. discriminate.
  - destruct I as (I1 & I2 & I3). eexists. split; [reflexivity|]. eapply PC; [reflexivity|reflexivity|].
    rewrite I1, F. cbn [t_fill t_queue t_peeked]. destruct f as [|b f].
    + exists [], []. cbn. repeat split; auto.
    + inversion NE; subst. exists b, f. cbn [map tl t_fill t_queue t_peeked concat]. cbn in I3.
      repeat split; auto. congruence.
  - eexists. split; [reflexivity|]. eapply PC; [reflexivity|reflexivity|]. exists q, f. destruct I as (I1 & I2 & I3 & I4).
    cbn [set_pc t_fill t_queue t_peeked]. repeat split; auto. rewrite I1. destruct q as [|a q]; cbn [map].
    + rewrite I4 in * by auto. cbn in *. repeat split; auto.
    + repeat split; auto. discriminate.
  - destruct I as (I1 & I2 & I3 & I4). rewrite I1. destruct q as [|a q]; [congruence|]. cbn [map].
    eexists. split; [reflexivity|]. eapply PC; [reflexivity|reflexivity|]. exists q, f.
    cbn [t_fill t_queue t_peeked]. repeat split; auto. exists a. repeat split; auto.
  - destruct I as (e & -> & I1 & I2 & I3). rewrite I1. eexists. split; [reflexivity|]. eapply PC; [reflexivity|reflexivity|].
    exists q, f. cbn [t_fill t_queue t_peeked]. repeat split; auto.
  - destruct I as (I1 & I2 & I3). eexists. split; [reflexivity|].
    assert (H : x = nth_error all (length (t_results t)) /\ skipn (S (length (t_results t))) all = q ++ concat f).
    { destruct x as [e|].
      - destruct (skipn_nth _ _ _ _ I3) as [A B]. auto.
      - destruct I3 as [A B]. destruct (skipn_nil _ _ A) as [C D]. rewrite B. auto. }
    destruct H as [H1 H2]. constructor; cbn [t_results t_pcs].
    + intros k y Q. destruct (Nat.lt_ge_cases k (length (t_results t))) as [L | L].
      * rewrite nth_error_app1 in Q by auto. auto.
      * rewrite nth_error_app2 in Q by auto. destruct (k - length (t_results t)) eqn:D; cbn in Q.
        -- injection Q as <-. replace k with (length (t_results t)) by lia. auto.
        -- destruct n; discriminate.
    + exists i, P_idle. split; [|split].
      * exists q, f. cbn [t_fill t_queue t_peeked]. rewrite app_length, Nat.add_comm. cbn [length plus]. rewrite I2. cbn. auto.
      * left. apply put_same. auto.
      * intros j D p2. rewrite put_other by auto. apply O. auto.
Qed.

Lemma trun_alone all : forall sched t, alone all t -> one_at_a_time t sched -> exists t', trun t sched = Ok t' /\ alone all t'.
Proof.
  induction sched as [|j l IH]; intros t A O; cbn [trun]; [eauto|].
  destruct O as [O1 O2].
  assert (S : exists t', tstep t j = Ok t' /\ alone all t').
  { destruct A as [RS (i & p & T & P & OT)].
    destruct (nth_error (t_pcs t) j) as [pj|] eqn:Nj.
    - destruct (Nat.eq_dec j i) as [-> | D].
      + destruct P as [P | [_ P]]; [|congruence]. assert (pj = p) by congruence. subst pj. eapply tstep_alone; eauto.
      + specialize (OT _ D _ Nj) as ->. pose proof (all_idle _ (O1 eq_refl)) as ID.
        assert (p = P_idle). { destruct P as [P | [-> _]]; auto. eapply ID; eauto. } subst p.
        eapply tstep_alone; eauto.
    - exists t. unfold tstep. rewrite Nj. split; auto. constructor; auto. exists i, p. auto. }
  destruct S as (t' & E & A'). rewrite E. cbn [bind]. apply IH; auto.
Qed.

Lemma ready_alone n peeked batches :
  Forall (fun b => b <> []) batches -> alone (all_items peeked batches) (ready n peeked batches).
Proof.
  intros NE. constructor; cbn.
  - intros [|k] x H; discriminate.
  - exists 0, P_idle. repeat split.
    + exists [], batches. cbn. repeat split; auto.
    + destruct n; cbn; [right; auto|left; auto].
    + intros j D p H. apply nth_error_In, repeat_spec in H. auto.
Qed.

Lemma app_inj_len {A} : forall (a a' b b' : list A), length a = length a' -> a ++ b = a' ++ b' -> a = a' /\ b = b'.
Proof.
  induction a as [|x a IH]; intros [|y a'] b b' L E; cbn in *; try discriminate; auto.
  injection E as -> E. destruct (IH a' b b') as [-> ->]; auto.
Qed.

Lemma meanings_one w c : meanings w [c] = [snd (meaning w c)].
Proof. cbn. destruct (meaning w c). reflexivity. Qed.
