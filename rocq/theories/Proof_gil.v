From Verif Require Import Common Model_gil Spec_gil.
From Coq Require Import Lia Arith List Bool.
Import ListNotations.

(* ---------------- lists ---------------- *)

Lemma nth_set_same : forall A (l : list A) i a b, nth_error l i = Some b -> nth_error (set_nth i a l) i = Some a.
Proof. induction l; destruct i; cbn; intros; try discriminate; eauto. Qed.

Lemma nth_set_other : forall A (l : list A) i j a, i <> j -> nth_error (set_nth i a l) j = nth_error l j.
Proof. induction l; destruct i, j; cbn; intros; try congruence; eauto. Qed.

Lemma set_nth_nil : forall A (l : list A) i a, set_nth i a l = [] -> l = [].
Proof. destruct l, i; cbn; congruence. Qed.

(* ---------------- the invariant ---------------- *)

(* What the Python thread may still do when it holds the GIL (h), may have started the pipeline (r), has just cancelled
   it (c). *)
Fixpoint legal (h r c : bool) (p : list mop) : Prop :=
  match p with
  | [] => True
  | M_python :: p' => h = true /\ legal h r c p'
  | M_release :: p' => h = true /\ legal false r c p'
  | M_acquire :: p' => h = false /\ legal true r c p'
  | M_start :: p' => legal h true false p'
  | M_take :: p' => h = false /\ legal h r c p'
  | M_cancel :: p' => legal h r true p'
  | M_join :: p' => c = true /\ legal h false false p'
  | M_handler _ :: p' => h = true /\ r = false /\ legal h r c p'
  end.

Lemma legal_callbacks : forall k r p, legal false r false p -> legal false r false (callbacks k ++ p).
Proof. induction k; cbn; auto. Qed.

Lemma legal_calls : forall calls r, ~ In Call_py_stream calls -> handlers_when_idle r calls ->
  legal true r false (concat (map program calls)).
Proof.
  induction calls as [|c calls IH]; intros r N H; [exact I|].
  assert (N' : ~ In Call_py_stream calls) by (intro; apply N; right; auto).
  destruct c; cbn [map concat program handlers_when_idle app legal] in *; rewrite <- ?app_assoc; cbn [app legal] in *.
  - split; auto.
  - split; auto. apply legal_callbacks. cbn. repeat split; auto.
  - split; auto. apply legal_callbacks. cbn. repeat split; auto.
  - repeat split; auto.
  - repeat split; auto.
  - repeat split; auto.
  - exfalso. apply N. left. reflexivity.
  - destruct H. repeat split; auto.
  - destruct H. repeat split; auto.
Qed.

Definition good_use (h : option nat) (x : rop) : Prop :=
  x = R_python \/ exists g, x = R_handler g /\ h = Some g.

Definition good_frame (h : option nat) (holding : bool) (f : list rop) : Prop :=
  (f = [] /\ holding = false) \/
  (exists x, good_use h x /\ f = [R_acquire; x; R_release] /\ holding = false) \/
  (exists x, good_use h x /\ f = [x; R_release] /\ holding = true) \/
  (f = [R_release] /\ holding = true).

Definition good_worker (h : option nat) (holding : bool) (w : worker) : Prop :=
  good_frame h holding (w_frame w) /\ ~ In W_stream (w_todo w).

Record inv (s : state) : Prop := mk_inv
  { inv_main : exists h r c, legal h r c (main s) /\ (h = true <-> gil s = Main) /\
      (r = false -> workers s = []) /\ (c = true -> cancelled s = true);
    inv_workers : forall i w, nth_error (workers s) i = Some w -> good_worker (handler s) (holds (gil s) i) w;
    inv_gil : forall i, gil s = Worker i -> nth_error (workers s) i <> None;
    inv_epochs : ~ occurs W_stream (epochs s) }.

Lemma inv_initial : forall calls epochs, no_py_stream calls epochs -> handlers_when_idle false calls ->
  inv (initial calls epochs).
Proof.
  intros calls epochs [A B] C. constructor; cbn.
  - exists true, false, false. repeat split; auto; try discriminate. apply legal_calls; auto.
  - intros i w H. destruct i; discriminate.
  - discriminate.
  - exact A.
Qed.

Lemma holds_true : forall h i, holds h i = true -> h = Worker i.
Proof. destruct h; cbn; intros; try discriminate. apply Nat.eqb_eq in H. congruence. Qed.

Lemma holds_self : forall i, holds (Worker i) i = true.
Proof. intros. cbn. apply Nat.eqb_refl. Qed.

(* A step of a worker. *)
Lemma inv_worker_step : forall cap s i w, inv s -> nth_error (workers s) i = Some w ->
  match worker_step cap s i w with Next s' => inv s' | Blocked => True | Crash => False end.
Proof.
  intros cap s i w I E.
  destruct (inv_main _ I) as (h & r & c & L & HG & HR & HC).
  pose proof (inv_workers _ I) as W. pose proof (W _ _ E) as [F T].
  assert (NE : workers s <> []) by (intro Z; rewrite Z in E; destruct i; discriminate).
  (* A worker changes, the holder of the GIL becomes [g]. *)
  assert (STEP : forall w' g q, good_worker (handler s) (holds g i) w' ->
      (forall j, j <> i -> holds g j = holds (gil s) j) ->
      (g = Main <-> gil s = Main) -> (forall j, g = Worker j -> j = i \/ gil s = Worker j) ->
      inv (mk_state (main s) g (set_nth i w' (workers s)) q (cancelled s) (handler s) (handlers s) (epochs s))).
  { intros w' g q GW GO GM GI. constructor; cbn.
    - exists h, r, c. repeat split; auto; try tauto.
    - intros j v EJ. destruct (Nat.eq_dec j i) as [->|D].
      + rewrite (nth_set_same _ _ _ _ _ E) in EJ. injection EJ as <-. exact GW.
      + rewrite nth_set_other in EJ by auto. rewrite GO by auto. auto.
    - intros j ->. destruct (Nat.eq_dec j i) as [->|D].
      + rewrite (nth_set_same _ _ _ _ _ E). discriminate.
      + rewrite nth_set_other by auto. destruct (GI j eq_refl); [contradiction|]. apply (inv_gil _ I). auto.
    - apply (inv_epochs _ I). }
  assert (SAME : forall w' q, good_worker (handler s) (holds (gil s) i) w' ->
      inv (mk_state (main s) (gil s) (set_nth i w' (workers s)) q (cancelled s) (handler s) (handlers s) (epochs s))).
  { intros. apply STEP; auto; tauto. }
  unfold worker_step.
  destruct F as [[EF HF]|[(x & GU & EF & HF)|[(x & GU & EF & HF)|[EF HF]]]]; rewrite EF.
  - assert (TT : forall o t, w_todo w = o :: t -> ~ In W_stream t)
      by (intros o t Q; rewrite Q in T; intro; apply T; right; auto).
    assert (IDLE : forall o t, w_todo w = o :: t -> good_worker (handler s) (holds (gil s) i) (mk_worker [] t)).
    { intros o t Q. split; cbn; [left; auto|eauto]. }
    destruct (w_todo w) as [|[] t] eqn:ET; auto.
    + apply SAME. eauto.
    + destruct (cancelled s) eqn:EC.
      * unfold with_worker. rewrite EC. apply SAME. eauto.
      * destruct (queue s <? cap); [|exact Logic.I]. unfold with_queue, with_worker; cbn. rewrite EC. apply SAME. eauto.
    + destruct (handler s) as [g|] eqn:EH.
      * unfold with_worker. rewrite EH. apply SAME. split; cbn; [|eauto].
        right; left. exists (R_handler g). split; [right; eauto|]. split; [reflexivity|auto].
      * unfold with_worker. rewrite EH. apply SAME. eauto.
    + apply SAME. split; cbn; [|eauto]. right; left. exists R_python. split; [left; auto|]. split; [reflexivity|auto].
    + elim T. left. reflexivity.
  - destruct (gil s) eqn:EG; [|exact Logic.I|exact Logic.I].
    unfold with_gil, with_worker; cbn. apply STEP.
    + rewrite holds_self. split; cbn; auto. right; right; left. exists x. auto.
    + intros j D. cbn. apply Nat.eqb_neq; auto.
    + split; discriminate.
    + intros j Q. injection Q as <-. auto.
  - pose proof (holds_true _ _ HF) as EG.
    assert (NX : good_worker (handler s) (holds (gil s) i) (mk_worker [R_release] (w_todo w)))
      by (split; cbn; auto; right; right; right; auto).
    destruct GU as [->|(g & -> & EH)].
    + rewrite HF. apply SAME. exact NX.
    + rewrite HF, EH, Nat.eqb_refl. cbn [andb]. unfold with_worker. apply SAME. exact NX.
  - pose proof (holds_true _ _ HF) as EG. rewrite HF. unfold with_gil, with_worker; cbn. apply STEP.
    + split; cbn; auto. left; auto.
    + intros j D. rewrite EG. cbn. symmetry. apply Nat.eqb_neq; auto.
    + rewrite EG. split; discriminate.
    + discriminate.
Qed.

Lemma inv_quit_step : forall cap s i, inv s -> match step cap (T_quit i) s with Next s' => inv s' | Blocked => True | Crash => False end.
Proof.
  intros cap s i I. cbn. destruct (nth_error (workers s) i) as [w|] eqn:E; auto.
  destruct (w_frame w) eqn:EF; auto. destruct (w_todo w) eqn:ET; auto. destruct (cancelled s) eqn:EC; auto.
  destruct (inv_main _ I) as (h & r & c & L & HG & HR & HC). constructor; cbn.
  - exists h, r, c. repeat split; auto; try tauto. intros Z. rewrite (HR Z) in *. destruct i; discriminate.
  - intros j v EJ. destruct (Nat.eq_dec j i) as [->|D].
    + rewrite (nth_set_same _ _ _ _ _ E) in EJ. injection EJ as <-. split; cbn; auto.
      destruct (inv_workers _ I _ _ E) as [F _]. rewrite EF in F.
      destruct F as [[_ HF]|[(x & _ & Q & _)|[(x & _ & Q & _)|[Q _]]]]; try discriminate. left; auto.
    + rewrite nth_set_other in EJ by auto. apply (inv_workers _ I); auto.
  - intros j EJ. destruct (Nat.eq_dec j i) as [->|D].
    + rewrite (nth_set_same _ _ _ _ _ E). discriminate.
    + rewrite nth_set_other by auto. apply (inv_gil _ I); auto.
  - apply (inv_epochs _ I).
Qed.

Lemma done_not_holding : forall s i, inv s -> forallb done (workers s) = true -> gil s <> Worker i.
Proof.
  intros s i I D EG. destruct (nth_error (workers s) i) as [w|] eqn:E; [|apply (inv_gil _ I _ EG E)].
  destruct (inv_workers _ I _ _ E) as [F _]. rewrite EG, holds_self in F.
  rewrite forallb_forall in D. specialize (D w (nth_error_In _ _ E)). unfold done in D.
  destruct F as [[_ HF]|[(x & _ & _ & HF)|[(x & _ & Q & _)|[Q _]]]]; try discriminate; rewrite Q in D; discriminate.
Qed.

Lemma inv_main_step : forall s, inv s -> match main_step s with Next s' => inv s' | Blocked => True | Crash => False end.
Proof.
  intros s I. destruct (inv_main _ I) as (h & r & c & L & HG & HR & HC).
  pose proof (inv_workers _ I) as W. pose proof (inv_gil _ I) as G. pose proof (inv_epochs _ I) as E.
  unfold main_step. destruct (main s) as [|[] p] eqn:EM; auto; cbn [legal] in L.
  - destruct L as [-> L]. rewrite (proj1 HG eq_refl) in *. constructor; cbn; auto.
    + exists true, r, c. repeat split; auto; tauto.
    + rewrite (proj1 HG eq_refl). auto.
    + rewrite (proj1 HG eq_refl). discriminate.
  - destruct L as [-> L]. rewrite (proj1 HG eq_refl) in *. constructor; cbn; auto; try discriminate.
    exists false, r, c. repeat split; auto; discriminate.
  - destruct L as [-> L]. destruct (gil s) eqn:EG; auto.
    + constructor; cbn; auto; try discriminate. exists true, r, c. repeat split; auto.
    + destruct HG as [_ HG]. discriminate (HG eq_refl).
  - destruct (workers s) as [|w0 ws] eqn:EW.
    + assert (NG : forall i, gil s <> Worker i) by (intros i Q; apply (G i Q); destruct i; reflexivity).
      destruct (epochs s) as [|e es] eqn:EE.
      * constructor; cbn; rewrite ?EW, ?EE; auto. exists h, true, false. repeat split; auto; try tauto; discriminate.
      * constructor; cbn.
        -- exists h, true, false. repeat split; auto; try tauto; discriminate.
        -- intros i w N. apply nth_error_In in N. apply in_map_iff in N. destruct N as (p' & <- & N).
           assert (HF : holds (gil s) i = false) by (destruct (gil s) eqn:Q; auto; exfalso; eapply NG; reflexivity).
           split; cbn; [left; auto|]. intro B. apply E. exists e, p'. repeat split; auto. left; auto.
        -- intros i Q. elim (NG i Q).
        -- intros (e' & p' & A & B). apply E. exists e', p'. split; [right; auto|auto].
    + constructor; cbn; rewrite ?EW; auto. exists h, true, false. repeat split; auto; try tauto; discriminate.
  - destruct L as [-> L].
    assert (X : forall q, inv (mk_state p (gil s) (workers s) q (cancelled s) (handler s) (handlers s) (epochs s))).
    { intros. constructor; cbn; auto. exists false, r, c. repeat split; auto; tauto. }
    destruct (queue s) as [|q] eqn:EQ.
    + destruct (forallb done (workers s)); auto. apply X.
    + apply X.
  - constructor; cbn; auto. exists h, r, true. repeat split; auto; tauto.
  - destruct L as [-> L]. destruct (forallb done (workers s)) eqn:ED; auto.
    pose proof (fun i => done_not_holding s i I ED) as NG. constructor; cbn; auto.
    + exists h, false, false. repeat split; auto; try tauto.
    + intros i w N. destruct i; discriminate.
    + intros i Q. elim (NG i Q).
  - destruct L as (-> & -> & L). rewrite (proj1 HG eq_refl) in *. rewrite (HR eq_refl) in *. constructor; cbn; auto; try discriminate.
    + exists true, false, c. repeat split; auto.
    + intros i w N. destruct i; discriminate.
Qed.

Lemma inv_step : forall cap t s, inv s -> match step cap t s with Next s' => inv s' | Blocked => True | Crash => False end.
Proof.
  intros cap t s I. destruct t.
  - apply inv_main_step; auto.
  - cbn. destruct (nth_error (workers s) i) eqn:E; auto. apply inv_worker_step; auto.
  - apply inv_quit_step; auto.
Qed.

Lemma inv_run : forall cap l s, inv s -> exists s', run cap l s = Some s' /\ inv s'.
Proof.
  induction l as [|t l IH]; intros s I; cbn; [eauto|].
  pose proof (inv_step cap t s I). destruct (step cap t s); auto; contradiction.
Qed.

Lemma inv_moves : forall cap n s s', moves cap n s s' -> inv s -> inv s'.
Proof.
  induction 1; auto. intros I. apply IHmoves. pose proof (inv_step cap t s I) as P. rewrite H in P. exact P.
Qed.

(* ---------------- the number of steps ---------------- *)

Definition cost (o : wop) : nat := match o with W_compute | W_put => 1 | W_log | W_store => 4 | W_stream => 7 end.
Definition costs (p : list wop) : nat := list_sum (map cost p).
Definition wcost (w : worker) : nat := length (w_frame w) + costs (w_todo w).
Definition measure (s : state) : nat :=
  length (main s) + list_sum (map wcost (workers s)) + list_sum (map (fun e => list_sum (map costs e)) (epochs s)).

Lemma list_sum_set : forall l i w w', nth_error l i = Some w ->
  list_sum (map wcost (set_nth i w' l)) + wcost w = list_sum (map wcost l) + wcost w'.
Proof.
  induction l as [|x l IH]; intros i w w' E; destruct i; cbn in *; try discriminate.
  - injection E as ->. unfold list_sum in *. cbn. lia.
  - specialize (IH _ _ w' E). unfold list_sum in *. cbn. lia.
Qed.

Lemma measure_worker : forall s i w w' g q, nth_error (workers s) i = Some w -> wcost w' < wcost w ->
  measure (mk_state (main s) g (set_nth i w' (workers s)) q (cancelled s) (handler s) (handlers s) (epochs s)) < measure s.
Proof. intros. unfold measure; cbn [main workers epochs]. pose proof (list_sum_set _ _ _ w' H). lia. Qed.

Ltac mz EM := unfold measure, with_main, with_gil, with_queue; cbn [main workers epochs]; rewrite EM;
  cbn [length map]; try change (list_sum []) with 0; lia.

Lemma measure_step : forall cap t s s', step cap t s = Next s' -> measure s' < measure s.
Proof.
  intros cap t s s' H. destruct t; cbn in H.
  - unfold main_step in H. destruct (main s) as [|[] p] eqn:EM; try discriminate.
    + destruct (gil s); inversion H; subst; mz EM.
    + destruct (gil s); inversion H; subst; mz EM.
    + destruct (gil s); inversion H; subst; mz EM.
    + destruct (workers s) eqn:EW; [destruct (epochs s) as [|e es] eqn:EE|];
        inversion H; subst; unfold measure, with_main; cbn [main workers epochs]; rewrite ?EM, ?EW, ?EE;
        cbn [length map]; try lia.
      assert (Q : list_sum (map wcost (map (mk_worker []) e)) = list_sum (map costs e)).
      { rewrite map_map. f_equal. }
      rewrite Q. unfold list_sum. cbn [fold_right]. lia.
    + destruct (queue s); [destruct (forallb done (workers s))|]; inversion H; subst; mz EM.
    + inversion H; subst; mz EM.
    + destruct (forallb done (workers s)); inversion H; subst; mz EM.
    + destruct (gil s); inversion H; subst; mz EM.
  - destruct (nth_error (workers s) i) as [w|] eqn:E; [|discriminate].
    unfold worker_step in H. destruct (w_frame w) as [|[] f] eqn:EF.
    + destruct (w_todo w) as [|[] t] eqn:ET; try discriminate.
      * inversion H; subst. eapply measure_worker with (w := w); auto. unfold wcost; cbn. rewrite EF, ET. unfold costs; cbn. lia.
      * destruct (cancelled s) eqn:EC; [|destruct (queue s <? cap)]; inversion H; subst; unfold with_queue, with_worker; cbn [main gil workers queue cancelled handler handlers epochs];
          (eapply measure_worker with (w := w); auto; unfold wcost; cbn; rewrite EF, ET; unfold costs; cbn; lia).
      * destruct (handler s) eqn:EH; inversion H; subst; unfold with_worker;
          (eapply measure_worker with (w := w); auto; unfold wcost; cbn; rewrite EF, ET; unfold costs; cbn; lia).
      * inversion H; subst. eapply measure_worker with (w := w); auto. unfold wcost; cbn. rewrite EF, ET. unfold costs; cbn. lia.
      * inversion H; subst. eapply measure_worker with (w := w); auto. unfold wcost; cbn. rewrite EF, ET. unfold costs; cbn. lia.
    + destruct (gil s); inversion H; subst. unfold with_gil, with_worker; cbn [main gil workers queue cancelled handler handlers epochs].
      eapply measure_worker with (w := w); auto; unfold wcost; cbn [w_frame w_todo]; rewrite EF; cbn [length]; lia.
    + destruct (holds (gil s) i); inversion H; subst. unfold with_gil, with_worker; cbn [main gil workers queue cancelled handler handlers epochs].
      eapply measure_worker with (w := w); auto; unfold wcost; cbn [w_frame w_todo]; rewrite EF; cbn [length]; lia.
    + destruct (holds (gil s) i); inversion H; subst.
      eapply measure_worker with (w := w); auto; unfold wcost; cbn [w_frame w_todo]; rewrite EF; cbn [length]; lia.
    + destruct (holds (gil s) i && _); inversion H; subst.
      eapply measure_worker with (w := w); auto; unfold wcost; cbn [w_frame w_todo]; rewrite EF; cbn [length]; lia.
  - destruct (nth_error (workers s) i) as [w|] eqn:E; [|discriminate].
    destruct (w_frame w) eqn:EF; [|discriminate]. destruct (w_todo w) as [|o t] eqn:ET; [discriminate|].
    destruct (cancelled s) eqn:EC; inversion H; subst.
    eapply measure_worker with (w := w); auto. unfold wcost; cbn. rewrite EF, ET. unfold costs; cbn. destruct o; cbn; lia.
Qed.

Lemma moves_bound : forall cap n s s', moves cap n s s' -> n + measure s' <= measure s.
Proof. induction 1; [lia|]. pose proof (measure_step _ _ _ _ H). lia. Qed.

(* ---------------- progress ---------------- *)

(* Whoever holds the GIL in the background can go on. *)
Lemma holder_moves : forall cap s i, inv s -> gil s = Worker i -> exists s', step cap (T_worker i) s = Next s'.
Proof.
  intros cap s i I EG. cbn. destruct (nth_error (workers s) i) as [w|] eqn:E; [|elim (inv_gil _ I _ EG E)].
  destruct (inv_workers _ I _ _ E) as [F _]. rewrite EG, holds_self in F. unfold worker_step.
  destruct F as [[_ HF]|[(x & _ & _ & HF)|[(x & GU & EF & _)|[EF _]]]]; try discriminate; rewrite EF, EG.
  - destruct GU as [->|(g & -> & EH)]; rewrite ?EH, holds_self, ?Nat.eqb_refl; cbn; eauto.
  - rewrite holds_self. eauto.
Qed.

Lemma not_done : forall l, forallb done l = false -> exists i w, nth_error l i = Some w /\ done w = false.
Proof.
  induction l as [|w l IH]; cbn; intros; [discriminate|]. destruct (done w) eqn:E.
  - destruct (IH H) as (i & v & A & B). exists (S i), v. auto.
  - exists 0, w. auto.
Qed.

(* A worker that is not done can go on when nobody holds the GIL and the queue has a place. *)
Lemma worker_moves : forall cap s i w, inv s -> nth_error (workers s) i = Some w -> done w = false ->
  gil s = Nobody -> (cancelled s = true \/ queue s < cap) -> exists s', step cap (T_worker i) s = Next s'.
Proof.
  intros cap s i w I E D EG Q. cbn. rewrite E. destruct (inv_workers _ I _ _ E) as [F _]. rewrite EG in F.
  unfold worker_step. destruct F as [[EF _]|[(x & _ & EF & _)|[(x & _ & _ & HF)|[_ HF]]]]; try discriminate; rewrite EF.
  - unfold done in D. rewrite EF in D. destruct (w_todo w) as [|[] t]; try discriminate; eauto.
    + destruct (cancelled s); eauto. destruct Q as [Q|Q]; [discriminate|]. apply Nat.ltb_lt in Q. rewrite Q. eauto.
    + destruct (handler s); eauto.
  - rewrite EG. eauto.
Qed.

Lemma progress : forall cap s, inv s -> 0 < cap -> ~ (exists p, main s = M_join :: p) -> main s <> [] ->
  exists t s', step cap t s = Next s'.
Proof.
  intros cap s I C NJ NE. destruct (inv_main _ I) as (h & r & c & L & HG & HR & HC).
  destruct (main s) as [|[] p] eqn:EM; [contradiction| | | | | | | |]; cbn [legal] in L.
  - exists T_main. cbn. unfold main_step. rewrite EM. destruct L as [-> L]. rewrite (proj1 HG eq_refl). eauto.
  - exists T_main. cbn. unfold main_step. rewrite EM. destruct L as [-> L]. rewrite (proj1 HG eq_refl). eauto.
  - destruct (gil s) eqn:EG.
    + exists T_main. cbn. unfold main_step. rewrite EM, EG. eauto.
    + exists T_main. cbn. unfold main_step. rewrite EM, EG. eauto.
    + destruct (holder_moves cap s i I EG) as [s' H]. eauto.
  - exists T_main. cbn. unfold main_step. rewrite EM. destruct (workers s), (epochs s); eauto.
  - destruct (queue s) as [|q] eqn:EQ.
    + destruct (forallb done (workers s)) eqn:ED.
      * exists T_main. cbn. unfold main_step. rewrite EM, EQ, ED. eauto.
      * destruct (gil s) eqn:EG.
        -- destruct (not_done _ ED) as (i & w & E & D). exists (T_worker i).
           eapply worker_moves; eauto. right. lia.
        -- destruct L as [-> _]. destruct HG as [_ HG]. discriminate (HG eq_refl).
        -- destruct (holder_moves cap s i I EG) as [s' H]. eauto.
    + exists T_main. cbn. unfold main_step. rewrite EM, EQ. eauto.
  - exists T_main. cbn. unfold main_step. rewrite EM. eauto.
  - elim NJ. eauto.
  - exists T_main. cbn. unfold main_step. rewrite EM. destruct L as (-> & _ & _). rewrite (proj1 HG eq_refl). eauto.
Qed.

(* ---------------- without reset and deletion ---------------- *)

Definition suffix_of {A} (p q : list A) : Prop := exists r, q = r ++ p.

Lemma main_suffix : forall cap t s s', step cap t s = Next s' -> main s' = main s \/ exists o, main s = o :: main s'.
Proof.
  intros cap t s s' H. destruct t; cbn in H.
  - right. unfold main_step in H. destruct (main s) as [|[] p] eqn:EM; try discriminate;
      repeat match type of H with
      | (match ?x with _ => _ end) = _ => destruct x
      end; inversion H; subst; cbn; eauto.
  - left. destruct (nth_error (workers s) i); [|discriminate]. unfold worker_step in H.
      repeat match type of H with
      | (match ?x with _ => _ end) = _ => destruct x
      end; inversion H; subst; reflexivity.
  - left. repeat match type of H with
      | (match ?x with _ => _ end) = _ => destruct x
      end; inversion H; subst; reflexivity.
Qed.

Lemma moves_main : forall cap n s s', moves cap n s s' -> forall o, In o (main s') -> In o (main s).
Proof.
  induction 1; auto. intros o I. apply IHmoves in I. destruct (main_suffix _ _ _ _ H) as [E|[x E]].
  - rewrite E in I. auto.
  - rewrite E. right. auto.
Qed.

Lemma no_join : forall calls, ~ In Call_reset calls -> ~ In Call_delete calls -> ~ In M_join (concat (map program calls)).
Proof.
  intros calls A B H. apply in_concat in H. destruct H as (p & H & J). apply in_map_iff in H. destruct H as (c & <- & H).
  assert (CB : forall k, ~ In M_join (callbacks k)) by (induction k; cbn; intuition discriminate).
  destruct c; cbn in J; repeat (rewrite in_app_iff in J; cbn in J); intuition (try discriminate; eauto).
Qed.

Lemma finishes_without_reset : forall cap calls epochs, 0 < cap -> no_py_stream calls epochs -> handlers_when_idle false calls ->
  ~ In Call_reset calls -> ~ In Call_delete calls -> always_finishes cap (initial calls epochs).
Proof.
  intros cap calls epochs C N H A B. exists (measure (initial calls epochs)). intros n s' M.
  pose proof (inv_moves _ _ _ _ M (inv_initial _ _ N H)) as I. repeat split.
  - pose proof (moves_bound _ _ _ _ M). lia.
  - intros S. unfold finished. destruct (main s') as [|o p] eqn:E; auto. exfalso.
    destruct (progress cap s' I C) as (t & s2 & P).
    + intros (q & Q). apply (no_join calls A B). apply (moves_main _ _ _ _ M). rewrite Q. left. reflexivity.
    + rewrite E. discriminate.
    + rewrite S in P. discriminate.
  - intros t Z. pose proof (inv_step cap t s' I) as P. rewrite Z in P. exact P.
Qed.

(* ---------------- background work that does not call Python ---------------- *)

Definition quiet_op (log : bool) (o : wop) : Prop := o <> W_store /\ (log = true -> o <> W_log).

(* log = true: nothing is logged; otherwise no handler is ever set. *)
Record quiet (log : bool) (s : state) : Prop := mk_quiet
  { q_workers : Forall (fun w => w_frame w = [] /\ Forall (quiet_op log) (w_todo w)) (workers s);
    q_epochs : Forall (Forall (Forall (quiet_op log))) (epochs s);
    q_handler : log = false -> handler s = None /\ ~ In (M_handler true) (main s) }.

Lemma Forall_set : forall A (P : A -> Prop) l i a, Forall P l -> P a -> Forall P (set_nth i a l).
Proof. induction l; destruct i; cbn; intros; auto; inversion H; subst; constructor; auto. Qed.

Lemma Forall_nth : forall A (P : A -> Prop) l i a, Forall P l -> nth_error l i = Some a -> P a.
Proof. intros. rewrite Forall_forall in H. apply H. eapply nth_error_In; eauto. Qed.

Lemma quiet_step : forall log cap t s s', inv s -> quiet log s -> step cap t s = Next s' -> quiet log s'.
Proof.
  intros log cap t s s' I Q H. destruct Q as [QW QE QH]. destruct t; cbn in H.
  - unfold main_step in H. destruct (main s) as [|[] p] eqn:EM; try discriminate.
    + destruct (gil s); inversion H; subst. constructor; cbn; auto. intros Z; destruct (QH Z). split; auto. cbn in *; tauto.
    + destruct (gil s); inversion H; subst. constructor; cbn; auto. intros Z; destruct (QH Z). split; auto. cbn in *; tauto.
    + destruct (gil s); inversion H; subst; (constructor; cbn; auto; intros Z; destruct (QH Z); split; auto; cbn in *; tauto).
    + destruct (workers s) eqn:EW; [destruct (epochs s) as [|e es] eqn:EE|]; inversion H; subst.
      * constructor; cbn; rewrite ?EW, ?EE; auto. intros Z; destruct (QH Z). split; auto. cbn in *; tauto.
      * inversion QE; subst. constructor; cbn; auto.
        -- apply Forall_forall. intros w IN. apply in_map_iff in IN. destruct IN as (q & <- & IN). cbn. split; auto.
           rewrite Forall_forall in H2. auto.
        -- intros Z; destruct (QH Z). split; auto. cbn in *; tauto.
      * constructor; cbn; rewrite ?EW; auto. intros Z; destruct (QH Z). split; auto. cbn in *; tauto.
    + destruct (queue s); [destruct (forallb done (workers s))|]; inversion H; subst;
        (constructor; cbn; auto; intros Z; destruct (QH Z); split; auto; cbn in *; tauto).
    + inversion H; subst. constructor; cbn; auto. intros Z; destruct (QH Z). split; auto. cbn in *; tauto.
    + destruct (forallb done (workers s)); inversion H; subst. constructor; cbn; auto.
      intros Z; destruct (QH Z). split; auto. cbn in *; tauto.
    + destruct (gil s); inversion H; subst. constructor; cbn; auto. intros Z; destruct (QH Z) as [A B].
      split; [|cbn in *; tauto]. destruct b; auto. elim B. left. reflexivity.
  - destruct (nth_error (workers s) i) as [w|] eqn:E; [|discriminate].
    destruct (Forall_nth _ _ _ _ _ QW E) as [EF QT]. unfold worker_step in H. rewrite EF in H.
    assert (X : forall w' q, w_frame w' = [] -> Forall (quiet_op log) (w_todo w') ->
      quiet log (mk_state (main s) (gil s) (set_nth i w' (workers s)) q (cancelled s) (handler s) (handlers s) (epochs s))).
    { intros. constructor; cbn; auto. apply Forall_set; auto. }
    destruct (w_todo w) as [|o t] eqn:ET; [discriminate|]. inversion QT; subst. destruct H2 as [NS NL]. destruct o.
    + inversion H; subst. apply X; auto.
    + destruct (cancelled s) eqn:EC; [|destruct (queue s <? cap)]; inversion H; subst; unfold with_queue, with_worker; cbn;
        rewrite ?EC; apply X; auto.
    + destruct log; [elim NL; auto|]. destruct (QH eq_refl) as [EH _]. rewrite EH in H. inversion H; subst.
      unfold with_worker. apply X; auto.
    + elim NS; auto.
    + elim (proj2 (inv_workers _ I _ _ E)). rewrite ET. left. reflexivity.
  - destruct (nth_error (workers s) i) as [w|] eqn:E; [|discriminate].
    destruct (w_frame w); [|discriminate]. destruct (w_todo w); [discriminate|]. destruct (cancelled s) eqn:EC; inversion H; subst.
    constructor; cbn; auto. apply Forall_set; auto. cbn. auto.
Qed.

Lemma quiet_moves : forall log cap n s s', moves cap n s s' -> inv s -> quiet log s -> quiet log s'.
Proof.
  induction 1; auto. intros I Q. apply IHmoves.
  - pose proof (inv_step cap t s I) as P. rewrite H in P. exact P.
  - eapply quiet_step; eauto.
Qed.

Lemma quiet_progress : forall log cap s, inv s -> quiet log s -> 0 < cap -> main s <> [] -> exists t s', step cap t s = Next s'.
Proof.
  intros log cap s I [QW QE QH] C NE.
  destruct (main s) as [|o p] eqn:EM; [contradiction|].
  assert (D : o = M_join \/ o <> M_join) by (destruct o; auto; right; discriminate).
  destruct D as [->|D].
  - destruct (forallb done (workers s)) eqn:ED.
    + exists T_main. cbn. unfold main_step. rewrite EM, ED. eauto.
    + destruct (not_done _ ED) as (i & w & E & ND). exists (T_worker i). cbn. rewrite E. unfold worker_step.
      destruct (Forall_nth _ _ _ _ _ QW E) as [EF QT]. rewrite EF. unfold done in ND. rewrite EF in ND.
      destruct (w_todo w) as [|[] t] eqn:ET; try discriminate; eauto.
      * destruct (inv_main _ I) as (h & r & c & L & HG & HR & HC). rewrite EM in L. cbn in L. destruct L as [-> L].
        rewrite (HC eq_refl). eauto.
      * destruct (handler s); eauto.
  - apply progress; auto.
    + rewrite EM. intros (q & Q). congruence.
    + rewrite EM. discriminate.
Qed.

Lemma not_occurs : forall o epochs, ~ occurs o epochs -> Forall (Forall (Forall (fun x => x <> o))) epochs.
Proof.
  intros o epochs N. apply Forall_forall. intros e A. apply Forall_forall. intros p B. apply Forall_forall. intros x C ->.
  apply N. exists e, p. auto.
Qed.

Lemma no_set : forall calls, ~ In Call_set_handler calls -> ~ In (M_handler true) (concat (map program calls)).
Proof.
  intros calls A H. apply in_concat in H. destruct H as (p & H & J). apply in_map_iff in H. destruct H as (c & <- & H).
  assert (CB : forall k, ~ In (M_handler true) (callbacks k)) by (induction k; cbn; intuition discriminate).
  destruct c; cbn in J; repeat (rewrite in_app_iff in J; cbn in J); intuition (try discriminate; eauto).
Qed.

Lemma finishes_silent : forall cap calls epochs, 0 < cap -> no_py_stream calls epochs -> handlers_when_idle false calls ->
  silent calls epochs -> always_finishes cap (initial calls epochs).
Proof.
  intros cap calls epochs C N H [S1 S2]. exists (measure (initial calls epochs)). intros n s' M.
  pose proof (inv_moves _ _ _ _ M (inv_initial _ _ N H)) as I.
  assert (Q : exists log, quiet log (initial calls epochs)).
  { apply not_occurs in S1. destruct S2 as [S2|S2].
    - apply not_occurs in S2. exists true. constructor; cbn; auto; [|discriminate].
      rewrite Forall_forall in *. intros e A. specialize (S1 e A). specialize (S2 e A). rewrite Forall_forall in *. intros p B.
      specialize (S1 p B). specialize (S2 p B). rewrite Forall_forall in *. intros o D. split; auto.
    - exists false. constructor; cbn; auto.
      + rewrite Forall_forall in *. intros e A. specialize (S1 e A). rewrite Forall_forall in *. intros p B.
        specialize (S1 p B). rewrite Forall_forall in *. intros o D. split; auto. discriminate.
      + intros _. split; auto. apply no_set; auto. }
  destruct Q as [log Q]. pose proof (quiet_moves _ _ _ _ _ M (inv_initial _ _ N H) Q) as Q'. repeat split.
  - pose proof (moves_bound _ _ _ _ M). lia.
  - intros S. unfold finished. destruct (main s') as [|o p] eqn:E; auto. exfalso.
    destruct (quiet_progress log cap s' I Q' C) as (t & s2 & P).
    + rewrite E. discriminate.
    + rewrite S in P. discriminate.
  - intros t Z. pose proof (inv_step cap t s' I) as P. rewrite Z in P. exact P.
Qed.
