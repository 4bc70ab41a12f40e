From Coq Require Import Permutation.
From Verif Require Import Common Model_rec Proof_rec Model_inst Spec_inst Proof_inst Proof_inst_shuffle Proof_inst_props Model_par Spec_par Proof_par Proof_par_props
  Model_text Spec_text Proof_text Spec_fault Proof_fault Model_whole Spec_whole Proof_whole.

Lemma run_snoc {A} (M : machine A) : forall ops s o, snd (run M s (ops ++ [o])) = snd (run M (snd (run M s ops)) [o]).
Proof.
  induction ops as [|a ops IH]; intros s o; [reflexivity|]. cbn [app run].
  destruct a.
  - destruct (b_read M s) as [r s1]. specialize (IH s1 o). destruct (run M s1 (ops ++ [o])), (run M s1 ops). exact IH.
  - destruct (b_peek M s) as [r s1]. specialize (IH s1 o). destruct (run M s1 (ops ++ [o])), (run M s1 ops). exact IH.
  - apply IH.
Qed.
Lemma peek_again {A} (M : machine A) s n : snd (b_peek M (snd (run M s (repeat Peek n)))) = snd (run M s (repeat Peek (S n))).
Proof.
  replace (S n) with (n + 1) by lia. rewrite repeat_app. cbn [repeat]. rewrite run_snoc. cbn [run]. now destruct (b_peek M _).
Qed.
Lemma run_fst_snoc {A} (M : machine A) : forall ops s, fst (run M s (ops ++ [Peek])) = fst (run M s ops) ++ [fst (b_peek M (snd (run M s ops)))].
Proof.
  induction ops as [|a ops IH]; intros s; [cbn; now destruct (b_peek M s)|]. cbn [app run].
  destruct a.
  - destruct (b_read M s) as [r s1]. specialize (IH s1). destruct (run M s1 (ops ++ [Peek])), (run M s1 ops). cbn in *. now rewrite IH.
  - destruct (b_peek M s) as [r s1]. specialize (IH s1). destruct (run M s1 (ops ++ [Peek])), (run M s1 ops). cbn in *. now rewrite IH.
  - apply IH.
Qed.

Section Good.
  Context {rng : Type} (seeded : rng) (draw : nat -> rng -> nat * rng) (shuf : list instance -> rng -> list instance * rng) (size_max : nat).
  Context (p : rd_params) (ds : list store) (iss : list (list instance)) (M : machine instance).
  Context {E : Type} (decode : batch instance -> dres E) (size_bytes : batch instance -> nat) (cores np pr prefetch reads : nat).
  Hypothesis HF : Forall2 store_instances ds iss.
  Hypothesis HM : make_instance_reader seeded draw shuf size_max p ds = Ok M.
  Hypothesis Hr : forall r, p_ratio p = Some r -> float_ratio r.
  Hypothesis Hd : forall w g, 0 < w -> fst (draw w g) < w.
  Hypothesis Hp : forall l g, Permutation (fst (shuf l g)) l.
  Hypothesis Hm : length (concat iss) < size_max.
  Hypothesis Hb : 0 < p_batch p.
  Hypothesis HG : graph_params cores np pr = (prefetch, reads).
  Hypothesis HC : 1 <= cores.
  Notation wstep := (wstep M (p_batch p) (p_last p) decode size_bytes prefetch reads).
  Notation wexec := (wexec M (p_batch p) (p_last p) decode size_bytes prefetch reads).
  Notation w_reachable := (w_reachable M (p_batch p) (p_last p) decode size_bytes prefetch reads).

  Definition good_begin (e : nat) (i : bstate M) : Prop := epoch_start M e (0, i) /\ exists zs, yields M i zs (Ok tt).

  Lemma good_init : good_begin 0 (b_init M).
  Proof.
    split; [exact (es_first M 0)|].
    destruct (reader_ok_init seeded draw shuf size_max p ds iss M HF HM Hr Hd Hp Hm) as (y0 & z0 & _ & _ & H0). apply yields_iff in H0. eauto.
  Qed.
  Lemma good_reset e i : good_begin (S e) (b_reset M i).
  Proof.
    split; [exact (es_later M e i 0)|].
    destruct (reader_ok seeded draw shuf size_max p ds iss M i HF HM Hr Hd Hp Hm) as (y0 & z0 & _ & _ & H0). apply yields_iff in H0. eauto.
  Qed.
  Lemma start_peek e i : epoch_start M e (0, i) -> epoch_start M e (0, snd (b_peek M i)).
  Proof.
    intro H. inversion H; subst; rewrite peek_again; constructor.
  Qed.
  Lemma peek_yields i zs : yields M i zs (Ok tt) -> exists o i', b_peek M i = (Ok o, i') /\ yields M i' zs (Ok tt).
  Proof.
    intro H. pose proof (yields_peek _ _ _ _ H) as HP. destruct zs as [|z zs]; destruct HP as (i' & E1 & HP); eauto.
  Qed.
  Lemma good_peek e i : good_begin e i -> good_begin e (snd (b_peek M i)).
  Proof.
    intros (HS & zs & H). split; [now apply start_peek|]. destruct (peek_yields i zs H) as (o & i' & -> & H'). eauto.
  Qed.
  Lemma good_peek_defined e i : good_begin e i -> exists r, fst (b_peek M i) = Ok r \/ exists x, fst (b_peek M i) = Throw x.
  Proof. intros (HS & zs & H). destruct (peek_yields i zs H) as (o & i' & -> & H'). cbn. eauto. Qed.

  Lemma batches_exist i zs : yields M i zs (Ok tt) ->
    exists bs, batches_of (p_batch p) (effective (p_last p)) 0 zs bs /\ yields (batch_reader (p_batch p) (p_last p) M) (None, (0, i)) bs (Ok tt).
  Proof.
    intro Hi.
    assert (G : forall l, l <> last_pad_warn -> exists bs, batches_of (p_batch p) l 0 zs bs /\ yields (batch_reader (p_batch p) l M) (None, (0, i)) bs (Ok tt)).
    { intros l Hl. destruct (batches_of_total (p_batch p) l Hb (S (length zs)) 0 zs (le_n _)) as (bs' & HB).
      exists bs'. split; [exact HB|]. exact (batch_ok M _ l Hb 0 zs bs' Hl HB i Hi). }
    destruct (p_last p); try (apply G; discriminate). exact (G last_none ltac:(discriminate)).
  Qed.
  Lemma good_read e i : good_begin e i -> exists bs x, yields (batch_reader (p_batch p) (p_last p) M) (None, (0, i)) bs (endres x).
  Proof. intros (_ & zs & H). destruct (batches_exist i zs H) as (bs & _ & HB). exists bs, None. exact HB. Qed.

  Notation J := (J M (p_batch p) (p_last p) decode size_bytes prefetch reads good_begin).

  Lemma good_J w : w_reachable w -> exists src src_end, J src src_end w.
  Proof.
    intros (l & Hl).
    assert (G : forall l w0 w1, (exists src src_end, J src src_end w0) -> wexec w0 l = Ok (Some w1) -> exists src src_end, J src src_end w1).
    { clear w l Hl. induction l as [|a l IH]; intros w0 w1 HJ HE; [cbn in HE; injection HE as <-; exact HJ|].
      cbn [Model_whole.wexec] in HE. destruct (wstep w0 a) as [[w'|]| | |] eqn:Ew; cbn [bind] in HE; try discriminate.
      destruct HJ as (src & src_end & HJ).
      apply (IH w' w1); [|exact HE].
      refine (J_step M (p_batch p) (p_last p) decode size_bytes prefetch reads cores np pr HG HC good_begin good_reset good_peek_defined good_read src src_end w0 a w' HJ Ew _).
      intros ok _ Hi. now apply good_peek. }
    apply (G l (w_init M) w); [|exact Hl].
    exact (J_init M (p_batch p) (p_last p) decode size_bytes prefetch reads good_begin good_init good_reset good_read).
  Qed.

  Lemma J_fed_by src src_end w : J src src_end w -> fed_by M (p_batch p) (p_last p) src src_end.
  Proof.
    intros HJ e. destruct (j_fed _ _ _ _ _ _ _ _ _ _ _ HJ e) as (i & (HS & _) & HY). exists (0, i). split; [exact HS|]. apply yields_iff. exact HY.
  Qed.

  Theorem good_refines w : w_reachable w -> exists src src_end, fed_by M (p_batch p) (p_last p) src src_end /\
    reachable decode size_bytes src src_end prefetch reads (w_par w).
  Proof. intro H. destruct (good_J w H) as (src & src_end & HJ). exists src, src_end. split; [exact (J_fed_by _ _ _ HJ)|apply HJ]. Qed.

  Lemma wexec_defined l : forall w0, (exists l0, wexec (w_init M) l0 = Ok (Some w0)) -> exists o, wexec w0 l = Ok o.
  Proof.
    induction l as [|a l IH]; intros w0 HR; [cbn; eauto|]. cbn [Model_whole.wexec].
    destruct (good_J w0 HR) as (src & src_end & HJ).
    destruct (J_defined M (p_batch p) (p_last p) decode size_bytes prefetch reads cores np pr HG HC good_begin good_reset good_peek_defined good_read src src_end w0 a HJ) as (o & Eo).
    rewrite Eo. cbn [bind]. destruct o as [w'|]; [|eauto]. apply IH. destruct HR as (l0 & Hl0). exists (l0 ++ [a]).
    clear - Hl0 Eo. revert Hl0. generalize (w_init (E := E) M). induction l0 as [|b l0 IH]; intros w Hw; cbn [app Model_whole.wexec] in *.
    - injection Hw as ->. rewrite Eo. reflexivity.
    - destruct (wstep w b) as [[w1|]| | |]; cbn [bind] in *; try discriminate. auto.
  Qed.

  Theorem good_defined l : exists o, wexec (w_init M) l = Ok o.
  Proof. apply wexec_defined. exists []. reflexivity. Qed.

  Theorem good_read_returns w : w_reachable w -> pc (w_par w) = c_wait \/ pc (w_par w) = c_notify ->
    w_inevitable M (p_batch p) (p_last p) decode size_bytes prefetch reads (fun w' => pc (w_par w') = c_idle) w.
  Proof.
    intros H Hpc. destruct (good_J w H) as (src & src_end & HJ).
    apply (J_live M (p_batch p) (p_last p) decode size_bytes prefetch reads cores np pr HG HC good_begin good_reset good_peek_defined good_read src src_end (fun s => pc s = c_idle)); [|exact HJ].
    eapply read_returns; eauto. apply HJ.
  Qed.
  Theorem good_stop_returns w : w_reachable w -> pc (w_par w) = c_notify_stop \/ pc (w_par w) = c_join ->
    w_inevitable M (p_batch p) (p_last p) decode size_bytes prefetch reads (fun w' => pc (w_par w') = c_joined) w.
  Proof.
    intros H Hpc. destruct (good_J w H) as (src & src_end & HJ).
    apply (J_live M (p_batch p) (p_last p) decode size_bytes prefetch reads cores np pr HG HC good_begin good_reset good_peek_defined good_read src src_end (fun s => pc s = c_joined)); [|exact HJ].
    eapply stop_returns; eauto. apply HJ.
  Qed.
End Good.

(* ---------------- a dataset with a fault ---------------- *)

Section Fault.
  Context {rng : Type} (seeded : rng) (draw : nat -> rng -> nat * rng) (shuf : list instance -> rng -> list instance * rng) (size_max : nat).
  Context (p : rd_params) (ds : list store) (xs : list instance) (x : exn) (M : machine instance).
  Context {E : Type} (decode : batch instance -> dres E) (size_bytes : batch instance -> nat) (cores np pr prefetch reads : nat).
  Hypothesis Hd : forall w g, 0 < w -> fst (draw w g) < w.
  Hypothesis HF : faulty ds xs x.
  Hypothesis HM : make_instance_reader seeded draw shuf size_max p ds = Ok M.
  Hypothesis Hin : ~ out_of_range p xs.
  Hypothesis Hk : forall r, p_ratio p = Some r -> float_ratio r /\ keeps_some r.
  Hypothesis Hm : length xs < size_max.
  Hypothesis Hb : 0 < p_batch p.
  Hypothesis HG : graph_params cores np pr = (prefetch, reads).
  Hypothesis HC : 1 <= cores.
  Notation wstep := (wstep M (p_batch p) (p_last p) decode size_bytes prefetch reads).
  Notation w_calm := (w_calm M (p_batch p) (p_last p) decode size_bytes prefetch reads).

  Definition bad_begin (e : nat) (i : bstate M) : Prop := epoch_begins M e (0, i) /\ exists zs, yields M i zs (Throw x).

  Lemma bad_init : bad_begin 0 (b_init M).
  Proof.
    split; [apply (eb_first M 0); constructor|].
    destruct (reader_fault seeded draw shuf size_max Hd p ds xs x M (b_init M) HF HM Hin Hk Hm (or_introl eq_refl)) as (ys & zs & _ & _ & Hz). eauto.
  Qed.
  Lemma bad_reset e i : bad_begin (S e) (b_reset M i).
  Proof.
    split; [apply (eb_later M e i 0); constructor|].
    destruct (reader_fault seeded draw shuf size_max Hd p ds xs x M (b_reset M i) HF HM Hin Hk Hm (or_intror (ex_intro _ _ eq_refl))) as (ys & zs & _ & _ & Hz). eauto.
  Qed.
  Lemma begins_again e i : epoch_begins M e (0, i) -> (exists v, fst (b_peek M i) = Ok (Some v)) -> epoch_begins M e (0, snd (b_peek M i)).
  Proof.
    intros H (v & Hv). inversion H as [n Hn|e' s n Hn]; subst; rewrite peek_again; constructor;
      replace (S n) with (n + 1) by lia; rewrite repeat_app; cbn [repeat]; rewrite run_fst_snoc; apply Forall_app; split; auto; constructor; eauto.
  Qed.
  Lemma bad_look e i : bad_begin e i -> fst (b_peek M i) = Throw x \/
    (exists v, fst (b_peek M i) = Ok (Some v)) /\ bad_begin e (snd (b_peek M i)).
  Proof.
    intros (HS & zs & H). pose proof (yields_peek _ _ _ _ H) as HP. destruct zs as [|z zs]; destruct HP as (i' & E1 & HP).
    - left. rewrite E1. reflexivity.
    - right. assert (Hv : exists v, fst (b_peek M i) = Ok (Some v)) by (exists z; rewrite E1; reflexivity). split; [exact Hv|].
      split; [now apply begins_again|]. rewrite E1. eauto.
  Qed.
  Lemma bad_peek_defined e i : bad_begin e i -> exists r, fst (b_peek M i) = Ok r \/ exists y, fst (b_peek M i) = Throw y.
  Proof. intro H. destruct (bad_look e i H) as [E1|((v & E1) & _)]; [exists None; eauto|eauto]. Qed.
  Lemma bad_read e i : bad_begin e i -> exists bs y, yields (batch_reader (p_batch p) (p_last p) M) (None, (0, i)) bs (endres y).
  Proof.
    intros (_ & zs & Hz). destruct (batches_of_total (p_batch p) last_drop Hb (S (length zs)) 0 zs (le_n _)) as (bs & HB).
    exists bs, (Some x). apply (batch_fault M (p_batch p) (p_last p) x Hb (S (length zs)) zs 0 i bs (le_n _) Hz HB).
  Qed.

  Notation J := (J M (p_batch p) (p_last p) decode size_bytes prefetch reads bad_begin).

  Lemma bad_J w : w_calm w -> exists src src_end, J src src_end w.
  Proof.
    induction 1 as [|w a w' Hw IH Ew Hlook].
    - exact (J_init M (p_batch p) (p_last p) decode size_bytes prefetch reads bad_begin bad_init bad_reset bad_read).
    - destruct IH as (src & src_end & HJ).
      refine (J_step M (p_batch p) (p_last p) decode size_bytes prefetch reads cores np pr HG HC bad_begin bad_reset bad_peek_defined bad_read src src_end w a w' HJ Ew _).
      intros ok -> Hi. destruct (Hlook ok eq_refl) as (v & Hv). destruct (bad_look _ _ Hi) as [E1|(_ & Hi')]; [congruence|exact Hi'].
  Qed.

  Theorem fault_refines w : w_calm w -> exists src src_end, fed_well M (p_batch p) (p_last p) src src_end /\
    reachable decode size_bytes src src_end prefetch reads (w_par w).
  Proof.
    intro H. destruct (bad_J w H) as (src & src_end & HJ). exists src, src_end. split; [|apply HJ].
    intro e. destruct (j_fed _ _ _ _ _ _ _ _ _ _ _ HJ e) as (i & (HS & _) & HY). exists (0, i). split; [exact HS|]. apply yields_iff. exact HY.
  Qed.

  Theorem fault_looks w : w_calm w -> w_schema w = false ->
    fst (b_peek M (snd (w_reader w))) = Throw x \/ exists v, fst (b_peek M (snd (w_reader w))) = Ok (Some v).
  Proof.
    intros H Hs. destruct (bad_J w H) as (src & src_end & HJ).
    destruct (j_new _ _ _ _ _ _ _ _ _ _ _ HJ (j_schema _ _ _ _ _ _ _ _ _ _ _ HJ Hs)) as (_ & i & -> & Hi). cbn [snd].
    destruct (bad_look _ _ Hi) as [E1|(Hv & _)]; auto.
  Qed.

  Theorem fault_defined w a : w_calm w -> exists o, wstep w a = Ok o.
  Proof.
    intro H. destruct (bad_J w H) as (src & src_end & HJ).
    exact (J_defined M (p_batch p) (p_last p) decode size_bytes prefetch reads cores np pr HG HC bad_begin bad_reset bad_peek_defined bad_read src src_end w a HJ).
  Qed.

  Theorem fault_read_returns w : w_calm w -> pc (w_par w) = c_wait \/ pc (w_par w) = c_notify ->
    w_inevitable M (p_batch p) (p_last p) decode size_bytes prefetch reads (fun w' => pc (w_par w') = c_idle) w.
  Proof.
    intros H Hpc. destruct (bad_J w H) as (src & src_end & HJ).
    apply (J_live M (p_batch p) (p_last p) decode size_bytes prefetch reads cores np pr HG HC bad_begin bad_reset bad_peek_defined bad_read src src_end (fun s => pc s = c_idle)); [|exact HJ].
    eapply read_returns; eauto. apply HJ.
  Qed.
End Fault.
