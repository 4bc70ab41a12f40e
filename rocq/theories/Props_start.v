(* Starting the background thread: C100. *)
From Verif Require Import Common Model_par Spec_par Model_start Spec_start Proof_par Proof_par_props Proof_start.

(* C100. If the system grants every thread, whatever the interleaving: the process goes on, the signals the client's thread blocks are
   those it blocked before, the background thread blocks all, and the reader is in a state the other theorems (C25 to C30) are
   about. *)
Theorem C100_granted : forall (B E : Type) (decode : B -> dres E) size src src_end all cores np pr prefetch reads,
  graph_params cores np pr = (prefetch, reads) -> 1 <= cores ->
  forall m l r, Forall granted l -> hexec decode size src src_end prefetch reads all (host_init m) l = Some r ->
  exists h, r = Alive h /\ h_mask h = m /\ (h_thread h = None \/ h_thread h = Some all) /\
    exec decode size src src_end prefetch reads (init 0) (map plain l) = Some (h_par h).
Proof.
  intros B E decode size src src_end all cores np pr prefetch reads G C m l r Gl H.
  destruct (graph_params_ok _ _ _ _ _ G C) as [Hp [Hr _]].
  destruct (granted_run decode size src src_end prefetch reads all Hp Hr m l (host_init m) r (matched_init _ _ _ _ _ _ _ Hp Hr m) Gl H)
    as [h [-> [[M [_ T]] X]]].
  exists h. split; [reflexivity|]. split; [exact M|]. split; [|exact X]. rewrite T. destruct (rstate (h_par h)), (pc (h_par h)); auto.
Qed.
Print Assumptions C100_granted.

(* C100. Conversely every execution of the reader is one of these. *)
Theorem C100_every_execution : forall (B E : Type) (decode : B -> dres E) size src src_end all cores np pr prefetch reads,
  graph_params cores np pr = (prefetch, reads) -> 1 <= cores ->
  forall m l s, exec decode size src src_end prefetch reads (init 0) l = Some s ->
  exists hl h, Forall granted hl /\ map plain hl = l /\
    hexec decode size src src_end prefetch reads all (host_init m) hl = Some (Alive h) /\ h_par h = s.
Proof.
  intros B E decode size src src_end all cores np pr prefetch reads G C m l s H.
  destruct (graph_params_ok _ _ _ _ _ G C) as [Hp [Hr _]].
  destruct (lift_run decode size src src_end prefetch reads all Hp Hr m l (host_init m) s (matched_init _ _ _ _ _ _ _ Hp Hr m) H) as [h [X P]].
  exists (map lift l), h. split; [|split; [|split; [exact X|exact P]]].
  - apply Forall_forall. intros a Ha. apply in_map_iff in Ha. destruct Ha as [b [<- _]]. apply lift_granted.
  - rewrite map_map. rewrite <- (map_id l) at 2. apply map_ext. apply lift_plain.
Qed.
Print Assumptions C100_every_execution.

(* C100 fails when the thread is refused.  The call of read_example throws, but the reader takes itself for running: no later call ever
   returns, and resetting or deleting the reader ends the process. *)
Theorem C100_refused_refuted : forall (B E : Type) (decode : B -> dres E) size src src_end all cores np pr prefetch reads,
  graph_params cores np pr = (prefetch, reads) -> 1 <= cores ->
  let run := hexec decode size src src_end prefetch reads all in
  forall m l h g, Forall granted l -> run (host_init m) l = Some (Alive h) ->
  pc (h_par h) = c_idle -> rstate (h_par h) = not_started -> g = No_block \/ g = No_thread ->
  exists h', run h [H_read g] = Some (Alive h') /\ log (h_par h') = log (h_par h) ++ [O_error System_err] /\
    run h' [H_read Granted] <> None /\
    run h' [H_act A_stop; H_act C_notify; H_act C_join] = Some Terminated /\
    (forall l' h2, run h' l' = Some (Alive h2) -> log (h_par h2) = log (h_par h') /\ pc (h_par h2) <> c_joined).
Proof.
  intros B E decode size src src_end all cores np pr prefetch reads G C run m l h g Gl H P R Hg.
  destruct (graph_params_ok _ _ _ _ _ G C) as [Hp [Hr _]].
  destruct (granted_run decode size src src_end prefetch reads all Hp Hr m l (host_init m) _ (matched_init _ _ _ _ _ _ _ Hp Hr m) Gl H)
    as [h0 [E0 [M _]]]. injection E0 as <-.
  destruct (refused_step decode size src src_end prefetch reads all m h M P R g Hg) as [h' [S [St [_ [T N]]]]].
  exists h'. split; [unfold run; cbn [hexec]; rewrite S; reflexivity|]. split; [apply St|]. split; [exact N|]. split; [exact T|].
  intros l' h2 H2. pose proof (stuck_run decode size src src_end prefetch reads all _ l' h' _ St H2) as [X [_ Y]].
  split; [|exact Y]. rewrite X. symmetry. apply St.
Qed.
Print Assumptions C100_refused_refuted.

(* C100 fails for the signals too: after std::thread's constructor has thrown, the client's thread blocks all signals for good. *)
Theorem C100_signals_refuted : forall (B E : Type) (decode : B -> dres E) size src src_end all cores np pr prefetch reads,
  graph_params cores np pr = (prefetch, reads) -> 1 <= cores ->
  let run := hexec decode size src src_end prefetch reads all in
  forall m l h, Forall granted l -> run (host_init m) l = Some (Alive h) -> pc (h_par h) = c_idle -> rstate (h_par h) = not_started ->
  forall l' h2, run h (H_read No_thread :: l') = Some (Alive h2) -> h_mask h2 = all.
Proof.
  intros B E decode size src src_end all cores np pr prefetch reads G C run m l h Gl H P R l' h2 H2.
  destruct (graph_params_ok _ _ _ _ _ G C) as [Hp [Hr _]].
  destruct (granted_run decode size src src_end prefetch reads all Hp Hr m l (host_init m) _ (matched_init _ _ _ _ _ _ _ Hp Hr m) Gl H)
    as [h0 [E0 [M _]]]. injection E0 as <-.
  destruct (refused_step decode size src src_end prefetch reads all m h M P R No_thread (or_intror eq_refl)) as [h' [S [St [K _]]]].
  unfold run in H2. cbn [hexec] in H2. rewrite S in H2.
  pose proof (stuck_run decode size src src_end prefetch reads all _ l' h' _ St H2) as [_ [X _]]. rewrite X. exact K.
Qed.
Print Assumptions C100_signals_refuted.

(* A reader of two batches that is reset once; with all threads granted, and with the second one refused. *)
Definition C100_run := hexec (fun b : nat => D_example (b + 10)) (fun _ => 1) (fun _ => [1; 2]) (fun _ => None) 2 2 4095%N.
Definition C100_epoch (g : answer) : list hact :=
  [H_read g; H_act T_source; H_act T_limit; H_act (T_dstart 0); H_act (T_dfinish 0); H_act T_forward; H_act T_qstart; H_act T_qfinish;
   H_act T_notify; H_act C_wake; H_act C_notify].
Definition C100_reset : list hact := [H_act A_stop; H_act C_notify; H_act T_done; H_act T_notify; H_act C_join; H_act A_reset].
Example C100_case :
  graph_params 4 2 0 = (2, 2) /\ Forall granted (C100_epoch Granted ++ C100_reset ++ C100_epoch Granted) /\
  (exists h, C100_run (host_init 3%N) (C100_epoch Granted ++ C100_reset ++ C100_epoch Granted) = Some (Alive h) /\
     log (h_par h) = [O_example 11] /\ h_mask h = 3%N /\ h_thread h = Some 4095%N) /\
  (exists h, C100_run (host_init 3%N) (C100_epoch Granted ++ C100_reset) = Some (Alive h) /\ pc (h_par h) = c_idle /\
     rstate (h_par h) = not_started /\
     exists h', C100_run h [H_read No_thread] = Some (Alive h') /\ log (h_par h') = [O_error System_err] /\ h_mask h' = 4095%N).
Proof.
  split; [reflexivity|]. split; [repeat (constructor; [exact I|]); constructor|]. split.
  - eexists. split; [vm_compute; reflexivity|]. repeat split.
  - eexists. split; [vm_compute; reflexivity|]. split; [reflexivity|]. split; [reflexivity|]. eexists. split; [vm_compute; reflexivity|]. split; reflexivity.
Qed.
