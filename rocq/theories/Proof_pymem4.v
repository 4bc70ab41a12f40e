(* Buffers: whole programs. *)
From Verif Require Import Common Model_pymem Spec_pymem Proof_pymem Proof_pymem2 Proof_pymem3.
From Coq Require Import Lia.
Import List.
Local Open Scope nat_scope.

Lemma run_ok strict p : forall s w, inv None None s -> rel s w ->
  if strict && overlapping w p then run strict s p = UB
  else exists s', run strict s p = Ok (s', snd (expect_all w p)) /\ inv None None s' /\ rel s' (fst (expect_all w p)).
Proof.
  induction p as [|a p IH]; intros s w I R; cbn [overlapping run expect_all].
  - rewrite andb_false_r. exists s. auto.
  - pose proof (step_ok strict s w a I R) as G. unfold goal in G. destruct (strict && overlaps w a) eqn:C.
    + apply andb_prop in C. destruct C as [-> C]. rewrite C. cbn [orb andb]. rewrite G. reflexivity.
    + destruct G as [s1 [E [I1 R1]]]. rewrite E. cbn [bind fst snd].
      replace (strict && (overlaps w a || overlapping (fst (expect w a)) p)) with (strict && overlapping (fst (expect w a)) p)
        by (destruct strict; [cbn in C |- *; rewrite C|]; reflexivity).
      specialize (IH s1 _ I1 R1). destruct (expect w a) as [w1 x]. cbn [fst snd] in *.
      destruct (strict && overlapping w1 p); [rewrite IH; reflexivity|].
      destruct IH as [s2 [E2 [I2 R2]]]. rewrite E2. cbn [bind fst snd]. destruct (expect_all w1 p) as [w2 l]. cbn [fst snd] in *.
      exists s2. auto.
Qed.

Lemma start_ok : inv None None start /\ rel start empty_world.
Proof.
  split; [|split; reflexivity]. constructor; cbn; intros; try (destruct i; discriminate); try (destruct b; discriminate).
Qed.

Lemma run_start strict p s l : run strict start p = Ok (s, l) ->
  inv None None s /\ rel s (fst (expect_all empty_world p)) /\ l = snd (expect_all empty_world p).
Proof.
  intro E. destruct start_ok as [I R]. pose proof (run_ok strict p start empty_world I R) as H.
  destruct (strict && overlapping empty_world p); [congruence|]. destruct H as [s' [E' [I' R']]].
  rewrite E in E'. injection E' as -> ->. auto.
Qed.

(* ---- bytes objects ---- *)

Definition keeps (w w' : world) : Prop := forall i x, nth_error (cells w) i = Some x -> c_fixed x = true ->
  exists x', nth_error (cells w') i = Some x' /\ c_fixed x' = true /\ c_bytes x' = c_bytes x.
Lemma keeps_same w w' : cells w' = cells w -> keeps w w'.
Proof. intros E i x N F. exists x. rewrite E. auto. Qed.
Lemma keeps_trans w1 w2 w3 : keeps w1 w2 -> keeps w2 w3 -> keeps w1 w3.
Proof.
  intros A B i x N F. destruct (A i x N F) as [y [Ny [Fy Ey]]]. destruct (B i y Ny Fy) as [z [Nz [Fz Ez]]].
  exists z. split; [exact Nz|]. split; [exact Fz|congruence].
Qed.
Lemma keeps_upd w c x x' l : nth_error (cells w) c = Some x -> (c_fixed x = true -> c_fixed x' = true /\ c_bytes x' = c_bytes x) ->
  keeps w (mk_world (upd c x' (cells w)) l).
Proof.
  intros N H i y Ny F. cbn [cells]. destruct (Nat.eq_dec i c) as [-> | D].
  - rewrite N in Ny. injection Ny as <-. exists x'. split; [exact (upd_same _ _ _ _ N)|exact (H F)].
  - exists y. rewrite upd_other by exact D. auto.
Qed.
Lemma keeps_write w c x off d : nth_error (cells w) c = Some x -> c_fixed x = false -> keeps w (write w c off d).
Proof. intros N F. unfold write. rewrite N. apply (keeps_upd w c x); [exact N|congruence]. Qed.
Lemma the_cell_some w c x : the_cell w c = Some x -> nth_error (cells w) c = Some x.
Proof. unfold the_cell. destruct (nth_error (cells w) c) as [y|]; [|discriminate]. destruct (c_named y); [auto|discriminate]. Qed.

Lemma expect_keeps w a : writes_view a = false -> keeps w (fst (expect w a)).
Proof.
  intro V. destruct a as [fixed bytes|c|c|c j v|c l|c|i|i n|i c|i v|i p|i|i|v|v i x0|i]; try discriminate V; cbn [expect].
  - cbn [fst]. intros i x N F. exists x. cbn [cells]. rewrite nth_error_app1 by exact (nth_some _ _ _ N). auto.
  - destruct (the_cell w c) as [x|] eqn:C; [|apply keeps_same; reflexivity]. apply the_cell_some in C. cbn [fst]. apply (keeps_upd w _ x); auto.
  - destruct (the_cell w c); apply keeps_same; reflexivity.
  - destruct (the_cell w c) as [x|] eqn:C; [|apply keeps_same; reflexivity]. apply the_cell_some in C.
    destruct (c_fixed x) eqn:F; cbn [orb]; [apply keeps_same; reflexivity|].
    destruct (length (c_bytes x) <=? j); [apply keeps_same; reflexivity|]. exact (keeps_write w c x _ _ C F).
  - destruct (the_cell w c) as [x|] eqn:C; [|apply keeps_same; reflexivity]. apply the_cell_some in C.
    destruct (c_fixed x) eqn:F; cbn [orb]; [apply keeps_same; reflexivity|].
    destruct (used w c); [apply keeps_same; reflexivity|]. cbn [fst]. apply (keeps_upd w _ x); [exact C|congruence].
  - destruct (the_cell w c); apply keeps_same; reflexivity.
  - destruct (the_thing w i) as [[[| | |] ?]|]; apply keeps_same; reflexivity.
  - destruct (the_thing w i) as [[[| | |] [[[? ?] ?]|]]|]; try (apply keeps_same; reflexivity).
    cbv zeta. destruct (n =? 0); apply keeps_same; reflexivity.
  - destruct (the_thing w i) as [[[| | |] [[[? ?] ?]|]]|]; try (apply keeps_same; reflexivity).
    destruct (the_cell w c) as [x|] eqn:C; [|apply keeps_same; reflexivity]. apply the_cell_some in C.
    destruct (c_fixed x) eqn:F; [apply keeps_same; reflexivity|]. unfold transfer.
    destruct (length (c_bytes x) =? 0); [apply keeps_same; reflexivity|]. cbn [fst].
    eapply keeps_trans; [eapply (keeps_write w c x); [exact C|exact F]|]. eapply keeps_same. reflexivity.
  - destruct (the_thing w i) as [[[| | |] [[[? ?] ?]|]]|]; apply keeps_same; reflexivity.
  - destruct (the_thing w i) as [[[| | |] ?]|]; apply keeps_same; reflexivity.
  - destruct (the_thing w i) as [[[| | |] ?]|]; apply keeps_same; reflexivity.
  - destruct (the_thing w v) as [[[| | |] [[[? ?] ?]|]]|]; apply keeps_same; reflexivity.
  - destruct (the_thing w i) as [[? ?]|]; apply keeps_same; reflexivity.
Qed.
Lemma expect_all_keeps p : forall w, forallb (fun a => negb (writes_view a)) p = true -> keeps w (fst (expect_all w p)).
Proof.
  induction p as [|a p IH]; intros w H; cbn [expect_all]; [apply keeps_same; reflexivity|].
  cbn [forallb] in H. apply andb_prop in H. destruct H as [A H]. apply negb_true_iff in A.
  pose proof (expect_keeps w a A) as K. destruct (expect w a) as [w1 x]. specialize (IH w1 H).
  destruct (expect_all w1 p) as [w2 l]. cbn [fst] in *. exact (keeps_trans _ _ _ K IH).
Qed.
