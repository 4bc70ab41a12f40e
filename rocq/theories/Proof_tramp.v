From Verif Require Import Common Model_tramp Spec_tramp.
From Coq Require Import Lia.

(* While the program has a reference. *)
Lemma kept_run V (c : pyclass V) es : forall p q l r, 1 <= p ->
  (forall es1 es2, es = es1 ++ es2 -> dropped es1 + 1 < made es1 + p) ->
  lives (mk_life p q (Some c)) es = Some (l, r) -> r = map (call (Some c)) (calls es) /\ 1 <= l_python l /\ l_object l = Some c.
Proof.
  induction es as [|e es IH]; intros p q l r P K H; cbn [lives] in H.
  - injection H as <- <-. cbn. auto.
  - assert (K' : forall es1 es2, es = es1 ++ es2 -> dropped (e :: es1) + 1 < made (e :: es1) + p).
    { intros es1 es2 ->. apply (K (e :: es1) es2). reflexivity. }
    destruct e; cbn [live] in H; cbn [calls dropped made] in *.
    + destruct (Nat.eqb_spec p 0); [lia|]. destruct (lives _ es) as [[l' r']|] eqn:E; [|discriminate]. injection H as <- <-.
      apply IH in E; [exact E|lia|]. intros es1 es2 X. specialize (K' es1 es2 X). lia.
    + assert (2 <= p). { specialize (K' [] es eq_refl). cbn in K'. lia. }
      destruct p as [|[|p]]; try lia. destruct (lives _ es) as [[l' r']|] eqn:E; [|discriminate]. injection H as <- <-.
      apply IH in E; [exact E|lia|]. intros es1 es2 X. specialize (K' es1 es2 X). lia.
    + destruct (Nat.eqb_spec p 0); [lia|]. destruct (lives _ es) as [[l' r']|] eqn:E; [|discriminate]. injection H as <- <-.
      apply IH in E; [exact E|lia|]. intros es1 es2 X. specialize (K' es1 es2 X). lia.
    + destruct q; [discriminate|]. destruct (lives _ es) as [[l' r']|] eqn:E; [|discriminate]. injection H as <- <-.
      apply IH in E; [exact E|lia|]. intros es1 es2 X. specialize (K' es1 es2 X). lia.
    + destruct (Nat.eqb_spec q 0); [discriminate|]. destruct (lives _ es) as [[l' r']|] eqn:E; [|discriminate]. injection H as <- <-.
      apply IH in E; [exact E|lia|]. intros es1 es2 X. specialize (K' es1 es2 X). lia.
    + destruct (Nat.eqb_spec q 0); [discriminate|]. destruct (lives _ es) as [[l' r']|] eqn:E; [|discriminate]. injection H as <- <-.
      apply IH in E; [|lia|intros es1 es2 X; specialize (K' es1 es2 X); lia]. destruct E as [-> E]. split; [reflexivity|exact E].
Qed.

(* After it has none. *)
Definition lost {V} (o : option (pyclass V)) : Prop := match o with None => True | Some c => c = base_class end.

Lemma lost_call V (o : option (pyclass V)) m : lost o -> no_value (call o m).
Proof.
  intros L v. assert (O : forall n, overload o n = V_exception). { intros n. destruct o; cbn in *; [subst|]; reflexivity. }
  destruct m; cbn -[overload]; try discriminate; rewrite O; discriminate.
Qed.

Lemma lost_run V es : forall (l : life V) l' r, lost (l_object l) -> lives l es = Some (l', r) -> Forall no_value r.
Proof.
  induction es as [|e es IH]; intros [p q o] l' r L H; cbn [lives l_object] in *.
  - injection H as <- <-. constructor.
  - assert (G : forall l1 r1, live (mk_life p q o) e = Some (l1, r1) -> lost (l_object l1) /\ Forall no_value r1).
    { intros l1 r1 X. destruct e; cbn [live] in X.
      - destruct (p =? 0)%nat; inversion X; subst. auto.
      - destruct p as [|[|p]]; inversion X; subst; cbn; auto.
      - destruct (p =? 0)%nat; inversion X; subst. auto.
      - destruct q; inversion X; subst. auto.
      - destruct (q =? 0)%nat; inversion X; subst. split; [|constructor]. destruct o; cbn in *; auto.
      - destruct (q =? 0)%nat; inversion X; subst. split; [exact L|]. constructor; [|constructor]. apply lost_call. exact L. }
    destruct (live (mk_life p q o) e) as [[l1 r1]|]; [|discriminate]. destruct (G l1 r1 eq_refl) as [L1 R1].
    destruct (lives l1 es) as [[l2 r2]|] eqn:E; [|discriminate]. injection H as <- <-. apply Forall_app. split; [exact R1|].
    apply (IH l1 l2 r2); auto.
Qed.

Lemma run_split V es1 : forall (l : life V) es2 l' r, lives l (es1 ++ es2) = Some (l', r) ->
  exists l1 r1 r2, lives l es1 = Some (l1, r1) /\ lives l1 es2 = Some (l', r2) /\ r = r1 ++ r2.
Proof.
  induction es1 as [|e es1 IH]; intros l es2 l' r H; cbn [lives app] in *.
  - exists l, [], r. auto.
  - destruct (live l e) as [[l1 r1]|]; [|discriminate]. destruct (lives l1 (es1 ++ es2)) as [[l2 r2]|] eqn:E; [|discriminate].
    injection H as <- <-. destruct (IH _ _ _ _ E) as (l3 & r3 & r4 & -> & X & ->). exists l3, (r1 ++ r3), r4. rewrite app_assoc. auto.
Qed.

Lemma run_count V es : forall (l : life V) l' r, lives l es = Some (l', r) -> l_python l' + dropped es + 1 = l_python l + made es.
Proof.
  induction es as [|e es IH]; intros [p q o] l' r H; cbn [lives l_python] in *.
  - injection H as <- <-. cbn. lia.
  - destruct e; cbn [live dropped made] in *.
    + destruct (p =? 0)%nat; [discriminate|]. destruct (lives _ es) as [[l2 r2]|] eqn:E; [|discriminate]. injection H as <- <-. apply IH in E. cbn in E. lia.
    + destruct p as [|[|p]]; try discriminate; (destruct (lives _ es) as [[l2 r2]|] eqn:E; [|discriminate]; injection H as <- <-; apply IH in E; cbn in E; lia).
    + destruct (p =? 0)%nat; [discriminate|]. destruct (lives _ es) as [[l2 r2]|] eqn:E; [|discriminate]. injection H as <- <-. apply IH in E. cbn in E. lia.
    + destruct q; [discriminate|]. destruct (lives _ es) as [[l2 r2]|] eqn:E; [|discriminate]. injection H as <- <-. apply IH in E. cbn in E. lia.
    + destruct (q =? 0)%nat; [discriminate|]. destruct (lives _ es) as [[l2 r2]|] eqn:E; [|discriminate]. injection H as <- <-. apply IH in E. cbn in E. lia.
    + destruct (q =? 0)%nat; [discriminate|]. destruct (lives _ es) as [[l2 r2]|] eqn:E; [|discriminate]. injection H as <- <-. apply IH in E. cbn in E. lia.
Qed.

Lemma unreferenced V es : forall (l : life V) l' r, (l_python l = 0 -> l_object l = None) -> lives l es = Some (l', r) ->
  l_python l' = 0 -> l_object l' = None.
Proof.
  induction es as [|e es IH]; intros [p q o] l' r L H; cbn [lives l_python l_object] in *.
  - injection H as <- <-. exact L.
  - assert (G : forall l1 r1, live (mk_life p q o) e = Some (l1, r1) -> l_python l1 = 0 -> l_object l1 = None).
    { intros l1 r1 X. destruct e; cbn [live] in X.
      - destruct (p =? 0)%nat; inversion X; subst. discriminate.
      - destruct p as [|[|p]]; inversion X; subst; cbn; auto; discriminate.
      - destruct (p =? 0)%nat; inversion X; subst. auto.
      - destruct q; inversion X; subst. auto.
      - destruct (q =? 0)%nat; inversion X; subst. discriminate.
      - destruct (q =? 0)%nat; inversion X; subst. auto. }
    destruct (live (mk_life p q o) e) as [[l1 r1]|]; [|discriminate]. specialize (G l1 r1 eq_refl).
    destruct (lives l1 es) as [[l2 r2]|] eqn:E; [|discriminate]. injection H as <- <-. apply (IH l1 l2 r2); auto.
Qed.
