(* Proofs for area pyarg: programs. *)
From Coq Require Import String List NArith ZArith Bool Lia.
From Verif Require Import Common Model_pyarg Spec_pyarg Proof_pyarg Proof_pyarg2 Proof_pyarg3.
Import ListNotations.
Local Open Scope Z_scope.
Local Open Scope string_scope.
Local Open Scope list_scope.

Lemma nth_replace {A} (k : nat) (a b : A) : forall l, nth_error l k = Some b -> nth_error (replace k a l) k = Some a.
Proof. induction k as [|k IH]; intros [|x l] E; try discriminate; cbn in *; auto. Qed.
Lemma nth_replace_other {A} (a : A) : forall k j l, j <> k -> nth_error (replace k a l) j = nth_error l j.
Proof.
  induction k as [|k IH]; intros j [|x l] N; destruct j as [|j]; cbn; try congruence; auto.
Qed.
Lemma length_replace {A} (a : A) : forall k l, List.length (replace k a l) = List.length l.
Proof. induction k as [|k IH]; intros [|x l]; cbn; auto. Qed.

Section Programs.
  Context {F : Type} (narrow : N -> F) (float_of : Z -> option F).
  Notation stands := (stands narrow float_of).
  Notation step := (step F narrow float_of).
  Notation run := (run F narrow float_of).
  Notation objects := (objects F).
  Notation readers := (readers F).
  Notation assign_reader := (assign_reader F narrow float_of).

  Lemma one_get : forall name g h, In (name, g) (@reader_fields F) -> In (name, h) (@reader_fields F) -> g = h.
  Proof.
    pose proof (@reader_nd F) as Nd. revert Nd. generalize (@reader_fields F). induction l as [|(n, x) l IH]; intros Nd name g h I J; [destruct I|].
    inversion Nd as [|? ? Ni Nd']; subst. cbn in Ni.
    destruct I as [I|I], J as [J|J]; [congruence|inversion I; subst; exfalso; apply Ni; apply (keys l name h J)|inversion J; subst; exfalso; apply Ni; apply (keys l name g I)|eauto].
  Qed.
  Lemma not_refused name get v q p : In (name, get) (@reader_fields F) -> name <> "warn_bad_instances" -> stands v (get q) ->
    exists p', assign_reader name v p = Some p'.
  Proof.
    intros I Nw S. destruct p. unfold assign_reader. each I; cbn [String.eqb Ascii.eqb Bool.eqb] in *.
    all: try congruence.
    all: first [apply m_stores in S|apply m_size in S|apply m_osize in S|apply m_last in S|apply m_bad in S|apply m_oratio in S|apply m_bool in S]; rewrite S; eexists; reflexivity.
  Qed.

  Lemma run_app ops more : run (ops ++ more) = fold_left step more (run ops).
  Proof. apply fold_left_app. Qed.
  Lemma run_snoc ops o : run (ops ++ [o]) = step (run ops) o.
  Proof. rewrite run_app. reflexivity. Qed.

  Lemma step_readers s o : exists new, readers (step s o) = readers s ++ new.
  Proof.
    destruct o as [c|k name v|k name v|k]; cbn.
    - destruct (new_reader F narrow float_of c); exists []; rewrite app_nil_r; reflexivity.
    - exists []. rewrite app_nil_r. destruct (nth_error (objects s) k); [|reflexivity]. destruct (assign_reader name v r); reflexivity.
    - exists []. rewrite app_nil_r. reflexivity.
    - destruct (nth_error (objects s) k); [eexists; reflexivity|exists []; rewrite app_nil_r; reflexivity].
  Qed.
  Lemma readers_kept ops more : exists new, readers (run (ops ++ more)) = readers (run ops) ++ new.
  Proof.
    induction more as [|o more IH] using rev_ind; [exists []; rewrite !app_nil_r; reflexivity|].
    destruct IH as (new & E). rewrite app_assoc, run_snoc. destruct (step_readers (run (ops ++ more)) o) as (n & ->).
    exists (new ++ n). rewrite E, app_assoc. reflexivity.
  Qed.

  Lemma history : forall ops k p name get, (forall c, In (New c) ops -> python_call c) ->
    nth_error (objects (run ops)) k = Some p -> In (name, get) reader_fields -> last_word narrow float_of ops k name get p.
  Proof.
    induction ops as [|o ops IH] using rev_ind; intros k p name get Py E I; [destruct k; discriminate|].
    assert (Py' : forall c, In (New c) ops -> python_call c) by (intros c J; apply Py; apply in_or_app; auto).
    rewrite run_snoc in E.
    assert (Same : nth_error (objects (run ops)) k = Some p ->
      (forall w, o = Assign k name w -> name <> "warn_bad_instances" -> refused narrow float_of get w) ->
      last_word narrow float_of (ops ++ [o]) k name get p).
    { intros E' R. destruct (IH k p name get Py' E' I) as [(Nw & pre & v & post & -> & S & Lt)|(pre & c & post & p0 & -> & L & Me & G & Lt)].
      - left. split; auto. exists pre, v, (post ++ [o]). split; [rewrite <- app_assoc; reflexivity|]. split; auto.
        intros w J. apply in_app_or in J as [J|[J|[]]]; auto.
      - right. exists pre, c, (post ++ [o]), p0. split; [rewrite <- app_assoc; reflexivity|]. split; auto. split; auto. split; auto.
        intros Nw w J. apply in_app_or in J as [J|[J|[]]]; auto. }
    destruct o as [c|j n v|j n v|j]; cbn in E.
    - destruct (new_reader F narrow float_of c) as [q|] eqn:Nr; [cbn in E|apply Same; [exact E|intros w Q; discriminate]].
      destruct (Nat.lt_ge_cases k (List.length (objects (run ops)))) as [L|L].
      + rewrite nth_error_app1 in E by exact L. apply Same; auto. intros w Q; discriminate.
      + rewrite nth_error_app2 in E by exact L. destruct (k - List.length (objects (run ops)))%nat as [|[|m]] eqn:D; try discriminate.
        cbn in E. inversion E; subst q. right. exists ops, c, [], p. split; [reflexivity|]. split; [lia|].
        split; [|split; [reflexivity|intros _ w []]]. apply reader_meant; auto. apply Py. apply in_or_app. cbn. auto.
    - destruct (nth_error (objects (run ops)) j) as [q|] eqn:Ej; [|apply Same; [exact E|]].
      2:{ intros w Q. inversion Q; subst. congruence. }
      destruct (assign_reader n v q) as [q'|] eqn:As.
      + cbn in E. destruct (Nat.eq_dec k j) as [->|Nk].
        * rewrite (nth_replace j q' q _ Ej) in E. inversion E; subst q'. apply reader_assigned in As as (Nw & (g & J & S) & Ot).
          destruct (string_dec name n) as [->|Nn].
          -- rewrite (one_get n get g I J). left. split; auto. exists ops, v, []. split; [reflexivity|]. split; auto. intros w [].
          -- assert (G : get p = get q) by (apply (Ot name get I Nn)).
             assert (Lw : last_word narrow float_of (ops ++ [Assign j n v]) j name get q).
             { destruct (IH j q name get Py' Ej I) as [(Nw' & pre & v' & post & -> & S' & Lt)|(pre & c & post & p0 & -> & L & Me & G' & Lt)].
               - left. split; auto. exists pre, v', (post ++ [Assign j n v]). split; [rewrite <- app_assoc; reflexivity|]. split; auto.
                 intros w K. apply in_app_or in K as [K|[K|[]]]; auto. inversion K; subst. congruence.
               - right. exists pre, c, (post ++ [Assign j n v]), p0. split; [rewrite <- app_assoc; reflexivity|]. split; auto. split; auto. split; auto.
                 intros Nw' w K. apply in_app_or in K as [K|[K|[]]]; auto. inversion K; subst. congruence. }
             unfold last_word in *. rewrite G. exact Lw.
        * rewrite nth_replace_other in E by exact Nk. apply Same; auto. intros w Q. inversion Q; subst. congruence.
      + apply Same; [exact E|]. intros w Q Nw. inversion Q; subst. intros x S. destruct (not_refused name get w x q I Nw S) as (p' & As'). congruence.
    - apply Same; [exact E|intros w Q; discriminate].
    - assert (E' : nth_error (objects (run ops)) k = Some p) by (destruct (nth_error (objects (run ops)) j); exact E).
      apply Same; [exact E'|intros w Q; discriminate].
  Qed.

  Lemma made pre k post p : nth_error (objects (run pre)) k = Some p ->
    nth_error (readers (run (pre ++ Make k :: post))) (List.length (readers (run pre))) = Some p.
  Proof.
    intro E. replace (pre ++ Make k :: post) with ((pre ++ [Make k]) ++ post) by (rewrite <- app_assoc; reflexivity).
    destruct (readers_kept (pre ++ [Make k]) post) as (new & ->). rewrite run_snoc. cbn. rewrite E. cbn. rewrite <- app_assoc.
    rewrite nth_error_app2, Nat.sub_diag by lia. reflexivity.
  Qed.
End Programs.
