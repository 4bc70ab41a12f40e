From Verif Require Import Common Model_close Spec_close.
From Coq Require Import List Arith Lia Bool.
Import ListNotations.

Lemma set_len : forall l i x, length (set_nth l i x) = length l.
Proof. induction l; intros [|i] x; cbn; auto. Qed.
Lemma set_get : forall l i j x, nth_error (set_nth l i x) j = if i =? j then match nth_error l i with Some _ => Some x | None => None end else nth_error l j.
Proof.
  induction l as [|a l IH]; intros [|i] [|j] x; cbn; auto; try (destruct (i =? j); reflexivity).
Qed.

(* A stream as the world has it. *)
Definition fits (w : world) (i : nat) (x : stream) : Prop :=
  match x with
  | St_base k held flag =>
      nth_error (w_descs w) i = Some (D_source k) /\ w_closed w i = base_closed k held flag /\
      match k with K_memory => held = negb flag | K_file | K_pipe => True | K_s3 => True | K_foreign b => b = true end
  | St_gzip j held =>
      j < i /\ nth_error (w_descs w) i = Some (D_over (source_of w j)) /\ (held = false -> w_closed w (source_of w j) = true)
  | St_utf8 j u held =>
      j < i /\ nth_error (w_descs w) i = Some (D_over (source_of w j)) /\
      (u = false -> held = false -> w_closed w (source_of w j) = true)
  end.

Record rel (l : streams) (w : world) : Prop := mk_rel {
  r_len : length l = length (w_descs w);
  r_fits : forall i x, nth_error l i = Some x -> fits w i x;
  r_new : forall s, length l <= s -> w_closed w s = false;
  r_over : forall i s, nth_error (w_descs w) i = Some (D_over s) -> s < i /\ exists k, nth_error (w_descs w) s = Some (D_source k) }.

Lemma rel0 : rel [] world0.
Proof. constructor; cbn; auto; intros [|i]; discriminate. Qed.

Lemma over_source w i j : nth_error (w_descs w) i = Some (D_over (source_of w j)) -> source_of w i = source_of w j.
Proof. intros H. unfold source_of at 1. rewrite H. reflexivity. Qed.

Lemma base_source w i k : nth_error (w_descs w) i = Some (D_source k) -> source_of w i = i.
Proof. intros H. unfold source_of. rewrite H. reflexivity. Qed.

Lemma closed_ok l w : rel l w -> forall n i, i < n -> i < length l -> closed n l i = w_closed w (source_of w i).
Proof.
  intros R. induction n as [|n IH]; intros i Hn Hi; [lia|]. cbn [closed].
  destruct (nth_error l i) as [x|] eqn:E; [|apply nth_error_None in E; lia].
  pose proof (r_fits _ _ R _ _ E) as F. destruct x as [k held flag|j held|j u held]; cbn in F.
  - destruct F as (D & C & _). rewrite (base_source _ _ _ D). auto.
  - destruct F as (L & D & _). rewrite IH by lia. rewrite (over_source _ _ _ D). reflexivity.
  - destruct F as (L & D & _). rewrite IH by lia. rewrite (over_source _ _ _ D). reflexivity.
Qed.

Lemma use_ok k held flag o a :
  match k with K_memory => held = negb flag | K_file | K_pipe => True | K_s3 => True | K_foreign b => b = true end ->
  base_closed k held flag = false -> use k held o a = open_answer o a.
Proof. destruct k as [| | | |b]; cbn; intros F C; destruct held, flag; cbn in *; try discriminate; auto. Qed.

Lemma read_ok l w : rel l w -> forall n i o, i < n -> i < length l ->
  read n l i o = if w_closed w (source_of w i) then Throw Stream_err else open_answer o A_data.
Proof.
  intros R. induction n as [|n IH]; intros i o Hn Hi; [lia|]. cbn [read].
  destruct (nth_error l i) as [x|] eqn:E; [|apply nth_error_None in E; lia].
  pose proof (r_fits _ _ R _ _ E) as F. destruct x as [k held flag|j held|j u held]; cbn in F.
  - destruct F as (D & C & G). rewrite (base_source _ _ _ D), C. destruct (base_closed k held flag) eqn:Q; [reflexivity|].
    apply (use_ok _ _ flag); auto.
  - destruct F as (L & D & G). rewrite (closed_ok _ _ R n j) by lia. rewrite (over_source _ _ _ D).
    destruct (w_closed w (source_of w j)) eqn:Q; [reflexivity|].
    destruct held; [|exfalso; clear - G; intuition discriminate].
    destruct (o_fill o); [rewrite IH, Q by lia|]; unfold open_answer, outcome; destruct (o_fault o); reflexivity.
  - destruct F as (L & D & G). rewrite (closed_ok _ _ R n j) by lia. rewrite (over_source _ _ _ D).
    destruct (w_closed w (source_of w j)) eqn:Q; [reflexivity|].
    destruct u; [destruct (o_fill o); [rewrite IH, Q by lia; reflexivity|reflexivity]|].
    destruct held; [|exfalso; clear - G; intuition discriminate].
    destruct (o_fill o); [rewrite IH, Q by lia|]; unfold open_answer, outcome; destruct (o_fault o); reflexivity.
Qed.

(* Replacing a stream by one that fits as well. *)
Lemma set_rel l w i x : rel l w -> fits w i x -> rel (set_nth l i x) w.
Proof.
  intros [L F N O] H. constructor; auto.
  - rewrite set_len. auto.
  - intros j y. rewrite set_get. destruct (i =? j) eqn:E; [|auto]. apply Nat.eqb_eq in E. subst j.
    destruct (nth_error l i); [|discriminate]. intros Q. injection Q as <-. exact H.
  - intros s. rewrite set_len. auto.
Qed.

Definition closing (w : world) (s : nat) : world := mk_w (w_descs w) (mark (w_closed w) s).

Lemma source_closing w s i : source_of (closing w s) i = source_of w i.
Proof. reflexivity. Qed.

Lemma mark_same f s : mark f s s = true.
Proof. unfold mark. rewrite Nat.eqb_refl. reflexivity. Qed.

Lemma mark_mono f s x : f x = true -> mark f s x = true.
Proof. unfold mark. destruct (x =? s); auto. Qed.

(* Closing the stream of a source. *)
Lemma close_base l w i k held flag x :
  rel l w -> nth_error l i = Some (St_base k held flag) -> fits (closing w i) i x -> rel (set_nth l i x) (closing w i).
Proof.
  intros [L F N O] E H. assert (Hi : i < length l) by (apply nth_error_Some; congruence).
  constructor.
  - rewrite set_len. auto.
  - intros j y. rewrite set_get. destruct (i =? j) eqn:Q.
    + apply Nat.eqb_eq in Q. subst j. rewrite E. intros Z. injection Z as <-. exact H.
    + intros Z. specialize (F _ _ Z). apply Nat.eqb_neq in Q. destruct y as [k' h' f'|j' h'|j' u' h']; cbn [fits] in *.
      * destruct F as (F1 & F2 & F3). repeat split; auto. cbn. unfold mark. destruct (j =? i) eqn:P; [apply Nat.eqb_eq in P; lia|auto].
      * destruct F as (F1 & F2 & F3). repeat split; auto. intros X. rewrite source_closing. apply mark_mono; auto.
      * destruct F as (F1 & F2 & F3). repeat split; auto. intros X Y. rewrite source_closing. apply mark_mono; auto.
  - intros s. rewrite set_len. intros Hs. cbn. unfold mark. destruct (s =? i) eqn:P; [apply Nat.eqb_eq in P; lia|auto].
  - exact O.
Qed.

Lemma close_ok : forall n i l w, rel l w -> i < n -> i < length l ->
  rel (close n l i) (closing w (source_of w i)) /\ length (close n l i) = length l.
Proof.
  induction n as [|n IH]; intros i l w R Hn Hi; [lia|]. cbn [close].
  destruct (nth_error l i) as [x|] eqn:E; [|apply nth_error_None in E; lia].
  pose proof (r_fits _ _ R _ _ E) as F. destruct x as [k held flag|j held|j u held]; cbn [fits] in F.
  - destruct F as (D & C & G). rewrite (base_source _ _ _ D). split; [|apply set_len].
    eapply close_base; eauto.
    destruct k as [| | | |b]; cbn [fits closing w_descs w_closed]; rewrite mark_same; repeat split; auto.
    subst b. reflexivity.
  - destruct F as (L & D & G). destruct (IH j l w R) as (R' & Len); [lia|lia|]. rewrite (over_source _ _ _ D).
    split; [|rewrite set_len; auto]. apply set_rel; auto. cbn [fits]. repeat split; auto. intros _. cbn. apply mark_same.
  - destruct F as (L & D & G). destruct (IH j l w R) as (R' & Len); [lia|lia|]. rewrite (over_source _ _ _ D).
    split; [|rewrite set_len; auto]. apply set_rel; auto. cbn [fits]. repeat split; auto. intros _ _. cbn. apply mark_same.
Qed.

(* New streams. *)
Lemma nth_new {A} (l : list A) x i y : nth_error (l ++ [x]) i = Some y -> nth_error l i = Some y \/ i = length l /\ y = x.
Proof.
  intros H. destruct (Nat.lt_ge_cases i (length l)).
  - rewrite nth_error_app1 in H by auto. auto.
  - rewrite nth_error_app2 in H by auto. right. destruct (i - length l) eqn:E; cbn in H.
    + injection H as <-. split; [lia|auto].
    + destruct n; discriminate.
Qed.
Lemma nth_old {A} (l : list A) x i y : nth_error l i = Some y -> nth_error (l ++ [x]) i = Some y.
Proof. intros H. rewrite nth_error_app1; auto. apply nth_error_Some. congruence. Qed.
Lemma nth_last {A} (l : list A) x : nth_error (l ++ [x]) (length l) = Some x.
Proof. rewrite nth_error_app2, Nat.sub_diag; auto. Qed.

Definition more (w : world) (d : desc) : world := mk_w (w_descs w ++ [d]) (w_closed w).

Lemma source_more w d i : i < length (w_descs w) -> source_of (more w d) i = source_of w i.
Proof. intros H. unfold source_of, more. cbn. rewrite nth_error_app1 by auto. reflexivity. Qed.

Lemma fits_more w d i x : i < length (w_descs w) -> fits w i x -> fits (more w d) i x.
Proof.
  intros L. destruct x as [k held flag|j held|j u held]; cbn [fits].
  - intros (A & B & C). repeat split; auto. apply nth_old. auto.
  - intros (A & B & C). rewrite source_more by lia. repeat split; auto. apply nth_old. auto.
  - intros (A & B & C). rewrite source_more by lia. repeat split; auto. apply nth_old. auto.
Qed.

Lemma new_rel l w x d :
  rel l w -> fits (more w d) (length l) x ->
  (forall s, d = D_over s -> s < length l /\ exists k, nth_error (w_descs w) s = Some (D_source k)) ->
  rel (l ++ [x]) (more w d).
Proof.
  intros [L F N O] H HD. constructor.
  - cbn. rewrite !app_length, L. reflexivity.
  - intros i y E. destruct (nth_new _ _ _ _ E) as [E' | [-> ->]]; [|exact H].
    apply fits_more; auto. rewrite <- L. apply nth_error_Some. congruence.
  - intros s. rewrite app_length. cbn. intros. apply N. lia.
  - intros i s E. cbn in E. destruct (nth_new _ _ _ _ E) as [E' | [-> <-]].
    + destruct (O _ _ E') as (A & k & B). split; auto. exists k. cbn. apply nth_old. auto.
    + destruct (HD s eq_refl) as (A & k & B). rewrite <- L. split; auto. exists k. cbn. apply nth_old. auto.
Qed.

Lemma source_is_base l w i : rel l w -> i < length l ->
  source_of w i < length l /\ exists k, nth_error (w_descs w) (source_of w i) = Some (D_source k).
Proof.
  intros [L F N O] Hi. unfold source_of. destruct (nth_error (w_descs w) i) as [[k|s]|] eqn:E.
  - split; auto. eauto.
  - destruct (O _ _ E) as (A & B). split; auto. lia.
  - apply nth_error_None in E. lia.
Qed.

Lemma step_ok l w c : obedient c = true -> rel l w -> snd (step l c) = snd (meaning w c) /\ rel (fst (step l c)) (fst (meaning w c)).
Proof.
  intros OB R. pose proof (r_len _ _ R) as L. unfold step, meaning. rewrite L.
  destruct c as [k|i|i u|i o|i o|i o|i|i].
  - split; auto. cbn [fst]. apply (new_rel l w _ (D_source k)); auto; [|discriminate].
    cbn [fits more w_descs w_closed]. rewrite L, nth_last. split; auto. split; [|destruct k; cbn in *; auto].
    rewrite (r_new _ _ R) by lia. destruct k as [| | | |b]; cbn; auto. destruct b; auto.
  - destruct (i <? length (w_descs w)) eqn:Q; [|auto]. apply Nat.ltb_lt in Q. split; auto. cbn [fst].
    apply (new_rel l w _ (D_over (source_of w i))); auto.
    + cbn [fits]. rewrite source_more by auto. split; [lia|split; [cbn; rewrite L; apply nth_last|discriminate]].
    + intros s E. injection E as <-. apply source_is_base; auto. lia.
  - destruct (i <? length (w_descs w)) eqn:Q; [|auto]. apply Nat.ltb_lt in Q. split; auto. cbn [fst].
    apply (new_rel l w _ (D_over (source_of w i))); auto.
    + cbn [fits]. rewrite source_more by auto. split; [lia|split; [cbn; rewrite L; apply nth_last|]].
      intros -> E. discriminate.
    + intros s E. injection E as <-. apply source_is_base; auto. lia.
  - destruct (i <? length (w_descs w)) eqn:Q; [|auto]. apply Nat.ltb_lt in Q. split; auto. cbn [snd].
    rewrite (read_ok _ _ R) by lia. reflexivity.
  - destruct (i <? length (w_descs w)) eqn:Q; [|auto]. apply Nat.ltb_lt in Q. split; auto. cbn [snd].
    unfold seek, seekable. destruct (nth_error l i) as [x|] eqn:E; [|apply nth_error_None in E; lia].
    pose proof (r_fits _ _ R _ _ E) as F. destruct x as [k held flag|j held|j u held]; cbn [fits] in F.
    + destruct F as (D & C & G). rewrite D, (base_source _ _ _ D), C.
      destruct k as [| | | |b]; auto; match goal with |- context [base_closed ?k ?h ?f] => destruct (base_closed k h f) eqn:B; auto; apply (use_ok _ _ flag); auto end.
    + destruct F as (_ & -> & _). reflexivity.
    + destruct F as (_ & -> & _). reflexivity.
  - destruct (i <? length (w_descs w)) eqn:Q; [|auto]. apply Nat.ltb_lt in Q. split; auto. cbn [snd].
    unfold tell, seekable. destruct (nth_error l i) as [x|] eqn:E; [|apply nth_error_None in E; lia].
    pose proof (r_fits _ _ R _ _ E) as F. destruct x as [k held flag|j held|j u held]; cbn [fits] in F.
    + destruct F as (D & C & G). rewrite D, (base_source _ _ _ D), C.
      destruct k as [| | | |b]; auto; match goal with |- context [base_closed ?k ?h ?f] => destruct (base_closed k h f) eqn:B; auto; apply (use_ok _ _ flag); auto end.
    + destruct F as (_ & -> & _). reflexivity.
    + destruct F as (_ & -> & _). reflexivity.
  - destruct (i <? length (w_descs w)) eqn:Q; [|auto]. apply Nat.ltb_lt in Q. split; auto. cbn [fst].
    apply close_ok; auto; lia.
  - destruct (i <? length (w_descs w)) eqn:Q; [|auto]. apply Nat.ltb_lt in Q. split; auto. cbn [snd].
    rewrite (closed_ok _ _ R) by lia. reflexivity.
Qed.

Lemma run_ok : forall p l w, forallb obedient p = true -> rel l w -> snd (run l p) = meanings w p.
Proof.
  induction p as [|c p IH]; intros l w O R; cbn [run meanings]; auto. cbn [forallb] in O. apply andb_prop in O. destruct O as [O1 O2].
  destruct (step_ok l w c O1 R) as [E R']. destruct (step l c) as [l1 r]. destruct (meaning w c) as [w1 r']. cbn in *. subst r'.
  specialize (IH l1 w1 O2 R'). destruct (run l1 p). cbn in *. subst. reflexivity.
Qed.

(* Closed for good. *)
Lemma meanings_app : forall p q w, meanings w (p ++ q) = meanings w p ++ meanings (world_after w p) q.
Proof.
  induction p as [|c p IH]; intros q w; cbn; auto. destruct (meaning w c) as [w' x]. cbn. rewrite IH. reflexivity.
Qed.

Lemma meanings_len : forall p w, length (meanings w p) = length p.
Proof. induction p as [|c p IH]; intros w; cbn; auto. destruct (meaning w c). cbn. auto. Qed.

Definition shut (w : world) (i : nat) : Prop := i < length (w_descs w) /\ w_closed w (source_of w i) = true.

Lemma shut_step w c i : shut w i -> shut (fst (meaning w c)) i.
Proof.
  intros [A B]. unfold meaning.
  assert (S : forall d, shut (more w d) i).
  { intros d. split; [cbn; rewrite app_length; lia|]. rewrite source_more by auto. exact B. }
  destruct c as [k|j|j u|j o|j o|j o|j|j]; try (destruct (j <? length (w_descs w)); [|split; auto]); cbn [fst]; try (split; auto; fail); try apply S.
  split; [exact A|]. cbn. change (source_of (mk_w (w_descs w) (mark (w_closed w) (source_of w j))) i) with (source_of w i).
  apply mark_mono. exact B.
Qed.

Lemma shut_after : forall p w i, shut w i -> shut (world_after w p) i.
Proof. induction p as [|c p IH]; intros w i H; cbn; auto. apply IH. apply shut_step. auto. Qed.

Lemma app_inj_len {A} : forall (a a' b b' : list A), length a = length a' -> a ++ b = a' ++ b' -> a = a' /\ b = b'.
Proof.
  induction a as [|x a IH]; intros [|y a'] b b' L E; cbn in *; try discriminate; auto.
  injection E as -> E. destruct (IH a' b b') as [-> ->]; auto.
Qed.

Lemma after_app : forall p q w, world_after w (p ++ q) = world_after (world_after w p) q.
Proof. induction p as [|c p IH]; intros q w; cbn; auto. Qed.

Lemma descs_step w c i d : nth_error (w_descs w) i = Some d -> nth_error (w_descs (fst (meaning w c))) i = Some d.
Proof.
  intros E. unfold meaning. destruct c as [k|j|j u|j o|j o|j o|j|j]; try (destruct (j <? length (w_descs w)); [|exact E]);
    cbn [fst w_descs]; auto using @nth_old.
Qed.

Lemma descs_after : forall p w i d, nth_error (w_descs w) i = Some d -> nth_error (w_descs (world_after w p)) i = Some d.
Proof. induction p as [|c p IH]; intros w i d E; cbn; auto. apply IH. apply descs_step. exact E. Qed.

Lemma source_after p w i : i < length (w_descs w) -> source_of (world_after w p) i = source_of w i.
Proof.
  intros L. unfold source_of. destruct (nth_error (w_descs w) i) as [d|] eqn:E; [|apply nth_error_None in E; lia].
  rewrite (descs_after p w i d E). reflexivity.
Qed.

(* A source is closed because a stream over it was. *)
Lemma why : forall p w s, w_closed (world_after w p) s = true -> w_closed w s = true \/
  exists p1 k p2, p = p1 ++ C_close k :: p2 /\ k < length (w_descs (world_after w p1)) /\ source_of (world_after w p1) k = s.
Proof.
  induction p as [|c p IH]; intros w s H; cbn in *; auto.
  destruct (IH _ _ H) as [C | (p1 & k & p2 & -> & A & B)].
  - destruct (w_closed w s) eqn:Q; auto. right.
    unfold meaning in C. destruct c as [k|j|j u|j o|j o|j o|j|j];
      try (destruct (j <? length (w_descs w)) eqn:J); cbn in C; try congruence.
    apply Nat.ltb_lt in J. exists [], j, p. cbn. repeat split; auto.
    unfold mark in C. destruct (s =? source_of w j) eqn:P; [|congruence]. apply Nat.eqb_eq in P. auto.
  - right. exists (c :: p1), k, p2. auto.
Qed.

Lemma meaning_defined : forall p w, ~ In UB (meanings w p).
Proof.
  induction p as [|c p IH]; intros w; cbn; auto. destruct (meaning w c) as [w' r] eqn:E. intros [-> | H]; [|eapply IH; eauto].
  unfold meaning, open_answer in E. destruct c as [k|j|j u|j o|j o|j o|j|j];
    repeat match type of E with context [if ?b then _ else _] => destruct b | context [match ?x with _ => _ end] => destruct x end; discriminate.
Qed.

Lemma run_len : forall p l, length (snd (run l p)) = length p.
Proof.
  induction p as [|c p IH]; intros l; cbn; auto. destruct (step l c) as [l1 r]. specialize (IH l1). destruct (run l1 p). cbn in *. auto.
Qed.

Lemma last_meaning p c w : last (meanings w (p ++ [c])) UB = snd (meaning (world_after w p) c).
Proof.
  rewrite meanings_app. cbn. destruct (meaning (world_after w p) c) as [w' r]. cbn. apply last_last.
Qed.
