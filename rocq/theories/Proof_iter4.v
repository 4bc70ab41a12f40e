From Verif Require Import Common Model_par Spec_par Proof_par Props_par Model_iter Spec_iter2.
From Coq Require Import List Arith Lia.
Import ListNotations.

Definition numbered_ds (n : nat) (tail : option exn) : dataset := mk_ds (fun _ => seq 0 n) (fun _ => tail).

Lemma numbered_read n tail ep k :
  fst (core_read (numbered_ds n tail) ep k) =
  if k <? n then G_item k else match tail with None => G_end | Some x => G_error x end.
Proof.
  unfold core_read, numbered_ds. cbn [ds_items ds_tail]. destruct (k <? n) eqn:L.
  - apply Nat.ltb_lt in L. rewrite (nth_error_nth' _ 0) by (rewrite seq_length; lia). rewrite seq_nth by lia. reflexivity.
  - apply Nat.ltb_ge in L. rewrite (proj2 (nth_error_None _ _)) by (rewrite seq_length; lia). reflexivity.
Qed.

Lemma log_same {E} (es : list E) n tail o0 ep :
  (tail = None /\ o0 = O_end \/ exists x, tail = Some x /\ o0 = O_error x) ->
  forall k o, nth_error (map O_example es ++ repeat o0 n) k = Some o ->
  same_out es (fst (core_read (numbered_ds (length es) tail) ep k)) o.
Proof.
  intros T k o H. rewrite numbered_read. destruct (k <? length es) eqn:L.
  - apply Nat.ltb_lt in L. rewrite nth_error_app1 in H by (rewrite map_length; auto).
    rewrite nth_error_map in H. destruct (nth_error es k) eqn:Q; cbn in H; [|discriminate]. injection H as <-. exact Q.
  - apply Nat.ltb_ge in L. rewrite nth_error_app2 in H by (rewrite map_length; auto). apply nth_error_In, repeat_spec in H. subst o.
    destruct T as [[-> ->] | (x & -> & ->)]; cbn; auto.
Qed.

Lemma only_examples {E} : forall l : list (@out E), ~ In O_end l -> (forall x, ~ In (O_error x) l) -> l = map O_example (delivered l).
Proof.
  induction l as [|[e| |x] l IH]; intros H1 H2; cbn; auto.
  - f_equal. apply IH; intros; intro; [apply H1|eapply H2]; cbn; eauto.
  - exfalso. apply H1. left. auto.
  - exfalso. apply (H2 x). left. auto.
Qed.

Lemma pipeline_is_reader (B E : Type) (decode : B -> dres E) size src src_end cores np pr prefetch reads :
  graph_params cores np pr = (prefetch, reads) -> 1 <= cores ->
  forall s, reachable decode size src src_end prefetch reads s ->
  exists es rest tail, es ++ rest = sequential decode (src (epoch s)) /\
    (tail = None -> In O_end (log s) -> rest = []) /\
    (forall x, tail = Some x -> error_of decode src src_end (epoch s) x) /\
    forall k o, nth_error (log s) k = Some o -> same_out es (fst (core_read (numbered_ds (length es) tail) (epoch s) k)) o.
Proof.
  intros G C s R.
  assert (D : In O_end (log s) \/ (exists x, In (O_error x) (log s)) \/ (~ In O_end (log s) /\ forall x, ~ In (O_error x) (log s))).
  { induction (log s) as [|[e| |x] l IH].
    - right. right. split; cbn; auto.
    - destruct IH as [I | [(x & I) | (I1 & I2)]].
      + left. right. exact I.
      + right. left. exists x. right. exact I.
      + right. right. split; [|intros x]; intros [Q | Q]; try discriminate; [auto|exact (I2 _ Q)].
    - left. left. reflexivity.
    - right. left. exists x. left. reflexivity. }
  destruct D as [I | [(x & I) | (I1 & I2)]].
  - destruct (C26_end_after_everything B E decode size src src_end cores np pr prefetch reads G C s R I) as ((n & L) & _ & _).
    exists (sequential decode (src (epoch s))), [], None. rewrite app_nil_r. split; [auto|]. split; [auto|]. split; [discriminate|].
    rewrite L. apply log_same. left. auto.
  - destruct (C29_errors_stick B E decode size src src_end cores np pr prefetch reads G C s x R I) as ((ds & n & rest & L & P) & Er).
    exists ds, rest, (Some x). split; [auto|]. split; [discriminate|]. split; [intros y Q; injection Q as <-; auto|].
    rewrite L. apply log_same. right. eauto.
  - destruct (C25_order_and_content B E decode size src src_end cores np pr prefetch reads G C s R) as (rest & P).
    exists (delivered (log s)), rest, None. split; [auto|]. split; [tauto|]. split; [discriminate|].
    intros k o H. eapply (log_same (delivered (log s)) 0 None O_end); [left; auto|].
    cbn [repeat]. rewrite app_nil_r, <- only_examples; auto.
Qed.
