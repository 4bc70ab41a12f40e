(* Lemmas about the instance readers. *)
From Coq Require Import Permutation.
From Verif Require Import Common Model_rec Model_inst Spec_inst.

(* ---------------- observation ---------------- *)

Section Obs.
  Context {A : Type} (M : machine A).

  Definition stuck (r : res (option A)) (s : bstate M) : Prop :=
    exists P : bstate M -> Prop, P s /\ forall s, P s -> exists s', b_read M s = (r, s') /\ P s'.

  Inductive yields : bstate M -> list A -> res unit -> Prop :=
  | y_end s : stuck (Ok None) s -> yields s [] (Ok tt)
  | y_err s e s' : (forall u, e <> Ok u) -> b_read M s = (cast_err e UB, s') -> yields s [] e
  | y_cons s x s' xs e : b_read M s = (Ok (Some x), s') -> yields s' xs e -> yields s (x :: xs) e.

  Lemma outputs_S s n r s' : b_read M s = (r, s') -> outputs M s (S n) = r :: outputs M s' n.
  Proof.
    intro H. unfold outputs. cbn [repeat run]. rewrite H.
    destruct (run M s' (repeat Read n)). reflexivity.
  Qed.

  Lemma stuck_outputs r s n : stuck r s -> outputs M s n = repeat r n.
  Proof.
    intros (P & H & HP). revert s H. induction n as [|n IH]; intros s H; [reflexivity|].
    destruct (HP s H) as (s' & E & H'). rewrite (outputs_S s n r s' E). cbn. f_equal. auto.
  Qed.

  Lemma outputs_stuck r s : (forall n, outputs M s n = repeat r n) -> stuck r s.
  Proof.
    intro H. exists (fun s => forall n, outputs M s n = repeat r n). split; [exact H|]. clear s H. intros s H.
    destruct (b_read M s) as [r' s'] eqn:E. exists s'.
    assert (Er : r' = r). { specialize (H 1). rewrite (outputs_S s 0 r' s' E) in H. now inversion H. }
    subst r'. split; [reflexivity|]. intro n. specialize (H (S n)). rewrite (outputs_S s n r s' E) in H. now inversion H.
  Qed.

  Lemma stuck_step r s : stuck r s -> exists s', b_read M s = (r, s') /\ stuck r s'.
  Proof. intros (P & H & HP). destruct (HP s H) as (s' & E & H'). exists s'. split; [exact E|]. exists P. auto. Qed.

  Lemma firstn_repeat_le (r : res (option A)) n m : n <= m -> firstn n (repeat r m) = repeat r n.
  Proof. revert m. induction n as [|n IH]; intros [|m] H; try reflexivity; [lia|]. cbn. rewrite IH by lia. reflexivity. Qed.

  Lemma sticky_cons s x s' xs l : b_read M s = (Ok (Some x), s') -> reads_as_sticky M s' xs l -> reads_as_sticky M s (x :: xs) l.
  Proof.
    intros E H n. destruct n as [|n]; [reflexivity|]. rewrite (outputs_S s n _ s' E), (H n).
    cbn [map app firstn]. f_equal. rewrite !firstn_app. f_equal.
    now rewrite !firstn_repeat_le by lia.
  Qed.

  Lemma sticky_cons_inv s x xs l : reads_as_sticky M s (x :: xs) l ->
    exists s', b_read M s = (Ok (Some x), s') /\ reads_as_sticky M s' xs l.
  Proof.
    intro H. destruct (b_read M s) as [r s'] eqn:E. exists s'.
    pose proof (H 1) as H1. rewrite (outputs_S s 0 r s' E) in H1. cbn in H1. injection H1 as ->.
    split; [reflexivity|]. intro n. specialize (H (S n)). rewrite (outputs_S s n _ s' E) in H.
    cbn [map app firstn] in H. injection H as H. rewrite H. rewrite !firstn_app. f_equal.
    change (l :: repeat l n) with (repeat l (S n)). now rewrite !firstn_repeat_le by lia.
  Qed.

  Lemma sticky_nil s l : reads_as_sticky M s [] l <-> stuck l s.
  Proof.
    split.
    - intro H. apply outputs_stuck. intro n. rewrite (H n). cbn [map app]. apply firstn_all2. now rewrite repeat_length.
    - intros H n. rewrite (stuck_outputs _ _ n H). cbn [map app]. symmetry. apply firstn_all2. now rewrite repeat_length.
  Qed.

  Lemma yields_iff s xs e : yields s xs e <-> reads_as M s xs e.
  Proof.
    split.
    - induction 1 as [s Hs|s e s' He E|s x s' xs e E Hy IH].
      + apply (proj2 (sticky_nil s (Ok None))) in Hs. exact Hs.
      + destruct e as [u| | |]; [destruct (He u eq_refl)|..]; cbn; rewrite (outputs_S s 0 _ s' E); reflexivity.
      + destruct e as [[]|e| |]; cbn in IH |- *.
        * exact (sticky_cons s x s' xs (Ok None) E IH).
        * rewrite (outputs_S s (S (length xs)) _ s' E), IH. reflexivity.
        * rewrite (outputs_S s (S (length xs)) _ s' E), IH. reflexivity.
        * rewrite (outputs_S s (S (length xs)) _ s' E), IH. reflexivity.
    - revert s. induction xs as [|x xs IH]; intros s H.
      + destruct e as [[]|e| |]; cbn in H.
        * apply y_end. apply (proj1 (sticky_nil s (Ok None))). exact H.
        * destruct (b_read M s) as [r s'] eqn:E. rewrite (outputs_S s 0 r s' E) in H. injection H as ->.
          eapply y_err; [discriminate|exact E].
        * destruct (b_read M s) as [r s'] eqn:E. rewrite (outputs_S s 0 r s' E) in H. injection H as ->.
          eapply y_err; [discriminate|exact E].
        * destruct (b_read M s) as [r s'] eqn:E. rewrite (outputs_S s 0 r s' E) in H. injection H as ->.
          eapply y_err; [discriminate|exact E].
      + destruct e as [[]|e| |]; cbn in H.
        * destruct (sticky_cons_inv s x xs (Ok None) H) as (s' & E & H'). eapply y_cons; [exact E|]. apply IH. exact H'.
        * destruct (b_read M s) as [r s'] eqn:E. rewrite (outputs_S s _ r s' E) in H. injection H as -> H.
          eapply y_cons; [exact E|]. apply IH. exact H.
        * destruct (b_read M s) as [r s'] eqn:E. rewrite (outputs_S s _ r s' E) in H. injection H as -> H.
          eapply y_cons; [exact E|]. apply IH. exact H.
        * destruct (b_read M s) as [r s'] eqn:E. rewrite (outputs_S s _ r s' E) in H. injection H as -> H.
          eapply y_cons; [exact E|]. apply IH. exact H.
  Qed.

  (* one read *)
  Lemma yields_read s xs e : yields s xs e ->
    match xs with
    | x :: xs' => exists s', b_read M s = (Ok (Some x), s') /\ yields s' xs' e
    | [] => exists s', b_read M s = (cast_err e (Ok None), s') /\ (e = Ok tt -> yields s' [] e)
    end.
  Proof.
    intro H. destruct H as [s Hs|s e s' He E|s x s' xs e E Hy].
    - destruct (stuck_step _ _ Hs) as (s' & E & H'). exists s'. split; [exact E|]. intros _. now apply y_end.
    - exists s'. split.
      + rewrite E. destruct e as [u| | |]; [destruct (He u eq_refl)|..]; reflexivity.
      + intros ->. destruct (He tt eq_refl).
    - exists s'. auto.
  Qed.

  Lemma yields_peek s xs e : yields s xs e ->
    match xs with
    | x :: xs' => exists s', b_peek M s = (Ok (Some x), s') /\ yields s' xs e
    | [] => exists s', b_peek M s = (cast_err e (Ok None), s') /\ (e = Ok tt -> yields s' [] e)
    end.
  Proof.
    intro H. pose proof (yields_read _ _ _ H) as HR. destruct s as [[y|] s].
    - destruct xs as [|x xs].
      + destruct HR as (s' & E & _). cbn in E. destruct e; discriminate.
      + destruct HR as (s' & E & HR). cbn in E. injection E as <- <-. exists (Some y, s). split; [reflexivity|exact H].
    - cbn in HR. unfold b_peek. cbn [fst snd]. destruct (m_core M s) as [r s1].
      destruct xs as [|x xs].
      + destruct HR as (s' & E & HR). injection E as -> <-. exists (None, s1). destruct e as [u|e0| |]; cbn; auto.
      + destruct HR as (s' & E & HR). injection E as -> <-. exists (Some x, s1). split; [reflexivity|].
        eapply y_cons; [reflexivity|exact HR].
  Qed.

  Lemma run_answers : forall ops s xs e, yields s xs e -> Forall (fun o => o <> Reset) ops ->
    exists rest, fst (run M s ops) = answers xs e ops ++ rest /\ (e = Ok tt -> rest = []).
  Proof.
    induction ops as [|o ops IH]; intros s xs e H HF; [exists []; auto|].
    inversion HF as [|? ? Ho HF']; subst.
    assert (Hend : forall o, o <> Reset -> xs = [] -> answers xs e (o :: ops) =
              match e with Ok _ => Ok None :: answers [] e ops | e => [cast_err e UB] end).
    { intros o' Ho' ->. destruct o'; [..|congruence]; destruct e; reflexivity. }
    destruct o; [| |congruence]; cbn [run].
    - pose proof (yields_read _ _ _ H) as HR. destruct xs as [|x xs].
      + destruct HR as (s' & E & HR). rewrite Hend by auto. rewrite E. destruct e as [[]|e| |].
        * destruct (IH s' [] (Ok tt) (HR eq_refl) HF') as (rest & E2 & H2). destruct (run M s' ops) as [rs s2]. cbn in *.
          exists rest. rewrite E2. auto.
        * destruct (run M s' ops) as [rs s2]. exists rs. split; [reflexivity|discriminate].
        * destruct (run M s' ops) as [rs s2]. exists rs. split; [reflexivity|discriminate].
        * destruct (run M s' ops) as [rs s2]. exists rs. split; [reflexivity|discriminate].
      + destruct HR as (s' & E & HR). rewrite E. destruct (IH s' xs e HR HF') as (rest & E2 & H2).
        destruct (run M s' ops) as [rs s2]. cbn in *. exists rest. rewrite E2. auto.
    - pose proof (yields_peek _ _ _ H) as HR. destruct xs as [|x xs].
      + destruct HR as (s' & E & HR). rewrite Hend by auto. rewrite E. destruct e as [[]|e| |].
        * destruct (IH s' [] (Ok tt) (HR eq_refl) HF') as (rest & E2 & H2). destruct (run M s' ops) as [rs s2]. cbn in *.
          exists rest. rewrite E2. auto.
        * destruct (run M s' ops) as [rs s2]. exists rs. split; [reflexivity|discriminate].
        * destruct (run M s' ops) as [rs s2]. exists rs. split; [reflexivity|discriminate].
        * destruct (run M s' ops) as [rs s2]. exists rs. split; [reflexivity|discriminate].
      + destruct HR as (s' & E & HR). rewrite E. destruct (IH s' (x :: xs) e HR HF') as (rest & E2 & H2).
        destruct (run M s' ops) as [rs s2]. cbn [fst] in *. exists rest. rewrite E2. auto.
  Qed.

  (* loops over the inner reader *)
  Lemma skip_inner_spec : forall n s xs e, yields s xs e ->
    if n <=? length xs
    then exists s', skip_inner M n s = (Ok true, s') /\ yields s' (skipn n xs) e
    else exists s', skip_inner M n s = (cast_err e (Ok false), s') /\ (e = Ok tt -> yields s' [] e).
  Proof.
    induction n as [|n IH]; intros s xs e H; [exists s; auto|].
    pose proof (yields_read _ _ _ H) as HR. destruct xs as [|x xs]; cbn [length Nat.leb skipn skip_inner].
    - destruct HR as (s' & E & HR). rewrite E. exists s'. destruct e; cbn; auto.
    - destruct HR as (s' & E & HR). rewrite E. apply IH. exact HR.
  Qed.

  Lemma fill_inner_spec : forall n s xs e buf, yields s xs e ->
    if n <=? length xs
    then exists s', fill_inner M n s buf = (Ok true, buf ++ firstn n xs, s') /\ yields s' (skipn n xs) e
    else exists s', fill_inner M n s buf = (cast_err e (Ok false), buf ++ xs, s') /\ (e = Ok tt -> yields s' [] e).
  Proof.
    induction n as [|n IH]; intros s xs e buf H; [exists s; rewrite app_nil_r; auto|].
    pose proof (yields_read _ _ _ H) as HR. destruct xs as [|x xs]; cbn [length Nat.leb skipn firstn fill_inner].
    - destruct HR as (s' & E & HR). rewrite E. exists s'. rewrite app_nil_r. destruct e; cbn; auto.
    - destruct HR as (s' & E & HR). rewrite E. specialize (IH s' xs e (buf ++ [x]) HR).
      destruct (n <=? length xs); destruct IH as (s2 & E2 & H2); exists s2; rewrite E2, <- app_assoc; auto.
  Qed.
End Obs.

Arguments yields {A} M s xs e.
Arguments stuck {A} M r s.

(* a wrapper around a stuck core *)
Lemma stuck_core {A} (M : machine A) (r : res (option A)) (P : ms M -> Prop) s : P s ->
  (forall s, P s -> exists s', m_core M s = (r, s') /\ P s') -> stuck M r (None, s).
Proof.
  intros H HP. exists (fun b => fst b = None /\ P (snd b)). split; [auto|].
  intros [p c] [Hp Hc]. cbn in Hp, Hc. subst p. destruct (HP c Hc) as (c' & E & Hc').
  exists (None, c'). cbn. rewrite E. auto.
Qed.

Lemma b_read_core {A} (M : machine A) s r s' : m_core M s = (r, s') -> b_read M (None, s) = (r, (None, s')).
Proof. intro H. cbn. now rewrite H. Qed.

(* one more end of data in front *)
Lemma y_end_step {A} (M : machine A) s s' : m_core M s = (Ok None, s') -> yields M (None, s') [] (Ok tt) ->
  yields M (None, s) [] (Ok tt).
Proof.
  intros E H. apply y_end. inversion H as [? Hs|? ? ? He ?|]; subst; [|destruct (He tt eq_refl)].
  destruct Hs as (P & H1 & H2). exists (fun b => b = (None, s) \/ P b). split; [auto|].
  intros b [-> |Hb]; [exists (None, s'); cbn; rewrite E; auto|].
  destruct (H2 b Hb) as (b' & Eb & Hb'). exists b'. auto.
Qed.

Lemma y_end_inv {A} (M : machine A) (P : ms M -> Prop) s : P s ->
  (forall s, P s -> exists s', m_core M s = (Ok None, s') /\ P s') -> yields M (None, s) [] (Ok tt).
Proof. intros. apply y_end. now apply (stuck_core M _ P). Qed.

(* the item-less case with any ending *)
Lemma y_stop {A} (M : machine A) s s' e : m_core M s = (cast_err e (Ok None), s') ->
  (e = Ok tt -> yields M (None, s') [] (Ok tt)) -> yields M (None, s) [] e.
Proof.
  intros E H. destruct e as [[]|e| |]; cbn in E.
  - eapply y_end_step; [exact E|auto].
  - eapply y_err; [discriminate|apply b_read_core; exact E].
  - eapply y_err; [discriminate|apply b_read_core; exact E].
  - eapply y_err; [discriminate|apply b_read_core; exact E].
Qed.

Lemma y_item {A} (M : machine A) s x s' xs e : m_core M s = (Ok (Some x), s') -> yields M (None, s') xs e ->
  yields M (None, s) (x :: xs) e.
Proof. intros E H. eapply y_cons; [apply b_read_core; exact E|exact H]. Qed.
