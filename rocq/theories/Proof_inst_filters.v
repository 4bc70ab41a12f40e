(* Range, shard, sample, shuffle and batch. *)
From Coq Require Import Permutation.
From Verif Require Import Common Model_rec Model_inst Spec_inst Proof_inst.

Lemma skipn_len {A} (a b : list A) : skipn (length a) (a ++ b) = b.
Proof. rewrite skipn_app, skipn_all, Nat.sub_diag. reflexivity. Qed.
Lemma firstn_len {A} (a b : list A) : firstn (length a) (a ++ b) = a.
Proof. rewrite firstn_app, firstn_all, Nat.sub_diag. cbn. apply app_nil_r. Qed.

Section Filters.
  Context {A : Type} (M : machine A).

  (* ---------------- range ---------------- *)

  Lemma ranged_stopped skip take n i : (match take with None => false | Some t => n =? t end) = true ->
    yields (ranged skip take M) (None, (false, n, i)) [] (Ok tt).
  Proof.
    intro H. apply (y_end_inv (ranged skip take M) (fun s => s = (false, n, i))); [reflexivity|].
    intros s ->. exists (false, n, i). cbn. rewrite H. auto.
  Qed.

  Lemma ranged_inner_end skip take n i : yields M i [] (Ok tt) ->
    yields (ranged skip take M) (None, (false, n, i)) [] (Ok tt).
  Proof.
    intro H.
    apply (y_end_inv (ranged skip take M) (fun s => exists j, s = (false, n, j) /\ yields M j [] (Ok tt))); [eauto|].
    intros s (j & -> & Hj). pose proof (yields_read _ _ _ _ Hj) as (j' & E & Hj').
    cbn. destruct (match take with None => false | Some t => n =? t end).
    - eexists. split; [reflexivity|]. eauto.
    - rewrite E. eexists. split; [reflexivity|]. eauto.
  Qed.

  Lemma ranged_go skip take : forall xs i n e, yields M i xs e ->
    match take with Some t => n <= t | None => True end ->
    yields (ranged skip take M) (None, (false, n, i))
      (match take with Some t => firstn (t - n) xs | None => xs end)
      (if match take with Some t => t - n <=? length xs | None => false end then Ok tt else e).
  Proof.
    induction xs as [|x xs IH]; intros i n e H Hn; pose proof (yields_read _ _ _ _ H) as (i' & E & Hi').
    - destruct (match take with None => false | Some t => n =? t end) eqn:Es.
      + destruct take as [t|]; [|discriminate]. apply Nat.eqb_eq in Es. subst t. rewrite Nat.sub_diag. cbn.
        apply ranged_stopped. cbn. apply Nat.eqb_refl.
      + replace (match take with Some t => firstn (t - n) [] | None => [] end) with (@nil A)
          by (destruct take; [now rewrite firstn_nil|reflexivity]).
        assert (El : match take with Some t => t - n <=? length (@nil A) | None => false end = false).
        { destruct take as [t|]; [|reflexivity]. apply Nat.eqb_neq in Es. apply Nat.leb_gt. cbn. lia. }
        rewrite El. apply (y_stop (ranged skip take M) _ (false, n, i')).
        * cbn. rewrite Es, E. destruct e; reflexivity.
        * intros ->. apply ranged_inner_end. auto.
    - destruct (match take with None => false | Some t => n =? t end) eqn:Es.
      + destruct take as [t|]; [|discriminate]. apply Nat.eqb_eq in Es. subst t. rewrite Nat.sub_diag. cbn.
        apply ranged_stopped. cbn. apply Nat.eqb_refl.
      + assert (Estep : m_core (ranged skip take M) (false, n, i) = (Ok (Some x), (false, S n, i'))).
        { cbn. rewrite Es, E. reflexivity. }
        destruct take as [t|].
        * apply Nat.eqb_neq in Es. replace (t - n) with (S (t - S n)) by lia. cbn [firstn length Nat.leb].
          apply (y_item (ranged skip (Some t) M) _ _ _ _ _ Estep). apply (IH i' (S n) e Hi'). lia.
        * apply (y_item (ranged skip None M) _ _ _ _ _ Estep). apply (IH i' (S n) e Hi'). exact I.
  Qed.

  (* the first call is the skipping one *)
  Lemma first_step {B} (N : machine B) s s' xs e : m_core N s = m_core N s' -> yields N (None, s') xs e ->
    yields N (None, s) xs e.
  Proof.
    intros E H. destruct xs as [|x xs]; pose proof (yields_read _ _ _ _ H) as (s2 & Er & H2);
      cbn in Er; destruct (m_core N s') as [r c] eqn:Ec; injection Er as -> <-.
    - eapply y_stop; [exact E|]. intros ->. auto.
    - eapply y_item; [exact E|exact H2].
  Qed.

  Lemma ranged_ok skip take i xs e : yields M i xs e ->
    yields (ranged skip take M) (None, (true, 0, i)) (range_of skip take xs)
      (if range_full skip take xs then Ok tt else e).
  Proof.
    intros H. pose proof (skip_inner_spec M skip i xs e H) as HS.
    destruct (Nat.leb_spec skip (length xs)) as [Hl|Hl]; destruct HS as (i' & E & Hi').
    - apply (first_step (ranged skip take M) (true, 0, i) (false, 0, i')).
      { cbn. rewrite E. reflexivity. }
      pose proof (ranged_go skip take (skipn skip xs) i' 0 e Hi' ltac:(destruct take; [lia|exact I])) as HG.
      unfold range_of, range_full. destruct take as [t|]; [|exact HG].
      rewrite Nat.sub_0_r, skipn_length in HG.
      replace (skip + t <=? length xs) with (t <=? length xs - skip); [exact HG|].
      destruct (Nat.leb_spec t (length xs - skip)), (Nat.leb_spec (skip + t) (length xs)); lia || reflexivity.
    - assert (E1 : range_of skip take xs = []).
      { unfold range_of. rewrite skipn_all2 by lia. destruct take; [apply firstn_nil|reflexivity]. }
      assert (E2 : range_full skip take xs = false).
      { unfold range_full. destruct take; [|reflexivity]. apply Nat.leb_gt. lia. }
      rewrite E1, E2. apply (y_stop (ranged skip take M) _ (false, 0, i')).
      + cbn. rewrite E. destruct e; reflexivity.
      + intros ->. apply ranged_inner_end. auto.
  Qed.

  (* ---------------- shards ---------------- *)

  (* every num-th element starting at n *)
  Fixpoint every (num n : nat) (xs : list A) : list A :=
    match xs with
    | [] => []
    | x :: xs' => match n with O => x :: every num (num - 1) xs' | S n' => every num n' xs' end
    end.

  Lemma every_skip num : forall n xs, every num n xs =
    match skipn n xs with [] => [] | x :: rest => x :: every num (num - 1) rest end.
  Proof.
    induction n as [|n IH]; intros xs; destruct xs as [|x xs]; try reflexivity. apply IH.
  Qed.

  Lemma every_shard num : 0 < num -> forall xs p n, n < num ->
    every num n xs = map snd (filter (fun px => fst px mod num =? (p + n) mod num) (combine (seq p (length xs)) xs)).
  Proof.
    intro Hnum. induction xs as [|x xs IH]; intros p n Hn; [reflexivity|].
    cbn [every length seq combine filter fst]. destruct n as [|n].
    - rewrite Nat.add_0_r, Nat.eqb_refl. cbn [map snd]. f_equal.
      rewrite (IH (S p) (num - 1)) by lia.
      replace (S p + (num - 1)) with (p + 1 * num) by lia. rewrite Nat.mod_add by lia. reflexivity.
    - destruct (Nat.eqb_spec (p mod num) ((p + S n) mod num)) as [E|E].
      + exfalso. pose proof (Nat.div_mod p num ltac:(lia)). pose proof (Nat.div_mod (p + S n) num ltac:(lia)).
        assert (num * ((p + S n) / num - p / num) = S n) by nia. nia.
      + rewrite (IH (S p) n) by lia. replace (S p + n) with (p + S n) by lia. reflexivity.
  Qed.

  Lemma sharded_end index num first i : yields M i [] (Ok tt) ->
    yields (sharded index num M) (None, (first, i)) [] (Ok tt).
  Proof.
    intro H.
    apply (y_end_inv (sharded index num M) (fun s => yields M (snd s) [] (Ok tt))); [exact H|].
    intros [f j] Hj. cbn in Hj. cbn. set (n := if f then index else num - 1).
    pose proof (skip_inner_spec M n j [] (Ok tt) Hj) as HS. destruct n as [|n]; cbn [length Nat.leb] in HS.
    - destruct HS as (j' & E & Hj'). rewrite E. pose proof (yields_read _ _ _ _ Hj') as (j2 & E2 & Hj2). cbn [skipn] in *.
      rewrite E2. eexists. split; [reflexivity|]. cbn. auto.
    - destruct HS as (j' & E & Hj'). rewrite E. eexists. split; [reflexivity|]. cbn. auto.
  Qed.

  Lemma sharded_go index num : forall k xs i first e, length xs < k -> yields M i xs e ->
    yields (sharded index num M) (None, (first, i)) (every num (if first then index else num - 1) xs) e.
  Proof.
    induction k as [|k IH]; intros xs i first e Hk H; [lia|].
    set (n := if first then index else num - 1).
    pose proof (skip_inner_spec M n i xs e H) as HS. rewrite every_skip.
    destruct (Nat.leb_spec n (length xs)) as [Hl|Hl]; destruct HS as (i' & E & Hi').
    - pose proof (skipn_length n xs) as HL.
      pose proof (yields_read _ _ _ _ Hi') as HR. destruct (skipn n xs) as [|x rest]; destruct HR as (i2 & E2 & H2).
      + apply (y_stop (sharded index num M) _ (false, i2)).
        * cbn. fold n. rewrite E, E2. destruct e; reflexivity.
        * intros ->. apply sharded_end. auto.
      + apply (y_item (sharded index num M) _ _ (false, i2)).
        * cbn. fold n. rewrite E, E2. reflexivity.
        * apply (IH rest i2 false e); [cbn in HL; lia|exact H2].
    - rewrite skipn_all2 by lia. apply (y_stop (sharded index num M) _ (false, i')).
      + cbn. fold n. rewrite E. destruct e; reflexivity.
      + intros ->. apply sharded_end. auto.
  Qed.

  Lemma sharded_ok index num i xs e : index < num -> yields M i xs e ->
    yields (sharded index num M) (None, (true, i)) (shard_of index num xs) e.
  Proof.
    intros Hi H. pose proof (sharded_go index num (S (length xs)) xs i true e (le_n _) H) as HG. cbn in HG.
    rewrite (every_shard num ltac:(lia) xs 0 index Hi) in HG. cbn [Nat.add] in HG.
    rewrite (Nat.mod_small index num Hi) in HG. exact HG.
  Qed.

  (* ---------------- sampling ---------------- *)

  Section Sample.
    Variables (keepr : nat -> res nat) (keep : nat -> nat).
    Hypothesis keepr_ok : forall n, n <= 100 -> keepr n = Ok (keep n).
    Local Notation SM := (sampled keepr M).
    Local Arguments fill_inner : simpl never.
    Local Arguments Nat.ltb : simpl never.
    Local Arguments Nat.eqb : simpl never.
    Hypothesis keep_le : forall n, n <= 100 -> keep n <= n.

    (* the state before a refill: nothing left in the buffer *)
    Definition drained (s : list A * nat * bstate M) (i : bstate M) : Prop :=
      exists buf pos, s = (buf, pos, i) /\ pos = length buf.

    Lemma sampled_end s i : drained s i -> yields M i [] (Ok tt) -> yields SM (None, s) [] (Ok tt).
    Proof.
      intros Hd Hi.
      apply (y_end_inv SM (fun s => exists i, drained s i /\ yields M i [] (Ok tt))); [eauto|].
      clear s i Hd Hi. intros s (i & (buf & pos & -> & Hp) & Hi). cbn.
      destruct (Nat.eqb_spec pos (length buf)) as [_|]; [|lia].
      pose proof (fill_inner_spec M 100 i [] (Ok tt) [] Hi) as HF. cbn [length] in HF; change (100 <=? 0) with false in HF; cbn iota in HF.
      destruct HF as (i' & E & Hi'). rewrite E. cbn. eexists. split; [reflexivity|].
      exists i'. split; [|auto]. exists [], 0. auto.
    Qed.

    Lemma sampled_pop i ys e buf : forall pos, pos <= length buf ->
      yields SM (None, (buf, length buf, i)) ys e -> buf <> [] ->
      yields SM (None, (buf, pos, i)) (skipn pos buf ++ ys) e.
    Proof.
      intros pos. remember (length buf - pos) as k eqn:Ek. revert pos Ek. induction k as [|k IH]; intros pos Ek Hp Hy Hb.
      - replace pos with (length buf) by lia. rewrite skipn_all. exact Hy.
      - destruct (nth_error buf pos) as [x|] eqn:En; [|apply nth_error_None in En; lia].
        assert (Es : skipn pos buf = x :: skipn (S pos) buf).
        { clear - En. revert buf En. induction pos as [|p IH]; intros [|b buf] En; try discriminate; cbn in *.
          - now inversion En. - now apply IH. }
        rewrite Es. cbn [app]. apply (y_item SM _ _ (buf, S pos, i)).
        + cbn. destruct (Nat.eqb_spec pos (length buf)) as [|_]; [lia|].
          destruct buf as [|b buf]; [congruence|]. rewrite En. reflexivity.
        + apply IH; auto; lia.
    Qed.

    (* the call that refills the buffer behaves like the refilled state *)
    Lemma sampled_refill s i b e i' ys r : drained s i -> b <> [] -> length b <= 100 ->
      fill_inner M 100 i [] = (Ok e, b, i') -> 0 < keep (length b) ->
      (forall s', drained s' i' -> yields SM (None, s') ys r) ->
      yields SM (None, s) (firstn (keep (length b)) b ++ ys) r.
    Proof.
      intros (buf & pos & -> & Hp) Hb Hb1 E Hk Hy. set (k := firstn (keep (length b)) b).
      assert (Hlen : length k = keep (length b)). { subst k. rewrite firstn_length. specialize (keep_le (length b) Hb1). lia. }
      assert (Hne : k <> []). { intro E0. rewrite E0 in Hlen. cbn in Hlen. lia. }
      apply (first_step SM _ (k, 0, i')).
      - cbn [m_core sampled]. destruct (Nat.eqb_spec pos (length buf)) as [_|]; [|lia]. rewrite E.
        destruct b as [|b0 b]; [congruence|]. remember (b0 :: b) as bb eqn:Ebb. cbn match. rewrite (keepr_ok _ Hb1).
        destruct (Nat.ltb_spec (length bb) (keep (length bb))) as [Hl|_]; [specialize (keep_le (length bb) Hb1); lia|].
        fold k. destruct (Nat.eqb_spec 0 (length k)) as [H0|_]; [lia|]. reflexivity.
      - change k with (skipn 0 k) at 2. apply sampled_pop; [lia| |exact Hne].
        apply Hy. exists k, (length k). auto.
    Qed.

    Lemma sampled_go xs ys : sample_of keep xs ys -> 0 < keep 100 -> forall s i, drained s i -> yields M i xs (Ok tt) ->
      yields SM (None, s) ys (Ok tt).
    Proof.
      intros HS H100. induction HS as [b Hb|b xs ys Hb HS IH]; intros s i Hd Hi.
      - pose proof (fill_inner_spec M 100 i b (Ok tt) [] Hi) as HF.
        destruct (Nat.leb_spec 100 (length b)) as [|_]; [lia|]. destruct HF as (i' & E & Hi'). cbn [app cast_err] in E.
        destruct b as [|b0 b].
        + rewrite firstn_nil. eapply sampled_end; eauto.
        + destruct (keep (length (b0 :: b))) as [|k] eqn:Ek.
          * cbn [firstn]. destruct Hd as (buf & pos & -> & Hp).
            apply (y_end_step SM _ ([], 0, i')).
            -- cbn -[length]. destruct (Nat.eqb_spec pos (length buf)) as [_|]; [|lia]. rewrite E, keepr_ok, Ek by lia.
               destruct (Nat.ltb_spec (length (b0 :: b)) 0); [lia|]. reflexivity.
            -- eapply sampled_end; [|apply Hi'; reflexivity]. exists [], 0. auto.
          * rewrite <- Ek, <- (app_nil_r (firstn _ _)).
            eapply sampled_refill; [exact Hd|discriminate|lia|exact E|rewrite Ek; lia|].
            intros s' Hs'. eapply sampled_end; [exact Hs'|]. auto.
      - pose proof (fill_inner_spec M 100 i (b ++ xs) (Ok tt) [] Hi) as HF.
        destruct (Nat.leb_spec 100 (length (b ++ xs))) as [_|Hl]; [|rewrite app_length in Hl; lia].
        destruct HF as (i' & E & Hi'). rewrite <- Hb, skipn_len in Hi'.
        rewrite <- Hb in E at 2. rewrite firstn_len in E. cbn [app] in E.
        rewrite <- Hb. eapply sampled_refill; [exact Hd| |lia|exact E|rewrite Hb; exact H100|].
        + intros ->. cbn in Hb. lia.
        + intros s' Hs'. eapply IH; eauto.
    Qed.

    (* a ratio so small that nothing of a block is kept *)
    Lemma sampled_zero : (forall n, n <= 100 -> keep n = 0) -> forall xs s i, drained s i -> yields M i xs (Ok tt) ->
      yields SM (None, s) [] (Ok tt).
    Proof.
      intros Hz xs s i Hd Hi.
      apply (y_end_inv SM (fun s => exists i xs, drained s i /\ yields M i xs (Ok tt))); [eauto|].
      clear s i xs Hd Hi. intros s (i & xs & (buf & pos & -> & Hp) & Hi). cbn [m_core sampled].
      destruct (Nat.eqb_spec pos (length buf)) as [_|]; [|lia].
      pose proof (fill_inner_spec M 100 i xs (Ok tt) [] Hi) as HF.
      assert (HE : exists r b i' xs', fill_inner M 100 i [] = (Ok r, b, i') /\ yields M i' xs' (Ok tt) /\ length b <= 100).
      { destruct (Nat.leb_spec 100 (length xs)) as [Hl|Hl]; destruct HF as (i' & E & Hi'); cbn [app cast_err] in E.
        - exists true, (firstn 100 xs), i', (skipn 100 xs). rewrite firstn_length. repeat split; auto. lia.
        - exists false, xs, i', []. repeat split; auto. lia. }
      destruct HE as (r & b & i' & xs' & E & Hi' & Hb). rewrite E. destruct b as [|b0 b].
      - eexists. split; [reflexivity|]. exists i', xs'. split; [|exact Hi']. exists [], 0. auto.
      - rewrite keepr_ok, Hz by exact Hb. destruct (Nat.ltb_spec (length (b0 :: b)) 0); [lia|]. cbn [firstn].
        eexists. split; [reflexivity|]. exists i', xs'. split; [|exact Hi']. exists [], 0. auto.
    Qed.

    Lemma sample_of_zero (xs ys : list A) : (forall n, n <= 100 -> keep n = 0) -> sample_of keep xs ys -> ys = [].
    Proof.
      intros Hz. induction 1 as [b Hb|b xs ys Hb HS IH]; rewrite Hz by lia; [reflexivity|]. exact IH.
    Qed.

    Lemma sampled_ok xs ys s i : (keep 100 <> 0 \/ forall n, n <= 100 -> keep n = 0) -> sample_of keep xs ys ->
      drained s i -> yields M i xs (Ok tt) -> yields SM (None, s) ys (Ok tt).
    Proof.
      intros [H|H] HS Hd Hi.
      - apply (sampled_go xs ys HS ltac:(lia) s i Hd Hi).
      - rewrite (sample_of_zero xs ys H HS). eapply sampled_zero; eauto.
    Qed.

    Lemma sample_of_total : forall k (xs : list A), length xs < k -> exists ys, sample_of keep xs ys.
    Proof.
      induction k as [|k IH]; intros xs Hk; [lia|]. destruct (Nat.ltb_spec (length xs) 100) as [Hl|Hl].
      - eexists. apply sa_last. exact Hl.
      - destruct (IH (skipn 100 xs)) as [ys Hy]. { rewrite skipn_length. lia. }
        exists (firstn (keep 100) (firstn 100 xs) ++ ys). rewrite <- (firstn_skipn 100 xs) at 1.
        apply sa_block; [rewrite firstn_length; lia|exact Hy].
    Qed.
  End Sample.
End Filters.
