(* Schema inference and headers of the CSV reader. *)
From Verif Require Import Common Model_csvtok Spec_csvtok Proof_csvtok Model_num Spec_num Proof_num Model_csv Spec_csv Proof_csv.
From Coq Require Import Sorted.

Lemma str_eqb_iff a b : str_eqb a b = true <-> a = b.
Proof. unfold str_eqb. destruct (list_eq_dec N.eq_dec a b); split; congruence. Qed.
Lemma str_eqb_refl a : str_eqb a a = true.
Proof. apply str_eqb_iff. reflexivity. Qed.
Lemma str_eqb_neq a b : a <> b -> str_eqb a b = false.
Proof. intro H. destruct (str_eqb a b) eqn:E; [apply str_eqb_iff in E; contradiction|reflexivity]. Qed.

(* ---------- decimal text ---------- *)
Lemma dec_go_digits fuel : forall n acc, Forall is_digit acc -> Forall is_digit (dec_go fuel n acc).
Proof.
  assert (D : forall n, is_digit (N.of_nat (48 + n mod 10))).
  { intro n. pose proof (Nat.mod_upper_bound n 10 ltac:(lia)). unfold is_digit. lia. }
  induction fuel as [|fuel IH]; intros n acc H; cbn [dec_go].
  - constructor; [apply D|exact H].
  - destruct (n <? 10); [constructor; [apply D|exact H]|]. apply IH. constructor; [apply D|exact H].
Qed.

Lemma dec_go_value fuel : forall n acc, n <= fuel -> value_from 0 (dec_go fuel n acc) = value_from (Z.of_nat n) acc.
Proof.
  assert (D : forall n, n < 10 -> forall acc, value_from 0 (N.of_nat (48 + n mod 10) :: acc) = value_from (Z.of_nat n) acc).
  { intros n H acc. rewrite Nat.mod_small by exact H. cbn [value_from]. f_equal. lia. }
  induction fuel as [|fuel IH]; intros n acc H; cbn [dec_go].
  - apply D. lia.
  - destruct (Nat.ltb_spec n 10) as [L|L]; [apply D, L|].
    pose proof (Nat.div_lt n 10 ltac:(lia) ltac:(lia)). pose proof (Nat.div_mod n 10 ltac:(lia)).
    rewrite IH by lia. cbn [value_from]. f_equal. lia.
Qed.

Lemma to_string_text n : Forall is_digit (to_string n) /\ value (to_string n) = Z.of_nat n.
Proof.
  split; [apply dec_go_digits; constructor|]. unfold value, to_string. rewrite dec_go_value by lia. reflexivity.
Qed.

Lemma dec_go_head fuel : forall n acc, n <= fuel -> n <> 0 -> exists c r, dec_go fuel n acc = c :: r /\ c <> 48%N.
Proof.
  induction fuel as [|fuel IH]; intros n acc H Hn; [lia|]. cbn [dec_go].
  destruct (Nat.ltb_spec n 10) as [L|L].
  - rewrite Nat.mod_small by exact L. eexists _, _. split; [reflexivity|]. lia.
  - pose proof (Nat.div_lt n 10 ltac:(lia) ltac:(lia)). apply IH; [lia|].
    pose proof (Nat.div_le_mono 10 n 10 ltac:(lia) L). rewrite Nat.div_same in H1; lia.
Qed.

Lemma to_string_head n : n <> 0 -> exists c r, to_string n = c :: r /\ c <> 48%N.
Proof. intro H. apply dec_go_head; lia. Qed.

Lemma to_string_inj a b : to_string a = to_string b -> a = b.
Proof. intro H. pose proof (proj2 (to_string_text a)). pose proof (proj2 (to_string_text b)). rewrite H in H0. lia. Qed.

(* ---------- maps ---------- *)
Section Maps.
  Context {K V : Type} (eqb : K -> K -> bool) (eqb_iff : forall a b, eqb a b = true <-> a = b).

  Lemma lookup_in (m : list (K * V)) k v : lookup eqb k m = Some v -> In (k, v) m.
  Proof.
    induction m as [|[k' v'] m IH]; cbn; [discriminate|]. destruct (eqb k k') eqn:E; [|auto].
    intro H. injection H as ->. apply eqb_iff in E as ->. left. reflexivity.
  Qed.
  Lemma lookup_none (m : list (K * V)) k : lookup eqb k m = None <-> ~ In k (map fst m).
  Proof.
    induction m as [|[k' v'] m IH]; cbn; [tauto|]. destruct (eqb k k') eqn:E.
    - apply eqb_iff in E as ->. split; [discriminate|]. intro H. exfalso. apply H. left. reflexivity.
    - rewrite IH. split; [|tauto]. intros H [->|X]; [|contradiction].
      assert (eqb k k = true) by (apply eqb_iff; reflexivity). congruence.
  Qed.
  Lemma erase_keys (m : list (K * V)) k x : In x (erase eqb k m) -> In x m.
  Proof. induction m as [|[k' v'] m IH]; cbn; [auto|]. destruct (eqb k k'); cbn; intuition. Qed.
  Lemma erase_in (m : list (K * V)) k x : NoDup (map fst m) -> (In x (erase eqb k m) <-> In x m /\ fst x <> k).
  Proof.
    induction m as [|[k' v'] m IH]; cbn; intro Hn; [tauto|]. apply NoDup_cons_iff in Hn. destruct Hn as [Hn1 Hn2].
    destruct (eqb k k') eqn:E.
    - apply eqb_iff in E as ->. split.
      + intro H. split; [auto|]. intro X. apply Hn1. rewrite <- X. apply in_map, H.
      + intros [[<-|H] X]; [cbn in X; contradiction|exact H].
    - cbn. rewrite (IH Hn2). split.
      + intros [<-|[H X]]; [split; [auto|]|tauto]. cbn. intros ->.
        assert (eqb k k = true) by (apply eqb_iff; reflexivity). congruence.
      + intros [[<-|H] X]; tauto.
  Qed.
  Lemma erase_nodup (m : list (K * V)) k : NoDup (map fst m) -> NoDup (map fst (erase eqb k m)).
  Proof.
    induction m as [|[k' v'] m IH]; cbn; intro Hn; [constructor|]. apply NoDup_cons_iff in Hn. destruct Hn as [Hn1 Hn2].
    destruct (eqb k k'); [exact Hn2|]. cbn. constructor; [|apply IH, Hn2].
    intro H. apply Hn1. apply in_map_iff in H. destruct H as (x & E & Hx). apply erase_keys in Hx. rewrite <- E. apply in_map, Hx.
  Qed.
  Lemma lookup_erase_other (m : list (K * V)) k k' : k <> k' -> lookup eqb k' (erase eqb k m) = lookup eqb k' m.
  Proof.
    intro Hne. induction m as [|[a v] m IH]; cbn; [reflexivity|]. destruct (eqb k a) eqn:E.
    - apply eqb_iff in E as <-. destruct (eqb k' k) eqn:E'; [apply eqb_iff in E'; congruence|reflexivity].
    - cbn. rewrite IH. reflexivity.
  Qed.
End Maps.

Section Override.
  Context {K : Type} (eqb : K -> K -> bool) (eqb_iff : forall a b, eqb a b = true <-> a = b).
  Lemma override_pass_spec keys : forall types (m : list (K * dtype)) ts m',
    NoDup (map fst m) -> length keys = length types -> override_pass eqb keys types m = (ts, m') ->
    length ts = length types /\
    (forall x, In x m' <-> In x m /\ ~ In (fst x) keys) /\
    (forall j k t, nth_error keys j = Some k -> nth_error types j = Some t ->
       exists d, nth_error ts j = Some d /\
         ((In (k, d) m /\ ~ In k (firstn j keys)) \/ ((~ In k (map fst m) \/ In k (firstn j keys)) /\ d = t))).
  Proof.
    induction keys as [|k0 keys IH]; intros [|t0 types] m ts m' Hn Hl H; cbn in Hl; try lia; cbn [override_pass] in H.
    - injection H as <- <-. split; [reflexivity|]. split; [intro x; cbn; tauto|]. intros [|j] k t X; discriminate.
    - assert (Hne : forall k k', eqb k k' = false -> k <> k').
      { intros a b X Y. assert (eqb a b = true) by (apply eqb_iff; exact Y). congruence. }
      destruct (lookup eqb k0 m) as [d0|] eqn:El.
      + destruct (override_pass eqb keys types (erase eqb k0 m)) as [ts1 m1] eqn:E1. injection H as <- <-.
        destruct (IH types _ _ _ (erase_nodup eqb m k0 Hn) ltac:(lia) E1) as (L & M & N).
        split; [cbn; lia|]. split.
        * intro x. rewrite M, (erase_in eqb eqb_iff _ _ _ Hn). cbn. split; intuition congruence.
        * intros [|j] k t Hk Ht; cbn in Hk, Ht.
          -- injection Hk as <-. exists d0. cbn. split; [reflexivity|]. left. split; [apply (lookup_in eqb eqb_iff), El|auto].
          -- destruct (N j k t Hk Ht) as (d & Ed & Hd). exists d. split; [exact Ed|].
             cbn [firstn]. destruct Hd as [[H1 H2]|[H1 H2]].
             ++ rewrite (erase_in eqb eqb_iff _ _ _ Hn) in H1. cbn in H1. left. split; [tauto|]. cbn. intros [X|X]; [|contradiction]. destruct H1 as [_ H1]. congruence.
             ++ right. split; [|exact H2]. cbn. destruct (eqb k k0) eqn:Ek; [apply eqb_iff in Ek; right; left; congruence|].
                destruct H1 as [H1|H1]; [|auto]. left. intro X. apply H1.
                apply in_map_iff in X. destruct X as (x & Ex & Hx). apply in_map_iff. exists x. split; [exact Ex|].
                apply (erase_in eqb eqb_iff _ _ _ Hn). split; [exact Hx|]. rewrite Ex. apply Hne, Ek.
      + destruct (override_pass eqb keys types m) as [ts1 m1] eqn:E1. injection H as <- <-.
        destruct (IH types _ _ _ Hn ltac:(lia) E1) as (L & M & N).
        assert (Hk0 : ~ In k0 (map fst m)) by (apply (lookup_none eqb eqb_iff), El).
        split; [cbn; lia|]. split.
        * intro x. rewrite M. cbn. split; [|tauto]. intros [H1 H2]. split; [exact H1|]. intros [X|X]; [|contradiction].
          apply Hk0. rewrite X. apply in_map, H1.
        * intros [|j] k t Hk Ht; cbn in Hk, Ht.
          -- injection Hk as <-. injection Ht as <-. exists t0. cbn. split; [reflexivity|]. right. auto.
          -- destruct (N j k t Hk Ht) as (d & Ed & Hd). exists d. split; [exact Ed|]. cbn [firstn].
             destruct Hd as [[H1 H2]|[H1 H2]].
             ++ left. split; [exact H1|]. cbn. intros [X|X]; [|contradiction]. apply Hk0. rewrite X. apply (in_map fst _ _ H1).
             ++ right. split; [|exact H2]. cbn. tauto.
  Qed.
End Override.

(* ---------- positions ---------- *)
Fixpoint posn (i : nat) (ign : list bool) : list nat :=
  match ign with
  | [] => []
  | true :: r => posn (S i) r
  | false :: r => i :: posn (S i) r
  end.
Fixpoint pick {A} (ign : list bool) (xs : list A) : list A :=
  match ign, xs with
  | b :: r, x :: xs' => if b then pick r xs' else x :: pick r xs'
  | _, _ => []
  end.

Lemma posn_in ign : forall i j, In j (posn i ign) <-> exists m, j = i + m /\ nth_error ign m = Some false.
Proof.
  induction ign as [|b ign IH]; intros i j; cbn [posn].
  - split; [intros []|]. intros ([|m] & _ & X); discriminate.
  - assert (R : In j (posn (S i) ign) <-> exists m, j = i + S m /\ nth_error ign m = Some false).
    { rewrite IH. split; intros (m & E & X); exists m; split; auto; lia. }
    destruct b; cbn [In]; rewrite R; split.
    + intros (m & E & X). exists (S m). auto.
    + intros ([|m] & E & X); [discriminate|]. exists m. auto.
    + intros [<-|(m & E & X)]; [exists 0|exists (S m)]; cbn; auto.
    + intros ([|m] & E & X); [left; lia|right; exists m; auto].
Qed.

Lemma posn_sorted ign : forall i, StronglySorted lt (posn i ign).
Proof.
  induction ign as [|b ign IH]; intro i; cbn; [constructor|]. destruct b; [apply IH|].
  constructor; [apply IH|]. rewrite Forall_forall. intros j Hj. apply posn_in in Hj. destruct Hj as (m & -> & _). lia.
Qed.

Lemma pick_length {A} ign : forall i (xs : list A), length ign = length xs -> length (pick ign xs) = length (posn i ign).
Proof. induction ign as [|[] ign IH]; intros i [|x xs] H; cbn in *; try lia; auto. Qed.

Lemma pick_nth {A} ign : forall i (xs : list A) k j, length ign = length xs -> nth_error (posn i ign) k = Some j ->
  exists m x, j = i + m /\ nth_error xs m = Some x /\ nth_error (pick ign xs) k = Some x /\ nth_error ign m = Some false.
Proof.
  induction ign as [|b ign IH]; intros i [|x xs] k j H Hk; cbn in *; try lia; [destruct k; discriminate|].
  destruct b.
  - destruct (IH (S i) xs k j ltac:(lia) Hk) as (m & y & E & X). exists (S m), y. split; [lia|exact X].
  - destruct k as [|k]; cbn in *.
    + injection Hk as <-. exists 0, x. repeat split; try reflexivity. lia.
    + destruct (IH (S i) xs k j ltac:(lia) Hk) as (m & y & E & X). exists (S m), y. split; [lia|exact X].
Qed.

Lemma sorted_unique (l l' : list nat) : StronglySorted lt l -> StronglySorted lt l' -> (forall j, In j l <-> In j l') -> l = l'.
Proof.
  intro H. revert l'. induction H as [|x l Hs IH Hx]; intros l' H' E.
  - destruct l' as [|y l']; [reflexivity|]. exfalso. apply (E y). left. reflexivity.
  - destruct H' as [|y l' Hs' Hy]; [exfalso; apply (E x); left; reflexivity|].
    rewrite Forall_forall in Hx, Hy.
    assert (x = y).
    { destruct (proj1 (E x) (or_introl eq_refl)) as [->|X]; [reflexivity|].
      destruct (proj2 (E y) (or_introl eq_refl)) as [->|Y]; [reflexivity|]. specialize (Hx _ Y). specialize (Hy _ X). lia. }
    subst y. f_equal. apply IH; [exact Hs'|]. intro j. specialize (E j). cbn in E. split; intro Hj.
    + destruct (proj1 E (or_intror Hj)) as [X|X]; [|exact X]. specialize (Hx _ Hj). lia.
    + destruct (proj2 E (or_intror Hj)) as [X|X]; [|exact X]. specialize (Hy _ Hj). lia.
Qed.

(* ---------- deduplication ---------- *)
Lemma bump_keys k m : map fst (bump k m) = map fst m.
Proof. induction m as [|[k' n] m IH]; cbn; [reflexivity|]. destruct (str_eqb k k'); cbn; congruence. Qed.

Definition longer (n : nat) (m : list (str * nat)) : nat := length (filter (fun kv => n <=? length (fst kv)) m).

Lemma longer_keys n m : longer n m = length (filter (fun k : str => n <=? length k) (map fst m)).
Proof. unfold longer. induction m as [|[k c] m IH]; cbn; [reflexivity|]. destruct (n <=? length k); cbn; congruence. Qed.

Lemma filter_le {A} (f g : A -> bool) l : (forall x, f x = true -> g x = true) -> length (filter f l) <= length (filter g l).
Proof.
  intro H. induction l as [|x l IH]; cbn; [lia|]. specialize (H x). destruct (f x), (g x); cbn; try lia.
Qed.

Lemma longer_grows n n' m k : n < n' -> In k (map fst m) -> length k = n -> S (longer n' m) <= longer n m.
Proof.
  intros L Hin Hk. rewrite !longer_keys.
  assert (G : forall l : list str, In k l ->
    S (length (filter (fun k : str => n' <=? length k) l)) <= length (filter (fun k : str => n <=? length k) l)); [|exact (G _ Hin)].
  clear Hin. intros l Hin. induction l as [|x l IH]; [contradiction|].
  cbn. destruct Hin as [->|Hin].
  - replace (n' <=? length k) with false by lia. replace (n <=? length k) with true by lia. cbn.
    apply le_n_S. apply filter_le. intros y Hy. lia.
  - specialize (IH Hin). destruct (Nat.leb_spec n' (length x)), (Nat.leb_spec n (length x)); cbn; lia.
Qed.

(* A name that the loop returns is new and extends the given one. *)
Lemma dedupe_loop_spec fuel : forall name counts, longer (length name) counts <= fuel ->
  exists a counts', dedupe_loop fuel name counts = Ok (a, counts') /\
    ~ In a (map fst counts) /\ map fst counts' = a :: map fst counts /\
    (~ In name (map fst counts) -> a = name) /\
    (In name (map fst counts) -> exists c suffix, a = name ++ c :: suffix).
Proof.
  induction fuel as [|fuel IH]; intros name counts H; cbn [dedupe_loop];
    (destruct (lookup str_eqb name counts) as [n|] eqn:E;
     [|exists name, ((name, 1) :: counts); apply (lookup_none str_eqb str_eqb_iff) in E; cbn; tauto]);
    assert (Hin : In name (map fst counts)) by (apply (in_map fst _ _ (lookup_in str_eqb str_eqb_iff _ _ _ E))).
  - exfalso. pose proof (longer_grows (length name) (S (length name)) counts name ltac:(lia) Hin eq_refl). lia.
  - set (name' := name ++ [95%N] ++ to_string n).
    assert (L : length name < length name') by (unfold name'; rewrite app_length; cbn; lia).
    destruct (IH name' (bump name counts)) as (a & counts' & E1 & H1 & H2 & H3 & H4).
    { rewrite longer_keys, bump_keys, <- longer_keys. pose proof (longer_grows (length name) (length name') counts name L Hin eq_refl). lia. }
    rewrite bump_keys in *. exists a, counts'. split; [exact E1|]. split; [exact H1|]. split; [exact H2|]. split; [tauto|]. intros _.
    destruct (in_dec (list_eq_dec N.eq_dec) name' (map fst counts)) as [Hi|Hi].
    + destruct (H4 Hi) as (c & s & ->). unfold name'. exists 95%N, (to_string n ++ c :: s). rewrite <- !app_assoc. reflexivity.
    + rewrite (H3 Hi). unfold name'. exists 95%N, (to_string n). reflexivity.
Qed.

Lemma filter_all {A} (f : A -> bool) l : length (filter f l) <= length l.
Proof. induction l as [|x l IH]; cbn; [lia|]. destruct (f x); cbn; lia. Qed.

Lemma longer_all n m : longer n m <= length m.
Proof. apply filter_all. Qed.

Fixpoint dedupe_all (ns : list str) (counts : list (str * nat)) : res (list str) :=
  match ns with
  | [] => Ok []
  | n :: ns' =>
      let* d := dedupe_loop (length counts) n counts in
      let* r := dedupe_all ns' (snd d) in
      Ok (fst d :: r)
  end.

Lemma dedupe_all_spec ns : forall counts, NoDup (map fst counts) -> exists outs, dedupe_all ns counts = Ok outs /\
  length outs = length ns /\ NoDup (rev outs ++ map fst counts) /\
  forall k n a, nth_error ns k = Some n -> nth_error outs k = Some a ->
    let before := rev (firstn k outs) ++ map fst counts in
    (~ In n before -> a = n) /\ (In n before -> exists c suffix, a = n ++ c :: suffix).
Proof.
  induction ns as [|n ns IH]; intros counts Hn; cbn [dedupe_all].
  - exists []. split; [reflexivity|]. split; [reflexivity|]. split; [exact Hn|]. intros [|k] m a X; discriminate.
  - destruct (dedupe_loop_spec (length counts) n counts (longer_all _ _)) as (a & counts' & E & H1 & H2 & H3 & H4).
    rewrite E. cbn [bind fst snd]. destruct (IH counts') as (outs & E1 & L & Hnd & Hk).
    { rewrite H2. constructor; assumption. }
    rewrite E1. cbn [bind]. exists (a :: outs). split; [reflexivity|]. split; [cbn; lia|]. split.
    + cbn [rev]. rewrite <- app_assoc. cbn [app]. rewrite <- H2. exact Hnd.
    + intros [|k] m b Hm Hb; cbn in Hm, Hb.
      * injection Hm as <-. injection Hb as <-. cbn. auto.
      * cbn [firstn rev]. rewrite <- app_assoc. cbn [app]. rewrite <- H2. exact (Hk k m b Hm Hb).
Qed.

Lemma dedupe_renamed ns : exists outs, dedupe_all ns [] = Ok outs /\ renamed ns outs.
Proof.
  destruct (dedupe_all_spec ns [] (NoDup_nil _)) as (outs & E & L & Hn & Hk). exists outs. split; [exact E|].
  cbn in Hn. rewrite app_nil_r in Hn. split; [exact L|]. split.
  - apply NoDup_rev in Hn. rewrite rev_involutive in Hn. exact Hn.
  - intros k n a H1 H2. specialize (Hk k n a H1 H2). cbn in Hk. rewrite app_nil_r in Hk. rewrite <- in_rev in Hk. exact Hk.
Qed.

(* Copies of one name. *)
Lemma copy_name_inj x i j : copy_name x i = copy_name x j -> i = j.
Proof.
  assert (N : forall i, x <> x ++ [95%N] ++ to_string (S i)).
  { intros m E. apply (f_equal (@length _)) in E. rewrite app_length in E. cbn in E. lia. }
  destruct i as [|i], j as [|j]; cbn [copy_name]; intro H; auto.
  - exfalso. exact (N _ H).
  - exfalso. exact (N _ (eq_sym H)).
  - apply app_inv_head in H. apply app_inv_head in H. apply to_string_inj, H.
Qed.

Lemma lookup_bump x m n : lookup str_eqb x m = Some n -> lookup str_eqb x (bump x m) = Some (S n).
Proof.
  induction m as [|[k c] m IH]; cbn; [discriminate|]. destruct (str_eqb x k) eqn:E; cbn; rewrite E; [|exact IH].
  intro H. injection H as ->. reflexivity.
Qed.

Lemma dedupe_copies x c : forall m counts, 0 < m -> lookup str_eqb x counts = Some m ->
  (forall k, In k (map fst counts) <-> exists i, i < m /\ k = copy_name x i) ->
  dedupe_all (repeat x c) counts = Ok (map (copy_name x) (seq m c)).
Proof.
  induction c as [|c IH]; intros m counts Hm Hl Hk; [reflexivity|].
  cbn [repeat dedupe_all seq map].
  destruct (length counts) as [|len] eqn:El.
  { destruct counts; [|discriminate]. discriminate. }
  cbn [dedupe_loop]. rewrite Hl.
  assert (Hc : x ++ [95%N] ++ to_string m = copy_name x m) by (destruct m; [lia|reflexivity]).
  rewrite Hc.
  assert (Hnew : lookup str_eqb (copy_name x m) (bump x counts) = None).
  { apply (lookup_none str_eqb str_eqb_iff). rewrite bump_keys. intro X. apply Hk in X. destruct X as (i & Hi & E).
    apply copy_name_inj in E. lia. }
  assert (Hd : dedupe_loop len (copy_name x m) (bump x counts) = Ok (copy_name x m, (copy_name x m, 1) :: bump x counts)).
  { destruct len; cbn [dedupe_loop]; rewrite Hnew; reflexivity. }
  rewrite Hd. cbn [bind fst snd]. rewrite (IH (S m)); [reflexivity|lia| |].
  - cbn [lookup]. rewrite str_eqb_neq; [apply lookup_bump, Hl|]. intro X. change x with (copy_name x 0) in X at 1. apply copy_name_inj in X. lia.
  - intro k. cbn [map fst In]. rewrite bump_keys, Hk. split.
    + intros [<-|(i & Hi & ->)]; [exists m|exists i]; split; auto; lia.
    + intros (i & Hi & ->). destruct (Nat.eq_dec i m) as [->|Hne]; [left; reflexivity|right; exists i; split; [lia|reflexivity]].
Qed.

Lemma dedupe_copies0 x c : dedupe_all (repeat x c) [] = Ok (map (copy_name x) (seq 0 c)).
Proof.
  destruct c as [|c]; [reflexivity|]. cbn [repeat dedupe_all length dedupe_loop lookup bind fst snd].
  rewrite (dedupe_copies x c 1); [reflexivity|lia|cbn; rewrite str_eqb_refl; reflexivity|].
  intro k. cbn. split.
  - intros [<-|[]]. exists 0. auto.
  - intros (i & Hi & ->). left. assert (i = 0) by lia. subst. reflexivity.
Qed.

Section Schema.
  Context (F : Type) (atof atod : list byte -> option F) (is_inf : F -> bool) (qnan : F) (p : csv_params).
  Notation infer_schema := (Model_csv.infer_schema F atod is_inf qnan p).
  Notation init_loop := (Model_csv.init_loop p).

  (* ---------- tokens ---------- *)
  Lemma tok_run_all fuel : forall t,
    match tok_all (p_delim p) (p_quote p) (p_maxlen p) fuel t with
    | Ok fs => tok_run p fuel t = (map fst fs, Ok tt)
    | Throw e => snd (tok_run p fuel t) = Throw e
    | UB => snd (tok_run p fuel t) = UB
    | Fuel => snd (tok_run p fuel t) = Fuel
    end.
  Proof.
    induction fuel as [|fuel IH]; intro t; [reflexivity|]. cbn [tok_all tok_run].
    destruct (tok_next (p_delim p) (p_quote p) (p_maxlen p) t) as [[[|] t']|e| |]; cbn [bind]; try reflexivity.
    specialize (IH t'). destruct (tok_all (p_delim p) (p_quote p) (p_maxlen p) fuel t') as [fs|e| |]; cbn [bind];
      destruct (tok_run p fuel t') as [l o]; cbn in *; try congruence.
  Qed.

  Lemma tok_run_closed text fs : fields_of p text fs -> tok_run p (length text + 2) (tok_new text) = (map fst fs, Ok tt).
  Proof.
    intro H. apply fields_tokenize in H. pose proof (tok_run_all (length text + 2) (tok_new text)) as R.
    unfold tokenize in H. rewrite H in R. exact R.
  Qed.

  Lemma tok_run_unclosed text : Unclosed (p_delim p) (p_quote p) text ->
    snd (tok_run p (length text + 2) (tok_new text)) = Throw Corrupt_record.
  Proof.
    intro H. apply tokenize_unclosed_limit in H. pose proof (tok_run_all (length text + 2) (tok_new text)) as R.
    unfold tokenize in H. rewrite H in R. exact R.
  Qed.

  Lemma closed_or_unclosed text : closed p text \/ Unclosed (p_delim p) (p_quote p) text.
  Proof.
    destruct (tokenize_cases (p_delim p) (p_quote p) text) as [(vs & _ & _ & R)|[_ U]]; [left|right; exact U].
    exists (map (limit (p_maxlen p)) vs), vs. auto.
  Qed.

  (* ---------- the loop over the columns ---------- *)
  Lemma should_skip_iff j n : should_skip p j n = false <-> selected p j n.
  Proof.
    unfold should_skip, selected.
    assert (A : (match p_use_index p with [] => false | l => negb (existsb (Nat.eqb j) l) end) = false <->
                (p_use_index p = [] \/ In j (p_use_index p))).
    { destruct (p_use_index p) as [|x l]; [tauto|]. rewrite negb_false_iff, existsb_exists. split.
      - intros (y & Hy & E). apply Nat.eqb_eq in E as ->. auto.
      - intros [X|X]; [discriminate|]. exists j. split; [exact X|apply Nat.eqb_refl]. }
    assert (B : (match p_use_names p with [] => false | l => negb (existsb (str_eqb n) l) end) = false <->
                (p_use_names p = [] \/ In n (p_use_names p))).
    { destruct (p_use_names p) as [|x l]; [tauto|]. rewrite negb_false_iff, existsb_exists. split.
      - intros (y & Hy & E). apply str_eqb_iff in E as ->. auto.
      - intros [X|X]; [discriminate|]. exists n. split; [exact X|apply str_eqb_refl]. }
    rewrite orb_false_iff, A, B. reflexivity.
  Qed.

  Fixpoint skips (i : nat) (names : list str) : list bool :=
    match names with
    | [] => []
    | n :: r => should_skip p i n :: skips (S i) r
    end.
  Lemma skips_length names : forall i, length (skips i names) = length names.
  Proof. induction names; intro i; cbn; auto. Qed.
  Lemma skips_nth names : forall i m n, nth_error names m = Some n -> nth_error (skips i names) m = Some (should_skip p (i + m) n).
  Proof.
    induction names as [|x names IH]; intros i [|m] n H; cbn in *; try discriminate.
    - injection H as ->. rewrite Nat.add_0_r. reflexivity.
    - rewrite (IH (S i) m n H). f_equal. f_equal. lia.
  Qed.

  Lemma init_loop_plain names : p_dedupe p = false -> forall i types counts, length names = length types ->
    init_loop i names types counts = Ok (skips i names, pick (skips i names) (combine names types)).
  Proof.
    intro Hd. induction names as [|n names IH]; intros i [|t types] counts H; cbn in H; try lia; [reflexivity|].
    cbn [Model_csv.init_loop skips pick combine]. rewrite Hd. rewrite !IH by lia. destruct (should_skip p i n); reflexivity.
  Qed.

  Lemma init_loop_dedupe names : p_dedupe p = true -> forall i types counts, length names = length types ->
    init_loop i names types counts =
    let* outs := dedupe_all (pick (skips i names) names) counts in
    Ok (skips i names, combine outs (pick (skips i names) types)).
  Proof.
    intro Hd. induction names as [|n names IH]; intros i [|t types] counts H; cbn in H; try lia; [reflexivity|].
    cbn [Model_csv.init_loop skips pick]. rewrite Hd. destruct (should_skip p i n).
    - rewrite IH by lia. destruct (dedupe_all (pick (skips (S i) names) names) counts); reflexivity.
    - cbn [dedupe_all]. destruct (dedupe_loop (length counts) n counts) as [[a c']| | |]; cbn [bind fst snd]; try reflexivity.
      rewrite IH by lia. destruct (dedupe_all (pick (skips (S i) names) names) c'); reflexivity.
  Qed.

  Lemma init_loop_ok names types : length names = length types -> exists attrs,
    init_loop 0 names types [] = Ok (skips 0 names, attrs) /\
    map snd attrs = pick (skips 0 names) types /\
    (p_dedupe p = false -> map fst attrs = pick (skips 0 names) names) /\
    (p_dedupe p = true -> dedupe_all (pick (skips 0 names) names) [] = Ok (map fst attrs)).
  Proof.
    intro L.
    assert (Pc : forall ign, length ign = length names ->
      map snd (pick ign (combine names types)) = pick ign types /\ map fst (pick ign (combine names types)) = pick ign names).
    { intros ign. revert names types L. induction ign as [|b ign IH]; intros [|n names] [|t types] L Li; cbn in *; try lia; auto.
      destruct (IH names types ltac:(lia) ltac:(lia)) as [E1 E2]. destruct b; cbn; split; congruence. }
    assert (Lp : forall ign {A} (xs : list A), length ign = length xs -> length (pick ign xs) = length (posn 0 ign)).
    { intros ign A xs H. apply pick_length, H. }
    destruct (p_dedupe p) eqn:Hd.
    - destruct (dedupe_renamed (pick (skips 0 names) names)) as (outs & E & (Lo & _)).
      exists (combine outs (pick (skips 0 names) types)). rewrite (init_loop_dedupe _ Hd) by exact L. rewrite E. cbn [bind].
      split; [reflexivity|].
      assert (Leq : length outs = length (pick (skips 0 names) types)).
      { rewrite Lo, !Lp by (rewrite skips_length; congruence). reflexivity. }
      clear -Leq E. generalize dependent (pick (skips 0 names) types). intros ts Leq.
      assert (M : map snd (combine outs ts) = ts /\ map fst (combine outs ts) = outs).
      { clear E. revert ts Leq. induction outs as [|o outs IH]; intros [|t ts] H; cbn in *; try lia; auto.
        destruct (IH ts ltac:(lia)). split; congruence. }
      destruct M as [M1 M2]. rewrite M1, M2. split; [reflexivity|]. split; [discriminate|]. intros _. reflexivity.
    - exists (pick (skips 0 names) (combine names types)). rewrite (init_loop_plain _ Hd) by exact L. split; [reflexivity|].
      destruct (Pc (skips 0 names) (skips_length _ _)) as [E1 E2]. split; [exact E1|]. split; [auto|discriminate].
  Qed.

  Lemma has_duplicates_iff l : has_duplicates l = false <-> NoDup l.
  Proof.
    induction l as [|x l IH]; cbn; [split; [constructor|reflexivity]|].
    rewrite orb_false_iff, IH. split.
    - intros [A B]. constructor; [|exact B]. intro X.
      assert (E : existsb (str_eqb x) l = true) by (apply existsb_exists; exists x; split; [exact X|apply str_eqb_refl]). congruence.
    - intro H. apply NoDup_cons_iff in H. split; [|apply H]. destruct (existsb (str_eqb x) l) eqn:E; [|reflexivity].
      apply existsb_exists in E. destruct E as (y & Hy & E). apply str_eqb_iff in E as ->. exfalso. apply (proj1 H), Hy.
  Qed.

  (* ---------- overrides ---------- *)
  Lemma seq_nth_error n : forall i j, j < n -> nth_error (seq i n) j = Some (i + j).
  Proof.
    induction n as [|n IH]; intros i j H; [lia|]. destruct j as [|j]; cbn; [f_equal; lia|]. rewrite IH by lia. f_equal. lia.
  Qed.
  Lemma seq_firstn_not j n i : ~ In (i + j) (firstn j (seq i n)).
  Proof.
    revert i j. induction n as [|n IH]; intros i [|j]; cbn; try tauto. intros [X|X]; [lia|].
    replace (i + S j) with (S i + j) in X by lia. exact (IH _ _ X).
  Qed.

  Lemma overrides_spec names types types' o : overrides_are_maps p -> length names = length types ->
    apply_overrides p names types = (types', o) ->
    (o = Ok tt /\ overrides_addressed p names /\ length types' = length types /\
       forall j n t, nth_error names j = Some n -> nth_error types j = Some t ->
         exists d, nth_error types' j = Some d /\ column_type p names j n t d) \/
    (o = Throw Invalid_argument /\ ~ overrides_addressed p names).
  Proof.
    intros [N1 N2] L. unfold apply_overrides.
    destruct (override_pass Nat.eqb (seq 0 (length names)) types (p_types_index p)) as [t1 l1] eqn:E1.
    destruct (override_pass_spec Nat.eqb Nat.eqb_eq (seq 0 (length names)) types _ _ _ N1 ltac:(rewrite seq_length; exact L) E1) as (L1 & M1 & S1).
    destruct l1 as [|x l1].
    - destruct (override_pass str_eqb names t1 (p_types p)) as [t2 l2] eqn:E2.
      destruct (override_pass_spec str_eqb str_eqb_iff names t1 _ _ _ N2 ltac:(lia) E2) as (L2 & M2 & S2).
      intro H. injection H as <- <-. destruct l2 as [|x l2].
      + left. split; [reflexivity|]. split.
        { split.
          - intros j Hj. apply in_map_iff in Hj. destruct Hj as (x & <- & Hx).
            destruct (Nat.lt_ge_cases (fst x) (length names)) as [X|X]; [exact X|]. exfalso.
            apply (proj2 (M1 x)). split; [exact Hx|]. rewrite in_seq. lia.
          - intros n Hn. apply in_map_iff in Hn. destruct Hn as (x & <- & Hx).
            destruct (in_dec (list_eq_dec N.eq_dec) (fst x) names) as [X|X]; [exact X|]. exfalso.
            apply (proj2 (M2 x)). split; [exact Hx|exact X]. }
        split; [lia|]. intros j n t Hn Ht.
        assert (Hj : j < length names) by (apply nth_error_Some; congruence).
        destruct (S1 j j t ltac:(rewrite seq_nth_error by exact Hj; reflexivity) Ht) as (d1 & Ed1 & H1).
        destruct (S2 j n d1 Hn Ed1) as (d & Ed & H2). exists d. split; [exact Ed|].
        destruct H2 as [H2|[H2 ->]]; [left; exact H2|]. right. split; [exact H2|].
        pose proof (seq_firstn_not j (length names) 0) as Hf. cbn in Hf.
        destruct H1 as [[H1 _]|[[H1|H1] ->]]; [left; exact H1|right; auto|contradiction].
      + right. split; [reflexivity|]. intros [_ A]. destruct (proj1 (M2 x) (or_introl eq_refl)) as [X Y].
        apply Y, A, in_map, X.
    - intro H. injection H as <- <-. right. split; [reflexivity|]. intros [A _].
      destruct (proj1 (M1 x) (or_introl eq_refl)) as [X Y]. apply Y. apply in_seq. specialize (A (fst x) (in_map fst _ _ X)). lia.
  Qed.

  (* ---------- the schema ---------- *)
  Lemma infer_total s : exists d, infer_data_type F atod is_inf qnan s = Ok d.
  Proof. destruct (infer_parses F (fun _ => None) atod is_inf qnan s [] 10%Z) as (d & v & H & _). exists d. exact H. Qed.

  Lemma cell_type_plain s : plain_type F atod is_inf qnan p s (cell_type F atod is_inf qnan p s).
  Proof.
    unfold plain_type, cell_type. destruct (p_default p) as [d|]; [left; reflexivity|right]. split; [reflexivity|].
    destruct (infer_total s) as (d & ->). reflexivity.
  Qed.

  Lemma set_or_validate_spec given types inst names o : set_or_validate p given types inst = (names, o) ->
    names = names_for p given (length types) /\
    ((o = Ok tt /\ length names = length types) \/
     (length names <> length types /\ o = match inst with Some _ => Throw Schema_err | None => UB end)).
  Proof.
    unfold set_or_validate, names_for. destruct given as [|g given]; intro H; injection H as <- <-; split; try reflexivity.
    - left. split; [reflexivity|]. rewrite map_length, seq_length. reflexivity.
    - change (match length types with O => false | S m' => length given =? m' end) with (length (g :: given) =? length types).
      destruct (Nat.eqb_spec (length (g :: given)) (length types)); [left; auto|right; auto].
  Qed.

  Lemma describe names types types' attrs : overrides_are_maps p -> length names = length types ->
    apply_overrides p names types = (types', Ok tt) ->
    init_loop 0 names types' [] = Ok (skips 0 names, attrs) ->
    map snd attrs = pick (skips 0 names) types' ->
    (p_dedupe p = false -> map fst attrs = pick (skips 0 names) names) ->
    describes p names (fun j t => nth_error types j = Some t) (posn 0 (skips 0 names)) attrs
      (map (fun tc => mk_col (fst tc) (snd tc)) (combine types' (skips 0 names))).
  Proof.
    intros Hm L Ho Hi Ha1 Ha2. unfold attr in *.
    destruct (overrides_spec _ _ _ _ Hm L Ho) as [(_ & A & L' & T)|[X _]]; [|discriminate].
    assert (Ls : length (skips 0 names) = length names) by apply skips_length.
    split; [exact A|]. split; [|split; [|split; [|split]]].
    - split; [apply posn_sorted|]. intro j. rewrite posn_in. split.
      + intros (m & -> & E). cbn. assert (Hj : m < length names) by (rewrite <- Ls; apply nth_error_Some; congruence).
        destruct (nth_error names m) as [n|] eqn:En; [|apply nth_error_None in En; lia].
        exists n. split; [reflexivity|]. apply should_skip_iff. rewrite (skips_nth _ _ _ _ En) in E. cbn in E. congruence.
      + intros (n & En & S). exists j. split; [reflexivity|]. rewrite (skips_nth _ _ _ _ En). apply should_skip_iff in S. cbn. congruence.
    - transitivity (length (map snd attrs)); [symmetry; apply map_length|]. rewrite Ha1. apply pick_length. lia.
    - rewrite map_length, combine_length. lia.
    - intros k j Hk.
      destruct (pick_nth (skips 0 names) 0 names k j Ls Hk) as (m & n & -> & En & Ep & Es). cbn [plus] in *.
      destruct (pick_nth (skips 0 names) 0 types' k m ltac:(lia) Hk) as (m' & d & Em & Ed & Epd & _). cbn in Em. subst m'.
      assert (Ht : exists t, nth_error types m = Some t).
      { destruct (nth_error types m) as [t|] eqn:E; [eauto|]. apply nth_error_None in E.
        assert (m < length names) by (apply nth_error_Some; congruence). lia. }
      destruct Ht as (t & Et). destruct (T m n t En Et) as (d' & Ed' & Hct). assert (d' = d) by congruence. subst d'.
      assert (Hattr : exists a, nth_error attrs k = Some (a, d)).
      { rewrite <- Ha1, nth_error_map in Epd. destruct (nth_error attrs k) as [[a d']|]; [|discriminate]. cbn in Epd. injection Epd as ->. eauto. }
      destruct Hattr as (a & Ea). exists n, a, t, d. split; [exact En|]. split; [exact Ea|]. split; [|split; [exact Et|split; [exact Hct|]]].
      + intro Hd. specialize (Ha2 Hd). rewrite <- Ha2, nth_error_map, Ea in Ep. cbn in Ep. congruence.
      + rewrite nth_error_map. assert (E : nth_error (combine types' (skips 0 names)) m = Some (d, false)).
        { revert Ed Es. generalize (skips 0 names) types'. clear. intros b l. revert b m. induction l as [|x l IH]; intros [|y b] [|m] H1 H2; cbn in *; try discriminate; [congruence|auto]. }
        rewrite E. reflexivity.
    - intros j Hj Hnot. rewrite nth_error_map.
      assert (Hs : nth_error (skips 0 names) j = Some true).
      { destruct (nth_error (skips 0 names) j) as [[|]|] eqn:E; [reflexivity| |apply nth_error_None in E; lia].
        exfalso. apply Hnot. apply posn_in. exists j. auto. }
      destruct (nth_error types' j) as [d|] eqn:Ed; [|apply nth_error_None in Ed; lia].
      exists d. assert (E : nth_error (combine types' (skips 0 names)) j = Some (d, true)).
      { revert Ed Hs. generalize (skips 0 names) types'. clear. intros b l. revert b j. induction l as [|x l IH]; intros [|y b] [|m] H1 H2; cbn in *; try discriminate; [congruence|auto]. }
      rewrite E. reflexivity.
  Qed.

  Definition plain_some (fs : list (list byte * bool)) (j : nat) (t : dtype) : Prop :=
    exists f, nth_error fs j = Some f /\ plain_type F atod is_inf qnan p (fst f) t.
  Definition plain_none (j : nat) (t : dtype) : Prop :=
    t = match p_default p with Some d => d | None => D_string end.

  (* Everything after the plain types are known. *)
  Definition finish (names : list str) (types : list dtype) (srh : bool) (r' : reader) (o : res (option (list attr))) : Prop :=
    (~ overrides_addressed p names /\ o = Throw Invalid_argument) \/
    (exists attrs l, r_names r' = names /\ describes p names (fun j t => nth_error types j = Some t) l attrs (columns_of r') /\
       (exists used, at_positions names l used /\ (p_dedupe p = true -> renamed used (map fst attrs)) /\
          (p_dedupe p = false -> map fst attrs = used)) /\
       ((NoDup (map fst attrs) /\ o = Ok (Some attrs)) \/ (~ NoDup (map fst attrs) /\ o = Throw Schema_err))).

  Lemma pick_positions (names : list str) : forall ign i, length ign = length names ->
    Forall2 (fun j y => exists m, j = i + m /\ nth_error names m = Some y) (posn i ign) (pick ign names).
  Proof.
    induction names as [|n names IH]; intros [|b ign] i H; cbn in *; try lia; [constructor|].
    assert (G : Forall2 (fun j y => exists m, j = i + m /\ nth_error (n :: names) m = Some y) (posn (S i) ign) (pick ign names)).
    { specialize (IH ign (S i) ltac:(lia)). clear -IH. induction IH as [|j y l l' (m & -> & E) H2 IH']; [constructor|]. constructor; [|exact IH'].
      exists (S m). split; [lia|exact E]. }
    destruct b; [exact G|]. constructor; [|exact G]. exists 0. split; [lia|reflexivity].
  Qed.

  Lemma finish_spec names types : overrides_are_maps p -> length names = length types ->
    forall ign srh r' o,
    (let (types', o3) := apply_overrides p names types in
     let r3 := mk_reader names types' [] srh in
     match o3 with
     | Throw e => (r3, Throw e) | UB => (r3, UB) | Fuel => (r3, Fuel)
     | Ok _ =>
         match init_loop 0 names types' [] with
         | Throw e => (r3, Throw e) | UB => (r3, UB) | Fuel => (r3, Fuel)
         | Ok (ign, attrs) =>
             (mk_reader names types' ([] ++ ign) srh,
              if has_duplicates (map fst attrs) then Throw Schema_err else Ok (Some attrs))
         end
     end) = (r', o) -> ign = skips 0 names ->
    finish names types srh r' o.
  Proof.
    intros Hm L ign srh r' o H ->.
    destruct (apply_overrides p names types) as [types' o3] eqn:E3.
    destruct (overrides_spec _ _ _ _ Hm L E3) as [(-> & A & L' & T)|[-> X]].
    - destruct (init_loop_ok names types' ltac:(lia)) as (attrs & Ei & Ha1 & Ha2 & Ha3). cbn zeta in H. rewrite Ei in H.
      cbn [app] in H. injection H as <- <-. right. exists attrs, (posn 0 (skips 0 names)). split; [reflexivity|].
      split; [exact (describe _ _ _ _ Hm L E3 Ei Ha1 Ha2)|]. split.
      + exists (pick (skips 0 names) names). split; [|split; [|exact Ha2]].
        * unfold at_positions. pose proof (pick_positions names (skips 0 names) 0 (skips_length _ _)) as Q.
          clear -Q. induction Q as [|j y l l' (m & -> & E) Q IH]; [constructor|]. constructor; [exact E|exact IH].
        * intro Hd. destruct (dedupe_renamed (pick (skips 0 names) names)) as (outs & Eo & R). rewrite (Ha3 Hd) in Eo. injection Eo as ->. exact R.
      + destruct (has_duplicates (map fst attrs)) eqn:E.
        * right. split; [|reflexivity]. intro N. apply has_duplicates_iff in N. congruence.
        * left. split; [apply has_duplicates_iff, E|reflexivity].
    - injection H as <- <-. left. auto.
  Qed.

  Lemma infer_some r text fs r' o : overrides_are_maps p -> fresh r -> fields_of p text fs ->
    infer_schema r (Some text) = (r', o) ->
    let names := names_for p (r_names r) (length fs) in
    (length names <> length fs /\ o = Throw Schema_err) \/
    (length names = length fs /\ finish names (map (cell_type F atod is_inf qnan p) (map fst fs)) (r_should_read_header r) r' o).
  Proof.
    intros Hm [F1 F2] Hf H names. unfold Model_csv.infer_schema in H.
    assert (E : (let (ts, o1) := infer_column_types F atod is_inf qnan p r (Some text) in (ts, o1)) = (map (cell_type F atod is_inf qnan p) (map fst fs), Ok tt)).
    { cbn [infer_column_types]. rewrite (tok_run_closed _ _ Hf). reflexivity. }
    destruct (infer_column_types F atod is_inf qnan p r (Some text)) as [ts o1]. injection E as -> ->.
    rewrite F1, F2 in H. cbn [app] in H.
    destruct (set_or_validate p (r_names r) (map (cell_type F atod is_inf qnan p) (map fst fs)) (Some text)) as [nms o2] eqn:E2.
    destruct (set_or_validate_spec _ _ _ _ _ E2) as (En & Hc). rewrite !map_length in En, Hc. subst nms. fold names in Hc, H.
    destruct Hc as [[-> L]|[L ->]].
    - right. split; [exact L|]. eapply finish_spec; [exact Hm|rewrite !map_length; exact L|exact H|reflexivity].
    - left. split; [exact L|]. injection H as _ <-. reflexivity.
  Qed.

  Lemma infer_none r r' o : overrides_are_maps p -> fresh r -> infer_schema r None = (r', o) ->
    (r_names r = [] /\ r' = r /\ o = Ok None) \/
    (r_names r <> [] /\ finish (r_names r) (map (fun _ => default_type p) (r_names r)) (r_should_read_header r) r' o).
  Proof.
    intros Hm [F1 F2] H. unfold Model_csv.infer_schema in H.
    destruct (r_names r) as [|n names] eqn:En; [left; injection H as <- <-; auto|right; split; [discriminate|]].
    cbn [infer_column_types] in H. rewrite En in H. rewrite F1, F2 in H. cbn [app] in H.
    destruct (set_or_validate p (n :: names) (map (fun _ => default_type p) (n :: names)) None) as [nms o2] eqn:E2.
    destruct (set_or_validate_spec _ _ _ _ _ E2) as (En2 & Hc). cbn [names_for] in En2. subst nms. rewrite map_length in Hc.
    destruct Hc as [[-> L]|[L _]]; [|contradiction].
    eapply finish_spec; [exact Hm|rewrite map_length; reflexivity|exact H|reflexivity].
  Qed.

  Lemma describes_impl names (P Q : nat -> dtype -> Prop) l attrs cols : (forall j t, P j t -> Q j t) ->
    describes p names P l attrs cols -> describes p names Q l attrs cols.
  Proof.
    intros PQ (A & S & L & L' & D & I). split; [exact A|]. split; [exact S|]. split; [exact L|]. split; [exact L'|]. split; [|exact I].
    intros k j Hk. destruct (D k j Hk) as (n & a & t & d & H1 & H2 & H3 & H4 & H5 & H6).
    exists n, a, t, d. repeat (split; [first [assumption|apply PQ; assumption]|]). exact H6.
  Qed.

  Lemma plain_fields fs j t : nth_error (map (cell_type F atod is_inf qnan p) (map fst fs)) j = Some t -> plain_some fs j t.
  Proof.
    rewrite map_map, nth_error_map. destruct (nth_error fs j) as [f|] eqn:E; [|discriminate]. cbn. intro H. injection H as <-.
    exists f. split; [exact E|apply cell_type_plain].
  Qed.

  (* A successful first inference describes the columns. *)
  Lemma success_some r text r' attrs : overrides_are_maps p -> fresh r ->
    infer_schema r (Some text) = (r', Ok (Some attrs)) ->
    exists fs l used, fields_of p text fs /\
      r_names r' = names_for p (r_names r) (length fs) /\ length (r_names r') = length fs /\
      describes p (r_names r') (plain_some fs) l attrs (columns_of r') /\
      at_positions (r_names r') l used /\ NoDup (map fst attrs) /\
      (p_dedupe p = true -> renamed used (map fst attrs)) /\ (p_dedupe p = false -> map fst attrs = used).
  Proof.
    intros Hm Hf H. destruct (closed_or_unclosed text) as [(fs & Hfs)|U].
    - destruct (infer_some _ _ _ _ _ Hm Hf Hfs H) as [[_ X]|[L [[_ X]|(at' & l & En & D & (used & U1 & U2 & U3) & [[N E]|[_ X]])]]]; try discriminate.
      injection E as <-. exists fs, l, used. split; [exact Hfs|]. rewrite En. split; [reflexivity|]. split; [exact L|].
      split; [eapply describes_impl; [|exact D]; apply plain_fields|]. auto.
    - exfalso. unfold Model_csv.infer_schema in H. cbn [infer_column_types] in H. pose proof (tok_run_unclosed _ U) as E.
      destruct (tok_run p (length text + 2) (tok_new text)) as [fs o]. cbn in E. subst o. discriminate.
  Qed.

  Lemma success_none r r' attrs : overrides_are_maps p -> fresh r ->
    infer_schema r None = (r', Ok (Some attrs)) ->
    exists l used, r_names r' = r_names r /\ r_names r <> [] /\
      describes p (r_names r') plain_none l attrs (columns_of r') /\
      at_positions (r_names r') l used /\ NoDup (map fst attrs) /\
      (p_dedupe p = true -> renamed used (map fst attrs)) /\ (p_dedupe p = false -> map fst attrs = used).
  Proof.
    intros Hm Hf H. destruct (infer_none _ _ _ Hm Hf H) as [(_ & _ & X)|(Hne & [[_ X]|(at' & l & En & D & (used & U1 & U2 & U3) & [[N E]|[_ X]])])]; try discriminate.
    injection E as <-. exists l, used. rewrite En. split; [reflexivity|]. split; [exact Hne|]. split; [|auto].
    eapply describes_impl; [|exact D]. intros j t Hj. cbn beta in Hj. unfold plain_none. rewrite nth_error_map in Hj. destruct (nth_error (r_names r) j); [|discriminate].
    cbn in Hj. injection Hj as <-. reflexivity.
  Qed.

  (* An unclosed quote is an error, also on a retry. *)
  Lemma unclosed_fails r text : Unclosed (p_delim p) (p_quote p) text -> snd (infer_schema r (Some text)) = Throw Schema_err.
  Proof.
    intro U. unfold Model_csv.infer_schema. cbn [infer_column_types]. pose proof (tok_run_unclosed _ U) as E.
    destruct (tok_run p (length text + 2) (tok_new text)) as [fs o]. cbn in E. subst o. reflexivity.
  Qed.

  (* When the inference succeeds. *)
  Lemma succeeds r text fs : overrides_are_maps p -> fresh r -> fields_of p text fs ->
    let names := names_for p (r_names r) (length fs) in
    length names = length fs -> overrides_addressed p names ->
    (p_dedupe p = true \/ NoDup names) ->
    exists r' attrs, infer_schema r (Some text) = (r', Ok (Some attrs)).
  Proof.
    intros Hm Hf Hfs names L A Hd. subst names. destruct (infer_schema r (Some text)) as [r' o] eqn:E.
    destruct (infer_some _ _ _ _ _ Hm Hf Hfs E) as [[X _]|[_ [[X _]|(attrs & l & En & D & (used & U1 & U2 & U3) & [[N ->]|[X _]])]]];
      try contradiction; [eauto|].
    exfalso. apply X. destruct Hd as [Hd|Hd]; [apply (U2 Hd)|].
    destruct (p_dedupe p); [apply U2; reflexivity|]. rewrite U3 by reflexivity.
    destruct D as (_ & [So _] & _). revert U1 So Hd. clear. unfold at_positions. intros U So Hd.
    induction U as [|j y l used H U IH]; [constructor|]. inversion So as [|? ? So' Hlt]; subst. constructor; [|exact (IH So')].
    intro Hy. clear IH So So'. induction U as [|j' y' l used H' U IH]; [contradiction|].
    pose proof (Forall_inv Hlt) as Hj. destruct Hy as [->|Hy]; [|exact (IH (Forall_inv_tail Hlt) Hy)].
    rewrite NoDup_nth_error in Hd. assert (j = j'); [|lia]. apply Hd; [apply nth_error_Some; congruence|congruence].
  Qed.

  Lemma errors_of_mismatch r text fs : overrides_are_maps p -> fresh r -> fields_of p text fs ->
    let names := names_for p (r_names r) (length fs) in
    (length names <> length fs -> snd (infer_schema r (Some text)) = Throw Schema_err) /\
    (length names = length fs -> ~ overrides_addressed p names -> snd (infer_schema r (Some text)) = Throw Invalid_argument).
  Proof.
    intros Hm Hf Hfs names. subst names. destruct (infer_schema r (Some text)) as [r' o] eqn:E.
    destruct (infer_some _ _ _ _ _ Hm Hf Hfs E) as [[X ->]|[L [[X ->]|(attrs & l & En & D & _)]]]; cbn [snd].
    - split; [reflexivity|]. contradiction.
    - split; [contradiction|reflexivity].
    - split; [contradiction|]. intros _ N. exfalso. apply N. apply D.
  Qed.

  (* ---------- decoding with the schema ---------- *)
  Lemma good_positions cols fs vs : Good F atof atod is_inf qnan p cols fs vs -> forall i,
    length fs = length cols /\ length vs = length (posn i (map c_ignore cols)) /\
    forall k j, nth_error (posn i (map c_ignore cols)) k = Some j ->
      exists m f v c, j = i + m /\ nth_error fs m = Some f /\ nth_error vs k = Some v /\ nth_error cols m = Some c /\
        parse_cell F atof atod is_inf qnan (c_type c) (p_nans p) (p_base p) (fst f) = Ok (P_ok v).
  Proof.
    induction 1 as [|c cols f fs vs Hi Hg IH|c cols f fs v vs Hi Ht Hp Hg IH]; intro i; cbn [map posn length].
    - split; [reflexivity|]. split; [reflexivity|]. intros [|k] j X; discriminate.
    - rewrite Hi. destruct (IH (S i)) as (L & Lv & H). split; [lia|]. split; [exact Lv|]. intros k j Hk.
      destruct (H k j Hk) as (m & g & u & c' & E & X). exists (S m), g, u, c'. split; [lia|exact X].
    - rewrite Hi. destruct (IH (S i)) as (L & Lv & H). split; [lia|]. split; [cbn; lia|]. intros [|k] j Hk; cbn in Hk.
      + injection Hk as <-. exists 0, f, v, c. cbn. repeat split; auto.
      + destruct (H k j Hk) as (m & g & u & c' & E & X). exists (S m), g, u, c'. split; [lia|exact X].
  Qed.

  Lemma described_row names P l attrs cols fs vs : describes p names P l attrs cols ->
    Good F atof atod is_inf qnan p cols fs vs ->
    length fs = length names /\ length vs = length attrs /\
    forall k j a d, nth_error l k = Some j -> nth_error attrs k = Some (a, d) ->
      exists f v, nth_error fs j = Some f /\ nth_error vs k = Some v /\
        parse_cell F atof atod is_inf qnan d (p_nans p) (p_base p) (fst f) = Ok (P_ok v).
  Proof.
    intros (A & [So Sm] & L & L' & D & I) G. destruct (good_positions _ _ _ G 0) as (Lf & Lv & H).
    assert (El : l = posn 0 (map c_ignore cols)).
    { apply sorted_unique; [exact So|apply posn_sorted|]. intro j. rewrite posn_in. split.
      - intro Hj. exists j. split; [reflexivity|]. apply In_nth_error in Hj. destruct Hj as (k & Hk).
        destruct (D k j Hk) as (n & a & t & d & _ & _ & _ & _ & _ & E). rewrite nth_error_map, E. reflexivity.
      - intros (m & -> & E). cbn [plus]. destruct (in_dec Nat.eq_dec m l) as [X|X]; [exact X|].
        rewrite nth_error_map in E. destruct (nth_error cols m) as [c|] eqn:Ec; [|discriminate].
        assert (m < length names) by (rewrite <- L'; apply nth_error_Some; congruence).
        destruct (I m H0 X) as (d & Ed). rewrite Ed in Ec. injection Ec as <-. discriminate. }
    split; [lia|]. split; [rewrite L, El; exact Lv|]. intros k j a d Hk Ha.
    pose proof Hk as Hk'. rewrite El in Hk'. destruct (H k j Hk') as (m & f & v & c & -> & Hf & Hv & Hc & Hp). cbn [plus] in *.
    destruct (D k m Hk) as (n & a' & t & d' & _ & Ha' & _ & _ & _ & Ec). rewrite Ha in Ha'. injection Ha' as <- <-.
    rewrite Ec in Hc. injection Hc as <-. exists f, v. auto.
  Qed.

  (* Copies of one name. *)
  Lemma renamed_copies r text r' attrs x : overrides_are_maps p -> fresh r -> p_dedupe p = true ->
    infer_schema r (Some text) = (r', Ok (Some attrs)) ->
    (forall n, In n (r_names r') -> n = x) ->
    map fst attrs = map (copy_name x) (seq 0 (length attrs)).
  Proof.
    intros Hm [F1 F2] Hd H Hx. unfold Model_csv.infer_schema in H.
    destruct (infer_column_types F atod is_inf qnan p r (Some text)) as [ts [|e| |]]; try discriminate.
    rewrite F1, F2 in H. cbn [app] in H.
    destruct (set_or_validate p (r_names r) ts (Some text)) as [nms o2] eqn:E2.
    destruct (set_or_validate_spec _ _ _ _ _ E2) as (En & [[-> L]|[L ->]]); [|discriminate].
    destruct (apply_overrides p nms ts) as [types' o3] eqn:E3.
    destruct (overrides_spec _ _ _ _ Hm L E3) as [(-> & A & L' & T)|[-> X]]; [|discriminate].
    destruct (init_loop_ok nms types' ltac:(lia)) as (at' & Ei & Ha1 & _ & Ha3). rewrite Ei in H.
    destruct (has_duplicates (map fst at')); [discriminate|]. injection H as <- ->. cbn [r_names] in Hx.
    specialize (Ha3 Hd).
    assert (Ep : exists c, pick (skips 0 nms) nms = repeat x c).
    { generalize (skips 0 nms). clear -Hx. induction nms as [|n nms IH]; intros [|b ign]; try (exists 0; reflexivity).
      destruct (IH (fun m H => Hx m (or_intror H)) ign) as (c & E). cbn. destruct b; [eauto|].
      exists (S c). cbn. rewrite E, (Hx n (or_introl eq_refl)). reflexivity. }
    destruct Ep as (c & Ep). rewrite Ep, dedupe_copies0 in Ha3. injection Ha3 as Ha3. rewrite <- Ha3.
    f_equal. f_equal. apply (f_equal (@length _)) in Ha3. rewrite !map_length, seq_length in Ha3. exact Ha3.
  Qed.

  (* ---------- headers ---------- *)
  Notation open_store := (Model_csv.open_store p).
  Notation open_stores := (Model_csv.open_stores p).

  Lemma skip_rows_ok n : forall texts, skip_rows n (ok_rows texts) = Ok (ok_rows (skipn n texts)).
  Proof. induction n as [|n IH]; intros [|t texts]; cbn; try reflexivity. apply IH. Qed.

  Lemma skipn_cons {A} (l : list A) h : h < length l -> exists x, skipn h l = x :: skipn (S h) l.
  Proof.
    revert h. induction l as [|y l IH]; intros [|h] H; cbn in *; try lia; [eauto|].
    destruct (IH h ltac:(lia)) as (x & ->). eauto.
  Qed.

  Lemma discard_ok h texts : discard_header h (ok_rows texts) = Ok (ok_rows (skipn (S h) texts)).
  Proof.
    unfold discard_header. rewrite skip_rows_ok. cbn [bind].
    destruct (Nat.lt_ge_cases h (length texts)) as [L|L].
    - destruct (skipn_cons texts h L) as (x & ->). reflexivity.
    - rewrite !skipn_all2 by lia. reflexivity.
  Qed.

  Lemma skipn_nth {A} (l : list A) h x : nth_error l h = Some x -> skipn h l = x :: skipn (S h) l.
  Proof. revert h. induction l as [|y l IH]; intros [|h] H; cbn in *; try discriminate; [congruence|apply IH, H]. Qed.

  Definition header_names (fs : list (list byte * bool)) : list str := map (fun f => p_prefix p ++ fst f) fs.

  Lemma fields_nonempty text fs : fields_of p text fs -> fs <> [].
  Proof.
    intros (vs & R & ->) E. apply (row_nonempty _ _ _ _ R). destruct vs; [reflexivity|discriminate].
  Qed.

  Lemma read_names_ok h (texts : list str) (header : str) fs : nth_error texts h = Some header -> fields_of p header fs ->
    read_names_from_header p h (ok_rows texts) = (header_names fs, Ok (ok_rows (skipn (S h) texts))).
  Proof.
    intros Hh Hf. unfold read_names_from_header. rewrite skip_rows_ok, (skipn_nth _ _ _ Hh).
    change (ok_rows (header :: skipn (S h) texts)) with (@Ok str header :: ok_rows (skipn (S h) texts)).
    cbn iota beta. rewrite (tok_run_closed _ _ Hf). rewrite map_map. unfold header_names.
    destruct fs as [|f fs]; [exfalso; exact (fields_nonempty _ _ Hf eq_refl)|reflexivity].
  Qed.

  (* Opening a store with a proper header. *)
  Lemma open_proper h r texts : p_header p = Some h -> proper p h texts -> exists r',
    open_store r (ok_rows texts) = (r', Ok (ok_rows (if match r_names r with [] => true | _ => r_should_read_header r || negb (p_single p) end
                                                     then skipn (S h) texts else texts))) /\
    r_names r' <> [] /\ r_should_read_header r' = false /\ (r_names r <> [] -> r_names r' = r_names r).
  Proof.
    intros Hh (header & fs & Hn & Hf). unfold Model_csv.open_store. rewrite Hh.
    destruct (r_names r) as [|n names] eqn:En.
    - rewrite (read_names_ok _ _ _ _ Hn Hf). eexists. split; [reflexivity|]. cbn. split; [|split; [reflexivity|contradiction]].
      unfold header_names. pose proof (fields_nonempty _ _ Hf). destruct fs; [contradiction|discriminate].
    - rewrite discard_ok. eexists. split; [destruct (r_should_read_header r || negb (p_single p)); reflexivity|]. cbn.
      split; [discriminate|]. split; [|reflexivity]. destruct (r_should_read_header r || negb (p_single p)); reflexivity.
  Qed.


  (* Schema inference changes the names only if there are none, and keeps the flag. *)
  Lemma infer_keeps r inst : (r_names r <> [] \/ inst = None -> r_names (fst (infer_schema r inst)) = r_names r) /\
    r_should_read_header (fst (infer_schema r inst)) = r_should_read_header r.
  Proof.
    assert (E : forall ts inst, r_names r <> [] -> exists o, set_or_validate p (r_names r) ts inst = (r_names r, o)).
    { intros ts i Hn. unfold set_or_validate. destruct (r_names r); [contradiction|]. eauto. }
    assert (G : forall i, (i <> None \/ r_names r <> []) -> let r' := fst (infer_schema r i) in
      (r_names r <> [] -> r_names r' = r_names r) /\ r_should_read_header r' = r_should_read_header r).
    { intros i Hi. unfold Model_csv.infer_schema.
      assert (C : match i, r_names r with None, [] => False | _, _ => True end).
      { destruct i; [exact I|]. destruct (r_names r); [destruct Hi as [Hi|Hi]; apply Hi; reflexivity|exact I]. }
      destruct i as [text|]; [|destruct (r_names r) as [|n nms] eqn:En; [contradiction|]];
      destruct (infer_column_types F atod is_inf qnan p r _) as [ts [|e| |]]; try (split; reflexivity).
      - destruct (set_or_validate p (r_names r) (r_types r ++ ts) (Some text)) as [names o2] eqn:E2.
        assert (Hnm : r_names r <> [] -> names = r_names r).
        { intro Hn. destruct (E (r_types r ++ ts) (Some text) Hn) as (o & Eo). congruence. }
        destruct o2; cbn; try (split; [exact Hnm|reflexivity]).
        destruct (apply_overrides p names (r_types r ++ ts)) as [t' [|e| |]]; cbn; try (split; [exact Hnm|reflexivity]).
        destruct (init_loop 0 names t' []) as [[ign attrs]|e| |]; cbn; split; auto.
      - destruct (set_or_validate p (n :: nms) (r_types r ++ ts) None) as [names o2] eqn:E2.
        assert (Hnm : n :: nms <> [] -> names = n :: nms).
        { intro Hn. destruct (E (r_types r ++ ts) None Hn) as (o & Eo). congruence. }
        destruct o2; cbn; try (split; [exact Hnm|reflexivity]).
        destruct (apply_overrides p names (r_types r ++ ts)) as [t' [|e| |]]; cbn; try (split; [exact Hnm|reflexivity]).
        destruct (init_loop 0 names t' []) as [[ign attrs]|e| |]; cbn; split; auto. }
    destruct inst as [text|].
    - destruct (G (Some text) ltac:(left; discriminate)) as [G1 G2]. split; [|exact G2]. intros [H|H]; [exact (G1 H)|discriminate].
    - destruct (r_names r) as [|n nms] eqn:En.
      + unfold Model_csv.infer_schema. rewrite En. cbn. auto.
      + destruct (G None ltac:(right; discriminate)) as [G1 G2]. split; [|exact G2]. intros _. apply G1. discriminate.
  Qed.

  Context (stores : list (list str)).
  Notation session := (Spec_csv.session F atod is_inf qnan p stores).

  Lemma without_headers_snoc l x : forall j, without_headers p j (l ++ [x]) = without_headers p j l ++ [without_header p (j + length l) x].
  Proof.
    induction l as [|y l IH]; intro j; cbn.
    - rewrite Nat.add_0_r. reflexivity.
    - rewrite IH. do 3 f_equal. f_equal. lia.
  Qed.

  Lemma firstn_snoc {A} (l : list A) j x : nth_error l j = Some x -> firstn (S j) l = firstn j l ++ [x].
  Proof. revert j. induction l as [|y l IH]; intros [|j] H; cbn in *; try discriminate; [congruence|]. f_equal. apply IH, H. Qed.

  Lemma session_inv : (forall h, p_header p = Some h -> Forall (proper p h) stores) -> forall r j out, session r j out ->
    out = map ok_rows (without_headers p 0 (firstn j stores)) /\ j <= length stores /\
    (p_header p <> None -> r_should_read_header r = (j =? 0) /\ (0 < j -> r_names r <> [])).
  Proof.
    intros Hp. induction 1 as [|r j out texts r' rows S IH Hn Ho|r j out inst S IH Hi|r j out S IH].
    - split; [reflexivity|]. split; [lia|]. intros _. split; [reflexivity|lia].
    - destruct IH as (-> & L & IH). rewrite (firstn_snoc _ _ _ Hn), without_headers_snoc, map_app. cbn [map plus].
      assert (Lj : j < length stores) by (apply nth_error_Some; congruence).
      rewrite firstn_length_le by lia.
      destruct (p_header p) as [h|] eqn:Hh.
      + destruct (IH ltac:(discriminate)) as [IH1 IH2].
        assert (Pt : proper p h texts) by (specialize (Hp h eq_refl); rewrite Forall_forall in Hp; exact (Hp _ (nth_error_In _ _ Hn))).
        destruct (open_proper h r texts Hh Pt) as (r1 & E & N1 & S1 & _). rewrite E in Ho. injection Ho as <- <-.
        split; [|split; [lia|auto]]. do 3 f_equal. unfold without_header. rewrite Hh, IH1.
        destruct (r_names r) as [|n nms]; [|destruct (Nat.eqb_spec j 0), (p_single p); reflexivity].
        destruct (Nat.eqb_spec j 0); [rewrite andb_false_r; reflexivity|]. exfalso. apply IH2; [lia|reflexivity].
      + unfold Model_csv.open_store in Ho. rewrite Hh in Ho. injection Ho as <- <-.
        split; [|split; [lia|congruence]]. do 3 f_equal. unfold without_header. rewrite Hh. reflexivity.
    - destruct IH as (-> & L & IH). split; [reflexivity|]. split; [exact L|]. intro Hh. destruct (IH Hh) as [IH1 IH2].
      destruct (infer_keeps r inst) as [K1 K2]. rewrite K2. split; [exact IH1|]. intro Hj. rewrite K1; auto.
    - split; [reflexivity|]. split; [lia|]. intros _. split; [reflexivity|lia].
  Qed.

  Lemma session_opens : (forall h, p_header p = Some h -> Forall (proper p h) stores) -> forall r j out texts, session r j out ->
    nth_error stores j = Some texts -> exists r' rows, open_store r (ok_rows texts) = (r', Ok rows).
  Proof.
    intros Hp r j out texts S Hn. destruct (p_header p) as [h|] eqn:Hh.
    - assert (Pt : proper p h texts) by (specialize (Hp h eq_refl); rewrite Forall_forall in Hp; exact (Hp _ (nth_error_In _ _ Hn))).
      destruct (open_proper h r texts Hh Pt) as (r1 & E & _). eauto.
    - unfold Model_csv.open_store. rewrite Hh. eauto.
  Qed.

  (* The names come from the header of the first store. *)
  Lemma session_names h texts rest (header : str) fs : p_header p = Some h -> p_names p = [] -> stores = texts :: rest ->
    Forall (proper p h) stores -> nth_error texts h = Some header -> fields_of p header fs ->
    forall r j out, session r j out ->
    (j = 0 /\ r_names r = []) \/ r_names r = map (fun f => p_prefix p ++ fst f) fs.
  Proof.
    intros Hh Hn Hst Hp Ht Hf.
    assert (Hne : map (fun f => p_prefix p ++ fst f) fs <> []).
    { pose proof (fields_nonempty _ _ Hf). destruct fs; [contradiction|discriminate]. }
    induction 1 as [|r j out texts' r' rows S IH Hnt Ho|r j out inst S IH Hi|r j out S IH].
    - left. split; [reflexivity|exact Hn].
    - right. destruct IH as [[-> IH]|IH].
      + rewrite Hst in Hnt. cbn in Hnt. injection Hnt as <-. unfold Model_csv.open_store in Ho.
        rewrite Hh, IH, (read_names_ok _ _ _ _ Ht Hf) in Ho. injection Ho as <- _. reflexivity.
      + assert (Pt : proper p h texts') by (rewrite Forall_forall in Hp; exact (Hp _ (nth_error_In _ _ Hnt))).
        destruct (open_proper h r texts' Hh Pt) as (r1 & E & _ & _ & K). rewrite E in Ho. injection Ho as <- _. rewrite K; [exact IH|].
        rewrite IH. exact Hne.
    - destruct (infer_keeps r inst) as [K1 _]. destruct IH as [[-> IH]|IH].
      + left. split; [reflexivity|]. rewrite K1; [exact IH|]. destruct Hi as [Hi|Hi]; [auto|lia].
      + right. rewrite K1; [exact IH|]. left. rewrite IH. exact Hne.
    - destruct IH as [[_ IH]|IH]; [left|right]; auto.
  Qed.
End Schema.
