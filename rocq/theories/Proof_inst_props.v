(* The properties of the instance readers, from the lemmas. *)
From Coq Require Import Permutation.
From Verif Require Import Common Model_rec Model_inst Spec_inst Proof_inst Proof_inst_filters Proof_inst_shuffle Proof_inst_core.

(* ---------------- peek ---------------- *)

Lemma peek_ok {A} (M : machine A) s xs ops : reads_as M s xs (Ok tt) -> Forall (fun o => o <> Reset) ops ->
  fst (run M s ops) = answers xs (Ok tt) ops.
Proof.
  intros H HF. apply yields_iff in H. destruct (run_answers M ops s xs (Ok tt) H HF) as (rest & E & Hr).
  rewrite E, (Hr eq_refl). apply app_nil_r.
Qed.

Lemma peek_err {A} (M : machine A) s xs e ops : reads_as M s xs e -> Forall (fun o => o <> Reset) ops ->
  exists rest, fst (run M s ops) = answers xs e ops ++ rest.
Proof.
  intros H HF. apply yields_iff in H. destruct (run_answers M ops s xs e H HF) as (rest & E & Hr). eauto.
Qed.

(* ---------------- shards ---------------- *)

Lemma concat_insert {B} (x : B) (f : nat -> list B) a : forall n s,
  Permutation (concat (map (fun i => if a =? i then x :: f i else f i) (seq s n)))
    ((if (s <=? a) && (a <? s + n) then [x] else []) ++ concat (map f (seq s n))).
Proof.
  induction n as [|n IH]; intros s.
  - rewrite Nat.add_0_r. destruct (Nat.leb_spec s a), (Nat.ltb_spec a s); cbn; try reflexivity; lia.
  - cbn [seq map concat]. rewrite IH. destruct (Nat.eqb_spec a s) as [->|Hn].
    + replace ((S s <=? s) && (s <? S s + n)) with false by (destruct (Nat.leb_spec (S s) s); [lia|reflexivity]).
      replace ((s <=? s) && (s <? s + S n)) with true
        by (destruct (Nat.leb_spec s s), (Nat.ltb_spec s (s + S n)); lia || reflexivity).
      reflexivity.
    + replace ((S s <=? a) && (a <? S s + n)) with ((s <=? a) && (a <? s + S n))
        by (destruct (Nat.leb_spec (S s) a), (Nat.ltb_spec a (S s + n)), (Nat.leb_spec s a), (Nat.ltb_spec a (s + S n)); lia || reflexivity).
      destruct ((s <=? a) && (a <? s + S n)); [|reflexivity]. cbn [app]. symmetry. apply Permutation_middle.
Qed.

Lemma shards_partition_pairs {A} k : 0 < k -> forall l : list (nat * A),
  Permutation (concat (map (fun i => filter (fun px => fst px mod k =? i) l) (seq 0 k))) l.
Proof.
  intro Hk. induction l as [|x l IH].
  - cbn. clear Hk. generalize 0. induction k as [|k IH]; intro s; [constructor|]. cbn. apply IH.
  - cbn [filter]. rewrite concat_insert. pose proof (Nat.mod_upper_bound (fst x) k ltac:(lia)) as Hm.
    destruct (Nat.ltb_spec (fst x mod k) (0 + k)) as [_|]; [|lia]. cbn [Nat.leb andb app]. constructor. exact IH.
Qed.

Lemma combine_snd {A} : forall (xs : list A) s, map snd (combine (seq s (length xs)) xs) = xs.
Proof. induction xs as [|x xs IH]; intro s; [reflexivity|]. cbn. f_equal. apply IH. Qed.

Lemma shards_partition {A} k (xs : list A) : 0 < k ->
  Permutation (concat (map (fun i => shard_of i k xs) (seq 0 k))) xs.
Proof.
  intro Hk. pose proof (Permutation_map snd (shards_partition_pairs k Hk (combine (seq 0 (length xs)) xs))) as HP.
  rewrite concat_map, map_map, combine_snd in HP. exact HP.
Qed.

(* ---------------- the share of the samples ---------------- *)

Lemma size_bounds p : (0 < p)%N -> (2 ^ (N.size p - 1) <= p < 2 ^ N.size p)%N.
Proof.
  intro Hp. rewrite N.size_log2 by lia. pose proof (N.log2_spec p Hp) as [H1 H2].
  replace (N.succ (N.log2 p) - 1)%N with (N.log2 p) by lia. auto.
Qed.

Lemma pow_split a b : (b <= a)%N -> (2 ^ a = 2 ^ (a - b) * 2 ^ b)%N.
Proof. intro H. rewrite <- N.pow_add_r. f_equal. lia. Qed.

Lemma pow_pos a : (0 < 2 ^ a)%N.
Proof. pose proof (N.pow_nonzero 2 a). lia. Qed.

Lemma round24_le p b k : (p <= b * 2 ^ k -> b < 2 ^ 24 -> round24 p <= b * 2 ^ k)%N.
Proof.
  intros Hp Hb. unfold round24. set (s := (N.size p - 24)%N). destruct (N.eqb_spec s 0) as [_|Hs]; [exact Hp|].
  assert (Hsz : (N.size p = s + 24)%N) by lia.
  assert (Hpos : (0 < p)%N). { destruct p; [cbn in Hsz; lia|lia]. }
  pose proof (size_bounds p Hpos) as [Hlo _]. rewrite Hsz in Hlo.
  assert (Hk : (s <= k)%N).
  { destruct (N.le_gt_cases s k) as [|Hlt]; [assumption|exfalso].
    assert (H1 : (2 ^ k <= 2 ^ (s - 1))%N) by (apply N.pow_le_mono_r; lia).
    replace (s + 24 - 1)%N with (24 + (s - 1))%N in Hlo by lia. rewrite N.pow_add_r in Hlo.
    pose proof (pow_pos (s - 1)). pose proof (pow_pos k). nia. }
  rewrite (pow_split k s Hk), N.mul_assoc in *. set (c := (b * 2 ^ (k - s))%N) in *.
  pose proof (pow_pos s) as Hs2. pose proof (N.div_mod p (2 ^ s) ltac:(lia)) as Hdm.
  pose proof (N.mod_upper_bound p (2 ^ s) ltac:(lia)) as Hr.
  set (q := (p / 2 ^ s)%N) in *. set (r := (p mod 2 ^ s)%N) in *.
  apply N.mul_le_mono_r. pose proof (pow_pos (s - 1)) as Hh.
  assert (Hqc : (q <= c)%N) by nia.
  destruct (N.ltb_spec (2 ^ (s - 1)) r) as [Hlt|Hge]; cbn [orb].
  - assert (q <> c) by nia. lia.
  - destruct (N.eqb_spec (2 ^ (s - 1)) r) as [He|Hne]; cbn [andb]; [|lia].
    assert (q <> c) by nia. destruct (N.odd q); lia.
Qed.

Lemma round24_ge p b k : (b * 2 ^ k <= p -> b < 2 ^ 24 -> b * 2 ^ k <= round24 p)%N.
Proof.
  intros Hp Hb. unfold round24. set (s := (N.size p - 24)%N). destruct (N.eqb_spec s 0) as [_|Hs]; [exact Hp|].
  assert (Hsz : (N.size p = s + 24)%N) by lia.
  assert (Hpos : (0 < p)%N). { destruct p; [cbn in Hsz; lia|lia]. }
  pose proof (size_bounds p Hpos) as [Hlo _]. rewrite Hsz in Hlo.
  pose proof (pow_pos s) as Hs2. pose proof (N.div_mod p (2 ^ s) ltac:(lia)) as Hdm.
  pose proof (N.mod_upper_bound p (2 ^ s) ltac:(lia)) as Hr.
  set (q := (p / 2 ^ s)%N) in *. set (r := (p mod 2 ^ s)%N) in *.
  assert (Hq : (b * 2 ^ k <= q * 2 ^ s)%N).
  { destruct (N.le_gt_cases s k) as [Hk|Hk].
    - rewrite (pow_split k s Hk), N.mul_assoc in *. apply N.mul_le_mono_r. nia.
    - assert (H1 : (2 ^ k <= 2 ^ (s - 1))%N) by (apply N.pow_le_mono_r; lia).
      assert (Hq : (2 ^ 23 <= q)%N).
      { replace (s + 24 - 1)%N with (23 + s)%N in Hlo by lia. rewrite N.pow_add_r in Hlo. nia. }
      rewrite (pow_split s 1 ltac:(lia)). change (2 ^ 1)%N with 2%N. pose proof (pow_pos (s - 1)).
      change (2 ^ 24)%N with (2 * 2 ^ 23)%N in Hb. nia. }
  destruct ((2 ^ (s - 1) <? r) || ((2 ^ (s - 1) =? r) && N.odd q))%N; nia.
Qed.

Section Ratio.
  Variables (m e : N).
  Hypothesis m_small : (m < 2 ^ 24)%N.
  Hypothesis below_one : (m < 2 ^ e)%N.

  Lemma keep_le_small n : n < 1000 -> keep_of_ratio m e n <= n.
  Proof.
    intro Hn. unfold keep_of_ratio. pose proof (pow_pos e).
    assert (H1 : (round24 (m * N.of_nat n) <= N.of_nat n * 2 ^ e)%N).
    { apply round24_le; [nia|]. change (2 ^ 24)%N with 16777216%N. lia. }
    assert (H2 : (round24 (m * N.of_nat n) / 2 ^ e <= N.of_nat n)%N).
    { apply N.div_le_upper_bound; [lia|]. lia. }
    lia.
  Qed.

  Lemma keep_floor n : n < 1000 ->
    let exact := N.to_nat (m * N.of_nat n / 2 ^ e) in exact <= keep_of_ratio m e n <= S exact.
  Proof.
    intros Hn exact. unfold keep_of_ratio. pose proof (pow_pos e) as He.
    set (p := (m * N.of_nat n)%N) in *. pose proof (N.div_mod p (2 ^ e) ltac:(lia)) as Hdm.
    pose proof (N.mod_upper_bound p (2 ^ e) ltac:(lia)) as Hr.
    set (f := (p / 2 ^ e)%N) in *.
    assert (Hf : (f < 1000)%N). { subst p. nia. }
    assert (H1 : (f * 2 ^ e <= round24 p)%N).
    { apply round24_ge; [nia|]. change (2 ^ 24)%N with 16777216%N. lia. }
    assert (H2 : (round24 p <= (f + 1) * 2 ^ e)%N).
    { apply round24_le; [nia|]. change (2 ^ 24)%N with 16777216%N. lia. }
    assert (H3 : (f <= round24 p / 2 ^ e)%N) by (apply N.div_le_lower_bound; lia).
    assert (H4 : (round24 p / 2 ^ e <= f + 1)%N) by (apply N.div_le_upper_bound; lia).
    subst exact. lia.
  Qed.

  Lemma keep_positive : (2 ^ e <= 100 * m)%N -> keep_of_ratio m e 100 <> 0.
  Proof.
    intro H. pose proof (keep_floor 100 ltac:(lia)) as [HL _].
    assert (1 <= m * N.of_nat 100 / 2 ^ e)%N. { apply N.div_le_lower_bound; [pose proof (pow_pos e); lia|]. lia. }
    lia.
  Qed.
End Ratio.

Lemma round24_mono p p' : (p <= p' -> round24 p <= round24 p')%N.
Proof.
  intro H. destruct (N.eq_dec (N.size p) (N.size p')) as [Es|Es].
  - unfold round24. rewrite <- Es. set (s := (N.size p - 24)%N). destruct (s =? 0)%N; [exact H|].
    pose proof (pow_pos s) as Hs2. apply N.mul_le_mono_r.
    pose proof (N.div_mod p (2 ^ s) ltac:(lia)) as Hdm. pose proof (N.mod_upper_bound p (2 ^ s) ltac:(lia)) as Hr.
    pose proof (N.div_mod p' (2 ^ s) ltac:(lia)) as Hdm'. pose proof (N.mod_upper_bound p' (2 ^ s) ltac:(lia)) as Hr'.
    set (q := (p / 2 ^ s)%N) in *. set (r := (p mod 2 ^ s)%N) in *. set (q' := (p' / 2 ^ s)%N) in *.
    set (r' := (p' mod 2 ^ s)%N) in *.
    assert (Hq : (q <= q')%N) by nia. set (h := (2 ^ (s - 1))%N).
    destruct (N.eq_dec q q') as [<-|Hne].
    + assert (r <= r')%N by nia.
      destruct (N.ltb_spec h r), (N.ltb_spec h r'), (N.eqb_spec h r), (N.eqb_spec h r'), (N.odd q); cbn; lia.
    + destruct ((h <? r) || ((h =? r) && N.odd q))%N, ((h <? r') || ((h =? r') && N.odd q'))%N; lia.
  - assert (Hp' : (0 < p')%N).
    { destruct p' as [|p']; [|lia]. assert (p = 0)%N by lia. subst. congruence. }
    assert (Hlt : (N.size p < N.size p')%N).
    { destruct p as [|p0]; [rewrite (N.size_log2 p') by lia; cbn; lia|].
      rewrite !N.size_log2 in Es |- * by lia. pose proof (N.log2_le_mono _ _ H). lia. }
    pose proof (size_bounds p' Hp') as [Hlo _].
    transitivity (1 * 2 ^ (N.size p' - 1))%N.
    + apply round24_le; [|reflexivity]. destruct (N.eq_dec p 0) as [->|Hp]; [lia|].
      pose proof (size_bounds p ltac:(lia)) as [_ Hhi].
      assert (2 ^ N.size p <= 2 ^ (N.size p' - 1))%N by (apply N.pow_le_mono_r; lia). lia.
    + apply round24_ge; [lia|reflexivity].
Qed.

Lemma ratio_keep r : float_ratio r -> ratio_rejected r = false ->
  exists keep, (forall n, n <= 100 -> num_keep r n = Ok (keep n)) /\ (forall n, n <= 100 -> keep n <= n) /\
    (keep 100 <> 0 \/ forall n, n <= 100 -> keep n = 0).
Proof.
  destruct r as [|neg|neg m e]; cbn; try contradiction; try discriminate. intros Hm Hr.
  apply orb_false_iff in Hr. destruct Hr as [Hr He]. apply orb_false_iff in Hr. destruct Hr as [_ ->].
  apply N.leb_gt in He. exists (keep_of_ratio m e). split; [reflexivity|]. split.
  - intros n Hn. apply keep_le_small; auto. lia.
  - destruct (Nat.eq_dec (keep_of_ratio m e 100) 0) as [E|E]; [right|left; exact E].
    intros n Hn. unfold keep_of_ratio in *.
    assert (Hmono : (round24 (m * N.of_nat n) <= round24 (m * N.of_nat 100))%N) by (apply round24_mono, N.mul_le_mono_l; lia).
    pose proof (N.div_le_mono _ _ (2 ^ e) (N.pow_nonzero 2 e ltac:(discriminate)) Hmono) as Hd.
    revert E Hd. generalize (round24 (m * N.of_nat n) / 2 ^ e)%N (round24 (m * N.of_nat 100) / 2 ^ e)%N. lia.
Qed.

(* ---------------- reset ---------------- *)

Definition resets {A} (M : machine A) : Prop := forall s, m_reset M s = m_init M.

Lemma resets_b {A} (M : machine A) s : resets M -> b_reset M s = b_init M.
Proof. intro H. unfold b_reset, b_init. now rewrite H. Qed.

Lemma resets_run {A} (M : machine A) s ops : resets M -> run M s (Reset :: ops) = run M (b_init M) ops.
Proof. intro H. cbn [run]. now rewrite resets_b. Qed.

Lemma core_resets ds : resets (core_reader ds).
Proof. intro s. reflexivity. Qed.
Lemma ranged_resets {A} skip take (M : machine A) : resets M -> resets (ranged skip take M).
Proof. intros H s. cbn. now rewrite resets_b. Qed.
Lemma sharded_resets {A} index num (M : machine A) : resets M -> resets (sharded index num M).
Proof. intros H s. cbn. now rewrite resets_b. Qed.
Lemma sampled_resets {A} keep (M : machine A) : resets M -> resets (sampled keep M).
Proof. intros H s. cbn. now rewrite resets_b. Qed.
Lemma shuffled_resets {A rng} (seeded : rng) draw shuf size_max window (M : machine A) : resets M ->
  resets (shuffled seeded draw shuf size_max window false M).
Proof. intros H [[[b h] g] i]. cbn. now rewrite resets_b. Qed.
Lemma batch_resets {A} size last (M : machine A) : resets M -> resets (batch_reader size last M).
Proof. intros H s. cbn. now rewrite resets_b. Qed.

Section Make.
  Context {rng : Type} (seeded : rng) (draw : nat -> rng -> nat * rng)
    (shuf : list instance -> rng -> list instance * rng) (size_max : nat).
  Notation make := (make_instance_reader seeded draw shuf size_max).

  (* the reader before the shuffling stage *)
  Definition make3 (p : rd_params) (dataset : list store) : res (machine instance) :=
    make_instance_reader seeded draw shuf size_max
      (mk_rd_params (p_skip p) (p_take p) (p_shard_index p) (p_num_shards p) (p_ratio p) false
        (p_window p) (p_reshuffle p) (p_batch p) (p_last p)) dataset.

  Lemma make_split p ds M : make p ds = Ok M -> exists M3, make3 p ds = Ok M3 /\
    M = (if p_shuffle p then shuffled seeded draw shuf size_max (p_window p) (p_reshuffle p) M3 else M3).
  Proof.
    unfold make3, make_instance_reader. cbn [p_skip p_take p_shard_index p_num_shards p_ratio p_shuffle].
    set (r1 := if _ : bool then ranged _ _ _ else _).
    destruct (if 1 <? p_num_shards p then _ else _) as [r2| | |]; cbn [bind]; try discriminate.
    destruct (match p_ratio p with Some _ => _ | None => _ end) as [r3| | |]; cbn [bind]; try discriminate.
    intros [= <-]. exists r3. auto.
  Qed.

  Lemma make3_inv p ds M : make3 p ds = Ok M ->
    let r0 := core_reader ds in
    let r1 := if (0 <? p_skip p) || match p_take p with Some _ => true | None => false end
              then ranged (p_skip p) (p_take p) r0 else r0 in
    let r2 := if 1 <? p_num_shards p then sharded (p_shard_index p) (p_num_shards p) r1 else r1 in
    (1 < p_num_shards p -> p_shard_index p < p_num_shards p) /\
    M = match p_ratio p with Some r => sampled (num_keep r) r2 | None => r2 end /\
    (forall r, p_ratio p = Some r -> ratio_rejected r = false).
  Proof.
    unfold make3, make_instance_reader. cbn [p_skip p_take p_shard_index p_num_shards p_ratio p_shuffle].
    set (r1 := if _ : bool then ranged _ _ _ else _).
    destruct (Nat.ltb_spec 1 (p_num_shards p)) as [Hn|Hn].
    - destruct (Nat.leb_spec (p_num_shards p) (p_shard_index p)) as [|Hi]; cbn [bind]; [discriminate|].
      destruct (p_ratio p) as [r|]; [destruct (ratio_rejected r) eqn:Er|]; cbn [bind]; try discriminate;
        intros [= <-]; (split; [auto|split; [reflexivity|congruence]]).
    - cbn [bind]. destruct (p_ratio p) as [r|]; [destruct (ratio_rejected r) eqn:Er|]; cbn [bind]; try discriminate;
        intros [= <-]; (split; [lia|split; [reflexivity|congruence]]).
  Qed.

  Lemma make3_resets p ds M : make3 p ds = Ok M -> resets M.
  Proof.
    intro H. apply make3_inv in H. destruct H as (_ & -> & _).
    set (r1 := if _ : bool then ranged _ _ _ else _).
    assert (H1 : resets r1). { subst r1. destruct (_ || _); [apply ranged_resets|]; apply core_resets. }
    set (r2 := if _ : bool then sharded _ _ _ else _).
    assert (H2 : resets r2). { subst r2. destruct (1 <? _); [apply sharded_resets|]; exact H1. }
    destruct (p_ratio p); [apply sampled_resets|]; exact H2.
  Qed.

  Lemma make_resets p ds M : make p ds = Ok M -> (p_shuffle p = false \/ p_reshuffle p = false) -> resets M.
  Proof.
    intros H Hs. apply make_split in H. destruct H as (M3 & H3 & ->). apply make3_resets in H3.
    destruct (p_shuffle p); [|exact H3]. destruct Hs as [|Hs]; [discriminate|]. rewrite Hs. now apply shuffled_resets.
  Qed.

  Lemma reset_replays p ds M s ops : make p ds = Ok M -> (p_shuffle p = false \/ p_reshuffle p = false) ->
    fst (run M s (Reset :: ops)) = fst (run M (b_init M) ops).
  Proof. intros H Hs. now rewrite (resets_run M s ops (make_resets p ds M H Hs)). Qed.

  Lemma batch_reset_replays p ds M B s ops : make p ds = Ok M -> (p_shuffle p = false \/ p_reshuffle p = false) ->
    make_batch_reader (p_batch p) (p_last p) M = Ok B ->
    fst (run B s (Reset :: ops)) = fst (run B (b_init B) ops).
  Proof.
    intros H Hs HB. unfold make_batch_reader in HB. destruct (p_batch p =? 0); [discriminate|]. injection HB as <-.
    rewrite resets_run; [reflexivity|]. apply batch_resets. eapply make_resets; eassumption.
  Qed.

  (* ---------------- the whole reader ---------------- *)

  Lemma range_none {A} (xs : list A) : range_of 0 None xs = xs.
  Proof. reflexivity. Qed.

  Lemma map_combine_filter_le {A} (f : nat * A -> bool) (xs : list A) s :
    length (map snd (filter f (combine (seq s (length xs)) xs))) <= length xs.
  Proof.
    rewrite map_length. revert s. induction xs as [|x xs IH]; intro s; [cbn; lia|]. cbn. specialize (IH (S s)).
    destruct (f (s, x)); cbn; lia.
  Qed.

  Lemma sample_len {A} keep (xs ys : list A) : sample_of keep xs ys -> length ys <= length xs.
  Proof.
    induction 1; rewrite ?app_length, ?firstn_length; lia.
  Qed.

  Lemma selected_len p xs ys : selected p xs ys -> length ys <= length xs.
  Proof.
    unfold selected. set (a := range_of _ _ _).
    assert (Ha : length a <= length xs).
    { subst a. unfold range_of. destruct (p_take p); rewrite ?firstn_length, skipn_length; lia. }
    set (b := if _ : bool then _ else _).
    assert (Hb : length b <= length a).
    { subst b. destruct (1 <? _); [|lia]. apply map_combine_filter_le. }
    destruct (p_ratio p) as [r|]; [intros (keep & _ & H); apply sample_len in H|intros ->]; lia.
  Qed.

  Lemma make3_ok p ds iss M : Forall2 store_instances ds iss -> make3 p ds = Ok M ->
    (forall r, p_ratio p = Some r -> float_ratio r) ->
    exists ys, selected p (concat iss) ys /\ yields M (b_init M) ys (Ok tt).
  Proof.
    intros HF H Hk. apply make3_inv in H. destruct H as (Hsh & -> & Hrej). unfold selected.
    pose proof (stores_ok ds iss HF) as H0. set (a := range_of _ _ _).
    set (r1 := if _ : bool then ranged _ _ _ else _).
    assert (H1 : yields r1 (b_init r1) a (Ok tt)).
    { subst r1 a. destruct (_ || _) eqn:E.
      - pose proof (ranged_ok (core_reader ds) (p_skip p) (p_take p) _ _ _ H0) as HR.
        destruct (range_full _ _ _); exact HR.
      - apply orb_false_iff in E. destruct E as [E1 E2]. apply Nat.ltb_ge in E1.
        replace (p_skip p) with 0 by lia. destruct (p_take p); [discriminate|]. exact H0. }
    set (b := if _ : bool then shard_of _ _ _ else _). set (r2 := if _ : bool then sharded _ _ _ else _).
    assert (H2 : yields r2 (b_init r2) b (Ok tt)).
    { subst r2 b. destruct (Nat.ltb_spec 1 (p_num_shards p)) as [Hn|Hn]; [|exact H1].
      apply (sharded_ok r1 (p_shard_index p) (p_num_shards p) (b_init r1)); auto. }
    destruct (p_ratio p) as [r|]; [|eauto].
    destruct (ratio_keep r (Hk r eq_refl) (Hrej r eq_refl)) as (keep & Hkr & Hle & H100).
    destruct (sample_of_total (num_keep r) keep Hkr Hle (S (length b)) b (le_n _)) as (ys & Hy).
    exists ys. split; [eauto|].
    apply (sampled_ok r2 (num_keep r) keep Hkr Hle b ys ([], 0, b_init r2) (b_init r2) H100 Hy); [|exact H2].
    exists [], 0. auto.
  Qed.

  Lemma reader_ok p ds iss M s : Forall2 store_instances ds iss -> make p ds = Ok M ->
    (forall r, p_ratio p = Some r -> float_ratio r) ->
    (forall w g, 0 < w -> fst (draw w g) < w) -> (forall l g, Permutation (fst (shuf l g)) l) ->
    length (concat iss) < size_max ->
    exists ys zs, selected p (concat iss) ys /\ ordered p ys zs /\ reads_as M (b_reset M s) zs (Ok tt).
  Proof.
    intros HF H Hk Hd Hp Hm. apply make_split in H. destruct H as (M3 & H3 & ->).
    pose proof (make3_resets _ _ _ H3) as Hr. destruct (make3_ok p ds iss M3 HF H3 Hk) as (ys & Hs & Hy).
    exists ys. unfold ordered. destruct (p_shuffle p).
    - destruct s as [pk [[[buf has] g] i]].
      destruct (shuffled_ok M3 seeded draw shuf size_max Hp (p_window p) (p_reshuffle p)
        (if p_reshuffle p then g else seeded) (b_reset M3 i) ys) as (zs & Hz & HP & HD).
      + intros g0 Hw. apply Hd. exact Hw.
      + lia.
      + right. apply selected_len in Hs. lia.
      + rewrite (resets_b M3 i Hr). exact Hy.
      + exists zs. split; [exact Hs|]. split; [auto|]. apply yields_iff. exact Hz.
    - exists ys. split; [exact Hs|]. split; [reflexivity|]. apply yields_iff. rewrite (resets_b M3 s Hr). exact Hy.
  Qed.

  Lemma reader_ok_init p ds iss M : Forall2 store_instances ds iss -> make p ds = Ok M ->
    (forall r, p_ratio p = Some r -> float_ratio r) ->
    (forall w g, 0 < w -> fst (draw w g) < w) -> (forall l g, Permutation (fst (shuf l g)) l) ->
    length (concat iss) < size_max ->
    exists ys zs, selected p (concat iss) ys /\ ordered p ys zs /\ reads_as M (b_init M) zs (Ok tt).
  Proof.
    intros HF H Hk Hd Hp Hm. apply make_split in H. destruct H as (M3 & H3 & ->).
    pose proof (make3_resets _ _ _ H3) as Hr. destruct (make3_ok p ds iss M3 HF H3 Hk) as (ys & Hs & Hy).
    exists ys. unfold ordered. destruct (p_shuffle p).
    - destruct (shuffled_ok M3 seeded draw shuf size_max Hp (p_window p) (p_reshuffle p)
        seeded (b_init M3) ys) as (zs & Hz & HP & HD).
      + intros g0 Hw. apply Hd. exact Hw.
      + lia.
      + right. apply selected_len in Hs. lia.
      + exact Hy.
      + exists zs. split; [exact Hs|]. split; [auto|]. apply yields_iff. exact Hz.
    - exists ys. split; [exact Hs|]. split; [reflexivity|]. apply yields_iff. exact Hy.
  Qed.

  Lemma shard_params_rejected p ds : 1 < p_num_shards p -> p_num_shards p <= p_shard_index p ->
    make p ds = Throw Invalid_argument.
  Proof.
    intros H1 H2. unfold make_instance_reader. destruct (Nat.ltb_spec 1 (p_num_shards p)); [|lia].
    destruct (Nat.leb_spec (p_num_shards p) (p_shard_index p)); [reflexivity|lia].
  Qed.
End Make.

(* ---------------- statements as used in Props_inst ---------------- *)

Lemma sample_ok {A} (M : machine A) r xs :
  float_ratio r -> ratio_rejected r = false -> reads_as M (b_init M) xs (Ok tt) ->
  exists keep ys, (forall n, n <= 100 -> num_keep r n = Ok (keep n)) /\ sample_of keep xs ys /\
    reads_as (sampled (num_keep r) M) (b_init (sampled (num_keep r) M)) ys (Ok tt).
Proof.
  intros Hr Hj H. apply yields_iff in H. destruct (ratio_keep r Hr Hj) as (keep & Hkr & Hle & H100).
  destruct (sample_of_total (num_keep r) keep Hkr Hle (S (length xs)) xs (le_n _)) as (ys & Hy).
  exists keep, ys. split; [exact Hkr|]. split; [exact Hy|]. apply yields_iff.
  apply (sampled_ok M (num_keep r) keep Hkr Hle xs ys ([], 0, b_init M) (b_init M) H100 Hy); [|exact H].
  exists [], 0. auto.
Qed.

Lemma share_ok m e n : (m < 2 ^ 24)%N -> (m < 2 ^ e)%N -> n <= 100 ->
  exists k, num_keep (f_fin false m e) n = Ok k /\ k <= n /\
    N.to_nat (m * N.of_nat n / 2 ^ e) <= k <= S (N.to_nat (m * N.of_nat n / 2 ^ e)).
Proof.
  intros Hm He Hn. exists (keep_of_ratio m e n). split; [reflexivity|]. split.
  - apply keep_le_small; auto; lia.
  - apply keep_floor; auto; lia.
Qed.

Section ShuffleStatements.
  Context {A rng : Type} (M : machine A) (seeded : rng) (draw : nat -> rng -> nat * rng)
    (shuf : list A -> rng -> list A * rng) (size_max window : nat) (reshuffle : bool).

  Lemma shuffle_init xs : (forall l g, Permutation (fst (shuf l g)) l) -> (forall w g, 0 < w -> fst (draw w g) < w) ->
    length xs < size_max -> reads_as M (b_init M) xs (Ok tt) ->
    let S := shuffled seeded draw shuf size_max window reshuffle M in
    exists ys, reads_as S (b_init S) ys (Ok tt) /\ Permutation ys xs.
  Proof.
    intros Hp Hd Hl H S. apply yields_iff in H.
    destruct (shuffled_ok M seeded draw shuf size_max Hp window reshuffle seeded (b_init M) xs) as (ys & Hy & HP & _);
      [intros; now apply Hd|lia|now right|exact H|].
    exists ys. split; [apply yields_iff; exact Hy|exact HP].
  Qed.

  Lemma shuffle_epoch xs : (forall l g, Permutation (fst (shuf l g)) l) -> (forall w g, 0 < w -> fst (draw w g) < w) ->
    length xs < size_max -> (forall i, reads_as M (b_reset M i) xs (Ok tt)) ->
    let S := shuffled seeded draw shuf size_max window reshuffle M in
    forall s, exists ys, reads_as S (b_reset S s) ys (Ok tt) /\ Permutation ys xs /\ (0 < window -> displaced window xs ys).
  Proof.
    intros Hp Hd Hl H S [pk [[[buf has] g] i]]. specialize (H i). apply yields_iff in H.
    destruct (shuffled_ok M seeded draw shuf size_max Hp window reshuffle (if reshuffle then g else seeded) (b_reset M i) xs)
      as (ys & Hy & HP & HD); [intros; now apply Hd|lia|now right|exact H|].
    exists ys. split; [apply yields_iff; exact Hy|auto].
  Qed.

  Lemma shuffle_displaced xs : (forall l g, Permutation (fst (shuf l g)) l) -> (forall w g, 0 < w -> fst (draw w g) < w) ->
    0 < window -> 0 < size_max -> reads_as M (b_init M) xs (Ok tt) ->
    let S := shuffled seeded draw shuf size_max window reshuffle M in
    exists ys, reads_as S (b_init S) ys (Ok tt) /\ Permutation ys xs /\ displaced window xs ys.
  Proof.
    intros Hp Hd Hw Hm H S. apply yields_iff in H.
    destruct (shuffled_ok M seeded draw shuf size_max Hp window reshuffle seeded (b_init M) xs) as (ys & Hy & HP & HD);
      [intros; now apply Hd|lia|now left|exact H|].
    exists ys. split; [apply yields_iff; exact Hy|auto].
  Qed.

  Lemma shuffle_one xs e : reads_as M (b_init M) xs e ->
    let S := shuffled seeded draw shuf size_max 1 reshuffle M in reads_as S (b_init S) xs e.
  Proof.
    intros H S. apply yields_iff in H. apply yields_iff. unfold b_init. cbn [m_init S shuffled].
    revert H. generalize (b_init M) as i. induction xs as [|x xs IH]; intros i Hi;
      pose proof (yields_read _ _ _ _ Hi) as (i' & E & Hi').
    - apply (y_stop S _ ([], true, seeded, i')).
      + cbn. rewrite E. destruct e; reflexivity.
      + intros ->. specialize (Hi' eq_refl).
        apply (y_end_inv S (fun s => exists i, s = ([], true, seeded, i) /\ yields M i [] (Ok tt))); [eauto|].
        intros s (j & -> & Hj). pose proof (yields_read _ _ _ _ Hj) as (j' & Ej & Hj').
        cbn. rewrite Ej. eexists. split; [reflexivity|]. eauto.
    - apply (y_item S _ _ ([], true, seeded, i')); [cbn; rewrite E; reflexivity|]. apply IH. exact Hi'.
  Qed.

  Lemma shuffle_same_order s ops : (forall i, b_reset M i = b_init M) ->
    let S := shuffled seeded draw shuf size_max window false M in
    fst (run S s (Reset :: ops)) = fst (run S (b_init S) ops).
  Proof.
    intros H S. cbn [run]. f_equal. f_equal. destruct s as [pk [[[buf has] g] i]]. unfold b_reset, b_init. cbn. now rewrite H.
  Qed.
End ShuffleStatements.

Lemma batches_ok {A} (M : machine A) size last xs :
  0 < size -> last <> last_pad_warn -> reads_as M (b_init M) xs (Ok tt) ->
  exists bs, batches_of size last 0 xs bs /\
    reads_as (batch_reader size last M) (b_init (batch_reader size last M)) bs (Ok tt).
Proof.
  intros Hs Hl H. apply yields_iff in H.
  destruct (batches_of_total size last Hs (S (length xs)) 0 xs (le_n _)) as (bs & Hb).
  exists bs. split; [exact Hb|]. apply yields_iff. apply (batch_ok M size last Hs 0 xs bs Hl Hb). exact H.
Qed.

Lemma batches_meaning {A} size last k (xs : list A) bs :
  0 < size -> batches_of size last k xs bs ->
  (exists rest, concat (map ba_instances bs) ++ rest = xs /\ length rest < size /\
     (rest = [] \/ last = last_drop \/ last = last_drop_warn)) /\
  map ba_index bs = seq k (length bs) /\
  Forall (fun b => ba_instances b <> []) bs /\
  Forall (fun b => length (ba_instances b) = size /\ ba_size b = size) (removelast bs) /\
  (last = last_pad \/ last = last_pad_warn -> Forall (fun b => ba_size b = size) bs).
Proof.
  intros Hs H. induction H as [k|k xs Hne Hl Hd|k xs r Hne Hl H1 H2 Hr|k xs ys bs Hl HB IH].
  - split; [exists []; cbn; auto|]. repeat split; constructor.
  - split; [exists xs; auto|]. repeat split; constructor.
  - split; [exists []; cbn; rewrite !app_nil_r; auto|]. repeat split; cbn; auto.
    intro Hp. constructor; [|constructor]. cbn. rewrite Hr. destruct Hp as [-> | ->]; reflexivity.
  - destruct IH as ((rest & E & Hr & Hd) & Hi & Hn & Hf & Hp). split; [|split; [|split; [|split]]].
    + exists rest. cbn. rewrite <- app_assoc, E. auto.
    + cbn. now rewrite Hi.
    + constructor; [|exact Hn]. cbn. intro E0. rewrite E0 in Hl. cbn in Hl. lia.
    + destruct bs as [|b bs]; [constructor|]. cbn [removelast]. constructor; [cbn; auto|exact Hf].
    + intro Hq. constructor; [reflexivity|auto].
Qed.

Definition list_machine (xs : list nat) : machine nat :=
  mk_machine (list nat) xs (fun s => match s with [] => (Ok None, []) | x :: r => (Ok (Some x), r) end) (fun _ => xs).
Lemma list_machine_yields all : forall xs, yields (list_machine all) (None, xs) xs (Ok tt).
Proof.
  induction xs as [|x xs IH].
  - apply (y_end_inv (list_machine all) (fun s => s = [])); [reflexivity|]. intros s ->. exists []. auto.
  - apply (y_item (list_machine all) _ _ xs); [reflexivity|exact IH].
Qed.

Lemma pad_warn : exists size (xs : list nat),
  0 < size /\ reads_as (list_machine xs) (b_init (list_machine xs)) xs (Ok tt) /\
  ~ exists bs, batches_of size last_pad_warn 0 xs bs /\
      reads_as (batch_reader size last_pad_warn (list_machine xs)) (b_init _) bs (Ok tt).
Proof.
  exists 2, [10]. split; [lia|]. split.
  - apply yields_iff. apply list_machine_yields.
  - intros (bs & Hb & Hr).
    assert (E : bs = [mk_batch 0 [10] 2]).
    { refine (batches_of_fun 2 last_pad_warn _ 0 [10] bs Hb _ _); [lia|].
      apply ba_last; discriminate || reflexivity || (cbn; lia). }
    subst bs. specialize (Hr 1). vm_compute in Hr. discriminate.
Qed.

Lemma stores_read ds iss : Forall2 store_instances ds iss ->
  reads_as (core_reader ds) (b_init (core_reader ds)) (concat iss) (Ok tt).
Proof. intro H. apply yields_iff. now apply stores_ok. Qed.

Lemma every_sequence rs : exists good bad ps,
  rs = good ++ bad /\ groups good ps /\ (bad = [] \/ broken bad \/ truncated bad).
Proof. exact (classify (S (length rs)) rs (le_n _)). Qed.

Lemma crosses_stores : exists d1 d2 rs1 rs2,
  sopen d1 = Ok (Some (rs1, Ok tt)) /\ sopen d2 = Ok (Some (rs2, Ok tt)) /\ truncated rs1 /\ broken rs2 /\
  outputs (core_reader [d1; d2]) (b_init (core_reader [d1; d2])) 2 =
    [Ok (Some (mk_instance (sid d2) 0 (Some (concat (map payload (rs1 ++ rs2)))))); Ok None].
Proof.
  pose (r1 := mk_rec [1%N] kBegin). pose (r2 := mk_rec [2%N] kEnd).
  exists (mk_store 1 (Ok (Some ([r1], Ok tt)))), (mk_store 2 (Ok (Some ([r2], Ok tt)))), [r1], [r2].
  repeat split.
  - exists r1, []. repeat split. constructor.
  - apply br_start; discriminate.
Qed.
