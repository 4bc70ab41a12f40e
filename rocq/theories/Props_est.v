(* C114: the cardinality estimate. *)
From Verif Require Import Common Model_insights Spec_insights Proof_insights Proof_insights6 Model_est Spec_est
  Proof_est Proof_est2 Proof_est3 Spec_xxh Proof_xxh3.
From Coq Require Import QArith Qabs Qround Lqa Lia.
From Coq Require String.
Import String.StringSyntax.
Import List.
Local Open Scope N_scope.

(* The assumptions on the arithmetic can be met: exact arithmetic, and x - 1 for the
   logarithm. *)
Definition ideal : arithmetic := {| f_round := fun q => q; f_log := fun x => (x - 1)%Q |}.
Example C114_case_sane : sane ideal.
Proof.
  constructor; cbn [f_round f_log ideal].
  - intros a b H. exact H.
  - intros. split; reflexivity.
  - intros a [A _]. setoid_replace (a - a)%Q with 0%Q by ring. cbn. apply Qdiv_le_lower; [reflexivity|].
    rewrite Qmult_0_l. apply Qle_trans with (1 / inject_Z (2 ^ 1000))%Q; [|exact A]. discriminate.
  - intros x X. assert (V : exists v, (v * x == 1 /\ v == 1 / x)%Q) by (exists (1 / x)%Q; split; [field; lra|reflexivity]).
    destruct V as [v [V1 V2]]. rewrite <- V2. rewrite small_val. change (1 / inject_Z (2 ^ 50))%Q with (1 # 1125899906842624).
    assert (V0 : (0 < v)%Q) by nra. assert (V9 : (v <= 1)%Q) by nra. split; nra.
  - intros x [X0 X]. assert (V : exists v, (v * x == 1 /\ v == 1 / x)%Q) by (exists (1 / x)%Q; split; [field; lra|reflexivity]).
    destruct V as [v [V1 V2]]. rewrite <- V2. rewrite small_val. change (1 / inject_Z (2 ^ 50))%Q with (1 # 1125899906842624).
    assert (V0 : (1 <= v)%Q) by nra. split; nra.
Qed.

Lemma round_small q : (0 <= q)%Q -> (q <= inject_Z (2 ^ 62))%Q -> (0 <= round_half q <= 2 ^ 62)%Z.
Proof.
  intros A C. unfold round_half. apply Qle_bool_iff in A. rewrite A. apply Qle_bool_iff in A.
  pose proof (Qfloor_le (q + (1 # 2))) as L. pose proof (Qlt_floor (q + (1 # 2))) as U. rewrite inject_Z_plus in U.
  change (inject_Z 1) with 1%Q in U.
  assert (X : (inject_Z (Qfloor (q + (1 # 2))) < inject_Z (2 ^ 62 + 1))%Q) by (rewrite inject_Z_plus; change (inject_Z 1) with 1%Q; lra).
  assert (Y : (inject_Z (-1) < inject_Z (Qfloor (q + (1 # 2))))%Q) by (change (inject_Z (-1)) with (-1)%Q; lra).
  rewrite <- Zlt_Qlt in X, Y. lia.
Qed.
Lemma round_pos q : (3 # 4 <= q)%Q -> (1 <= round_half q)%Z.
Proof.
  intros A. unfold round_half. assert (A0 : Qle_bool 0 q = true) by (apply Qle_bool_iff; lra). rewrite A0.
  pose proof (Qlt_floor (q + (1 # 2))) as U. rewrite inject_Z_plus in U. change (inject_Z 1) with 1%Q in U.
  assert (Y : (inject_Z 0 < inject_Z (Qfloor (q + (1 # 2))))%Q) by (change (inject_Z 0) with 0%Q; lra).
  rewrite <- Zlt_Qlt in Y. lia.
Qed.

Lemma add_all_tails b : bits_ok b -> forall l h0 h, is_sketch b [] h0 -> hll_add_all Clz_builtin h0 l = Ok h ->
  forall s, In s l -> ~ zero_tail b s.
Proof.
  intros B l h0 h K E s I Z. pose proof (add_all_ub b B l [] h0 K (ex_intro _ s (conj I Z))) as U. congruence.
Qed.
Lemma used_nil b l : used b l = [] <-> l = [].
Proof.
  split; [|intros ->; reflexivity]. destruct l as [|s l]; [reflexivity|]. intro E.
  assert (I : In (bucket b (xxh32 s)) (used b (s :: l))) by (apply nodup_In; left; reflexivity). rewrite E in I. destruct I.
Qed.

(* With __builtin_clz: when all strings have been added without undefined behaviour, the number
   of different strings can be asked for, whatever the strings are.  It is 0 if and only if
   there are none. *)
Theorem C114_defined : forall (F : arithmetic) (b : N) (h0 h : hll) (l : list (list byte)),
  sane F -> hll_make b = Ok h0 -> hll_add_all Clz_builtin h0 l = Ok h ->
  exists n, cardinality F h = Ok n /\ n <= 2 ^ 62 /\ (n = 0 <-> l = []).
Proof.
  intros F b h0 h l S M A. apply make_sketch in M. destruct M as [B M].
  pose proof (sketch_add_all Clz_builtin b B l [] h0 h M A) as K. cbn [app] in K.
  pose proof (regs_low b B l h K (add_all_tails b B l h0 h M A)) as R.
  destruct (estimate_ok F S b B l h K R) as [q [E [[Q1 Q2] Q3]]].
  pose proof (z_high _ (registers_ok b B)) as MH. pose proof (z_low _ (registers_ok b B)) as ML.
  assert (QH : (q <= inject_Z (2 ^ 62))%Q).
  { apply Qle_trans with 4611686018427387904%Q; [|discriminate].
    assert (registers b * registers b <= 1073741824 * 1073741824)%Q by nra. lra. }
  pose proof (round_small q Q1 QH) as RH. unfold cardinality. rewrite E. cbn [bind].
  replace ((0 <=? round_half q)%Z && (round_half q <? 2 ^ 64)%Z) with true.
  2:{ symmetry. apply andb_true_intro. split; [apply Z.leb_le; lia|apply Z.ltb_lt]. apply Z.le_lt_trans with (2 ^ 62)%Z; [lia|reflexivity]. }
  eexists. split; [reflexivity|]. split.
  - apply N2Z.inj_le. rewrite Z2N.id by lia. change (Z.of_N (2 ^ 62)) with (2 ^ 62)%Z. lia.
  - split.
    + intro Z0. destruct l as [|s l]; [reflexivity|]. exfalso.
      assert (U : (0 < Z.of_nat (length (used b (s :: l))))%Z).
      { destruct (used b (s :: l)) eqn:D; [apply used_nil in D; discriminate|cbn [length]; lia]. }
      specialize (Q3 U). apply round_pos in Q3. lia.
    + intros ->. destruct (estimate_few F S b B [] h K) as [q' [E' [[_ Q5] Q6]]]; [cbn; apply Z.pow_nonneg; lia|].
      rewrite E in E'. injection E' as <-. change (inject_Z (Z.of_nat (length (used b [])))) with 0%Q in Q5.
      unfold round_half. assert (A0 : Qle_bool 0 q = true) by (apply Qle_bool_iff; lra). rewrite A0.
      rewrite (floor_unique (q + (1 # 2)) 0); [reflexivity|change (inject_Z 0) with 0%Q; lra|change (inject_Z 0) with 0%Q; lra].
Qed.
Print Assumptions C114_defined.

(* The answer is the number of buckets that the strings fall into, as long as there are few:
   4 n^2 <= 2^b, so up to 128 with the width 16 of the column statistics.  It is never more
   than the number of different strings then. *)
Theorem C114_few : forall (F : arithmetic) (version : clz_version) (b : N) (h0 h : hll) (l : list (list byte)),
  sane F -> hll_make b = Ok h0 -> hll_add_all version h0 l = Ok h ->
  4 * N.of_nat (length (used b l)) * N.of_nat (length (used b l)) <= 2 ^ b ->
  cardinality F h = Ok (N.of_nat (length (used b l))).
Proof.
  intros F version b h0 h l S M A U. apply make_sketch in M. destruct M as [B M].
  pose proof (sketch_add_all version b B l [] h0 h M A) as K. cbn [app] in K.
  set (n := length (used b l)) in *.
  assert (U' : (4 * Z.of_nat n * Z.of_nat n <= 2 ^ Z.of_N b)%Z).
  { apply N2Z.inj_le in U. rewrite !N2Z.inj_mul, N2Z.inj_pow, nat_N_Z in U. exact U. }
  destruct (estimate_few F S b B l h K U') as [q [E [[Q1 Q2] Q3]]]. fold n in Q1, Q2.
  unfold cardinality. rewrite E. cbn [bind]. unfold round_half. apply Qle_bool_iff in Q3. rewrite Q3.
  rewrite (floor_unique (q + (1 # 2)) (Z.of_nat n)) by lra.
  assert (L : (Z.of_nat n < 2 ^ 64)%Z).
  { assert (2 ^ Z.of_N b <= 2 ^ 30)%Z by (apply Z.pow_le_mono_r; unfold bits_ok in B; lia).
    apply Z.le_lt_trans with (2 ^ 30)%Z; [|reflexivity]. nia. }
  replace ((0 <=? Z.of_nat n)%Z && (Z.of_nat n <? 2 ^ 64)%Z) with true
    by (symmetry; apply andb_true_intro; split; [apply Z.leb_le; lia|apply Z.ltb_lt; exact L]).
  f_equal. lia.
Qed.
Print Assumptions C114_few.

Theorem C114_not_more : forall (F : arithmetic) (version : clz_version) (b : N) (h0 h : hll) (l : list (list byte)) (n : N),
  sane F -> hll_make b = Ok h0 -> hll_add_all version h0 l = Ok h ->
  let d := N.of_nat (length (distinct l)) in
  4 * d * d <= 2 ^ b -> cardinality F h = Ok n ->
  n <= d /\ (n = d <-> forall s t, In s l -> In t l -> bucket b (xxh32 s) = bucket b (xxh32 t) -> s = t).
Proof.
  intros F version b h0 h l n S M A d D E.
  set (dl := distinct l) in *. set (f := fun s => bucket b (xxh32 s)).
  assert (I1 : incl (used b l) (map f dl)).
  { intros x I. apply nodup_In in I. apply in_map_iff in I. destruct I as [s [<- I]]. apply (in_map f). apply nodup_In. exact I. }
  pose proof (NoDup_incl_length (NoDup_nodup _ _) I1) as L. rewrite map_length in L. fold (used b l) in L.
  assert (LD : N.of_nat (length (used b l)) <= d) by (unfold d; lia).
  rewrite (C114_few F version b h0 h l S M A) in E by nia. injection E as <-. split; [exact LD|].
  assert (I2 : incl (map f dl) (used b l)).
  { intros x I. apply in_map_iff in I. destruct I as [s [<- I]]. apply nodup_In in I. apply nodup_In. apply (in_map f). exact I. }
  split.
  - intros Q s t IS IT EQ.
    assert (ND : NoDup (map f dl)).
    { apply (@NoDup_incl_NoDup _ (used b l)); [apply NoDup_nodup|rewrite map_length; unfold d in Q; lia|].
      exact I1. }
    assert (IS' : In s dl) by (apply nodup_In; exact IS). assert (IT' : In t dl) by (apply nodup_In; exact IT).
    clearbody dl. clear - ND IS' IT' EQ. induction dl as [|a r IH]; [destruct IS'|].
    cbn [map] in ND. inversion ND as [|x y N1 N2]; subst. destruct IS' as [-> | IS'], IT' as [-> | IT']; auto.
    + exfalso. apply N1. change (f s) with (bucket b (xxh32 s)). rewrite EQ. apply (in_map f). exact IT'.
    + exfalso. apply N1. change (f t) with (bucket b (xxh32 t)). rewrite <- EQ. apply (in_map f). exact IS'.
  - intro INJ. assert (ND : NoDup (map f dl)).
    { assert (H : forall s t, In s dl -> In t dl -> f s = f t -> s = t).
      { intros s t IS IT. apply nodup_In in IS, IT. exact (INJ s t IS IT). }
      pose proof (NoDup_nodup string_dec l) as N0. fold (distinct l) in N0. fold dl in N0. clearbody dl. clear - H N0.
      induction N0 as [|a r N1 N2 IH]; [constructor|]. cbn [map]. constructor.
      - intro I. apply in_map_iff in I. destruct I as [s [Q I]]. assert (s = a) as -> by (apply H; [right; exact I|left; reflexivity|exact Q]). exact (N1 I).
      - apply IH. intros s t IS IT. apply H; right; assumption. }
    pose proof (NoDup_incl_length ND I2) as L2. rewrite map_length in L2. unfold d. lia.
Qed.
Print Assumptions C114_not_more.

Example C114_case_few :
  length (used 16 [lit "a"; lit "b"; lit "a"; lit "c"]) = 3%nat /\
  length (used 6 [lit "a"; lit "b"; lit "a"; lit "c"]) = 3%nat /\
  (let* h0 := hll_make 6 in
   let* h := hll_add_all Clz_builtin h0 [lit "a"; lit "b"; lit "a"; lit "c"] in cardinality ideal h) = Ok 3.
Proof. repeat split; vm_compute; reflexivity. Qed.

(* With the loop instead of __builtin_clz adding is defined for all strings, but asking is not:
   for every width there are strings of four bytes for which the estimate is not a number and
   its conversion to an integer undefined. *)
Theorem C114_defined_refuted : forall (F : arithmetic) (b : N) (h0 : hll),
  sane F -> hll_make b = Ok h0 ->
  exists l h, (forall s, In s l -> bytes s /\ length s = 4%nat) /\
    hll_add_all Clz_loop h0 l = Ok h /\ cardinality F h = UB.
Proof.
  intros F b h0 S M. apply make_sketch in M. destruct M as [B M].
  assert (X : forall n, n <= 2 ^ b -> exists l, (forall s, In s l -> bytes s /\ length s = 4%nat) /\
     forall i, i < n -> exists s, In s l /\ bucket b (xxh32 s) = i /\ zero_tail b s).
  { intro n. induction n as [|n IH] using N.peano_ind; intro L.
    - exists []. split; [intros s []|lia].
    - destruct (IH ltac:(lia)) as [l [H1 H2]]. unfold bits_ok in B.
      assert (P : 2 ^ 32 = 2 ^ b * 2 ^ (32 - b)) by (rewrite <- N.pow_add_r; f_equal; lia).
      assert (P0 : 2 ^ (32 - b) <> 0) by (apply N.pow_nonzero; lia).
      destruct (word_exists [] [] (n * 2 ^ (32 - b)) eq_refl) as [s [S1 [S2 S3]]].
      { unfold word. change 4294967296 with (2 ^ 32). rewrite P. apply N.mul_lt_mono_pos_r; lia. }
      cbn [app] in S3. rewrite app_nil_r in S3. exists (s :: l). split.
      + intros t [<- | I]; auto.
      + intros i I. destruct (N.eq_dec i n) as [-> | D].
        * exists s. split; [left; reflexivity|]. unfold bucket, zero_tail. rewrite S3.
          split; [apply N.div_mul; exact P0|apply N.mod_mul; exact P0].
        * destruct (H2 i ltac:(lia)) as [t [T1 T2]]. exists t. split; [right; exact T1|exact T2]. }
  destruct (X (2 ^ b) (N.le_refl _)) as [l [H1 H2]].
  destruct (add_all_ok Clz_loop b B l [] h0 M) as [h A]; [discriminate|].
  exists l, h. split; [exact H1|]. split; [exact A|].
  pose proof (sketch_add_all Clz_loop b B l [] h0 h M A) as K. cbn [app] in K.
  unfold cardinality. rewrite (estimate_full F S b B l h K (regs_full b B l h K H2)). reflexivity.
Qed.
Print Assumptions C114_defined_refuted.
