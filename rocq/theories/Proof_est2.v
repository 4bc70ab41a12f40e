(* The estimate of the cardinality sketches: the registers of a sketch. *)
From Verif Require Import Common Model_insights Spec_insights Proof_insights Model_est Spec_est.
From Coq Require Import QArith Lia Permutation.
Import List.
Local Open Scope N_scope.

Lemma rank_exists b h : bits_ok b -> h < 2 ^ 32 -> exists r, is_rank b h r.
Proof. intros B H. eexists. apply (get_clz_rank Clz_loop b h _ B H). reflexivity. Qed.

Lemma tail_bits b h : bits_ok b -> (forall k, k < 32 - b -> N.testbit h k = false) -> h mod 2 ^ (32 - b) = 0.
Proof.
  intros B T. apply N.bits_inj. intro k. rewrite N.bits_0. destruct (N.lt_ge_cases k (32 - b)) as [L | L].
  - rewrite N.mod_pow2_bits_low by exact L. exact (T k L).
  - apply N.mod_pow2_bits_high. exact L.
Qed.
Lemma rank_low b h r : bits_ok b -> is_rank b h r -> h mod 2 ^ (32 - b) <> 0 -> r <= 32 - b.
Proof.
  intros B [R1 [R2 _]] Z. destruct (N.le_gt_cases r (32 - b)) as [L | L]; [exact L|]. exfalso. apply Z. apply tail_bits; [exact B|].
  intros k K. assert (E : k = 32 - b - (32 - b - k)) by lia. rewrite E. apply R2. unfold bits_ok in B. lia.
Qed.
Lemma rank_zero b h : bits_ok b -> h mod 2 ^ (32 - b) = 0 -> is_rank b h (33 - b).
Proof.
  intros B Z. unfold bits_ok in B.
  split; [lia|]. split; [|lia]. intros k K.
  rewrite <- (N.mod_pow2_bits_low h (32 - b)) by lia. rewrite Z. apply N.bits_0.
Qed.

Lemma nth_forall {A} (P : A -> Prop) l d : (forall i, (i < length l)%nat -> P (nth i l d)) -> Forall P l.
Proof.
  intro H. apply Forall_forall. intros x I. apply (In_nth l x d) in I. destruct I as [i [L E]]. rewrite <- E. exact (H i L).
Qed.

Section Sketch.
  Context (b : N) (B : bits_ok b) (l : list (list byte)) (h : hll) (K : is_sketch b l h).

  Lemma sketch_register i : (i < length (h_regs h))%nat -> is_register b l (N.of_nat i) (nth i (h_regs h) 0).
  Proof.
    intro L. destruct K as [_ [K2 K3]]. specialize (K3 (N.of_nat i) ltac:(lia)). rewrite Nat2N.id in K3. exact K3.
  Qed.
  Lemma regs_high : Forall (fun r => r <= 33 - b) (h_regs h).
  Proof.
    apply (nth_forall _ _ 0). intros i L. destruct (sketch_register i L) as [_ [E | [s [_ [_ R]]]]]; [lia|]. destruct R as [R _]. lia.
  Qed.
  Lemma regs_low : (forall s, In s l -> ~ zero_tail b s) -> Forall (fun r => r <= 32 - b) (h_regs h).
  Proof.
    intro Z. apply (nth_forall _ _ 0). intros i L. destruct (sketch_register i L) as [_ [E | [s [I [_ R]]]]]; [lia|].
    exact (rank_low b _ _ B R (Z s I)).
  Qed.
  Lemma regs_full : (forall i, i < 2 ^ b -> exists s, In s l /\ bucket b (xxh32 s) = i /\ zero_tail b s) ->
    Forall (fun r => 33 - b <= r) (h_regs h).
  Proof.
    intro Z. apply (nth_forall _ _ 0). intros i L. destruct (sketch_register i L) as [R _].
    destruct K as [_ [K2 _]]. destruct (Z (N.of_nat i) ltac:(lia)) as [s [I [E T]]].
    exact (R s _ I E (rank_zero b _ B T)).
  Qed.

  (* A register is 0 if and only if nothing is in its bucket. *)
  Lemma reg_used i : (i < length (h_regs h))%nat ->
    (nth i (h_regs h) 0 <> 0 <-> exists s, In s l /\ bucket b (xxh32 s) = N.of_nat i).
  Proof.
    intro L. destruct (sketch_register i L) as [R1 R2]. split.
    - intro Z. destruct R2 as [E | [s [I [E _]]]]; [contradiction|eauto].
    - intros [s [I E]]. destruct (rank_exists b (xxh32 s) B (xxh32_lt s)) as [r R].
      specialize (R1 s r I E R). destruct R as [R _]. lia.
  Qed.

  Lemma filter_split {A} (p : A -> bool) (k : list A) : (length (filter p k) + length (filter (fun x => negb (p x)) k) = length k)%nat.
  Proof. induction k as [|a k IH]; [reflexivity|]. cbn [filter]. destruct (p a); cbn [negb length]; lia. Qed.
  Lemma filter_nth (p : N -> bool) (k : list N) : length (filter p k) = length (filter (fun i => p (nth i k 0)) (seq 0 (length k))).
  Proof.
    induction k as [|a k IH]; [reflexivity|]. cbn [length seq filter nth].
    rewrite <- seq_shift, <- (map_id (map S _)) . rewrite map_id.
    assert (E : forall q : nat -> bool, forall t, length (filter q (map S t)) = length (filter (fun i => q (S i)) t)).
    { intros q t. induction t as [|x t IHt]; [reflexivity|]. cbn [map filter]. destruct (q (S x)); cbn [length]; lia. }
    destruct (p a); cbn [length]; rewrite E; cbn [nth]; rewrite IH; reflexivity.
  Qed.

  Lemma zeros_used : zeros (h_regs h) = (2 ^ Z.of_N b - Z.of_nat (length (used b l)))%Z.
  Proof.
    unfold zeros. pose proof (filter_split (N.eqb 0) (h_regs h)) as S.
    assert (U : length (filter (fun x => negb (0 =? x)) (h_regs h)) = length (used b l)).
    { rewrite (filter_nth (fun x => negb (0 =? x))). rewrite <- (map_length N.of_nat). apply Permutation_length.
      apply NoDup_Permutation.
      - apply FinFun.Injective_map_NoDup; [intros x y; apply Nat2N.inj|]. apply NoDup_filter. apply seq_NoDup.
      - apply NoDup_nodup.
      - intro x. unfold used. rewrite nodup_In, !in_map_iff. split.
        + intros [i [<- I]]. apply filter_In in I. destruct I as [I N]. apply in_seq in I.
          apply negb_true_iff, N.eqb_neq in N. destruct (proj1 (reg_used i ltac:(lia)) ltac:(congruence)) as [s [J E]]. eauto.
        + intros [s [E J]]. destruct K as [_ [K2 _]]. pose proof (bucket_lt b (xxh32 s) B (xxh32_lt s)) as L.
          exists (N.to_nat x). split; [apply N2Nat.id|]. apply filter_In. split; [apply in_seq; lia|].
          apply negb_true_iff, N.eqb_neq. intro Z. symmetry in Z. revert Z. apply reg_used; [lia|]. exists s. rewrite N2Nat.id. auto. }
    destruct K as [_ [K2 _]]. rewrite K2 in S. rewrite U in S.
    assert (P : Z.of_nat (N.to_nat (2 ^ b)) = (2 ^ Z.of_N b)%Z) by (rewrite N_nat_Z, N2Z.inj_pow; reflexivity). lia.
  Qed.
End Sketch.
