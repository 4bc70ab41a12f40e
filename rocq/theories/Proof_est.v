(* The estimate of the cardinality sketches: bounds of the floating point computation. *)
From Verif Require Import Common Model_insights Model_est Spec_est.
From Coq Require Import QArith Qabs Qround Lqa Lia.
Import List.
Local Open Scope Q_scope.

(* ---- numbers with few bits ---- *)

Definition rep (q : Q) : Prop := exists n k, (Z.abs n <= 2 ^ 53)%Z /\ (0 <= k <= 1000)%Z /\
  (q == inject_Z n / inject_Z (2 ^ k) \/ q == inject_Z (n * 2 ^ k)).

Lemma pow_pos k : (0 <= k)%Z -> 0 < inject_Z (2 ^ k).
Proof. intro H. change 0 with (inject_Z 0). rewrite <- Zlt_Qlt. apply Z.pow_pos_nonneg; lia. Qed.
Lemma rep_int n : (Z.abs n <= 2 ^ 53)%Z -> rep (inject_Z n).
Proof. intro H. exists n, 0%Z. split; [exact H|]. split; [lia|]. right. rewrite Z.mul_1_r. reflexivity. Qed.

Lemma Qdiv_le_upper a b c : 0 < b -> a <= c * b -> a / b <= c.
Proof. intros B H. apply Qle_shift_div_r; assumption. Qed.
Lemma Qdiv_le_lower a b c : 0 < b -> c * b <= a -> c <= a / b.
Proof. intros B H. apply Qle_shift_div_l; assumption. Qed.

Section Rounding.
  Context (F : arithmetic) (S : sane F).
  Notation rnd := (f_round F).

  Lemma rnd_eq a b : a == b -> rnd a == rnd b.
  Proof. intro E. apply Qle_antisym; apply (s_mono F S); rewrite E; apply Qle_refl. Qed.
  Lemma rnd_rep q : rep q -> rnd q == q.
  Proof.
    intros [n [k [N [K E]]]]. destruct (s_exact F S n k N K) as [E1 E2].
    destruct E as [E | E]; rewrite (rnd_eq _ _ E), E; assumption.
  Qed.
  Lemma rnd_le a c : rep c -> a <= c -> rnd a <= c.
  Proof. intros R H. rewrite <- (rnd_rep c R). apply (s_mono F S). exact H. Qed.
  Lemma rnd_ge a c : rep c -> c <= a -> c <= rnd a.
  Proof. intros R H. rewrite <- (rnd_rep c R). apply (s_mono F S). exact H. Qed.
End Rounding.

Lemma rep_frac n k : (Z.abs n <= 2 ^ 53)%Z -> (0 <= k <= 1000)%Z -> rep (inject_Z n / inject_Z (2 ^ k)).
Proof. intros N K. exists n, k. split; [exact N|]. split; [exact K|]. left. reflexivity. Qed.
Lemma rep_eq a b : a == b -> rep a -> rep b.
Proof. intros E [n [k [N [K H]]]]. exists n, k. split; [exact N|]. split; [exact K|]. rewrite <- E. exact H. Qed.

(* A constant n / 2^k *)
Ltac rep_const n k := apply (rep_eq (inject_Z n / inject_Z (2 ^ k))); [reflexivity|apply rep_frac; lia].

(* ---- the number of registers ---- *)

Record size_ok (m : Q) : Prop := {
  z_low : 16 <= m; z_high : m <= 1073741824;
  z_three : rep ((3 # 4) * m); z_five : rep ((5 # 2) * m); z_one : rep m;
  z_58 : rep ((5 # 8) * m); z_582 : rep ((5 # 8) * (m * m)); z_three2 : rep ((3 # 4) * (m * m)); z_two2 : rep (2 * (m * m))
}.
Lemma registers_ok b : (4 <= b <= 30)%N -> size_ok (registers b).
Proof.
  intro B. unfold registers. set (z := Z.of_N b). assert (Z1 : (4 <= z <= 30)%Z) by (unfold z; lia).
  set (t := (2 ^ (z - 2))%Z).
  assert (E : (2 ^ z = 4 * t)%Z) by (unfold t; change 4%Z with (2 ^ 2)%Z; rewrite <- Z.pow_add_r by lia; f_equal; lia).
  assert (T2 : (t * t = 2 ^ (2 * z - 4))%Z) by (unfold t; rewrite <- Z.pow_add_r by lia; f_equal; lia).
  assert (UP : forall n k, (Z.abs n <= 2 ^ 53)%Z -> (0 <= k <= 1000)%Z -> rep (inject_Z (n * 2 ^ k))).
  { intros n k N K. exists n, k. split; [exact N|]. split; [exact K|]. right. reflexivity. }
  rewrite E.
  constructor.
  - change 16 with (inject_Z 16). rewrite <- Zle_Qle, <- E. change 16%Z with (2 ^ 4)%Z. apply Z.pow_le_mono_r; lia.
  - change 1073741824 with (inject_Z 1073741824). rewrite <- Zle_Qle, <- E. change 1073741824%Z with (2 ^ 30)%Z. apply Z.pow_le_mono_r; lia.
  - apply (rep_eq (inject_Z (3 * t))); [|apply UP; lia]. rewrite !inject_Z_mult. change (inject_Z 4) with 4. change (inject_Z 3) with 3. lra.
  - apply (rep_eq (inject_Z (10 * t))); [|apply UP; lia]. rewrite !inject_Z_mult. change (inject_Z 4) with 4. change (inject_Z 10) with 10. lra.
  - apply UP; lia.
  - apply (rep_eq (inject_Z (5 * 2 ^ (z - 3)))); [|apply UP; lia].
    assert (TT : (t = 2 * 2 ^ (z - 3))%Z) by (unfold t; rewrite <- Z.pow_succ_r by lia; f_equal; lia).
    rewrite TT, !inject_Z_mult. change (inject_Z 4) with 4. change (inject_Z 5) with 5. change (inject_Z 2) with 2. lra.
  - apply (rep_eq (inject_Z (10 * (t * t)))); [|rewrite T2; apply UP; lia]. rewrite !inject_Z_mult. change (inject_Z 4) with 4. change (inject_Z 10) with 10. lra.
  - apply (rep_eq (inject_Z (12 * (t * t)))); [|rewrite T2; apply UP; lia]. rewrite !inject_Z_mult. change (inject_Z 4) with 4. change (inject_Z 12) with 12. lra.
  - apply (rep_eq (inject_Z (32 * (t * t)))); [|rewrite T2; apply UP; lia]. rewrite !inject_Z_mult. change (inject_Z 4) with 4. change (inject_Z 32) with 32. lra.
Qed.

Lemma rep_half : rep (1 # 2). Proof. rep_const 1%Z 1%Z. Qed.
Lemma rep_58 : rep (5 # 8). Proof. rep_const 5%Z 3%Z. Qed.
Lemma rep_34 : rep (3 # 4). Proof. rep_const 3%Z 2%Z. Qed.
Lemma rep_14 : rep (1 # 4). Proof. rep_const 1%Z 2%Z. Qed.
Lemma rep_1 : rep 1. Proof. rep_const 1%Z 0%Z. Qed.
Lemma rep_0 : rep 0. Proof. rep_const 0%Z 0%Z. Qed.

(* ---- alpha ---- *)

Section Alpha.
  Context (F : arithmetic) (S : sane F) (b : N) (B : (4 <= b <= 30)%N).
  Notation rnd := (f_round F).
  Let m := registers b.
  Lemma alpha_bounds : (5 # 8) <= alpha F b <= 3 # 4.
  Proof.
    unfold alpha. destruct (N.eqb_spec b 4) as [_ | N4]; [|destruct (N.eqb_spec b 5) as [_ | N5]; [|destruct (N.eqb_spec b 6) as [_ | N6]]].
    - split; [apply (rnd_ge F S); [exact rep_58|discriminate]|apply (rnd_le F S); [exact rep_34|discriminate]].
    - split; [apply (rnd_ge F S); [exact rep_58|discriminate]|apply (rnd_le F S); [exact rep_34|discriminate]].
    - split; [apply (rnd_ge F S); [exact rep_58|discriminate]|apply (rnd_le F S); [exact rep_34|discriminate]].
    - fold m. assert (M : 128 <= m).
      { unfold m, registers. change 128 with (inject_Z 128). rewrite <- Zle_Qle. change 128%Z with (2 ^ 7)%Z. apply Z.pow_le_mono_r; lia. }
      assert (A1 : (45 # 64) <= rnd (7213 # 10000)) by (apply (rnd_ge F S); [rep_const 45%Z 6%Z|discriminate]).
      assert (A2 : rnd (7213 # 10000) <= 3 # 4) by (apply (rnd_le F S); [exact rep_34|discriminate]).
      assert (C1 : 1 <= rnd (1079 # 1000)) by (apply (rnd_ge F S); [exact rep_1|discriminate]).
      assert (C2 : rnd (1079 # 1000) <= 2) by (apply (rnd_le F S); [rep_const 2%Z 0%Z|discriminate]).
      set (a := rnd (7213 # 10000)) in *. set (c := rnd (1079 # 1000)) in *.
      assert (D1 : 0 <= rnd (c / m)).
      { apply (rnd_ge F S); [exact rep_0|]. apply Qdiv_le_lower; [lra|]. lra. }
      assert (D2 : rnd (c / m) <= 1 # 64).
      { apply (rnd_le F S); [rep_const 1%Z 6%Z|]. apply Qdiv_le_upper; lra. }
      set (d := rnd (c / m)) in *.
      assert (E1 : 1 <= rnd (1 + d)) by (apply (rnd_ge F S); [exact rep_1|lra]).
      assert (E2 : rnd (1 + d) <= 65 # 64) by (apply (rnd_le F S); [rep_const 65%Z 6%Z|lra]).
      set (e := rnd (1 + d)) in *. split.
      + apply (rnd_ge F S); [exact rep_58|]. apply Qdiv_le_lower; lra.
      + apply (rnd_le F S); [exact rep_34|]. apply Qdiv_le_upper; lra.
  Qed.
  Lemma alpha_mm_bounds : (5 # 8) * (m * m) <= alpha_mm F b <= (3 # 4) * (m * m).
  Proof.
    pose proof alpha_bounds as [A1 A2]. pose proof (registers_ok b B) as Z. fold m in Z. pose proof (z_low m Z) as M.
    unfold alpha_mm. fold m. set (a := alpha F b) in *.
    assert (H1 : (5 # 8) * m <= rnd (a * m)) by (apply (rnd_ge F S); [exact (z_58 m Z)|nra]).
    assert (H2 : rnd (a * m) <= (3 # 4) * m) by (apply (rnd_le F S); [exact (z_three m Z)|nra]).
    set (p := rnd (a * m)) in *. split.
    - apply (rnd_ge F S); [exact (z_582 m Z)|nra].
    - apply (rnd_le F S); [exact (z_three2 m Z)|nra].
  Qed.
End Alpha.

(* ---- the sum ---- *)

Lemma pow_split K r : (0 <= r <= K)%Z -> 1 / inject_Z (2 ^ r) == inject_Z (2 ^ (K - r)) / inject_Z (2 ^ K).
Proof.
  intro H. pose proof (pow_pos r ltac:(lia)). pose proof (pow_pos (K - r) ltac:(lia)).
  replace (2 ^ K)%Z with (2 ^ r * 2 ^ (K - r))%Z by (rewrite <- Z.pow_add_r by lia; f_equal; lia).
  rewrite inject_Z_mult. field. split; lra.
Qed.

Lemma sum_exact F (S : sane F) K l : (0 <= K <= 30)%Z -> Forall (fun r => (Z.of_N r <= K)%Z) l -> forall a n,
  a == inject_Z n / inject_Z (2 ^ K) -> (0 <= n)%Z -> (n + Z.of_nat (length l) * 2 ^ K <= 2 ^ 53)%Z ->
  exists s, sum_regs F l a = Ok s /\ s == a + exact_sum l.
Proof.
  intro HK. induction 1 as [|r l R _ IH]; intros a n A N L; cbn [sum_regs exact_sum].
  - exists a. split; [reflexivity|]. ring.
  - assert (SH : shifted r = Ok (2 ^ Z.of_N r)%Z) by (unfold shifted; destruct (N.ltb_spec r 31); [reflexivity|lia]).
    rewrite SH. cbn [bind]. set (z := Z.of_N r) in *. assert (Z0 : (0 <= z)%Z) by (unfold z; lia).
    assert (R1 : f_round F (1 / inject_Z (2 ^ z)) == 1 / inject_Z (2 ^ z)).
    { apply (rnd_rep F S). change 1 with (inject_Z 1) at 1. apply rep_frac; lia. }
    set (d := (2 ^ (K - z))%Z).
    assert (D1 : (0 <= d)%Z) by (unfold d; apply Z.pow_nonneg; lia).
    assert (D2 : (d <= 2 ^ K)%Z) by (unfold d; apply Z.pow_le_mono_r; lia).
    assert (SUM : a + f_round F (1 / inject_Z (2 ^ z)) == inject_Z (n + d) / inject_Z (2 ^ K)).
    { rewrite R1, A, (pow_split K z) by lia. fold d. rewrite inject_Z_plus. field. pose proof (pow_pos K ltac:(lia)). lra. }
    assert (P0 : (0 <= 2 ^ K)%Z) by (apply Z.pow_nonneg; lia).
    cbn [length] in L. rewrite Nat2Z.inj_succ in L.
    assert (R2 : f_round F (a + f_round F (1 / inject_Z (2 ^ z))) == inject_Z (n + d) / inject_Z (2 ^ K)).
    { rewrite (rnd_eq F S _ _ SUM). apply (rnd_rep F S). apply rep_frac; [|lia].
      rewrite Z.abs_eq by lia. assert (0 <= Z.of_nat (length l) * 2 ^ K)%Z by (apply Z.mul_nonneg_nonneg; lia). lia. }
    destruct (IH _ (n + d)%Z R2) as [s [E1 E2]]; [lia|lia|].
    exists s. split; [exact E1|]. rewrite E2, R2, <- SUM, R1. ring.
Qed.

Lemma exact_sum_low l R : Forall (fun r => (r <= R)%N) l -> inject_Z (Z.of_nat (length l)) <= exact_sum l * inject_Z (2 ^ Z.of_N R).
Proof.
  pose proof (pow_pos (Z.of_N R) ltac:(lia)) as P.
  induction 1 as [|r l H _ IH]; cbn [length exact_sum]; [change (inject_Z (Z.of_nat 0)) with 0; lra|].
  rewrite Nat2Z.inj_succ. unfold Z.succ. rewrite inject_Z_plus. change (inject_Z 1) with 1.
  assert (Q1 : 1 <= 1 / inject_Z (2 ^ Z.of_N r) * inject_Z (2 ^ Z.of_N R)).
  { assert (P1 : 0 < inject_Z (2 ^ Z.of_N r)) by (apply pow_pos; lia).
    assert (L : inject_Z (2 ^ Z.of_N r) <= inject_Z (2 ^ Z.of_N R)) by (rewrite <- Zle_Qle; apply Z.pow_le_mono_r; lia).
    setoid_replace (1 / inject_Z (2 ^ Z.of_N r) * inject_Z (2 ^ Z.of_N R)) with (inject_Z (2 ^ Z.of_N R) / inject_Z (2 ^ Z.of_N r)) by (field; lra).
    apply Qdiv_le_lower; lra. }
  lra.
Qed.
Lemma exact_sum_high l R : Forall (fun r => (R <= r)%N) l -> exact_sum l * inject_Z (2 ^ Z.of_N R) <= inject_Z (Z.of_nat (length l)).
Proof.
  pose proof (pow_pos (Z.of_N R) ltac:(lia)) as P.
  induction 1 as [|r l H _ IH]; cbn [length exact_sum]; [change (inject_Z (Z.of_nat 0)) with 0; lra|].
  rewrite Nat2Z.inj_succ. unfold Z.succ. rewrite inject_Z_plus. change (inject_Z 1) with 1.
  assert (Q1 : 1 / inject_Z (2 ^ Z.of_N r) * inject_Z (2 ^ Z.of_N R) <= 1).
  { assert (P1 : 0 < inject_Z (2 ^ Z.of_N r)) by (apply pow_pos; lia).
    assert (L : inject_Z (2 ^ Z.of_N R) <= inject_Z (2 ^ Z.of_N r)) by (rewrite <- Zle_Qle; apply Z.pow_le_mono_r; lia).
    setoid_replace (1 / inject_Z (2 ^ Z.of_N r) * inject_Z (2 ^ Z.of_N R)) with (inject_Z (2 ^ Z.of_N R) / inject_Z (2 ^ Z.of_N r)) by (field; lra).
    apply Qdiv_le_upper; lra. }
  lra.
Qed.
