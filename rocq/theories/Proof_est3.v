(* The estimate of the cardinality sketches: bounds of the result. *)
From Verif Require Import Common Model_insights Spec_insights Proof_insights Model_est Spec_est Proof_est Proof_est2.
From Coq Require Import QArith Qabs Qround Lqa Lia.
Import List.
Local Open Scope Q_scope.

Lemma small_val : small == 1 / inject_Z (2 ^ 50). Proof. reflexivity. Qed.
Lemma floor_unique x n : inject_Z n <= x -> x < inject_Z n + 1 -> Qfloor x = n.
Proof.
  intros A B. pose proof (Qfloor_le x) as C. pose proof (Qlt_floor x) as D.
  rewrite inject_Z_plus in D. change (inject_Z 1) with 1 in D.
  assert (X : inject_Z (Qfloor x) < inject_Z (n + 1)) by (rewrite inject_Z_plus; change (inject_Z 1) with 1; lra).
  assert (Y : inject_Z n < inject_Z (Qfloor x + 1)) by (rewrite inject_Z_plus; change (inject_Z 1) with 1; lra).
  rewrite <- Zlt_Qlt in X, Y. lia.
Qed.
Lemma sum_zeros l : inject_Z (zeros l) <= exact_sum l.
Proof.
  unfold zeros. induction l as [|r l IH]; cbn [filter exact_sum length]; [apply Qle_refl|].
  assert (P : 0 < 1 / inject_Z (2 ^ Z.of_N r)) by (apply Qlt_shift_div_l; [apply Proof_est.pow_pos; apply N2Z.is_nonneg|rewrite Qmult_0_l; reflexivity]).
  destruct (N.eqb_spec 0 r) as [<- | N]; [|lra]. cbn [length]. rewrite Nat2Z.inj_succ. unfold Z.succ. rewrite inject_Z_plus.
  change (1 / inject_Z (2 ^ Z.of_N 0)) with 1. change (inject_Z 1) with 1. lra.
Qed.

Section Bounds.
  Context (F : arithmetic) (S : sane F) (b : N) (B : bits_ok b) (l : list (list byte)) (h : hll) (K : is_sketch b l h).
  Notation rnd := (f_round F).
  Let m := registers b.
  Let SZm : size_ok m := registers_ok b B.
  Let u : Z := Z.of_nat (length (used b l)).

  Lemma regs_length : inject_Z (Z.of_nat (length (h_regs h))) == m.
  Proof.
    destruct K as [_ [K2 _]]. rewrite K2, N_nat_Z, N2Z.inj_pow. reflexivity.
  Qed.
  Lemma m_pow k : (b + k <= 40)%N -> m * inject_Z (2 ^ Z.of_N k) == inject_Z (2 ^ Z.of_N (b + k)).
  Proof. intro H. unfold m, registers. rewrite <- inject_Z_mult, <- Z.pow_add_r by lia. rewrite N2Z.inj_add. reflexivity. Qed.
  Lemma sum_ok : exists s, sum_regs F (h_regs h) 0 = Ok s /\ s == exact_sum (h_regs h).
  Proof.
    unfold bits_ok in B.
    destruct (sum_exact F S (33 - Z.of_N b) (h_regs h) ltac:(lia)) with (a := 0) (n := 0%Z) as [s [E1 E2]].
    - pose proof (regs_high b l h K) as H. revert H. apply Forall_impl. intros r R. lia.
    - reflexivity.
    - lia.
    - destruct K as [_ [K2 _]]. rewrite K2, N_nat_Z, N2Z.inj_pow, Z.add_0_l, <- Z.pow_add_r by lia.
      replace (Z.of_N b + (33 - Z.of_N b))%Z with 33%Z by lia. lia.
    - exists s. split; [exact E1|]. rewrite E2. ring.
  Qed.
  Lemma sum_high : exact_sum (h_regs h) <= m.
  Proof.
    pose proof (exact_sum_high (h_regs h) 0) as H. change (inject_Z (2 ^ Z.of_N 0)) with 1 in H. rewrite regs_length, Qmult_1_r in H.
    apply H. apply Forall_forall. intros. lia.
  Qed.
  Lemma sum_low k : (k <= 33 - b)%N -> Forall (fun r => (r <= k)%N) (h_regs h) -> m * m <= exact_sum (h_regs h) * inject_Z (2 ^ Z.of_N (b + k)).
  Proof.
    intros LK H. pose proof (exact_sum_low _ _ H) as L. rewrite regs_length in L. unfold bits_ok in B.
    rewrite <- (m_pow k) by lia. pose proof (z_low m SZm) as M.
    setoid_replace (exact_sum (h_regs h) * (m * inject_Z (2 ^ Z.of_N k))) with (exact_sum (h_regs h) * inject_Z (2 ^ Z.of_N k) * m) by ring.
    apply Qmult_le_compat_r; [exact L|lra].
  Qed.
  Lemma sum_pos : 0 < exact_sum (h_regs h).
  Proof.
    pose proof (sum_low (33 - b) ltac:(lia) (regs_high b l h K)) as L. unfold bits_ok in B.
    replace (b + (33 - b))%N with 33%N in L by lia. pose proof (z_low m SZm) as M.
    change (inject_Z (2 ^ Z.of_N 33)) with 8589934592 in L. nra.
  Qed.
  Lemma u_bounds : (0 <= u <= 2 ^ Z.of_N b)%Z.
  Proof. pose proof (zeros_used b B l h K) as E. unfold zeros in E. unfold u. lia. Qed.
  Lemma zeros_eq : inject_Z (zeros (h_regs h)) == m - inject_Z u.
  Proof. rewrite (zeros_used b B l h K). unfold Z.sub. rewrite inject_Z_plus, inject_Z_opp. reflexivity. Qed.

  (* The result for the small range. *)
  Definition counting : Q := rnd (m * f_log F (rnd (m / inject_Z (zeros (h_regs h))))).
  Lemma counting_ok : (zeros (h_regs h) <> 0)%Z ->
    inject_Z u - (1 # 4) <= counting /\ 0 <= counting /\ counting <= 2 * (m * m) /\
    ((4 * u * u <= 2 ^ Z.of_N b)%Z -> counting <= inject_Z u + (3 # 8)).
  Proof.
    intro NZ. set (z := inject_Z (zeros (h_regs h))) in *.
    assert (Z1 : 1 <= z). { unfold z. change 1 with (inject_Z 1). rewrite <- Zle_Qle. unfold zeros in *. lia. }
    pose proof zeros_eq as ZE. fold z in ZE. pose proof u_bounds as UB. pose proof (z_low m SZm) as ML. pose proof (z_high m SZm) as MH.
    assert (U0 : 0 <= inject_Z u) by (change 0 with (inject_Z 0); rewrite <- Zle_Qle; lia).
    unfold counting. fold z.
    assert (X0 : 1 <= m / z) by (apply Qdiv_le_lower; lra).
    assert (X9 : m / z <= m) by (apply Qdiv_le_upper; nra).
    set (x0 := m / z) in *. assert (XZ : x0 * z == m) by (unfold x0; field; lra).
    assert (X1 : 1 <= rnd x0) by (apply (rnd_ge F S); [exact rep_1|exact X0]).
    assert (X2 : rnd x0 <= m) by (apply (rnd_le F S); [exact (z_one m SZm)|exact X9]).
    assert (CL : Qabs (rnd x0 - x0) <= x0 / inject_Z (2 ^ 53)).
    { apply (s_close F S). split.
      - apply Qle_trans with 1; [|exact X0]. apply Qdiv_le_upper; [reflexivity|discriminate].
      - apply Qle_trans with 1073741824; [lra|]. discriminate. }
    apply Qabs_Qle_condition in CL. change (inject_Z (2 ^ 53)) with 9007199254740992 in CL.
    assert (CL' : x0 / 9007199254740992 == x0 * (1 # 9007199254740992)) by (field). rewrite CL' in CL. clear CL'.
    set (x := rnd x0) in *. destruct CL as [CL1 CL2].
    pose proof (s_log_above F S x X1) as [L1 L2]. set (g := f_log F x) in *. rewrite small_val in L1, L2.
    change (1 / inject_Z (2 ^ 50)) with (1 # 1125899906842624) in L1, L2.
    (* v = 1/x *)
    assert (V : exists v, v * x == 1 /\ v == 1 / x) by (exists (1 / x); split; [field; lra|reflexivity]).
    destruct V as [v [V1 V2]]. rewrite <- V2 in L1.
    assert (V0 : 0 < v) by nra. assert (V9 : v <= 1) by nra.
    (* m * v <= z * (1 + 2^-52) *)
    assert (XL : x0 * (1 - (1 # 9007199254740992)) <= x) by lra.
    assert (XU : x <= x0 * (1 + (1 # 9007199254740992))) by lra.
    assert (ZX : m * (1 - (1 # 9007199254740992)) <= x * z).
    { setoid_replace (m * (1 - (1 # 9007199254740992))) with (x0 * (1 - (1 # 9007199254740992)) * z) by (rewrite <- XZ; ring).
      apply Qmult_le_compat_r; [exact XL|lra]. }
    assert (ZU : x * z <= m * (1 + (1 # 9007199254740992))).
    { setoid_replace (m * (1 + (1 # 9007199254740992))) with (x0 * (1 + (1 # 9007199254740992)) * z) by (rewrite <- XZ; ring).
      apply Qmult_le_compat_r; [exact XU|lra]. }
    assert (MV : m * v * (1 - (1 # 9007199254740992)) <= z).
    { setoid_replace z with (x * z * v) by (setoid_replace (x * z * v) with (v * x * z) by ring; rewrite V1; ring).
      setoid_replace (m * v * (1 - (1 # 9007199254740992))) with (m * (1 - (1 # 9007199254740992)) * v) by ring.
      apply Qmult_le_compat_r; [exact ZX|lra]. }
    assert (MV9 : m * v <= m) by nra.
    assert (MVU : m * (1 - v) >= inject_Z u - (1 # 1000)) by lra.
    assert (G0 : 0 <= g) by nra.
    assert (MG1 : m * (1 - v) * (1 - (1 # 1125899906842624)) <= m * g).
    { setoid_replace (m * (1 - v) * (1 - (1 # 1125899906842624))) with ((1 - v) * (1 - (1 # 1125899906842624)) * m) by ring.
      setoid_replace (m * g) with (g * m) by ring. apply Qmult_le_compat_r; [exact L1|lra]. }
    assert (MG2 : m * g <= m * (x - 1) * (1 + (1 # 1125899906842624))).
    { setoid_replace (m * (x - 1) * (1 + (1 # 1125899906842624))) with ((x - 1) * (1 + (1 # 1125899906842624)) * m) by ring.
      setoid_replace (m * g) with (g * m) by ring. apply Qmult_le_compat_r; [exact L2|lra]. }
    assert (W9 : 0 <= m * (1 - v) <= m) by nra.
    assert (UM : (2 ^ Z.of_N b <= 2 ^ 30)%Z) by (apply Z.pow_le_mono_r; unfold bits_ok in B; lia).
    split; [|split; [|split]].
    - apply (rnd_ge F S).
      + apply (rep_eq (inject_Z (4 * u - 1) / inject_Z (2 ^ 2))); [|apply rep_frac; lia].
        unfold Z.sub. rewrite inject_Z_plus, inject_Z_mult. change (inject_Z 4) with 4. change (inject_Z (- (1))) with (- (1)).
        change (inject_Z (2 ^ 2)) with 4. field.
      + lra.
    - apply (rnd_ge F S); [exact rep_0|nra].
    - apply (rnd_le F S); [exact (z_two2 m SZm)|].
      assert (m * (x - 1) <= m * m) by nra. assert (0 <= m * (x - 1)) by nra. lra.
    - intro UU. apply (rnd_le F S).
      + apply (rep_eq (inject_Z (8 * u + 3) / inject_Z (2 ^ 3))); [|apply rep_frac; lia].
        rewrite inject_Z_plus, inject_Z_mult. change (inject_Z 8) with 8. change (inject_Z 3) with 3.
        change (inject_Z (2 ^ 3)) with 8. field.
      + set (q := inject_Z u) in *.
        assert (Q4 : 4 * (q * q) <= m).
        { unfold q, m, registers. change 4 with (inject_Z 4). rewrite <- !inject_Z_mult, <- Zle_Qle. lia. }
        assert (Q1 : 4 * q <= m).
        { destruct (Z_le_gt_dec u 0) as [U1 | U1].
          - assert (q <= 0) by (unfold q; change 0 with (inject_Z 0); rewrite <- Zle_Qle; lia). lra.
          - assert (1 <= q) by (unfold q; change 1 with (inject_Z 1); rewrite <- Zle_Qle; lia). nra. }
        assert (ZM : (3 # 4) * m <= z) by lra.
        (* m x <= m + q + 1/3 + small *)
        assert (W : m * (x - 1) <= q + (11 # 30)).
        { assert (T : m * (x - 1) * z <= (q + (11 # 30)) * z).
          { setoid_replace (m * (x - 1) * z) with (m * (x * z) - m * z) by ring.
            assert (T1 : m * (x * z) <= m * (m * (1 + (1 # 9007199254740992)))) by (apply Qmult_le_l; [lra|exact ZU]).
            assert (T2 : m * (m * (1 + (1 # 9007199254740992))) - m * z == m * q + m * m * (1 # 9007199254740992)) by (rewrite ZE; ring).
            assert (T3 : m * m * (1 # 9007199254740992) <= m * (1 # 1000)) by nra.
            assert (T4 : m * q == z * q + q * q) by (rewrite ZE; ring).
            lra. }
          apply Qmult_lt_0_le_reg_r with z; [lra|exact T]. }
        assert (W0 : 0 <= m * (x - 1)) by nra.
        assert (QB : q <= 1073741824) by lra. lra.
  Qed.

  Definition e_of (s : Q) : Q := rnd (alpha_mm F b / s).
  Lemma estimate_eq s : sum_regs F (h_regs h) 0 = Ok s -> 0 < s ->
    estimate F h = 
      if Qle_bool (e_of s) (rnd ((5 # 2) * m)) then
        if (zeros (h_regs h) =? 0)%Z then Ok (Some (e_of s)) else Ok (Some counting)
      else if negb (Qle_bool (e_of s) (rnd (rnd (1 # 30) * 4294967296))) then
        if Qle_bool (rnd (1 - rnd (e_of s / 4294967296))) 0 then Ok None
        else Ok (Some (rnd (- 4294967296 * f_log F (rnd (1 - rnd (e_of s / 4294967296))))))
      else Ok (Some (e_of s)).
  Proof.
    intros E P. unfold estimate. destruct K as [K1 _]. rewrite E, K1. cbn [bind]. fold m.
    replace (Qeq_bool s 0) with false; [reflexivity|]. symmetry. apply Bool.not_true_iff_false. rewrite Qeq_bool_iff. lra.
  Qed.

  Lemma rnd_five : rnd ((5 # 2) * m) == (5 # 2) * m.
  Proof. apply (rnd_rep F S). exact (z_five m SZm). Qed.
  Lemma rnd_limit : 134217728 <= rnd (rnd (1 # 30) * 4294967296) <= 2147483648.
  Proof.
    assert (A : (1 # 32) <= rnd (1 # 30)) by (apply (rnd_ge F S); [rep_const 1%Z 5%Z|discriminate]).
    assert (C : rnd (1 # 30) <= 1 # 2) by (apply (rnd_le F S); [exact rep_half|discriminate]).
    split; [apply (rnd_ge F S); [rep_const 134217728%Z 0%Z|lra]|apply (rnd_le F S); [rep_const 2147483648%Z 0%Z|lra]].
  Qed.

  Lemma bool_le a c : Qle_bool a c = false -> c < a.
  Proof. intro E. apply Qnot_le_lt. intro H. apply Qle_bool_iff in H. congruence. Qed.

  (* Without strings whose tail is all zeros. *)
  Lemma estimate_ok : Forall (fun r => (r <= 32 - b)%N) (h_regs h) ->
    exists q, estimate F h = Ok (Some q) /\ 0 <= q <= 2 * (m * m) + 17179869184 /\ ((0 < u)%Z -> (3 # 4) <= q).
  Proof.
    intro R. destruct sum_ok as [s [E1 E2]]. pose proof sum_pos as SP. pose proof (sum_low (32 - b) ltac:(lia) R) as SL.
    unfold bits_ok in B. replace (b + (32 - b))%N with 32%N in SL by lia. change (inject_Z (2 ^ Z.of_N 32)) with 4294967296 in SL.
    rewrite <- E2 in SP, SL. rewrite (estimate_eq s E1 SP). pose proof sum_high as SH. rewrite <- E2 in SH.
    pose proof (alpha_mm_bounds F S b B) as [A1 A2]. fold m in A1, A2. pose proof (z_low m SZm) as ML.
    assert (MM : 0 <= m * m) by nra.
    assert (EL : 0 <= e_of s) by (apply (rnd_ge F S); [exact rep_0|apply Qdiv_le_lower; lra]).
    assert (EU : e_of s <= 3221225472).
    { apply (rnd_le F S); [rep_const 3221225472%Z 0%Z|]. apply Qdiv_le_upper; lra. }
    destruct (Qle_bool (e_of s) (rnd ((5 # 2) * m))) eqn:C1.
    - destruct (Z.eqb_spec (zeros (h_regs h)) 0) as [Z0 | Z0].
      + eexists. split; [reflexivity|]. split; [lra|]. intros _.
        apply Qle_trans with m; [lra|]. apply (rnd_ge F S); [exact (z_one m SZm)|]. apply Qdiv_le_lower; [exact SP|].
        pose proof (exact_sum_high (h_regs h) 1) as H. change (inject_Z (2 ^ Z.of_N 1)) with 2 in H. rewrite regs_length, <- E2 in H.
        assert (H1 : s * 2 <= m).
        { apply H. apply Forall_forall. intros r I. destruct (N.eq_dec r 0) as [-> | D]; [|lia]. exfalso. unfold zeros in Z0.
          assert (J : In 0%N (filter (N.eqb 0) (h_regs h))) by (apply filter_In; split; [exact I|reflexivity]).
          destruct (filter (N.eqb 0) (h_regs h)); [destruct J|discriminate]. }
        nra.
      + destruct (counting_ok Z0) as [Q1 [Q2 [Q3 _]]]. eexists. split; [reflexivity|]. split; [lra|].
        intro U. assert (1 <= inject_Z u) by (change 1 with (inject_Z 1); rewrite <- Zle_Qle; lia). lra.
    - apply bool_le in C1. rewrite rnd_five in C1.
      destruct (Qle_bool (e_of s) (rnd (rnd (1 # 30) * 4294967296))) eqn:C2; cbn [negb].
      + eexists. split; [reflexivity|]. split; [lra|]. intros _. lra.
      + apply bool_le in C2. pose proof rnd_limit as [L1 _].
        set (y0 := rnd (e_of s / 4294967296)).
        assert (Y1 : (1 # 32) <= y0) by (apply (rnd_ge F S); [rep_const 1%Z 5%Z|apply Qdiv_le_lower; lra]).
        assert (Y2 : y0 <= 3 # 4) by (apply (rnd_le F S); [exact rep_34|apply Qdiv_le_upper; lra]).
        set (y := rnd (1 - y0)).
        assert (Y3 : (1 # 4) <= y) by (apply (rnd_ge F S); [exact rep_14|lra]).
        assert (Y4 : y <= 31 # 32) by (apply (rnd_le F S); [rep_const 31%Z 5%Z|lra]).
        replace (Qle_bool y 0) with false by (symmetry; apply Bool.not_true_iff_false; rewrite Qle_bool_iff; lra).
        pose proof (s_log_below F S y ltac:(lra)) as [G1 G2]. set (g := f_log F y) in *. rewrite small_val in G1, G2.
        change (1 / inject_Z (2 ^ 50)) with (1 # 1125899906842624) in G1, G2.
        assert (V : 1 / y <= 4) by (apply Qdiv_le_upper; lra).
        assert (G3 : g <= - (1 # 64)) by lra. assert (G4 : - 4 <= g) by lra.
        eexists. split; [reflexivity|].
        assert (T1 : rnd (- 4294967296 * g) <= 17179869184) by (apply (rnd_le F S); [rep_const 17179869184%Z 0%Z|lra]).
        assert (T2 : 1 <= rnd (- 4294967296 * g)) by (apply (rnd_ge F S); [exact rep_1|lra]).
        split; [lra|]. intros _. lra.
  Qed.

  (* Few buckets. *)
  Lemma estimate_few : (4 * u * u <= 2 ^ Z.of_N b)%Z ->
    exists q, estimate F h = Ok (Some q) /\ inject_Z u - (1 # 4) <= q <= inject_Z u + (3 # 8) /\ 0 <= q.
  Proof.
    intro UU. destruct sum_ok as [s [E1 E2]]. pose proof sum_pos as SP. rewrite <- E2 in SP. rewrite (estimate_eq s E1 SP).
    pose proof (alpha_mm_bounds F S b B) as [A1 A2]. fold m in A1, A2. pose proof (z_low m SZm) as ML.
    pose proof zeros_eq as ZE. pose proof (sum_zeros (h_regs h)) as SZ. rewrite <- E2 in SZ. pose proof u_bounds as UB.
    assert (Q1 : 4 * inject_Z u <= m).
    { unfold m, registers. change 4 with (inject_Z 4). rewrite <- inject_Z_mult, <- Zle_Qle. nia. }
    assert (NZ : (zeros (h_regs h) <> 0)%Z) by (intro Z0; rewrite Z0 in ZE; change (inject_Z 0) with 0 in ZE; lra).
    assert (C1 : Qle_bool (e_of s) (rnd ((5 # 2) * m)) = true).
    { apply Qle_bool_iff. rewrite rnd_five. apply Qle_trans with m; [|lra]. apply (rnd_le F S); [exact (z_one m SZm)|].
      apply Qdiv_le_upper; [exact SP|]. nra. }
    rewrite C1. destruct (Z.eqb_spec (zeros (h_regs h)) 0) as [Z0 | _]; [contradiction|].
    destruct (counting_ok NZ) as [H1 [H2 [_ H4]]]. eexists. split; [reflexivity|]. split; [|exact H2]. split; [exact H1|exact (H4 UU)].
  Qed.

  (* Full registers. *)
  Lemma estimate_full : Forall (fun r => (33 - b <= r)%N) (h_regs h) -> estimate F h = Ok None.
  Proof.
    intro R. destruct sum_ok as [s [E1 E2]]. pose proof sum_pos as SP. rewrite <- E2 in SP. rewrite (estimate_eq s E1 SP).
    pose proof (alpha_mm_bounds F S b B) as [A1 A2]. fold m in A1, A2. pose proof (z_low m SZm) as ML. pose proof (z_high m SZm) as MH.
    pose proof (exact_sum_high _ _ R) as H. rewrite regs_length, <- E2 in H.
    assert (H1 : s * 8589934592 <= m * m).
    { unfold bits_ok in B. pose proof (m_pow (33 - b) ltac:(lia)) as P. replace (b + (33 - b))%N with 33%N in P by lia.
      change (inject_Z (2 ^ Z.of_N 33)) with 8589934592 in P. rewrite <- P.
      setoid_replace (s * (m * inject_Z (2 ^ Z.of_N (33 - b)))) with (s * inject_Z (2 ^ Z.of_N (33 - b)) * m) by ring.
      apply Qmult_le_compat_r; [exact H|lra]. }
    assert (EL : 5368709120 <= e_of s).
    { apply (rnd_ge F S); [rep_const 5368709120%Z 0%Z|]. apply Qdiv_le_lower; lra. }
    replace (Qle_bool (e_of s) (rnd ((5 # 2) * m))) with false
      by (symmetry; apply Bool.not_true_iff_false; rewrite Qle_bool_iff, rnd_five; lra).
    pose proof rnd_limit as [_ L2].
    replace (Qle_bool (e_of s) (rnd (rnd (1 # 30) * 4294967296))) with false
      by (symmetry; apply Bool.not_true_iff_false; rewrite Qle_bool_iff; lra).
    cbn [negb].
    assert (Y1 : 1 <= rnd (e_of s / 4294967296)) by (apply (rnd_ge F S); [exact rep_1|apply Qdiv_le_lower; lra]).
    assert (Y2 : rnd (1 - rnd (e_of s / 4294967296)) <= 0) by (apply (rnd_le F S); [exact rep_0|lra]).
    apply Qle_bool_iff in Y2. rewrite Y2. reflexivity.
  Qed.
End Bounds.
