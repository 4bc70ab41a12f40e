(* The hash program computes the hash of the string's bytes, on every machine. *)
From Verif Require Import Common Model_insights Model_xxh Spec_xxh.
From Coq Require Import Lia.
Import List.
Local Open Scope N_scope.

(* ---- words of a string ---- *)

Definition at8 (s : list byte) (k : nat) : N := nth k s 0.
Definition at32 (s : list byte) (k : nat) : N :=
  get32 (at8 s k) (at8 s (k + 1)) (at8 s (k + 2)) (at8 s (k + 3)).

Lemma read8_ok s p : (N.to_nat p < length s)%nat -> read8 s p = Ok (at8 s (N.to_nat p)).
Proof.
  intro H. unfold read8, at8. destruct (nth_error s (N.to_nat p)) eqn:E.
  - f_equal. symmetry. apply nth_error_nth. exact E.
  - apply nth_error_None in E. lia.
Qed.

Lemma bytes_at s k : bytes s -> at8 s k < 256.
Proof.
  intro B. unfold at8. destruct (Nat.lt_ge_cases k (length s)) as [L | L].
  - unfold bytes in B. rewrite Forall_forall in B. apply B. apply nth_In. exact L.
  - rewrite nth_overflow by exact L. reflexivity.
Qed.

Lemma byte_bit a i : a < 256 -> 8 <= i -> N.testbit a i = false.
Proof.
  intros A I. destruct (N.eq_dec a 0) as [-> | Z]; [apply N.bits_0|].
  apply N.bits_above_log2. assert (N.log2 a < 8); [|lia].
  apply N.log2_lt_pow2; [lia|]. exact A.
Qed.

Lemma get32_lor a b c d : a < 256 -> b < 256 -> c < 256 -> d < 256 ->
  get32 a b c d = N.lor (N.lor a (N.shiftl b 8)) (N.lor (N.shiftl c 16) (N.shiftl d 24)).
Proof.
  intros A B C D. unfold get32.
  assert (J : forall x y, x < 256 -> x + 256 * y = N.lor x (N.shiftl y 8)).
  { intros x y X. rewrite (N.shiftl_mul_pow2 y 8). change (2 ^ 8) with 256. rewrite (N.mul_comm y 256).
    rewrite <- N.lxor_lor, <- N.add_nocarry_lxor; try reflexivity;
    apply N.bits_inj; intro i; rewrite N.land_spec, N.bits_0;
    replace (256 * y) with (N.shiftl y 8) by (rewrite N.shiftl_mul_pow2; change (2 ^ 8) with 256; lia);
    (destruct (N.lt_ge_cases i 8) as [I | I];
     [rewrite N.shiftl_spec_low by exact I; apply Bool.andb_false_r
     |rewrite (byte_bit x i X I); reflexivity]). }
  rewrite !J by assumption.
  rewrite !N.shiftl_lor, !N.shiftl_shiftl. change (8 + 8) with 16. change (16 + 8) with 24.
  rewrite !N.lor_assoc. reflexivity.
Qed.

Ltac bitof x r := repeat match goal with |- context [N.testbit x ?j] =>
  tryif constr_eq j r then fail else
  first [ replace (N.testbit x j) with (N.testbit x r) by (f_equal; lia)
        | replace (N.testbit x j) with false by (symmetry; apply byte_bit; [assumption|lia]) ] end.

Lemma swap_get a b c d : a < 256 -> b < 256 -> c < 256 -> d < 256 ->
  swap32 (get32 d c b a) = get32 a b c d.
Proof.
  intros A B C D.
  assert (W : forall x i, N.testbit (w32 x) i = (i <? 32) && N.testbit x i).
  { intros x i. unfold w32. change 4294967296 with (2 ^ 32).
    destruct (N.ltb_spec i 32) as [L | L]; cbn [andb].
    - apply N.mod_pow2_bits_low. exact L.
    - apply N.mod_pow2_bits_high. exact L. }
  assert (M : forall lo n i, N.testbit (N.shiftl (N.ones n) lo) i = (lo <=? i) && (i <? lo + n)).
  { intros lo n i. destruct (N.leb_spec lo i) as [L | L]; cbn [andb].
    - rewrite N.shiftl_spec_high' by exact L. destruct (N.ltb_spec i (lo + n)) as [U | U].
      + apply N.ones_spec_low. lia.
      + apply N.ones_spec_high. lia.
    - apply N.shiftl_spec_low. exact L. }
  assert (S : forall x k i, N.testbit (N.shiftl x k) i = (k <=? i) && N.testbit x (i - k)).
  { intros x k i. destruct (N.leb_spec k i) as [L | L]; cbn [andb].
    - apply N.shiftl_spec_high'. exact L.
    - apply N.shiftl_spec_low. exact L. }
  rewrite !get32_lor by assumption. apply N.bits_inj. intro i. unfold swap32.
  change 4278190080 with (N.shiftl (N.ones 8) 24).
  change 16711680 with (N.shiftl (N.ones 8) 16).
  change 65280 with (N.shiftl (N.ones 8) 8).
  change 255 with (N.shiftl (N.ones 8) 0).
  rewrite !N.lor_spec, !N.land_spec, !M, !W, !S, !N.shiftr_spec', !N.lor_spec, !S.
  assert (K : forall x j, x < 256 -> N.testbit x j = (j <? 8) && N.testbit x j).
  { intros x j X. destruct (N.ltb_spec j 8) as [L | L]; [reflexivity|]. apply byte_bit; assumption. }
  destruct (N.lt_ge_cases i 32) as [I | I].
  2: { rewrite (byte_bit a i A), (byte_bit b (i - 8) B), (byte_bit c (i - 16) C), (byte_bit d (i - 24) D) by lia.
       replace (i <? 24 + 8) with false by lia. replace (i <? 16 + 8) with false by lia.
       replace (i <? 8 + 8) with false by lia. replace (i <? 0 + 8) with false by lia.
       rewrite !Bool.andb_false_r. reflexivity. }
  assert (E : exists k r, i = 8 * k + r /\ r < 8 /\ k < 4).
  { exists (i / 8), (i mod 8). pose proof (N.div_mod i 8). pose proof (N.mod_lt i 8).
    repeat split; lia. }
  destruct E as [k [r [-> [R L]]]].
  assert (F : k = 0 \/ k = 1 \/ k = 2 \/ k = 3) by lia.
  Local Ltac bit t := first [ replace t with true by lia | replace t with false by lia ].
  Local Ltac bits := repeat match goal with
    | |- context [?x <=? ?y] => bit (x <=? y)
    | |- context [?x <? ?y] => bit (x <? y) end; cbn [andb orb].
  destruct F as [-> | [-> | [-> | ->]]]; cbn [N.mul Pos.mul]; bits;
    rewrite ?Bool.andb_false_r, ?Bool.orb_false_r, ?Bool.orb_false_l, ?Bool.andb_true_r.
  all: bitof a r; bitof b r; bitof c r; bitof d r.
  all: rewrite ?Bool.andb_false_r, ?Bool.orb_false_r, ?Bool.orb_false_l, ?Bool.andb_true_r; try reflexivity.
Qed.

Lemma skipn_at s k : (k < length s)%nat -> skipn k s = at8 s k :: skipn (k + 1) s.
Proof.
  revert k. induction s as [|c s IH]; intros k L; cbn [length] in L; [lia|].
  destruct k as [|k]; [reflexivity|]. cbn [skipn Nat.add]. rewrite IH by lia. reflexivity.
Qed.

Definition step1 (h a : N) : N := w32 (rotl32 (w32 (h + a * prime5)) 11 * prime1).
Definition step4 (h x : N) : N := w32 (rotl32 (w32 (h + x * prime3)) 17 * prime4).

Lemma finalize_4 h s k : (k + 4 <= length s)%nat ->
  xxh_finalize h (skipn k s) = xxh_finalize (step4 h (at32 s k)) (skipn (k + 4) s).
Proof.
  intro L. rewrite (skipn_at s k) by lia. rewrite (skipn_at s (k + 1)) by lia.
  rewrite (skipn_at s (k + 1 + 1)) by lia. rewrite (skipn_at s (k + 1 + 1 + 1)) by lia.
  cbn [xxh_finalize]. unfold step4, at32.
  replace (k + 1 + 1)%nat with (k + 2)%nat by lia. replace (k + 2 + 1)%nat with (k + 3)%nat by lia.
  replace (k + 3 + 1)%nat with (k + 4)%nat by lia. reflexivity.
Qed.

Lemma finalize_few h s : (length s < 4)%nat -> xxh_finalize h s = xxh_finalize1 h s.
Proof.
  intro L. destruct s as [|a [|b [|c [|d s]]]]; try reflexivity. cbn [length] in L. lia.
Qed.

Lemma finalize_1 h s k : (k < length s)%nat -> (length s < k + 4)%nat ->
  xxh_finalize h (skipn k s) = xxh_finalize (step1 h (at8 s k)) (skipn (k + 1) s).
Proof.
  intros L U. rewrite !finalize_few by (rewrite skipn_length; lia).
  rewrite (skipn_at s k) by exact L. reflexivity.
Qed.

Definition good_at (m : machine) (al : alignment) (p : N) : Prop := al = Aligned -> (m_address m + p) mod 4 = 0.

Lemma good_4 m al p k : good_at m al p -> good_at m al (p + 4 * k).
Proof.
  intros G E. specialize (G E). rewrite N.add_assoc. rewrite (N.mul_comm 4 k), N.mod_add by lia. exact G.
Qed.

Section Walk.
  Context (m : machine) (al : alignment) (s : list byte) (B : bytes s).

  Lemma read32_ok p : (N.to_nat p + 4 <= length s)%nat -> good_at m al p ->
    read_le32_align m al s p = Ok (at32 s (N.to_nat p)).
  Proof.
    intros L G.
    assert (R : (let* x := read32 m s p in Ok (if m_little m then x else swap32 x)) = Ok (at32 s (N.to_nat p))).
    { unfold read32. rewrite !read8_ok by lia. cbn [bind].
      replace (N.to_nat (p + 1)) with (N.to_nat p + 1)%nat by lia.
      replace (N.to_nat (p + 2)) with (N.to_nat p + 2)%nat by lia.
      replace (N.to_nat (p + 3)) with (N.to_nat p + 3)%nat by lia.
      destruct (m_little m); [reflexivity|]. rewrite swap_get by (apply bytes_at; exact B). reflexivity. }
    destruct al; cbn [read_le32_align].
    - rewrite (proj2 (N.eqb_eq _ _) (G eq_refl)). exact R.
    - exact R.
  Qed.

  Lemma process4_ok h p : (N.to_nat p + 4 <= length s)%nat -> good_at m al p ->
    process4 m al s (h, p) = Ok (step4 h (at32 s (N.to_nat p)), p + 4).
  Proof. intros L G. unfold process4. rewrite read32_ok by assumption. reflexivity. Qed.

  Lemma process1_ok h p : (N.to_nat p < length s)%nat ->
    process1 s (h, p) = Ok (step1 h (at8 s (N.to_nat p)), p + 1).
  Proof. intro L. unfold process1. rewrite read8_ok by exact L. reflexivity. Qed.

  Definition does (r : nat) (k : cursor -> res N) : Prop :=
    forall h p, (N.to_nat p + r = length s)%nat -> (4 <= r -> good_at m al p)%nat ->
    k (h, p) = Ok (xxh_finalize h (skipn (N.to_nat p) s)).

  Lemma does_finish : does 0 finish.
  Proof.
    intros h p L _. unfold finish. cbn [fst]. rewrite skipn_all2 by lia. reflexivity.
  Qed.
  Lemma does_four r k : does r k -> does (S (S (S (S r)))) (four m al s k).
  Proof.
    intros D h p L G. specialize (G ltac:(lia)). unfold four. rewrite process4_ok by (assumption || lia). cbn [bind].
    rewrite D.
    - rewrite (finalize_4 h s (N.to_nat p)) by lia. do 3 f_equal. lia.
    - lia.
    - intros _. exact (good_4 m al p 1 G).
  Qed.
  Lemma does_one r k : (r < 3)%nat -> does r k -> does (S r) (one s k).
  Proof.
    intros R D h p L G. unfold one. rewrite process1_ok by lia. cbn [bind]. rewrite D.
    - rewrite (finalize_1 h s (N.to_nat p)) by lia. do 3 f_equal. lia.
    - lia.
    - lia.
  Qed.

  Lemma land_small n : n < 16 -> N.land n 15 = n.
  Proof.
    intro H. change 15 with (N.ones 4). rewrite N.land_ones. apply N.mod_small. exact H.
  Qed.

  Ltac walk := repeat first [ apply does_finish | apply does_four | apply does_one; [lia|] ].

  Lemma table_ok n h p : n < 16 -> (N.to_nat p + N.to_nat n = length s)%nat -> good_at m al p ->
    table m al s (h, p) n = Ok (xxh_finalize h (skipn (N.to_nat p) s)).
  Proof.
    intros L E G. unfold table. rewrite land_small by exact L.
    assert (H : exists k, N.to_nat n = k /\ (k < 16)%nat) by (exists (N.to_nat n); lia).
    destruct H as [k [K U]]. rewrite K in *.
    do 16 (destruct k as [|k]; [match goal with |- ?f (h, p) = _ =>
       match type of E with (_ + ?r = _)%nat => assert (D : does r f) by walk; exact (D h p E (fun _ => G)) end end|]).
    lia.
  Qed.

  Lemma compact_table n st : n < 16 -> compact m al s st n = table m al s st n.
  Proof.
    intro L. unfold table, compact. rewrite land_small by exact L.
    assert (H : exists k, N.to_nat n = k /\ (k < 16)%nat) by (exists (N.to_nat n); lia).
    destruct H as [k [K U]]. replace n with (N.of_nat k) by lia. rewrite Nnat.Nat2N.id. clear K L n.
    do 16 (destruct k as [|k]; [
      cbn [loop4 loop1 N.of_nat Pos.of_succ_nat Pos.succ N.leb N.ltb N.compare Pos.compare Pos.compare_cont N.sub Pos.sub_mask
           Pos.double_mask Pos.succ_double_mask Pos.double_pred_mask Pos.pred_double bind fst snd];
      cbv beta delta [case0 case1 case2 case3 case4 case5 case6 case7 case8 case9 case10 case11 case12 case13 case14 case15
        four one finish];
      repeat (match goal with |- context [process4 m al s ?x] => destruct (process4 m al s x) end; cbn [bind fst snd]);
      cbn [loop1 N.ltb N.compare Pos.compare Pos.compare_cont N.sub Pos.sub_mask Pos.pred_mask Pos.pred_double
           Pos.double_mask Pos.succ_double_mask Pos.double_pred_mask bind fst snd];
      repeat (match goal with |- context [process1 s ?x] => destruct (process1 s x) end; cbn [bind fst snd]);
      reflexivity|]).
    lia.
  Qed.

  Lemma finalize_ok n h p : n < 16 -> (N.to_nat p + N.to_nat n = length s)%nat -> good_at m al p ->
    finalize m al s (h, p) n = Ok (xxh_finalize h (skipn (N.to_nat p) s)).
  Proof.
    intros L E G. unfold finalize. rewrite compact_table by exact L.
    destruct (m_reroll m); apply table_ok; assumption.
  Qed.
End Walk.

(* ---- the blocks ---- *)

Definition joined (v : lanes) : N :=
  let '(v1, v2, v3, v4) := v in w32 (rotl32 v1 1 + rotl32 v2 7 + rotl32 v3 12 + rotl32 v4 18).

Lemma blocks_16 v1 v2 v3 v4 s k : (k + 16 <= length s)%nat ->
  xxh_blocks v1 v2 v3 v4 (skipn k s) =
  xxh_blocks (xxh_round v1 (at32 s k)) (xxh_round v2 (at32 s (k + 4)))
             (xxh_round v3 (at32 s (k + 8))) (xxh_round v4 (at32 s (k + 12))) (skipn (k + 16) s).
Proof.
  intro L. unfold at32. rewrite <- !Nat.add_assoc. cbn [Nat.add].
  assert (E : skipn k s = at8 s k :: at8 s (k + 1) :: at8 s (k + 2) :: at8 s (k + 3) ::
     at8 s (k + 4) :: at8 s (k + 5) :: at8 s (k + 6) :: at8 s (k + 7) ::
     at8 s (k + 8) :: at8 s (k + 9) :: at8 s (k + 10) :: at8 s (k + 11) ::
     at8 s (k + 12) :: at8 s (k + 13) :: at8 s (k + 14) :: at8 s (k + 15) :: skipn (k + 16) s).
  { rewrite (skipn_at s k) by lia.
    do 15 (match goal with |- context [skipn ?j s = _] => rewrite (skipn_at s j) by lia
           | |- context [skipn (?j + 1) s] => rewrite (skipn_at s (j + 1)) by lia end).
    rewrite <- !Nat.add_assoc. reflexivity. }
  rewrite E. reflexivity.
Qed.

Lemma blocks_few v1 v2 v3 v4 s : (length s < 16)%nat ->
  xxh_blocks v1 v2 v3 v4 s = (joined (v1, v2, v3, v4), s).
Proof.
  intro L. do 16 (destruct s as [|? s]; [reflexivity|]). cbn [length] in L. lia.
Qed.

Lemma blocks_ok m al s (B : bytes s) : forall n v1 v2 v3 v4 p,
  (N.to_nat p + 16 <= length s)%nat -> (length s < N.to_nat p + 16 * S n)%nat -> (N.to_nat p mod 16 = 0)%nat ->
  good_at m al p ->
  exists v p', blocks n m al s (N.of_nat (length s) - 15) (v1, v2, v3, v4) p = Ok (v, p') /\
    xxh_blocks v1 v2 v3 v4 (skipn (N.to_nat p) s) = (joined v, skipn (N.to_nat p') s) /\
    (N.to_nat p' <= length s)%nat /\ (length s < N.to_nat p' + 16)%nat /\ (N.to_nat p' mod 16 = 0)%nat /\ good_at m al p'.
Proof.
  induction n as [|n IH]; intros v1 v2 v3 v4 p L F M G; [lia|].
  cbn [blocks].
  rewrite (read32_ok m al s B p) by (assumption || lia).
  rewrite (read32_ok m al s B (p + 4)) by (lia || exact (good_4 m al p 1 G)).
  rewrite (read32_ok m al s B (p + 8)) by (lia || exact (good_4 m al p 2 G)).
  rewrite (read32_ok m al s B (p + 12)) by (lia || exact (good_4 m al p 3 G)).
  cbn [bind]. rewrite (blocks_16 v1 v2 v3 v4 s (N.to_nat p) L).
  replace (N.to_nat (p + 4)) with (N.to_nat p + 4)%nat by lia.
  replace (N.to_nat (p + 8)) with (N.to_nat p + 8)%nat by lia.
  replace (N.to_nat (p + 12)) with (N.to_nat p + 12)%nat by lia.
  replace (N.to_nat p + 16)%nat with (N.to_nat (p + 16)) by lia.
  assert (G' : good_at m al (p + 16)) by exact (good_4 m al p 4 G).
  assert (M' : (N.to_nat (p + 16) mod 16 = 0)%nat).
  { replace (N.to_nat (p + 16)) with (N.to_nat p + 1 * 16)%nat by lia. rewrite Nat.mod_add by lia. exact M. }
  destruct (N.ltb_spec (p + 16) (N.of_nat (length s) - 15)) as [C | C].
  - apply IH; try assumption; lia.
  - eexists _, (p + 16). split; [reflexivity|]. rewrite blocks_few by (rewrite skipn_length; lia).
    repeat split; try assumption; lia.
Qed.

(* ---- the whole hash ---- *)

Lemma w32_small x : x < 4294967296 -> w32 x = x.
Proof. apply N.mod_small. Qed.

Lemma endian_align_ok m al s : bytes s -> good_at m al 0 -> endian_align m al s 0 = Ok (xxh32 s).
Proof.
  intros B G. unfold endian_align, xxh32.
  assert (T : N.land (N.of_nat (length s)) 15 = N.of_nat (length s mod 16)).
  { change 15 with (N.ones 4). rewrite N.land_ones. change (2 ^ 4) with 16.
    change 16 with (N.of_nat 16). rewrite <- Nnat.Nat2N.inj_mod. reflexivity. }
  rewrite T. assert (U : (length s mod 16 < 16)%nat) by (apply Nat.mod_upper_bound; lia).
  destruct (N.leb_spec 16 (N.of_nat (length s))) as [L | L].
  - destruct (blocks_ok m al s B (length s) (w32 (0 + prime1 + prime2)) (w32 (0 + prime2)) (w32 (0 + 0))
      (w32 (0 + 4294967296 - prime1)) 0) as [v [p [E [J [P [Q [M G']]]]]]]; try assumption; try lia.
    rewrite E. cbn [bind]. destruct v as [[[v1 v2] v3] v4]. cbn [bind fst snd].
    cbn [N.to_nat skipn] in J. change (w32 (0 + prime1 + prime2)) with (w32 (prime1 + prime2)) in J.
    change (w32 (0 + prime2)) with prime2 in J. change (w32 (0 + 0)) with 0 in J.
    change (w32 (0 + 4294967296 - prime1)) with (w32 (4294967296 - prime1)) in J.
    rewrite J. apply finalize_ok; try assumption; try lia.
  - cbn [bind fst snd]. change (w32 (0 + prime5)) with prime5.
    rewrite (finalize_ok m al s B) ; [reflexivity| lia | | exact G].
    rewrite Nat.mod_small by lia. lia.
Qed.

Theorem hash32_ok m s : bytes s -> hash32 m s 0 = Ok (xxh32 s).
Proof.
  intro B. unfold hash32. destruct (m_check m).
  - destruct (N.eqb_spec (N.land (m_address m) 3) 0) as [A | A]; apply endian_align_ok; try exact B.
    + intros _. rewrite N.add_0_r. change 3 with (N.ones 2) in A. rewrite N.land_ones in A. exact A.
    + discriminate.
  - apply endian_align_ok; [exact B|discriminate].
Qed.
