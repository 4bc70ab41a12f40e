(* Proofs about names: consequences of the natural order, URIs, suffixes, sorting. *)
From Verif Require Import Common Model_names Spec_names Proof_names.
From Coq Require Import Permutation Sorted.

(* ---------------- the order ---------------- *)

Lemma order_good : forall sg, good (fun w => exists s, c_string s /\ w = words s) (wlex sg).
Proof.
  intros sg. destruct (wlex_good sg) as [G1 [G2 G3]].
  split; [|split].
  - intros x y [s [S ->]] [t [T ->]]. apply G1; apply words_valid; trivial.
  - intros x y [s [S ->]] [t [T ->]]. apply G2; apply words_valid; trivial.
  - intros x y z [s [S ->]] [t [T ->]] [u [U ->]]. apply G3; apply words_valid; trivial.
Qed.

Lemma C53_refl_l : forall sg a, c_string a -> strnatcmp sg a a = Eq.
Proof. intros sg a A. rewrite strnatcmp_words by trivial. eapply good_refl; [apply wlex_good|apply words_valid; trivial]. Qed.

Lemma C53_opp_l : forall sg a b, c_string a -> c_string b -> strnatcmp sg b a = CompOpp (strnatcmp sg a b).
Proof. intros sg a b A B. rewrite !strnatcmp_words by trivial. apply wlex_good; apply words_valid; trivial. Qed.

Lemma C53_trans_l : forall sg a b c, c_string a -> c_string b -> c_string c ->
  strnatcmp sg a b <> Gt -> strnatcmp sg b c <> Gt -> strnatcmp sg a c <> Gt.
Proof.
  intros sg a b c A B C. rewrite !strnatcmp_words by trivial.
  eapply good_le; [apply wlex_good|apply words_valid; trivial..].
Qed.

Lemma C53_eq_l : forall sg a b, c_string a -> c_string b -> (strnatcmp sg a b = Eq <-> words a = words b).
Proof.
  intros sg a b A B. rewrite strnatcmp_words by trivial. split.
  - apply wlex_good; apply words_valid; trivial.
  - intros ->. eapply good_refl; [apply wlex_good|apply words_valid; trivial].
Qed.

Definition spell (w : word) : str := match w with W_run d => d | W_char c => [c] end.

Lemma words_spell : forall s, flat_map spell (words s) = filter (fun c => negb (is_space c)) s.
Proof.
  induction s as [|c s IH]; [reflexivity|]. cbn [words filter]. destruct (is_space c); cbn [negb]; [exact IH|]. rewrite <- IH.
  destruct (is_digit c); [|reflexivity]. destruct (is_digit (peek_char s)); [|reflexivity].
  destruct (words s) as [|[d|e] w]; reflexivity.
Qed.

(* ---------------- words of concatenations ---------------- *)

Lemma words_first : forall c s, is_space c = false ->
  exists w l, words (c :: s) = w :: l /\ wfst (Some w) = c /\ (is_digit c = false -> w = W_char c).
Proof.
  intros c s W. destruct (is_digit c) eqn:D.
  - destruct (split_run (c :: s) D) as [d [r [E [D1 D2]]]]. rewrite E, words_run by trivial. exists (W_run d), (words r).
    split; [reflexivity|]. split; [|discriminate]. cbn [wfst]. destruct D1 as [D1 _]. destruct d; [congruence|]. injection E as <- _. reflexivity.
  - cbn [words]. rewrite W, D. exists (W_char c), (words s). auto.
Qed.

Lemma words_app : forall p q, ~ ends_with_digit p \/ ~ starts_with_digit q -> words (p ++ q) = words p ++ words q.
Proof.
  induction p as [|c p IH]; intros q H; [reflexivity|].
  destruct p as [|c2 p].
  - cbn [app words]. destruct (is_space c) eqn:W; [reflexivity|]. destruct (is_digit c) eqn:D; [|reflexivity].
    cbn [peek_char]. change (is_digit 0%N) with false. cbn iota.
    destruct (is_digit (peek_char q)) eqn:Q; [|reflexivity]. exfalso. destruct H as [H|H]; apply H.
    + exists [], c. split; [reflexivity|]. apply is_digit_spec. trivial.
    + destruct q as [|c3 q]; [discriminate|]. exists c3, q. split; [reflexivity|]. apply is_digit_spec. trivial.
  - assert (E : words ((c2 :: p) ++ q) = words (c2 :: p) ++ words q).
    { apply IH. destruct H as [H|H]; [left|right]; trivial. intros [r [d [E D]]]. apply H. exists (c :: r), d. rewrite E. auto. }
    change ((c :: c2 :: p) ++ q) with (c :: ((c2 :: p) ++ q)).
    remember (c2 :: p) as p' eqn:P. cbn [words]. rewrite E.
    assert (PK : peek_char (p' ++ q) = peek_char p') by (subst p'; reflexivity). rewrite PK.
    destruct (is_space c); [reflexivity|]. destruct (is_digit c); [|reflexivity].
    destruct (is_digit (peek_char p')) eqn:D2; [|reflexivity].
    destruct (split_run p' D2) as [d [r [E2 [D3 D4]]]]. rewrite E2, words_run by trivial. reflexivity.
Qed.

Lemma wlex_app : forall sg p u v, wsvalid p -> wlex sg (p ++ u) (p ++ v) = wlex sg u v.
Proof.
  intros sg p u v P. induction P as [|w p W P IH]; [reflexivity|]. cbn [app wlex].
  rewrite (good_refl _ _ _ (wcmp_good sg)) by trivial. exact IH.
Qed.

Lemma C53_difference_l : forall sg p x s y t, c_string (p ++ x :: s) -> c_string (p ++ y :: t) ->
  ~ white x -> ~ white y -> x <> y -> ~ (digit x /\ digit y) ->
  ~ ends_with_digit p \/ (~ digit x /\ ~ digit y) ->
  strnatcmp sg (p ++ x :: s) (p ++ y :: t) = Z.compare (char_value sg x) (char_value sg y).
Proof.
  intros sg p x s y t A B WX WY N D P.
  assert (X : (0 < x < 256)%N). { unfold c_string in A. rewrite Forall_app in A. destruct A as [_ A]. exact (Forall_inv A). }
  assert (Y : (0 < y < 256)%N). { unfold c_string in B. rewrite Forall_app in B. destruct B as [_ B]. exact (Forall_inv B). }
  assert (CP : c_string p). { unfold c_string in A. rewrite Forall_app in A. apply A. }
  rewrite strnatcmp_words by trivial.
  rewrite !words_app.
  2: { destruct P as [P|P]; [left; exact P|right]. intros [c [r [E C]]]. injection E as <- _. tauto. }
  2: { destruct P as [P|P]; [left; exact P|right]. intros [c [r [E C]]]. injection E as <- _. tauto. }
  rewrite wlex_app by (apply words_valid; trivial).
  assert (SX : is_space x = false). { destruct (is_space x) eqn:E; [apply is_space_spec in E; tauto|reflexivity]. }
  assert (SY : is_space y = false). { destruct (is_space y) eqn:E; [apply is_space_spec in E; tauto|reflexivity]. }
  destruct (words_first x s SX) as [w [l [E1 [E2 E3]]]]. destruct (words_first y t SY) as [w' [l' [F1 [F2 F3]]]]. rewrite E1, F1.
  cbn [wlex].
  assert (W : wcmp sg (Some w) (Some w') = Z.compare (char_value sg x) (char_value sg y)).
  { unfold wcmp. rewrite E2, F2. destruct w as [d|c]; [|reflexivity]. destruct w' as [d'|c']; [|reflexivity].
    exfalso. apply D. split; apply is_digit_spec.
    - destruct (is_digit x); [reflexivity|]. discriminate (E3 eq_refl).
    - destruct (is_digit y); [reflexivity|]. discriminate (F3 eq_refl). }
  rewrite W. destruct (Z.compare_spec (char_value sg x) (char_value sg y)); trivial.
  apply cv_inj in H; [congruence|tauto..].
Qed.

Lemma C53_prefix_l : forall sg p y t, c_string (p ++ y :: t) -> ~ white y -> ~ (ends_with_digit p /\ digit y) ->
  strnatcmp sg p (p ++ y :: t) = Z.compare 0 (char_value sg y).
Proof.
  intros sg p y t B WY P.
  assert (Y : (0 < y < 256)%N). { unfold c_string in B. rewrite Forall_app in B. destruct B as [_ B]. exact (Forall_inv B). }
  assert (CP : c_string p). { unfold c_string in B. rewrite Forall_app in B. apply B. }
  rewrite strnatcmp_words by trivial.
  assert (WA : words (p ++ y :: t) = words p ++ words (y :: t)).
  { apply words_app. destruct (is_digit y) eqn:DY.
    - left. intros H. apply P. split; trivial. apply is_digit_spec. trivial.
    - right. intros [c [r [E C]]]. injection E as <- _. apply is_digit_spec in C. congruence. }
  rewrite WA. rewrite <- (app_nil_r (words p)) at 1. rewrite wlex_app by (apply words_valid; trivial).
  assert (SY : is_space y = false). { destruct (is_space y) eqn:E; [apply is_space_spec in E; tauto|reflexivity]. }
  destruct (words_first y t SY) as [w' [l' [F1 [F2 F3]]]]. rewrite F1. cbn [wlex wcmp]. rewrite F2. cbn [wfst]. rewrite cv_0. reflexivity.
Qed.

(* ---------------- numbers ---------------- *)

Lemma value_acc : forall x v, fold_left (fun v c => 10 * v + (c - 48))%N x v = (v * 10 ^ N.of_nat (length x) + value x)%N.
Proof.
  induction x as [|c x IH]; intros v; unfold value; cbn [fold_left length].
  - rewrite N.mul_1_r, N.add_0_r. reflexivity.
  - rewrite (IH (10 * v + (c - 48))%N), (IH (10 * 0 + (c - 48))%N). rewrite Nat2N.inj_succ, N.pow_succ_r'. remember (c - 48)%N as k. ring.
Qed.

Lemma value_cons : forall c x, value (c :: x) = ((c - 48) * 10 ^ N.of_nat (length x) + value x)%N.
Proof. intros c x. unfold value. cbn [fold_left]. rewrite value_acc. unfold value. rewrite N.mul_0_r, N.add_0_l. reflexivity. Qed.

Lemma value_bound : forall x, Forall digit x -> (value x < 10 ^ N.of_nat (length x))%N.
Proof.
  induction 1 as [|c x C X IH]; [cbn; lia|]. rewrite value_cons. cbn [length]. rewrite Nat2N.inj_succ, N.pow_succ_r'.
  unfold digit in C. nia.
Qed.

Lemma value_low : forall c x, digit c -> c <> 48%N -> (10 ^ N.of_nat (length x) <= value (c :: x))%N.
Proof. intros c x C N. rewrite value_cons. unfold digit in C. nia. Qed.

Lemma lexc_value : forall x y, Forall digit x -> Forall digit y -> length x = length y -> (value x < value y)%N -> lexc x y = Lt.
Proof.
  intros x y X. revert y. induction X as [|c x C X IH]; intros y Y L V; destruct Y as [|e y E Y]; cbn in L; try discriminate.
  - injection L as L. rewrite !value_cons in V. rewrite L in V. cbn [lexc]. destruct (N.compare_spec c e); trivial.
    + subst e. apply IH; trivial. apply N.add_lt_mono_l in V. exact V.
    + exfalso. pose proof (value_bound y Y). unfold digit in *. nia.
Qed.

Lemma value_zero : forall x, number x -> zero_first x = true -> x = [48%N] /\ value x = 0%N.
Proof.
  intros [|c x] [X1 [X2 X3]]; [congruence|]. unfold zero_first. cbn [peek_char]. intros Z. apply N.eqb_eq in Z. subst c.
  cbn [hd length] in X3. specialize (X3 eq_refl). destruct x; [|discriminate]. split; reflexivity.
Qed.

Lemma run_cmp_value : forall x y, number x -> number y -> (value x < value y)%N -> run_cmp x y = Lt.
Proof.
  intros x y X Y V. assert (DX : digits x) by (split; apply X). assert (DY : digits y) by (split; apply Y).
  unfold run_cmp. destruct (zero_first y) eqn:ZY.
  - destruct (value_zero y Y ZY) as [_ E]. lia.
  - destruct (zero_first x) eqn:ZX; cbn [orb]; [apply lexc_zero; trivial|].
    unfold shortlex. destruct (Nat.compare_spec (length x) (length y)) as [L|L|L]; trivial.
    + apply lexc_value; trivial; [apply DX|apply DY].
    + exfalso. destruct x as [|c x]; [cbn in L; lia|]. destruct X as [_ [X _]]. pose proof (Forall_inv X) as C.
      pose proof (value_low c x C) as VL. unfold zero_first in ZX. cbn [peek_char] in ZX. apply N.eqb_neq in ZX. specialize (VL ZX).
      pose proof (value_bound y (proj2 DY)) as VB. cbn [length] in L.
      assert (10 ^ N.of_nat (length y) <= 10 ^ N.of_nat (length x))%N by (apply N.pow_le_mono_r; lia). lia.
Qed.

Lemma C53_number_l : forall sg p x s y t, c_string (p ++ x ++ s) -> c_string (p ++ y ++ t) ->
  number x -> number y -> ~ ends_with_digit p -> ~ starts_with_digit s -> ~ starts_with_digit t ->
  (value x < value y)%N -> strnatcmp sg (p ++ x ++ s) (p ++ y ++ t) = Lt.
Proof.
  intros sg p x s y t A B X Y P S T V. rewrite strnatcmp_words by trivial. rewrite !(words_app p) by (left; trivial).
  assert (CP : c_string p). { unfold c_string in A. rewrite Forall_app in A. apply A. }
  rewrite wlex_app by (apply words_valid; trivial).
  assert (K : forall r, ~ starts_with_digit r -> is_digit (peek_char r) = false).
  { intros [|c r] H; [reflexivity|]. cbn. destruct (is_digit c) eqn:D; [|reflexivity]. exfalso. apply H. exists c, r. split; [reflexivity|].
    apply is_digit_spec. trivial. }
  rewrite !words_run; [|split; apply Y|apply K; trivial|split; apply X|apply K; trivial].
  cbn [wlex wcmp]. rewrite run_cmp_value by trivial. reflexivity.
Qed.

(* ---------------- URIs ---------------- *)

Lemma str_eqb_spec : forall a b, str_eqb a b = true <-> a = b.
Proof.
  induction a as [|x a IH]; intros [|y b]; cbn; try (split; congruence).
  rewrite andb_true_iff, N.eqb_eq, IH. split; [intros [-> ->]; reflexivity|intros H; injection H; auto].
Qed.

Lemma find_first_none : forall c s, find_first c s = None <-> ~ In c s.
Proof.
  induction s as [|x s IH]; cbn; [tauto|]. destruct (N.eqb_spec x c).
  - subst. split; [discriminate|tauto].
  - destruct (find_first c s); cbn; split; try discriminate; intuition congruence.
Qed.

Lemma find_first_some : forall c s n, find_first c s = Some n ->
  s = firstn n s ++ c :: skipn (n + 1) s /\ ~ In c (firstn n s) /\ length (firstn n s) = n.
Proof.
  induction s as [|x s IH]; intros n; cbn [find_first]; [discriminate|]. destruct (N.eqb_spec x c).
  - intros H. injection H as <-. subst. cbn. auto.
  - destruct (find_first c s) as [m|] eqn:E; [|discriminate]. cbn [option_map]. intros H. injection H as <-.
    destruct (IH m eq_refl) as [H1 [H2 H3]]. cbn [firstn Nat.add skipn app length In]. split; [f_equal; exact H1|]. split; [tauto|lia].
Qed.

Lemma find_first_app : forall c a b, ~ In c a -> find_first c (a ++ c :: b) = Some (length a).
Proof.
  induction a as [|x a IH]; intros b H; cbn.
  - rewrite N.eqb_refl. reflexivity.
  - destruct (N.eqb_spec x c); [subst; cbn in H; tauto|]. rewrite IH by (cbn in H; tauto). reflexivity.
Qed.

Lemma scheme_test : forall r, (length (s3_scheme ++ r) <? 5) || negb (str_eqb (firstn 5 (s3_scheme ++ r)) s3_scheme) = false.
Proof. intros r. cbn [s3_scheme app firstn]. rewrite (proj2 (str_eqb_spec _ _) eq_refl). destruct (Nat.ltb_spec (length (115 :: 51 :: 58 :: 47 :: 47 :: r)%N) 5) as [H|H]; [cbn in H; lia|reflexivity]. Qed.

Lemma split_scheme : forall r, split_bucket_prefix (s3_scheme ++ r) =
  match r with
  | [] => Throw Invalid_argument
  | _ => match find_first slash r with
         | None => Ok (r, [])
         | Some 0 => Throw Invalid_argument
         | Some pos => Ok (firstn pos r, skipn (pos + 1) r)
         end
  end.
Proof. intros r. unfold split_bucket_prefix. rewrite scheme_test. reflexivity. Qed.

Lemma split_not_scheme : forall uri, (forall r, uri <> s3_scheme ++ r) -> split_bucket_prefix uri = Throw Invalid_argument.
Proof.
  intros uri H. unfold split_bucket_prefix. destruct uri as [|c u]; [reflexivity|]. remember (c :: u) as uri eqn:E.
  destruct ((length uri <? 5) || negb (str_eqb (firstn 5 uri) s3_scheme)) eqn:T; [reflexivity|].
  apply orb_false_iff in T. destruct T as [_ T]. apply negb_false_iff, str_eqb_spec in T.
  exfalso. apply (H (skipn 5 uri)). rewrite <- T. symmetry. apply firstn_skipn.
Qed.

Lemma split_parts : forall b k, b <> [] -> ~ In slash b -> split_bucket_prefix (s3_scheme ++ b ++ slash :: k) = Ok (b, k).
Proof.
  intros b k B N. rewrite split_scheme, find_first_app by trivial. destruct b as [|c b]; [congruence|].
  cbn [app length]. change (c :: b ++ slash :: k) with ((c :: b) ++ slash :: k). change (S (length b)) with (length (c :: b)).
  rewrite firstn_app, firstn_all, Nat.sub_diag. cbn [firstn]. rewrite app_nil_r.
  rewrite skipn_app, skipn_all2 by lia. replace (length (c :: b) + 1 - length (c :: b)) with 1 by lia. reflexivity.
Qed.

Lemma split_bucket : forall b, b <> [] -> ~ In slash b -> split_bucket_prefix (s3_scheme ++ b) = Ok (b, []).
Proof. intros b B N. rewrite split_scheme. apply find_first_none in N. rewrite N. destruct b; [congruence|reflexivity]. Qed.

Lemma split_cases : forall uri,
  (exists b, b <> [] /\ ~ In slash b /\ uri = s3_scheme ++ b /\ split_bucket_prefix uri = Ok (b, [])) \/
  (exists b k, b <> [] /\ ~ In slash b /\ uri = s3_scheme ++ b ++ slash :: k /\ split_bucket_prefix uri = Ok (b, k)) \/
  split_bucket_prefix uri = Throw Invalid_argument.
Proof.
  intros uri. destruct (str_eqb (firstn 5 uri) s3_scheme) eqn:S.
  - apply str_eqb_spec in S. assert (U : uri = s3_scheme ++ skipn 5 uri) by (rewrite <- S; symmetry; apply firstn_skipn).
    remember (skipn 5 uri) as r eqn:R. clear R S. subst uri. destruct r as [|c r].
    + right. right. rewrite split_scheme. reflexivity.
    + destruct (find_first slash (c :: r)) as [n|] eqn:F.
      * destruct n as [|n]; [right; right; rewrite split_scheme, F; reflexivity|]. right. left.
        destruct (find_first_some _ _ _ F) as [H1 [H2 H3]]. remember (firstn (S n) (c :: r)) as b eqn:B.
        remember (skipn (S n + 1) (c :: r)) as k eqn:K. exists b, k. assert (NB : b <> []) by (intros ->; discriminate).
        split; [trivial|]. split; [trivial|]. rewrite H1. split; [reflexivity|]. apply split_parts; trivial.
      * left. exists (c :: r). apply find_first_none in F. split; [discriminate|]. split; [trivial|]. split; [reflexivity|].
        apply split_bucket; trivial. discriminate.
  - right. right. apply split_not_scheme. intros r E. subst uri. assert (X : str_eqb s3_scheme s3_scheme = true) by reflexivity.
    change (firstn 5 (s3_scheme ++ r)) with s3_scheme in S. congruence.
Qed.

Lemma C54_key_l : forall uri,
  (exists b k, b <> [] /\ ~ In slash b /\ k <> [] /\ uri = s3_scheme ++ b ++ [slash] ++ k /\ split_bucket_key uri = Ok (b, k)) \/
  ((forall b k, b <> [] -> ~ In slash b -> k <> [] -> uri <> s3_scheme ++ b ++ [slash] ++ k) /\
   split_bucket_key uri = Throw Invalid_argument).
Proof.
  intros uri. unfold split_bucket_key.
  assert (K : forall b k, b <> [] -> ~ In slash b -> k <> [] -> uri = s3_scheme ++ b ++ [slash] ++ k -> split_bucket_prefix uri = Ok (b, k)).
  { intros b k B N _ ->. apply split_parts; trivial. }
  destruct (split_cases uri) as [[b [B [N [U E]]]]|[[b [k [B [N [U E]]]]]|E]]; rewrite E; cbn [bind].
  - right. split; [|reflexivity]. intros b' k' B' N' K' U'. rewrite (K b' k') in E by trivial. congruence.
  - destruct k as [|c k].
    + right. split; [|reflexivity]. intros b' k' B' N' K' U'. rewrite (K b' k') in E by trivial. congruence.
    + left. exists b, (c :: k). split; [trivial|]. split; [trivial|]. split; [discriminate|]. split; [exact U|reflexivity].
  - right. split; [|reflexivity]. intros b' k' B' N' K' U'. rewrite (K b' k') in E by trivial. discriminate.
Qed.

(* ---------------- suffixes ---------------- *)

Lemma split_end : forall k (p : str), k < length p -> exists a c, p = a ++ c /\ length c = k /\ a <> [].
Proof.
  intros k p L. exists (firstn (length p - k) p), (skipn (length p - k) p). rewrite firstn_skipn, skipn_length. split; [reflexivity|].
  split; [lia|]. intros E. apply (f_equal (@length _)) in E. rewrite firstn_length in E. cbn in E. lia.
Qed.

Lemma nth_back : forall (a c : str) k, k < length c -> nth (length (a ++ c) - (length c - k)) (a ++ c) 0%N = nth k c 0%N.
Proof. intros a c k L. rewrite app_length. replace (length a + length c - (length c - k)) with (length a + k) by lia. rewrite app_nth2_plus. reflexivity. Qed.

Lemma infer_short : forall p, length p <= 3 -> infer_compression p = Co_none.
Proof. intros p L. unfold infer_compression. destruct (Nat.ltb_spec 3 (length p)); [lia|]. destruct (Nat.ltb_spec 4 (length p)); [lia|]. reflexivity. Qed.

Lemma infer_four : forall c0 a x y z, a ++ [c0] <> [] ->
  infer_compression (a ++ [c0; x; y; z]) =
  if (x =? 46)%N then if (y =? 103)%N && (z =? 122)%N then Co_gzip else Co_none
  else if (4 <? length (a ++ [c0; x; y; z])) && (c0 =? 46)%N then
    if (x =? 98)%N && (y =? 122)%N && (z =? 50)%N then Co_bzip2
    else if (x =? 122)%N && (y =? 105)%N && (z =? 112)%N then Co_zip else Co_none
  else Co_none.
Proof.
  intros c0 a x y z _. unfold infer_compression.
  pose proof (nth_back a [c0; x; y; z] 0) as N0. pose proof (nth_back a [c0; x; y; z] 1) as N1.
  pose proof (nth_back a [c0; x; y; z] 2) as N2. pose proof (nth_back a [c0; x; y; z] 3) as N3.
  cbn [length] in N0, N1, N2, N3. change (4 - 0) with 4 in N0. change (4 - 1) with 3 in N1. change (4 - 2) with 2 in N2. change (4 - 3) with 1 in N3.
  rewrite N0, N1, N2, N3 by lia. cbn [nth].
  assert (L : (3 <? length (a ++ [c0; x; y; z])) = true). { apply Nat.ltb_lt. rewrite app_length. cbn. lia. }
  rewrite L. cbn [andb]. reflexivity.
Qed.

Lemma four_end : forall p : str, 3 < length p -> exists a c0 x y z, p = a ++ [c0; x; y; z].
Proof.
  intros p L. exists (firstn (length p - 4) p). pose proof (firstn_skipn (length p - 4) p) as E. pose proof (skipn_length (length p - 4) p) as S.
  destruct (skipn (length p - 4) p) as [|c0 [|x [|y [|z [|? r]]]]]; cbn in S; try lia. exists c0, x, y, z. symmetry. exact E.
Qed.

Lemma app4_inj : forall (a b : str) c0 x y z d0 x' y' z', a ++ [c0; x; y; z] = b ++ [d0; x'; y'; z'] ->
  a = b /\ c0 = d0 /\ x = x' /\ y = y' /\ z = z'.
Proof.
  intros a b c0 x y z d0 x' y' z' E.
  change [c0; x; y; z] with ([c0; x; y] ++ [z]) in E. change [d0; x'; y'; z'] with ([d0; x'; y'] ++ [z']) in E. rewrite !app_assoc in E.
  apply app_inj_tail in E. destruct E as [E <-].
  change [c0; x; y] with ([c0; x] ++ [y]) in E. change [d0; x'; y'] with ([d0; x'] ++ [y']) in E. rewrite !app_assoc in E.
  apply app_inj_tail in E. destruct E as [E <-].
  change [c0; x] with ([c0] ++ [x]) in E. change [d0; x'] with ([d0] ++ [x']) in E. rewrite !app_assoc in E.
  apply app_inj_tail in E. destruct E as [E <-]. apply app_inj_tail in E. destruct E as [E <-]. auto.
Qed.

Lemma ends3 : forall (p : str) c0 a x y z u v w, p = a ++ [c0; x; y; z] -> (ends_in [u; v; w] p <-> x = u /\ y = v /\ z = w).
Proof.
  intros p c0 a x y z u v w ->. split.
  - intros [s [S E]]. destruct (@exists_last _ s S) as [s' [d ->]]. rewrite <- app_assoc in E. cbn [app] in E. apply app4_inj in E. tauto.
  - intros [-> [-> ->]]. exists (a ++ [c0]). split; [destruct a; discriminate|]. rewrite <- app_assoc. reflexivity.
Qed.

Lemma ends4 : forall (p : str) c0 a x y z t u v w, p = a ++ [c0; x; y; z] ->
  (ends_in [t; u; v; w] p <-> (4 < length p /\ c0 = t /\ x = u /\ y = v /\ z = w)).
Proof.
  intros p c0 a x y z t u v w ->. split.
  - intros [s [S E]]. apply app4_inj in E. destruct E as [<- E]. split; [|tauto]. rewrite app_length. destruct a; [congruence|]. cbn. lia.
  - intros [L [-> [-> [-> ->]]]]. exists a. split; [|reflexivity]. intros ->. cbn in L. lia.
Qed.

Lemma not_ends_short : forall (p q : str), length p <= length q -> ~ ends_in q p.
Proof. intros p q L [s [S E]]. subst p. rewrite app_length in L. destruct s; [congruence|]. cbn in L. lia. Qed.

Lemma C55_infer_l : forall p,
  (infer_compression p = Co_gzip <-> ends_in dot_gz p) /\
  (infer_compression p = Co_bzip2 <-> ends_in dot_bz2 p) /\
  (infer_compression p = Co_zip <-> ends_in dot_zip p) /\
  infer_compression p <> Co_infer.
Proof.
  intros p. destruct (le_lt_dec (length p) 3) as [L|L].
  - rewrite infer_short by trivial.
    pose proof (not_ends_short p dot_gz) as H1. pose proof (not_ends_short p dot_bz2) as H2. pose proof (not_ends_short p dot_zip) as H3.
    cbn in H1, H2, H3. specialize (H1 ltac:(lia)). specialize (H2 ltac:(lia)). specialize (H3 ltac:(lia)).
    split; [split; [discriminate|tauto]|]. split; [split; [discriminate|tauto]|]. split; [split; [discriminate|tauto]|discriminate].
  - destruct (four_end p L) as [a [c0 [x [y [z E]]]]].
    unfold dot_gz, dot_bz2, dot_zip. rewrite (ends3 p c0 a x y z) by trivial. rewrite !(ends4 p c0 a x y z) by trivial.
    subst p. rewrite infer_four by (destruct a; discriminate).
    remember (length (a ++ [c0; x; y; z])) as n eqn:EN. clear EN L.
    destruct (N.eqb_spec x 46) as [X|X].
    + subst x. destruct (N.eqb_spec y 103), (N.eqb_spec z 122); cbn [andb];
        (split; [split; intros H; try discriminate H; try tauto; intuition congruence|]);
        (split; [split; intros H; try discriminate H; intuition discriminate|]);
        (split; [split; intros H; try discriminate H; intuition discriminate|discriminate]).
    + destruct (Nat.ltb_spec 4 n), (N.eqb_spec c0 46); cbn [andb];
        try ((split; [split; intros H1; try discriminate H1; intuition lia|]);
             (split; [split; intros H1; try discriminate H1; intuition lia|]);
             (split; [split; intros H1; try discriminate H1; intuition lia|discriminate])).
      destruct (N.eqb_spec x 98), (N.eqb_spec y 122), (N.eqb_spec z 50), (N.eqb_spec x 122), (N.eqb_spec y 105), (N.eqb_spec z 112); cbn [andb];
        (split; [split; intros H1; try discriminate H1; intuition lia|]);
        (split; [split; intros H1; try discriminate H1; intuition lia|]);
        (split; [split; intros H1; try discriminate H1; intuition lia|discriminate]).
Qed.
