(* Proofs about names: the natural order. *)
From Verif Require Import Common Model_names Spec_names.
From Coq Require Import Permutation.

(* ---------------- characters ---------------- *)

Lemma is_digit_spec : forall c, is_digit c = true <-> digit c.
Proof. intros c. unfold is_digit, digit. rewrite andb_true_iff, !N.leb_le. tauto. Qed.

Lemma is_space_spec : forall c, is_space c = true <-> white c.
Proof. intros c. unfold is_space, white. rewrite orb_true_iff, andb_true_iff, !N.leb_le, N.eqb_eq. tauto. Qed.

Lemma digit_not_space : forall c, is_digit c = true -> is_space c = false.
Proof. intros c. unfold is_digit, is_space. lia. Qed.

Lemma cv_inj : forall sg a b, (a < 256)%N -> (b < 256)%N -> char_value sg a = char_value sg b -> a = b.
Proof.
  intros sg a b A B. unfold char_value.
  destruct sg, (N.leb_spec 128 a), (N.leb_spec 128 b); cbn [andb]; lia.
Qed.

Lemma cv_zero : forall sg a, (0 < a < 256)%N -> char_value sg a <> 0%Z.
Proof. intros sg a A. unfold char_value. destruct sg, (N.leb_spec 128 a); cbn [andb]; lia. Qed.

Lemma cv_0 : forall sg, char_value sg 0 = 0%Z.
Proof. intros [|]; reflexivity. Qed.

Lemma cv_digit : forall sg a, is_digit a = true -> char_value sg a = Z.of_N a.
Proof.
  intros sg a A. apply is_digit_spec in A. unfold digit in A. unfold char_value.
  destruct sg, (N.leb_spec 128 a); cbn [andb]; lia.
Qed.

Lemma cv_other : forall sg a, (a < 256)%N -> is_digit a = false ->
  (char_value sg a < 48 \/ 57 < char_value sg a)%Z.
Proof.
  intros sg a A B. unfold is_digit in B. unfold char_value. destruct sg, (N.leb_spec 128 a); cbn [andb]; lia.
Qed.

Lemma if_compare : forall (T : Type) x y (a b c : T),
  (if (x <? y)%Z then a else if (y <? x)%Z then b else c) =
  match Z.compare x y with Lt => a | Gt => b | Eq => c end.
Proof.
  intros T x y a b c. destruct (Z.compare_spec x y).
  - subst. rewrite Z.ltb_irrefl. reflexivity.
  - destruct (Z.ltb_spec x y); [reflexivity|lia].
  - destruct (Z.ltb_spec x y); [lia|]. destruct (Z.ltb_spec y x); [reflexivity|lia].
Qed.

(* ---------------- comparisons ---------------- *)

Definition good {A : Type} (P : A -> Prop) (f : A -> A -> comparison) : Prop :=
  (forall x y, P x -> P y -> f y x = CompOpp (f x y)) /\
  (forall x y, P x -> P y -> f x y = Eq -> x = y) /\
  (forall x y z, P x -> P y -> P z -> f x y = Lt -> f y z = Lt -> f x z = Lt).

Lemma good_refl : forall A P (f : A -> A -> comparison), good P f -> forall x, P x -> f x x = Eq.
Proof. intros A P f [H _] x X. specialize (H x x X X). destruct (f x x); [reflexivity|discriminate..]. Qed.

Lemma good_le : forall A P (f : A -> A -> comparison), good P f ->
  forall x y z, P x -> P y -> P z -> f x y <> Gt -> f y z <> Gt -> f x z <> Gt.
Proof.
  intros A P f G x y z X Y Z H1 H2. pose proof G as [G1 [G2 G3]].
  destruct (f x y) eqn:E1; [|clear H1|congruence].
  - apply G2 in E1; trivial. subst. exact H2.
  - destruct (f y z) eqn:E2; [| |congruence].
    + apply G2 in E2; trivial. subst. rewrite E1. discriminate.
    + rewrite (G3 x y z X Y Z E1 E2). discriminate.
Qed.

Fixpoint lexc (x y : str) : comparison :=
  match x, y with
  | [], [] => Eq
  | [], _ => Lt
  | _, [] => Gt
  | a :: x', b :: y' => match N.compare a b with Eq => lexc x' y' | c => c end
  end.

Lemma lexc_good : good (fun _ => True) lexc.
Proof.
  split; [|split].
  - intros x y _ _. revert y. induction x as [|a x IH]; intros [|b y]; cbn; trivial.
    rewrite (N.compare_antisym a b). destruct (N.compare a b); cbn; trivial.
  - intros x y _ _. revert y. induction x as [|a x IH]; intros [|b y]; cbn; trivial; try discriminate.
    destruct (N.compare_spec a b); try discriminate. intros H1. subst. f_equal. auto.
  - intros x y z _ _ _. revert y z. induction x as [|a x IH]; intros [|b y] [|c z]; cbn; trivial; try discriminate.
    destruct (N.compare_spec a b); intros H1; try discriminate; subst;
      destruct (N.compare_spec b c); intros H2; try discriminate; subst.
    + eauto.
    + reflexivity.
    + rewrite (proj2 (N.compare_lt_iff _ _)); trivial.
    + rewrite (proj2 (N.compare_lt_iff a c)); trivial. lia.
Qed.

Definition shortlex (x y : str) : comparison :=
  match Nat.compare (length x) (length y) with Eq => lexc x y | c => c end.

Lemma shortlex_good : good (fun _ => True) shortlex.
Proof.
  destruct lexc_good as [L1 [L2 L3]]. unfold shortlex. split; [|split].
  - intros x y _ _. rewrite (Nat.compare_antisym (length x) (length y)).
    destruct (Nat.compare (length x) (length y)); cbn; auto.
  - intros x y _ _. destruct (Nat.compare (length x) (length y)); try discriminate. auto.
  - intros x y z _ _ _.
    destruct (Nat.compare_spec (length x) (length y)); intros H1; try discriminate;
      destruct (Nat.compare_spec (length y) (length z)); intros H2; try discriminate.
    + rewrite (proj2 (Nat.compare_eq_iff _ _)) by lia. eauto.
    + rewrite (proj2 (Nat.compare_lt_iff _ _)) by lia. reflexivity.
    + rewrite (proj2 (Nat.compare_lt_iff _ _)) by lia. reflexivity.
    + rewrite (proj2 (Nat.compare_lt_iff _ _)) by lia. reflexivity.
Qed.

Definition zero_first (x : str) : bool := (peek_char x =? 48)%N.
Definition run_cmp (x y : str) : comparison := if zero_first x || zero_first y then lexc x y else shortlex x y.

Definition digits (x : str) : Prop := x <> [] /\ Forall digit x.

Lemma lexc_zero : forall x y, digits x -> digits y -> zero_first x = true -> zero_first y = false -> lexc x y = Lt.
Proof.
  intros [|a x] [|b y] [X1 X2] [Y1 Y2]; try congruence. cbn. inversion X2; inversion Y2; subst. unfold digit in *.
  intros Ha Hb. apply N.eqb_eq in Ha. apply N.eqb_neq in Hb. rewrite (proj2 (N.compare_lt_iff _ _)); [reflexivity|idtac]. cbn [peek_char] in *. lia.
Qed.

Lemma run_cmp_good : good digits run_cmp.
Proof.
  destruct lexc_good as [L1 [L2 L3]]. destruct shortlex_good as [S1 [S2 S3]]. unfold run_cmp. split; [|split].
  - intros x y X Y. rewrite orb_comm. destruct (zero_first x || zero_first y); auto.
  - intros x y X Y. destruct (zero_first x || zero_first y); auto.
  - intros x y z X Y Z.
    destruct (zero_first x) eqn:ZX, (zero_first y) eqn:ZY, (zero_first z) eqn:ZZ; cbn [orb]; intros H1 H2; eauto.
    + eapply lexc_zero; trivial.
    + rewrite L1 in H1 by trivial. rewrite (lexc_zero y x) in H1 by trivial. discriminate.
    + rewrite L1 in H2 by trivial. rewrite (lexc_zero z y) in H2 by trivial. discriminate.
Qed.

(* ---------------- words ---------------- *)

Definition wfst (o : option word) : byte :=
  match o with
  | None => 0%N
  | Some (W_run d) => peek_char d
  | Some (W_char c) => c
  end.
Definition wcmp (sg : bool) (x y : option word) : comparison :=
  match x, y with
  | Some (W_run d), Some (W_run e) => run_cmp d e
  | _, _ => Z.compare (char_value sg (wfst x)) (char_value sg (wfst y))
  end.
Definition wvalid (o : option word) : Prop :=
  match o with
  | None => True
  | Some (W_run d) => digits d
  | Some (W_char c) => (0 < c < 256)%N /\ is_digit c = false /\ is_space c = false
  end.

Lemma digits_first : forall d, digits d -> is_digit (peek_char d) = true.
Proof. intros [|c d] [H1 H2]; [congruence|]. inversion H2; subst. apply is_digit_spec. trivial. Qed.

Lemma digits_cv : forall sg d, digits d -> (48 <= char_value sg (peek_char d) <= 57)%Z.
Proof.
  intros sg d D. apply digits_first in D. rewrite cv_digit by trivial. apply is_digit_spec in D. unfold digit in D. lia.
Qed.

Lemma wcmp_good : forall sg, good wvalid (wcmp sg).
Proof.
  intros sg. destruct run_cmp_good as [R1 [R2 R3]]. split; [|split].
  - intros x y X Y. destruct x as [[d|c]|], y as [[e|c']|]; unfold wcmp; try (apply Z.compare_antisym). apply R1; trivial.
  - intros x y X Y. destruct x as [[d|c]|], y as [[e|c']|]; unfold wcmp; cbn [wfst wvalid] in *; rewrite ?cv_0; intros H.
    + f_equal. f_equal. auto.
    + apply Z.compare_eq in H. pose proof (digits_cv sg d X). destruct Y as [Y1 [Y2 _]].
      pose proof (cv_other sg c' (proj2 Y1) Y2). lia.
    + apply Z.compare_eq in H. pose proof (digits_cv sg d X). lia.
    + apply Z.compare_eq in H. pose proof (digits_cv sg e Y). destruct X as [X1 [X2 _]].
      pose proof (cv_other sg c (proj2 X1) X2). lia.
    + apply Z.compare_eq in H. apply cv_inj in H; [congruence|tauto..].
    + apply Z.compare_eq in H. apply cv_zero in H; tauto.
    + apply Z.compare_eq in H. pose proof (digits_cv sg e Y). lia.
    + apply Z.compare_eq in H. symmetry in H. apply cv_zero in H; tauto.
    + reflexivity.
  - intros x y z X Y Z.
    assert (O : forall o, wvalid o -> match o with Some (W_run d) => (48 <= char_value sg (wfst o) <= 57)%Z
                                       | _ => (char_value sg (wfst o) < 48 \/ 57 < char_value sg (wfst o))%Z end).
    { intros [[d|c]|] V; cbn [wfst].
      - apply digits_cv. trivial.
      - apply cv_other; [apply V|apply V].
      - rewrite cv_0. lia. }
    pose proof (O x X) as OX. pose proof (O y Y) as OY. pose proof (O z Z) as OZ. clear O.
    destruct x as [[d|c]|], y as [[e|c']|], z as [[g|c'']|]; unfold wcmp; rewrite ?Z.compare_lt_iff; try lia; eauto.
Qed.

Fixpoint wlex (sg : bool) (x y : list word) : comparison :=
  match x, y with
  | [], [] => Eq
  | [], b :: _ => wcmp sg None (Some b)
  | a :: _, [] => wcmp sg (Some a) None
  | a :: x', b :: y' => match wcmp sg (Some a) (Some b) with Eq => wlex sg x' y' | c => c end
  end.

Definition wsvalid (l : list word) : Prop := Forall (fun w => wvalid (Some w)) l.

Lemma wlex_good : forall sg, good wsvalid (wlex sg).
Proof.
  intros sg. pose proof (wcmp_good sg) as [W1 [W2 W3]].
  assert (N : forall w, wvalid (Some w) -> wcmp sg None (Some w) <> Eq).
  { intros w V E. apply W2 in E; trivial; [discriminate|exact I]. }
  assert (N' : forall w, wvalid (Some w) -> wcmp sg (Some w) None <> Eq).
  { intros w V E. apply W2 in E; trivial; [discriminate|exact I]. }
  split; [|split].
  - intros x y X. revert y. induction X as [|a x A X IH]; intros y Y; destruct Y as [|b y B Y]; cbn [wlex]; trivial.
    + apply W1; trivial. exact I.
    + apply W1; trivial. exact I.
    + rewrite (W1 (Some a) (Some b)) by trivial. destruct (wcmp sg (Some a) (Some b)); cbn; auto.
  - intros x y X. revert y. induction X as [|a x A X IH]; intros y Y; destruct Y as [|b y B Y]; cbn [wlex]; trivial; intros H.
    + edestruct N; eassumption.
    + edestruct N'; eassumption.
    + destruct (wcmp sg (Some a) (Some b)) eqn:E; try discriminate. apply W2 in E; trivial. injection E as ->. f_equal. auto.
  - intros x y z X. revert y z.
    induction X as [|a x A X IH]; intros y z Y Z; destruct Y as [|b y B Y], Z as [|c z C Z]; cbn [wlex]; trivial; try discriminate;
      intros H1 H2.
    + rewrite (W1 None (Some b)), H1 in H2 by (trivial; exact I). discriminate.
    + destruct (wcmp sg (Some b) (Some c)) eqn:E; try discriminate.
      * apply W2 in E; trivial. injection E as <-. trivial.
      * eapply W3; [| | |exact H1|exact E]; trivial; exact I.
    + rewrite (W3 (Some a) None (Some c)); trivial; exact I.
    + destruct (wcmp sg (Some a) (Some b)) eqn:E; try discriminate.
      * apply W2 in E; trivial. injection E as <-. trivial.
      * eapply W3; [| | |exact E|exact H2]; trivial; exact I.
    + destruct (wcmp sg (Some a) (Some b)) eqn:E1; try discriminate;
        destruct (wcmp sg (Some b) (Some c)) eqn:E2; try discriminate.
      * apply W2 in E1; trivial. apply W2 in E2; trivial. injection E1 as ->. injection E2 as ->.
        rewrite (good_refl _ _ _ (wcmp_good sg)) by trivial. eauto.
      * apply W2 in E1; trivial. injection E1 as ->. rewrite E2. reflexivity.
      * apply W2 in E2; trivial. injection E2 as ->. rewrite E1. reflexivity.
      * rewrite (W3 _ _ _ A B C E1 E2). reflexivity.
Qed.

(* ---------------- strings as words ---------------- *)

Lemma words_run : forall d s, digits d -> is_digit (peek_char s) = false -> words (d ++ s) = W_run d :: words s.
Proof.
  intros d s [D1 D2] S. induction D2 as [|c d C D2 IH]; [congruence|].
  cbn [app words]. apply is_digit_spec in C. rewrite (digit_not_space c C), C.
  destruct d as [|c2 d].
  - cbn [app]. rewrite S. reflexivity.
  - inversion D2 as [|x1 x2 H1 H2]; subst. cbn [app peek_char]. apply is_digit_spec in H1. rewrite H1.
    cbn [app] in IH. rewrite IH by discriminate. reflexivity.
Qed.

(* Split a string at the end of its first run of digits. *)
Lemma split_run : forall s, is_digit (peek_char s) = true ->
  exists d r, s = d ++ r /\ digits d /\ is_digit (peek_char r) = false.
Proof.
  induction s as [|c s IH]; [discriminate|]. cbn [peek_char]. intros C.
  destruct (is_digit (peek_char s)) eqn:E.
  - destruct (IH eq_refl) as [d [r [H1 [[H2 H3] H4]]]]. exists (c :: d), r. subst s.
    split; [reflexivity|]. split; [|trivial]. split; [discriminate|]. constructor; [apply is_digit_spec|]; trivial.
  - exists [c], s. split; [reflexivity|]. split; [|trivial]. split; [discriminate|]. constructor; [|constructor].
    apply is_digit_spec. trivial.
Qed.

Lemma words_valid : forall s, c_string s -> wsvalid (words s).
Proof.
  intros s. remember (length s) as n eqn:L. assert (L' : length s <= n) by lia. clear L. revert s L'.
  induction n as [|n IH]; intros [|c s] L C; try (constructor); cbn in L; try lia.
  inversion C as [|x1 x2 C1 C2]; subst. destruct (is_digit c) eqn:D.
  - destruct (split_run (c :: s) D) as [d [r [E [D1 D2]]]]. rewrite E. rewrite words_run by trivial.
    constructor; [exact D1|]. destruct D1 as [D1 D3]. destruct d as [|c' d]; [congruence|]. injection E as <- ->.
    apply IH; [rewrite app_length in L; lia|]. apply Forall_app in C2. apply C2.
  - cbn [words]. destruct (is_space c) eqn:W; [apply IH; [lia|trivial]|]. rewrite D. constructor; [|apply IH; [lia|trivial]].
    cbn. auto.
Qed.

Lemma words_skip : forall s, words (skip_spaces s) = words s.
Proof. induction s as [|c s IH]; [reflexivity|]. cbn [skip_spaces]. destruct (is_space c) eqn:E; [|reflexivity]. cbn [words]. rewrite E. exact IH. Qed.

Lemma skip_first : forall s, is_space (peek_char (skip_spaces s)) = false.
Proof. induction s as [|c s IH]; [reflexivity|]. cbn [skip_spaces]. destruct (is_space c) eqn:E; [exact IH|exact E]. Qed.

Lemma skip_id : forall s, is_space (peek_char s) = false -> skip_spaces s = s.
Proof. intros [|c s]; [reflexivity|]. cbn. intros ->. reflexivity. Qed.

Lemma skip_c_string : forall s, c_string s -> c_string (skip_spaces s).
Proof. induction s as [|c s IH]; [trivial|]. intros H. cbn [skip_spaces]. destruct (is_space c); [|exact H]. inversion H; subst. auto. Qed.

Lemma strnatcmp_skip : forall sg a b, strnatcmp sg a (skip_spaces b) = strnatcmp sg a b.
Proof.
  intros sg a b. assert (I : skip_spaces (skip_spaces b) = skip_spaces b) by (apply skip_id, skip_first).
  induction a as [|c a IH]; cbn [strnatcmp]; rewrite I; [reflexivity|]. rewrite IH. reflexivity.
Qed.

Lemma compare_left_runs : forall sg x y a b, Forall digit x -> Forall digit y ->
  is_digit (peek_char a) = false -> is_digit (peek_char b) = false ->
  compare_left sg (x ++ a) (y ++ b) = lexc x y.
Proof.
  intros sg x y a b X. revert y. induction X as [|c x C X IH]; intros y Y A B; destruct Y as [|e y E Y].
  - cbn [app lexc]. destruct a, b; cbn in *; rewrite ?A, ?B; reflexivity.
  - cbn [app lexc]. apply is_digit_spec in E. destruct a as [|c a]; cbn in *; rewrite ?A, E; reflexivity.
  - cbn [app lexc]. apply is_digit_spec in C. destruct b as [|e b]; cbn in *; rewrite ?B, C; reflexivity.
  - cbn [app lexc compare_left]. apply is_digit_spec in C. apply is_digit_spec in E. rewrite C, E. cbn [negb andb].
    rewrite if_compare. rewrite !cv_digit by trivial. rewrite N2Z.inj_compare. rewrite IH by trivial.
    destruct (N.compare c e); reflexivity.
Qed.

Lemma compare_right_runs : forall sg x y a b bias, Forall digit x -> Forall digit y ->
  is_digit (peek_char a) = false -> is_digit (peek_char b) = false ->
  compare_right sg (x ++ a) (y ++ b) bias =
  match Nat.compare (length x) (length y) with Eq => (match bias with Eq => lexc x y | _ => bias end) | c => c end.
Proof.
  intros sg x y a b bias X. revert y bias. induction X as [|c x C X IH]; intros y bias Y A B; destruct Y as [|e y E Y].
  - cbn [app lexc length Nat.compare]. destruct a, b; cbn in *; rewrite ?A, ?B; destruct bias; reflexivity.
  - cbn [app lexc]. apply is_digit_spec in E. destruct a as [|c a]; cbn in *; rewrite ?A, E; reflexivity.
  - cbn [app lexc]. apply is_digit_spec in C. destruct b as [|e b]; cbn in *; rewrite ?B, C; reflexivity.
  - cbn [app lexc compare_right length Nat.compare]. apply is_digit_spec in C. apply is_digit_spec in E. rewrite C, E. cbn [negb andb].
    rewrite if_compare. rewrite !cv_digit by trivial. rewrite N2Z.inj_compare. rewrite IH by trivial.
    destruct (Nat.compare (length x) (length y)); trivial. destruct (N.compare c e), bias; reflexivity.
Qed.

Lemma peek_app : forall (x a : str), x <> [] -> peek_char (x ++ a) = peek_char x.
Proof. intros [|c x] a H; [congruence|reflexivity]. Qed.

Lemma compare_runs_runs : forall sg x y a b, digits x -> digits y ->
  is_digit (peek_char a) = false -> is_digit (peek_char b) = false ->
  compare_runs sg (x ++ a) (y ++ b) = run_cmp x y.
Proof.
  intros sg x y a b X Y A B. unfold compare_runs, run_cmp, shortlex, zero_first.
  pose proof (digits_first x X) as DX. pose proof (digits_first y Y) as DY.
  destruct X as [X1 X2], Y as [Y1 Y2]. rewrite !peek_app by trivial. rewrite DX, DY. cbn [andb].
  destruct ((peek_char x =? 48)%N || (peek_char y =? 48)%N).
  - apply compare_left_runs; trivial.
  - rewrite compare_right_runs by trivial. reflexivity.
Qed.

Lemma strnatcmp_same_run : forall sg d a b, Forall digit d -> is_digit (peek_char a) = false -> is_digit (peek_char b) = false ->
  strnatcmp sg (d ++ a) (d ++ b) = strnatcmp sg a b.
Proof.
  intros sg d a b D A B. induction D as [|c d C D IH]; [reflexivity|].
  assert (Ds : digits (c :: d)). { split; [discriminate|constructor; trivial]. }
  change ((c :: d) ++ a) with (c :: (d ++ a)). cbn [strnatcmp]. pose proof C as C'. apply is_digit_spec in C'.
  rewrite (digit_not_space c C'). rewrite skip_id by (cbn; apply digit_not_space; trivial).
  change (c :: (d ++ a)) with ((c :: d) ++ a). rewrite compare_runs_runs by trivial.
  rewrite (good_refl _ _ _ run_cmp_good) by trivial. cbn [app peek_char tl]. rewrite !Z.ltb_irrefl. exact IH.
Qed.

Lemma strnatcmp_words : forall sg a b, c_string a -> c_string b -> strnatcmp sg a b = wlex sg (words a) (words b).
Proof.
  intros sg a. remember (length a) as n eqn:L. assert (L' : length a <= n) by lia. clear L. revert a L'.
  induction n as [n IH] using lt_wf_ind. intros a L b A B.
  rewrite <- (strnatcmp_skip sg a b), <- (words_skip b). pose proof (skip_first b) as SB. pose proof (skip_c_string b B) as CB.
  remember (skip_spaces b) as b' eqn:Eb. clear b B Eb. rename b' into b.
  assert (WB : words b = match b with [] => [] | c :: r => if is_digit c then words b else W_char c :: words r end).
  { destruct b as [|c r]; [reflexivity|]. destruct (is_digit c) eqn:D; [reflexivity|]. cbn [words]. cbn in SB. rewrite SB, D. reflexivity. }
  destruct a as [|c a].
  { cbn [strnatcmp words]. rewrite skip_id by trivial. destruct b as [|e b].
    - cbn [peek_char words wlex]. rewrite cv_0. reflexivity.
    - cbn [peek_char]. rewrite if_compare. pose proof (Forall_inv CB) as C1; pose proof (Forall_inv_tail CB) as C2. pose proof (cv_zero sg e C1).
      destruct (is_digit e) eqn:D.
      + destruct (split_run (e :: b) D) as [d [r [E [D1 D2]]]]. rewrite E. rewrite words_run by trivial. cbn [wlex wcmp wfst].
        destruct D1 as [D1 D3]. destruct d as [|e' d]; [congruence|]. injection E as <- ->. cbn [peek_char]. rewrite cv_0.
        destruct (Z.compare_spec 0 (char_value sg e)); trivial; lia.
      + rewrite WB. cbn [wlex wcmp wfst]. rewrite cv_0. destruct (Z.compare_spec 0 (char_value sg e)); trivial; lia. }
  inversion A as [|x1 x2 A1 A2]; subst. cbn in L. destruct (is_space c) eqn:SC.
  { cbn [strnatcmp words]. rewrite SC. apply (IH (length a)); trivial; lia. }
  destruct (is_digit c) eqn:DC.
  - destruct (is_digit (peek_char b)) eqn:DB.
    + destruct (split_run (c :: a) DC) as [x [a2 [EA [X1 X2]]]]. destruct (split_run b DB) as [y [b2 [EB [Y1 Y2]]]]. rewrite EA, EB.
      rewrite !words_run by trivial. cbn [wlex wcmp].
      assert (R : strnatcmp sg (x ++ a2) (y ++ b2) = match run_cmp x y with Eq => strnatcmp sg (x ++ a2) (y ++ b2) | r => r end).
      { destruct (run_cmp x y) eqn:R; [reflexivity| |]; rewrite <- EA, <- EB; cbn [strnatcmp]; rewrite SC, skip_id by trivial;
          rewrite EA, EB, compare_runs_runs, R by trivial; reflexivity. }
      rewrite R. destruct (run_cmp x y) eqn:RC; trivial.
      apply (proj1 (proj2 run_cmp_good)) in RC; trivial. subst y.
      rewrite strnatcmp_same_run by (trivial; apply X1).
      assert (LX : length a2 < S (length a)).
      { apply (f_equal (@length _)) in EA. rewrite app_length in EA. cbn in EA. destruct X1 as [X1 _]. destruct x; [congruence|]. cbn in EA. lia. }
      assert (CA : c_string a2) by (unfold c_string in A; rewrite EA in A; apply Forall_app in A; apply A).
      assert (CB2 : c_string b2) by (unfold c_string in CB; rewrite EB in CB; apply Forall_app in CB; apply CB).
      apply (IH (length a2)); trivial; lia.
    + assert (RE : compare_runs sg (c :: a) b = Eq). { unfold compare_runs. rewrite DB, andb_false_r. reflexivity. }
      cbn [strnatcmp]. rewrite SC, (skip_id b SB), RE, if_compare.
      destruct (split_run (c :: a) DC) as [x [a2 [EA [X1 X2]]]]. rewrite EA, words_run by trivial.
      assert (PX : peek_char x = c). { destruct X1 as [X1 _]. rewrite <- (peek_app x a2 X1), <- EA. reflexivity. }
      pose proof (digits_cv sg x X1) as VX. rewrite PX in VX. rewrite WB. destruct b as [|e b].
      * cbn [wlex wcmp wfst peek_char] in *. rewrite PX, cv_0. destruct (Z.compare_spec (char_value sg c) 0); trivial; lia.
      * cbn [peek_char] in *. rewrite DB. cbn [wlex wcmp wfst]. rewrite PX. pose proof (Forall_inv CB) as C1; pose proof (Forall_inv_tail CB) as C2.
        pose proof (cv_other sg e (proj2 C1) DB). destruct (Z.compare_spec (char_value sg c) (char_value sg e)); trivial; lia.
  - assert (RE : compare_runs sg (c :: a) b = Eq). { unfold compare_runs. cbn [peek_char]. rewrite DC. reflexivity. }
    cbn [strnatcmp words]. rewrite SC, DC, (skip_id b SB), RE, if_compare. pose proof (cv_other sg c (proj2 A1) DC) as VC.
    rewrite WB. destruct b as [|e b].
    + cbn [wlex wcmp wfst peek_char]. rewrite cv_0. pose proof (cv_zero sg c A1). destruct (Z.compare_spec (char_value sg c) 0); trivial; lia.
    + cbn [peek_char tl]. pose proof (Forall_inv CB) as C1; pose proof (Forall_inv_tail CB) as C2. destruct (is_digit e) eqn:DE.
      * destruct (split_run (e :: b) DE) as [y [b2 [EB [Y1 Y2]]]]. rewrite EB, words_run by trivial. cbn [wlex wcmp wfst].
        assert (PY : peek_char y = e). { destruct Y1 as [Y1 _]. rewrite <- (peek_app y b2 Y1), <- EB. reflexivity. }
        pose proof (digits_cv sg y Y1) as VY. rewrite PY in *. destruct (Z.compare_spec (char_value sg c) (char_value sg e)); trivial; lia.
      * cbn [wlex wcmp wfst]. destruct (Z.compare_spec (char_value sg c) (char_value sg e)); trivial.
        apply (IH (length a)); trivial; lia.
Qed.
