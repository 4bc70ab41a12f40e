(* Proofs about the statistics of one column. *)
From Verif Require Import Common Model_num Model_insights Spec_insights Proof_insights.
From Coq Require Import QArith Qround Qabs Lqa.
Import List.
Local Open Scope N_scope.

(* ---- Generalities ---- *)

Lemma count_app {A : Type} (p : A -> bool) l l' : count p (l ++ l') = count p l + count p l'.
Proof. unfold count. rewrite filter_app, app_length. lia. Qed.

Lemma count_one {A : Type} (p : A -> bool) x : count p [x] = if p x then 1 else 0.
Proof. unfold count. cbn. destruct (p x); reflexivity. Qed.

Lemma counts_snoc_yes {A : Type} (P : A -> Prop) l n x :
  counts P l n -> P x -> counts P (l ++ [x]) (n + 1).
Proof.
  induction 1; intro Px; cbn [app].
  - change (0 + 1)%N with (0 + 1). apply counts_yes; auto. constructor.
  - apply counts_yes; auto.
  - apply counts_no; auto.
Qed.
Lemma counts_snoc_no {A : Type} (P : A -> Prop) l n x :
  counts P l n -> ~ P x -> counts P (l ++ [x]) n.
Proof.
  induction 1; intro Px; cbn [app].
  - apply counts_no; auto. constructor.
  - apply counts_yes; auto.
  - apply counts_no; auto.
Qed.

Lemma bytes_eqb_spec a b : bytes_eqb a b = true <-> a = b.
Proof. unfold bytes_eqb. destruct (list_eq_dec N.eq_dec a b); split; congruence. Qed.
Lemma bytes_eqb_refl a : bytes_eqb a a = true.
Proof. now apply bytes_eqb_spec. Qed.

(* ---- Rounding ---- *)

Lemma floor_unique (x : Q) (z : Z) : (inject_Z z <= x)%Q -> (x < inject_Z (z + 1))%Q -> Qfloor x = z.
Proof.
  intros A B. pose proof (Qfloor_le x) as C. pose proof (Qlt_floor x) as D.
  assert (inject_Z z < inject_Z (Qfloor x + 1))%Q by lra.
  assert (inject_Z (Qfloor x) < inject_Z (z + 1))%Q by lra.
  rewrite <- Zlt_Qlt in *. lia.
Qed.

Lemma round_near q z : (Qabs (inject_Z z - q) <= 1 # 100000)%Q -> q_round q = z.
Proof.
  intro A. apply Qabs_Qle_condition in A. destruct A as [A1 A2].
  unfold q_round. destruct (Qle_bool 0 q).
  - apply floor_unique; [|rewrite inject_Z_plus; change (inject_Z 1) with 1%Q]; lra.
  - rewrite (floor_unique _ (- z)); [lia| |rewrite inject_Z_plus; change (inject_Z 1) with 1%Q]; rewrite inject_Z_opp; lra.
Qed.

Lemma int_test q :
  Qle_bool (Qabs (inject_Z (q_round q) - q)) (1 # 100000) = true <-> near_integer q.
Proof.
  rewrite Qle_bool_iff. split.
  - intro A. now exists (q_round q).
  - intros (z & A). now rewrite (round_near q z A).
Qed.

Lemma q_lt_spec a b : q_lt a b = true <-> (a < b)%Q.
Proof.
  unfold q_lt. rewrite negb_true_iff. destruct (Qle_bool b a) eqn:E; split; intro H; auto.
  - discriminate.
  - apply Qle_bool_iff in E. lra.
  - apply Qnot_le_lt. intro L. apply Qle_bool_iff in L. congruence.
Qed.
Lemma q_lt_false a b : q_lt a b = false <-> (b <= a)%Q.
Proof. unfold q_lt. rewrite negb_false_iff. apply Qle_bool_iff. Qed.

Lemma min_snoc l v q : is_min l v ->
  is_min (l ++ [q]) (if is_nan v || dlt (Fin q) v then Fin q else v).
Proof.
  intros [[-> ->]|(m & -> & I & B)]; cbn [is_nan orb dlt app].
  - right. exists q. repeat split; [now left|]. intros x [ <- |[]]. lra.
  - right. destruct (q_lt q m) eqn:E.
    + apply q_lt_spec in E. exists q. repeat split; [apply in_or_app; right; now left|].
      intros x J. apply in_app_or in J. destruct J as [J|[ <- |[]]]; [|lra].
      specialize (B x J). lra.
    + apply q_lt_false in E. exists m. repeat split; [apply in_or_app; auto|].
      intros x J. apply in_app_or in J. destruct J as [J|[ <- |[]]]; auto.
Qed.

Lemma max_snoc l v q : is_max l v ->
  is_max (l ++ [q]) (if is_nan v || dlt v (Fin q) then Fin q else v).
Proof.
  intros [[-> ->]|(m & -> & I & B)]; cbn [is_nan orb dlt app].
  - right. exists q. repeat split; [now left|]. intros x [ <- |[]]. lra.
  - right. destruct (q_lt m q) eqn:E.
    + apply q_lt_spec in E. exists q. repeat split; [apply in_or_app; right; now left|].
      intros x J. apply in_app_or in J. destruct J as [J|[ <- |[]]]; [|lra].
      specialize (B x J). lra.
    + apply q_lt_false in E. exists m. repeat split; [apply in_or_app; auto|].
      intros x J. apply in_app_or in J. destruct J as [J|[ <- |[]]]; auto.
Qed.

(* ---- White space ---- *)

Lemma whitespace_only_ok s b : is_whitespace_only s = Ok b -> b = forallb is_space s.
Proof.
  induction s as [|c s IH]; cbn [is_whitespace_only forallb]; [congruence|].
  destruct (128 <=? c); [discriminate|]. destruct (is_space c); cbn [andb]; [auto|congruence].
Qed.

Lemma ltrim_ok s r : ltrim s = Ok r -> r = drop_space s.
Proof.
  induction s as [|c s IH]; cbn [ltrim drop_space]; [congruence|].
  destruct (128 <=? c); [discriminate|]. destruct (is_space c); [auto|congruence].
Qed.

Lemma trim_ok s r : trim s = Ok r -> r = strip s.
Proof.
  unfold trim, strip. destruct (ltrim s) as [a| | |] eqn:A; cbn [bind]; try discriminate.
  apply ltrim_ok in A. subst a.
  destruct (ltrim (rev (drop_space s))) as [a| | |] eqn:A; cbn [bind]; try discriminate.
  apply ltrim_ok in A. subst a. congruence.
Qed.

Lemma same_char_ok a b e : same_char a b = Ok e -> e = (lower a =? lower b).
Proof.
  unfold same_char. destruct (N.eqb_spec a b) as [-> |D].
  - intros [= <-]. symmetry. apply N.eqb_refl.
  - destruct (_ || _); [discriminate|]. intros [= <-]. reflexivity.
Qed.

Lemma equal_chars_ok a : forall b e, length a = length b -> equal_chars a b = Ok e ->
  e = bytes_eqb (map lower a) (map lower b).
Proof.
  induction a as [|x a IH]; intros [|y b] e L E; cbn [length] in L; try lia; cbn [equal_chars] in E.
  - injection E as <-. reflexivity.
  - destruct (same_char x y) as [c| | |] eqn:C; cbn [bind] in E; try discriminate.
    apply same_char_ok in C. cbn [map]. destruct c.
    + symmetry in C. apply N.eqb_eq in C. apply IH in E; [|lia]. subst e. rewrite C.
      unfold bytes_eqb. destruct (list_eq_dec N.eq_dec (map lower a) (map lower b)) as [F|F],
        (list_eq_dec N.eq_dec (lower y :: map lower a) (lower y :: map lower b)) as [G|G]; auto.
      * exfalso. apply G. now rewrite F.
      * congruence.
    + injection E as <-. symmetry in C. apply N.eqb_neq in C. unfold bytes_eqb.
      destruct (list_eq_dec _ _ _); auto. congruence.
Qed.

Lemma match_any_ok ns t e : match_any ns t = Ok e ->
  e = existsb (fun n => bytes_eqb (map lower n) (map lower t)) ns.
Proof.
  induction ns as [|n ns IH]; cbn [match_any existsb]; [congruence|].
  destruct (Nat.eqb_spec (length n) (length t)) as [L|L].
  - destruct (equal_chars n t) as [c| | |] eqn:C; cbn [bind]; try discriminate.
    apply equal_chars_ok in C; auto. rewrite <- C. destruct c; cbn [orb]; [congruence|auto].
  - cbn [bind]. intro E.
    replace (bytes_eqb (map lower n) (map lower t)) with false; [cbn [orb]; auto|].
    symmetry. destruct (bytes_eqb (map lower n) (map lower t)) eqn:F; auto.
    apply bytes_eqb_spec in F. apply (f_equal (@length _)) in F. rewrite !map_length in F. lia.
Qed.

Lemma match_nan_ok s ns e : match_nan_values s ns = Ok e ->
  e = existsb (fun n => bytes_eqb (map lower n) (map lower (strip s))) ns.
Proof.
  unfold match_nan_values. destruct (trim s) as [t| | |] eqn:T; cbn [bind]; try discriminate.
  apply trim_ok in T. subst t. apply match_any_ok.
Qed.

(* ---- Words ---- *)

Definition unwords (ws : list (list byte)) : list byte := concat (map (fun w => w ++ [32]) ws).

Lemma last_app {A : Type} (a b : list A) d : b <> [] -> last (a ++ b) d = last b d.
Proof.
  intro N. induction a as [|x a IH]; auto. cbn [app last].
  destruct (a ++ b) eqn:E; auto. apply app_eq_nil in E. destruct E. contradiction.
Qed.

Lemma getlines_spec (s : list byte) : forall acc : list byte, ~ In 32 acc ->
  Forall (fun w => ~ In 32 w) (getlines acc s) /\
  (unwords (getlines acc s) = rev acc ++ s /\ (rev acc ++ s = [] \/ last (rev acc ++ s) 0 = 32) \/
   unwords (getlines acc s) = (rev acc ++ s) ++ [32] /\ rev acc ++ s <> [] /\
   last (rev acc ++ s) 0 <> 32).
Proof.
  induction s as [|c s IH]; intros acc A; cbn [getlines].
  - destruct acc as [|a acc].
    + split; [constructor|]. left. auto.
    + split.
      * constructor; auto. intro I. apply in_rev in I. auto.
      * right. unfold unwords. cbn [map concat]. rewrite !app_nil_r. split; auto.
        cbn [rev]. split; [destruct (rev acc); discriminate|].
        rewrite last_last. intros ->. apply A. now left.
  - destruct (N.eqb_spec c 32) as [-> |D].
    + destruct (IH [] (fun x => x)) as [B C]. cbn [rev app] in C. split.
      * constructor; auto. intro I. apply in_rev in I. auto.
      * change (@unwords (rev acc :: getlines [] s)) with ((rev acc ++ [32]) ++ unwords (getlines [] s)).
        destruct C as [[C1 C2]|(C1 & C2 & C3)]; rewrite C1.
        -- left. split; [now rewrite <- app_assoc|]. right.
           destruct C2 as [-> |C2]; [now rewrite last_last|].
           destruct s as [|y s]; [now rewrite last_last|].
           rewrite last_app by discriminate. auto.
        -- right. split; [now rewrite <- !app_assoc|]. split; [destruct (rev acc); discriminate|].
           rewrite last_app by discriminate. destruct s; [contradiction|exact C3].
    + destruct (IH (c :: acc)) as [B C].
      { intros [F|F]; auto. }
      cbn [rev] in C. rewrite <- app_assoc in C. cbn [app] in C. auto.
Qed.

Lemma getlines_words cell : is_words cell (getlines [] cell).
Proof.
  destruct (getlines_spec cell [] (fun x => x)) as [A B]. cbn [rev app] in B. split; auto.
  destruct B as [[B _]|(B & C & D)]; auto.
Qed.

Lemma unwords_nil ws : unwords ws = [] -> ws = [].
Proof. destruct ws as [|w ws]; auto. unfold unwords. cbn. destruct w; discriminate. Qed.

Lemma unwords_inj ws : forall ws', Forall (fun w => ~ In 32 w) ws -> Forall (fun w => ~ In 32 w) ws' ->
  unwords ws = unwords ws' -> ws = ws'.
Proof.
  induction ws as [|w ws IH]; intros [|w' ws'] F F' E; auto.
  - symmetry in E. now apply unwords_nil in E.
  - now apply unwords_nil in E.
  - unfold unwords in E. cbn [map concat] in E. fold (unwords ws) in E. fold (unwords ws') in E.
    inversion_clear F as [|? ? Fw Fs]. inversion_clear F' as [|? ? Fw' Fs'].
    rewrite <- !app_assoc in E. cbn [app] in E.
    assert (W : w = w' /\ unwords ws = unwords ws').
    { clear - E Fw Fw'. revert w' E Fw Fw'. induction w as [|c w IHw]; intros [|c' w'] E Fw Fw'; cbn [app] in E.
      - injection E as E. auto.
      - injection E as E1 E2. subst c'. destruct Fw'. now left.
      - injection E as E1 E2. subst c. destruct Fw. now left.
      - injection E as E1 E2. subst c'. destruct (IHw w' E2) as [-> ->]; auto.
        + intro; apply Fw; now right.
        + intro; apply Fw'; now right. }
    destruct W as [-> W]. f_equal. now apply IH.
Qed.

Lemma words_unique cell ws ws' : is_words cell ws -> is_words cell ws' -> ws = ws'.
Proof.
  assert (L : forall x ws, unwords ws = x -> x = [] \/ last x 0 = 32).
  { intros x [|w l] <-; [auto|]. right.
    rewrite (app_removelast_last [] (l := w :: l)) by discriminate.
    unfold unwords. rewrite map_app, concat_app. cbn [map concat]. rewrite app_nil_r, app_assoc.
    apply last_last. }
  intros [F A] [F' A']. fold (unwords ws) in A. fold (unwords ws') in A'.
  apply unwords_inj; auto.
  destruct A as [A|(A1 & A2 & A3)], A' as [A'|(B1 & B2 & B3)]; try congruence.
  - destruct (L _ _ A); contradiction.
  - destruct (L _ _ A'); contradiction.
Qed.
