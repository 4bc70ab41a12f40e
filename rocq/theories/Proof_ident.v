From Verif Require Import Common Model_num Model_tsr Model_names Model_ident Spec_ident Proof_tsr.
From Coq Require Import ZArith Lia.

(* ---------------- hexadecimal digits ---------------- *)

Definition digit_value (d : N) : N := (if d <? 58 then d - 48 else d - 87)%N.
Fixpoint value (acc : N) (l : str) : N :=
  match l with [] => acc | d :: l' => value (acc * 16 + digit_value d) l' end.

Lemma digit_value_hex d : (d < 16)%N -> digit_value (hex_digit d) = d.
Proof.
  intros H. unfold digit_value, hex_digit. destruct (N.ltb_spec d 10).
  - destruct (N.ltb_spec (48 + d) 58); lia.
  - destruct (N.ltb_spec (87 + d) 58); lia.
Qed.

Lemma value_app l : forall acc l', value acc (l ++ l') = value (value acc l) l'.
Proof. induction l as [|d l IH]; intros acc l'; cbn; auto. Qed.

Lemma hex_loop_value f : forall n acc, (n < 16 ^ N.of_nat f)%N -> value 0 (hex_loop f n acc) = value n acc.
Proof.
  induction f as [|f IH]; intros n acc H.
  - cbn in *. replace n with 0%N by lia. reflexivity.
  - rewrite Nat2N.inj_succ, N.pow_succ_r' in H. cbn [hex_loop].
    pose proof (N.div_mod n 16 ltac:(lia)) as D. pose proof (N.mod_upper_bound n 16 ltac:(lia)) as M.
    destruct (N.eqb_spec (n / 16) 0) as [E|E].
    + cbn [value]. rewrite digit_value_hex by exact M. f_equal. lia.
    + rewrite IH by (apply N.div_lt_upper_bound; lia). cbn [value]. rewrite digit_value_hex by exact M. f_equal. lia.
Qed.

Lemma hex_value n : (n < 2 ^ 64)%N -> value 0 (hex n) = n.
Proof. intros H. unfold hex. rewrite hex_loop_value; [reflexivity|]. replace (16 ^ N.of_nat 16)%N with (2 ^ 64)%N by reflexivity. exact H. Qed.

Lemma hex_digit_plus d : (d < 16)%N -> hex_digit d <> 43%N.
Proof. intros H. unfold hex_digit. destruct (N.ltb_spec d 10); lia. Qed.

Lemma hex_loop_plus f : forall n acc, ~ In 43%N acc -> ~ In 43%N (hex_loop f n acc).
Proof.
  induction f as [|f IH]; intros n acc H; cbn [hex_loop]; auto.
  assert (~ In 43%N (hex_digit (n mod 16) :: acc)).
  { intros [E|E]; [|auto]. revert E. apply hex_digit_plus. apply N.mod_upper_bound. lia. }
  destruct (n / 16 =? 0)%N; auto.
Qed.

Lemma format_size_value n : (n < 2 ^ 64)%N -> exists l, format_size n = [48; 120]%N ++ l /\ value 0 l = n.
Proof.
  intros H. unfold format_size. destruct (length (hex n) <? 2); eexists; (split; [reflexivity|]).
  - cbn [value]. apply hex_value. exact H.
  - apply hex_value. exact H.
Qed.

(* Texts around a separator that the first part does not have. *)
Lemma split_sep (c : N) : forall a a' b b' : list N, ~ In c a -> ~ In c a' -> a ++ c :: b = a' ++ c :: b' -> a = a' /\ b = b'.
Proof.
  induction a as [|x a IH]; intros [|y a'] b b' Ha Ha' E; cbn in *.
  - injection E as E. auto.
  - injection E as E _. subst. exfalso. apply Ha'. auto.
  - injection E as E _. subst. exfalso. apply Ha. auto.
  - injection E as E1 E2. subst. destruct (IH a' b b') as [-> ->]; auto.
Qed.

Lemma memory_id a n a' n' : (a < 2 ^ 64)%N -> (n < 2 ^ 64)%N -> (a' < 2 ^ 64)%N -> (n' < 2 ^ 64)%N ->
  format_pointer a ++ [43%N] ++ format_size n = format_pointer a' ++ [43%N] ++ format_size n' -> a = a' /\ n = n'.
Proof.
  intros A B A' B' E. cbn [app] in E. apply split_sep in E.
  - destruct E as [E1 E2]. unfold format_pointer in E1. cbn [app] in E1. injection E1 as E1.
    destruct (format_size_value n B) as [l [X Y]], (format_size_value n' B') as [l' [X' Y']]. rewrite X, X' in E2.
    cbn [app] in E2. injection E2 as E2. split; [|congruence].
    rewrite <- (hex_value a A), <- (hex_value a' A'). congruence.
  - intros [H|[H|H]]; try discriminate. revert H. apply hex_loop_plus. intros [].
  - intros [H|[H|H]]; try discriminate. revert H. apply hex_loop_plus. intros [].
Qed.

Definition object_id (u v : str) : str := match v with [] => u | _ => u ++ [64%N] ++ v end.
Lemma object_id_inj u v u' v' : ~ In 64%N u -> ~ In 64%N u' -> object_id u v = object_id u' v' -> u = u' /\ v = v'.
Proof.
  intros H H' E. unfold object_id in E. destruct v as [|c v], v' as [|c' v'].
  - auto.
  - exfalso. apply H. rewrite E. apply in_or_app. right. left. reflexivity.
  - exfalso. apply H'. rewrite <- E. apply in_or_app. right. left. reflexivity.
  - cbn [app] in E. apply split_sep in E; auto.
Qed.

(* ---------------- equality ---------------- *)

Definition ident (a : dstore) : str :=
  match a with
  | S_file p _ _ => p
  | S_memory p n _ => format_pointer p ++ [43%N] ++ format_size n
  | S_object u v _ => object_id u v
  | S_pipe p _ _ => p
  | S_python _ => []
  end.

Lemma id_of_native w a sh : native a -> id_of w a sh = Some (Own (ident a), sh).
Proof. destruct a; cbn; intros H; try reflexivity. destruct H. Qed.

Lemma store_eq_native w a b : native a -> native b -> store_eq w a b = Some (bytes_eqb (ident a) (ident b)).
Proof. intros A B. unfold store_eq. rewrite !id_of_native by auto. reflexivity. Qed.

Lemma store_eq_ident w a b : native a -> native b -> (store_eq w a b = Some true <-> ident a = ident b).
Proof.
  intros A B. rewrite store_eq_native by auto. rewrite <- bytes_eqb_eq. split; [intros H; injection H; auto|congruence].
Qed.

Lemma regular_native a : regular a -> native a.
Proof. destruct a; cbn; auto. Qed.

Lemma same_contents gunzip w a b : regular a -> regular b -> same_sort a b -> ident a = ident b ->
  contents gunzip w a = contents gunzip w b.
Proof.
  intros A B S E. destruct a, b; cbn [regular same_sort ident] in *; try contradiction; subst.
  - reflexivity.
  - destruct A, B. apply memory_id in E; auto. destruct E as [-> ->]. reflexivity.
  - apply object_id_inj in E; auto. destruct E as [-> ->]. reflexivity.
  - reflexivity.
Qed.
