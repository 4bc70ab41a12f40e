(* Proofs about the captured values, and the invariant of the statistics of one column. *)
From Verif Require Import Common Model_num Model_insights Spec_insights Proof_insights
  Proof_insights2.
From Coq Require Import QArith Qround Qabs Lqa.
Import List.
Local Open Scope N_scope.

(* ---- Distinct values ---- *)

Definition mem (x : list byte) (l : list (list byte)) : bool := existsb (bytes_eqb x) l.

Lemma mem_in x l : mem x l = true <-> In x l.
Proof.
  unfold mem. rewrite existsb_exists. split.
  - intros (y & I & E). apply bytes_eqb_spec in E. now subst y.
  - intro I. exists x. split; auto. apply bytes_eqb_refl.
Qed.
Lemma mem_false x l : mem x l = false <-> ~ In x l.
Proof. rewrite <- mem_in. destruct (mem x l); split; congruence. Qed.

Lemma in_distinct x l : In x (distinct l) <-> In x l.
Proof.
  induction l as [|y l IH]; cbn [distinct]; [tauto|]. split.
  - intros [-> |I]; [now left|]. apply filter_In in I. right. now apply IH.
  - intros [-> |I]; [now left|]. destruct (bytes_eqb y x) eqn:E.
    + apply bytes_eqb_spec in E. now left.
    + right. apply filter_In. split; [now apply IH|]. now rewrite E.
Qed.

Lemma distinct_snoc l x :
  distinct (l ++ [x]) = if mem x l then distinct l else distinct l ++ [x].
Proof.
  induction l as [|y l IH]; cbn [app distinct]; [reflexivity|]. rewrite IH.
  change (mem x (y :: l)) with (bytes_eqb x y || mem x l).
  destruct (mem x l) eqn:M.
  - rewrite orb_true_r. reflexivity.
  - rewrite filter_app. cbn [filter].
    destruct (bytes_eqb x y) eqn:E; cbn [orb].
    + apply bytes_eqb_spec in E. subst y. rewrite bytes_eqb_refl. cbn [negb].
      now rewrite app_nil_r.
    + replace (bytes_eqb y x) with false; [reflexivity|].
      symmetry. destruct (bytes_eqb y x) eqn:F; auto. apply bytes_eqb_spec in F. subst y.
      now rewrite bytes_eqb_refl in E.
Qed.

Definition ndistinct (l : list (list byte)) : N := N.of_nat (length (distinct l)).

Lemma ndistinct_snoc l x : ndistinct (l ++ [x]) = if mem x l then ndistinct l else ndistinct l + 1.
Proof.
  unfold ndistinct. rewrite distinct_snoc. destruct (mem x l); auto. rewrite app_length.
  cbn [length]. lia.
Qed.

Lemma ndistinct_app l r : ndistinct l <= ndistinct (l ++ r).
Proof.
  induction r as [|x r IH] using rev_ind; [rewrite app_nil_r; lia|].
  rewrite app_assoc, ndistinct_snoc. destruct (mem x (l ++ r)); lia.
Qed.

(* ---- The map of captured values ---- *)

Definition occurrences (v : list byte) (l : list (list byte)) : N := count (bytes_eqb v) l.

(* The values that are counted: those seen while there are fewer than [max] distinct ones. *)
Definition counted_prefix (max : N) (l p : list (list byte)) : Prop :=
  exists r, l = p ++ r /\ (r = [] \/ ndistinct p = max) /\
  (forall p' x, (exists q, p = p' ++ x :: q) -> ndistinct p' < max).

Definition cap_inv (max : N) (l : list (list byte)) (m : list (list byte * N)) (o : bool) : Prop :=
  map fst m = firstn (N.to_nat max) (distinct l) /\
  o = (max <? ndistinct l) /\
  exists p, counted_prefix max l p /\
  forall v, assoc m v = if mem v p then Some (occurrences v p) else None.

Lemma count_value_keys m s :
  map fst (count_value m s) = if mem s (map fst m) then map fst m else map fst m ++ [s].
Proof.
  induction m as [|[k n] m IH]; cbn [count_value map fst]; [reflexivity|].
  change (mem s (k :: map fst m)) with (bytes_eqb s k || mem s (map fst m)).
  destruct (list_eq_dec N.eq_dec k s) as [-> |D].
  - rewrite bytes_eqb_refl. reflexivity.
  - replace (bytes_eqb s k) with false.
    2:{ symmetry. destruct (bytes_eqb s k) eqn:F; auto. apply bytes_eqb_spec in F. congruence. }
    cbn [orb map fst]. rewrite IH. destruct (mem s (map fst m)); reflexivity.
Qed.

Lemma count_value_assoc m s v : assoc (count_value m s) v =
  if bytes_eqb v s then Some (match assoc m s with Some n => n + 1 | None => 1 end)
  else assoc m v.
Proof.
  induction m as [|[k n] m IH]; cbn [count_value assoc].
  - destruct (bytes_eqb v s) eqn:E.
    + apply bytes_eqb_spec in E. subst v. now rewrite bytes_eqb_refl.
    + replace (bytes_eqb s v) with false; auto. symmetry. destruct (bytes_eqb s v) eqn:F; auto.
      apply bytes_eqb_spec in F. subst v. now rewrite bytes_eqb_refl in E.
  - destruct (list_eq_dec N.eq_dec k s) as [-> |D]; cbn [assoc].
    + rewrite bytes_eqb_refl. destruct (bytes_eqb v s) eqn:E.
      * apply bytes_eqb_spec in E. subst v. now rewrite bytes_eqb_refl.
      * replace (bytes_eqb s v) with false; auto. symmetry. destruct (bytes_eqb s v) eqn:F; auto.
        apply bytes_eqb_spec in F. subst v. now rewrite bytes_eqb_refl in E.
    + rewrite IH. replace (bytes_eqb k s) with false.
      2:{ symmetry. destruct (bytes_eqb k s) eqn:F; auto. apply bytes_eqb_spec in F. congruence. }
      destruct (bytes_eqb k v) eqn:E; auto. apply bytes_eqb_spec in E. subst v.
      replace (bytes_eqb k s) with false; auto.
      symmetry. destruct (bytes_eqb k s) eqn:F; auto. apply bytes_eqb_spec in F. congruence.
Qed.

Lemma has_value_mem m s : has_value m s = mem s (map fst m).
Proof.
  induction m as [|[k n] m IH]; [reflexivity|].
  change (has_value ((k, n) :: m) s) with
    ((if list_eq_dec N.eq_dec k s then true else false) || has_value m s).
  change (mem s (map fst ((k, n) :: m))) with (bytes_eqb s k || mem s (map fst m)).
  rewrite IH. f_equal. unfold bytes_eqb.
  destruct (list_eq_dec N.eq_dec k s), (list_eq_dec N.eq_dec s k); congruence.
Qed.

Lemma prefix_le max l p : counted_prefix max l p -> ndistinct p <= max.
Proof.
  intros (r & -> & _ & P). destruct p as [|x p] using rev_ind; [cbn; lia|].
  rewrite ndistinct_snoc. specialize (P p x). destruct (mem x p).
  - enough (ndistinct p < max) by lia. apply P. exists []. reflexivity.
  - enough (ndistinct p < max) by lia. apply P. exists []. reflexivity.
Qed.

Lemma prefix_full max l p : counted_prefix max l p -> max <= ndistinct l -> ndistinct p = max.
Proof.
  intros C L. pose proof (prefix_le max l p C) as P. destruct C as (r & -> & [-> |E] & _); auto.
  rewrite app_nil_r in L. lia.
Qed.

Lemma prefix_all max l p : counted_prefix max l p -> ndistinct l < max -> p = l.
Proof.
  intros (r & -> & [-> |E] & _) L; [now rewrite app_nil_r|].
  pose proof (ndistinct_app p r). lia.
Qed.

Lemma cap_step max l m o x : cap_inv max l m o ->
  let '(m', o') :=
    if negb o then
      if N.of_nat (length m) <? max then (count_value m x, o)
      else if negb (has_value m x) then (m, true) else (m, o)
    else (m, o) in
  cap_inv max (l ++ [x]) m' o'.
Proof.
  intros (K & O & p & P & V).
  assert (Lm : N.of_nat (length m) = N.min max (ndistinct l)).
  { rewrite <- (map_length fst m), K, firstn_length. unfold ndistinct. lia. }
  assert (Keep : max <= ndistinct l -> 
     firstn (N.to_nat max) (distinct (l ++ [x])) = firstn (N.to_nat max) (distinct l)).
  { intro L. rewrite distinct_snoc. destruct (mem x l); auto.
    rewrite firstn_app. unfold ndistinct in L.
    replace (N.to_nat max - length (distinct l))%nat with 0%nat by lia. cbn. apply app_nil_r. }
  assert (KeepP : max <= ndistinct l -> counted_prefix max (l ++ [x]) p).
  { intro L. pose proof (prefix_full max l p P L) as F. destruct P as (r & -> & _ & P).
    exists (r ++ [x]). split; [now rewrite app_assoc|]. auto. }
  destruct o; cbn [negb].
  - split; [rewrite Keep; auto; lia|]. split.
    + pose proof (ndistinct_app l [x]). lia.
    + exists p. split; auto. apply KeepP. lia.
  - destruct (N.ltb_spec (N.of_nat (length m)) max) as [L|L].
    + assert (Ld : ndistinct l < max) by lia.
      pose proof (prefix_all max l p P Ld). subst p.
      assert (Ka : map fst m = distinct l).
      { rewrite K. apply firstn_all2. unfold ndistinct in Ld. lia. }
      assert (Mm : mem x (map fst m) = mem x l).
      { rewrite Ka. destruct (mem x l) eqn:M.
        - apply mem_in. apply in_distinct. now apply mem_in.
        - apply mem_false. rewrite in_distinct. now apply mem_false. }
      split; [|split].
      * rewrite count_value_keys, Mm, Ka, <- distinct_snoc.
        symmetry. apply firstn_all2. pose proof (ndistinct_snoc l x) as D. unfold ndistinct in D, Ld.
        destruct (mem x l); lia.
      * rewrite ndistinct_snoc. destruct (mem x l); lia.
      * exists (l ++ [x]). split.
        -- exists []. split; [now rewrite app_nil_r|]. split; auto.
           intros p' y (q & E). eapply N.le_lt_trans; [|exact Ld].
           destruct q as [|z q] using rev_ind.
           ++ apply app_inj_tail in E. destruct E as [-> _]. lia.
           ++ clear IHq. replace (p' ++ y :: q ++ [z]) with ((p' ++ y :: q) ++ [z]) in E
                by now rewrite <- app_assoc.
              apply app_inj_tail in E. destruct E as [-> _]. apply ndistinct_app.
        -- intro v. rewrite count_value_assoc, !V. unfold occurrences. rewrite count_app, count_one.
           unfold mem. rewrite existsb_app. cbn [existsb]. rewrite orb_false_r.
           destruct (bytes_eqb v x) eqn:E.
           ++ apply bytes_eqb_spec in E. subst v. rewrite orb_true_r.
              fold (mem x l). destruct (mem x l) eqn:M; auto.
              f_equal. replace (count (bytes_eqb x) l) with 0; auto.
              unfold count. apply mem_false in M.
              replace (filter (bytes_eqb x) l) with (@nil (list byte)); auto.
              symmetry. destruct (filter (bytes_eqb x) l) as [|y f] eqn:F; auto.
              assert (I : In y (filter (bytes_eqb x) l)) by (rewrite F; now left).
              apply filter_In in I. destruct I as [I J]. apply bytes_eqb_spec in J. now subst y.
           ++ rewrite orb_false_r, N.add_0_r. reflexivity.
    + assert (Ld : ndistinct l = max) by lia.
      assert (Ka : map fst m = distinct l).
      { rewrite K. apply firstn_all2. unfold ndistinct in Ld. lia. }
      rewrite has_value_mem, Ka.
      assert (Mm : mem x (distinct l) = mem x l).
      { destruct (mem x l) eqn:M.
        - apply mem_in. apply in_distinct. now apply mem_in.
        - apply mem_false. rewrite in_distinct. now apply mem_false. }
      rewrite Mm. destruct (mem x l) eqn:M; cbn [negb].
      * split; [rewrite Keep; auto; lia|]. split.
        -- rewrite ndistinct_snoc, M. lia.
        -- exists p. split; auto. apply KeepP. lia.
      * split; [rewrite Keep; auto; lia|]. split.
        -- rewrite ndistinct_snoc, M. lia.
        -- exists p. split; auto. apply KeepP. lia.
Qed.

(* ---- The invariant ---- *)

Definition nonempty (cell : list byte) : bool := negb (is_empty cell).

Lemma fold_min_app l l' : fold_right N.min size_max (l ++ l') =
  N.min (fold_right N.min size_max l) (fold_right N.min size_max l').
Proof.
  induction l as [|a l IH]; cbn [app fold_right].
  - assert (fold_right N.min size_max l' <= size_max).
    { induction l'; cbn [fold_right]; lia. }
    lia.
  - rewrite IH. lia.
Qed.
Lemma fold_max_app l l' : fold_right N.max 0 (l ++ l') =
  N.max (fold_right N.max 0 l) (fold_right N.max 0 l').
Proof. induction l as [|a l IH]; cbn [app fold_right]; [|rewrite IH]; lia. Qed.
Lemma total_app l l' : total (l ++ l') = total l + total l'.
Proof. unfold total. induction l as [|a l IH]; cbn [app fold_right]; [|rewrite IH]; lia. Qed.
Lemma lengths_app l l' : lengths (l ++ l') = lengths l ++ lengths l'.
Proof. apply map_app. Qed.
Lemma sum_q_app l l' : (sum_q (l ++ l') == sum_q l + sum_q l')%Q.
Proof.
  unfold sum_q. induction l as [|a l IH]; cbn [app fold_right]; [|rewrite IH]; ring.
Qed.

Section Column.
  Context (atod : list byte -> option dbl) (version : clz_version).
  Context (nulls : list (list byte)) (max : N) (capture : bool).

  Definition text (seen : list (list byte)) : list (list byte) := filter nonempty seen.
  Definition tokens (seen : list (list byte)) : list (list byte) := flat_map (getlines []) seen.
  Definition min_of (seen : list (list byte)) : N :=
    fold_right N.min size_max (lengths (text seen)).
  Definition max_of (seen : list (list byte)) : N := fold_right N.max 0 (lengths seen).

  Record inv (seen : list (list byte)) (c : column) : Prop := {
    i_rows : c_rows c = N.of_nat (length seen);
    i_empty : c_empty c = count is_empty seen;
    i_blank : c_blank c = count is_blank seen;
    i_null : c_null c = count (is_null_like nulls) seen;
    i_numeric : c_numeric c = N.of_nat (length (numbers atod seen));
    i_finite : c_finite c = N.of_nat (length (numbers atod seen));
    i_nan : c_nan c + N.of_nat (length (numbers atod seen)) = count is_plain seen;
    i_int : counts near_integer (numbers atod seen) (c_int c);
    i_min : is_min (numbers atod seen) (c_min c);
    i_max : is_max (numbers atod seen) (c_max c);
    i_min_len : c_min_len c = min_of seen;
    i_min_len_ne : c_min_len_ne c = min_of seen;
    i_max_len : c_max_len c = max_of seen;
    i_words : c_words c = N.of_nat (length (tokens seen));
    i_example : c_example c = hd [] seen;
    i_card : is_sketch cardinality_bits (text seen) (c_card c);
    i_vocab : is_sketch cardinality_bits (tokens seen) (c_vocab c);
    i_sample : c_sample c = firstn (N.to_nat max_sample_size) (numbers atod seen);
    i_captured : if capture then cap_inv max (filter is_plain seen) (c_captured c) (c_overflowed c)
                 else c_captured c = [] /\ c_overflowed c = false }.

  (* The variables of the current call of analyze. *)
  Record linv (cells : list (list byte)) (s : sums) : Prop := {
    l_sum : exists q, s_sum s = Fin q /\ (q == sum_q (numbers atod cells))%Q;
    l_count : s_count s = N.of_nat (length (numbers atod cells));
    l_cells : s_cells s = count nonempty cells;
    l_length : s_length s = total (lengths cells) }.

  Lemma numbers_snoc l x : numbers atod (l ++ [x]) = numbers atod l ++ number atod x.
  Proof. unfold numbers. rewrite flat_map_app. cbn [flat_map]. now rewrite app_nil_r. Qed.
  Lemma tokens_snoc l x : tokens (l ++ [x]) = tokens l ++ getlines [] x.
  Proof. unfold tokens. rewrite flat_map_app. cbn [flat_map]. now rewrite app_nil_r. Qed.
  Lemma hd_snoc (l : list (list byte)) x : hd [] (l ++ [x]) = if N.of_nat (length l) =? 0 then x else hd [] l.
  Proof. destruct l; reflexivity. Qed.

  Lemma parse_cases cell : try_parse_float dbl is_inf NaN atod [] cell =
    Ok match atod cell with
       | None => P_failed
       | Some (Inf _) => P_overflowed
       | Some v => P_ok v
       end.
  Proof. unfold try_parse_float. destruct (atod cell) as [[q|b|]|]; reflexivity. Qed.

  Lemma cap_col c cell l :
    (if capture then cap_inv max l (c_captured c) (c_overflowed c)
     else c_captured c = [] /\ c_overflowed c = false) ->
    (let c' := on_capture capture max c cell in
     if capture then cap_inv max (l ++ [cell]) (c_captured c') (c_overflowed c')
     else c_captured c' = [] /\ c_overflowed c' = false).
  Proof.
    intro H. cbv zeta. unfold on_capture. destruct capture; cbn [andb]; [|exact H].
    pose proof (cap_step max l (c_captured c) (c_overflowed c) cell H) as St.
    destruct (c_overflowed c) eqn:O; cbn [negb] in *.
    - now rewrite O.
    - destruct (N.of_nat (length (c_captured c)) <? max); [exact St|].
      destruct (has_value (c_captured c) cell); cbn [negb] in *; [now rewrite O|exact St].
  Qed.

  (* on_capture changes nothing else. *)
  Definition same_rest (c c' : column) : Prop :=
    c' = with_captured c (c_captured c') (c_overflowed c').
  Lemma on_capture_rest c cell : same_rest c (on_capture capture max c cell).
  Proof.
    unfold same_rest, on_capture.
    destruct (capture && negb (c_overflowed c)); [|destruct c; reflexivity].
    destruct (_ <? max); [destruct c; reflexivity|].
    destruct (negb _); destruct c; reflexivity.
  Qed.

  Lemma plain_nonempty cell : is_plain cell = true -> is_empty cell = false.
  Proof. destruct cell; auto. Qed.

  Definition one (b : bool) : N := if b then 1 else 0.

  (* How one cell changes the statistics. *)
  Record delta (cell : list byte) (c c' : column) : Prop := {
    d_rows : c_rows c' = c_rows c + 1;
    d_empty : c_empty c' = c_empty c + one (is_empty cell);
    d_blank : c_blank c' = c_blank c + one (is_blank cell);
    d_null : c_null c' = c_null c + one (is_null_like nulls cell);
    d_numeric : c_numeric c' = c_numeric c + N.of_nat (length (number atod cell));
    d_finite : c_finite c' = c_finite c + N.of_nat (length (number atod cell));
    d_nan : c_nan c' + N.of_nat (length (number atod cell)) = c_nan c + one (is_plain cell);
    d_int : c_int c' = match number atod cell with
                       | [q] => if Qle_bool (Qabs (inject_Z (q_round q) - q)) (1 # 100000)
                                then c_int c + 1 else c_int c
                       | _ => c_int c
                       end;
    d_min : c_min c' = match number atod cell with
                       | [q] => if is_nan (c_min c) || dlt (Fin q) (c_min c) then Fin q else c_min c
                       | _ => c_min c
                       end;
    d_max : c_max c' = match number atod cell with
                       | [q] => if is_nan (c_max c) || dlt (c_max c) (Fin q) then Fin q else c_max c
                       | _ => c_max c
                       end;
    d_min_len : c_min_len c' = if is_empty cell then c_min_len c
                               else N.min (c_min_len c) (N.of_nat (length cell));
    d_min_len_ne : c_min_len_ne c' = if is_empty cell then c_min_len_ne c
                               else N.min (c_min_len_ne c) (N.of_nat (length cell));
    d_max_len : c_max_len c' = N.max (c_max_len c) (N.of_nat (length cell));
    d_words : c_words c' = c_words c + N.of_nat (length (getlines [] cell));
    d_example : c_example c' = if c_rows c =? 0 then cell else c_example c;
    d_card : if is_empty cell then c_card c' = c_card c
             else hll_add version (c_card c) cell = Ok (c_card c');
    d_vocab : hll_add_all version (c_vocab c) (getlines [] cell) = Ok (c_vocab c');
    d_sample : c_sample c' = match number atod cell with
                             | [q] => if N.of_nat (length (c_sample c)) <? max_sample_size
                                      then c_sample c ++ [q] else c_sample c
                             | _ => c_sample c
                             end;
    d_captured : if is_plain cell
                 then exists c0, c_captured c0 = c_captured c /\ c_overflowed c0 = c_overflowed c /\
                      c_captured c' = c_captured (on_capture capture max c0 cell) /\
                      c_overflowed c' = c_overflowed (on_capture capture max c0 cell)
                 else c_captured c' = c_captured c /\ c_overflowed c' = c_overflowed c }.

  Lemma number_cases cell : number atod cell = [] \/ exists q, number atod cell = [q].
  Proof.
    unfold number. destruct (is_plain cell); auto. destruct (atod cell) as [[q|b|]|]; eauto.
  Qed.

  Lemma bits16 : bits_ok cardinality_bits.
  Proof. unfold bits_ok, cardinality_bits. lia. Qed.

  Lemma inv_snoc seen cell c c' : inv seen c -> delta cell c c' -> inv (seen ++ [cell]) c'.
  Proof.
    intros I D. destruct I, D.
    constructor; rewrite ?count_app, ?count_one, ?numbers_snoc, ?tokens_snoc.
    - rewrite app_length. cbn [length]. lia.
    - unfold one in *. lia.
    - unfold one in *. lia.
    - unfold one in *. lia.
    - rewrite app_length. lia.
    - rewrite app_length. lia.
    - rewrite app_length. unfold one in *. lia.
    - rewrite d_int0. destruct (number_cases cell) as [-> |(q & ->)].
      + now rewrite app_nil_r.
      + destruct (Qle_bool _ _) eqn:Q.
        * apply int_test in Q. now apply counts_snoc_yes.
        * apply counts_snoc_no; auto. intro H. apply int_test in H. congruence.
    - rewrite d_min0. destruct (number_cases cell) as [-> |(q & ->)].
      + now rewrite app_nil_r.
      + now apply min_snoc.
    - rewrite d_max0. destruct (number_cases cell) as [-> |(q & ->)].
      + now rewrite app_nil_r.
      + now apply max_snoc.
    - rewrite d_min_len0, i_min_len0. unfold min_of, text. rewrite filter_app. cbn [filter].
      change (nonempty cell) with (negb (is_empty cell)). destruct (is_empty cell); cbn [negb].
      + now rewrite app_nil_r.
      + rewrite lengths_app, fold_min_app. cbn [lengths map fold_right]. 
        assert (fold_right N.min size_max (lengths (filter nonempty seen)) <= size_max).
        { induction (lengths (filter nonempty seen)); cbn [fold_right]; lia. }
        lia.
    - rewrite d_min_len_ne0, i_min_len_ne0. unfold min_of, text. rewrite filter_app. cbn [filter].
      change (nonempty cell) with (negb (is_empty cell)). destruct (is_empty cell); cbn [negb].
      + now rewrite app_nil_r.
      + rewrite lengths_app, fold_min_app. cbn [lengths map fold_right]. 
        assert (fold_right N.min size_max (lengths (filter nonempty seen)) <= size_max).
        { induction (lengths (filter nonempty seen)); cbn [fold_right]; lia. }
        lia.
    - rewrite d_max_len0, i_max_len0. unfold max_of. rewrite lengths_app, fold_max_app.
      cbn [lengths map fold_right]. lia.
    - rewrite app_length. lia.
    - now rewrite d_example0, hd_snoc, i_rows0, i_example0.
    - unfold text in *. rewrite filter_app. cbn [filter]. change (nonempty cell) with (negb (is_empty cell)).
      destruct (is_empty cell); cbn [negb].
      + now rewrite app_nil_r, d_card0.
      + eapply sketch_add; eauto. apply bits16.
    - eapply sketch_add_all; eauto. apply bits16.
    - rewrite d_sample0. destruct (number_cases cell) as [-> |(q & ->)].
      + now rewrite app_nil_r.
      + rewrite i_sample0, firstn_app, firstn_length.
        destruct (N.ltb_spec (N.of_nat (Nat.min (N.to_nat max_sample_size) (length (numbers atod seen))))
          max_sample_size) as [L|L].
        * rewrite !firstn_all2 with (l := [q]); [|cbn [length]; lia]. reflexivity.
        * replace (N.to_nat max_sample_size - length (numbers atod seen))%nat with 0%nat by lia.
          cbn [firstn]. now rewrite app_nil_r.
    - rewrite filter_app. cbn [filter]. destruct (is_plain cell).
      + destruct d_captured0 as (c0 & A & B & -> & ->). apply (cap_col c0 cell).
        now rewrite A, B.
      + rewrite app_nil_r. destruct d_captured0 as [-> ->]. auto.
  Qed.

  Lemma step_delta c s cell c' s' cells :
    linv cells s ->
    analyze_cell atod version nulls max capture c s cell = Ok (c', s') ->
    delta cell c c' /\ linv (cells ++ [cell]) s' /\
    c_mean c' = c_mean c /\ c_avg_len c' = c_avg_len c /\ c_name c' = c_name c.
  Proof.
    intros L E. destruct (is_empty cell) eqn:Em.
    { destruct cell; [|discriminate]. cbn [analyze_cell] in E. injection E as <- <-.
      split; [|split; [|auto]].
      - constructor; cbn; auto; lia.
      - destruct L. constructor; rewrite ?count_app, ?count_one, ?numbers_snoc; cbn [number is_plain
            forallb negb]; rewrite ?app_nil_r; auto.
        + cbn [nonempty is_empty negb]. lia.
        + rewrite lengths_app, total_app. cbn. lia. }
    assert (Ne : cell <> []) by (intros ->; discriminate).
    unfold analyze_cell in E.
    assert (E' : (let* c1 := on_text version (on_row c cell) cell in
        let s := {| s_sum := s_sum s; s_count := s_count s;
                    s_cells := s_cells s + 1;
                    s_length := s_length s + N.of_nat (length cell) |} in
        let* blank := is_whitespace_only cell in
        if blank then Ok (on_blank c1, s)
        else
          let* null := match_nan_values cell nulls in
          let c := if null then on_null_like c1 else c1 in
          let* r := try_parse_float dbl is_inf NaN atod [] cell in
          let '(c, s) :=
            match r with
            | P_ok NaN => (on_nan c, s)
            | P_ok v =>
                (on_number c v,
                 match v with
                 | Fin q => {| s_sum := dadd (s_sum s) v; s_count := s_count s + 1;
                               s_cells := s_cells s; s_length := s_length s |}
                 | _ => s
                 end)
            | _ => (on_nan c, s)
            end in
          Ok (on_capture capture max c cell, s)) = Ok (c', s')).
    { destruct cell; [contradiction|exact E]. }
    clear E. rename E' into E.
    unfold on_text in E. cbv zeta in E. cbn [on_row c_card c_vocab] in E.
    destruct (hll_add version (c_card c) cell) as [card| | |] eqn:HC; cbn [bind] in E; try discriminate.
    destruct (hll_add_all version (c_vocab c) (getlines [] cell)) as [vocab| | |] eqn:HV;
      cbn [bind] in E; try discriminate.
    destruct (is_whitespace_only cell) as [blank| | |] eqn:W; cbn [bind] in E; try discriminate.
    apply whitespace_only_ok in W.
    assert (Lc : linv (cells ++ [cell]) 
       {| s_sum := match number atod cell with [q] => dadd (s_sum s) (Fin q) | _ => s_sum s end;
          s_count := s_count s + N.of_nat (length (number atod cell));
          s_cells := s_cells s + 1; s_length := s_length s + N.of_nat (length cell) |}).
    { destruct L as [(q & Q1 & Q2) L2 L3 L4].
      constructor; rewrite ?count_app, ?count_one, ?numbers_snoc; cbn [s_sum s_count s_cells s_length].
      - destruct (number_cases cell) as [-> |(x & ->)].
        + rewrite app_nil_r. eauto.
        + rewrite Q1. cbn [dadd]. eexists. split; [reflexivity|]. rewrite sum_q_app, Q2.
          unfold sum_q. cbn [fold_right]. ring.
      - rewrite app_length. lia.
      - change (nonempty cell) with (negb (is_empty cell)). rewrite Em. cbn [negb]. lia.
      - rewrite lengths_app, total_app. cbn [lengths map total fold_right]. lia. }
    destruct blank.
    { injection E as <- <-.
      assert (Pl : is_plain cell = false) by (unfold is_plain; now rewrite <- W).
      assert (Bl : is_blank cell = true) by (unfold is_blank; now rewrite Em, <- W).
      assert (Nn : number atod cell = []) by (unfold number; now rewrite Pl).
      assert (Nl : is_null_like nulls cell = false) by (unfold is_null_like; now rewrite Pl).
      split; [|split; [|auto]].
      - constructor; rewrite ?Pl, ?Bl, ?Nn, ?Nl, ?Em; cbn; auto; lia.
      - rewrite Nn in Lc. cbn [length] in Lc. now rewrite N.add_0_r in Lc. }
    assert (Pl : is_plain cell = true) by (unfold is_plain; now rewrite <- W).
    assert (Bl : is_blank cell = false) by (unfold is_blank; now rewrite Em, <- W).
    destruct (match_nan_values cell nulls) as [null| | |] eqn:M; cbn [bind] in E; try discriminate.
    apply match_nan_ok in M.
    assert (Nl : is_null_like nulls cell = null) by (unfold is_null_like; now rewrite Pl, M).
    clear M W. rewrite parse_cases in E. cbn [bind] in E.
    assert (Nn : number atod cell = match atod cell with Some (Fin q) => [q] | _ => [] end)
      by (unfold number; now rewrite Pl).
    destruct (atod cell) as [[q|b|]|]; cbn beta iota zeta in E;
    match type of E with Ok (on_capture _ _ ?c0 _, _) = _ =>
      pose proof (on_capture_rest c0 cell) as R; set (cc := c0) in *
    end; injection E as <- <-; unfold same_rest in R;
    set (c2 := on_capture capture max cc cell) in *;
    (split; [|split; [rewrite Nn in Lc; cbn [length] in Lc; rewrite ?N.add_0_r in Lc; exact Lc
             |rewrite R; unfold cc; destruct null; auto]]);
    (constructor; rewrite ?Pl, ?Bl, ?Nn, ?Nl, ?Em;
     [..|exists cc; unfold c2; unfold cc; destruct null; auto]);
    rewrite R; unfold cc; destruct null; cbn; auto; lia.
  Qed.

  Lemma step c s cell c' s' seen cells :
    inv seen c -> linv cells s ->
    analyze_cell atod version nulls max capture c s cell = Ok (c', s') ->
    inv (seen ++ [cell]) c' /\ linv (cells ++ [cell]) s' /\
    c_mean c' = c_mean c /\ c_avg_len c' = c_avg_len c /\ c_name c' = c_name c.
  Proof.
    intros I L E. destruct (step_delta _ _ _ _ _ _ L E) as (D & R). split; auto.
    eapply inv_snoc; eauto.
  Qed.

  Lemma steps l : forall c s c' s' seen cells,
    inv seen c -> linv cells s ->
    analyze_cells atod version nulls max capture c s l = Ok (c', s') ->
    inv (seen ++ l) c' /\ linv (cells ++ l) s' /\
    c_mean c' = c_mean c /\ c_avg_len c' = c_avg_len c /\ c_name c' = c_name c.
  Proof.
    induction l as [|cell l IH]; intros c s c' s' seen cells I L E; cbn [analyze_cells] in E.
    - injection E as <- <-. rewrite !app_nil_r. auto.
    - destruct (analyze_cell _ _ _ _ _ c s cell) as [[c1 s1]| | |] eqn:A; cbn [bind] in E; try discriminate.
      cbn [fst snd] in E. destruct (step _ _ _ _ _ _ _ I L A) as (I1 & L1 & M1 & M2 & M3).
      destruct (IH _ _ _ _ _ _ I1 L1 E) as (I2 & L2 & N1 & N2 & N3).
      rewrite <- !app_assoc in *. cbn [app] in *.
      split; [exact I2|]. split; [exact L2|]. split; [|split]; congruence.
  Qed.
End Column.
