From Verif Require Import Common Model_num Spec_num.
Local Open Scope Z_scope.

Lemma is_space_iff c : is_space c = true <-> space c.
Proof. unfold is_space, space. lia. Qed.

Lemma digit_some c : is_digit c -> digit c = Some (Z.of_N c - 48).
Proof. unfold is_digit, digit. intro H. replace (N.leb 48 c && N.leb c 57) with true by lia. reflexivity. Qed.

Lemma digit_inv c d : digit c = Some d -> is_digit c /\ d = Z.of_N c - 48 /\ 0 <= d <= 9.
Proof.
  unfold is_digit, digit. destruct (N.leb 48 c && N.leb c 57) eqn:E; [|discriminate].
  intro H. injection H as <-. lia.
Qed.

Lemma digit_none c : digit c = None -> ~ is_digit c.
Proof. unfold is_digit, digit. destruct (N.leb 48 c && N.leb c 57) eqn:E; [discriminate|]. lia. Qed.

Lemma digit_not_space c : is_digit c -> ~ space c.
Proof. unfold is_digit, space. lia. Qed.

(* ---------- white space ---------- *)
Lemma drop_space_app w m : Forall space w -> drop_space (w ++ m) = drop_space m.
Proof.
  induction w as [|c w IH]; intro H; [reflexivity|].
  cbn. rewrite (proj2 (is_space_iff c) (Forall_inv H)). apply IH, (Forall_inv_tail H).
Qed.

Lemma drop_space_all w : Forall space w -> drop_space w = [].
Proof. intro H. rewrite <- (app_nil_r w), drop_space_app by assumption. reflexivity. Qed.

Lemma drop_space_head c m : ~ space c -> drop_space (c :: m) = c :: m.
Proof.
  intro H. cbn. destruct (is_space c) eqn:E; [|reflexivity].
  apply is_space_iff in E. contradiction.
Qed.

Lemma drop_space_hd s : (forall c, hd_error s = Some c -> ~ space c) -> drop_space s = s.
Proof. destruct s as [|c s]; intro H; [reflexivity|]. apply drop_space_head, H. reflexivity. Qed.

Lemma drop_space_split s : exists w, s = w ++ drop_space s /\ Forall space w /\
  (drop_space s = [] \/ exists c m, drop_space s = c :: m /\ ~ space c).
Proof.
  induction s as [|c s IH].
  - exists []. cbn. auto.
  - cbn. destruct (is_space c) eqn:E.
    + destruct IH as (w & H1 & H2 & H3). exists (c :: w). cbn. rewrite <- H1.
      split; [reflexivity|]. split; [constructor; [apply is_space_iff, E|exact H2]|exact H3].
    + exists []. split; [reflexivity|]. split; [constructor|]. right. exists c, s.
      split; [reflexivity|]. rewrite <- is_space_iff. congruence.
Qed.

Lemma rev_Forall {A} (P : A -> Prop) l : Forall P l -> Forall P (rev l).
Proof. rewrite !Forall_forall. intros H x Hx. apply H, in_rev, Hx. Qed.

Lemma strip_split s : exists w w', s = w ++ strip s ++ w' /\ Forall space w /\ Forall space w' /\
  (strip s = [] \/ ((exists c m, strip s = c :: m /\ ~ space c) /\ exists m d, strip s = m ++ [d] /\ ~ space d)).
Proof.
  unfold strip. destruct (drop_space_split s) as (w & H1 & H2 & H3).
  destruct (drop_space_split (rev (drop_space s))) as (w' & K1 & K2 & K3).
  set (x := drop_space (rev (drop_space s))) in *.
  assert (E : drop_space s = rev x ++ rev w').
  { rewrite <- (rev_involutive (drop_space s)), K1, rev_app_distr. reflexivity. }
  exists w, (rev w'). rewrite <- E. split; [exact H1|]. split; [exact H2|]. split; [apply rev_Forall, K2|].
  destruct K3 as [K3|(d & m & K3 & K4)]; [left; rewrite K3; reflexivity|]. right.
  split.
  - destruct H3 as [H3|(c & n & H3 & H4)].
    + rewrite H3 in K1. cbn in K1. symmetry in K1. apply app_eq_nil in K1. rewrite K3 in K1. destruct K1; discriminate.
    + rewrite H3, K3 in E. rewrite K3. cbn in *.
      destruct (rev m) as [|e n'] eqn:Em.
      * cbn in E. injection E as E1 E2. exists d, []. split; [reflexivity|exact K4].
      * cbn in E. injection E as E1 E2. exists e, (n' ++ [d]). split; [reflexivity|]. rewrite <- E1. exact H4.
  - exists (rev m), d. rewrite K3. split; [reflexivity|exact K4].
Qed.

(* Stripping text whose middle begins and ends with something else than white space. *)
Lemma strip_mid w m d w' : Forall space w -> Forall space w' ->
  (exists c n, m ++ [d] = c :: n /\ ~ space c) -> ~ space d ->
  strip (w ++ (m ++ [d]) ++ w') = m ++ [d].
Proof.
  intros Hw Hw' (c & n & E & Hc) Hd. unfold strip.
  rewrite drop_space_app by assumption. rewrite E. cbn [app].
  rewrite drop_space_head by assumption. rewrite app_comm_cons, <- E.
  rewrite rev_app_distr, drop_space_app by (apply rev_Forall, Hw').
  rewrite rev_app_distr. cbn [rev app]. rewrite drop_space_head by assumption.
  cbn. rewrite rev_involutive. reflexivity.
Qed.

(* ---------- the digit loops ---------- *)
Lemma value_from_ge ds : forall a, Forall is_digit ds -> 0 <= a -> a <= value_from a ds.
Proof.
  induction ds as [|c ds IH]; cbn [value_from]; intros a H Ha; [lia|].
  pose proof (Forall_inv H) as Hc. unfold is_digit in Hc.
  specialize (IH (10 * a + (Z.of_N c - 48)) (Forall_inv_tail H) ltac:(lia)). lia.
Qed.

(* Digits up to a first character that is no digit. *)
Lemma digits_prefix s : exists ds r, s = ds ++ r /\ Forall is_digit ds /\ ~ starts_with_digit r.
Proof.
  induction s as [|c s IH].
  - exists [], []. split; [reflexivity|]. split; [constructor|]. intros (c & r & E & _). discriminate.
  - destruct (digit c) eqn:E.
    + destruct IH as (ds & r & H1 & H2 & H3). exists (c :: ds), r. rewrite H1.
      split; [reflexivity|]. split; [|exact H3]. constructor; [apply (digit_inv _ _ E)|exact H2].
    + exists [], (c :: s). split; [reflexivity|]. split; [constructor|].
      intros (c' & r & E' & H). injection E' as <- <-. apply (digit_none _ E H).
Qed.

Lemma positive_run vmax ds : forall v r, 0 <= v <= vmax -> Forall is_digit ds -> ~ starts_with_digit r ->
  parse_positive vmax v (ds ++ r) =
  if value_from v ds <=? vmax
  then (match r with [] => true | _ => false end, value_from v ds)
  else (false, vmax).
Proof.
  induction ds as [|c ds IH]; intros v r Hv Hds Hr.
  - cbn [app value_from]. replace (v <=? vmax) with true by lia.
    destruct r as [|c r]; cbn; [reflexivity|].
    destruct (digit c) eqn:E; [|reflexivity]. exfalso. apply Hr. exists c, r.
    split; [reflexivity|]. apply (digit_inv _ _ E).
  - pose proof (Forall_inv Hds) as Hc. pose proof (Forall_inv_tail Hds) as Hds'.
    cbn [app parse_positive value_from]. rewrite (digit_some _ Hc). unfold is_digit in Hc.
    set (d := Z.of_N c - 48). assert (Hd : 0 <= d <= 9) by (unfold d; lia).
    pose proof (value_from_ge ds (10 * v + d) Hds' ltac:(lia)) as Hge.
    pose proof (Z.div_mod vmax 10 ltac:(lia)) as Hdm. pose proof (Z.mod_pos_bound vmax 10 ltac:(lia)) as Hm.
    destruct (v >? vmax / 10) eqn:E1.
    + replace (value_from (10 * v + d) ds <=? vmax) with false by lia. reflexivity.
    + destruct (v * 10 >? vmax - d) eqn:E2.
      * replace (value_from (10 * v + d) ds <=? vmax) with false by lia. reflexivity.
      * replace (10 * v + d) with (v * 10 + d) by lia. apply IH; [lia|assumption|assumption].
Qed.

Lemma negative_positive vmin s : forall v, vmin <= 0 ->
  parse_negative vmin (- v) s = let (b, x) := parse_positive (- vmin) v s in (b, - x).
Proof.
  induction s as [|c s IH]; intros v Hv; cbn; [reflexivity|].
  destruct (digit c) as [d|]; [|reflexivity].
  assert (Q : Z.quot vmin 10 = - (- vmin / 10)).
  { replace vmin with (- (- vmin)) at 1 by lia. rewrite Z.quot_opp_l by lia.
    rewrite Z.quot_div_nonneg by lia. reflexivity. }
  rewrite Q.
  replace (- v <? - (- vmin / 10)) with (v >? - vmin / 10) by lia.
  destruct (v >? - vmin / 10); [rewrite Z.opp_involutive; reflexivity|].
  replace (- v * 10 <? vmin + d) with (v * 10 >? - vmin - d) by lia.
  destruct (v * 10 >? - vmin - d); [rewrite Z.opp_involutive; reflexivity|].
  replace (- v * 10 - d) with (- (v * 10 + d)) by lia. apply IH, Hv.
Qed.

Lemma negative_run vmin ds r : vmin <= 0 -> Forall is_digit ds -> ~ starts_with_digit r ->
  parse_negative vmin 0 (ds ++ r) =
  if value ds <=? - vmin
  then (match r with [] => true | _ => false end, - value ds)
  else (false, vmin).
Proof.
  intros Hv Hds Hr. change 0 with (- 0). rewrite negative_positive by assumption.
  rewrite positive_run by (assumption || lia). fold (value ds).
  destruct (value ds <=? - vmin); [reflexivity|]. rewrite Z.opp_involutive. reflexivity.
Qed.

(* ---------- the whole conversion ---------- *)
(* What sign_of sees: after the white space, a sign and a nonempty rest. *)
Lemma sign_of_mid w sg neg m d w' : Forall space w -> Forall space w' -> sign_text sg neg ->
  ~ space d -> (sg = [] -> exists c n, m ++ [d] = c :: n /\ ~ space c /\ no_sign c) ->
  sign_of (w ++ sg ++ (m ++ [d]) ++ w') = Some (neg, m ++ [d]).
Proof.
  intros Hw Hw' Hsg Hd Hh. unfold sign_of.
  replace (w ++ sg ++ (m ++ [d]) ++ w') with (w ++ ((sg ++ m) ++ [d]) ++ w') by (rewrite <- !app_assoc; reflexivity).
  destruct Hsg as [[-> ->]|[[-> ->]|[-> ->]]].
  - destruct (Hh eq_refl) as (c & n & E & Hc & Hns). cbn [app].
    rewrite strip_mid; [|assumption|assumption|exists c, n; auto|assumption].
    rewrite E. destruct Hns as [N1 N2]. replace (N.eqb c 45 || N.eqb c 43) with false by lia. reflexivity.
  - rewrite strip_mid; [|assumption|assumption| |assumption].
    + cbn. destruct (m ++ [d]) eqn:E; [apply app_eq_nil in E; destruct E; discriminate|reflexivity].
    + exists 43%N, (m ++ [d]). split; [reflexivity|]. unfold space. lia.
  - rewrite strip_mid; [|assumption|assumption| |assumption].
    + cbn. destruct (m ++ [d]) eqn:E; [apply app_eq_nil in E; destruct E; discriminate|reflexivity].
    + exists 45%N, (m ++ [d]). split; [reflexivity|]. unfold space. lia.
Qed.

Lemma imin_le t : imin t <= 0. Proof. destruct t; cbn; lia. Qed.
Lemma imax_ge t : 0 <= imax t. Proof. destruct t; cbn; lia. Qed.

Lemma value_nonneg ds : Forall is_digit ds -> 0 <= value ds.
Proof. intro H. apply value_from_ge; [assumption|lia]. Qed.

(* The conversion of [sign] [digits] [rest]. *)
Definition atoi_result (t : ity) (neg : bool) (ds r : list byte) : bool * Z :=
  let done := match r with [] => true | _ => false end in
  if neg
  then if signed t
       then if value ds <=? - imin t then (done, - value ds) else (false, imin t)
       else (false, 0)
  else if value ds <=? imax t then (done, value ds) else (false, imax t).

Lemma atoi_of_sign t s neg ds r : sign_of s = Some (neg, ds ++ r) -> Forall is_digit ds ->
  ~ starts_with_digit r -> simple_atoi t s = atoi_result t neg ds r.
Proof.
  intros E Hds Hr. unfold simple_atoi, atoi_result. rewrite E.
  destruct neg.
  - destruct (signed t); [|reflexivity]. apply negative_run; [apply imin_le|assumption|assumption].
  - rewrite positive_run; [reflexivity| |assumption|assumption]. pose proof (imax_ge t). lia.
Qed.

Lemma nonempty_last {A} (l : list A) : l <> [] -> exists m d, l = m ++ [d].
Proof. intro H. destruct (exists_last H) as (m & d & E). exists m, d. exact E. Qed.

Lemma digits_last ds : ds <> [] -> Forall is_digit ds ->
  exists m d, ds = m ++ [d] /\ is_digit d.
Proof.
  intros H Hd. destruct (nonempty_last _ H) as (m & d & E). exists m, d. split; [exact E|].
  rewrite Forall_forall in Hd. apply Hd. rewrite E. apply in_or_app. right. left. reflexivity.
Qed.

Lemma not_starts_nil : ~ starts_with_digit [].
Proof. intros (c & r & E & _). discriminate. Qed.

Lemma written_atoi t s neg z : written s neg z ->
  exists ds, Forall is_digit ds /\ z = with_sign neg (value ds) /\ simple_atoi t s = atoi_result t neg ds [].
Proof.
  intros (w & sg & ds & w' & -> & Hw & Hsg & Hne & Hds & Hw' & Hz).
  exists ds. split; [assumption|]. split; [assumption|].
  apply atoi_of_sign; [|assumption|apply not_starts_nil].
  rewrite app_nil_r. destruct (digits_last _ Hne Hds) as (m & d & E & Hd). rewrite E.
  apply sign_of_mid; [assumption|assumption|assumption|apply digit_not_space, Hd|].
  intros _. rewrite <- E. destruct ds as [|c n]; [contradiction|]. exists c, n.
  pose proof (Forall_inv Hds) as Hc. split; [reflexivity|]. split; [apply digit_not_space, Hc|].
  unfold is_digit in Hc. unfold no_sign. lia.
Qed.

(* What a successful sign_of says about the text. *)
Lemma sign_of_inv s neg r : sign_of s = Some (neg, r) ->
  exists w sg w', s = w ++ sg ++ r ++ w' /\ Forall space w /\ Forall space w' /\ sign_text sg neg /\ r <> [].
Proof.
  unfold sign_of. destruct (strip_split s) as (w & w' & E & Hw & Hw' & _).
  destruct (strip s) as [|c m]; [discriminate|].
  destruct (N.eqb c 45 || N.eqb c 43) eqn:Ec.
  - destruct m as [|c' m]; [discriminate|]. intro H. injection H as Hn Hr.
    exists w, [c], w'. split; [rewrite E, <- Hr; reflexivity|]. split; [assumption|]. split; [assumption|].
    split; [|rewrite <- Hr; discriminate]. unfold sign_text. destruct (N.eqb c 45) eqn:E45.
    + right; right. split; [f_equal; lia|congruence].
    + right; left. split; [f_equal; lia|congruence].
  - intro H. injection H as Hn Hr. exists w, [], w'. split; [rewrite E, <- Hr; reflexivity|].
    split; [assumption|]. split; [assumption|]. split; [left; auto|rewrite <- Hr; discriminate].
Qed.

Lemma atoi_accepts t s z : simple_atoi t s = (true, z) ->
  exists neg, written s neg z /\ imin t <= z <= imax t /\ (signed t = false -> neg = false).
Proof.
  destruct (sign_of s) as [[neg x]|] eqn:E.
  2:{ unfold simple_atoi. rewrite E. discriminate. }
  destruct (digits_prefix x) as (ds & r & Ex & Hds & Hr).
  rewrite Ex in E. rewrite (atoi_of_sign t s neg ds r E Hds Hr). unfold atoi_result.
  destruct (sign_of_inv _ _ _ E) as (w & sg & w' & Es & Hw & Hw' & Hsg & Hne).
  pose proof (value_nonneg ds Hds). pose proof (imin_le t). pose proof (imax_ge t).
  assert (W : r = [] -> written s neg (with_sign neg (value ds))).
  { intros ->. rewrite app_nil_r in Es, Hne. exists w, sg, ds, w'. auto 8. }
  intro R. exists neg. destruct neg.
  - destruct (signed t) eqn:St; [|discriminate].
    destruct (value ds <=? - imin t) eqn:L; [|discriminate].
    destruct r; [|discriminate]. injection R as <-. split; [apply (W eq_refl)|]. split; [lia|discriminate].
  - destruct (value ds <=? imax t) eqn:L; [|discriminate].
    destruct r; [|discriminate]. injection R as <-. split; [apply (W eq_refl)|]. split; [lia|reflexivity].
Qed.

Lemma atoi_written t s neg z : written s neg z ->
  simple_atoi t s =
  if neg && negb (signed t) then (false, 0)
  else if z <? imin t then (false, imin t) else if z >? imax t then (false, imax t) else (true, z).
Proof.
  intro H. destruct (written_atoi t s neg z H) as (ds & Hds & Hz & ->). unfold atoi_result.
  pose proof (value_nonneg ds Hds). pose proof (imin_le t). pose proof (imax_ge t).
  rewrite Hz. unfold with_sign. destruct neg; cbn [andb].
  - destruct (signed t) eqn:St; cbn [negb]; [|reflexivity].
    destruct (value ds <=? - imin t) eqn:L.
    + replace (- value ds <? imin t) with false by lia. replace (- value ds >? imax t) with false by lia. reflexivity.
    + replace (- value ds <? imin t) with true by lia. reflexivity.
  - replace (value ds <? imin t) with false by lia.
    destruct (value ds <=? imax t) eqn:L.
    + replace (value ds >? imax t) with false by lia. reflexivity.
    + replace (value ds >? imax t) with true by lia. reflexivity.
Qed.

Lemma parse_wide_written t s neg z : written s neg z ->
  parse_wide t s = if neg && negb (signed t) then P_overflowed
                   else if (z <? imin t) || (z >? imax t) then P_overflowed else P_ok z.
Proof.
  intro H. unfold parse_wide. rewrite (atoi_written t s neg z H).
  destruct (neg && negb (signed t)) eqn:E.
  - destruct (signed t) eqn:St; [destruct neg; discriminate|].
    unfold imin. rewrite St. rewrite orb_true_r. reflexivity.
  - destruct (z <? imin t); cbn [orb].
    + rewrite Z.eqb_refl, orb_true_r. reflexivity.
    + destruct (z >? imax t); [|reflexivity]. rewrite Z.eqb_refl. reflexivity.
Qed.

Lemma parse_wide_accepts t s z : parse_wide t s = P_ok z ->
  exists neg, written s neg z /\ imin t <= z <= imax t /\ (signed t = false -> neg = false).
Proof.
  unfold parse_wide. destruct (simple_atoi t s) as [b v] eqn:E. destruct b.
  - intro H. injection H as <-. apply atoi_accepts, E.
  - destruct ((v =? imax t) || (v =? imin t)); discriminate.
Qed.

Lemma in_range_iff t z : in_range t z <-> imin t <= z <= imax t.
Proof. destruct t; cbn; lia. Qed.

Lemma parse_int_written t base s neg z : written s neg z ->
  try_parse_int t base s = if neg && negb (signed t) then P_overflowed
                   else if (z <? imin t) || (z >? imax t) then P_overflowed else P_ok z.
Proof.
  intro H.
  assert (N : forall t', (t' = i8 \/ t' = i16 \/ t' = u8 \/ t' = u16) ->
    parse_narrow t' s = if neg && negb (signed t') then P_overflowed
                   else if (z <? imin t') || (z >? imax t') then P_overflowed else P_ok z).
  { intros t' Ht. unfold parse_narrow. rewrite (parse_wide_written _ s neg z H).
    destruct Ht as [->|[->|[->| ->]]]; cbn [signed negb]; rewrite ?andb_false_r, ?andb_true_r;
      (destruct neg; try reflexivity);
      cbn [imin imax signed bits]; cbv [imin imax signed bits Z.pow Z.pow_pos Pos.iter Z.sub Z.opp Z.add Z.mul Pos.mul Z.pos_sub Pos.pred_double Z.succ_double Z.pred_double Z.double Pos.add Pos.succ] ;
      match goal with |- context [if ?b then _ else _] => destruct b eqn:E1 end;
      match goal with |- context [if ?b then P_overflowed else P_ok _] => destruct b eqn:E2 end;
      try reflexivity; lia. }
  destruct t; cbn [try_parse_int]; (apply N; auto) || (apply parse_wide_written; exact H).
Qed.

Lemma parse_int_accepts t base s z : try_parse_int t base s = P_ok z ->
  exists neg, written s neg z /\ imin t <= z <= imax t /\ (signed t = false -> neg = false).
Proof.
  assert (N : parse_narrow t s = P_ok z ->
     exists neg, written s neg z /\ imin t <= z <= imax t /\ (signed t = false -> neg = false)).
  { unfold parse_narrow. destruct (parse_wide (if signed t then i32 else u32) s) as [v| |] eqn:E; try discriminate.
    destruct ((v <? imin t) || (v >? imax t)) eqn:L; [discriminate|]. intro H. injection H as <-.
    destruct (parse_wide_accepts _ _ _ E) as (neg & W & _ & Hn). exists neg. split; [exact W|]. split; [lia|].
    intro Hs. apply Hn. rewrite Hs. reflexivity. }
  destruct t; try exact N; apply parse_wide_accepts.
Qed.

Lemma int_exact t base s z :
  try_parse_int t base s = P_ok z <->
  in_range t z /\ exists neg, written s neg z /\ (signed t = false -> neg = false).
Proof.
  rewrite in_range_iff. split.
  - intro H. destruct (parse_int_accepts _ _ _ _ H) as (neg & W & R & Hn). split; [exact R|]. exists neg. auto.
  - intros (R & neg & W & Hn). rewrite (parse_int_written t base s neg z W).
    replace (neg && negb (signed t)) with false by (destruct (signed t), neg; auto; discriminate (Hn eq_refl)).
    replace ((z <? imin t) || (z >? imax t)) with false by lia. reflexivity.
Qed.

Lemma int_overflow t base s neg z : written s neg z -> ~ in_range t z -> try_parse_int t base s = P_overflowed.
Proof.
  rewrite in_range_iff. intros W R. rewrite (parse_int_written t base s neg z W).
  destruct (neg && negb (signed t)); [reflexivity|].
  replace ((z <? imin t) || (z >? imax t)) with true by lia. reflexivity.
Qed.

Lemma written_unique s neg z neg' z' : written s neg z -> written s neg' z' -> neg = neg' /\ z = z'.
Proof.
  intros H H'.
  assert (K : forall n x, written s n x -> exists ds, Forall is_digit ds /\ sign_of s = Some (n, ds) /\ x = with_sign n (value ds)).
  { clear. intros n x (w & sg & ds & w' & -> & Hw & Hsg & Hne & Hds & Hw' & Hz).
    exists ds. split; [exact Hds|]. split; [|exact Hz].
    destruct (digits_last _ Hne Hds) as (m & d & E & Hd). rewrite E.
    apply sign_of_mid; [assumption|assumption|assumption|apply digit_not_space, Hd|].
    intros _. rewrite <- E. destruct ds as [|c k]; [contradiction|]. exists c, k.
    pose proof (Forall_inv Hds) as Hc. split; [reflexivity|]. split; [apply digit_not_space, Hc|].
    unfold is_digit in Hc. unfold no_sign. lia. }
  destruct (K _ _ H) as (ds & _ & E & Hz). destruct (K _ _ H') as (ds' & _ & E' & Hz').
  rewrite E in E'. injection E' as -> ->. subst. auto.
Qed.

(* ---------- malformed text ---------- *)
Definition wide (t : ity) : ity :=
  match t with i8 | i16 | i32 => i32 | u8 | u16 | u32 => u32 | _ => t end.

Lemma int_via_wide t base s : parse_wide (wide t) s = P_failed -> try_parse_int t base s = P_failed.
Proof. destruct t; cbn; try (intro H; exact H); unfold parse_narrow; cbn; intros ->; reflexivity. Qed.

Lemma not_all_space r : ~ Forall space r -> exists m d w, r = m ++ [d] ++ w /\ ~ space d /\ Forall space w.
Proof.
  intro H. destruct (drop_space_split (rev r)) as (w & E & Hw & [K|(d & m & K & Hd)]).
  - exfalso. apply H. rewrite <- (rev_involutive r), E, K, app_nil_r. apply rev_Forall, Hw.
  - exists (rev m), d, (rev w). split; [|split; [exact Hd|apply rev_Forall, Hw]].
    rewrite <- (rev_involutive r), E, K, rev_app_distr. cbn. rewrite <- app_assoc. reflexivity.
Qed.

Lemma int_malformed t base w sg neg ds r :
  Forall space w -> sign_text sg neg -> Forall is_digit ds -> ds <> [] ->
  ~ starts_with_digit r -> ~ Forall space r -> inside t (with_sign neg (value ds)) ->
  try_parse_int t base (w ++ sg ++ ds ++ r) = P_failed.
Proof.
  intros Hw Hsg Hds Hne Hr Hns Hin. apply int_via_wide.
  destruct (not_all_space r Hns) as (m & d & w' & Er & Hd & Hw').
  assert (Hr' : ~ starts_with_digit (m ++ [d])).
  { intros (c & n & E & Hc). apply Hr. rewrite Er, app_assoc, E. exists c, (n ++ w'). auto. }
  assert (E : sign_of (w ++ sg ++ ds ++ r) = Some (neg, ds ++ (m ++ [d]))).
  { rewrite Er. replace (w ++ sg ++ ds ++ m ++ [d] ++ w') with (w ++ sg ++ ((ds ++ m) ++ [d]) ++ w')
      by (rewrite <- !app_assoc; reflexivity).
    rewrite (app_assoc ds m [d]). apply sign_of_mid; [assumption|assumption|assumption|assumption|].
    intros _. destruct ds as [|c n]; [contradiction|]. exists c, ((n ++ m) ++ [d]). split; [reflexivity|].
    pose proof (Forall_inv Hds) as Hc. split; [apply digit_not_space, Hc|].
    unfold is_digit in Hc. unfold no_sign. lia. }
  pose proof (value_nonneg ds Hds).
  unfold parse_wide. rewrite (atoi_of_sign (wide t) _ _ _ _ E Hds Hr'). unfold atoi_result.
  destruct (m ++ [d]) as [|c n] eqn:Em; [apply app_eq_nil in Em; destruct Em; discriminate|].
  unfold inside, with_sign in Hin.
  destruct neg, t; cbn [wide signed]; cbn -[Z.leb Z.eqb] ; try lia;
    match goal with |- context [if ?a <=? ?b then _ else _] => replace (a <=? b) with true by lia end;
    match goal with |- (if ?b then _ else _) = _ => replace b with false by lia end; reflexivity.
Qed.

Lemma int_no_digits t base w sg neg r :
  signed t = true -> Forall space w -> sign_text sg neg -> ~ starts_with_digit r ->
  (sg = [] -> r = [] \/ exists c n, r = c :: n /\ ~ space c /\ no_sign c) ->
  try_parse_int t base (w ++ sg ++ r) = P_failed.
Proof.
  intros Ht Hw Hsg Hr Hh. apply int_via_wide.
  assert (Hwide : signed (wide t) = true) by (destruct t; cbn in *; auto).
  assert (F : forall v, parse_wide (wide t) (w ++ sg ++ r) = P_failed \/ simple_atoi (wide t) (w ++ sg ++ r) <> (false, v) \/ v = imin (wide t) \/ v = imax (wide t)).
  { intro v. unfold parse_wide. destruct (simple_atoi (wide t) (w ++ sg ++ r)) as [b x].
    destruct b; [right; left; discriminate|].
    destruct ((x =? imax (wide t)) || (x =? imin (wide t))) eqn:E; [|left; reflexivity].
    right. destruct (Z.eq_dec x v) as [->|Nx]; [right; lia|left; congruence]. }
  assert (Z0 : simple_atoi (wide t) (w ++ sg ++ r) = (false, 0) -> parse_wide (wide t) (w ++ sg ++ r) = P_failed).
  { intro E. destruct (F 0) as [K|[K|[K|K]]]; [exact K|contradiction| |]; destruct t; discriminate. }
  apply Z0. clear F Z0.
  destruct (Forall_Exists_dec space (fun c => match is_space c as b return is_space c = b -> {space c} + {~ space c} with
      | true => fun e => left (proj1 (is_space_iff c) e)
      | false => fun e => right (fun s => eq_true_false_abs _ (proj2 (is_space_iff c) s) e) end eq_refl) r) as [Hsp|Hsp].
  - (* nothing but white space after the sign *)
    assert (K : sign_of (w ++ sg ++ r) = None).
    { unfold sign_of. destruct Hsg as [[-> ->]|[[-> ->]|[-> ->]]].
      - cbn [app]. destruct (Hh eq_refl) as [->|(c & n & -> & Hc & _)]; [|contradiction (Hc (Forall_inv Hsp))].
        rewrite app_nil_r. unfold strip. rewrite (drop_space_all w Hw). reflexivity.
      - change (w ++ [43%N] ++ r) with (w ++ ([] ++ [43%N]) ++ r). rewrite strip_mid; [reflexivity|assumption|assumption| |].
        + exists 43%N, []. split; [reflexivity|]. unfold space. lia.
        + unfold space. lia.
      - change (w ++ [45%N] ++ r) with (w ++ ([] ++ [45%N]) ++ r). rewrite strip_mid; [reflexivity|assumption|assumption| |].
        + exists 45%N, []. split; [reflexivity|]. unfold space. lia.
        + unfold space. lia. }
    unfold simple_atoi. rewrite K. reflexivity.
  - assert (Hns : ~ Forall space r).
    { rewrite Exists_exists in Hsp. destruct Hsp as (c & Hc & Hn). rewrite Forall_forall. intro K. exact (Hn (K c Hc)). }
    destruct (not_all_space r Hns) as (m & d & w' & Er & Hd & Hw').
    assert (Hr' : ~ starts_with_digit (m ++ [d])).
    { intros (c & n & E & Hc). apply Hr. rewrite Er, app_assoc, E. exists c, (n ++ w'). auto. }
    assert (E : sign_of (w ++ sg ++ r) = Some (neg, [] ++ (m ++ [d]))).
    { rewrite Er. cbn [app]. replace (m ++ d :: w') with ((m ++ [d]) ++ w') by (rewrite <- app_assoc; reflexivity).
      apply sign_of_mid; [assumption|assumption|assumption|assumption|]. intro Es.
      destruct (Hh Es) as [K|(c & n & K & Hc)].
      - exfalso. rewrite K in Er. destruct m; discriminate.
      - rewrite K in Er. destruct m as [|c' m'].
        + cbn in Er. injection Er as E1 E2. exists d, []. split; [reflexivity|]. rewrite <- E1. exact Hc.
        + cbn in Er. injection Er as E1 E2. exists c', (m' ++ [d]). split; [reflexivity|]. rewrite <- E1. exact Hc. }
    rewrite (atoi_of_sign (wide t) _ _ _ _ E (Forall_nil _) Hr'). unfold atoi_result. rewrite Hwide.
    change (value []) with 0. pose proof (imin_le (wide t)). pose proof (imax_ge (wide t)).
    destruct (m ++ [d]) as [|c n] eqn:Em; [apply app_eq_nil in Em; destruct Em; discriminate|].
    destruct neg; match goal with |- context [if ?b then _ else _] => replace b with true by lia end; reflexivity.
Qed.

(* ---------- inference ---------- *)
Section Infer.
  Context (F : Type) (atof atod : list byte -> option F) (is_inf : F -> bool) (qnan : F).

  Lemma float_ok_nans conv nans s v :
    try_parse_float F is_inf qnan conv [] s = Ok (P_ok v) -> try_parse_float F is_inf qnan conv nans s = Ok (P_ok v).
  Proof. unfold try_parse_float. destruct (conv s) as [x|]; [exact (fun h => h)|discriminate]. Qed.

  Lemma try_double_ok s : exists d, (let* r := try_parse_float F is_inf qnan atod [] s in
      match r with P_ok _ => Ok D_float64 | _ => Ok D_string end) = Ok d /\
    (d = D_string \/ d = D_float64 /\ exists v, try_parse_float F is_inf qnan atod [] s = Ok (P_ok v)).
  Proof.
    unfold try_parse_float. destruct (atod s) as [x|]; [destruct (is_inf x)|]; cbn;
      eexists; (split; [reflexivity|]); auto. right. eauto.
  Qed.

  Lemma infer_parses s nans base : exists d v,
    infer_data_type F atod is_inf qnan s = Ok d /\
    parse_cell F atof atod is_inf qnan d nans base s = Ok (P_ok v).
  Proof.
    assert (D : exists d v, (let* r := try_parse_float F is_inf qnan atod [] s in
      match r with P_ok _ => Ok D_float64 | _ => Ok D_string end) = Ok d /\
       parse_cell F atof atod is_inf qnan d nans base s = Ok (P_ok v)).
    { destruct (try_double_ok s) as (d & E & [->|[-> (v & K)]]).
      - exists D_string. eexists. split; [exact E|reflexivity].
      - exists D_float64, (V_float F v). split; [exact E|]. cbn. rewrite (float_ok_nans _ nans _ _ K). reflexivity. }
    destruct s as [|c s]; [exists D_string; eexists; split; reflexivity|].
    unfold infer_data_type. set (x := c :: s) in *.
    destruct (try_parse_int i64 0 x) as [z| |] eqn:E1.
    - exists (D_int i64), (V_int F z). split; [reflexivity|]. cbn [parse_cell]. change (try_parse_int i64 base x) with (try_parse_int i64 0 x). rewrite E1. reflexivity.
    - exact D.
    - destruct (try_parse_int u64 0 x) as [z| |] eqn:E2.
      + exists (D_int u64), (V_int F z). split; [reflexivity|]. cbn [parse_cell]. change (try_parse_int u64 base x) with (try_parse_int u64 0 x). rewrite E2. reflexivity.
      + exact D.
      + exact D.
  Qed.

  Lemma written_nonempty s neg z : written s neg z -> s <> [].
  Proof.
    intros (w & sg & ds & w' & -> & _ & _ & Hne & _) E.
    destruct ds; [contradiction|]. destruct w; [destruct sg|]; discriminate.
  Qed.

  Lemma infer_int s neg z : written s neg z ->
    (in_range i64 z -> infer_data_type F atod is_inf qnan s = Ok (D_int i64)) /\
    (~ in_range i64 z -> in_range u64 z -> infer_data_type F atod is_inf qnan s = Ok (D_int u64)).
  Proof.
    intro W. pose proof (written_nonempty _ _ _ W) as Hne. destruct s as [|c s]; [contradiction|].
    unfold infer_data_type. split.
    - intro R. rewrite (proj2 (int_exact i64 0 (c :: s) z)); [reflexivity|]. split; [exact R|]. exists neg. split; [exact W|discriminate].
    - intros R1 R2. rewrite (int_overflow i64 0 _ neg z W R1). rewrite (proj2 (int_exact u64 0 (c :: s) z)); [reflexivity|].
      split; [exact R2|]. exists neg. split; [exact W|]. intros _.
      destruct W as (w & sg & ds & w' & _ & _ & _ & _ & Hds & _ & Hz). pose proof (value_nonneg ds Hds).
      destruct neg; [|reflexivity]. cbn in *. lia.
  Qed.

  (* Without bytes beyond 127, or without NaN spellings, nothing is undefined. *)
  Lemma ltrim_ascii s : Forall (fun c : byte => c < 128)%N s -> exists r, ltrim s = Ok r /\ Forall (fun c : byte => c < 128)%N r.
  Proof.
    induction s as [|c s IH]; intro H; cbn; [eauto|].
    pose proof (Forall_inv H) as Hc. cbn beta in Hc. replace (N.leb 128 c) with false by lia.
    destruct (is_space c); [apply IH, (Forall_inv_tail H)|]. eauto.
  Qed.

  Lemma cell_defined d nans base s : (nans = [] \/ Forall (fun c : byte => c < 128)%N s) ->
    exists r, parse_cell F atof atod is_inf qnan d nans base s = Ok r.
  Proof.
    intro H.
    assert (T : forall conv, exists r, try_parse_float F is_inf qnan conv nans s = Ok r).
    { intro conv. unfold try_parse_float. destruct (conv s) as [v|]; [destruct (is_inf v); eauto|].
      destruct nans as [|n nans]; [eauto|]. destruct H as [H|H]; [discriminate|].
      unfold trim. destruct (ltrim_ascii s H) as (a & -> & Ha). cbn [bind].
      destruct (ltrim_ascii (rev a) (rev_Forall _ _ Ha)) as (b & -> & Hb). cbn [bind].
      destruct (existsb _ _); eauto. }
    destruct d; cbn; eauto.
    - destruct (T atof) as (r & ->). cbn. eauto.
    - destruct (T atod) as (r & ->). cbn. eauto.
  Qed.

  (* A spelling of NaN, possibly surrounded by white space. *)
  Lemma nan_spelling (d : dtype) nans base s n w w' :
    d = D_float32 \/ d = D_float64 ->
    (if match d with D_float32 => true | _ => false end then atof else atod) s = None ->
    In n nans -> s = w ++ n ++ w' -> Forall space w -> Forall space w' ->
    Forall (fun c : byte => c < 128)%N s -> drop_space n = n -> drop_space (rev n) = rev n ->
    parse_cell F atof atod is_inf qnan d nans base s = Ok (P_ok (V_float F qnan)).
  Proof.
    intros Hd Hc Hn Es Hw Hw' Ha N1 N2.
    assert (T : forall conv, conv s = None -> try_parse_float F is_inf qnan conv nans s = Ok (P_ok qnan)).
    { intros conv Hcv. unfold try_parse_float. rewrite Hcv. destruct nans as [|n0 nans]; [contradiction|].
      assert (L : forall x : list byte, Forall (fun c : byte => c < 128)%N x -> ltrim x = Ok (drop_space x)).
      { clear. induction x as [|c x IH]; intro H; cbn; [reflexivity|]. pose proof (Forall_inv H) as Hc. cbn beta in Hc.
        replace (N.leb 128 c) with false by lia. destruct (is_space c); [apply IH, (Forall_inv_tail H)|reflexivity]. }
      assert (Hin : forall x : list byte, Forall (fun c : byte => c < 128)%N x -> Forall (fun c : byte => c < 128)%N (drop_space x)).
      { clear. intros x H. destruct (drop_space_split x) as (v & E & _). rewrite E in H. apply Forall_app in H. apply H. }
      unfold trim. rewrite (L s Ha). cbn [bind].
      rewrite (L _ (rev_Forall _ _ (Hin s Ha))). cbn [bind].
      replace (rev (drop_space (rev (drop_space s)))) with n.
      - replace (existsb _ _) with true; [reflexivity|]. symmetry. apply existsb_exists. exists n. split; [exact Hn|].
        destruct (list_eq_dec N.eq_dec n n); [reflexivity|contradiction].
      - rewrite Es, drop_space_app by assumption. destruct n as [|c n].
        + cbn [app]; rewrite (drop_space_all w' Hw'). reflexivity.
        + cbn [app]. assert (Hnc : is_space c = false).
          { cbn in N1. destruct (is_space c) eqn:E; [|reflexivity]. exfalso. clear -N1.
            assert (length (drop_space n) <= length n)%nat.
            { destruct (drop_space_split n) as (v & E & _). rewrite E at 2. rewrite app_length. lia. }
            rewrite N1 in H. cbn in H. lia. }
          cbn [drop_space]. rewrite Hnc. rewrite app_comm_cons, rev_app_distr, drop_space_app by (apply rev_Forall, Hw').
          rewrite N2. rewrite rev_involutive. reflexivity. }
    destruct Hd as [->| ->]; cbn [parse_cell] in *; rewrite (T _ Hc); reflexivity.
  Qed.
End Infer.

Lemma ltrim_split s : forall x, ltrim s = Ok x -> exists w, s = w ++ x /\ Forall space w.
Proof.
  induction s as [|c s IH]; intros x H; cbn in H.
  - injection H as <-. exists []. auto.
  - destruct (N.leb 128 c); [discriminate|]. destruct (is_space c) eqn:E.
    + destruct (IH x H) as (w & -> & W). exists (c :: w). split; [reflexivity|]. constructor; [apply is_space_iff; exact E|exact W].
    + injection H as <-. exists []. auto.
Qed.

Lemma trim_split s x : trim s = Ok x -> exists w w', s = w ++ x ++ w' /\ Forall space w /\ Forall space w'.
Proof.
  unfold trim. destruct (ltrim s) as [a| | |] eqn:A; try discriminate. cbn [bind].
  destruct (ltrim (rev a)) as [b| | |] eqn:B; try discriminate. cbn [bind]. intros H. injection H as <-.
  destruct (ltrim_split s a A) as (w & -> & W). destruct (ltrim_split _ b B) as (v & E & V).
  exists w, (rev v). split; [|split; [exact W|apply rev_Forall, V]].
  f_equal. rewrite <- (rev_involutive a), E, rev_app_distr. reflexivity.
Qed.

Lemma float_values F atof atod (is_inf : F -> bool) qnan d nans base s v :
  d = D_float32 \/ d = D_float64 ->
  parse_cell F atof atod is_inf qnan d nans base s = Ok (P_ok v) ->
  let conv := if match d with D_float32 => true | _ => false end then atof else atod in
  (exists x, conv s = Some x /\ is_inf x = false /\ v = V_float F x) \/
  (conv s = None /\ v = V_float F qnan /\ exists n w w', In n nans /\ s = w ++ n ++ w' /\ Forall space w /\ Forall space w').
Proof.
  intros D H conv.
  assert (E : exists r, try_parse_float F is_inf qnan conv nans s = Ok r /\ pmap (V_float F) r = P_ok v).
  { destruct D as [-> | ->]; cbn [parse_cell] in H; unfold conv; destruct (try_parse_float _ _ _ _ _ _) as [r| | |]; try discriminate;
      exists r; split; auto; cbn in H; congruence. }
  destruct E as (r & T & P). unfold try_parse_float in T. destruct (conv s) as [x|].
  - left. exists x. destruct (is_inf x); inversion T; subst; cbn in P; [discriminate|]. injection P as <-. auto.
  - right. split; [reflexivity|]. destruct nans as [|n0 nans]; [inversion T; subst; discriminate|].
    destruct (trim s) as [w| | |] eqn:Tr; try discriminate. cbn [bind] in T.
    destruct (existsb _ _) eqn:X; inversion T; subst; cbn in P; [|discriminate]. injection P as <-. split; [reflexivity|].
    apply existsb_exists in X. destruct X as (n & I & M). destruct (list_eq_dec N.eq_dec n w) as [->|]; [|discriminate].
    destruct (trim_split s w Tr) as (a & b & Es & A & B). exists w, a, b. auto.
Qed.
