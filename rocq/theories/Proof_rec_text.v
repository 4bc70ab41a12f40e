(* Stability of the text decoders. *)
From Verif Require Import Common Model_rec Proof_rec.

(* CR immediately followed by LF does not occur. *)
Definition no_crlf (xs : list byte) : Prop := forall a b, xs <> a ++ CR :: LF :: b.
Definition bom : list byte := [239; 187; 191]%N.
Definition strip_bom (xs : list byte) : list byte :=
  match xs with
  | a :: b :: c :: rest => if N.eqb a 239 && N.eqb b 187 && N.eqb c 191 then rest else xs
  | _ => xs
  end.
(* no BOM anywhere in xs *)
Definition no_bom (xs : list byte) : Prop := forall a b, xs <> a ++ bom ++ b.

Definition drop_lf : list byte -> list byte :=
  fix go xs := match xs with
  | [] => []
  | c :: rest => if N.eqb c LF then go rest else xs
  end.

Lemma no_crlf_suffix a b : suffix_of a b -> no_crlf b -> no_crlf a.
Proof. intros [c ->] H x y E. apply (H (c ++ x) y). rewrite E, app_assoc. reflexivity. Qed.
Lemma no_bom_suffix a b : suffix_of a b -> no_bom b -> no_bom a.
Proof. intros [c ->] H x y E. apply (H (c ++ x) y). rewrite E, !app_assoc. reflexivity. Qed.

Lemma strip_bom_cases xs : xs = bom ++ strip_bom xs \/ strip_bom xs = xs.
Proof.
  destruct xs as [|a [|b [|c rest]]]; cbn [strip_bom]; auto.
  destruct (N.eqb_spec a 239), (N.eqb_spec b 187), (N.eqb_spec c 191); cbn; auto.
  subst. left. reflexivity.
Qed.
Lemma strip_bom_suffix xs : suffix_of (strip_bom xs) xs.
Proof. destruct (strip_bom_cases xs) as [H|H]; [exists bom; exact H|rewrite H; apply suffix_refl]. Qed.
Lemma strip_bom_none xs : no_bom xs -> strip_bom xs = xs.
Proof.
  intro H. destruct (strip_bom_cases xs) as [E|E]; [|exact E].
  exfalso. apply (H [] (strip_bom xs)). exact E.
Qed.
Lemma strip_bom_app p s : 3 <= length p -> strip_bom (p ++ s) = strip_bom p ++ s.
Proof.
  destruct p as [|a [|b [|c rest]]]; cbn [length]; intro H; try lia. cbn [app strip_bom].
  destruct (N.eqb a 239 && N.eqb b 187 && N.eqb c 191); reflexivity.
Qed.

(* ------------ lscan ------------ *)

Lemma lscan_bounds cs : forall pos,
  let '(k, hc, e) := lscan cs pos in
  pos <= k /\ k <= pos + length cs /\ (e = true -> k = pos + length cs /\ hc = false) /\
  (e = false -> k < pos + length cs).
Proof.
  induction cs as [|c cs IH]; intro pos; cbn [lscan].
  - cbn. repeat split; auto; try lia; discriminate.
  - destruct (N.eqb c LF); [cbn; repeat split; try discriminate; lia|].
    destruct (N.eqb c CR).
    + destruct cs as [|c2 cs]; [cbn; repeat split; try discriminate; lia|].
      destruct (N.eqb c2 LF); cbn; repeat split; try discriminate; lia.
    + specialize (IH (S pos)). destruct (lscan cs (S pos)) as [[k hc] e]. cbn [length].
      destruct IH as (H1 & H2 & H3 & H4). repeat split; intros; try apply H3; try lia; auto.
Qed.

Lemma lscan_end cs s : forall pos k hc, lscan cs pos = (k, hc, true) ->
  lscan (cs ++ s) pos = lscan s (pos + length cs).
Proof.
  induction cs as [|c cs IH]; intros pos k hc H; cbn [lscan app length] in *.
  - f_equal. lia.
  - destruct (N.eqb c LF); [discriminate|]. destruct (N.eqb c CR).
    + destruct cs as [|c2 cs]; [discriminate|]. destruct (N.eqb c2 LF); discriminate.
    + rewrite (IH _ _ _ H). f_equal. lia.
Qed.

(* A line end found in the prefix is also found with more bytes; only a final CR can turn
   into a CR LF. *)
Lemma lscan_found cs s : forall pos k hc, lscan cs pos = (k, hc, false) ->
  lscan (cs ++ s) pos = (k, hc, false) \/
  (hc = false /\ S k = pos + length cs /\ (exists a, cs = a ++ [CR]) /\ (exists q, s = LF :: q) /\
   lscan (cs ++ s) pos = (S k, true, false)).
Proof.
  induction cs as [|c cs IH]; intros pos k hc H; cbn [lscan app] in *; [discriminate|].
  destruct (N.eqb_spec c LF) as [->|HLF]; [left; exact H|].
  destruct (N.eqb_spec c CR) as [->|HCR].
  - destruct cs as [|c2 cs].
    + injection H as <- <-. destruct s as [|c2 s]; [left; reflexivity|]. cbn [app].
      destruct (N.eqb_spec c2 LF) as [->|]; [|left; reflexivity].
      right. repeat split; [cbn; lia|exists []; reflexivity|exists s; reflexivity].
    + left. cbn [app]. exact H.
  - destruct (IH _ _ _ H) as [E|(E1 & E2 & [a E3] & E4 & E5)]; [left; exact E|right].
    repeat split; auto; [cbn [length]; lia|]. exists (c :: a). now rewrite E3.
Qed.

(* ------------ read_line ------------ *)

Lemma read_line_some p b m pl p' : read_line p b m = Ok (Some pl, p') ->
  suffix_of p' p /\ length p' < length p.
Proof.
  unfold read_line. destruct p as [|c p]; [destruct b; discriminate|].
  set (xs := c :: p). pose proof (lscan_bounds xs 0) as HB.
  destruct (lscan xs 0) as [[k hc] e].
  destruct (match m with Some m => m <=? k | None => false end); [discriminate|].
  destruct (e && b); [discriminate|]. intro H. injection H as _ <-.
  destruct e.
  - split; [apply suffix_nil|cbn; lia].
  - change (skipn k p) with (skipn (S k) xs).
    split; [apply suffix_skipn|]. rewrite skipn_length. cbn [length] in *. lia.
Qed.

Lemma read_line_none p b m p' : read_line p b m = Ok (None, p') -> p' = p.
Proof.
  unfold read_line. destruct p as [|c p]; [destruct b; [congruence|discriminate]|].
  destruct (lscan (c :: p) 0) as [[k hc] e].
  destruct (match m with Some m => m <=? k | None => false end); [discriminate|].
  destruct (e && b); [congruence|discriminate].
Qed.

Lemma read_line_safe p b m : read_line p b m <> UB /\ read_line p b m <> Fuel.
Proof.
  unfold read_line. destruct p as [|c p]; [destruct b; split; discriminate|].
  destruct (lscan (c :: p) 0) as [[k hc] e].
  destruct (match m with Some m => m <=? k | None => false end); [split; discriminate|].
  destruct (e && b); split; discriminate.
Qed.

Lemma read_line_false_throw p m e : p <> [] -> m = None -> read_line p false m <> Throw e.
Proof.
  intros Hp ->. unfold read_line. destruct p as [|c p]; [congruence|].
  destruct (lscan (c :: p) 0) as [[k hc] a]. rewrite andb_false_r. discriminate.
Qed.

(* found line: either the same with more bytes, or CRLF split over the boundary *)
Lemma read_line_app_some p s m pl p' : read_line p true m = Ok (Some pl, p') ->
  read_line (p ++ s) false m = Ok (Some pl, p' ++ s) \/
  ((exists a, p = a ++ [CR]) /\ p' = [] /\ exists q, s = LF :: q /\
     (m = None -> read_line (p ++ s) false m = Ok (Some pl, q))).
Proof.
  unfold read_line at 1. destruct p as [|c p]; [discriminate|].
  set (xs := c :: p). pose proof (lscan_bounds xs 0) as HB.
  destruct (lscan xs 0) as [[k hc] e] eqn:HL.
  destruct (match m with Some m => m <=? k | None => false end) eqn:HM; [discriminate|].
  destruct e; [discriminate|]. cbn [andb]. intro H. injection H as <- <-.
  destruct HB as (_ & _ & _ & HB). specialize (HB eq_refl).
  destruct (lscan_found xs s 0 k hc HL) as [E|(-> & Hk & Ha & [q ->] & E)].
  - left. unfold read_line. change (xs ++ s) with (c :: p ++ s) at 1.
    change (c :: p ++ s) with (xs ++ s) in *. rewrite E, HM. cbn [andb].
    change (skipn k p) with (skipn (S k) xs).
    rewrite <- skipn_app_le by lia.
    destruct hc; rewrite firstn_app_le by lia; reflexivity.
  - right. split; [exact Ha|]. split.
    + change (skipn k p) with (skipn (S k) xs). apply skipn_all2. lia.
    + exists q. split; [reflexivity|]. intros ->. unfold read_line.
      change (xs ++ LF :: q) with (c :: p ++ LF :: q) at 1.
      change (c :: p ++ LF :: q) with (xs ++ LF :: q) in *. rewrite E. cbn [andb].
      assert (E2 : skipn (S (S k)) (xs ++ LF :: q) = q).
      { replace (S (S k)) with (length xs + 1) by lia.
        rewrite skipn_app, skipn_all2 by lia.
        replace (length xs + 1 - length xs) with 1 by lia. reflexivity. }
      rewrite E2. replace (S k - 1) with k by lia. rewrite firstn_app_le by lia. reflexivity.
Qed.

Lemma read_line_app_throw p s m e : read_line p true m = Throw e -> read_line (p ++ s) false m = Throw e.
Proof.
  unfold read_line at 1. destruct p as [|c p]; [discriminate|].
  set (xs := c :: p). destruct (lscan xs 0) as [[k hc] a] eqn:HL.
  destruct m as [m|]; [|destruct a; discriminate].
  destruct (Nat.leb_spec m k) as [HM|]; [|destruct a; discriminate].
  intro H. injection H as <-.
  unfold read_line. change (xs ++ s) with (c :: p ++ s) at 1. change (c :: p ++ s) with (xs ++ s).
  destruct a.
  - rewrite (lscan_end xs s 0 k hc HL). pose proof (lscan_bounds xs 0) as HB. rewrite HL in HB.
    pose proof (lscan_bounds s (0 + length xs)) as HB2.
    destruct (lscan s (0 + length xs)) as [[k2 hc2] a2].
    replace (m <=? k2) with true by (symmetry; apply Nat.leb_le; lia). reflexivity.
  - destruct (lscan_found xs s 0 k hc HL) as [->|(_ & _ & _ & _ & ->)].
    + apply Nat.leb_le in HM. rewrite HM. reflexivity.
    + replace (m <=? S k) with true by (symmetry; apply Nat.leb_le; lia). reflexivity.
Qed.

(* ------------ qscan ------------ *)

Lemma qscan_bounds d q cs : forall st pos,
  let '(st', k, nl) := qscan d q st cs pos in
  pos <= k /\ k <= pos + length cs /\ (nl = false -> k = pos + length cs) /\
  (nl = true -> st <> q_has_carriage -> pos < k).
Proof.
  induction cs as [|c cs IH]; intros st pos; cbn [qscan].
  - cbn. repeat split; try lia; discriminate.
  - cbn zeta.
    assert (Hnext : forall st', let '(st'', k, nl) := qscan d q st' cs (S pos) in
       pos <= k /\ k <= pos + length (c :: cs) /\ (nl = false -> k = pos + length (c :: cs)) /\
       (nl = true -> st <> q_has_carriage -> pos < k)).
    { intro st'. specialize (IH st' (S pos)). destruct (qscan d q st' cs (S pos)) as [[st'' k] nl].
      cbn [length]. destruct IH as (H1 & H2 & H3 & H4). repeat split; intros; try lia. }
    destruct st; repeat match goal with |- context [if ?b then _ else _] => destruct b end; try apply Hnext;
      cbn; repeat split; intros; try discriminate; try lia; congruence.
Qed.

Lemma qscan_found d q cs s : forall st pos st' k, qscan d q st cs pos = (st', k, true) ->
  qscan d q st (cs ++ s) pos = (st', k, true).
Proof.
  induction cs as [|c cs IH]; intros st pos st' k H; cbn [qscan app] in *; [discriminate|].
  cbn zeta in *. destruct st; repeat match goal with |- context [if ?b then _ else _] => destruct b end; auto.
Qed.

Lemma qscan_end d q cs s : forall st pos st' k, qscan d q st cs pos = (st', k, false) ->
  qscan d q st (cs ++ s) pos = qscan d q st' s (pos + length cs).
Proof.
  induction cs as [|c cs IH]; intros st pos st' k H; cbn [qscan app length] in *.
  - injection H as -> ->. f_equal. lia.
  - cbn zeta in *. replace (pos + S (length cs)) with (S pos + length cs) by lia.
    destruct st; repeat match goal with |- context [if ?b then _ else _] => destruct b end;
      try discriminate; eapply IH; eassumption.
Qed.

Lemma csv_read_line_some p xs b pl xs' : csv_read_line p xs b = Ok (Some pl, xs') ->
  suffix_of xs' xs /\ length xs' < length xs.
Proof.
  unfold csv_read_line. destruct xs as [|c xs]; [destruct b; discriminate|].
  set (ys := c :: xs). pose proof (qscan_bounds (cp_delimiter p) (cp_quote p) ys q_new_field 0) as HB.
  destruct (qscan _ _ q_new_field ys 0) as [[st k] nl].
  destruct (check_line_length _ k); cbn [bind]; try discriminate.
  destruct nl.
  - intro H. injection H as _ <-. destruct HB as (_ & H2 & _ & H4).
    specialize (H4 eq_refl ltac:(discriminate)).
    split; [apply suffix_skipn|]. rewrite skipn_length. lia.
  - destruct b; [discriminate|]. destruct st; intro H; try discriminate H; injection H as _ <-;
      (split; [apply suffix_nil|cbn; lia]).
Qed.

Lemma csv_read_line_none p xs b xs' : csv_read_line p xs b = Ok (None, xs') -> xs' = xs.
Proof.
  unfold csv_read_line. destruct xs as [|c xs]; [destruct b; [congruence|discriminate]|].
  destruct (qscan _ _ q_new_field (c :: xs) 0) as [[st k] nl].
  destruct (check_line_length _ k); cbn [bind]; try discriminate.
  destruct nl; [discriminate|]. destruct b; [congruence|]. destruct st; discriminate.
Qed.

Lemma check_line_length_safe m k : check_line_length m k <> UB /\ check_line_length m k <> Fuel.
Proof. unfold check_line_length. destruct m; [destruct (_ <=? _)|]; split; discriminate. Qed.

Lemma csv_read_line_safe p xs b : csv_read_line p xs b <> UB /\ csv_read_line p xs b <> Fuel.
Proof.
  unfold csv_read_line. destruct xs as [|c xs]; [destruct b; split; discriminate|].
  destruct (qscan _ _ q_new_field (c :: xs) 0) as [[st k] nl].
  pose proof (check_line_length_safe (cp_max_line_length p) k).
  destruct (check_line_length _ k); cbn [bind]; try tauto; [|split; discriminate].
  destruct nl; [split; discriminate|]. destruct b; [split; discriminate|]. destruct st; split; discriminate.
Qed.

Lemma csv_read_line_app_some p xs s pl xs' : csv_read_line p xs true = Ok (Some pl, xs') ->
  csv_read_line p (xs ++ s) false = Ok (Some pl, xs' ++ s).
Proof.
  unfold csv_read_line at 1. destruct xs as [|c xs]; [discriminate|].
  set (ys := c :: xs). pose proof (qscan_bounds (cp_delimiter p) (cp_quote p) ys q_new_field 0) as HB.
  destruct (qscan _ _ q_new_field ys 0) as [[st k] nl] eqn:HQ.
  destruct (check_line_length _ k) eqn:HC; cbn [bind]; try discriminate.
  destruct nl; [|discriminate]. intro H. injection H as <- <-.
  unfold csv_read_line. change (ys ++ s) with (c :: xs ++ s) at 1. change (c :: xs ++ s) with (ys ++ s).
  rewrite (qscan_found _ _ _ s _ _ _ _ HQ), HC. cbn [bind].
  rewrite skipn_app_le by lia. destruct st; rewrite firstn_app_le by lia; reflexivity.
Qed.

Lemma csv_read_line_app_throw p xs s e : csv_read_line p xs true = Throw e ->
  csv_read_line p (xs ++ s) false = Throw e.
Proof.
  unfold csv_read_line at 1. destruct xs as [|c xs]; [discriminate|].
  set (ys := c :: xs). pose proof (qscan_bounds (cp_delimiter p) (cp_quote p) ys q_new_field 0) as HB.
  destruct (qscan _ _ q_new_field ys 0) as [[st k] nl] eqn:HQ.
  destruct (check_line_length _ k) eqn:HC; cbn [bind]; try discriminate; [destruct nl; discriminate|].
  intro H. injection H as ->.
  unfold csv_read_line. change (ys ++ s) with (c :: xs ++ s) at 1. change (c :: xs ++ s) with (ys ++ s).
  destruct nl.
  - rewrite (qscan_found _ _ _ s _ _ _ _ HQ), HC. reflexivity.
  - rewrite (qscan_end _ _ _ s _ _ _ _ HQ).
    pose proof (qscan_bounds (cp_delimiter p) (cp_quote p) s st (0 + length ys)) as HB2.
    destruct (qscan _ _ st s (0 + length ys)) as [[st2 k2] nl2].
    assert (HC2 : check_line_length (cp_max_line_length p) k2 = Throw e).
    { unfold check_line_length in *. destruct (cp_max_line_length p) as [m|]; [|discriminate].
      destruct (Nat.leb_spec m k); [|discriminate].
      replace (m <=? k2) with true by (symmetry; apply Nat.leb_le; lia). exact HC. }
    rewrite HC2. reflexivity.
Qed.

(* ------------ csv_loop ------------ *)

(* The reading of one row, plain or quoted. *)
Definition row_line (p : csv_rparams) (chunk : list byte) (b : bool) :=
  if cp_allow_quoted_new_lines p then csv_read_line p chunk b
  else read_line chunk b (cp_max_line_length p).

Lemma row_line_some p xs b pl xs' : row_line p xs b = Ok (Some pl, xs') ->
  suffix_of xs' xs /\ length xs' < length xs.
Proof. unfold row_line. destruct (cp_allow_quoted_new_lines p); [apply csv_read_line_some|apply read_line_some]. Qed.
Lemma row_line_none p xs b xs' : row_line p xs b = Ok (None, xs') -> xs' = xs.
Proof. unfold row_line. destruct (cp_allow_quoted_new_lines p); [apply csv_read_line_none|apply read_line_none]. Qed.
Lemma row_line_safe p xs b : row_line p xs b <> UB /\ row_line p xs b <> Fuel.
Proof. unfold row_line. destruct (cp_allow_quoted_new_lines p); [apply csv_read_line_safe|apply read_line_safe]. Qed.
Lemma row_line_app_throw p xs s e : row_line p xs true = Throw e -> row_line p (xs ++ s) false = Throw e.
Proof. unfold row_line. destruct (cp_allow_quoted_new_lines p); [apply csv_read_line_app_throw|apply read_line_app_throw]. Qed.

Lemma csv_loop_eq fuel p chunk b :
  csv_loop (S fuel) p chunk b =
  match chunk with
  | [] => Ok (None, chunk, None)
  | _ =>
      if is_comment_line p chunk then
        let* r := read_line chunk b None in
        match r with
        | (None, chunk') => Ok (None, chunk', None)
        | (Some _, chunk') => csv_loop fuel p chunk' b
        end
      else
        let* r := row_line p chunk b in
        match r with
        | (None, chunk') => Ok (None, chunk', None)
        | (Some pl, chunk') =>
            if negb (cp_skip_blank_lines p) || negb (length pl =? 0)
            then Ok (Some (mk_rec pl kComplete), chunk', None)
            else csv_loop fuel p chunk' b
        end
  end.
Proof. reflexivity. Qed.

Lemma csv_loop_fuel p b : forall n f1 f2 xs, length xs <= n -> n < f1 -> n < f2 ->
  csv_loop f1 p xs b = csv_loop f2 p xs b.
Proof.
  induction n as [n IH] using lt_wf_ind; intros f1 f2 xs Hn H1 H2.
  destruct f1 as [|f1]; [lia|]. destruct f2 as [|f2]; [lia|]. rewrite !csv_loop_eq.
  destruct xs as [|c xs]; [reflexivity|]. set (ys := c :: xs) in *.
  destruct (is_comment_line p ys).
  - destruct (read_line ys b None) as [[[pl|] ys']|e| |] eqn:HR; cbn [bind]; try reflexivity.
    apply read_line_some in HR. apply (IH (length ys')); lia.
  - destruct (row_line p ys b) as [[[pl|] ys']|e| |] eqn:HR; cbn [bind]; try reflexivity.
    apply row_line_some in HR. destruct (_ || _); [reflexivity|]. apply (IH (length ys')); lia.
Qed.

Definition csv_text (p : csv_rparams) (xs : list byte) (b : bool) : res decoded :=
  csv_decode_text p xs b.

Lemma csv_text_eq p xs b :
  csv_text p xs b =
  match xs with
  | [] => Ok (None, xs, None)
  | _ =>
      if is_comment_line p xs then
        let* r := read_line xs b None in
        match r with
        | (None, chunk') => Ok (None, chunk', None)
        | (Some _, chunk') => csv_text p chunk' b
        end
      else
        let* r := row_line p xs b in
        match r with
        | (None, chunk') => Ok (None, chunk', None)
        | (Some pl, chunk') =>
            if negb (cp_skip_blank_lines p) || negb (length pl =? 0)
            then Ok (Some (mk_rec pl kComplete), chunk', None)
            else csv_text p chunk' b
        end
  end.
Proof.
  unfold csv_text, csv_decode_text. replace (length xs + 1) with (S (length xs)) by lia.
  rewrite csv_loop_eq. destruct xs as [|c xs]; [reflexivity|]. set (ys := c :: xs) in *.
  destruct (is_comment_line p ys).
  - destruct (read_line ys b None) as [[[pl|] ys']|e| |] eqn:HR; cbn [bind]; try reflexivity.
    apply read_line_some in HR. apply csv_loop_fuel with (n := length ys'); lia.
  - destruct (row_line p ys b) as [[[pl|] ys']|e| |] eqn:HR; cbn [bind]; try reflexivity.
    apply row_line_some in HR. destruct (_ || _); [reflexivity|].
    apply csv_loop_fuel with (n := length ys'); lia.
Qed.

Lemma csv_text_safe p b : forall n xs, length xs <= n -> csv_text p xs b <> UB /\ csv_text p xs b <> Fuel.
Proof.
  induction n as [n IH] using lt_wf_ind; intros xs Hn. rewrite csv_text_eq.
  destruct xs as [|c xs]; [split; discriminate|]. set (ys := c :: xs) in *.
  destruct (is_comment_line p ys).
  - pose proof (read_line_safe ys b None).
    destruct (read_line ys b None) as [[[pl|] ys']|e| |] eqn:HR; cbn [bind]; try tauto; try (split; discriminate).
    apply read_line_some in HR. apply (IH (length ys')); lia.
  - pose proof (row_line_safe p ys b).
    destruct (row_line p ys b) as [[[pl|] ys']|e| |] eqn:HR; cbn [bind]; try tauto; try (split; discriminate).
    apply row_line_some in HR. destruct (_ || _); [split; discriminate|]. apply (IH (length ys')); lia.
Qed.

Lemma csv_text_rest p b : forall n xs r rest h, length xs <= n -> csv_text p xs b = Ok (r, rest, h) ->
  suffix_of rest xs /\ (r <> None -> length rest < length xs).
Proof.
  induction n as [n IH] using lt_wf_ind; intros xs r rest h Hn. rewrite csv_text_eq.
  destruct xs as [|c xs]; [intro H; injection H as <- <- <-; split; [apply suffix_refl|congruence]|].
  set (ys := c :: xs) in *.
  destruct (is_comment_line p ys).
  - destruct (read_line ys b None) as [[[pl|] ys']|e| |] eqn:HR; cbn [bind]; try discriminate.
    + apply read_line_some in HR. intro H. apply (IH (length ys')) in H; [|lia|lia].
      destruct HR as [HR1 HR2], H as [H1 H2]. split; [eapply suffix_trans; eassumption|].
      intro Hr. specialize (H2 Hr). lia.
    + apply read_line_none in HR. intro H. injection H as <- <- <-. subst ys'.
      split; [apply suffix_refl|congruence].
  - destruct (row_line p ys b) as [[[pl|] ys']|e| |] eqn:HR; cbn [bind]; try discriminate.
    + apply row_line_some in HR. destruct (_ || _).
      * intro H. injection H as <- <- <-. split; [apply HR|intros _; apply HR].
      * intro H. apply (IH (length ys')) in H; [|lia|lia].
        destruct HR as [HR1 HR2], H as [H1 H2]. split; [eapply suffix_trans; eassumption|].
        intro Hr. specialize (H2 Hr). lia.
    + apply row_line_none in HR. intro H. injection H as <- <- <-. subst ys'.
      split; [apply suffix_refl|congruence].
Qed.

Section Text.
  Variable p : csv_rparams.
  Variable Gt : list byte -> Prop.
  Variable norm : list byte -> list byte.
  Hypothesis Gt_suffix : forall a b, suffix_of a b -> Gt b -> Gt a.
  Hypothesis norm_text : forall a b, Gt a -> Gt b -> norm a = norm b ->
    oeq norm (strip_hint (csv_text p a false)) (strip_hint (csv_text p b false)).
  Hypothesis comment_app : forall xs s pl xs', Gt (xs ++ s) -> is_comment_line p xs = true ->
    read_line xs true None = Ok (Some pl, xs') ->
    exists q, read_line (xs ++ s) false None = Ok (Some pl, q) /\ norm q = norm (xs' ++ s).
  Hypothesis row_app : forall xs s pl xs', Gt (xs ++ s) -> is_comment_line p xs = false ->
    row_line p xs true = Ok (Some pl, xs') ->
    exists q, row_line p (xs ++ s) false = Ok (Some pl, q) /\ norm q = norm (xs' ++ s).

  Lemma comment_app_same xs s : xs <> [] -> is_comment_line p (xs ++ s) = is_comment_line p xs.
  Proof. unfold is_comment_line. destruct xs; [congruence|]. reflexivity. Qed.

  Lemma csv_text_app s : forall n xs, length xs <= n -> Gt (xs ++ s) ->
    match csv_text p xs true with
    | Ok (Some r, rest, _) => oeq norm (strip_hint (csv_text p (xs ++ s) false)) (Ok (Some r, rest ++ s))
    | Ok (None, rest, _) =>
        oeq norm (strip_hint (csv_text p (xs ++ s) false)) (strip_hint (csv_text p (rest ++ s) false))
    | Throw e => csv_text p (xs ++ s) false = Throw e
    | _ => True
    end.
  Proof.
    induction n as [n IH] using lt_wf_ind; intros xs Hn HG.
    rewrite (csv_text_eq p xs true).
    destruct xs as [|c xs]; [apply oeq_refl|]. set (ys := c :: xs) in *.
    assert (Hne : ys <> []) by discriminate.
    assert (Hys : forall {A} (u : A) v, match ys with [] => u | _ => v end = v) by reflexivity.
    assert (Hyss : forall {A} (u : A) v, match ys ++ s with [] => u | _ => v end = v) by reflexivity.
    assert (Hrec : forall q ys', suffix_of q (ys ++ s) -> suffix_of ys' ys -> length ys' < length ys ->
       norm q = norm (ys' ++ s) ->
       match csv_text p ys' true with
       | Ok (Some r, rest, _) => oeq norm (strip_hint (csv_text p q false)) (Ok (Some r, rest ++ s))
       | Ok (None, rest, _) =>
           oeq norm (strip_hint (csv_text p q false)) (strip_hint (csv_text p (rest ++ s) false))
       | Throw e => csv_text p q false = Throw e
       | _ => True
       end).
    { intros q ys' Hq Hy Hl Hnq.
      assert (Gq : Gt q) by (eapply Gt_suffix; eassumption).
      assert (Gy : Gt (ys' ++ s)) by (eapply Gt_suffix; [apply suffix_app; exact Hy|exact HG]).
      pose proof (norm_text q (ys' ++ s) Gq Gy Hnq) as Ho.
      pose proof (IH (length ys') ltac:(lia) ys' ltac:(lia) Gy) as H.
      destruct (csv_text p ys' true) as [[[[r|] rest] h]|e| |].
      - eapply oeq_trans; eassumption.
      - eapply oeq_trans; eassumption.
      - rewrite H in Ho. cbn in Ho. destruct (csv_text p q false) as [[[[r|] rest] h]|e'| |]; cbn in Ho; try contradiction.
        congruence.
      - exact I.
      - exact I. }
    rewrite (csv_text_eq p (ys ++ s) false). rewrite Hyss. rewrite comment_app_same by exact Hne.
    destruct (is_comment_line p ys) eqn:HC.
    - destruct (read_line ys true None) as [[[pl|] ys']|e| |] eqn:HR; cbn [bind].
      + destruct (comment_app _ _ _ _ HG HC HR) as (q & Hq & Hnq). rewrite Hq. cbn [bind].
        apply read_line_some in Hq. apply read_line_some in HR.
        eapply Hrec; [apply Hq|apply HR|apply HR|exact Hnq].
      + apply read_line_none in HR. subst ys'.
        rewrite (csv_text_eq p (ys ++ s) false), Hyss, comment_app_same, HC by exact Hne. apply oeq_refl.
      + rewrite (read_line_app_throw _ _ _ _ HR). reflexivity.
      + exact I.
      + exact I.
    - destruct (row_line p ys true) as [[[pl|] ys']|e| |] eqn:HR; cbn [bind].
      + destruct (row_app _ _ _ _ HG HC HR) as (q & Hq & Hnq). rewrite Hq. cbn [bind].
        destruct (negb (cp_skip_blank_lines p) || negb (length pl =? 0)).
        * cbn. auto.
        * apply row_line_some in Hq. apply row_line_some in HR.
          eapply Hrec; [apply Hq|apply HR|apply HR|exact Hnq].
      + apply row_line_none in HR. subst ys'.
        rewrite (csv_text_eq p (ys ++ s) false), Hyss, comment_app_same, HC by exact Hne. apply oeq_refl.
      + rewrite (row_line_app_throw _ _ _ _ HR). reflexivity.
      + exact I.
      + exact I.
  Qed.

  Definition bom_ok (xs : list byte) : Prop := Gt (strip_bom xs) /\ no_bom (strip_bom xs).
  Hypothesis norm_bom : forall a b, bom_ok a -> bom_ok b -> norm a = norm b ->
    norm (strip_bom a) = norm (strip_bom b).

  Lemma csv_decode_false xs : csv_decode p xs false = csv_text p (strip_bom xs) false.
  Proof.
    unfold csv_decode, text_decode_record. destruct xs as [|a [|b [|c xs]]]; try reflexivity.
    cbn [skip_utf8_bom strip_bom]. destruct (_ && _); reflexivity.
  Qed.
  Lemma csv_decode_true xs :
    csv_decode p xs true = if length xs <? 3 then Ok (None, xs, None) else csv_text p (strip_bom xs) true.
  Proof.
    unfold csv_decode, text_decode_record. destruct xs as [|a [|b [|c xs]]]; try reflexivity.
    cbn [skip_utf8_bom strip_bom]. destruct (_ && _); reflexivity.
  Qed.

  Lemma bom_ok_tail xs s rest : 3 <= length xs -> bom_ok (xs ++ s) -> suffix_of rest (strip_bom xs) ->
    bom_ok (rest ++ s) /\ strip_bom (rest ++ s) = rest ++ s.
  Proof.
    intros Hl [H1 H2] Hs. rewrite strip_bom_app in H1, H2 by exact Hl.
    assert (Hsuf : suffix_of (rest ++ s) (strip_bom xs ++ s)) by (apply suffix_app; exact Hs).
    assert (Hnb : no_bom (rest ++ s)) by (eapply no_bom_suffix; eassumption).
    pose proof (strip_bom_none _ Hnb) as E. split; [|exact E]. split; rewrite E; [|exact Hnb].
    eapply Gt_suffix; eassumption.
  Qed.

  Lemma csv_stable : stable (csv_decode p) bom_ok norm.
  Proof.
    constructor.
    - intros []; reflexivity.
    - intros a b Ha Hb Hn. rewrite !csv_decode_false. apply norm_text; [apply Ha|apply Hb|].
      apply norm_bom; assumption.
    - intros xs s r rest h HG H. rewrite csv_decode_true in H.
      destruct (Nat.ltb_spec (length xs) 3) as [|Hl]; [discriminate|].
      rewrite csv_decode_false, strip_bom_app by exact Hl.
      destruct HG as [HG _]. rewrite strip_bom_app in HG by exact Hl.
      pose proof (csv_text_app s _ (strip_bom xs) (le_n _) HG) as HT. rewrite H in HT. exact HT.
    - intros xs s rest h HG H. rewrite csv_decode_true in H.
      destruct (Nat.ltb_spec (length xs) 3) as [|Hl].
      + injection H as <- <-. apply oeq_refl.
      + rewrite !csv_decode_false.
        destruct (csv_text_rest _ _ _ _ _ _ _ (le_n _) H) as [Hsuf _].
        destruct (bom_ok_tail _ _ _ Hl HG Hsuf) as [_ ->].
        rewrite strip_bom_app by exact Hl.
        destruct HG as [HG _]. rewrite strip_bom_app in HG by exact Hl.
        pose proof (csv_text_app s _ (strip_bom xs) (le_n _) HG) as HT. rewrite H in HT. exact HT.
    - intros xs s e HG H. rewrite csv_decode_true in H.
      destruct (Nat.ltb_spec (length xs) 3) as [|Hl]; [discriminate|].
      rewrite csv_decode_false, strip_bom_app by exact Hl.
      destruct HG as [HG _]. rewrite strip_bom_app in HG by exact Hl.
      pose proof (csv_text_app s _ (strip_bom xs) (le_n _) HG) as HT. rewrite H in HT. exact HT.
    - intros xs [].
      + rewrite csv_decode_true. destruct (_ <? _); [split; discriminate|].
        eapply csv_text_safe. apply le_n.
      + rewrite csv_decode_false. eapply csv_text_safe. apply le_n.
    - intros xs b r rest h H.
      assert (HT : (r = None /\ rest = xs) \/ csv_text p (strip_bom xs) b = Ok (r, rest, h)).
      { destruct b; [rewrite csv_decode_true in H|rewrite csv_decode_false in H; auto].
        destruct (_ <? _); [injection H as <- <- <-; auto|auto]. }
      destruct HT as [[-> ->]|HT]; [split; [apply suffix_refl|congruence]|].
      destruct (csv_text_rest _ _ _ _ _ _ _ (le_n _) HT) as [Hsuf Hlt].
      pose proof (strip_bom_suffix xs) as Hb. split; [eapply suffix_trans; eassumption|].
      apply suffix_len in Hb. intro Hr. specialize (Hlt Hr). lia.
    - intros xs s r rest h HG H.
      rewrite csv_decode_true in H. destruct (Nat.ltb_spec (length xs) 3) as [|Hl].
      + injection H as <- <- <-. exact HG.
      + destruct (csv_text_rest _ _ _ _ _ _ _ (le_n _) H) as [Hsuf _].
        apply (bom_ok_tail _ _ _ Hl HG Hsuf).
    - intros xs r rest h [HG1 HG2] H. rewrite csv_decode_false in H.
      destruct (csv_text_rest _ _ _ _ _ _ _ (le_n _) H) as [Hsuf _].
      pose proof (no_bom_suffix _ _ Hsuf HG2) as Hnb.
      split; rewrite strip_bom_none by exact Hnb; [|exact Hnb]. eapply Gt_suffix; eassumption.
  Qed.
End Text.

(* ------------ instances ------------ *)

Definition uses_plain_lines (p : csv_rparams) : Prop :=
  cp_allow_quoted_new_lines p = false \/ cp_comment p <> None.

Lemma not_plain p : ~ uses_plain_lines p -> cp_allow_quoted_new_lines p = true /\ cp_comment p = None.
Proof.
  unfold uses_plain_lines. intro H. destruct (cp_allow_quoted_new_lines p); [|tauto].
  destruct (cp_comment p) as [c|] eqn:E; [|auto]. exfalso. apply H. right. discriminate.
Qed.

(* 1: no CRLF, or no plain line splitting at all *)
Definition G1 (p : csv_rparams) (xs : list byte) : Prop := uses_plain_lines p -> no_crlf xs.

Lemma read_line_app_no_crlf xs s m pl xs' : no_crlf (xs ++ s) ->
  read_line xs true m = Ok (Some pl, xs') -> read_line (xs ++ s) false m = Ok (Some pl, xs' ++ s).
Proof.
  intros HG H. destruct (read_line_app_some xs s m pl xs' H) as [E|([a ->] & _ & q & -> & _)]; [exact E|].
  exfalso. apply (HG a q). rewrite <- app_assoc. reflexivity.
Qed.

Lemma csv_stable1 p : stable (csv_decode p) (bom_ok (G1 p)) (fun x => x).
Proof.
  apply csv_stable.
  - intros a b Hs H Hp. eapply no_crlf_suffix; [exact Hs|exact (H Hp)].
  - intros a b _ _ ->. apply oeq_refl.
  - intros xs s pl xs' HG HC HR.
    assert (Hp : uses_plain_lines p).
    { right. unfold is_comment_line in HC. destruct (cp_comment p); [discriminate|discriminate]. }
    exists (xs' ++ s). split; [|reflexivity]. apply read_line_app_no_crlf; auto.
  - intros xs s pl xs' HG HC HR. exists (xs' ++ s). split; [|reflexivity]. unfold row_line in *.
    destruct (cp_allow_quoted_new_lines p) eqn:E.
    + now apply csv_read_line_app_some.
    + apply read_line_app_no_crlf; [|exact HR]. apply HG. left. exact E.
  - intros a b _ _ ->. reflexivity.
Qed.

(* 2: any line ends, when blank lines are skipped and line length is not limited *)
Definition lf_plain (p : csv_rparams) : Prop :=
  cp_skip_blank_lines p = true /\ cp_max_line_length p = None /\
  (cp_allow_quoted_new_lines p = true -> cp_delimiter p <> LF /\ cp_quote p <> LF).

Lemma drop_lf_split xs : exists k, xs = repeat LF k ++ drop_lf xs.
Proof.
  induction xs as [|c xs [k IH]]; [exists 0; reflexivity|]. cbn [drop_lf].
  destruct (N.eqb_spec c LF) as [->|]; [exists (S k); cbn; f_equal; exact IH|exists 0; reflexivity].
Qed.

Lemma csv_text_lf p t : lf_plain p -> csv_text p (LF :: t) false = csv_text p t false.
Proof.
  intros (Hs & Hm & Hq). rewrite (csv_text_eq p (LF :: t)).
  destruct (is_comment_line p (LF :: t)); [reflexivity|].
  unfold row_line. destruct (cp_allow_quoted_new_lines p).
  - destruct (Hq eq_refl) as [H1 H2]. unfold csv_read_line. cbn [qscan].
    destruct (N.eqb_spec LF (cp_delimiter p)); [congruence|].
    destruct (N.eqb_spec LF (cp_quote p)); [congruence|]. cbn. rewrite Hm. cbn. rewrite Hs. reflexivity.
  - unfold read_line. cbn. rewrite Hm. cbn. rewrite Hs. reflexivity.
Qed.

Lemma csv_text_drop_lf p a : lf_plain p -> csv_text p a false = csv_text p (drop_lf a) false.
Proof.
  intro H. induction a as [|c a IH]; [reflexivity|]. cbn [drop_lf].
  destruct (N.eqb_spec c LF) as [->|]; [|reflexivity]. rewrite csv_text_lf by exact H. exact IH.
Qed.

Lemma csv_stable2 p : lf_plain p -> stable (csv_decode p) (bom_ok (fun _ => True)) drop_lf.
Proof.
  intro H. apply csv_stable.
  - auto.
  - intros a b _ _ E. rewrite (csv_text_drop_lf p a), (csv_text_drop_lf p b), E by exact H. apply oeq_refl.
  - intros xs s pl xs' _ _ HR.
    destruct (read_line_app_some xs s _ pl xs' HR) as [E|(_ & -> & q & -> & E)]; [eexists; split; [exact E|reflexivity]|].
    exists q. split; [apply E; reflexivity|reflexivity].
  - intros xs s pl xs' _ _ HR. unfold row_line in *.
    destruct (cp_allow_quoted_new_lines p).
    + exists (xs' ++ s). split; [|reflexivity]. now apply csv_read_line_app_some.
    + destruct (read_line_app_some xs s _ pl xs' HR) as [E|(_ & -> & q & -> & E)]; [eexists; split; [exact E|reflexivity]|].
      exists q. split; [apply E; apply H|reflexivity].
  - assert (Hk : forall a, bom_ok (fun _ => True) a -> strip_bom a = a \/ drop_lf a = a).
    { intros a _. destruct (strip_bom_cases a) as [E|E]; [right; rewrite E; reflexivity|left; exact E]. }
    assert (Hk2 : forall a b, bom_ok (fun _ => True) b -> drop_lf a = a -> drop_lf a = drop_lf b ->
              strip_bom a <> a -> b = a).
    { intros a b [_ Hb] Ha Hab Hsa. destruct (drop_lf_split b) as [k Ek]. rewrite <- Hab, Ha in Ek.
      destruct k as [|k]; [exact Ek|]. exfalso.
      destruct (strip_bom_cases a) as [E|E]; [|contradiction].
      rewrite Ek in Hb.
      assert (Es : strip_bom (repeat LF (S k) ++ a) = repeat LF (S k) ++ a).
      { destruct (strip_bom_cases (repeat LF (S k) ++ a)) as [E2|E2]; [|exact E2]. discriminate E2. }
      rewrite Es in Hb. apply (Hb (repeat LF (S k)) (strip_bom a)). now rewrite <- E. }
    intros a b Ha Hb Hn.
    destruct (list_eq_dec N.eq_dec (strip_bom a) a) as [Ea|Ea].
    + destruct (list_eq_dec N.eq_dec (strip_bom b) b) as [Eb|Eb]; [now rewrite Ea, Eb|].
      destruct (Hk b Hb) as [?|Db]; [contradiction|].
      rewrite (Hk2 b a Ha Db (eq_sym Hn) Eb). reflexivity.
    + destruct (Hk a Ha) as [?|Da]; [contradiction|].
      rewrite (Hk2 a b Hb Da Hn Ea). reflexivity.
Qed.

(* ------------ the text line reader is a CSV reader without options ------------ *)

Definition text_params (skip_blank : bool) : csv_rparams :=
  mk_csv_rparams 44 34 None false skip_blank None.

Lemma text_line_loop_csv b : forall fuel xs,
  text_line_loop fuel xs b = csv_loop fuel (text_params true) xs b.
Proof.
  induction fuel as [|fuel IH]; intro xs; [reflexivity|]. cbn [text_line_loop]. rewrite csv_loop_eq.
  destruct xs as [|c xs]; [reflexivity|]. cbn [is_comment_line cp_comment text_params row_line cp_allow_quoted_new_lines cp_max_line_length].
  unfold row_line. cbn [cp_allow_quoted_new_lines cp_max_line_length text_params].
  destruct (read_line (c :: xs) b None) as [[[pl|] xs']|e| |]; cbn [bind]; try reflexivity.
  destruct pl as [|d pl]; cbn; [apply IH|reflexivity].
Qed.

Lemma text_line_csv sb xs b : text_line_decode sb xs b = csv_decode (text_params sb) xs b.
Proof.
  unfold text_line_decode, csv_decode, text_decode_record. destruct xs as [|c xs]; [reflexivity|].
  destruct (skip_utf8_bom (c :: xs) b) as [ys|]; [|reflexivity].
  unfold text_line_decode_text. destruct ys as [|d ys]; [reflexivity|].
  destruct sb; [apply text_line_loop_csv|].
  change (csv_decode_text (text_params false) (d :: ys) b) with (csv_text (text_params false) (d :: ys) b).
  rewrite csv_text_eq. cbn [is_comment_line cp_comment text_params].
  unfold row_line. cbn [cp_allow_quoted_new_lines cp_max_line_length text_params].
  destruct (read_line (d :: ys) b None) as [[[pl|] xs']|e| |]; reflexivity.
Qed.

Lemma read_all_ext D D' : (forall xs b, D xs b = D' xs b) ->
  forall fuel r, read_all D fuel r = read_all D' fuel r.
Proof.
  intro H.
  assert (Hc : forall fuel r, read_record_core D fuel r = read_record_core D' fuel r).
  { induction fuel as [|fuel IH]; intro r; [reflexivity|]. cbn [read_record_core]. rewrite H.
    destruct (D' (sr_chunk r) (negb (cr_is_eof (sr_cr r)))) as [[[[x|] rest] h]|e| |]; cbn [bind]; try reflexivity.
    destruct (cr_read _ _) as [[[|c ck] cr']|e| |]; cbn [bind]; try reflexivity. apply IH. }
  induction fuel as [|fuel IH]; intro r; [reflexivity|]. cbn [read_all]. unfold read_record. rewrite Hc.
  destruct (read_record_core D' _ r) as [[[x|] r']|e| |]; try reflexivity. now rewrite IH.
Qed.

Lemma text_records_csv sb zc sched size xs :
  records (text_line_decode sb) zc sched size xs = records (csv_decode (text_params sb)) zc sched size xs.
Proof. apply read_all_ext. apply text_line_csv. Qed.
