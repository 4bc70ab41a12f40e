(* Decoding of CSV batches. *)
From Verif Require Import Common Model_csvtok Spec_csvtok Proof_csvtok Model_num Spec_num Proof_num Model_csv Spec_csv.
From Coq Require Import Permutation.

(* ---------- the tokenizer with a limit ---------- *)
Section Tok.
  Context (delim quote : byte) (m : option nat).
  Notation all := (tok_all delim quote m).
  Notation next := (tok_next delim quote m).

  Lemma scan_shrinks text : forall st vt v fin rest,
    scan delim quote m st text vt = Ok (v, fin, rest) ->
    (fin = true /\ rest = []) \/ (fin = false /\ length rest < length text).
  Proof.
    induction text as [|c text IH]; intros st vt v fin rest.
    - destruct st; cbn; intro H; try discriminate; injection H as <- <- <-; auto.
    - assert (K : forall st vt, scan delim quote m st text vt = Ok (v, fin, rest) ->
        (fin = true /\ rest = []) \/ (fin = false /\ length rest < length (c :: text))).
      { intros st' vt' H. destruct (IH _ _ _ _ _ H) as [|[? ?]]; [auto|right; cbn; split; [assumption|lia]]. }
      assert (D : Ok (vt, false, text) = Ok (v, fin, rest) ->
        (fin = true /\ rest = []) \/ (fin = false /\ length rest < length (c :: text))).
      { intro H. injection H as <- <- <-. right. cbn. split; [reflexivity|lia]. }
      destruct st; cbn [scan]; repeat match goal with |- context [if ?b then _ else _] => destruct b end;
        first [exact D|apply K].
  Qed.

  Definition weight (t : tok) : nat := if t_finished t then 1 else length (t_text t) + 2.

  Lemma next_weight t t' : next t = Ok (true, t') -> weight t' < weight t /\ t_eof t' = t_eof t.
  Proof.
    unfold tok_next, weight. destruct (t_finished t); [discriminate|].
    destruct (scan delim quote m new_field (t_text t) ([], false)) as [[[[v tr] fin] rest]|e| |] eqn:E; try discriminate.
    cbn. intro H. injection H as <-. cbn. destruct (scan_shrinks _ _ _ _ _ _ E) as [[-> ->]|[-> L]]; split; auto; lia.
  Qed.

  Lemma next_false t t' : next t = Ok (false, t') -> t_eof t' = true /\ t_finished t' = true.
  Proof.
    unfold tok_next. destruct (t_finished t); [intro H; injection H as <-; auto|].
    destruct (scan delim quote m new_field (t_text t) ([], false)) as [[[[v tr] fin] rest]|e| |]; discriminate.
  Qed.

  Lemma scan_no_fuel text : forall st vt, scan delim quote m st text vt <> Fuel.
  Proof.
    induction text as [|c text IH]; intros st vt; [destruct st; discriminate|].
    destruct st; cbn [scan]; repeat match goal with |- context [if ?b then _ else _] => destruct b end;
      first [discriminate|apply IH].
  Qed.

  Lemma all_enough fuel : forall t, weight t <= fuel -> all fuel t <> Fuel.
  Proof.
    induction fuel as [|fuel IH]; intros t Hw; [unfold weight in Hw; destruct (t_finished t); lia|].
    cbn [tok_all]. destruct (next t) as [[[|] t']|e| |] eqn:E; cbn; try discriminate.
    - destruct (next_weight _ _ E) as [L _]. specialize (IH t' ltac:(lia)).
      destruct (all fuel t'); cbn; discriminate || contradiction.
    - exfalso. unfold tok_next in E. destruct (t_finished t); [discriminate|].
      destruct (scan delim quote m new_field (t_text t) ([], false)) as [[[[v tr] fin] rest]|e| |] eqn:E'; try discriminate.
      exact (scan_no_fuel _ _ _ E').
  Qed.

  Lemma all_same fuel : forall fuel' t fs, all fuel t = Ok fs -> all fuel' t <> Fuel -> all fuel' t = Ok fs.
  Proof.
    induction fuel as [|fuel IH]; intros fuel' t fs H; [discriminate|].
    destruct fuel' as [|fuel']; [contradiction|]. cbn [tok_all] in *.
    destruct (next t) as [[[|] t']|e| |] eqn:E; cbn in *; try discriminate; [|auto].
    destruct (all fuel t') as [fs'| | |] eqn:E1; cbn in H; try discriminate.
    intro K. assert (all fuel' t' <> Fuel) by (intro X; rewrite X in K; apply K; reflexivity).
    rewrite (IH fuel' t' fs' E1 H0). exact H.
  Qed.

  Lemma all_drain t fuel fs : all fuel t = Ok fs -> all (length (t_text t) + 2) t = Ok fs.
  Proof.
    intro H. apply (all_same _ _ _ _ H). apply all_enough. unfold weight. destruct (t_finished t); lia.
  Qed.
End Tok.

Lemma fields_tokenize p text fs :
  tokenize (p_delim p) (p_quote p) (p_maxlen p) text = Ok fs <-> fields_of p text fs.
Proof.
  unfold fields_of. destruct (p_maxlen p) as [m|].
  - rewrite tokenize_cut. split.
    + intro H. destruct (tokenize_cases (p_delim p) (p_quote p) text) as [(vs & _ & E & R)|[E _]]; rewrite E in H; [|discriminate].
      exists vs. split; [exact R|]. unfold plain in H. cbn in H. injection H as <-. rewrite map_map. reflexivity.
    + intros (vs & R & ->). rewrite (tokenize_row _ _ _ _ R). cbn. unfold plain. rewrite map_map. reflexivity.
  - split.
    + intro H. destruct (tokenize_cases (p_delim p) (p_quote p) text) as [(vs & _ & E & R)|[E _]]; rewrite E in H; [|discriminate].
      exists vs. split; [exact R|]. injection H as <-. reflexivity.
    + intros (vs & R & ->). rewrite (tokenize_row _ _ _ _ R). reflexivity.
Qed.

Lemma tokenize_unclosed_limit p text :
  Unclosed (p_delim p) (p_quote p) text -> tokenize (p_delim p) (p_quote p) (p_maxlen p) text = Throw Corrupt_record.
Proof.
  intro H. apply tokenize_unclosed in H. destruct (p_maxlen p) as [m|]; [|exact H].
  rewrite tokenize_cut, H. reflexivity.
Qed.

Lemma fields_unique p text fs fs' : fields_of p text fs -> fields_of p text fs' -> fs = fs'.
Proof. rewrite <- !fields_tokenize. congruence. Qed.

(* The fields consist of characters of the row. *)
Section Chars.
  Context (delim quote : byte).
  Lemma body_chars b v : Quoted_body quote b v -> forall c, In c v -> c = quote \/ In c b.
  Proof.
    induction 1 as [|x b v Hx H IH|b v H IH]; cbn; intros c Hc; [contradiction| |].
    - destruct Hc as [->|Hc]; [auto|]. destruct (IH c Hc); auto.
    - destruct Hc as [<-|Hc]; [auto|]. destruct (IH c Hc); auto.
  Qed.
  Lemma field_chars t v : Field delim quote t v -> forall c, In c v -> In c t.
  Proof.
    destruct 1 as [f H|b v tail Hne Hb Ht]; intros c Hc; [exact Hc|].
    apply in_app_or in Hc. destruct Hc as [Hc|Hc].
    - destruct (body_chars _ _ Hb c Hc) as [->|Hi]; [left; reflexivity|]. right. apply in_or_app. auto.
    - right. apply in_or_app. right. right. exact Hc.
  Qed.
  Lemma row_chars t vs : Row delim quote t vs -> forall v c, In v vs -> In c v -> In c t.
  Proof.
    induction 1 as [t v H|t v rest vs H Hr IH]; intros u c [->|Hu] Hc.
    - exact (field_chars _ _ H c Hc).
    - contradiction.
    - apply in_or_app. left. exact (field_chars _ _ H c Hc).
    - apply in_or_app. right. right. exact (IH u c Hu Hc).
  Qed.
End Chars.

(* ---------- tensors ---------- *)
Section Tensors.
  Context {A : Type}.

  Lemma set_nth_length (l : list A) i a : length (set_nth l i a) = length l.
  Proof. revert i. induction l as [|x l IH]; intros [|i]; cbn; auto. Qed.

  Lemma set_nth_same (l : list A) i a : i < length l -> nth_error (set_nth l i a) i = Some a.
  Proof. revert i. induction l as [|x l IH]; intros [|i] H; cbn in *; try lia; auto. apply IH. lia. Qed.

  Lemma set_nth_other (l : list A) i j a : i <> j -> nth_error (set_nth l i a) j = nth_error l j.
  Proof. revert i j. induction l as [|x l IH]; intros [|i] [|j] H; cbn in *; try lia; auto. Qed.
End Tensors.

Definition shaped {A} (T : list (list A)) (n size : nat) : Prop :=
  length T = n /\ Forall (fun a => length a = size) T.

Lemma nth_error_ext {A} (l l' : list A) : length l = length l' ->
  (forall i, i < length l -> nth_error l i = nth_error l' i) -> l = l'.
Proof.
  revert l'. induction l as [|x l IH]; intros [|y l'] L H; cbn in *; try lia; auto.
  f_equal.
  - specialize (H 0 ltac:(lia)). cbn in H. congruence.
  - apply IH; [lia|]. intros i Hi. exact (H (S i) ltac:(lia)).
Qed.

Lemma tensors_ext {A} (T T' : list (list A)) n size : shaped T n size -> shaped T' n size ->
  (forall k i, k < n -> i < size -> elem T k i = elem T' k i) -> T = T'.
Proof.
  intros [L F1] [L' F2] H. apply nth_error_ext; [lia|]. intros k Hk.
  destruct (nth_error T k) as [a|] eqn:E; [|apply nth_error_None in E; lia].
  destruct (nth_error T' k) as [b|] eqn:E'; [|apply nth_error_None in E'; lia].
  f_equal. rewrite Forall_forall in F1, F2.
  pose proof (F1 _ (nth_error_In _ _ E)). pose proof (F2 _ (nth_error_In _ _ E')).
  apply nth_error_ext; [lia|]. intros i Hi. specialize (H k i ltac:(lia) ltac:(lia)).
  unfold elem in H. rewrite E, E' in H. exact H.
Qed.

Section Dec.
  Context (F : Type) (atof atod : list byte -> option F) (is_inf : F -> bool) (qnan fzero : F).
  Context (p : csv_params).
  Notation val := (Model_num.val F).
  Notation cell := (Model_csv.cell F atof atod is_inf qnan p).
  Notation row_loop := (Model_csv.row_loop F atof atod is_inf qnan p).
  Notation row_run := (Model_csv.row_run F atof atod is_inf qnan p).
  Notation worker := (Model_csv.worker F atof atod is_inf qnan p).
  Notation decode_ser := (Model_csv.decode_ser F atof atod is_inf qnan p).
  Notation decode_prl := (Model_csv.decode_prl F atof atod is_inf qnan p).
  Notation Good := (Spec_csv.Good F atof atod is_inf qnan p).
  Notation good_row := (Spec_csv.good_row F atof atod is_inf qnan p).
  Notation bad_row := (Spec_csv.bad_row F atof atod is_inf qnan p).
  Notation Select := (Spec_csv.Select F atof atod is_inf qnan p).
  Notation bad_verdict := (Model_csv.bad_verdict p).
  Notation store_all := (Model_csv.store_all F).
  Notation store := (Model_csv.store F).
  Notation at_row := (Model_csv.at_row F).

  (* The row loop on the list of fields. *)
  Definition surplus : verdict :=
    if (p_warn p || is_error p) && negb (p_lenient p) then V_ub else bad_verdict.
  Fixpoint row_fields (cols : list col) (k : nat) (fs : list (list byte * bool)) : list (nat * val) * verdict :=
    match fs with
    | [] => ([], match cols with [] => V_good | _ => bad_verdict end)
    | f :: fs' =>
        match cols with
        | [] => ([], surplus)
        | c :: rest =>
            if c_ignore c then row_fields rest k fs'
            else if snd f && match p_mfl p with treat_as_bad => true | _ => false end then ([], bad_verdict)
            else match cell (c_type c) (fst f) with
                 | Ok (P_ok v) => let (w, o) := row_fields rest (S k) fs' in ((k, v) :: w, o)
                 | Ok _ => ([], bad_verdict)
                 | Throw e => ([], V_throw e)
                 | UB => ([], V_ub)
                 | Fuel => ([], V_fuel)
                 end
        end
    end.

  Lemma no_warn_bad : p_warn p || is_error p = false -> V_bad = bad_verdict.
  Proof. unfold Model_csv.bad_verdict. destruct (p_warn p), (is_error p); cbn; congruence. Qed.

  Lemma row_loop_fields cols : forall k t fuel fs,
    tok_all (p_delim p) (p_quote p) (p_maxlen p) fuel t = Ok fs -> t_eof t = false ->
    row_loop cols k t = row_fields cols k fs.
  Proof.
    induction cols as [|c cols IH]; intros k t fuel fs H He;
      (destruct fuel as [|fuel]; [discriminate|]); cbn [tok_all] in H;
      (destruct (tok_next (p_delim p) (p_quote p) (p_maxlen p) t) as [[more t']|e| |] eqn:E; cbn [bind] in H; try discriminate);
      unfold Model_csv.row_loop; fold row_loop; rewrite E; destruct more;
      try (destruct (next_weight _ _ _ _ _ E) as [_ He']; rewrite He in He';
           destruct (tok_all (p_delim p) (p_quote p) (p_maxlen p) fuel t') as [fs'|e| |] eqn:E1; cbn [bind] in H; try discriminate;
           injection H as <-; cbn [row_fields fst snd]).
    - (* surplus field *)
      unfold row_end. rewrite He'. rewrite (all_drain _ _ _ _ _ _ E1). unfold surplus.
      destruct (p_warn p || is_error p) eqn:Ew; cbn [andb]; [destruct (p_lenient p); reflexivity|].
      rewrite (no_warn_bad Ew). reflexivity.
    - injection H as <-. destruct (next_false _ _ _ _ _ E) as [He' _]. unfold row_end. rewrite He'. reflexivity.
    - rewrite <- (IH k t' fuel fs' E1 He'), <- (IH (S k) t' fuel fs' E1 He'). reflexivity.
    - injection H as <-. destruct (next_false _ _ _ _ _ E) as [He' Hf]. unfold row_end. cbn [row_fields].
      destruct (p_warn p || is_error p) eqn:Ew; [|rewrite (no_warn_bad Ew); reflexivity].
      replace (length (t_text t') + 2) with (S (length (t_text t') + 1)) by lia. cbn [tok_all]. unfold tok_next. rewrite Hf. reflexivity.
  Qed.

  Lemma row_run_fields cols text fs : fields_of p text fs -> row_run cols text = row_fields cols 0 fs.
  Proof.
    intro H. apply fields_tokenize in H. unfold Model_csv.row_run. eapply row_loop_fields; [exact H|reflexivity].
  Qed.

  Definition writes (k : nat) (vs : list val) : list (nat * val) := combine (seq k (length vs)) vs.

  Lemma row_fields_good cols fs vs : Good cols fs vs -> forall k, row_fields cols k fs = (writes k vs, V_good).
  Proof.
    induction 1 as [|c cols f fs vs Hi Hg IH|c cols f fs v vs Hi Ht Hp Hg IH]; intro k; cbn [row_fields].
    - reflexivity.
    - rewrite Hi. apply IH.
    - rewrite Hi. unfold Model_csv.cell. rewrite Hp, (IH (S k)).
      destruct (snd f) eqn:Es; cbn [andb]; [|reflexivity].
      destruct (p_mfl p) eqn:Em; [exfalso; apply Ht; auto|reflexivity|reflexivity].
  Qed.

  Lemma good_inv c cols f fs vs : Good (c :: cols) (f :: fs) vs ->
    (c_ignore c = true /\ Good cols fs vs) \/
    (c_ignore c = false /\ ~ (snd f = true /\ p_mfl p = treat_as_bad) /\
     exists v vs', vs = v :: vs' /\ cell (c_type c) (fst f) = Ok (P_ok v) /\ Good cols fs vs').
  Proof. intro H. inversion H; subst; [left; auto|right]. split; [assumption|]. split; [assumption|]. eauto. Qed.

  Definition defined_fields (fs : list (list byte * bool)) : Prop :=
    Forall (fun f : list byte * bool => forall dt, exists r, cell dt (fst f) = Ok r) fs.

  Lemma comparable_fields text fs : comparable p text -> fields_of p text fs -> defined_fields fs.
  Proof.
    intros Hc (vs & R & ->). unfold defined_fields. rewrite Forall_forall. intros f Hf dt.
    apply in_map_iff in Hf. destruct Hf as (v & <- & Hv). apply cell_defined.
    destruct Hc as [Hc|Hc]; [left; exact Hc|right]. rewrite Forall_forall in *. intros c Hi. apply Hc.
    apply (row_chars _ _ _ _ R v c Hv). destruct (p_maxlen p) as [m|]; cbn in Hi; [|exact Hi].
    rewrite <- (firstn_skipn m v). apply in_or_app. left. exact Hi.
  Qed.

  (* A row is good, or its verdict is "bad" and only some of the tensors have been written. *)
  Lemma row_fields_cases cols : forall k fs, defined_fields fs -> p_lenient p = true ->
    (exists vs, Good cols fs vs) \/
    ((forall vs, ~ Good cols fs vs) /\ exists vs, row_fields cols k fs = (writes k vs, bad_verdict) /\
       length vs <= length (filter (fun c => negb (c_ignore c)) cols)).
  Proof.
    induction cols as [|c cols IH]; intros k fs Hd Hl.
    - destruct fs as [|f fs].
      + left. exists []. constructor.
      + right. split; [intros vs H; inversion H|]. exists []. cbn. unfold surplus. rewrite Hl. cbn. rewrite andb_false_r. auto with arith.
    - destruct fs as [|f fs].
      + right. split; [intros vs H; inversion H|]. exists []. cbn. auto with arith.
      + destruct (c_ignore c) eqn:Ec.
        * destruct (IH k fs (Forall_inv_tail Hd) Hl) as [(vs & G)|(N & vs & E & L)].
          -- left. exists vs. constructor; assumption.
          -- right. split; [intros us H; destruct (good_inv _ _ _ _ _ H) as [[_ H']|[X _]]; [exact (N _ H')|congruence]|].
             exists vs. cbn. rewrite Ec. cbn. auto.
        * cbn [row_fields]. rewrite Ec. cbn [filter]. rewrite Ec. cbn [negb].
          destruct (snd f && match p_mfl p with treat_as_bad => true | _ => false end) eqn:Et.
          { right. split; [|exists []; cbn; split; [reflexivity|lia]].
            intros us H; destruct (good_inv _ _ _ _ _ H) as [[X _]|(_ & X & _)]; [congruence|]. apply X. destruct (snd f), (p_mfl p); auto; discriminate. }
          pose proof (Forall_inv Hd) as Hd0. cbn beta in Hd0. destruct (Hd0 (c_type c)) as (r & Er). rewrite Er.
          assert (B : (forall v, r <> P_ok v) -> forall vs, ~ Good (c :: cols) (f :: fs) vs).
          { intros Hn us H; destruct (good_inv _ _ _ _ _ H) as [[X _]|(_ & _ & v & vs' & _ & X & _)]; [congruence|].
            rewrite Er in X. injection X as X. exact (Hn _ X). }
          destruct r as [v| |]; [|right; split; [apply B; discriminate|exists []; cbn; split; [reflexivity|lia]]..].
          destruct (IH (S k) fs (Forall_inv_tail Hd) Hl) as [(vs & G)|(N & vs & E & L)].
          -- left. exists (v :: vs). apply G_used; try assumption.
             intros [T1 T2]. rewrite T1, T2 in Et. discriminate.
          -- right. split; [intros us H; destruct (good_inv _ _ _ _ _ H) as [[X _]|(_ & _ & u & us' & _ & _ & X)]; [congruence|exact (N _ X)]|].
             exists (v :: vs). rewrite E. cbn. split; [reflexivity|lia].
  Qed.

  Lemma good_length cols fs vs : Good cols fs vs -> length vs = length (filter (fun c => negb (c_ignore c)) cols).
  Proof. induction 1 as [|c cols f fs vs Hi Hg IH|c cols f fs v vs Hi Ht Hp Hg IH]; cbn; rewrite ?Hi; cbn; lia. Qed.

  (* A closed row: good or bad, and what the decoder does. *)
  Lemma row_cases cols text : comparable p text -> p_lenient p = true -> closed p text ->
    (exists vs, good_row cols text vs /\ row_run cols text = (writes 0 vs, V_good)) \/
    (bad_row cols text /\ exists vs, row_run cols text = (writes 0 vs, bad_verdict) /\
       length vs <= length (filter (fun c => negb (c_ignore c)) cols)).
  Proof.
    intros Hd Hl (fs & Hf). rewrite (row_run_fields cols _ _ Hf).
    destruct (row_fields_cases cols 0 fs (comparable_fields _ _ Hd Hf) Hl) as [(vs & G)|(N & H)].
    - left. exists vs. split; [exists fs; auto|]. apply row_fields_good, G.
    - right. split; [|exact H]. split; [exists fs; exact Hf|].
      intros vs (fs' & Hf' & G). rewrite (fields_unique _ _ _ _ Hf' Hf) in G. exact (N _ G).
  Qed.

  Lemma good_run cols text vs : good_row cols text vs -> row_run cols text = (writes 0 vs, V_good).
  Proof. intros (fs & Hf & G). rewrite (row_run_fields cols _ _ Hf). apply row_fields_good, G. Qed.

  Lemma good_row_length cols text vs : good_row cols text vs ->
    length vs = length (filter (fun c => negb (c_ignore c)) cols).
  Proof. intros (fs & _ & G). eapply good_length, G. Qed.

  Lemma good_row_unique cols text vs vs' : good_row cols text vs -> good_row cols text vs' -> vs = vs'.
  Proof.
    intros H H'. apply good_run in H, H'. rewrite H in H'. injection H' as E. unfold writes in E.
    revert E. clear. generalize 0. revert vs'. induction vs as [|v vs IH]; intros [|v' vs'] k E; cbn in E; try discriminate; auto.
    injection E as -> E. f_equal. exact (IH _ _ E).
  Qed.

  (* ---------- assignments ---------- *)
  Lemma store_ok (T : tensors F) n size k i v : shaped T n size -> k < n -> i < size ->
    exists T', store T k i v = Ok T' /\ shaped T' n size /\ elem T' k i = Some v /\
      forall k' i', (k' <> k \/ i' <> i) -> elem T' k' i' = elem T k' i'.
  Proof.
    intros [L Fs] Hk Hi. unfold Model_csv.store.
    destruct (nth_error T k) as [a|] eqn:E; [|apply nth_error_None in E; lia].
    assert (La : length a = size) by (rewrite Forall_forall in Fs; apply Fs, (nth_error_In _ _ E)).
    rewrite La. replace (i <? size) with true by lia. eexists. split; [reflexivity|]. split; [|split].
    - split; [rewrite set_nth_length; exact L|]. rewrite Forall_forall in *. intros b Hb.
      apply In_nth_error in Hb. destruct Hb as (j & Ej). destruct (Nat.eq_dec k j) as [->|Nj].
      + rewrite set_nth_same in Ej by lia. injection Ej as <-. rewrite set_nth_length. exact La.
      + rewrite set_nth_other in Ej by exact Nj. apply Fs, (nth_error_In _ _ Ej).
    - unfold elem. rewrite set_nth_same by lia. apply set_nth_same. lia.
    - intros k' i' Hne. unfold elem. destruct (Nat.eq_dec k k') as [->|Nk].
      + rewrite set_nth_same by lia. rewrite E. apply set_nth_other. intro X. subst. destruct Hne; contradiction.
      + rewrite set_nth_other by exact Nk. reflexivity.
  Qed.

  Definition key (w : nat * nat * val) : nat * nat := fst w.

  Lemma store_all_ok ws : forall (T : tensors F) n size, shaped T n size ->
    Forall (fun w => fst (key w) < n /\ snd (key w) < size) ws ->
    exists T', store_all T ws = Ok T' /\ shaped T' n size /\
      (forall k i, ~ In (k, i) (map key ws) -> elem T' k i = elem T k i) /\
      (NoDup (map key ws) -> forall k i v, In (k, i, v) ws -> elem T' k i = Some v).
  Proof.
    induction ws as [|[[k i] v] ws IH]; intros T n size Hs Hr.
    - exists T. cbn. auto 6 using in_nil. split; [reflexivity|]. split; [assumption|]. split; [auto|]. intros _ k i v [].
    - pose proof (Forall_inv Hr) as [Hk Hi]. cbn in Hk, Hi.
      destruct (store_ok T n size k i v Hs Hk Hi) as (T1 & E1 & Hs1 & H1 & H2).
      destruct (IH T1 n size Hs1 (Forall_inv_tail Hr)) as (T' & E & Hs' & H3 & H4).
      exists T'. cbn [Model_csv.store_all]. rewrite E1. cbn [bind]. split; [exact E|]. split; [exact Hs'|]. split.
      + intros k' i' Hn. cbn in Hn. rewrite H3 by tauto. apply H2.
        destruct (Nat.eq_dec k' k) as [->|]; [|auto]. destruct (Nat.eq_dec i' i) as [->|]; [|auto]. exfalso. apply Hn. left. reflexivity.
      + intros Hnd k' i' v' [Hin|Hin].
        * injection Hin as <- <- <-. rewrite H3; [exact H1|]. apply NoDup_cons_iff in Hnd. apply Hnd.
        * apply H4; [|exact Hin]. apply NoDup_cons_iff in Hnd. apply Hnd.
  Qed.

  Lemma at_row_keys i k vs : map key (at_row i (writes k vs)) = map (fun j => (j, i)) (seq k (length vs)).
  Proof.
    unfold writes. revert k. induction vs as [|v vs IH]; intro k; cbn; [reflexivity|]. f_equal. apply IH.
  Qed.

  Lemma at_row_in i vs : forall k j v, nth_error vs j = Some v -> In (k + j, i, v) (at_row i (writes k vs)).
  Proof.
    induction vs as [|x vs IH]; intros k [|j] v H; cbn in *; try discriminate.
    - injection H as ->. left. f_equal. f_equal. lia.
    - right. replace (k + S j) with (S k + j) by lia. apply IH, H.
  Qed.

  Lemma at_row_range i k vs n size : k + length vs <= n -> i < size ->
    Forall (fun w => fst (key w) < n /\ snd (key w) < size) (at_row i (writes k vs)).
  Proof.
    intros H Hi. rewrite Forall_forall. intros w Hw.
    assert (K : In (key w) (map (fun j => (j, i)) (seq k (length vs)))).
    { rewrite <- at_row_keys. apply in_map, Hw. }
    apply in_map_iff in K. destruct K as (j & <- & Hj). apply in_seq in Hj. cbn. lia.
  Qed.

  Lemma seq_nodup_keys (i : nat) l : NoDup l -> NoDup (map (fun j : nat => (j, i)) l).
  Proof. intro H. apply FinFun.Injective_map_NoDup; [|exact H]. intros a b E. congruence. Qed.

  Lemma store_row T n size i vs : shaped T n size -> length vs <= n -> i < size ->
    exists T', store_all T (at_row i (writes 0 vs)) = Ok T' /\ shaped T' n size /\
      (forall k i', i' <> i -> elem T' k i' = elem T k i') /\
      (forall k v, nth_error vs k = Some v -> elem T' k i = Some v).
  Proof.
    intros Hs L Hi.
    destruct (store_all_ok (at_row i (writes 0 vs)) T n size Hs) as (T' & E & Hs' & H1 & H2).
    { apply at_row_range; [lia|exact Hi]. }
    exists T'. split; [exact E|]. split; [exact Hs'|]. split.
    - intros k i' Hne. apply H1. rewrite at_row_keys. intro K. apply in_map_iff in K. destruct K as (j & X & _). congruence.
    - intros k v Hk. apply (H2 ltac:(rewrite at_row_keys; apply seq_nodup_keys, seq_NoDup) k i v).
      apply (at_row_in i vs 0 k v Hk).
  Qed.

  Notation used cols := (length (filter (fun c => negb (c_ignore c)) cols)).

  Lemma make_tensors_shaped cols size : shaped (make_tensors F fzero cols size) (used cols) size.
  Proof.
    unfold make_tensors. split; [apply map_length|]. rewrite Forall_forall. intros a Ha.
    apply in_map_iff in Ha. destruct Ha as (c & <- & _). apply repeat_length.
  Qed.

  (* ---------- serial decoding ---------- *)
  (* All rows good. *)
  Lemma ser_good cols size : forall rows vss i T,
    shaped T (used cols) size -> i + length rows <= size -> Forall2 (good_row cols) rows vss ->
    exists T', decode_ser cols rows i T = Ok (Some (i + length rows, T')) /\ shaped T' (used cols) size /\
      (forall k j, j < i \/ i + length rows <= j -> elem T' k j = elem T k j) /\
      (forall m vs, nth_error vss m = Some vs -> forall k, k < used cols -> elem T' k (i + m) = nth_error vs k).
  Proof.
    intros rows vss. revert rows. induction vss as [|vs vss IH]; intros rows i T Hs Hl H2; inversion H2 as [|r ? rest ? Hg H3 E1 E2]; subst.
    - exists T. cbn. rewrite Nat.add_0_r. split; [reflexivity|]. split; [exact Hs|]. split; [auto|]. intros [|m] vs X; discriminate.
    - cbn in Hl. pose proof (good_row_length _ _ _ Hg) as Lv.
      destruct (store_row T (used cols) size i vs Hs ltac:(lia) ltac:(lia)) as (T1 & E1 & Hs1 & K1 & K2).
      destruct (IH rest (S i) T1 Hs1 ltac:(lia) H3) as (T' & E & Hs' & K3 & K4).
      exists T'. cbn [Model_csv.decode_ser length]. rewrite (good_run _ _ _ Hg). cbn [fst snd].
      rewrite E1. cbn [bind]. rewrite E. replace (S i + length rest) with (i + S (length rest)) by lia.
      split; [reflexivity|]. split; [exact Hs'|]. split.
      + intros k j Hj. rewrite K3 by lia. apply K1. lia.
      + intros [|m] us Hm k Hk; cbn in Hm.
        * injection Hm as <-. rewrite Nat.add_0_r. rewrite K3 by lia.
          destruct (nth_error vs k) as [v|] eqn:Ev; [apply K2, Ev|]. apply nth_error_None in Ev. lia.
        * replace (i + S m) with (S i + m) by lia. apply (K4 m us Hm k Hk).
  Qed.

  (* Bad rows with padding. *)
  Lemma ser_pad cols size : p_lenient p = true -> is_pad p = true ->
    forall rows vss, Select cols rows vss -> Forall (comparable p) rows -> forall i T,
    shaped T (used cols) size -> i + length rows <= size ->
    exists T', decode_ser cols rows i T = Ok (Some (i + length vss, T')) /\ shaped T' (used cols) size /\
      (forall k j, j < i -> elem T' k j = elem T k j) /\
      (forall m vs, nth_error vss m = Some vs -> forall k, k < used cols -> elem T' k (i + m) = nth_error vs k).
  Proof.
    intros Hlen Hp. induction 1 as [|r rs vs vss Hg Hsel IH|r rs vss Hb Hsel IH]; intros Hd i T Hs Hl.
    - exists T. cbn. rewrite Nat.add_0_r. split; [reflexivity|]. split; [exact Hs|]. split; [auto|]. intros [|m] vs X; discriminate.
    - cbn in Hl. pose proof (good_row_length _ _ _ Hg) as Lv.
      destruct (store_row T (used cols) size i vs Hs ltac:(lia) ltac:(lia)) as (T1 & E1 & Hs1 & K1 & K2).
      destruct (IH (Forall_inv_tail Hd) (S i) T1 Hs1 ltac:(lia)) as (T' & E & Hs' & K3 & K4).
      exists T'. cbn [Model_csv.decode_ser length]. rewrite (good_run _ _ _ Hg). cbn [fst snd].
      rewrite E1. cbn [bind]. rewrite E. replace (S i + length vss) with (i + S (length vss)) by lia.
      split; [reflexivity|]. split; [exact Hs'|]. split.
      + intros k j Hj. rewrite K3 by lia. apply K1. lia.
      + intros [|m] us Hm k Hk; cbn in Hm.
        * injection Hm as <-. rewrite Nat.add_0_r. rewrite K3 by lia.
          destruct (nth_error vs k) as [v|] eqn:Ev; [apply K2, Ev|]. apply nth_error_None in Ev. lia.
        * replace (i + S m) with (S i + m) by lia. apply (K4 m us Hm k Hk).
    - cbn in Hl. destruct (row_cases cols r (Forall_inv Hd) Hlen (proj1 Hb)) as [(vs & G & _)|(_ & vs & E0 & Lv)]; [exfalso; exact (proj2 Hb vs G)|].
      destruct (store_row T (used cols) size i vs Hs ltac:(lia) ltac:(lia)) as (T1 & E1 & Hs1 & K1 & K2).
      destruct (IH (Forall_inv_tail Hd) i T1 Hs1 ltac:(lia)) as (T' & E & Hs' & K3 & K4).
      assert (Hbv : bad_verdict = V_bad /\ is_skip p = false).
      { unfold Model_csv.bad_verdict, is_error, is_skip. unfold is_pad in Hp. destruct (p_bad p); auto; discriminate. }
      destruct Hbv as [Hbv Hsk].
      exists T'. cbn [Model_csv.decode_ser]. rewrite E0, Hbv, E1. cbn [bind]. rewrite Hsk, Hp. split; [exact E|].
      split; [exact Hs'|]. split; [|exact K4]. intros k j Hj. rewrite K3 by lia. apply K1. lia.
  Qed.

  (* A bad row without padding. *)
  Lemma ser_bad cols size : p_lenient p = true -> is_pad p = false ->
    forall rows, Forall (comparable p) rows -> Forall (closed p) rows -> Exists (bad_row cols) rows -> forall i T,
    shaped T (used cols) size -> i + length rows <= size ->
    decode_ser cols rows i T = if is_error p then Throw Invalid_instance else Ok None.
  Proof.
    intros Hlen Hp. induction rows as [|r rows IH]; intros Hd Hc Hex i T Hs Hl; [inversion Hex|].
    cbn in Hl. cbn [Model_csv.decode_ser].
    destruct (row_cases cols r (Forall_inv Hd) Hlen (Forall_inv Hc)) as [(vs & G & E0)|(B & vs & E0 & Lv)]; rewrite E0.
    - pose proof (good_row_length _ _ _ G) as Lv.
      destruct (store_row T (used cols) size i vs Hs ltac:(lia) ltac:(lia)) as (T1 & E1 & Hs1 & _ & _).
      rewrite E1. cbn [bind]. apply IH; [exact (Forall_inv_tail Hd)|exact (Forall_inv_tail Hc)| |exact Hs1|lia].
      inversion Hex as [? ? X|? ? X]; subst; [exfalso; exact (proj2 X vs G)|exact X].
    - destruct (store_row T (used cols) size i vs Hs ltac:(lia) ltac:(lia)) as (T1 & E1 & Hs1 & _ & _).
      rewrite E1. cbn [bind]. unfold Model_csv.bad_verdict, is_skip. unfold is_error, is_pad in *. destruct (p_bad p); auto; discriminate.
  Qed.

  (* ---------- parallel decoding ---------- *)
  Lemma merge_perm {A} (ls : list (list A)) out : Merge ls out -> Permutation (concat ls) out.
  Proof.
    induction 1 as [ls H|pre x l post out H IH].
    - replace (concat ls) with (@nil A); [constructor|]. symmetry. induction ls as [|l ls IHl]; cbn; [reflexivity|].
      rewrite (Forall_inv H). apply IHl, (Forall_inv_tail H).
    - rewrite concat_app in *. cbn in *. apply Permutation_sym, Permutation_cons_app, Permutation_sym. exact IH.
  Qed.

  (* The assignments of all good rows. *)
  Fixpoint all_writes (i : nat) (vss : list (list val)) : list (nat * nat * val) :=
    match vss with
    | [] => []
    | vs :: rest => at_row i (writes 0 vs) ++ all_writes (S i) rest
    end.

  Lemma worker_app_good cols q q' : snd (worker cols q) = V_good ->
    worker cols (q ++ q') = (fst (worker cols q) ++ fst (worker cols q'), snd (worker cols q')).
  Proof.
    induction q as [|[i r] q IH]; cbn.
    - intros _. destruct (worker cols q'); reflexivity.
    - destruct (row_run cols r) as [ws v]. destruct v; try discriminate.
      + destruct (worker cols q) as [ws1 v1]. cbn [fst snd] in *. intro H. rewrite (IH H). cbn. rewrite app_assoc. reflexivity.
      + destruct (is_skip p); discriminate.
  Qed.

  Lemma workers_concat cols parts : Forall (fun q => snd (worker cols q) = V_good) parts ->
    worker cols (concat parts) = (concat (map (fun q => fst (worker cols q)) parts), V_good).
  Proof.
    induction parts as [|q parts IH]; intro H; [reflexivity|].
    cbn [concat map]. rewrite (worker_app_good _ _ _ (Forall_inv H)), (IH (Forall_inv_tail H)). reflexivity.
  Qed.

  Lemma worker_numbered cols : forall (rows : list str) vss i, Forall2 (good_row cols) rows vss ->
    worker cols (combine (seq i (length rows)) rows) = (all_writes i vss, V_good).
  Proof.
    intros rows vss i H. revert i. induction H as [|r vs rows vss Hg H IH]; intro i; [reflexivity|].
    cbn. rewrite (good_run _ _ _ Hg), (IH (S i)). reflexivity.
  Qed.

  Lemma all_writes_in vss : forall i m vs k v, nth_error vss m = Some vs -> nth_error vs k = Some v ->
    In (k, i + m, v) (all_writes i vss).
  Proof.
    induction vss as [|us vss IH]; intros i [|m] vs k v H Hk; cbn in *; try discriminate; apply in_or_app.
    - injection H as ->. left. rewrite Nat.add_0_r. apply (at_row_in i vs 0 k v Hk).
    - right. replace (i + S m) with (S i + m) by lia. eapply IH; eassumption.
  Qed.

  Lemma all_writes_keys vss : forall i k j, In (k, j) (map key (all_writes i vss)) -> i <= j < i + length vss.
  Proof.
    induction vss as [|us vss IH]; intros i k j H; cbn in *; [contradiction|].
    rewrite map_app in H. apply in_app_or in H. destruct H as [H|H].
    - rewrite at_row_keys in H. apply in_map_iff in H. destruct H as (x & E & _). injection E as _ <-. lia.
    - apply IH in H. lia.
  Qed.

  Lemma nodup_app {A} (a b : list A) : NoDup a -> NoDup b -> (forall x, In x a -> ~ In x b) -> NoDup (a ++ b).
  Proof.
    induction a as [|x a IH]; intros Ha Hb Hd; cbn; [exact Hb|].
    apply NoDup_cons_iff in Ha. constructor.
    - intro H. apply in_app_or in H. destruct H as [H|H]; [exact (proj1 Ha H)|exact (Hd x (or_introl eq_refl) H)].
    - apply IH; [apply Ha|exact Hb|]. intros y Hy. apply Hd. right. exact Hy.
  Qed.

  Lemma all_writes_nodup vss : forall i, NoDup (map key (all_writes i vss)).
  Proof.
    induction vss as [|us vss IH]; intro i; cbn; [constructor|]. rewrite map_app. apply nodup_app.
    - rewrite at_row_keys. apply seq_nodup_keys, seq_NoDup.
    - apply IH.
    - intros [k j] H1 H2. rewrite at_row_keys in H1. apply in_map_iff in H1. destruct H1 as (x & E & _). injection E as _ <-.
      apply all_writes_keys in H2. lia.
  Qed.

  Lemma all_writes_range vss n size : forall i, Forall (fun vs => length vs <= n) vss -> i + length vss <= size ->
    Forall (fun w => fst (key w) < n /\ snd (key w) < size) (all_writes i vss).
  Proof.
    induction vss as [|us vss IH]; intros i H Hi; cbn; [constructor|]. cbn in Hi. apply Forall_app. split.
    - apply at_row_range; [exact (Forall_inv H)|lia].
    - apply IH; [exact (Forall_inv_tail H)|lia].
  Qed.

  Lemma good_worker_all cols size rows vss out T : Forall2 (good_row cols) rows vss -> shaped T (used cols) size ->
    length rows <= size -> Permutation (all_writes 0 vss) out ->
    exists T', store_all T out = Ok T' /\ decode_ser cols rows 0 T = Ok (Some (length rows, T')).
  Proof.
    intros H2 Hs Hl Hp.
    assert (Lv : Forall (fun vs => length vs <= used cols) vss).
    { clear -fzero H2. induction H2 as [|r vs rows vss Hg H IH]; [constructor|]. constructor; [rewrite (good_row_length _ _ _ Hg); lia|exact IH]. }
    assert (Ll : length vss = length rows) by (clear -H2; induction H2; cbn; lia).
    destruct (store_all_ok out T (used cols) size Hs) as (T' & E & Hs' & K1 & K2).
    { rewrite Forall_forall. intros w Hw. apply (Permutation_in _ (Permutation_sym Hp)) in Hw.
      pose proof (all_writes_range vss (used cols) size 0 Lv ltac:(lia)) as R. rewrite Forall_forall in R. exact (R w Hw). }
    destruct (ser_good cols size rows vss 0 T Hs ltac:(lia) H2) as (T2 & E2 & Hs2 & K3 & K4).
    exists T'. split; [exact E|]. rewrite E2. cbn. f_equal. f_equal. f_equal.
    apply (tensors_ext T2 T' (used cols) size Hs2 Hs'). intros k i Hk Hi.
    assert (Hnd : NoDup (map key out)) by (eapply Permutation_NoDup; [apply Permutation_map, Hp|apply all_writes_nodup]).
    destruct (nth_error vss i) as [vs|] eqn:Ei.
    - pose proof (K4 i vs Ei k Hk) as K5. cbn in K5. rewrite K5. destruct (nth_error vs k) as [v|] eqn:Ek.
      + symmetry. apply (K2 Hnd k i v). apply (Permutation_in _ Hp). exact (all_writes_in vss 0 i vs k v Ei Ek).
      + exfalso. apply nth_error_None in Ek.
        assert (X : exists r, good_row cols r vs).
        { clear -fzero H2 Ei. revert i Ei. induction H2 as [|r us rows vss Hg H IH]; intros [|i] Ei; cbn in Ei; try discriminate.
          - injection Ei as ->. eauto. - eauto. }
        destruct X as (r & Hg). apply good_row_length in Hg. lia.
    - apply nth_error_None in Ei. rewrite K3 by lia. symmetry. apply K1. intro X.
      apply (Permutation_in _ (Permutation_sym (Permutation_map key Hp))) in X. apply all_writes_keys in X. lia.
  Qed.

  (* What the workers end with. *)
  Lemma worker_verdict cols q : p_lenient p = true -> is_pad p = false ->
    Forall (fun ir => closed p (snd ir) /\ comparable p (snd ir)) q ->
    (Forall (fun ir => exists vs, good_row cols (snd ir) vs) q /\ snd (worker cols q) = V_good) \/
    (Exists (fun ir => bad_row cols (snd ir)) q /\ snd (worker cols q) = if is_error p then V_throw Invalid_instance else V_bad).
  Proof.
    intros Hl Hp. induction q as [|[i r] q IH]; intro Hc; [left; split; [constructor|reflexivity]|].
    cbn. destruct (row_cases cols r (proj2 (Forall_inv Hc)) Hl (proj1 (Forall_inv Hc))) as [(vs & G & E)|(B & vs & E & _)]; rewrite E.
    - destruct (IH (Forall_inv_tail Hc)) as [[H1 H2]|[H1 H2]]; destruct (worker cols q) as [ws v]; cbn in *.
      + left. split; [constructor; [exists vs; exact G|exact H1]|exact H2].
      + right. split; [apply Exists_cons_tl, H1|exact H2].
    - right. split; [apply Exists_cons_hd; exact B|]. unfold Model_csv.bad_verdict, is_error, is_skip, is_pad in *.
      destruct (p_bad p); cbn; auto; discriminate.
  Qed.

  Lemma numbered_closed (rows : list str) : forall i, Forall (closed p) rows -> Forall (comparable p) rows ->
    Forall (fun ir : nat * str => closed p (snd ir) /\ comparable p (snd ir)) (combine (seq i (length rows)) rows).
  Proof.
    induction rows as [|r rows IH]; intros i H H'; cbn; [constructor|].
    constructor; [split; [exact (Forall_inv H)|exact (Forall_inv H')]|apply IH; [exact (Forall_inv_tail H)|exact (Forall_inv_tail H')]].
  Qed.

  Lemma numbered_rows (rows : list str) : forall i, map snd (combine (seq i (length rows)) rows) = rows.
  Proof. induction rows as [|r rows IH]; intro i; cbn; [reflexivity|]. rewrite IH. reflexivity. Qed.

  Lemma Forall_concat {A} (P : A -> Prop) ls : Forall P (concat ls) <-> Forall (Forall P) ls.
  Proof.
    induction ls as [|l ls IH]; cbn; [split; constructor|]. rewrite Forall_app, IH. split.
    - intros []; constructor; assumption. - intro H. split; [exact (Forall_inv H)|exact (Forall_inv_tail H)].
  Qed.

  Lemma goods_forall2 cols rows : Forall (fun r => exists vs, good_row cols r vs) rows -> exists vss, Forall2 (good_row cols) rows vss.
  Proof.
    induction rows as [|r rows IH]; intro H; [exists []; constructor|].
    destruct (Forall_inv H) as (vs & G). destruct (IH (Forall_inv_tail H)) as (vss & G2). exists (vs :: vss). constructor; assumption.
  Qed.

  Lemma parallel_is_serial cols rows size T r : Forall (comparable p) rows -> p_lenient p = true -> is_pad p = false ->
    Forall (closed p) rows -> length rows <= size -> shaped T (used cols) size ->
    decode_prl cols rows T r -> r = decode_ser cols rows 0 T.
  Proof.
    intros Hd Hl Hp Hc Hlen Hs H.
    assert (Hcn : Forall (fun ir : nat * str => closed p (snd ir) /\ comparable p (snd ir)) (numbered rows)) by (apply numbered_closed; assumption).
    assert (Bad : forall parts q, concat parts = numbered rows -> In q parts ->
      Exists (fun ir : nat * str => bad_row cols (snd ir)) q -> Exists (bad_row cols) rows).
    { intros parts q E Hin Hex. rewrite <- (numbered_rows rows 0). rewrite Exists_exists in *.
      destruct Hex as (ir & Hir & B). exists (snd ir). split; [|exact B]. apply in_map. change (combine (seq 0 (length rows)) rows) with (numbered rows).
      rewrite <- E. apply in_concat. exists q. auto. }
    assert (V : forall parts, concat parts = numbered rows -> forall q, In q parts ->
       (Forall (fun ir => exists vs, good_row cols (snd ir) vs) q /\ snd (worker cols q) = V_good) \/
       (Exists (fun ir => bad_row cols (snd ir)) q /\ snd (worker cols q) = if is_error p then V_throw Invalid_instance else V_bad)).
    { intros parts E q Hin. apply worker_verdict; try assumption. rewrite <- E, Forall_concat, Forall_forall in Hcn. exact (Hcn q Hin). }
    destruct H as [parts out E Hg Hm|parts E Hgb Hex|parts e E Hex|parts E Hex].
    - assert (G : Forall (fun r => exists vs, good_row cols r vs) rows).
      { rewrite <- (numbered_rows rows 0). apply Forall_map. change (combine (seq 0 (length rows)) rows) with (numbered rows).
        rewrite <- E. apply Forall_concat. rewrite Forall_forall. intros q Hq.
        destruct (V parts E q Hq) as [[X _]|[_ X]]; [exact X|]. rewrite Forall_forall in Hg. rewrite (Hg q Hq) in X.
        destruct (is_error p); discriminate. }
      destruct (goods_forall2 _ _ G) as (vss & G2).
      assert (Pm : Permutation (all_writes 0 vss) out).
      { apply merge_perm in Hm. pose proof (workers_concat cols parts Hg) as Wc. rewrite E in Wc. unfold numbered in Wc.
        rewrite (worker_numbered cols rows vss 0 G2) in Wc. injection Wc as ->. exact Hm. }
      destruct (good_worker_all cols size rows vss out T G2 Hs Hlen Pm) as (T' & E1 & E2). rewrite E1, E2. reflexivity.
    - apply Exists_exists in Hex. destruct Hex as (q & Hq & Eq). destruct (V parts E q Hq) as [[_ X]|[B X]]; [congruence|].
      rewrite (ser_bad cols size Hl Hp rows Hd Hc (Bad parts q E Hq B) 0 T Hs ltac:(lia)). rewrite Eq in X. destruct (is_error p); [discriminate|reflexivity].
    - apply Exists_exists in Hex. destruct Hex as (q & Hq & Eq). destruct (V parts E q Hq) as [[_ X]|[B X]]; [congruence|].
      rewrite (ser_bad cols size Hl Hp rows Hd Hc (Bad parts q E Hq B) 0 T Hs ltac:(lia)). rewrite Eq in X. destruct (is_error p); [congruence|discriminate].
    - apply Exists_exists in Hex. destruct Hex as (q & Hq & Eq). destruct (V parts E q Hq) as [[_ X]|[B X]]; [congruence|].
      rewrite Eq in X. destruct (is_error p); discriminate.
  Qed.

  (* All rows good: without the other assumptions. *)
  Lemma parallel_good cols rows vss size T r : length rows <= size -> shaped T (used cols) size ->
    Forall2 (good_row cols) rows vss -> decode_prl cols rows T r -> r = decode_ser cols rows 0 T.
  Proof.
    intros Hlen Hs G2 H.
    assert (V : forall parts, concat parts = numbered rows -> forall q, In q parts -> snd (worker cols q) = V_good).
    { intros parts E q Hq. assert (Gq : Forall (fun ir : nat * str => exists vs, good_row cols (snd ir) vs) (numbered rows)).
      { clear -fzero G2. unfold numbered. generalize 0. induction G2 as [|r vs rows vss Hg H IH]; intro i; cbn; [constructor|]. constructor; [exists vs; exact Hg|apply IH]. }
      rewrite <- E, Forall_concat, Forall_forall in Gq. specialize (Gq q Hq). clear -fzero Gq.
      induction q as [|[i r] q IH]; [reflexivity|]. cbn. destruct (Forall_inv Gq) as (vs & Hg). cbn in Hg. rewrite (good_run _ _ _ Hg).
      specialize (IH (Forall_inv_tail Gq)). destruct (worker cols q). exact IH. }
    destruct H as [parts out E Hg Hm|parts E Hgb Hex|parts e E Hex|parts E Hex].
    - assert (Pm : Permutation (all_writes 0 vss) out).
      { apply merge_perm in Hm. pose proof (workers_concat cols parts Hg) as Wc. rewrite E in Wc. unfold numbered in Wc.
        rewrite (worker_numbered cols rows vss 0 G2) in Wc. injection Wc as ->. exact Hm. }
      destruct (good_worker_all cols size rows vss out T G2 Hs Hlen Pm) as (T' & E1 & E2). rewrite E1, E2. reflexivity.
    - apply Exists_exists in Hex. destruct Hex as (q & Hq & Eq). rewrite (V parts E q Hq) in Eq. discriminate.
    - apply Exists_exists in Hex. destruct Hex as (q & Hq & Eq). rewrite (V parts E q Hq) in Eq. discriminate.
    - apply Exists_exists in Hex. destruct Hex as (q & Hq & Eq). rewrite (V parts E q Hq) in Eq. discriminate.
  Qed.

  (* ---------- whole batches ---------- *)
  Notation decode := (Model_csv.decode F atof atod is_inf qnan fzero p).
  Notation holds := (Spec_csv.holds F).

  Lemma decode_good cols rows vss size out : length rows <= size -> Forall2 (good_row cols) rows vss ->
    decode cols rows size out ->
    exists T, out = Ok (Some (T, size - length rows)) /\ holds cols T vss /\
      forall k i, length rows <= i -> elem T k i = elem (make_tensors F fzero cols size) k i.
  Proof.
    intros Hlen G2 H. pose proof (make_tensors_shaped cols size) as Hs.
    assert (E : out = finish_example F size (decode_ser cols rows 0 (make_tensors F fzero cols size))).
    { unfold Model_csv.decode in H. destruct (runs_serial p cols rows); [exact H|].
      destruct H as (r & Hr & ->). rewrite (parallel_good _ _ _ _ _ _ Hlen Hs G2 Hr). reflexivity. }
    destruct (ser_good cols size rows vss 0 _ Hs ltac:(lia) G2) as (T & E1 & Hs' & K1 & K2).
    exists T. rewrite E, E1. split; [reflexivity|]. split.
    - split; [apply Hs'|]. intros i vs Hi k Hk. destruct Hs' as [L _]. exact (K2 i vs Hi k (eq_ind _ (fun n => k < n) Hk _ L)).
    - intros k i Hi. apply K1. lia.
  Qed.

  Lemma decode_bad cols rows size out : Forall (comparable p) rows -> p_lenient p = true -> is_pad p = false ->
    length rows <= size -> Forall (closed p) rows -> Exists (bad_row cols) rows -> decode cols rows size out ->
    out = if is_error p then Throw Invalid_instance else Ok None.
  Proof.
    intros Hd Hl Hp Hlen Hc Hex H. pose proof (make_tensors_shaped cols size) as Hs.
    assert (E : out = finish_example F size (decode_ser cols rows 0 (make_tensors F fzero cols size))).
    { unfold Model_csv.decode in H. destruct (runs_serial p cols rows); [exact H|].
      destruct H as (r & Hr & ->). rewrite (parallel_is_serial _ _ _ _ _ Hd Hl Hp Hc Hlen Hs Hr). reflexivity. }
    rewrite E, (ser_bad cols size Hl Hp rows Hd Hc Hex 0 _ Hs ltac:(lia)). destruct (is_error p); reflexivity.
  Qed.

  Lemma decode_pad cols rows vss size out : Forall (comparable p) rows -> p_lenient p = true -> is_pad p = true ->
    length rows <= size -> Select cols rows vss -> decode cols rows size out ->
    exists T, out = Ok (Some (T, size - length vss)) /\ holds cols T vss.
  Proof.
    intros Hd Hl Hp Hlen Hsel H. pose proof (make_tensors_shaped cols size) as Hs.
    unfold Model_csv.decode in H. unfold runs_serial in H. rewrite Hp in H. cbn [orb] in H.
    destruct (ser_pad cols size Hl Hp rows vss Hsel Hd 0 _ Hs ltac:(lia)) as (T & E1 & Hs' & K1 & K2).
    exists T. rewrite H, E1. split; [reflexivity|]. split; [apply Hs'|]. intros i vs Hi k Hk. destruct Hs' as [L _]. exact (K2 i vs Hi k (eq_ind _ (fun n => k < n) Hk _ L)).
  Qed.

  (* Every batch of closed rows has its selection. *)
  Lemma select_exists cols rows : Forall (comparable p) rows -> p_lenient p = true -> Forall (closed p) rows ->
    exists vss, Select cols rows vss.
  Proof.
    intros Hd Hl. revert Hd. induction rows as [|r rows IH]; intros Hd Hc; [exists []; constructor|].
    destruct (IH (Forall_inv_tail Hd) (Forall_inv_tail Hc)) as (vss & H).
    destruct (row_cases cols r (Forall_inv Hd) Hl (Forall_inv Hc)) as [(vs & G & _)|(B & _)].
    - exists (vs :: vss). apply S_good; assumption.
    - exists vss. apply S_bad; assumption.
  Qed.
End Dec.
