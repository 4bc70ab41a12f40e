(* The properties of the CSV reader in the form in which Props_csv.v states them. *)
From Verif Require Import Common Model_csvtok Spec_csvtok Proof_csvtok Model_num Spec_num Proof_num Model_csv Spec_csv Proof_csv Proof_csv_schema.

Section Props.
  Context (F : Type) (atof atod : list byte -> option F) (is_inf : F -> bool) (qnan fzero : F) (p : csv_params).
  Notation good_row := (Spec_csv.good_row F atof atod is_inf qnan p).
  Notation bad_row := (Spec_csv.bad_row F atof atod is_inf qnan p).
  Notation decode := (Model_csv.decode F atof atod is_inf qnan fzero p).
  Notation holds := (Spec_csv.holds F).
  Notation infer_schema := (Model_csv.infer_schema F atod is_inf qnan p).

  Lemma cells cols rows vss size out : length rows <= size -> Forall2 (good_row cols) rows vss -> decode cols rows size out ->
    exists T, out = Ok (Some (T, size - length rows)) /\ holds cols T vss.
  Proof.
    intros L G D. destruct (decode_good F atof atod is_inf qnan fzero p cols rows vss size out L G D) as (T & E & H & _). eauto.
  Qed.

  Lemma parallel cols rows size r : Forall (closed p) rows -> Forall (comparable p) rows -> p_lenient p = true -> is_pad p = false ->
    length rows <= size ->
    decode_prl F atof atod is_inf qnan p cols rows (make_tensors F fzero cols size) r ->
    r = decode_ser F atof atod is_inf qnan p cols rows 0 (make_tensors F fzero cols size).
  Proof.
    intros Hc Hd Hl Hp L H. eapply parallel_is_serial; try eassumption. apply make_tensors_shaped.
  Qed.

  Lemma not_all_bad cols rows : Forall (closed p) rows -> Forall (comparable p) rows -> p_lenient p = true ->
    (exists vss, Forall2 (good_row cols) rows vss) \/ Exists (bad_row cols) rows.
  Proof.
    intros Hc Hd Hl. induction rows as [|r rows IH]; [left; exists []; constructor|].
    destruct (row_cases F atof atod is_inf qnan p cols r (Forall_inv Hd) Hl (Forall_inv Hc)) as [(vs & G & _)|(B & _)].
    - destruct (IH (Forall_inv_tail Hc) (Forall_inv_tail Hd)) as [(vss & G2)|B]; [left; exists (vs :: vss); constructor; assumption|right; apply Exists_cons_tl, B].
    - right. apply Exists_cons_hd, B.
  Qed.

  Lemma error_mode cols rows size out : p_bad p = B_error -> p_lenient p = true -> length rows <= size ->
    Forall (closed p) rows -> Forall (comparable p) rows -> decode cols rows size out ->
    (out = Throw Invalid_instance <-> Exists (bad_row cols) rows) /\
    (out <> Throw Invalid_instance -> exists T vss, out = Ok (Some (T, size - length rows)) /\ Forall2 (good_row cols) rows vss /\ holds cols T vss).
  Proof.
    intros Hb Hl L Hc Hd D.
    assert (Hp : is_pad p = false) by (unfold is_pad; rewrite Hb; reflexivity).
    assert (He : is_error p = true) by (unfold is_error; rewrite Hb; reflexivity).
    destruct (not_all_bad cols rows Hc Hd Hl) as [(vss & G)|B].
    - destruct (cells cols rows vss size out L G D) as (T & -> & H). split.
      + split; [discriminate|]. intro B. exfalso. clear -B G. induction G as [|r vs rows vss Hg G IH]; inversion B; subst; [|auto].
        match goal with X : Spec_csv.bad_row _ _ _ _ _ _ _ _ |- _ => exact (proj2 X vs Hg) end.
      + intros _. exists T, vss. auto.
    - pose proof (decode_bad F atof atod is_inf qnan fzero p cols rows size out Hd Hl Hp L Hc B D) as ->. rewrite He.
      split; [split; auto|]. intro X. contradiction.
  Qed.

  Lemma skip_mode cols rows size out : (p_bad p = B_skip \/ p_bad p = B_skip_warn) -> p_lenient p = true -> length rows <= size ->
    Forall (closed p) rows -> Forall (comparable p) rows -> decode cols rows size out ->
    (out = Ok None <-> Exists (bad_row cols) rows) /\
    (out <> Ok None -> exists T vss, out = Ok (Some (T, size - length rows)) /\ Forall2 (good_row cols) rows vss /\ holds cols T vss).
  Proof.
    intros Hb Hl L Hc Hd D.
    assert (Hp : is_pad p = false) by (unfold is_pad; destruct Hb as [-> | ->]; reflexivity).
    assert (He : is_error p = false) by (unfold is_error; destruct Hb as [-> | ->]; reflexivity).
    destruct (not_all_bad cols rows Hc Hd Hl) as [(vss & G)|B].
    - destruct (cells cols rows vss size out L G D) as (T & -> & H). split.
      + split; [discriminate|]. intro B. exfalso. clear -B G. induction G as [|r vs rows vss Hg G IH]; inversion B; subst; [|auto].
        match goal with X : Spec_csv.bad_row _ _ _ _ _ _ _ _ |- _ => exact (proj2 X vs Hg) end.
      + intros _. exists T, vss. auto.
    - pose proof (decode_bad F atof atod is_inf qnan fzero p cols rows size out Hd Hl Hp L Hc B D) as ->. rewrite He.
      split; [split; auto|]. intro X. contradiction.
  Qed.

  Lemma pad_mode cols rows size out : (p_bad p = B_pad \/ p_bad p = B_pad_warn) -> p_lenient p = true -> length rows <= size ->
    Forall (closed p) rows -> Forall (comparable p) rows -> decode cols rows size out ->
    exists T vss, out = Ok (Some (T, size - length vss)) /\ Select F atof atod is_inf qnan p cols rows vss /\ holds cols T vss.
  Proof.
    intros Hb Hl L Hc Hd D. assert (Hp : is_pad p = true) by (unfold is_pad; destruct Hb as [-> | ->]; reflexivity).
    destruct (select_exists F atof atod is_inf qnan p cols rows Hd Hl Hc) as (vss & S).
    destruct (decode_pad F atof atod is_inf qnan fzero p cols rows vss size out Hd Hl Hp L S D) as (T & E & H). exists T, vss. auto.
  Qed.

  Lemma padding_default cols rows vss size out : length rows <= size -> Forall2 (good_row cols) rows vss -> decode cols rows size out ->
    exists T, out = Ok (Some (T, size - length rows)) /\
      forall k i c, length rows <= i -> i < size -> nth_error (filter (fun c => negb (c_ignore c)) cols) k = Some c ->
        elem T k i = Some (match c_type c with
                           | D_float16 | D_float32 | D_float64 => V_float F fzero
                           | D_string => V_string F []
                           | _ => V_int F 0
                           end).
  Proof.
    intros L G D. destruct (decode_good F atof atod is_inf qnan fzero p cols rows vss size out L G D) as (T & E & _ & H).
    exists T. split; [exact E|]. intros k i c H1 H2 Hc. rewrite (H k i H1). unfold elem, make_tensors. rewrite nth_error_map, Hc. cbn.
    assert (R : forall (x : Model_num.val F) n i, i < n -> nth_error (repeat x n) i = Some x).
    { intros x n. induction n as [|n IH]; intros [|m] Hm; cbn; try lia; [reflexivity|]. apply IH. lia. }
    rewrite R by exact H2. reflexivity.
  Qed.

  (* The schema and the rows together. *)
  Lemma by_schema r text r' attrs row vs : overrides_are_maps p -> fresh r ->
    infer_schema r (Some text) = (r', Ok (Some attrs)) ->
    good_row (columns_of r') row vs ->
    exists fs l, fields_of p row fs /\ selection p (r_names r') l /\
      length fs = length (r_names r') /\ length vs = length attrs /\ length attrs = length l /\
      forall k j a d, nth_error l k = Some j -> nth_error attrs k = Some (a, d) ->
        exists f v, nth_error fs j = Some f /\ nth_error vs k = Some v /\
          parse_cell F atof atod is_inf qnan d (p_nans p) (p_base p) (fst f) = Ok (P_ok v).
  Proof.
    intros Hm Hf H (fs & Hfs & G).
    destruct (success_some F atof atod is_inf qnan p r text r' attrs Hm Hf H) as (fs0 & l & used & _ & _ & _ & D & _).
    destruct (described_row F atof atod is_inf qnan p _ _ _ _ _ _ _ D G) as (L1 & L2 & R).
    exists fs, l. split; [exact Hfs|]. split; [apply D|]. split; [exact L1|]. split; [exact L2|]. split; [apply D|]. exact R.
  Qed.

  Lemma selection_only r inst r' attrs : overrides_are_maps p -> fresh r -> infer_schema r inst = (r', Ok (Some attrs)) ->
    exists l used, selection p (r_names r') l /\ at_positions (r_names r') l used /\ length attrs = length l /\
      (p_dedupe p = false -> map fst attrs = used) /\
      (forall j, j < length (r_names r') -> exists d, nth_error (columns_of r') j = Some (mk_col d (negb (existsb (Nat.eqb j) l)))).
  Proof.
    intros Hm Hf H.
    assert (G : exists l used P, at_positions (r_names r') l used /\ (p_dedupe p = false -> map fst attrs = used) /\
      describes p (r_names r') P l attrs (columns_of r')).
    { destruct inst as [text|].
      - destruct (success_some F atof atod is_inf qnan p r text r' attrs Hm Hf H) as (fs0 & l & used & _ & _ & _ & D & A & _ & _ & U). eauto 6.
      - destruct (success_none F atof atod is_inf qnan p r r' attrs Hm Hf H) as (l & used & _ & _ & D & A & _ & _ & U). eauto 6. }
    destruct G as (l & used & P & A & U & D). exists l, used. split; [apply D|]. split; [exact A|]. split; [apply D|]. split; [exact U|].
    intros j Hj. destruct D as (_ & _ & _ & _ & D & I). destruct (existsb (Nat.eqb j) l) eqn:E.
    - apply existsb_exists in E. destruct E as (x & Hx & E). apply Nat.eqb_eq in E as <-. apply In_nth_error in Hx. destruct Hx as (k & Hk).
      destruct (D k j Hk) as (n & a & t & d & _ & _ & _ & _ & _ & X). exists d. exact X.
    - destruct (I j Hj) as (d & X); [|exists d; exact X]. intro Hi.
      assert (E' : existsb (Nat.eqb j) l = true) by (apply existsb_exists; exists j; split; [exact Hi|apply Nat.eqb_refl]). congruence.
  Qed.

  Lemma types_of r text r' attrs : overrides_are_maps p -> fresh r -> infer_schema r (Some text) = (r', Ok (Some attrs)) ->
    exists fs l, fields_of p text fs /\ selection p (r_names r') l /\ length attrs = length l /\
      forall k j, nth_error l k = Some j ->
        exists f n a plain d, nth_error fs j = Some f /\ nth_error (r_names r') j = Some n /\ nth_error attrs k = Some (a, d) /\
          plain_type F atod is_inf qnan p (fst f) plain /\ column_type p (r_names r') j n plain d.
  Proof.
    intros Hm Hf H. destruct (success_some F atof atod is_inf qnan p r text r' attrs Hm Hf H) as (fs & l & used & Hfs & _ & _ & D & _).
    exists fs, l. split; [exact Hfs|]. split; [apply D|]. split; [apply D|]. intros k j Hk.
    destruct D as (_ & _ & _ & _ & D & _). destruct (D k j Hk) as (n & a & t & d & H1 & H2 & _ & (f & H3 & H4) & H5 & _).
    exists f, n, a, t, d. auto.
  Qed.

  Lemma unaddressed r text fs : overrides_are_maps p -> fresh r -> fields_of p text fs ->
    length (names_for p (r_names r) (length fs)) = length fs ->
    ((exists j, In j (map fst (p_types_index p)) /\ length fs <= j) \/
     (exists n, In n (map fst (p_types p)) /\ ~ In n (names_for p (r_names r) (length fs)))) ->
    snd (infer_schema r (Some text)) = Throw Invalid_argument.
  Proof.
    intros Hm Hf Hfs L X. apply (errors_of_mismatch F atof atod is_inf qnan p r text fs Hm Hf Hfs); [exact L|].
    intros [A B]. destruct X as [(j & Hj & Hl)|(n & Hn & Hni)].
    - specialize (A j Hj). lia.
    - exact (Hni (B n Hn)).
  Qed.

  Lemma dedupe_names r inst r' attrs : overrides_are_maps p -> fresh r -> p_dedupe p = true ->
    infer_schema r inst = (r', Ok (Some attrs)) ->
    exists l used, selection p (r_names r') l /\ at_positions (r_names r') l used /\ renamed used (map fst attrs).
  Proof.
    intros Hm Hf Hd H. destruct inst as [text|].
    - destruct (success_some F atof atod is_inf qnan p r text r' attrs Hm Hf H) as (fs0 & l & used & _ & _ & _ & D & A & _ & R & _).
      exists l, used. split; [apply D|]. auto.
    - destruct (success_none F atof atod is_inf qnan p r r' attrs Hm Hf H) as (l & used & _ & _ & D & A & _ & R & _).
      exists l, used. split; [apply D|]. auto.
  Qed.

  Lemma described r text r' attrs : overrides_are_maps p -> fresh r -> infer_schema r (Some text) = (r', Ok (Some attrs)) ->
    exists fs, fields_of p text fs /\ length (r_names r') = length fs /\ length (columns_of r') = length fs /\
      r_names r' = names_for p (r_names r) (length fs) /\ NoDup (map fst attrs).
  Proof.
    intros Hm Hf H. destruct (success_some F atof atod is_inf qnan p r text r' attrs Hm Hf H) as (fs & l & used & Hfs & En & L & D & _ & N & _).
    exists fs. split; [exact Hfs|]. split; [exact L|]. split; [|auto]. destruct D as (_ & _ & _ & Lc & _). lia.
  Qed.
End Props.
