From Verif Require Import Common Model_csvtok Spec_csvtok Model_num Model_csv Spec_csv Proof_csv Model_report Spec_report Proof_report.
From Verif Require Model_log Spec_log Proof_log.
From Coq Require String.
Import String.StringSyntax.
Local Open Scope string_scope.
Local Open Scope list_scope.
Local Open Scope nat_scope.

(* For the examples: a conversion to numbers that knows only single digits, parameters, columns. *)
Definition toy (s : list byte) : option nat :=
  match s with [c] => if (N.leb 48 c && N.leb c 57)%bool then Some (N.to_nat c - 48) else None | _ => None end.
Definition no_inf (n : nat) : bool := false.
Definition loud (bad : beh) (maxlen : option nat) (m : mfl) : csv_params :=
  mk_params 44%N 34%N maxlen m [] 10 bad true None false false [] [] [] [] None [] [] true.
Definition c3 : list ncol := [(tx "id", mk_col (D_int i32) false); (tx "note", mk_col D_string true); (tx "name", mk_col D_string false)].
Definition s0 : str := tx "data.csv".
Definition ty (d : dtype) : str := match d with D_int i32 => tx "int32" | _ => tx "other" end.
Notation toy_says P := (row_says nat toy toy no_inf 0 P s0 ty c3).
Ltac fields := apply fields_tokenize; vm_compute; reflexivity.

(* Whatever is said, the row is accepted or refused as without it: the verdict is that of the decoder, for every row and all parameters. *)
Theorem C106_verdict : forall F atof atod is_inf qnan p store type_text cols row text,
  snd (fst (row_says F atof atod is_inf qnan p store type_text cols row text)) = snd (row_run F atof atod is_inf qnan p (map snd cols) text).
Proof. exact row_verdict. Qed.
Print Assumptions C106_verdict.

Example C106_case_verdict : snd (fst (toy_says (loud B_skip None treat_as_bad) 7 (tx "q,a,b"))) = V_bad.
Proof. vm_compute. reflexivity. Qed.

(* A complete row is reported by its first problem from the left: the sentence names the column, the number of the row, the data store
   and the value, or the true number of fields and columns.  It is logged if warnings about bad rows are on, and the exception, if bad rows
   are errors, has the same text.  Nothing else is said except the notices about fields that were cut on request, up to that problem. *)
Theorem C106_row : forall F atof atod is_inf qnan p store type_text cols row text fs ws q,
  p_lenient p = true -> comparable p text -> fields_of p text fs ->
  Tells F atof atod is_inf qnan p store row cols fs ws q ->
  row_says F atof atod is_inf qnan p store type_text cols row text =
    match q with
    | None => (ws, V_good, None)
    | Some q =>
        let m := sentence store type_text row (length fs) (length cols) q in
        (ws ++ (if p_warn p then [m] else []), if is_error p then V_throw Invalid_instance else V_bad, if is_error p then Some m else None)
    end.
Proof.
  intros F atof atod is_inf qnan p store type_text cols row text fs ws q Hl Hc Hf T.
  rewrite (row_tells F atof atod is_inf qnan p store type_text cols row text fs ws q Hl Hc Hf T). destruct q; reflexivity.
Qed.
Print Assumptions C106_row.

Example C106_case_row :
  fields_of (loud B_error (Some 3) truncate_warn) (tx "42345,bbbb,cccc") [(tx "423", true); (tx "bbb", true); (tx "ccc", true)] /\
  toy_says (loud B_error (Some 3) truncate_warn) 7 (tx "42345,bbbb,cccc") =
    ([tx "The column 'id' of the row #7 in the data store 'data.csv' is too long. Its truncated value is '423'.";
      tx "The column 'name' of the row #7 in the data store 'data.csv' is too long. Its truncated value is 'ccc'."], V_good, None) /\
  toy_says (loud B_error None treat_as_bad) 12 (tx "x1,b,c,d") =
    (let m := tx "The column 'id' of the row #12 in the data store 'data.csv' cannot be parsed as int32. Its string value is 'x1'." in
     ([m], V_throw Invalid_instance, Some m)) /\
  toy_says (loud B_skip None treat_as_bad) 12 (tx "1,b,c,d,e") =
    ([tx "The row #12 in the data store 'data.csv' has 5 column(s) while it is expected to have 3 column(s)."], V_bad, None).
Proof. split; [fields|]. vm_compute. auto. Qed.

(* Of every complete row something can be told, and there is no problem exactly if the row is good. *)
Theorem C106_told : forall F atof atod is_inf qnan p store cols row fs,
  exists ws q, Tells F atof atod is_inf qnan p store row cols fs ws q /\
    (q = None <-> exists vs, Good F atof atod is_inf qnan p (map snd cols) fs vs).
Proof.
  intros F atof atod is_inf qnan p store cols row fs.
  destruct (tells_exists F atof atod is_inf qnan p store row cols fs) as (ws & q & T). exists ws, q. split; [exact T|].
  exact (tells_good F atof atod is_inf qnan p store row cols fs ws q T).
Qed.
Print Assumptions C106_told.

Example C106_case_told : Tells nat toy toy no_inf 0 (loud B_error None treat_as_bad) s0 3 c3 [(tx "1", false); (tx "b", false)] [] (Some Count).
Proof. refine (T_right nat toy toy no_inf 0 (loud B_error None treat_as_bad) s0 3 (tx "id") (mk_col (D_int i32) false) (tl c3) (tx "1", false) _ (V_int nat 1) [] _ _ _ _ _); [reflexivity|intros [? ?]; discriminate|vm_compute; reflexivity|]. apply T_ignored; [reflexivity|]. apply T_fewer. Qed.

(* Unless fields are cut with a notice: nothing is said about a good row, and one sentence at most about a bad one, exactly one if warnings
   are on. *)
Theorem C106_one : forall F atof atod is_inf qnan p store type_text cols row text,
  p_lenient p = true -> comparable p text -> p_mfl p <> truncate_warn ->
  (forall vs, good_row F atof atod is_inf qnan p (map snd cols) text vs ->
     row_says F atof atod is_inf qnan p store type_text cols row text = ([], V_good, None)) /\
  (bad_row F atof atod is_inf qnan p (map snd cols) text ->
     exists m, tells F atof atod is_inf qnan p store type_text cols (row, text) ([], Some m) /\
       row_says F atof atod is_inf qnan p store type_text cols row text =
         (if p_warn p then [m] else [], if is_error p then V_throw Invalid_instance else V_bad, if is_error p then Some m else None)).
Proof.
  intros F atof atod is_inf qnan p store type_text cols row text Hl Hc Hm. split.
  - intros vs (fs & Hf & G). destruct (tells_exists F atof atod is_inf qnan p store row cols fs) as (ws & q & T).
    rewrite (row_tells F atof atod is_inf qnan p store type_text cols row text fs ws q Hl Hc Hf T).
    rewrite (tells_quiet F atof atod is_inf qnan p store row cols fs ws q T Hm).
    rewrite (proj2 (tells_good F atof atod is_inf qnan p store row cols fs ws q T) (ex_intro _ vs G)). reflexivity.
  - intros ((fs & Hf) & N). destruct (tells_exists F atof atod is_inf qnan p store row cols fs) as (ws & q & T).
    pose proof (tells_quiet F atof atod is_inf qnan p store row cols fs ws q T Hm) as ->.
    destruct q as [q|].
    + exists (sentence store type_text row (length fs) (length cols) q). split; [exists fs, (Some q); auto|].
      rewrite (row_tells F atof atod is_inf qnan p store type_text cols row text fs [] _ Hl Hc Hf T). reflexivity.
    + exfalso. destruct (proj1 (tells_good F atof atod is_inf qnan p store row cols fs _ _ T) eq_refl) as (vs & G).
      apply (N vs). exists fs. auto.
Qed.
Print Assumptions C106_one.

Example C106_case_one : let P := loud B_skip (Some 3) treat_as_bad in
  good_row nat toy toy no_inf 0 P (map snd c3) (tx "5,bbbb,cc") [V_int nat 5; V_string nat (tx "cc")] /\
  bad_row nat toy toy no_inf 0 P (map snd c3) (tx "5,b,cccc") /\
  toy_says P 0 (tx "5,b,cccc") = ([tx "The column 'name' of the row #0 in the data store 'data.csv' is too long. Its truncated value is 'ccc'."], V_bad, None).
Proof.
  cbv zeta. split; [|split].
  - eexists. split; [fields|]. apply G_used; [reflexivity|intros [? ?]; discriminate|vm_compute; reflexivity|].
    apply G_ignored; [reflexivity|]. apply G_used; [reflexivity|intros [? ?]; discriminate|vm_compute; reflexivity|]. apply G_nil.
  - split; [eexists; fields|]. intros vs H. apply (good_run nat toy toy no_inf 0) in H. vm_compute in H. discriminate.
  - vm_compute. reflexivity.
Qed.

(* An example without bad rows: the notices of its rows, in order. *)
Theorem C106_clean : forall F atof atod is_inf qnan p store type_text cols batch rows ts,
  p_lenient p = true -> Forall (fun nr => comparable p (snd nr)) rows ->
  Forall2 (tells F atof atod is_inf qnan p store type_text cols) rows ts -> Forall (fun t => faulty t = false) ts ->
  example_says F atof atod is_inf qnan p store type_text cols batch rows = (concat (map fst ts), E_rows (length rows)).
Proof.
  intros F atof atod is_inf qnan p store type_text cols batch rows ts Hl Hc H Hq.
  rewrite (example_good F atof atod is_inf qnan p store type_text cols batch rows ts Hl Hc H Hq). do 2 f_equal.
  clear - Hq. induction Hq as [|[ws [m|]] ts E Hq IH]; cbn [map]; [reflexivity|discriminate|]. rewrite IH. f_equal. apply app_nil_r.
Qed.
Print Assumptions C106_clean.

(* Bad rows left out: all of them are reported in the order of the dataset, and then, in the mode that warns, how many there were. *)
Theorem C106_padded : forall F atof atod is_inf qnan p store type_text cols batch rows ts,
  p_lenient p = true -> Forall (fun nr => comparable p (snd nr)) rows -> p_bad p = B_pad \/ p_bad p = B_pad_warn ->
  Forall2 (tells F atof atod is_inf qnan p store type_text cols) rows ts ->
  let bad := length (filter faulty ts) in
  example_says F atof atod is_inf qnan p store type_text cols batch rows =
    (concat (map (logged p) ts) ++
       (if Nat.eqb bad 0 then [] else match p_bad p with B_pad_warn => [padded_sentence batch bad] | _ => [] end),
     E_rows (length rows - bad)).
Proof.
  intros F atof atod is_inf qnan p store type_text cols batch rows ts Hl Hc Hb. apply example_padded; auto.
  unfold is_pad. destruct Hb as [-> | ->]; reflexivity.
Qed.
Print Assumptions C106_padded.

(* An example with a bad row that is skipped, or an error: the rows before are good; the bad row is reported; the rows behind it are not
   looked at; and then, in the mode that warns, the example is reported as skipped. *)
Theorem C106_stopped : forall F atof atod is_inf qnan p store type_text cols batch pre ts nr t m rest,
  p_lenient p = true -> Forall (fun nr => comparable p (snd nr)) pre -> comparable p (snd nr) ->
  p_bad p <> B_pad -> p_bad p <> B_pad_warn ->
  Forall2 (tells F atof atod is_inf qnan p store type_text cols) pre ts -> Forall (fun t => faulty t = false) ts ->
  tells F atof atod is_inf qnan p store type_text cols nr t -> snd t = Some m ->
  example_says F atof atod is_inf qnan p store type_text cols batch (pre ++ nr :: rest) =
    (concat (map (logged p) ts) ++ logged p t ++ match p_bad p with B_skip_warn => [skipped_sentence batch] | _ => [] end,
     match p_bad p with B_error => E_error (Some m) (V_throw Invalid_instance) | _ => E_skipped end).
Proof.
  intros F atof atod is_inf qnan p store type_text cols batch pre ts nr t m rest Hl Hc Hn H1 H2 H Hq Ht Hm.
  assert (Hf : faulty t = true) by (unfold faulty; now rewrite Hm).
  assert (Hp : is_pad p = false) by (unfold is_pad; destruct (p_bad p); congruence).
  rewrite (example_stopped F atof atod is_inf qnan p store type_text cols batch pre ts nr t rest Hl Hc Hn H Hq Ht Hf Hp). f_equal.
  rewrite Hm. unfold is_skip, is_pad in *. destruct (p_bad p); congruence.
Qed.
Print Assumptions C106_stopped.

Example C106_case_example :
  example_says nat toy toy no_inf 0 (loud B_pad_warn None treat_as_bad) s0 ty c3 2 [(0, tx "1,a,b"); (1, tx "q,a,b"); (2, tx "2,c"); (3, tx "3,c,d")] =
    ([tx "The column 'id' of the row #1 in the data store 'data.csv' cannot be parsed as int32. Its string value is 'q'.";
      tx "The row #2 in the data store 'data.csv' has 2 column(s) while it is expected to have 3 column(s).";
      tx "The example #2 has been padded as it had 2 bad instance(s)."], E_rows 2) /\
  example_says nat toy toy no_inf 0 (loud B_skip_warn None treat_as_bad) s0 ty c3 2 [(0, tx "1,a,b"); (1, tx "q,a,b"); (2, tx "2,c"); (3, tx "3,c,d")] =
    ([tx "The column 'id' of the row #1 in the data store 'data.csv' cannot be parsed as int32. Its string value is 'q'.";
      tx "The example #2 has been skipped as it had at least one bad instance."], E_skipped) /\
  example_says nat toy toy no_inf 0 (loud B_skip_warn None treat_as_bad) s0 ty c3 2 [(0, tx "1,a,b"); (3, tx "3,c,d")] = ([], E_rows 2) /\
  (exists t, tells nat toy toy no_inf 0 (loud B_skip_warn None treat_as_bad) s0 ty c3 (2, tx "2,c") ([], Some t)).
Proof.
  repeat split; [vm_compute; reflexivity..|]. eexists. exists [(tx "2", false); (tx "c", false)], (Some Count). split; [fields|]. split; [|reflexivity].
  refine (T_right nat toy toy no_inf 0 (loud B_skip_warn None treat_as_bad) s0 2 (tx "id") (mk_col (D_int i32) false) (tl c3) (tx "2", false) _ (V_int nat 2) [] _ _ _ _ _); [reflexivity|intros [? ?]; discriminate|vm_compute; reflexivity|]. apply T_ignored; [reflexivity|]. apply T_fewer.
Qed.

(* A sentence is UTF-8 text if the name of the store, the column's name and the value are, and the value is at most 64 bytes long or
   plain ASCII. *)
Theorem C106_utf8 : forall store type_text row fields columns q,
  (exists cs, Spec_log.text_of store cs) -> (forall dt, exists cs, Spec_log.text_of (type_text dt) cs) ->
  (forall name value, q = Long name value \/ (exists dt, q = Wrong name dt value) ->
     (exists cs, Spec_log.text_of name cs) /\
     (((exists cs, Spec_log.text_of value cs) /\ length value <= 64) \/ Forall (fun c : byte => (c < 128)%N) value)) ->
  exists cs, Spec_log.text_of (sentence store type_text row fields columns q) cs.
Proof.
  intros store type_text row fields columns q Hs Ht Hq. apply Proof_log.utf8_iff. apply (sentence_utf8 nat (fun _ => None) (fun _ => None) (fun _ => false) 0).
  - apply Proof_log.utf8_iff, Hs.
  - intro dt. apply Proof_log.utf8_iff, Ht.
  - assert (G : forall n v, (exists cs, Spec_log.text_of n cs) /\
       (((exists cs, Spec_log.text_of v cs) /\ length v <= 64) \/ Forall (fun c : byte => (c < 128)%N) v) ->
       Model_log.is_utf8 n = true /\ Model_log.is_utf8 (quoted v) = true).
    { intros n v [A B]. split; [apply Proof_log.utf8_iff, A|]. unfold quoted. destruct B as [[B C]|B].
      - rewrite firstn_all2 by exact C. apply Proof_log.utf8_iff, B.
      - apply utf8_ascii. rewrite <- (firstn_skipn 64 v) in B. apply Forall_app in B. exact (proj1 B). }
    destruct q as [n v|n dt v|]; cbn [fit]; [apply G, Hq; auto|apply G, (Hq n v); eauto|exact I].
Qed.
Print Assumptions C106_utf8.

(* But a longer value may be cut within a character, and then the sentence is no text: as C105_text_refuted shows, such a warning is lost
   in Python's log.  Here the value is 63 letters and an e acute accent, in a row that is text. *)
Theorem C106_cut_refuted : exists text m,
  (exists cs, Spec_log.text_of text cs) /\
  toy_says (loud B_skip None treat_as_bad) 0 text = ([m], V_bad, None) /\
  ~ exists cs, Spec_log.text_of m cs.
Proof.
  exists (repeat 120%N 63 ++ [195%N; 169%N] ++ tx ",a,b"). eexists. split; [|split].
  - apply Proof_log.utf8_iff. vm_compute. reflexivity.
  - vm_compute. reflexivity.
  - intro H. apply Proof_log.utf8_iff in H. vm_compute in H. discriminate.
Qed.
Print Assumptions C106_cut_refuted.

Example C106_case_utf8 : exists cs, Spec_log.text_of (sentence s0 ty 5 3 3 (Long (tx "name") [195%N; 169%N])) cs.
Proof. apply Proof_log.utf8_iff. vm_compute. reflexivity. Qed.
