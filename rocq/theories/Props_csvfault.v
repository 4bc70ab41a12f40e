(* CSV files with rows that cannot be read: C78. *)
From Verif Require Import Common Model_rec Model_inst Spec_inst Model_text Model_csv Model_csvfile Proof_text Spec_fault Props_text Props_csv Props_csvfile.

Lemma skip_rows_suffix n : forall rows rest, skip_rows n rows = Ok rest -> exists pre, rows = map Ok pre ++ rest.
Proof.
  induction n as [|n IH]; intros rows rest E; [injection E as ->; now exists []|]. destruct rows as [|[t|x| |] rows]; cbn in E; try discriminate.
  - injection E as <-. now exists [].
  - destruct (IH _ _ E) as [pre ->]. now exists (t :: pre).
Qed.
Lemma open_suffix p r rows r' rest : open_store p r rows = (r', Ok rest) -> exists pre, rows = map Ok pre ++ rest.
Proof.
  unfold open_store. destruct (p_header p) as [h|]; [|intros E; injection E as _ ->; now exists []].
  destruct (r_names r) as [|n0 ns].
  - unfold read_names_from_header. destruct (skip_rows h rows) as [[|[text|x| |] rows1]|x| |] eqn:Es; try (destruct x; discriminate); try discriminate.
    + intros E. injection E as _ <-. exact (skip_rows_suffix _ _ _ Es).
    + destruct (skip_rows_suffix _ _ _ Es) as [pre ->]. destruct (tok_run _ _ _) as [fs o]. destruct o as [u|x| |]; try (destruct x; discriminate); try discriminate.
      intros E. injection E as _ <-. exists (pre ++ [text]). rewrite map_app, <- app_assoc. reflexivity.
  - destruct (_ || _)%bool; [|intros E; injection E as _ <-; now exists []]. unfold discard_header.
    destruct (skip_rows h rows) as [[|[text|x| |] rows1]|x| |] eqn:Es; cbn [bind]; try discriminate; intros E; injection E as _ <-.
    + exact (skip_rows_suffix _ _ _ Es).
    + destruct (skip_rows_suffix _ _ _ Es) as [pre ->]. exists (pre ++ [text]). rewrite map_app, <- app_assoc. reflexivity.
Qed.
Lemma ok_prefix pre : forall ts x rest, map Ok ts ++ [Throw x] = map Ok pre ++ rest -> exists ts', ts = pre ++ ts' /\ rest = map Ok ts' ++ [Throw x : row].
Proof.
  induction pre as [|t pre IH]; intros ts x rest E; [exists ts; split; [reflexivity|symmetry; exact E]|]. destruct ts as [|t' ts]; [discriminate E|].
  cbn in E. injection E as -> E. destruct (IH _ _ _ E) as (ts' & -> & ->). now exists ts'.
Qed.
Lemma to_records_fault ts x : to_records (map Ok ts ++ [Throw x]) = (map (fun l => mk_rec l kComplete) ts, Throw x).
Proof. induction ts as [|t ts IH]; [reflexivity|]. cbn [map app to_records]. now rewrite IH. Qed.

(* If the record reader of a CSV file reports an error after the records rs, then so does the store, wherever it is opened: its instances are the
   rows before the error, without those that were taken for the header. *)
Theorem C78_csv_store : forall rp f rs x cp r r' rows id,
  records (csv_decode rp) (tf_in_memory f) (tf_reads f) (tf_chunk f) (tf_text f) = (rs, Throw x) ->
  open_store cp r (csv_rows rp f) = (r', Ok rows) ->
  exists k, failing (csv_store id rows) (Spec_inst.numbered id (skipn k (map payload rs))) x.
Proof.
  intros rp f rs x cp r r' rows id E O. unfold csv_rows, rows_of in O. rewrite E in O. rewrite <- map_map in O. cbn [cast_err] in O.
  destruct (open_suffix _ _ _ _ _ O) as [pre Ep]. destruct (ok_prefix _ _ _ _ Ep) as (ts & Et & ->). exists (length pre). rewrite Et, skipn_app, skipn_all, Nat.sub_diag. cbn [app skipn].
  apply (f_read (csv_store id (map Ok ts ++ [Throw x])) (map (fun l => mk_rec l kComplete) ts) ts x); [|apply groups_complete].
  unfold csv_store. cbn [sopen]. now rewrite to_records_fault.
Qed.
Print Assumptions C78_csv_store.

(* A header that cannot be read is reported when the file is opened; nothing of the file is delivered as data. *)
Theorem C78_csv_header : forall rp f rs x cp r h,
  records (csv_decode rp) (tf_in_memory f) (tf_reads f) (tf_chunk f) (tf_text f) = (rs, Throw x) ->
  p_header cp = Some h -> r_names r = [] \/ r_should_read_header r = true \/ p_single cp = false -> length rs <= h ->
  exists y, snd (open_store cp r (csv_rows rp f)) = Throw y /\ (y = x \/ x = Corrupt_record /\ y = Schema_err).
Proof.
  intros rp f rs x cp r h E Hh K L. unfold csv_rows, rows_of. rewrite E. rewrite <- map_map. cbn [cast_err].
  assert (S : forall ts n, length ts <= n -> skip_rows n (map Ok ts ++ [Throw x]) = Throw x \/ skip_rows n (map Ok ts ++ [Throw x]) = Ok [Throw x : row]).
  { induction ts as [|t ts IH]; intros n Ln; [destruct n; cbn; auto|]. destruct n as [|n]; cbn in Ln; [lia|]. cbn [map app skip_rows]. apply IH. lia. }
  match goal with |- context[open_store _ _ ?rows] => assert (S' : skip_rows h rows = Throw x \/ skip_rows h rows = Ok [Throw x : row]) by (apply S; rewrite map_length; exact L); clear S; generalize dependent rows end.
  intros rows S. unfold open_store. rewrite Hh. destruct (r_names r) as [|n0 ns].
  - unfold read_names_from_header. destruct S as [-> | ->]; [exists x; cbn; auto|]. destruct x; cbn; eexists; (split; [reflexivity|]); auto.
  - replace (r_should_read_header r || negb (p_single cp))%bool with true.
    2:{ destruct K as [K|[K|K]]; [discriminate|rewrite K; reflexivity|rewrite K; now rewrite orb_true_r]. }
    unfold discard_header. destruct S as [-> | ->]; cbn; exists x; auto.
Qed.
Print Assumptions C78_csv_header.

From Coq Require String Ascii.
Import String.StringSyntax.
Local Open Scope string_scope.
Local Open Scope list_scope.

(* The last row has a quote that is never closed; the row before it is longer than the limit. *)
Definition open_quote : text_file := mk_text_file 7 (tx "a,b" ++ [LF] ++ tx "1,x" ++ [LF] ++ tx """2,y" ++ [LF])%N false [1; 2] 3%N.
Definition rp_quoted : csv_rparams := mk_csv_rparams 44%N 34%N None true true None.
Definition rp_short : csv_rparams := mk_csv_rparams 44%N 34%N None false true (Some 4).
Example C78_csv_case :
  records (csv_decode rp_quoted) false [1; 2] 3 (tf_text open_quote) = ([mk_rec (tx "a,b") 0; mk_rec (tx "1,x") 0], Throw Corrupt_record) /\
  (exists r', open_store (the_cp B_error) (new_reader (the_cp B_error)) (csv_rows rp_quoted open_quote) = (r', Ok [Ok (tx "1,x"); Throw Corrupt_record])) /\
  failing (csv_store 7 [Ok (tx "1,x"); Throw Corrupt_record]) [ins 7 0 (tx "1,x")] Corrupt_record /\
  records (csv_decode rp_short) false [1; 2] 3 (tf_text open_quote) = ([mk_rec (tx "a,b") 0; mk_rec (tx "1,x") 0], Throw Record_too_large).
Proof.
  split; [vm_compute; reflexivity|]. split; [eexists; vm_compute; reflexivity|]. split; [|vm_compute; reflexivity].
  apply (f_read (csv_store 7 [Ok (tx "1,x"); Throw Corrupt_record]) [mk_rec (tx "1,x") kComplete] [tx "1,x"]); [reflexivity|]. constructor; [reflexivity|constructor].
Qed.
