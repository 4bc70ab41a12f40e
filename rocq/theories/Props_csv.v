From Verif Require Import Common Model_csvtok Spec_csvtok Proof_csvtok Model_num Spec_num Model_csv Spec_csv Proof_csv Proof_csv_schema Proof_csv_props.
From Coq Require String Ascii.
Import String.StringSyntax.
Local Open Scope string_scope.
Local Open Scope list_scope.
Local Open Scope nat_scope.

(* For the examples: text, a conversion to numbers that knows only single digits, and parameters. *)
Definition tx (x : String.string) : list byte := map Ascii.N_of_ascii (String.list_ascii_of_string x).
Definition toy (s : list byte) : option nat :=
  match s with [c] => if (N.leb 48 c && N.leb c 57)%bool then Some (N.to_nat c - 48) else None | _ => None end.
Definition no_inf (n : nat) : bool := false.
Definition base (bad : beh) : csv_params :=
  mk_params 44%N 34%N None treat_as_bad [] 10 bad false None false false [] [] [] [] None [] [] true.
Definition with_names (names : list str) (dedupe : bool) (use_names : list str) (use_index : list nat)
    (types : list (str * dtype)) (types_index : list (nat * dtype)) : csv_params :=
  mk_params 44%N 34%N None treat_as_bad [] 10 B_error false None false dedupe names [] use_names use_index None types types_index true.
Definition with_header (single : bool) : csv_params :=
  mk_params 44%N 34%N None treat_as_bad [] 10 B_error false (Some 0) single false [] [] [] [] None [] [] true.
Definition int_col : col := mk_col (D_int i32) false.
Definition str_col : col := mk_col D_string false.
Definition hidden : col := mk_col D_string true.
Definition iv (z : Z) : Model_num.val nat := V_int nat z.
Definition sv (x : String.string) : Model_num.val nat := V_string nat (tx x).

Ltac closed_row := eexists; apply fields_tokenize; vm_compute; reflexivity.
Ltac good := eexists; split; [apply fields_tokenize; vm_compute; reflexivity|
  repeat first [ apply G_nil | apply G_ignored; [reflexivity|]
               | apply G_used; [reflexivity|intros [? ?]; discriminate|vm_compute; reflexivity|] ]].
Ltac bad_by_run := let vs := fresh in let H := fresh in
  split; [closed_row|intros vs H; apply (good_run nat toy toy no_inf 0) in H; vm_compute in H; discriminate].

(* ---------------- C31 ---------------- *)

(* All rows good: element (i, k) of the example is the value of the k-th used field of row i, for every outcome
   of decode, serial or parallel. *)
Theorem C31_cells : forall F atof atod is_inf qnan fzero p cols rows vss size out,
  length rows <= size ->
  Forall2 (good_row F atof atod is_inf qnan p cols) rows vss ->
  decode F atof atod is_inf qnan fzero p cols rows size out ->
  exists T, out = Ok (Some (T, size - length rows)) /\ holds F cols T vss.
Proof. exact cells. Qed.
Print Assumptions C31_cells.

Definition rows3 : list (list byte) := [tx "1,a,x"; tx "22,b,""y,z"""; tx "-3,c,"].
Example C31_case : Forall2 (good_row nat toy toy no_inf 0 (base B_error) [int_col; hidden; str_col]) rows3
    [[iv 1; sv "x"]; [iv 22; sv "y,z"]; [iv (-3); sv ""]] /\
  decode nat toy toy no_inf 0 0 (base B_error) [int_col; hidden; str_col] rows3 4
    (Ok (Some ([[iv 1; iv 22; iv (-3); iv 0]; [sv "x"; sv "y,z"; sv ""; sv ""]], 1))).
Proof. split; [|vm_compute; reflexivity]. repeat constructor; good. Qed.

(* For closed rows, every schedule of the parallel decoder has the outcome of the serial one. *)
Theorem C31_parallel_is_serial : forall F atof atod is_inf qnan fzero p cols rows size r,
  Forall (closed p) rows -> Forall (comparable p) rows -> p_lenient p = true -> is_pad p = false ->
  length rows <= size ->
  decode_prl F atof atod is_inf qnan p cols rows (make_tensors F fzero cols size) r ->
  r = decode_ser F atof atod is_inf qnan p cols rows 0 (make_tensors F fzero cols size).
Proof. exact parallel. Qed.
Print Assumptions C31_parallel_is_serial.

Ltac merge_step := lazymatch goal with
  | |- Merge ((_ :: _) :: ?r) _ => eapply (M_step []); cbn
  | |- Merge ([] :: (_ :: _) :: ?r) _ => eapply (M_step [[]]); cbn
  | |- Merge _ [] => apply M_done; repeat constructor
  end.
(* Two workers; the second one writes first. *)
Example C31_case_parallel :
  decode_prl nat toy toy no_inf 0 (base B_error) [int_col; str_col] [tx "1,x"; tx "2,y"]
    (make_tensors nat 0 [int_col; str_col] 2)
    (Ok (Some (2, [[iv 1; iv 2]; [sv "x"; sv "y"]]))).
Proof.
  refine (prl_done nat toy toy no_inf 0 (base B_error) _ _ _ [[(0, tx "1,x")]; [(1, tx "2,y")]]
    [(0, 1, iv 2); (0, 0, iv 1); (1, 1, sv "y"); (1, 0, sv "x")] _ _ _).
  - reflexivity.
  - repeat constructor.
  - cbn. eapply (M_step [[(0, 0, iv 1); (1, 0, sv "x")]]). eapply (M_step []). eapply (M_step [[(1, 0, sv "x")]]). eapply (M_step []).
    apply M_done. repeat constructor.
Qed.

(* With the columns of an inferred schema: feature k has the type and the values of the column at the k-th
   selected position. *)
Theorem C31_by_schema : forall F atof atod is_inf qnan p r text r' attrs row vs,
  overrides_are_maps p -> fresh r ->
  infer_schema F atod is_inf qnan p r (Some text) = (r', Ok (Some attrs)) ->
  good_row F atof atod is_inf qnan p (columns_of r') row vs ->
  exists fs l, fields_of p row fs /\ selection p (r_names r') l /\
    length fs = length (r_names r') /\ length vs = length attrs /\ length attrs = length l /\
    forall k j a d, nth_error l k = Some j -> nth_error attrs k = Some (a, d) ->
      exists f v, nth_error fs j = Some f /\ nth_error vs k = Some v /\
        parse_cell F atof atod is_inf qnan d (p_nans p) (p_base p) (fst f) = Ok (P_ok v).
Proof. exact by_schema. Qed.
Print Assumptions C31_by_schema.

Example C31_case_schema :
  let p := with_names [tx "a"; tx "b"; tx "c"] false [] [0; 2] [] [] in
  let (r', o) := infer_schema nat toy no_inf 0 p (new_reader p) (Some (tx "1,2,x")) in
  o = Ok (Some [(tx "a", D_int i64); (tx "c", D_string)]) /\
  good_row nat toy toy no_inf 0 p (columns_of r') (tx "7,q,r") [iv 7; sv "r"].
Proof. vm_compute infer_schema. split; [reflexivity|]. good. Qed.

(* ---------------- C32 ---------------- *)

(* error: an exception exactly if some row is bad. *)
Theorem C32_error : forall F atof atod is_inf qnan fzero p cols rows size out,
  p_bad p = B_error -> p_lenient p = true -> length rows <= size ->
  Forall (closed p) rows -> Forall (comparable p) rows ->
  decode F atof atod is_inf qnan fzero p cols rows size out ->
  (out = Throw Invalid_instance <-> Exists (bad_row F atof atod is_inf qnan p cols) rows) /\
  (out <> Throw Invalid_instance ->
     exists T vss, out = Ok (Some (T, size - length rows)) /\
       Forall2 (good_row F atof atod is_inf qnan p cols) rows vss /\ holds F cols T vss).
Proof. exact error_mode. Qed.
Print Assumptions C32_error.

Example C32_case_error : Exists (bad_row nat toy toy no_inf 0 (base B_error) [int_col; str_col]) [tx "1,x"; tx "2"] /\
  decode nat toy toy no_inf 0 0 (base B_error) [int_col; str_col] [tx "1,x"; tx "2"] 2 (Throw Invalid_instance).
Proof. split; [|reflexivity]. apply Exists_cons_tl, Exists_cons_hd. bad_by_run. Qed.

(* skip: the example is dropped exactly if some row is bad. *)
Theorem C32_skip : forall F atof atod is_inf qnan fzero p cols rows size out,
  (p_bad p = B_skip \/ p_bad p = B_skip_warn) -> p_lenient p = true -> length rows <= size ->
  Forall (closed p) rows -> Forall (comparable p) rows ->
  decode F atof atod is_inf qnan fzero p cols rows size out ->
  (out = Ok None <-> Exists (bad_row F atof atod is_inf qnan p cols) rows) /\
  (out <> Ok None ->
     exists T vss, out = Ok (Some (T, size - length rows)) /\
       Forall2 (good_row F atof atod is_inf qnan p cols) rows vss /\ holds F cols T vss).
Proof. exact skip_mode. Qed.
Print Assumptions C32_skip.

Example C32_case_skip : Exists (bad_row nat toy toy no_inf 0 (base B_skip) [int_col; str_col]) [tx "1,x"; tx "q,y"] /\
  decode nat toy toy no_inf 0 0 (base B_skip) [int_col; str_col] [tx "1,x"; tx "q,y"] 2 (Ok None).
Proof. split; [|reflexivity]. apply Exists_cons_tl, Exists_cons_hd. bad_by_run. Qed.

(* pad: the good rows in order, and as many padding rows as are missing. *)
Theorem C32_pad : forall F atof atod is_inf qnan fzero p cols rows size out,
  (p_bad p = B_pad \/ p_bad p = B_pad_warn) -> p_lenient p = true -> length rows <= size ->
  Forall (closed p) rows -> Forall (comparable p) rows ->
  decode F atof atod is_inf qnan fzero p cols rows size out ->
  exists T vss, out = Ok (Some (T, size - length vss)) /\
    Select F atof atod is_inf qnan p cols rows vss /\ holds F cols T vss.
Proof. exact pad_mode. Qed.
Print Assumptions C32_pad.

Example C32_case_pad : Select nat toy toy no_inf 0 (base B_pad) [int_col; str_col] [tx "q,y"; tx "1,x"; tx "2,y,z"; tx "3,z"] [[iv 1; sv "x"]; [iv 3; sv "z"]] /\
  decode nat toy toy no_inf 0 0 (base B_pad) [int_col; str_col] [tx "q,y"; tx "1,x"; tx "2,y,z"; tx "3,z"] 4
    (Ok (Some ([[iv 1; iv 3; iv 0; iv 0]; [sv "x"; sv "z"; sv ""; sv ""]], 2))).
Proof.
  split; [|vm_compute; reflexivity].
  apply S_bad; [bad_by_run|]. apply S_good; [good|]. apply S_bad; [bad_by_run|]. apply S_good; [good|]. apply S_nil.
Qed.

(* A row with an unclosed quote escapes the treatment: an exception also with skip and pad. *)
Theorem C32_unclosed_refuted : forall bad, exists rows,
  (exists r, In r rows /\ Unclosed 44%N 34%N r) /\
  decode nat toy toy no_inf 0 0 (base bad) [int_col; str_col] rows 2 (Throw Corrupt_record).
Proof.
  intro bad. exists [tx "1,x"; tx "2,""y"]. split.
  - exists (tx "2,""y"). split; [right; left; reflexivity|]. apply tokenize_iff_unclosed. vm_compute. reflexivity.
  - destruct bad; vm_compute; reflexivity.
Qed.
Print Assumptions C32_unclosed_refuted.

(* By the letter of C++ (p_lenient = false), a row with too many fields is undefined behaviour while its error
   message is put together. *)
Theorem C32_surplus_field_refuted : exists p rows, p_bad p = B_error /\ p_lenient p = false /\ Forall (closed p) rows /\
  decode nat toy toy no_inf 0 0 p [int_col] rows 1 UB.
Proof.
  exists (mk_params 44%N 34%N None treat_as_bad [] 10 B_error false None false false [] [] [] [] None [] [] false), [tx "1,x"].
  split; [reflexivity|]. split; [reflexivity|]. split; [|vm_compute; reflexivity]. constructor; [closed_row|constructor].
Qed.
Print Assumptions C32_surplus_field_refuted.

(* ---------------- C66 ---------------- *)

(* Without bad rows the padding holds default values. *)
Theorem C66_padding_partial : forall F atof atod is_inf qnan fzero p cols rows vss size out,
  length rows <= size ->
  Forall2 (good_row F atof atod is_inf qnan p cols) rows vss ->
  decode F atof atod is_inf qnan fzero p cols rows size out ->
  exists T, out = Ok (Some (T, size - length rows)) /\
    forall k i c, length rows <= i -> i < size -> nth_error (filter (fun c => negb (c_ignore c)) cols) k = Some c ->
      elem T k i = Some (match c_type c with
                         | D_float16 | D_float32 | D_float64 => V_float F fzero
                         | D_string => V_string F []
                         | _ => V_int F 0
                         end).
Proof. exact padding_default. Qed.
Print Assumptions C66_padding_partial.

Example C66_case : Forall2 (good_row nat toy toy no_inf 0 (base B_pad) [int_col; str_col]) [tx "1,x"] [[iv 1; sv "x"]] /\
  decode nat toy toy no_inf 0 0 (base B_pad) [int_col; str_col] [tx "1,x"] 3
    (Ok (Some ([[iv 1; iv 0; iv 0]; [sv "x"; sv ""; sv ""]], 2))).
Proof. split; [|vm_compute; reflexivity]. repeat constructor; good. Qed.

(* The padding row can hold what was parsed of a bad row. *)
Theorem C66_bad_row_in_padding_refuted : exists rows T,
  Forall (closed (base B_pad)) rows /\
  decode nat toy toy no_inf 0 0 (base B_pad) [int_col; str_col] rows 2 (Ok (Some (T, 1))) /\
  elem T 0 1 = Some (iv 7).
Proof.
  exists [tx "1,x"; tx "7"], [[iv 1; iv 7]; [sv "x"; sv ""]]. split; [repeat constructor; closed_row|]. split; vm_compute; reflexivity.
Qed.
Print Assumptions C66_bad_row_in_padding_refuted.

(* ---------------- C33 ---------------- *)

(* The features are exactly the selected columns, in file order, and only they are decoded. *)
Theorem C33_selected_columns : forall F atod is_inf qnan p r inst r' attrs,
  overrides_are_maps p -> fresh r ->
  infer_schema F atod is_inf qnan p r inst = (r', Ok (Some attrs)) ->
  exists l used, selection p (r_names r') l /\ at_positions (r_names r') l used /\ length attrs = length l /\
    (p_dedupe p = false -> map fst attrs = used) /\
    (forall j, j < length (r_names r') ->
       exists d, nth_error (columns_of r') j = Some (mk_col d (negb (existsb (Nat.eqb j) l)))).
Proof. exact (fun F atod => selection_only F atod atod). Qed.
Print Assumptions C33_selected_columns.

Example C33_case : let p := with_names [tx "a"; tx "b"; tx "c"] false [tx "c"; tx "a"] [] [] [] in
  let (r', o) := infer_schema nat toy no_inf 0 p (new_reader p) (Some (tx "1,2,x")) in
  fresh (new_reader p) /\ overrides_are_maps p /\
  o = Ok (Some [(tx "a", D_int i64); (tx "c", D_string)]) /\ r_ignores r' = [false; true; false].
Proof. vm_compute infer_schema. repeat split; constructor. Qed.

(* A selection of columns that do not exist is accepted. *)
Theorem C33_unknown_selection_refuted : exists p r', fresh (new_reader p) /\
  In (tx "zz") (p_use_names p) /\ In 9 (p_use_index p) /\
  infer_schema nat toy no_inf 0 p (new_reader p) (Some (tx "1,2")) = (r', Ok (Some [(tx "a", D_int i64)])) /\
  ~ In (tx "zz") (r_names r') /\ length (r_names r') < 9.
Proof.
  exists (with_names [tx "a"; tx "b"] false [tx "a"; tx "zz"] [0; 9] [] []). eexists.
  split; [split; reflexivity|]. split; [vm_compute; auto|]. split; [vm_compute; auto|]. split; [vm_compute; reflexivity|].
  split; [|vm_compute; lia]. vm_compute. intros [H|[H|[]]]; discriminate.
Qed.
Print Assumptions C33_unknown_selection_refuted.

(* ---------------- C34 ---------------- *)

(* The type of each feature: its override, or else the type found in the first row (or the default). *)
Theorem C34_types : forall F atod is_inf qnan p r text r' attrs,
  overrides_are_maps p -> fresh r ->
  infer_schema F atod is_inf qnan p r (Some text) = (r', Ok (Some attrs)) ->
  exists fs l, fields_of p text fs /\ selection p (r_names r') l /\ length attrs = length l /\
    forall k j, nth_error l k = Some j ->
      exists f n a plain d, nth_error fs j = Some f /\ nth_error (r_names r') j = Some n /\ nth_error attrs k = Some (a, d) /\
        plain_type F atod is_inf qnan p (fst f) plain /\ column_type p (r_names r') j n plain d.
Proof. exact (fun F atod => types_of F atod atod). Qed.
Print Assumptions C34_types.

Example C34_case : let p := with_names [tx "a"; tx "b"; tx "c"] false [] [] [(tx "b", D_string)] [(0, D_int i8); (1, D_int u8)] in
  overrides_are_maps p /\
  snd (infer_schema nat toy no_inf 0 p (new_reader p) (Some (tx "1,2,3"))) =
  Ok (Some [(tx "a", D_int i8); (tx "b", D_string); (tx "c", D_int i64)]).
Proof. split; [|vm_compute; reflexivity]. split; repeat constructor; cbn; intuition; discriminate. Qed.

(* An override that addresses no column is an error. *)
Theorem C34_unaddressed : forall F atod is_inf qnan p r text fs,
  overrides_are_maps p -> fresh r -> fields_of p text fs ->
  length (names_for p (r_names r) (length fs)) = length fs ->
  ((exists j, In j (map fst (p_types_index p)) /\ length fs <= j) \/
   (exists n, In n (map fst (p_types p)) /\ ~ In n (names_for p (r_names r) (length fs)))) ->
  snd (infer_schema F atod is_inf qnan p r (Some text)) = Throw Invalid_argument.
Proof. exact (fun F atod is_inf qnan => unaddressed F atod atod is_inf qnan qnan). Qed.
Print Assumptions C34_unaddressed.

Example C34_case_unaddressed : let p := with_names [tx "a"; tx "b"] false [] [] [] [(2, D_int i8)] in
  (exists j, In j (map fst (p_types_index p)) /\ 2 <= j) /\
  snd (infer_schema nat toy no_inf 0 p (new_reader p) (Some (tx "1,2"))) = Throw Invalid_argument.
Proof. split; [exists 2; cbn; auto|vm_compute; reflexivity]. Qed.

(* With duplicate names, an override by name changes only the first of the columns it names. *)
Theorem C34_duplicate_names_refuted : exists p, overrides_are_maps p /\ In (tx "a", D_string) (p_types p) /\
  p_names p = [tx "a"; tx "a"] /\
  snd (infer_schema nat toy no_inf 0 p (new_reader p) (Some (tx "1,2"))) = Ok (Some [(tx "a", D_string); (tx "a_1", D_int i64)]).
Proof.
  exists (with_names [tx "a"; tx "a"] true [] [] [(tx "a", D_string)] []).
  split; [split; repeat constructor; cbn; tauto|]. split; [left; reflexivity|]. split; [reflexivity|vm_compute; reflexivity].
Qed.
Print Assumptions C34_duplicate_names_refuted.

(* ---------------- C35 ---------------- *)

(* The features get distinct names; a name that no earlier feature has got is kept, any other is extended. *)
Theorem C35_distinct : forall F atod is_inf qnan p r inst r' attrs,
  overrides_are_maps p -> fresh r -> p_dedupe p = true ->
  infer_schema F atod is_inf qnan p r inst = (r', Ok (Some attrs)) ->
  exists l used, selection p (r_names r') l /\ at_positions (r_names r') l used /\ renamed used (map fst attrs).
Proof. exact (fun F atod => dedupe_names F atod atod). Qed.
Print Assumptions C35_distinct.

Example C35_case : let p := with_names [tx "a"; tx "b"; tx "a"; tx "a_1"] true [] [] [] [] in
  option_map (map fst) (match snd (infer_schema nat toy no_inf 0 p (new_reader p) (Some (tx "1,2,3,4"))) with Ok o => o | _ => None end) =
  Some [tx "a"; tx "b"; tx "a_1"; tx "a_1_1"].
Proof. vm_compute. reflexivity. Qed.

(* Copies of the same name x become x, x_1, x_2, ... *)
Theorem C35_copies : forall F atod is_inf qnan p r text r' attrs x,
  overrides_are_maps p -> fresh r -> p_dedupe p = true ->
  infer_schema F atod is_inf qnan p r (Some text) = (r', Ok (Some attrs)) ->
  (forall n, In n (r_names r') -> n = x) ->
  map fst attrs = map (copy_name x) (seq 0 (length attrs)).
Proof. exact (fun F atod => renamed_copies F atod atod). Qed.
Print Assumptions C35_copies.

Example C35_case_copies : let p := with_names (repeat (tx "x") 12) true [] [] [] [] in
  let (r', o) := infer_schema nat toy no_inf 0 p (new_reader p) (Some (tx "1,2,3,4,5,6,7,8,9,10,11,12")) in
  (forall n, In n (r_names r') -> n = tx "x") /\
  match o with Ok (Some attrs) => nth_error (map fst attrs) 11 = Some (tx "x_11") | _ => False end.
Proof. vm_compute infer_schema. split; [|reflexivity]. cbn [r_names]. intros n H. vm_compute in H. decompose [or] H; subst; try reflexivity; contradiction. Qed.

(* The procedure ends, and with it the inference succeeds: the remaining conditions are about other things. *)
Theorem C35_succeeds : forall F atod is_inf qnan p r text fs,
  overrides_are_maps p -> fresh r -> fields_of p text fs ->
  length (names_for p (r_names r) (length fs)) = length fs ->
  overrides_addressed p (names_for p (r_names r) (length fs)) ->
  (p_dedupe p = true \/ NoDup (names_for p (r_names r) (length fs))) ->
  exists r' attrs, infer_schema F atod is_inf qnan p r (Some text) = (r', Ok (Some attrs)).
Proof. exact (fun F atod => succeeds F atod atod). Qed.
Print Assumptions C35_succeeds.

Example C35_case_succeeds : let p := with_names [tx "a"; tx "a"] true [] [] [] [] in
  fields_of p (tx "1,2") [(tx "1", false); (tx "2", false)] /\
  length (names_for p (p_names p) 2) = 2 /\ overrides_addressed p (names_for p (p_names p) 2).
Proof. split; [apply fields_tokenize; vm_compute; reflexivity|]. split; [reflexivity|]. split; intros ? []. Qed.

(* A name that occurs once is renamed if an earlier rename has taken it. *)
Theorem C35_unique_name_kept_refuted : exists p,
  p_dedupe p = true /\ p_names p = [tx "X"; tx "X"; tx "X_1"] /\
  snd (infer_schema nat toy no_inf 0 p (new_reader p) (Some (tx "1,2,3"))) =
  Ok (Some [(tx "X", D_int i64); (tx "X_1", D_int i64); (tx "X_1_1", D_int i64)]).
Proof. exists (with_names [tx "X"; tx "X"; tx "X_1"] true [] [] [] []). repeat split. Qed.
Print Assumptions C35_unique_name_kept_refuted.

(* The numbers in generated names: decimal digits that denote the number, without leading zeros. *)
Theorem C35_number_text : forall n,
  Forall is_digit (to_string n) /\ value (to_string n) = Z.of_nat n /\
  (n <> 0 -> exists c r, to_string n = c :: r /\ c <> 48%N).
Proof. exact (fun n => conj (proj1 (to_string_text n)) (conj (proj2 (to_string_text n)) (to_string_head n))). Qed.
Print Assumptions C35_number_text.

Example C35_case_number : to_string 107 = tx "107" /\ to_string 0 = tx "0".
Proof. split; reflexivity. Qed.

(* ---------------- C36 ---------------- *)

(* Every store has a complete header row: in every epoch, after any history (epochs left early, schema
   inference at any time), the rows to read are those without the headers. *)
Theorem C36_headers_removed : forall F atod is_inf qnan p stores,
  (forall h, p_header p = Some h -> Forall (proper p h) stores) ->
  forall r j out, session F atod is_inf qnan p stores r j out ->
  out = map ok_rows (without_headers p 0 (firstn j stores)).
Proof. exact (fun F atod is_inf qnan p stores Hp r j out S => proj1 (session_inv F atod is_inf qnan p stores Hp r j out S)). Qed.
Print Assumptions C36_headers_removed.

Theorem C36_stores_open : forall F atod is_inf qnan p stores,
  (forall h, p_header p = Some h -> Forall (proper p h) stores) ->
  forall r j out texts, session F atod is_inf qnan p stores r j out -> nth_error stores j = Some texts ->
  exists r' rows, open_store p r (ok_rows texts) = (r', Ok rows).
Proof. exact session_opens. Qed.
Print Assumptions C36_stores_open.

(* The names are the fields of the first store's header, from then on. *)
Theorem C36_names : forall F atod is_inf qnan p stores h texts rest (header : str) fs,
  p_header p = Some h -> p_names p = [] -> stores = texts :: rest -> Forall (proper p h) stores ->
  nth_error texts h = Some header -> fields_of p header fs ->
  forall r j out, session F atod is_inf qnan p stores r j out ->
  (j = 0 /\ r_names r = []) \/ r_names r = map (fun f => p_prefix p ++ fst f) fs.
Proof. exact (fun F atod => session_names F atod atod). Qed.
Print Assumptions C36_names.

Definition two_stores : list (list str) := [[tx "a,b"; tx "1,2"]; [tx "c,d"; tx "3,4"]].
(* The first epoch is left after the first store; the second one is complete. *)
Example C36_case : Forall (proper (with_header true) 0) two_stores /\
  exists r, session nat toy no_inf 0 (with_header true) two_stores r 2 [[Ok (tx "1,2")]; [Ok (tx "c,d"); Ok (tx "3,4")]] /\
    r_names r = [tx "a"; tx "b"].
Proof.
  split. { repeat constructor; eexists _, _; (split; [reflexivity|apply fields_tokenize; vm_compute; reflexivity]). }
  assert (S1 : session nat toy no_inf 0 (with_header true) two_stores (mk_reader [tx "a"; tx "b"] [] [] false) 1 [[Ok (tx "1,2")]]).
  { eapply (Ss_open _ _ _ _ _ _ _ 0 []); [apply Ss_new|reflexivity|vm_compute; reflexivity]. }
  pose proof (Ss_schema _ _ _ _ _ _ _ _ _ (Some (tx "1,2")) S1 (or_intror Nat.lt_0_1)) as S2.
  apply Ss_reset in S2.
  eexists. split.
  - eapply (Ss_open _ _ _ _ _ _ _ 1 [_]).
    + eapply (Ss_open _ _ _ _ _ _ _ 0 []); [exact S2|reflexivity|vm_compute; reflexivity].
    + reflexivity.
    + vm_compute. reflexivity.
  - vm_compute. reflexivity.
Qed.

(* If the first store is empty, the second epoch delivers the header as data. *)
Theorem C36_empty_first_store_refuted : exists p stores r1 out1 r2 out2,
  p_header p = Some 0 /\ p_single p = true /\
  session nat toy no_inf 0 p stores r1 (length stores) out1 /\ out1 = [[]; [Ok (tx "1,2")]] /\
  session nat toy no_inf 0 p stores r2 (length stores) out2 /\ out2 = [[]; [Ok (tx "a,b"); Ok (tx "1,2")]].
Proof.
  exists (with_header true), [[]; [tx "a,b"; tx "1,2"]]. do 4 eexists. split; [reflexivity|]. split; [reflexivity|].
  assert (S1 : session nat toy no_inf 0 (with_header true) [[]; [tx "a,b"; tx "1,2"]]
    (mk_reader [tx "a"; tx "b"] [] [] false) 2 [[]; [Ok (tx "1,2")]]).
  { eapply (Ss_open _ _ _ _ _ _ _ 1 [_]).
    - eapply (Ss_open _ _ _ _ _ _ _ 0 []); [apply Ss_new|reflexivity|vm_compute; reflexivity].
    - reflexivity.
    - vm_compute. reflexivity. }
  split; [exact S1|]. split; [reflexivity|]. split.
  - eapply (Ss_open _ _ _ _ _ _ _ 1 [_]).
    + eapply (Ss_open _ _ _ _ _ _ _ 0 []); [eapply Ss_reset; exact S1|reflexivity|vm_compute; reflexivity].
    + reflexivity.
    + vm_compute. reflexivity.
  - vm_compute. reflexivity.
Qed.
Print Assumptions C36_empty_first_store_refuted.

(* ---------------- C37 ---------------- *)

(* A success at the first attempt describes the columns of the data. *)
Theorem C37_describes : forall F atod is_inf qnan p r text r' attrs,
  overrides_are_maps p -> fresh r ->
  infer_schema F atod is_inf qnan p r (Some text) = (r', Ok (Some attrs)) ->
  exists fs, fields_of p text fs /\ length (r_names r') = length fs /\ length (columns_of r') = length fs /\
    r_names r' = names_for p (r_names r) (length fs) /\ NoDup (map fst attrs).
Proof. exact (fun F atod => described F atod atod). Qed.
Print Assumptions C37_describes.

Example C37_case : infer_schema nat toy no_inf 0 (base B_error) (new_reader (base B_error)) (Some (tx "1,x")) =
  (mk_reader [tx "1"; tx "2"] [D_int i64; D_string] [false; false] true, Ok (Some [(tx "1", D_int i64); (tx "2", D_string)])).
Proof. vm_compute. reflexivity. Qed.

(* The errors of a first attempt. *)
Theorem C37_mismatch_fails : forall F atod is_inf qnan p r text fs,
  overrides_are_maps p -> fresh r -> fields_of p text fs ->
  length (names_for p (r_names r) (length fs)) <> length fs ->
  snd (infer_schema F atod is_inf qnan p r (Some text)) = Throw Schema_err.
Proof. exact (fun F atod is_inf qnan p r text fs H1 H2 H3 => proj1 (errors_of_mismatch F atod atod is_inf qnan p r text fs H1 H2 H3)). Qed.
Print Assumptions C37_mismatch_fails.

Example C37_case_mismatch : let p := with_names [tx "a"; tx "b"; tx "c"] false [] [] [] [] in
  fields_of p (tx "1,2") [(tx "1", false); (tx "2", false)] /\
  length (names_for p (p_names p) 2) <> 2 /\
  snd (infer_schema nat toy no_inf 0 p (new_reader p) (Some (tx "1,2"))) = Throw Schema_err.
Proof. split; [apply fields_tokenize; vm_compute; reflexivity|]. split; [discriminate|vm_compute; reflexivity]. Qed.

(* A first row with an unclosed quote fails in every attempt. *)
Theorem C37_unclosed_fails : forall F atod is_inf qnan p r text,
  Unclosed (p_delim p) (p_quote p) text -> snd (infer_schema F atod is_inf qnan p r (Some text)) = Throw Schema_err.
Proof. exact unclosed_fails. Qed.
Print Assumptions C37_unclosed_fails.

Example C37_case_unclosed : Unclosed 44%N 34%N (tx "1,""x").
Proof. apply tokenize_iff_unclosed. vm_compute. reflexivity. Qed.

(* Four names and a first row of two fields: the second attempt succeeds, with four columns. *)
Theorem C37_retry_refuted : exists p text attrs,
  let (r1, o1) := infer_schema nat toy no_inf 0 p (new_reader p) (Some text) in
  let (r2, o2) := infer_schema nat toy no_inf 0 p r1 (Some text) in
  fields_of p text [(tx "1", false); (tx "x", false)] /\
  o1 = Throw Schema_err /\ o2 = Ok (Some attrs) /\ length attrs = 4.
Proof.
  exists (with_names [tx "a"; tx "b"; tx "c"; tx "d"] false [] [] [] []), (tx "1,x").
  exists [(tx "a", D_int i64); (tx "b", D_string); (tx "c", D_int i64); (tx "d", D_string)]. vm_compute infer_schema.
  split; [apply fields_tokenize; vm_compute; reflexivity|]. repeat split.
Qed.
Print Assumptions C37_retry_refuted.

(* Without an instance, the retry after a wrong override dereferences a null pointer. *)
Theorem C37_retry_without_rows_refuted : exists p,
  let (r1, o1) := infer_schema nat toy no_inf 0 p (new_reader p) None in
  let (r2, o2) := infer_schema nat toy no_inf 0 p r1 None in
  o1 = Throw Invalid_argument /\ o2 = UB.
Proof. exists (with_names [tx "a"] false [] [] [(tx "z", D_string)] []). split; reflexivity. Qed.
Print Assumptions C37_retry_without_rows_refuted.

(* A header with an unclosed quote: the retry takes the names that were read before the error, and goes on. *)
Theorem C37_header_retry_refuted : exists p texts,
  let (r1, o1) := open_store p (new_reader p) (ok_rows texts) in
  let (r2, o2) := open_store p r1 (ok_rows texts) in
  (exists header, nth_error texts 0 = Some header /\ Unclosed 44%N 34%N header) /\
  o1 = Throw Schema_err /\ o2 = Ok [Ok (tx "1")] /\
  snd (infer_schema nat toy no_inf 0 p r2 (Some (tx "1"))) = Ok (Some [(tx "a", D_int i64)]).
Proof.
  exists (with_header false), [tx "a,""b"; tx "1"]. vm_compute open_store. split; [|vm_compute; repeat split].
  exists (tx "a,""b"). split; [reflexivity|]. apply tokenize_iff_unclosed. vm_compute. reflexivity.
Qed.
Print Assumptions C37_header_retry_refuted.
