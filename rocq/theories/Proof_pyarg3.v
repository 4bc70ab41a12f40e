(* Proofs for area pyarg: assignments. *)
From Coq Require Import String List NArith ZArith Bool Lia.
From Verif Require Import Common Model_pyarg Spec_pyarg Proof_pyarg Proof_pyarg2.
Import ListNotations.
Local Open Scope Z_scope.
Local Open Scope list_scope.
Local Open Scope string_scope.

Lemma keys {A : Type} (l : list (string * A)) name x : In (name, x) l -> In name (map fst l).
Proof. intro I. apply in_map_iff. exists (name, x). auto. Qed.

Lemma with_true (A B C : Prop) : A -> (C <-> B) -> (C <-> A /\ B).
Proof. tauto. Qed.

Section Assign.
  Context {F : Type} (narrow : N -> F) (float_of : Z -> option F).
  Notation c_float := (c_float F narrow float_of).
  Notation stands := (stands narrow float_of).
  Notation assigned := (assigned narrow float_of).

  (* Parameters are equal if all of them are. *)
  Lemma reader_ext (p q : reader_params F) : (forall name get, In (name, get) reader_fields -> get p = get q) -> p = q.
  Proof.
    intro H. destruct p, q.
    Ltac fact H name := let E := fresh in pose proof (H name _ ltac:(member)) as E; cbn in E; injection E as ->.
    fact H "dataset"; fact H "batch_size"; fact H "num_prefetched_examples"; fact H "num_parallel_reads"; fact H "last_example_handling";
    fact H "bad_example_handling"; fact H "warn_bad_instances"; fact H "num_instances_to_skip"; fact H "num_instances_to_read"; fact H "shard_index";
    fact H "num_shards"; fact H "sample_ratio"; fact H "shuffle_instances"; fact H "shuffle_window"; fact H "shuffle_seed"; fact H "reshuffle_each_epoch".
    reflexivity.
  Qed.
  Lemma csv_ext (p q : csv_params) : (forall name get, In (name, get) (@csv_fields F) -> get p = get q) -> p = q.
  Proof.
    intro H. destruct p, q.
    fact H "column_names"; fact H "name_prefix"; fact H "use_columns"; fact H "use_columns_by_index"; fact H "default_data_type"; fact H "column_types";
    fact H "column_types_by_index"; fact H "header_row_index"; fact H "has_single_header"; fact H "dedupe_column_names"; fact H "delimiter"; fact H "quote_char";
    fact H "comment_char"; fact H "allow_quoted_new_lines"; fact H "skip_blank_lines"; fact H "encoding"; fact H "max_field_length";
    fact H "max_field_length_handling"; fact H "max_line_length"; fact H "parser_options". reflexivity.
  Qed.
  Lemma image_ext (p q : image_params) : (forall name get, In (name, get) (@image_fields F) -> get p = get q) -> p = q.
  Proof. intro H. destruct p, q. fact H "image_frame"; fact H "resize"; fact H "image_dimensions"; fact H "to_rgb". reflexivity. Qed.
  Lemma parser_ext (p q : parser) : (forall name get, In (name, get) (@parser_fields F) -> get p = get q) -> p = q.
  Proof. intro H. destruct p, q. fact H "nan_values"; fact H "number_base". reflexivity. Qed.

  (* A Python value stands for one value of each kind. *)
  Lemma stands_fun : forall v x, stands v x -> forall y, stands v y ->
    match x, y with
    | V_stores a, V_stores b => a = b | V_size a, V_size b => a = b | V_osize a, V_osize b => a = b | V_last a, V_last b => a = b
    | V_bad a, V_bad b => a = b | V_bool a, V_bool b => a = b | V_oratio a, V_oratio b => a = b | V_strs a, V_strs b => a = b
    | V_str a, V_str b => a = b | V_strset a, V_strset b => a = b | V_sizeset a, V_sizeset b => a = b | V_otype a, V_otype b => a = b
    | V_types a, V_types b => a = b | V_itypes a, V_itypes b => a = b | V_char a, V_char b => a = b | V_ochar a, V_ochar b => a = b
    | V_ostr a, V_ostr b => a = b | V_mfl a, V_mfl b => a = b | V_parser a, V_parser b => a = b | V_frame a, V_frame b => a = b
    | V_sizes a, V_sizes b => a = b | V_int a, V_int b => a = b | V_comp a, V_comp b => a = b | _, _ => True
    end.
  Proof.
    intros v x Sx y Sy. destruct x, y; try exact I;
      first [apply m_stores in Sx, Sy|apply m_size in Sx, Sy|apply m_osize in Sx, Sy|apply m_last in Sx, Sy|apply m_bad in Sx, Sy|apply m_bool in Sx, Sy
        |apply m_oratio in Sx, Sy|apply m_strs in Sx, Sy|apply m_str in Sx, Sy|apply m_strset in Sx, Sy|apply m_sizeset in Sx, Sy|apply m_otype in Sx, Sy
        |apply m_types in Sx, Sy|apply m_itypes in Sx, Sy|apply m_char in Sx, Sy|apply m_ochar in Sx, Sy|apply m_ostr in Sx, Sy|apply m_mfl in Sx, Sy
        |apply m_oparser in Sx, Sy|apply m_frame in Sx, Sy|apply m_sizes in Sx, Sy|apply m_int in Sx, Sy|apply m_comp in Sx, Sy]; congruence.
  Qed.

  (* One branch of an assignment. *)
  Lemma branch {A P} (fields : list (string * (P -> fval F))) (cast : pv -> option A) (V : A -> fval F) (put : A -> P) (get : P -> fval F) name v p p' :
    (forall p q : P, (forall name get, In (name, get) fields -> get p = get q) -> p = q) ->
    NoDup (map fst fields) -> In (name, get) fields -> (forall x, cast v = Some x <-> stands v (V x)) ->
    (forall x, get (put x) = V x) -> (forall other g x, In (other, g) fields -> other <> name -> g (put x) = g p) ->
    (exists x, get p' = V x) ->
    ((let? x := cast v in Some (put x)) = Some p' <-> assigned fields name v p p').
  Proof.
    intros Ext Nd I M Gp Op (x0 & E0).
    assert (One : forall g, In (name, g) fields -> g = get).
    { clear - Nd I. revert Nd I. induction fields as [|(n, h) l IH]; intros Nd I g J; [destruct J|]. inversion Nd as [|? ? Ni Nd']; subst. cbn in Ni.
      destruct I as [I|I], J as [J|J]; [congruence|inversion I; subst; exfalso; apply Ni; apply (keys l name g J)|inversion J; subst; exfalso; apply Ni; apply (keys l name get I)|auto]. }
    rewrite obind_some. split.
    - intros (x & E & H). apply some_inj in H. subst p'. split; [exists get; rewrite Gp; split; auto; apply M; auto|]. intros other g J Ne. exact (Op other g x J Ne).
    - intros ((g & J & S) & O). rewrite (One g J) in S. rewrite E0 in S. apply M in S. exists x0. split; auto. f_equal. apply Ext.
      intros other h K. destruct (string_dec other name) as [->|Ne]; [rewrite (One h K), Gp, E0; reflexivity|]. rewrite (Op other h x0 K Ne). symmetry. exact (O other h K Ne).
  Qed.

  Lemma reader_nd : NoDup (map fst (@reader_fields F)).
  Proof. cbn; distinct. Qed.
  Lemma csv_nd : NoDup (map fst (@csv_fields F)).
  Proof. cbn; distinct. Qed.
  Lemma image_nd : NoDup (map fst (@image_fields F)).
  Proof. cbn; distinct. Qed.
  Lemma parser_nd : NoDup (map fst (@parser_fields F)).
  Proof. cbn; distinct. Qed.

  Ltac go ext nd M V name0 get0 :=
    refine (branch _ _ V _ get0 name0 _ _ _ ext nd _ (M F narrow float_of _) _ _ _);
      [member|reflexivity
      |let other := fresh in let g := fresh in let x := fresh in let J := fresh in let Ne := fresh in
       intros other g x J Ne; each J; first [reflexivity | elim Ne; reflexivity]
      |eexists; reflexivity].

  Lemma reader_assigned name v (p p' : reader_params F) : (assign_reader F narrow float_of name v p = Some p' <-> name <> "warn_bad_instances" /\ assigned reader_fields name v p p').
  Proof.
    destruct p. unfold assign_reader.
    destruct (String.eqb_spec name "dataset") as [E|N0].
    { subst. apply with_true; [discriminate|]. go reader_ext reader_nd @m_stores (@V_stores F) "dataset" (fun p => @V_stores F (Model_pyarg.dataset F p)). }
    destruct (String.eqb_spec name "batch_size") as [E|N1].
    { subst. apply with_true; [discriminate|]. go reader_ext reader_nd @m_size (@V_size F) "batch_size" (fun p => @V_size F (Model_pyarg.batch_size F p)). }
    destruct (String.eqb_spec name "num_prefetched_examples") as [E|N2].
    { subst. apply with_true; [discriminate|]. go reader_ext reader_nd @m_size (@V_size F) "num_prefetched_examples" (fun p => @V_size F (Model_pyarg.num_prefetched_examples F p)). }
    destruct (String.eqb_spec name "num_parallel_reads") as [E|N3].
    { subst. apply with_true; [discriminate|]. go reader_ext reader_nd @m_size (@V_size F) "num_parallel_reads" (fun p => @V_size F (Model_pyarg.num_parallel_reads F p)). }
    destruct (String.eqb_spec name "last_example_handling") as [E|N4].
    { subst. apply with_true; [discriminate|]. go reader_ext reader_nd @m_last (@V_last F) "last_example_handling" (fun p => @V_last F (Model_pyarg.last_example_handling F p)). }
    destruct (String.eqb_spec name "bad_example_handling") as [E|N5].
    { subst. apply with_true; [discriminate|]. go reader_ext reader_nd @m_bad (@V_bad F) "bad_example_handling" (fun p => @V_bad F (Model_pyarg.bad_example_handling F p)). }
    destruct (String.eqb_spec name "num_instances_to_skip") as [E|N6].
    { subst. apply with_true; [discriminate|]. go reader_ext reader_nd @m_size (@V_size F) "num_instances_to_skip" (fun p => @V_size F (Model_pyarg.num_instances_to_skip F p)). }
    destruct (String.eqb_spec name "num_instances_to_read") as [E|N7].
    { subst. apply with_true; [discriminate|]. go reader_ext reader_nd @m_osize (@V_osize F) "num_instances_to_read" (fun p => @V_osize F (Model_pyarg.num_instances_to_read F p)). }
    destruct (String.eqb_spec name "shard_index") as [E|N8].
    { subst. apply with_true; [discriminate|]. go reader_ext reader_nd @m_size (@V_size F) "shard_index" (fun p => @V_size F (Model_pyarg.shard_index F p)). }
    destruct (String.eqb_spec name "num_shards") as [E|N9].
    { subst. apply with_true; [discriminate|]. go reader_ext reader_nd @m_size (@V_size F) "num_shards" (fun p => @V_size F (Model_pyarg.num_shards F p)). }
    destruct (String.eqb_spec name "sample_ratio") as [E|N10].
    { subst. apply with_true; [discriminate|]. go reader_ext reader_nd @m_oratio (@V_oratio F) "sample_ratio" (fun p => @V_oratio F (Model_pyarg.sample_ratio F p)). }
    destruct (String.eqb_spec name "shuffle_instances") as [E|N11].
    { subst. apply with_true; [discriminate|]. go reader_ext reader_nd @m_bool (@V_bool F) "shuffle_instances" (fun p => @V_bool F (Model_pyarg.shuffle_instances F p)). }
    destruct (String.eqb_spec name "shuffle_window") as [E|N12].
    { subst. apply with_true; [discriminate|]. go reader_ext reader_nd @m_size (@V_size F) "shuffle_window" (fun p => @V_size F (Model_pyarg.shuffle_window F p)). }
    destruct (String.eqb_spec name "shuffle_seed") as [E|N13].
    { subst. apply with_true; [discriminate|]. go reader_ext reader_nd @m_osize (@V_osize F) "shuffle_seed" (fun p => @V_osize F (Model_pyarg.shuffle_seed F p)). }
    destruct (String.eqb_spec name "reshuffle_each_epoch") as [E|N14].
    { subst. apply with_true; [discriminate|]. go reader_ext reader_nd @m_bool (@V_bool F) "reshuffle_each_epoch" (fun p => @V_bool F (Model_pyarg.reshuffle_each_epoch F p)). }
    split; [discriminate|]. intros (Nw & (get & I & _) & _). exfalso. each I; congruence.
  Qed.

  Lemma csv_assigned name v (p p' : csv_params) : name <> "encoding" /\ ~ (name = "parser_options" /\ v = PNone) -> (assign_csv name v p = Some p' <-> assigned csv_fields name v p p').
  Proof.
    intro Ex.     destruct p. unfold assign_csv.
    destruct (String.eqb_spec name "column_names") as [E|N0].
    { subst. go csv_ext csv_nd @m_strs (@V_strs F) "column_names" (fun p => @V_strs F (Model_pyarg.column_names p)). }
    destruct (String.eqb_spec name "name_prefix") as [E|N1].
    { subst. go csv_ext csv_nd @m_str (@V_str F) "name_prefix" (fun p => @V_str F (Model_pyarg.name_prefix p)). }
    destruct (String.eqb_spec name "use_columns") as [E|N2].
    { subst. go csv_ext csv_nd @m_strset (@V_strset F) "use_columns" (fun p => @V_strset F (Model_pyarg.use_columns p)). }
    destruct (String.eqb_spec name "use_columns_by_index") as [E|N3].
    { subst. go csv_ext csv_nd @m_sizeset (@V_sizeset F) "use_columns_by_index" (fun p => @V_sizeset F (Model_pyarg.use_columns_by_index p)). }
    destruct (String.eqb_spec name "default_data_type") as [E|N4].
    { subst. go csv_ext csv_nd @m_otype (@V_otype F) "default_data_type" (fun p => @V_otype F (Model_pyarg.default_data_type p)). }
    destruct (String.eqb_spec name "column_types") as [E|N5].
    { subst. go csv_ext csv_nd @m_types (@V_types F) "column_types" (fun p => @V_types F (Model_pyarg.column_types p)). }
    destruct (String.eqb_spec name "column_types_by_index") as [E|N6].
    { subst. go csv_ext csv_nd @m_itypes (@V_itypes F) "column_types_by_index" (fun p => @V_itypes F (Model_pyarg.column_types_by_index p)). }
    destruct (String.eqb_spec name "header_row_index") as [E|N7].
    { subst. go csv_ext csv_nd @m_osize (@V_osize F) "header_row_index" (fun p => @V_osize F (Model_pyarg.header_row_index p)). }
    destruct (String.eqb_spec name "has_single_header") as [E|N8].
    { subst. go csv_ext csv_nd @m_bool (@V_bool F) "has_single_header" (fun p => @V_bool F (Model_pyarg.has_single_header p)). }
    destruct (String.eqb_spec name "dedupe_column_names") as [E|N9].
    { subst. go csv_ext csv_nd @m_bool (@V_bool F) "dedupe_column_names" (fun p => @V_bool F (Model_pyarg.dedupe_column_names p)). }
    destruct (String.eqb_spec name "delimiter") as [E|N10].
    { subst. go csv_ext csv_nd @m_char (@V_char F) "delimiter" (fun p => @V_char F (Model_pyarg.delimiter p)). }
    destruct (String.eqb_spec name "quote_char") as [E|N11].
    { subst. go csv_ext csv_nd @m_char (@V_char F) "quote_char" (fun p => @V_char F (Model_pyarg.quote_char p)). }
    destruct (String.eqb_spec name "comment_char") as [E|N12].
    { subst. go csv_ext csv_nd @m_ochar (@V_ochar F) "comment_char" (fun p => @V_ochar F (Model_pyarg.comment_char p)). }
    destruct (String.eqb_spec name "allow_quoted_new_lines") as [E|N13].
    { subst. go csv_ext csv_nd @m_bool (@V_bool F) "allow_quoted_new_lines" (fun p => @V_bool F (Model_pyarg.allow_quoted_new_lines p)). }
    destruct (String.eqb_spec name "skip_blank_lines") as [E|N14].
    { subst. go csv_ext csv_nd @m_bool (@V_bool F) "skip_blank_lines" (fun p => @V_bool F (Model_pyarg.skip_blank_lines p)). }
    destruct (String.eqb_spec name "encoding") as [E|N15]; [exfalso; apply (proj1 Ex); exact E|].
    destruct (String.eqb_spec name "max_field_length") as [E|N16].
    { subst. go csv_ext csv_nd @m_osize (@V_osize F) "max_field_length" (fun p => @V_osize F (Model_pyarg.max_field_length p)). }
    destruct (String.eqb_spec name "max_field_length_handling") as [E|N17].
    { subst. go csv_ext csv_nd @m_mfl (@V_mfl F) "max_field_length_handling" (fun p => @V_mfl F (Model_pyarg.max_field_length_handling p)). }
    destruct (String.eqb_spec name "max_line_length") as [E|N18].
    { subst. go csv_ext csv_nd @m_osize (@V_osize F) "max_line_length" (fun p => @V_osize F (Model_pyarg.max_line_length p)). }
    destruct (String.eqb_spec name "parser_options") as [E|N19].
    { subst. assert (c_parser v = c_oparser v) as -> by (destruct v; try reflexivity; exfalso; apply (proj2 Ex); split; reflexivity). go csv_ext csv_nd @m_oparser (@V_parser F) "parser_options" (fun p => @V_parser F (Model_pyarg.parser_options p)). }
    split; [discriminate|]. intros ((get & I & _) & _). exfalso. each I; congruence.
  Qed.

  Lemma image_assigned name v (p p' : image_params) : (assign_image name v p = Some p' <-> assigned image_fields name v p p').
  Proof.
    destruct p. unfold assign_image.
    destruct (String.eqb_spec name "image_frame") as [E|N0].
    { subst. go image_ext image_nd @m_frame (@V_frame F) "image_frame" (fun p => @V_frame F (Model_pyarg.image_frame p)). }
    destruct (String.eqb_spec name "resize") as [E|N1].
    { subst. go image_ext image_nd @m_osize (@V_osize F) "resize" (fun p => @V_osize F (Model_pyarg.resize p)). }
    destruct (String.eqb_spec name "image_dimensions") as [E|N2].
    { subst. go image_ext image_nd @m_sizes (@V_sizes F) "image_dimensions" (fun p => @V_sizes F (Model_pyarg.image_dimensions p)). }
    destruct (String.eqb_spec name "to_rgb") as [E|N3].
    { subst. go image_ext image_nd @m_bool (@V_bool F) "to_rgb" (fun p => @V_bool F (Model_pyarg.to_rgb p)). }
    split; [discriminate|]. intros ((get & I & _) & _). exfalso. each I; congruence.
  Qed.

  Lemma parser_assigned name v (p p' : parser) : (assign_parser name v p = Some p' <-> assigned parser_fields name v p p').
  Proof.
    destruct p. unfold assign_parser.
    destruct (String.eqb_spec name "nan_values") as [E|N0].
    { subst. go parser_ext parser_nd @m_strset (@V_strset F) "nan_values" (fun p => @V_strset F (Model_pyarg.nan_values p)). }
    destruct (String.eqb_spec name "number_base") as [E|N1].
    { subst. go parser_ext parser_nd @m_int (@V_int F) "number_base" (fun p => @V_int F (Model_pyarg.base p)). }
    split; [discriminate|]. intros ((get & I & _) & _). exfalso. each I; congruence.
  Qed.

End Assign.
