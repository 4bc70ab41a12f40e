(* Proofs for area pyarg: the classes.  The lines for the single parameters are generated. *)
From Coq Require Import String List NArith ZArith Bool Lia.
From Verif Require Import Common Model_pyarg Spec_pyarg Proof_pyarg.
From Verif Require Model_inst Model_csv Model_image Model_names.
Import ListNotations.
Local Open Scope Z_scope.
Local Open Scope list_scope.
Local Open Scope string_scope.

Ltac distinct := repeat constructor; cbn [In]; intuition discriminate.
Ltac member := cbn [In fst]; repeat (first [left; reflexivity | right]).
Ltac each I := cbn [In] in I; repeat (destruct I as [I|I]; [inversion I; subst; clear I|]); [..|destruct I].

Section Classes.
  Context {F : Type} (narrow : N -> F) (float_of : Z -> option F).
  Notation c_float := (c_float F narrow float_of).
  Notation cpp_reader := (cpp_reader F).
  Notation stands := (stands narrow float_of).

  Lemma reader_meant c p : python_call c -> (new_reader F narrow float_of c = Some p <-> meant narrow float_of (@reader_fields F) ["dataset"; "batch_size"] cpp_reader c p).
  Proof.
    intros Py. unfold meant. change (map fst (@reader_fields F)) with reader_names. unfold new_reader.
    assert (Nd : NoDup reader_names) by distinct.
    destruct (fits reader_names c) eqn:Fi; [apply fits_proper in Fi; rename Fi into Pr|
      split; [discriminate|intros (Pr & _); apply fits_proper in Pr; rewrite Pr in Fi; discriminate]].
    split.
    - intro H.
      apply obind_some in H as (x0 & E0 & H). apply (arg_required narrow float_of reader_names c Nd Py Pr (c_list c_store) V_stores "dataset" (fun v x _ => m_stores narrow float_of v x)) in E0 as (Q0 & A0).
      apply obind_some in H as (x1 & E1 & H). apply (arg_required narrow float_of reader_names c Nd Py Pr (c_size) V_size "batch_size" (fun v x _ => m_size narrow float_of v x)) in E1 as (Q1 & A1).
      apply obind_some in H as (x2 & E2 & H). apply (arg_optional narrow float_of reader_names c Nd Py Pr (c_size) V_size "num_prefetched_examples" (PInt 0) (num_prefetched_examples F cpp_reader) (fun v x _ => m_size narrow float_of v x) eq_refl) in E2 as (A2 & B2).
      apply obind_some in H as (x3 & E3 & H). apply (arg_optional narrow float_of reader_names c Nd Py Pr (c_size) V_size "num_parallel_reads" (PInt 0) (num_parallel_reads F cpp_reader) (fun v x _ => m_size narrow float_of v x) eq_refl) in E3 as (A3 & B3).
      apply obind_some in H as (x4 & E4 & H). apply (arg_optional narrow float_of reader_names c Nd Py Pr (c_last) V_last "last_example_handling" (PEnum (E_last Model_inst.last_none)) (last_example_handling F cpp_reader) (fun v x _ => m_last narrow float_of v x) eq_refl) in E4 as (A4 & B4).
      apply obind_some in H as (x5 & E5 & H). apply (arg_optional narrow float_of reader_names c Nd Py Pr (c_bad) V_bad "bad_example_handling" (PEnum (E_bad Model_csv.B_error)) (bad_example_handling F cpp_reader) (fun v x _ => m_bad narrow float_of v x) eq_refl) in E5 as (A5 & B5).
      apply obind_some in H as (x6 & E6 & H). apply (arg_optional narrow float_of reader_names c Nd Py Pr (c_bool) V_bool "warn_bad_instances" (PBool false) (warn_bad_instances F cpp_reader) (fun v x _ => m_bool narrow float_of v x) eq_refl) in E6 as (A6 & B6).
      apply obind_some in H as (x7 & E7 & H). apply (arg_optional narrow float_of reader_names c Nd Py Pr (c_size) V_size "num_instances_to_skip" (PInt 0) (num_instances_to_skip F cpp_reader) (fun v x _ => m_size narrow float_of v x) eq_refl) in E7 as (A7 & B7).
      apply obind_some in H as (x8 & E8 & H). apply (arg_optional narrow float_of reader_names c Nd Py Pr (c_opt c_size) V_osize "num_instances_to_read" PNone (num_instances_to_read F cpp_reader) (fun v x _ => m_osize narrow float_of v x) eq_refl) in E8 as (A8 & B8).
      apply obind_some in H as (x9 & E9 & H). apply (arg_optional narrow float_of reader_names c Nd Py Pr (c_size) V_size "shard_index" (PInt 0) (shard_index F cpp_reader) (fun v x _ => m_size narrow float_of v x) eq_refl) in E9 as (A9 & B9).
      apply obind_some in H as (x10 & E10 & H). apply (arg_optional narrow float_of reader_names c Nd Py Pr (c_size) V_size "num_shards" (PInt 0) (num_shards F cpp_reader) (fun v x _ => m_size narrow float_of v x) eq_refl) in E10 as (A10 & B10).
      apply obind_some in H as (x11 & E11 & H). apply (arg_optional narrow float_of reader_names c Nd Py Pr (c_opt c_float) V_oratio "sample_ratio" PNone (sample_ratio F cpp_reader) (fun v x _ => m_oratio narrow float_of v x) eq_refl) in E11 as (A11 & B11).
      apply obind_some in H as (x12 & E12 & H). apply (arg_optional narrow float_of reader_names c Nd Py Pr (c_bool) V_bool "shuffle_instances" (PBool false) (shuffle_instances F cpp_reader) (fun v x _ => m_bool narrow float_of v x) eq_refl) in E12 as (A12 & B12).
      apply obind_some in H as (x13 & E13 & H). apply (arg_optional narrow float_of reader_names c Nd Py Pr (c_size) V_size "shuffle_window" (PInt 0) (shuffle_window F cpp_reader) (fun v x _ => m_size narrow float_of v x) eq_refl) in E13 as (A13 & B13).
      apply obind_some in H as (x14 & E14 & H). apply (arg_optional narrow float_of reader_names c Nd Py Pr (c_opt c_size) V_osize "shuffle_seed" PNone (shuffle_seed F cpp_reader) (fun v x _ => m_osize narrow float_of v x) eq_refl) in E14 as (A14 & B14).
      apply obind_some in H as (x15 & E15 & H). apply (arg_optional narrow float_of reader_names c Nd Py Pr (c_bool) V_bool "reshuffle_each_epoch" (PBool true) (reshuffle_each_epoch F cpp_reader) (fun v x _ => m_bool narrow float_of v x) eq_refl) in E15 as (A15 & B15).
      apply some_inj in H. subst p. split; [exact Pr|]. split.
      + intros name I. cbn [In] in I. repeat (destruct I as [<-|I]; [eauto|]). destruct I.
      + intros name get I. cbn [reader_fields] in I. each I.
        all: split; [assumption|].
        all: intro N; first [match goal with Q : exists v, passed _ _ _ v |- _ => let v := fresh in let P := fresh in destruct Q as (v & P); destruct (N v P) end
          |cbv beta; f_equal; auto].
    - intros (_ & Rq & Fd).
      assert (E0 : arg (c_list c_store) reader_names c "dataset" None = Some (dataset F p)) by (apply (arg_required narrow float_of reader_names c Nd Py Pr (c_list c_store) V_stores "dataset" (fun v x _ => m_stores narrow float_of v x)); destruct (Fd "dataset" (fun p => V_stores (dataset F p)) ltac:(member)) as (A & B); split; [apply Rq; member|exact A]).
      rewrite E0. cbn [obind].
      assert (E1 : arg (c_size) reader_names c "batch_size" None = Some (batch_size F p)) by (apply (arg_required narrow float_of reader_names c Nd Py Pr (c_size) V_size "batch_size" (fun v x _ => m_size narrow float_of v x)); destruct (Fd "batch_size" (fun p => V_size (batch_size F p)) ltac:(member)) as (A & B); split; [apply Rq; member|exact A]).
      rewrite E1. cbn [obind].
      assert (E2 : arg (c_size) reader_names c "num_prefetched_examples" (Some (PInt 0)) = Some (num_prefetched_examples F p)) by (apply (arg_optional narrow float_of reader_names c Nd Py Pr (c_size) V_size "num_prefetched_examples" (PInt 0) (num_prefetched_examples F cpp_reader) (fun v x _ => m_size narrow float_of v x) eq_refl); destruct (Fd "num_prefetched_examples" (fun p => V_size (num_prefetched_examples F p)) ltac:(member)) as (A & B); split; [exact A|intro N; specialize (B N); cbv beta in B; congruence]).
      rewrite E2. cbn [obind].
      assert (E3 : arg (c_size) reader_names c "num_parallel_reads" (Some (PInt 0)) = Some (num_parallel_reads F p)) by (apply (arg_optional narrow float_of reader_names c Nd Py Pr (c_size) V_size "num_parallel_reads" (PInt 0) (num_parallel_reads F cpp_reader) (fun v x _ => m_size narrow float_of v x) eq_refl); destruct (Fd "num_parallel_reads" (fun p => V_size (num_parallel_reads F p)) ltac:(member)) as (A & B); split; [exact A|intro N; specialize (B N); cbv beta in B; congruence]).
      rewrite E3. cbn [obind].
      assert (E4 : arg (c_last) reader_names c "last_example_handling" (Some (PEnum (E_last Model_inst.last_none))) = Some (last_example_handling F p)) by (apply (arg_optional narrow float_of reader_names c Nd Py Pr (c_last) V_last "last_example_handling" (PEnum (E_last Model_inst.last_none)) (last_example_handling F cpp_reader) (fun v x _ => m_last narrow float_of v x) eq_refl); destruct (Fd "last_example_handling" (fun p => V_last (last_example_handling F p)) ltac:(member)) as (A & B); split; [exact A|intro N; specialize (B N); cbv beta in B; congruence]).
      rewrite E4. cbn [obind].
      assert (E5 : arg (c_bad) reader_names c "bad_example_handling" (Some (PEnum (E_bad Model_csv.B_error))) = Some (bad_example_handling F p)) by (apply (arg_optional narrow float_of reader_names c Nd Py Pr (c_bad) V_bad "bad_example_handling" (PEnum (E_bad Model_csv.B_error)) (bad_example_handling F cpp_reader) (fun v x _ => m_bad narrow float_of v x) eq_refl); destruct (Fd "bad_example_handling" (fun p => V_bad (bad_example_handling F p)) ltac:(member)) as (A & B); split; [exact A|intro N; specialize (B N); cbv beta in B; congruence]).
      rewrite E5. cbn [obind].
      assert (E6 : arg (c_bool) reader_names c "warn_bad_instances" (Some (PBool false)) = Some (warn_bad_instances F p)) by (apply (arg_optional narrow float_of reader_names c Nd Py Pr (c_bool) V_bool "warn_bad_instances" (PBool false) (warn_bad_instances F cpp_reader) (fun v x _ => m_bool narrow float_of v x) eq_refl); destruct (Fd "warn_bad_instances" (fun p => V_bool (warn_bad_instances F p)) ltac:(member)) as (A & B); split; [exact A|intro N; specialize (B N); cbv beta in B; congruence]).
      rewrite E6. cbn [obind].
      assert (E7 : arg (c_size) reader_names c "num_instances_to_skip" (Some (PInt 0)) = Some (num_instances_to_skip F p)) by (apply (arg_optional narrow float_of reader_names c Nd Py Pr (c_size) V_size "num_instances_to_skip" (PInt 0) (num_instances_to_skip F cpp_reader) (fun v x _ => m_size narrow float_of v x) eq_refl); destruct (Fd "num_instances_to_skip" (fun p => V_size (num_instances_to_skip F p)) ltac:(member)) as (A & B); split; [exact A|intro N; specialize (B N); cbv beta in B; congruence]).
      rewrite E7. cbn [obind].
      assert (E8 : arg (c_opt c_size) reader_names c "num_instances_to_read" (Some PNone) = Some (num_instances_to_read F p)) by (apply (arg_optional narrow float_of reader_names c Nd Py Pr (c_opt c_size) V_osize "num_instances_to_read" PNone (num_instances_to_read F cpp_reader) (fun v x _ => m_osize narrow float_of v x) eq_refl); destruct (Fd "num_instances_to_read" (fun p => V_osize (num_instances_to_read F p)) ltac:(member)) as (A & B); split; [exact A|intro N; specialize (B N); cbv beta in B; congruence]).
      rewrite E8. cbn [obind].
      assert (E9 : arg (c_size) reader_names c "shard_index" (Some (PInt 0)) = Some (shard_index F p)) by (apply (arg_optional narrow float_of reader_names c Nd Py Pr (c_size) V_size "shard_index" (PInt 0) (shard_index F cpp_reader) (fun v x _ => m_size narrow float_of v x) eq_refl); destruct (Fd "shard_index" (fun p => V_size (shard_index F p)) ltac:(member)) as (A & B); split; [exact A|intro N; specialize (B N); cbv beta in B; congruence]).
      rewrite E9. cbn [obind].
      assert (E10 : arg (c_size) reader_names c "num_shards" (Some (PInt 0)) = Some (num_shards F p)) by (apply (arg_optional narrow float_of reader_names c Nd Py Pr (c_size) V_size "num_shards" (PInt 0) (num_shards F cpp_reader) (fun v x _ => m_size narrow float_of v x) eq_refl); destruct (Fd "num_shards" (fun p => V_size (num_shards F p)) ltac:(member)) as (A & B); split; [exact A|intro N; specialize (B N); cbv beta in B; congruence]).
      rewrite E10. cbn [obind].
      assert (E11 : arg (c_opt c_float) reader_names c "sample_ratio" (Some PNone) = Some (sample_ratio F p)) by (apply (arg_optional narrow float_of reader_names c Nd Py Pr (c_opt c_float) V_oratio "sample_ratio" PNone (sample_ratio F cpp_reader) (fun v x _ => m_oratio narrow float_of v x) eq_refl); destruct (Fd "sample_ratio" (fun p => V_oratio (sample_ratio F p)) ltac:(member)) as (A & B); split; [exact A|intro N; specialize (B N); cbv beta in B; congruence]).
      rewrite E11. cbn [obind].
      assert (E12 : arg (c_bool) reader_names c "shuffle_instances" (Some (PBool false)) = Some (shuffle_instances F p)) by (apply (arg_optional narrow float_of reader_names c Nd Py Pr (c_bool) V_bool "shuffle_instances" (PBool false) (shuffle_instances F cpp_reader) (fun v x _ => m_bool narrow float_of v x) eq_refl); destruct (Fd "shuffle_instances" (fun p => V_bool (shuffle_instances F p)) ltac:(member)) as (A & B); split; [exact A|intro N; specialize (B N); cbv beta in B; congruence]).
      rewrite E12. cbn [obind].
      assert (E13 : arg (c_size) reader_names c "shuffle_window" (Some (PInt 0)) = Some (shuffle_window F p)) by (apply (arg_optional narrow float_of reader_names c Nd Py Pr (c_size) V_size "shuffle_window" (PInt 0) (shuffle_window F cpp_reader) (fun v x _ => m_size narrow float_of v x) eq_refl); destruct (Fd "shuffle_window" (fun p => V_size (shuffle_window F p)) ltac:(member)) as (A & B); split; [exact A|intro N; specialize (B N); cbv beta in B; congruence]).
      rewrite E13. cbn [obind].
      assert (E14 : arg (c_opt c_size) reader_names c "shuffle_seed" (Some PNone) = Some (shuffle_seed F p)) by (apply (arg_optional narrow float_of reader_names c Nd Py Pr (c_opt c_size) V_osize "shuffle_seed" PNone (shuffle_seed F cpp_reader) (fun v x _ => m_osize narrow float_of v x) eq_refl); destruct (Fd "shuffle_seed" (fun p => V_osize (shuffle_seed F p)) ltac:(member)) as (A & B); split; [exact A|intro N; specialize (B N); cbv beta in B; congruence]).
      rewrite E14. cbn [obind].
      assert (E15 : arg (c_bool) reader_names c "reshuffle_each_epoch" (Some (PBool true)) = Some (reshuffle_each_epoch F p)) by (apply (arg_optional narrow float_of reader_names c Nd Py Pr (c_bool) V_bool "reshuffle_each_epoch" (PBool true) (reshuffle_each_epoch F cpp_reader) (fun v x _ => m_bool narrow float_of v x) eq_refl); destruct (Fd "reshuffle_each_epoch" (fun p => V_bool (reshuffle_each_epoch F p)) ltac:(member)) as (A & B); split; [exact A|intro N; specialize (B N); cbv beta in B; congruence]).
      rewrite E15. cbn [obind].
      destruct p; reflexivity.
  Qed.

  Lemma csv_meant c p : python_call c -> (new_csv c = Some p <-> meant narrow float_of (@csv_fields F) [] cpp_csv c p).
  Proof.
    intros Py. unfold meant. change (map fst (@csv_fields F)) with csv_names. unfold new_csv.
    assert (Nd : NoDup csv_names) by distinct.
    destruct (fits csv_names c) eqn:Fi; [apply fits_proper in Fi; rename Fi into Pr|
      split; [discriminate|intros (Pr & _); apply fits_proper in Pr; rewrite Pr in Fi; discriminate]].
    split.
    - intro H.
      apply obind_some in H as (x0 & E0 & H). apply (arg_optional narrow float_of csv_names c Nd Py Pr (c_list c_str) V_strs "column_names" (PList []) (column_names cpp_csv) (fun v x _ => m_strs narrow float_of v x) eq_refl) in E0 as (A0 & B0).
      apply obind_some in H as (x1 & E1 & H). apply (arg_optional narrow float_of csv_names c Nd Py Pr (c_str) V_str "name_prefix" (PStr []) (name_prefix cpp_csv) (fun v x _ => m_str narrow float_of v x) eq_refl) in E1 as (A1 & B1).
      apply obind_some in H as (x2 & E2 & H). apply (arg_optional narrow float_of csv_names c Nd Py Pr (c_set c_str) V_strset "use_columns" (PSet []) (use_columns cpp_csv) (fun v x _ => m_strset narrow float_of v x) eq_refl) in E2 as (A2 & B2).
      apply obind_some in H as (x3 & E3 & H). apply (arg_optional narrow float_of csv_names c Nd Py Pr (c_set c_size) V_sizeset "use_columns_by_index" (PSet []) (use_columns_by_index cpp_csv) (fun v x _ => m_sizeset narrow float_of v x) eq_refl) in E3 as (A3 & B3).
      apply obind_some in H as (x4 & E4 & H). apply (arg_optional narrow float_of csv_names c Nd Py Pr (c_opt c_dtype) V_otype "default_data_type" PNone (default_data_type cpp_csv) (fun v x _ => m_otype narrow float_of v x) eq_refl) in E4 as (A4 & B4).
      apply obind_some in H as (x5 & E5 & H). apply (arg_optional narrow float_of csv_names c Nd Py Pr (c_map c_str c_dtype) V_types "column_types" (PDict []) (column_types cpp_csv) (fun v x _ => m_types narrow float_of v x) eq_refl) in E5 as (A5 & B5).
      apply obind_some in H as (x6 & E6 & H). apply (arg_optional narrow float_of csv_names c Nd Py Pr (c_map c_size c_dtype) V_itypes "column_types_by_index" (PDict []) (column_types_by_index cpp_csv) (fun v x _ => m_itypes narrow float_of v x) eq_refl) in E6 as (A6 & B6).
      apply obind_some in H as (x7 & E7 & H). apply (arg_optional narrow float_of csv_names c Nd Py Pr (c_opt c_size) V_osize "header_row_index" (PInt 0) (header_row_index cpp_csv) (fun v x _ => m_osize narrow float_of v x) eq_refl) in E7 as (A7 & B7).
      apply obind_some in H as (x8 & E8 & H). apply (arg_optional narrow float_of csv_names c Nd Py Pr (c_bool) V_bool "has_single_header" (PBool false) (has_single_header cpp_csv) (fun v x _ => m_bool narrow float_of v x) eq_refl) in E8 as (A8 & B8).
      apply obind_some in H as (x9 & E9 & H). apply (arg_optional narrow float_of csv_names c Nd Py Pr (c_bool) V_bool "dedupe_column_names" (PBool true) (dedupe_column_names cpp_csv) (fun v x _ => m_bool narrow float_of v x) eq_refl) in E9 as (A9 & B9).
      apply obind_some in H as (x10 & E10 & H). apply (arg_optional narrow float_of csv_names c Nd Py Pr (c_char) V_char "delimiter" (PStr [44%N]) (delimiter cpp_csv) (fun v x _ => m_char narrow float_of v x) eq_refl) in E10 as (A10 & B10).
      apply obind_some in H as (x11 & E11 & H). apply (arg_optional narrow float_of csv_names c Nd Py Pr (c_char) V_char "quote_char" (PStr [34%N]) (quote_char cpp_csv) (fun v x _ => m_char narrow float_of v x) eq_refl) in E11 as (A11 & B11).
      apply obind_some in H as (x12 & E12 & H). apply (arg_optional narrow float_of csv_names c Nd Py Pr (c_opt c_char) V_ochar "comment_char" PNone (comment_char cpp_csv) (fun v x _ => m_ochar narrow float_of v x) eq_refl) in E12 as (A12 & B12).
      apply obind_some in H as (x13 & E13 & H). apply (arg_optional narrow float_of csv_names c Nd Py Pr (c_bool) V_bool "allow_quoted_new_lines" (PBool false) (allow_quoted_new_lines cpp_csv) (fun v x _ => m_bool narrow float_of v x) eq_refl) in E13 as (A13 & B13).
      apply obind_some in H as (x14 & E14 & H). apply (arg_optional narrow float_of csv_names c Nd Py Pr (c_bool) V_bool "skip_blank_lines" (PBool true) (skip_blank_lines cpp_csv) (fun v x _ => m_bool narrow float_of v x) eq_refl) in E14 as (A14 & B14).
      apply obind_some in H as (x15 & E15 & H). apply (arg_optional narrow float_of csv_names c Nd Py Pr (c_opt c_str) V_ostr "encoding" PNone (encoding cpp_csv) (fun v x _ => m_ostr narrow float_of v x) eq_refl) in E15 as (A15 & B15).
      apply obind_some in H as (x16 & E16 & H). apply (arg_optional narrow float_of csv_names c Nd Py Pr (c_opt c_size) V_osize "max_field_length" PNone (max_field_length cpp_csv) (fun v x _ => m_osize narrow float_of v x) eq_refl) in E16 as (A16 & B16).
      apply obind_some in H as (x17 & E17 & H). apply (arg_optional narrow float_of csv_names c Nd Py Pr (c_mfl) V_mfl "max_field_length_handling" (PEnum (E_mfl Model_csv.treat_as_bad)) (max_field_length_handling cpp_csv) (fun v x _ => m_mfl narrow float_of v x) eq_refl) in E17 as (A17 & B17).
      apply obind_some in H as (x18 & E18 & H). apply (arg_optional narrow float_of csv_names c Nd Py Pr (c_opt c_size) V_osize "max_line_length" PNone (max_line_length cpp_csv) (fun v x _ => m_osize narrow float_of v x) eq_refl) in E18 as (A18 & B18).
      apply obind_some in H as (x19 & E19 & H). apply (arg_optional narrow float_of csv_names c Nd Py Pr (c_oparser) V_parser "parser_options" PNone (parser_options cpp_csv) (fun v x _ => m_oparser narrow float_of v x) eq_refl) in E19 as (A19 & B19).
      apply some_inj in H. subst p. split; [exact Pr|]. split.
      + intros name I. cbn [In] in I. repeat (destruct I as [<-|I]; [eauto|]). destruct I.
      + intros name get I. cbn [csv_fields] in I. each I.
        all: split; [assumption|].
        all: intro N; first [match goal with Q : exists v, passed _ _ _ v |- _ => let v := fresh in let P := fresh in destruct Q as (v & P); destruct (N v P) end
          |cbv beta; f_equal; auto].
    - intros (_ & Rq & Fd).
      assert (E0 : arg (c_list c_str) csv_names c "column_names" (Some (PList [])) = Some (column_names p)) by (apply (arg_optional narrow float_of csv_names c Nd Py Pr (c_list c_str) V_strs "column_names" (PList []) (column_names cpp_csv) (fun v x _ => m_strs narrow float_of v x) eq_refl); destruct (Fd "column_names" (fun p => V_strs (column_names p)) ltac:(member)) as (A & B); split; [exact A|intro N; specialize (B N); cbv beta in B; congruence]).
      rewrite E0. cbn [obind].
      assert (E1 : arg (c_str) csv_names c "name_prefix" (Some (PStr [])) = Some (name_prefix p)) by (apply (arg_optional narrow float_of csv_names c Nd Py Pr (c_str) V_str "name_prefix" (PStr []) (name_prefix cpp_csv) (fun v x _ => m_str narrow float_of v x) eq_refl); destruct (Fd "name_prefix" (fun p => V_str (name_prefix p)) ltac:(member)) as (A & B); split; [exact A|intro N; specialize (B N); cbv beta in B; congruence]).
      rewrite E1. cbn [obind].
      assert (E2 : arg (c_set c_str) csv_names c "use_columns" (Some (PSet [])) = Some (use_columns p)) by (apply (arg_optional narrow float_of csv_names c Nd Py Pr (c_set c_str) V_strset "use_columns" (PSet []) (use_columns cpp_csv) (fun v x _ => m_strset narrow float_of v x) eq_refl); destruct (Fd "use_columns" (fun p => V_strset (use_columns p)) ltac:(member)) as (A & B); split; [exact A|intro N; specialize (B N); cbv beta in B; congruence]).
      rewrite E2. cbn [obind].
      assert (E3 : arg (c_set c_size) csv_names c "use_columns_by_index" (Some (PSet [])) = Some (use_columns_by_index p)) by (apply (arg_optional narrow float_of csv_names c Nd Py Pr (c_set c_size) V_sizeset "use_columns_by_index" (PSet []) (use_columns_by_index cpp_csv) (fun v x _ => m_sizeset narrow float_of v x) eq_refl); destruct (Fd "use_columns_by_index" (fun p => V_sizeset (use_columns_by_index p)) ltac:(member)) as (A & B); split; [exact A|intro N; specialize (B N); cbv beta in B; congruence]).
      rewrite E3. cbn [obind].
      assert (E4 : arg (c_opt c_dtype) csv_names c "default_data_type" (Some PNone) = Some (default_data_type p)) by (apply (arg_optional narrow float_of csv_names c Nd Py Pr (c_opt c_dtype) V_otype "default_data_type" PNone (default_data_type cpp_csv) (fun v x _ => m_otype narrow float_of v x) eq_refl); destruct (Fd "default_data_type" (fun p => V_otype (default_data_type p)) ltac:(member)) as (A & B); split; [exact A|intro N; specialize (B N); cbv beta in B; congruence]).
      rewrite E4. cbn [obind].
      assert (E5 : arg (c_map c_str c_dtype) csv_names c "column_types" (Some (PDict [])) = Some (column_types p)) by (apply (arg_optional narrow float_of csv_names c Nd Py Pr (c_map c_str c_dtype) V_types "column_types" (PDict []) (column_types cpp_csv) (fun v x _ => m_types narrow float_of v x) eq_refl); destruct (Fd "column_types" (fun p => V_types (column_types p)) ltac:(member)) as (A & B); split; [exact A|intro N; specialize (B N); cbv beta in B; congruence]).
      rewrite E5. cbn [obind].
      assert (E6 : arg (c_map c_size c_dtype) csv_names c "column_types_by_index" (Some (PDict [])) = Some (column_types_by_index p)) by (apply (arg_optional narrow float_of csv_names c Nd Py Pr (c_map c_size c_dtype) V_itypes "column_types_by_index" (PDict []) (column_types_by_index cpp_csv) (fun v x _ => m_itypes narrow float_of v x) eq_refl); destruct (Fd "column_types_by_index" (fun p => V_itypes (column_types_by_index p)) ltac:(member)) as (A & B); split; [exact A|intro N; specialize (B N); cbv beta in B; congruence]).
      rewrite E6. cbn [obind].
      assert (E7 : arg (c_opt c_size) csv_names c "header_row_index" (Some (PInt 0)) = Some (header_row_index p)) by (apply (arg_optional narrow float_of csv_names c Nd Py Pr (c_opt c_size) V_osize "header_row_index" (PInt 0) (header_row_index cpp_csv) (fun v x _ => m_osize narrow float_of v x) eq_refl); destruct (Fd "header_row_index" (fun p => V_osize (header_row_index p)) ltac:(member)) as (A & B); split; [exact A|intro N; specialize (B N); cbv beta in B; congruence]).
      rewrite E7. cbn [obind].
      assert (E8 : arg (c_bool) csv_names c "has_single_header" (Some (PBool false)) = Some (has_single_header p)) by (apply (arg_optional narrow float_of csv_names c Nd Py Pr (c_bool) V_bool "has_single_header" (PBool false) (has_single_header cpp_csv) (fun v x _ => m_bool narrow float_of v x) eq_refl); destruct (Fd "has_single_header" (fun p => V_bool (has_single_header p)) ltac:(member)) as (A & B); split; [exact A|intro N; specialize (B N); cbv beta in B; congruence]).
      rewrite E8. cbn [obind].
      assert (E9 : arg (c_bool) csv_names c "dedupe_column_names" (Some (PBool true)) = Some (dedupe_column_names p)) by (apply (arg_optional narrow float_of csv_names c Nd Py Pr (c_bool) V_bool "dedupe_column_names" (PBool true) (dedupe_column_names cpp_csv) (fun v x _ => m_bool narrow float_of v x) eq_refl); destruct (Fd "dedupe_column_names" (fun p => V_bool (dedupe_column_names p)) ltac:(member)) as (A & B); split; [exact A|intro N; specialize (B N); cbv beta in B; congruence]).
      rewrite E9. cbn [obind].
      assert (E10 : arg (c_char) csv_names c "delimiter" (Some (PStr [44%N])) = Some (delimiter p)) by (apply (arg_optional narrow float_of csv_names c Nd Py Pr (c_char) V_char "delimiter" (PStr [44%N]) (delimiter cpp_csv) (fun v x _ => m_char narrow float_of v x) eq_refl); destruct (Fd "delimiter" (fun p => V_char (delimiter p)) ltac:(member)) as (A & B); split; [exact A|intro N; specialize (B N); cbv beta in B; congruence]).
      rewrite E10. cbn [obind].
      assert (E11 : arg (c_char) csv_names c "quote_char" (Some (PStr [34%N])) = Some (quote_char p)) by (apply (arg_optional narrow float_of csv_names c Nd Py Pr (c_char) V_char "quote_char" (PStr [34%N]) (quote_char cpp_csv) (fun v x _ => m_char narrow float_of v x) eq_refl); destruct (Fd "quote_char" (fun p => V_char (quote_char p)) ltac:(member)) as (A & B); split; [exact A|intro N; specialize (B N); cbv beta in B; congruence]).
      rewrite E11. cbn [obind].
      assert (E12 : arg (c_opt c_char) csv_names c "comment_char" (Some PNone) = Some (comment_char p)) by (apply (arg_optional narrow float_of csv_names c Nd Py Pr (c_opt c_char) V_ochar "comment_char" PNone (comment_char cpp_csv) (fun v x _ => m_ochar narrow float_of v x) eq_refl); destruct (Fd "comment_char" (fun p => V_ochar (comment_char p)) ltac:(member)) as (A & B); split; [exact A|intro N; specialize (B N); cbv beta in B; congruence]).
      rewrite E12. cbn [obind].
      assert (E13 : arg (c_bool) csv_names c "allow_quoted_new_lines" (Some (PBool false)) = Some (allow_quoted_new_lines p)) by (apply (arg_optional narrow float_of csv_names c Nd Py Pr (c_bool) V_bool "allow_quoted_new_lines" (PBool false) (allow_quoted_new_lines cpp_csv) (fun v x _ => m_bool narrow float_of v x) eq_refl); destruct (Fd "allow_quoted_new_lines" (fun p => V_bool (allow_quoted_new_lines p)) ltac:(member)) as (A & B); split; [exact A|intro N; specialize (B N); cbv beta in B; congruence]).
      rewrite E13. cbn [obind].
      assert (E14 : arg (c_bool) csv_names c "skip_blank_lines" (Some (PBool true)) = Some (skip_blank_lines p)) by (apply (arg_optional narrow float_of csv_names c Nd Py Pr (c_bool) V_bool "skip_blank_lines" (PBool true) (skip_blank_lines cpp_csv) (fun v x _ => m_bool narrow float_of v x) eq_refl); destruct (Fd "skip_blank_lines" (fun p => V_bool (skip_blank_lines p)) ltac:(member)) as (A & B); split; [exact A|intro N; specialize (B N); cbv beta in B; congruence]).
      rewrite E14. cbn [obind].
      assert (E15 : arg (c_opt c_str) csv_names c "encoding" (Some PNone) = Some (encoding p)) by (apply (arg_optional narrow float_of csv_names c Nd Py Pr (c_opt c_str) V_ostr "encoding" PNone (encoding cpp_csv) (fun v x _ => m_ostr narrow float_of v x) eq_refl); destruct (Fd "encoding" (fun p => V_ostr (encoding p)) ltac:(member)) as (A & B); split; [exact A|intro N; specialize (B N); cbv beta in B; congruence]).
      rewrite E15. cbn [obind].
      assert (E16 : arg (c_opt c_size) csv_names c "max_field_length" (Some PNone) = Some (max_field_length p)) by (apply (arg_optional narrow float_of csv_names c Nd Py Pr (c_opt c_size) V_osize "max_field_length" PNone (max_field_length cpp_csv) (fun v x _ => m_osize narrow float_of v x) eq_refl); destruct (Fd "max_field_length" (fun p => V_osize (max_field_length p)) ltac:(member)) as (A & B); split; [exact A|intro N; specialize (B N); cbv beta in B; congruence]).
      rewrite E16. cbn [obind].
      assert (E17 : arg (c_mfl) csv_names c "max_field_length_handling" (Some (PEnum (E_mfl Model_csv.treat_as_bad))) = Some (max_field_length_handling p)) by (apply (arg_optional narrow float_of csv_names c Nd Py Pr (c_mfl) V_mfl "max_field_length_handling" (PEnum (E_mfl Model_csv.treat_as_bad)) (max_field_length_handling cpp_csv) (fun v x _ => m_mfl narrow float_of v x) eq_refl); destruct (Fd "max_field_length_handling" (fun p => V_mfl (max_field_length_handling p)) ltac:(member)) as (A & B); split; [exact A|intro N; specialize (B N); cbv beta in B; congruence]).
      rewrite E17. cbn [obind].
      assert (E18 : arg (c_opt c_size) csv_names c "max_line_length" (Some PNone) = Some (max_line_length p)) by (apply (arg_optional narrow float_of csv_names c Nd Py Pr (c_opt c_size) V_osize "max_line_length" PNone (max_line_length cpp_csv) (fun v x _ => m_osize narrow float_of v x) eq_refl); destruct (Fd "max_line_length" (fun p => V_osize (max_line_length p)) ltac:(member)) as (A & B); split; [exact A|intro N; specialize (B N); cbv beta in B; congruence]).
      rewrite E18. cbn [obind].
      assert (E19 : arg (c_oparser) csv_names c "parser_options" (Some PNone) = Some (parser_options p)) by (apply (arg_optional narrow float_of csv_names c Nd Py Pr (c_oparser) V_parser "parser_options" PNone (parser_options cpp_csv) (fun v x _ => m_oparser narrow float_of v x) eq_refl); destruct (Fd "parser_options" (fun p => V_parser (parser_options p)) ltac:(member)) as (A & B); split; [exact A|intro N; specialize (B N); cbv beta in B; congruence]).
      rewrite E19. cbn [obind].
      destruct p; reflexivity.
  Qed.

  Lemma image_meant c p : python_call c -> (new_image c = Some p <-> meant narrow float_of (@image_fields F) ["image_dimensions"] cpp_image c p).
  Proof.
    intros Py. unfold meant. change (map fst (@image_fields F)) with image_names. unfold new_image.
    assert (Nd : NoDup image_names) by distinct.
    destruct (fits image_names c) eqn:Fi; [apply fits_proper in Fi; rename Fi into Pr|
      split; [discriminate|intros (Pr & _); apply fits_proper in Pr; rewrite Pr in Fi; discriminate]].
    assert (dims_none : arg (c_list c_size) image_names c "image_dimensions" (Some PNone) = arg (c_list c_size) image_names c "image_dimensions" None) by reflexivity.
    split.
    - intro H.
      apply obind_some in H as (x0 & E0 & H). apply (arg_optional narrow float_of image_names c Nd Py Pr (c_frame) V_frame "image_frame" (PEnum (E_frame Model_image.F_none)) (image_frame cpp_image) (fun v x _ => m_frame narrow float_of v x) eq_refl) in E0 as (A0 & B0).
      apply obind_some in H as (x1 & E1 & H). apply (arg_optional narrow float_of image_names c Nd Py Pr (c_opt c_size) V_osize "resize" PNone (resize cpp_image) (fun v x _ => m_osize narrow float_of v x) eq_refl) in E1 as (A1 & B1).
      apply obind_some in H as (x2 & E2 & H). rewrite dims_none in E2. apply (arg_required narrow float_of image_names c Nd Py Pr (c_list c_size) V_sizes "image_dimensions" (fun v x _ => m_sizes narrow float_of v x)) in E2 as (Q2 & A2).
      apply obind_some in H as (x3 & E3 & H). apply (arg_optional narrow float_of image_names c Nd Py Pr (c_bool) V_bool "to_rgb" (PBool false) (to_rgb cpp_image) (fun v x _ => m_bool narrow float_of v x) eq_refl) in E3 as (A3 & B3).
      apply some_inj in H. subst p. split; [exact Pr|]. split.
      + intros name I. cbn [In] in I. repeat (destruct I as [<-|I]; [eauto|]). destruct I.
      + intros name get I. cbn [image_fields] in I. each I.
        all: split; [assumption|].
        all: intro N; first [match goal with Q : exists v, passed _ _ _ v |- _ => let v := fresh in let P := fresh in destruct Q as (v & P); destruct (N v P) end
          |cbv beta; f_equal; auto].
    - intros (_ & Rq & Fd).
      assert (E0 : arg (c_frame) image_names c "image_frame" (Some (PEnum (E_frame Model_image.F_none))) = Some (image_frame p)) by (apply (arg_optional narrow float_of image_names c Nd Py Pr (c_frame) V_frame "image_frame" (PEnum (E_frame Model_image.F_none)) (image_frame cpp_image) (fun v x _ => m_frame narrow float_of v x) eq_refl); destruct (Fd "image_frame" (fun p => V_frame (image_frame p)) ltac:(member)) as (A & B); split; [exact A|intro N; specialize (B N); cbv beta in B; congruence]).
      rewrite E0. cbn [obind].
      assert (E1 : arg (c_opt c_size) image_names c "resize" (Some PNone) = Some (resize p)) by (apply (arg_optional narrow float_of image_names c Nd Py Pr (c_opt c_size) V_osize "resize" PNone (resize cpp_image) (fun v x _ => m_osize narrow float_of v x) eq_refl); destruct (Fd "resize" (fun p => V_osize (resize p)) ltac:(member)) as (A & B); split; [exact A|intro N; specialize (B N); cbv beta in B; congruence]).
      rewrite E1. cbn [obind].
      assert (E2 : arg (c_list c_size) image_names c "image_dimensions" None = Some (image_dimensions p)) by (apply (arg_required narrow float_of image_names c Nd Py Pr (c_list c_size) V_sizes "image_dimensions" (fun v x _ => m_sizes narrow float_of v x)); destruct (Fd "image_dimensions" (fun p => V_sizes (image_dimensions p)) ltac:(member)) as (A & B); split; [apply Rq; member|exact A]).
      rewrite dims_none, E2. cbn [obind].
      assert (E3 : arg (c_bool) image_names c "to_rgb" (Some (PBool false)) = Some (to_rgb p)) by (apply (arg_optional narrow float_of image_names c Nd Py Pr (c_bool) V_bool "to_rgb" (PBool false) (to_rgb cpp_image) (fun v x _ => m_bool narrow float_of v x) eq_refl); destruct (Fd "to_rgb" (fun p => V_bool (to_rgb p)) ltac:(member)) as (A & B); split; [exact A|intro N; specialize (B N); cbv beta in B; congruence]).
      rewrite E3. cbn [obind].
      destruct p; reflexivity.
  Qed.

  Lemma parser_meant c p : python_call c -> (new_parser c = Some p <-> meant narrow float_of (@parser_fields F) [] cpp_parser c p).
  Proof.
    intros Py. unfold meant. change (map fst (@parser_fields F)) with parser_names. unfold new_parser.
    assert (Nd : NoDup parser_names) by distinct.
    destruct (fits parser_names c) eqn:Fi; [apply fits_proper in Fi; rename Fi into Pr|
      split; [discriminate|intros (Pr & _); apply fits_proper in Pr; rewrite Pr in Fi; discriminate]].
    split.
    - intro H.
      apply obind_some in H as (x0 & E0 & H). apply (arg_optional narrow float_of parser_names c Nd Py Pr (c_set c_str) V_strset "nan_values" (PSet []) (nan_values cpp_parser) (fun v x _ => m_strset narrow float_of v x) eq_refl) in E0 as (A0 & B0).
      apply obind_some in H as (x1 & E1 & H). apply (arg_optional narrow float_of parser_names c Nd Py Pr (c_int) V_int "number_base" (PInt 10) (base cpp_parser) (fun v x _ => m_int narrow float_of v x) eq_refl) in E1 as (A1 & B1).
      apply some_inj in H. subst p. split; [exact Pr|]. split.
      + intros name I. cbn [In] in I. repeat (destruct I as [<-|I]; [eauto|]). destruct I.
      + intros name get I. cbn [parser_fields] in I. each I.
        all: split; [assumption|].
        all: intro N; first [match goal with Q : exists v, passed _ _ _ v |- _ => let v := fresh in let P := fresh in destruct Q as (v & P); destruct (N v P) end
          |cbv beta; f_equal; auto].
    - intros (_ & Rq & Fd).
      assert (E0 : arg (c_set c_str) parser_names c "nan_values" (Some (PSet [])) = Some (nan_values p)) by (apply (arg_optional narrow float_of parser_names c Nd Py Pr (c_set c_str) V_strset "nan_values" (PSet []) (nan_values cpp_parser) (fun v x _ => m_strset narrow float_of v x) eq_refl); destruct (Fd "nan_values" (fun p => V_strset (nan_values p)) ltac:(member)) as (A & B); split; [exact A|intro N; specialize (B N); cbv beta in B; congruence]).
      rewrite E0. cbn [obind].
      assert (E1 : arg (c_int) parser_names c "number_base" (Some (PInt 10)) = Some (base p)) by (apply (arg_optional narrow float_of parser_names c Nd Py Pr (c_int) V_int "number_base" (PInt 10) (base cpp_parser) (fun v x _ => m_int narrow float_of v x) eq_refl); destruct (Fd "number_base" (fun p => V_int (base p)) ltac:(member)) as (A & B); split; [exact A|intro N; specialize (B N); cbv beta in B; congruence]).
      rewrite E1. cbn [obind].
      destruct p; reflexivity.
  Qed.

  Lemma file_meant c p : python_call c -> (new_file c = Some p <-> meant narrow float_of (@file_fields F) ["path"] plain_file c p).
  Proof.
    intros Py. unfold meant. change (map fst (@file_fields F)) with file_names. unfold new_file.
    assert (Nd : NoDup file_names) by distinct.
    destruct (fits file_names c) eqn:Fi; [apply fits_proper in Fi; rename Fi into Pr|
      split; [discriminate|intros (Pr & _); apply fits_proper in Pr; rewrite Pr in Fi; discriminate]].
    split.
    - intro H.
      apply obind_some in H as (x0 & E0 & H). apply (arg_required narrow float_of file_names c Nd Py Pr (c_str) V_str "path" (fun v x _ => m_str narrow float_of v x)) in E0 as (Q0 & A0).
      apply obind_some in H as (x1 & E1 & H). apply (arg_optional narrow float_of file_names c Nd Py Pr (c_bool) V_bool "memory_map" (PBool true) (f_map plain_file) (fun v x _ => m_bool narrow float_of v x) eq_refl) in E1 as (A1 & B1).
      apply obind_some in H as (x2 & E2 & H). apply (arg_optional narrow float_of file_names c Nd Py Pr (c_comp) V_comp "compression" (PEnum (E_comp Model_names.Co_infer)) (f_comp plain_file) (fun v x _ => m_comp narrow float_of v x) eq_refl) in E2 as (A2 & B2).
      apply some_inj in H. subst p. split; [exact Pr|]. split.
      + intros name I. cbn [In] in I. repeat (destruct I as [<-|I]; [eauto|]). destruct I.
      + intros name get I. cbn [file_fields] in I. each I.
        all: split; [assumption|].
        all: intro N; first [match goal with Q : exists v, passed _ _ _ v |- _ => let v := fresh in let P := fresh in destruct Q as (v & P); destruct (N v P) end
          |cbv beta; f_equal; auto].
    - intros (_ & Rq & Fd).
      assert (E0 : arg (c_str) file_names c "path" None = Some (f_path p)) by (apply (arg_required narrow float_of file_names c Nd Py Pr (c_str) V_str "path" (fun v x _ => m_str narrow float_of v x)); destruct (Fd "path" (fun p => V_str (f_path p)) ltac:(member)) as (A & B); split; [apply Rq; member|exact A]).
      rewrite E0. cbn [obind].
      assert (E1 : arg (c_bool) file_names c "memory_map" (Some (PBool true)) = Some (f_map p)) by (apply (arg_optional narrow float_of file_names c Nd Py Pr (c_bool) V_bool "memory_map" (PBool true) (f_map plain_file) (fun v x _ => m_bool narrow float_of v x) eq_refl); destruct (Fd "memory_map" (fun p => V_bool (f_map p)) ltac:(member)) as (A & B); split; [exact A|intro N; specialize (B N); cbv beta in B; congruence]).
      rewrite E1. cbn [obind].
      assert (E2 : arg (c_comp) file_names c "compression" (Some (PEnum (E_comp Model_names.Co_infer))) = Some (f_comp p)) by (apply (arg_optional narrow float_of file_names c Nd Py Pr (c_comp) V_comp "compression" (PEnum (E_comp Model_names.Co_infer)) (f_comp plain_file) (fun v x _ => m_comp narrow float_of v x) eq_refl); destruct (Fd "compression" (fun p => V_comp (f_comp p)) ltac:(member)) as (A & B); split; [exact A|intro N; specialize (B N); cbv beta in B; congruence]).
      rewrite E2. cbn [obind].
      destruct p; reflexivity.
  Qed.

  Lemma memory_meant c p : python_call c -> (new_memory c = Some p <-> meant narrow float_of (@memory_fields F) ["buf"] plain_memory c p).
  Proof.
    intros Py. unfold meant. change (map fst (@memory_fields F)) with memory_names. unfold new_memory.
    assert (Nd : NoDup memory_names) by distinct.
    destruct (fits memory_names c) eqn:Fi; [apply fits_proper in Fi; rename Fi into Pr|
      split; [discriminate|intros (Pr & _); apply fits_proper in Pr; rewrite Pr in Fi; discriminate]].
    split.
    - intro H.
      apply obind_some in H as (x0 & E0 & H). apply (arg_required narrow float_of memory_names c Nd Py Pr (c_buffer) V_buffer "buf" (fun v x _ => m_buffer narrow float_of v x)) in E0 as (Q0 & A0).
      apply obind_some in H as (x1 & E1 & H). apply (arg_optional narrow float_of memory_names c Nd Py Pr (c_comp) V_comp "compression" (PEnum (E_comp Model_names.Co_none)) (Model_pyarg.m_comp plain_memory) (fun v x _ => m_comp narrow float_of v x) eq_refl) in E1 as (A1 & B1).
      apply some_inj in H. subst p. split; [exact Pr|]. split.
      + intros name I. cbn [In] in I. repeat (destruct I as [<-|I]; [eauto|]). destruct I.
      + intros name get I. cbn [memory_fields] in I. each I.
        all: split; [assumption|].
        all: intro N; first [match goal with Q : exists v, passed _ _ _ v |- _ => let v := fresh in let P := fresh in destruct Q as (v & P); destruct (N v P) end
          |cbv beta; f_equal; auto].
    - intros (_ & Rq & Fd).
      assert (E0 : arg (c_buffer) memory_names c "buf" None = Some (m_buf p)) by (apply (arg_required narrow float_of memory_names c Nd Py Pr (c_buffer) V_buffer "buf" (fun v x _ => m_buffer narrow float_of v x)); destruct (Fd "buf" (fun p => V_buffer (m_buf p)) ltac:(member)) as (A & B); split; [apply Rq; member|exact A]).
      rewrite E0. cbn [obind].
      assert (E1 : arg (c_comp) memory_names c "compression" (Some (PEnum (E_comp Model_names.Co_none))) = Some (Model_pyarg.m_comp p)) by (apply (arg_optional narrow float_of memory_names c Nd Py Pr (c_comp) V_comp "compression" (PEnum (E_comp Model_names.Co_none)) (Model_pyarg.m_comp plain_memory) (fun v x _ => m_comp narrow float_of v x) eq_refl); destruct (Fd "compression" (fun p => V_comp (Model_pyarg.m_comp p)) ltac:(member)) as (A & B); split; [exact A|intro N; specialize (B N); cbv beta in B; congruence]).
      rewrite E1. cbn [obind].
      destruct p; reflexivity.
  Qed.

  Lemma object_meant c p : python_call c -> (new_object c = Some p <-> meant narrow float_of (@object_fields F) ["client"; "uri"] plain_object c p).
  Proof.
    intros Py. unfold meant. change (map fst (@object_fields F)) with object_names. unfold new_object.
    assert (Nd : NoDup object_names) by distinct.
    destruct (fits object_names c) eqn:Fi; [apply fits_proper in Fi; rename Fi into Pr|
      split; [discriminate|intros (Pr & _); apply fits_proper in Pr; rewrite Pr in Fi; discriminate]].
    split.
    - intro H.
      apply obind_some in H as (x0 & E0 & H). apply (arg_required narrow float_of object_names c Nd Py Pr (c_client) V_client "client" (fun v x _ => m_client narrow float_of v x)) in E0 as (Q0 & A0).
      apply obind_some in H as (x1 & E1 & H). apply (arg_required narrow float_of object_names c Nd Py Pr (c_str) V_str "uri" (fun v x _ => m_str narrow float_of v x)) in E1 as (Q1 & A1).
      apply obind_some in H as (x2 & E2 & H). apply (arg_optional narrow float_of object_names c Nd Py Pr (c_str) V_str "version_id" (PStr []) (o_version plain_object) (fun v x _ => m_str narrow float_of v x) eq_refl) in E2 as (A2 & B2).
      apply obind_some in H as (x3 & E3 & H). apply (arg_optional narrow float_of object_names c Nd Py Pr (c_comp) V_comp "compression" (PEnum (E_comp Model_names.Co_infer)) (o_comp plain_object) (fun v x _ => m_comp narrow float_of v x) eq_refl) in E3 as (A3 & B3).
      apply some_inj in H. subst p. split; [exact Pr|]. split.
      + intros name I. cbn [In] in I. repeat (destruct I as [<-|I]; [eauto|]). destruct I.
      + intros name get I. cbn [object_fields] in I. each I.
        all: split; [assumption|].
        all: intro N; first [match goal with Q : exists v, passed _ _ _ v |- _ => let v := fresh in let P := fresh in destruct Q as (v & P); destruct (N v P) end
          |cbv beta; f_equal; auto].
    - intros (_ & Rq & Fd).
      assert (E0 : arg (c_client) object_names c "client" None = Some (o_client p)) by (apply (arg_required narrow float_of object_names c Nd Py Pr (c_client) V_client "client" (fun v x _ => m_client narrow float_of v x)); destruct (Fd "client" (fun p => V_client (o_client p)) ltac:(member)) as (A & B); split; [apply Rq; member|exact A]).
      rewrite E0. cbn [obind].
      assert (E1 : arg (c_str) object_names c "uri" None = Some (o_uri p)) by (apply (arg_required narrow float_of object_names c Nd Py Pr (c_str) V_str "uri" (fun v x _ => m_str narrow float_of v x)); destruct (Fd "uri" (fun p => V_str (o_uri p)) ltac:(member)) as (A & B); split; [apply Rq; member|exact A]).
      rewrite E1. cbn [obind].
      assert (E2 : arg (c_str) object_names c "version_id" (Some (PStr [])) = Some (o_version p)) by (apply (arg_optional narrow float_of object_names c Nd Py Pr (c_str) V_str "version_id" (PStr []) (o_version plain_object) (fun v x _ => m_str narrow float_of v x) eq_refl); destruct (Fd "version_id" (fun p => V_str (o_version p)) ltac:(member)) as (A & B); split; [exact A|intro N; specialize (B N); cbv beta in B; congruence]).
      rewrite E2. cbn [obind].
      assert (E3 : arg (c_comp) object_names c "compression" (Some (PEnum (E_comp Model_names.Co_infer))) = Some (o_comp p)) by (apply (arg_optional narrow float_of object_names c Nd Py Pr (c_comp) V_comp "compression" (PEnum (E_comp Model_names.Co_infer)) (o_comp plain_object) (fun v x _ => m_comp narrow float_of v x) eq_refl); destruct (Fd "compression" (fun p => V_comp (o_comp p)) ltac:(member)) as (A & B); split; [exact A|intro N; specialize (B N); cbv beta in B; congruence]).
      rewrite E3. cbn [obind].
      destruct p; reflexivity.
  Qed.

  Lemma pipe_meant c p : python_call c -> (forall d s us, passed pipe_names c "timeout" (PDelta d s us) -> exists n, (d * 86400 + s) * 1000000 + us = 1000000 * n) ->
    (new_pipe c = Some p <-> meant narrow float_of (@pipe_fields F) ["path"] plain_pipe c p).
  Proof.
    intros Py Wh. unfold meant. change (map fst (@pipe_fields F)) with pipe_names. unfold new_pipe.
    assert (Nd : NoDup pipe_names) by distinct.
    destruct (fits pipe_names c) eqn:Fi; [apply fits_proper in Fi; rename Fi into Pr|
      split; [discriminate|intros (Pr & _); apply fits_proper in Pr; rewrite Pr in Fi; discriminate]].
    assert (m_seconds : forall v x, passed pipe_names c "timeout" v -> (c_seconds v = Some x <-> stands v (V_seconds x))).
    { intros v x Pv. split.
      - destruct v; cbn [c_seconds]; intro E; try discriminate. destruct (Wh _ _ _ Pv) as (n & En). apply some_inj in E. rewrite En in E. subst x.
        rewrite Z.mul_comm, Z.quot_mul by lia. constructor. exact En.
      - intro S. inversion S as [ | | | | | | | | | | | | | | | | | | | | | | | | | | |d s us n En]; subst. cbn [c_seconds]. rewrite En, Z.mul_comm, Z.quot_mul by lia. reflexivity. }
    split.
    - intro H.
      apply obind_some in H as (x0 & E0 & H). apply (arg_required narrow float_of pipe_names c Nd Py Pr (c_str) V_str "path" (fun v x _ => m_str narrow float_of v x)) in E0 as (Q0 & A0).
      apply obind_some in H as (x1 & E1 & H). apply (arg_optional narrow float_of pipe_names c Nd Py Pr (c_seconds) V_seconds "timeout" (PDelta 0 60 0) (q_timeout plain_pipe) m_seconds eq_refl) in E1 as (A1 & B1).
      apply obind_some in H as (x2 & E2 & H). apply (arg_optional narrow float_of pipe_names c Nd Py Pr (c_opt c_size) V_osize "fifo_id" PNone (q_fifo plain_pipe) (fun v x _ => m_osize narrow float_of v x) eq_refl) in E2 as (A2 & B2).
      apply obind_some in H as (x3 & E3 & H). apply (arg_optional narrow float_of pipe_names c Nd Py Pr (c_comp) V_comp "compression" (PEnum (E_comp Model_names.Co_none)) (q_comp plain_pipe) (fun v x _ => m_comp narrow float_of v x) eq_refl) in E3 as (A3 & B3).
      apply some_inj in H. subst p. split; [exact Pr|]. split.
      + intros name I. cbn [In] in I. repeat (destruct I as [<-|I]; [eauto|]). destruct I.
      + intros name get I. cbn [pipe_fields] in I. each I.
        all: split; [assumption|].
        all: intro N; first [match goal with Q : exists v, passed _ _ _ v |- _ => let v := fresh in let P := fresh in destruct Q as (v & P); destruct (N v P) end
          |cbv beta; f_equal; auto].
    - intros (_ & Rq & Fd).
      assert (E0 : arg (c_str) pipe_names c "path" None = Some (q_path p)) by (apply (arg_required narrow float_of pipe_names c Nd Py Pr (c_str) V_str "path" (fun v x _ => m_str narrow float_of v x)); destruct (Fd "path" (fun p => V_str (q_path p)) ltac:(member)) as (A & B); split; [apply Rq; member|exact A]).
      rewrite E0. cbn [obind].
      assert (E1 : arg (c_seconds) pipe_names c "timeout" (Some (PDelta 0 60 0)) = Some (q_timeout p)) by (apply (arg_optional narrow float_of pipe_names c Nd Py Pr (c_seconds) V_seconds "timeout" (PDelta 0 60 0) (q_timeout plain_pipe) m_seconds eq_refl); destruct (Fd "timeout" (fun p => V_seconds (q_timeout p)) ltac:(member)) as (A & B); split; [exact A|intro N; specialize (B N); cbv beta in B; congruence]).
      rewrite E1. cbn [obind].
      assert (E2 : arg (c_opt c_size) pipe_names c "fifo_id" (Some PNone) = Some (q_fifo p)) by (apply (arg_optional narrow float_of pipe_names c Nd Py Pr (c_opt c_size) V_osize "fifo_id" PNone (q_fifo plain_pipe) (fun v x _ => m_osize narrow float_of v x) eq_refl); destruct (Fd "fifo_id" (fun p => V_osize (q_fifo p)) ltac:(member)) as (A & B); split; [exact A|intro N; specialize (B N); cbv beta in B; congruence]).
      rewrite E2. cbn [obind].
      assert (E3 : arg (c_comp) pipe_names c "compression" (Some (PEnum (E_comp Model_names.Co_none))) = Some (q_comp p)) by (apply (arg_optional narrow float_of pipe_names c Nd Py Pr (c_comp) V_comp "compression" (PEnum (E_comp Model_names.Co_none)) (q_comp plain_pipe) (fun v x _ => m_comp narrow float_of v x) eq_refl); destruct (Fd "compression" (fun p => V_comp (q_comp p)) ltac:(member)) as (A & B); split; [exact A|intro N; specialize (B N); cbv beta in B; congruence]).
      rewrite E3. cbn [obind].
      destruct p; reflexivity.
  Qed.
End Classes.
