-Q theories Verif
theories/Common.v
theories/Model_csvtok.v
theories/Spec_csvtok.v
theories/Proof_csvtok.v
theories/Props_csvtok.v
theories/Model_num.v
theories/Spec_num.v
theories/Proof_num.v
theories/Props_num.v
theories/Model_rec.v
theories/Spec_rec.v
theories/Proof_rec.v
theories/Proof_rec_text.v
theories/Proof_rec_bin.v
theories/Proof_rec_spec.v
theories/Proof_rec_more.v
theories/Proof_rec_props.v
theories/Proof_rec_bom.v
theories/Proof_rec_rel.v
theories/Props_rec.v
theories/Model_inst.v
theories/Spec_inst.v
theories/Proof_inst.v
theories/Proof_inst_filters.v
theories/Proof_inst_shuffle.v
theories/Proof_inst_core.v
theories/Proof_inst_props.v
theories/Props_inst.v
theories/Model_par.v
theories/Spec_par.v
theories/Proof_par.v
theories/Proof_par_props.v
theories/Props_par.v
theories/Model_csv.v
theories/Spec_csv.v
theories/Proof_csv.v
theories/Proof_csv_schema.v
theories/Proof_csv_props.v
theories/Props_csv.v
theories/Model_chunk.v
theories/Spec_chunk.v
theories/Proof_chunk.v
theories/Props_chunk.v
theories/Model_tsr.v
theories/Spec_tsr.v
theories/Proof_tsr.v
theories/Props_tsr.v
theories/Model_pb.v
theories/Spec_pb.v
theories/Proof_pb.v
theories/Proof_pb_props.v
theories/Props_pb.v
theories/Model_strm.v
theories/Spec_strm.v
theories/Proof_strm.v
theories/Props_strm.v
theories/Model_gzip.v
theories/Spec_gzip.v
theories/Proof_gzip.v
theories/Props_gzip.v
theories/Model_utf8.v
theories/Spec_utf8.v
theories/Proof_utf8.v
theories/Props_utf8.v
theories/Model_pipe.v
theories/Spec_pipe.v
theories/Proof_pipe.v
theories/Props_pipe.v
theories/Model_ptr.v
theories/Spec_ptr.v
theories/Proof_ptr.v
theories/Props_ptr.v
theories/Model_mem.v
theories/Spec_mem.v
theories/Proof_mem.v
theories/Props_mem.v
theories/Model_names.v
theories/Spec_names.v
theories/Proof_names.v
theories/Proof_names2.v
theories/Proof_names3.v
theories/Proof_names4.v
theories/Props_names.v
theories/Model_insights.v
theories/Spec_insights.v
theories/Proof_insights.v
theories/Proof_insights2.v
theories/Proof_insights3.v
theories/Proof_insights4.v
theories/Proof_insights5.v
theories/Proof_insights6.v
theories/Props_insights.v
theories/Model_image.v
theories/Spec_image.v
theories/Proof_image.v
theories/Props_image.v
theories/Model_text.v
theories/Spec_text.v
theories/Proof_text.v
theories/Props_text.v
theories/Model_csvfile.v
theories/Spec_csvfile.v
theories/Proof_csvfile.v
theories/Props_csvfile.v
theories/Model_pbfile.v
theories/Spec_pbfile.v
theories/Proof_pbfile.v
theories/Props_pbfile.v
theories/Spec_fault.v
theories/Proof_fault.v
theories/Props_fault.v
theories/Model_source.v
theories/Spec_source.v
theories/Proof_source.v
theories/Proof_source2.v
theories/Proof_source3.v
theories/Proof_source4.v
theories/Proof_source5.v
theories/Props_source.v
theories/Props_csvfault.v
theories/Model_s3.v
theories/Spec_s3.v
theories/Proof_s3.v
theories/Props_s3.v
theories/Model_exch.v
theories/Spec_exch.v
theories/Proof_exch.v
theories/Proof_exch2.v
theories/Props_exch.v
theories/Model_gil.v
theories/Spec_gil.v
theories/Proof_gil.v
theories/Props_gil.v
theories/Model_pyerr.v
theories/Spec_pyerr.v
theories/Proof_pyerr.v
theories/Props_pyerr.v
theories/Model_arrow.v
theories/Spec_arrow.v
theories/Proof_arrow.v
theories/Props_arrow.v
theories/Model_sparse.v
theories/Spec_sparse.v
theories/Proof_sparse.v
theories/Props_sparse.v
theories/Model_pyex.v
theories/Spec_pyex.v
theories/Proof_pyex.v
theories/Props_pyex.v
theories/Model_coded.v
theories/Spec_coded.v
theories/Proof_coded.v
theories/Props_coded.v
theories/Model_imgfile.v
theories/Spec_imgfile.v
theories/Proof_imgfile.v
theories/Props_imgfile.v
theories/Model_whole.v
theories/Spec_whole.v
theories/Proof_whole.v
theories/Proof_wholegood.v
theories/Proof_repro.v
theories/Proof_epochs.v
theories/Props_whole.v
theories/Spec_total.v
theories/Proof_total.v
theories/Props_total.v
theories/Model_start.v
theories/Spec_start.v
theories/Proof_start.v
theories/Props_start.v
theories/Model_ident.v
theories/Spec_ident.v
theories/Proof_ident.v
theories/Props_ident.v
theories/Model_tramp.v
theories/Spec_tramp.v
theories/Proof_tramp.v
theories/Props_tramp.v
theories/Model_disk.v
theories/Spec_disk.v
theories/Proof_disk.v
theories/Props_disk.v
theories/Model_log.v
theories/Spec_log.v
theories/Proof_log.v
theories/Props_log.v
theories/Model_report.v
theories/Spec_report.v
theories/Proof_report.v
theories/Props_report.v
theories/Model_fd.v
theories/Spec_fd.v
theories/Proof_fd.v
theories/Props_fd.v
theories/Model_pbreport.v
theories/Spec_pbreport.v
theories/Proof_pbreport.v
theories/Props_pbreport.v
theories/Model_proc.v
theories/Spec_proc.v
theories/Proof_proc.v
theories/Props_proc.v
theories/Model_imreport.v
theories/Spec_imreport.v
theories/Proof_imreport.v
theories/Props_imreport.v
theories/Model_pyarg.v
theories/Spec_pyarg.v
theories/Proof_pyarg.v
theories/Proof_pyarg2.v
theories/Proof_pyarg3.v
theories/Proof_pyarg4.v
theories/Props_pyarg.v
theories/Model_xxh.v
theories/Spec_xxh.v
theories/Proof_xxh.v
theories/Proof_xxh2.v
theories/Proof_xxh3.v
theories/Props_xxh.v
theories/Model_pymem.v
theories/Spec_pymem.v
theories/Proof_pymem.v
theories/Proof_pymem2.v
theories/Proof_pymem3.v
theories/Proof_pymem4.v
theories/Props_pymem.v
theories/Model_est.v
theories/Spec_est.v
theories/Proof_est.v
theories/Proof_est2.v
theories/Proof_est3.v
theories/Props_est.v
theories/Model_iter.v
theories/Spec_iter.v
theories/Proof_iter.v
theories/Proof_iter2.v
theories/Proof_iter3.v
theories/Props_iter.v
theories/Spec_iter2.v
theories/Proof_iter4.v
theories/Props_iter2.v
theories/Model_close.v
theories/Spec_close.v
theories/Proof_close.v
theories/Props_close.v
theories/Model_tf.v
theories/Spec_tf.v
theories/Proof_tf.v
theories/Props_tf.v
