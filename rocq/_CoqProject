-Q theories Verif
theories/Base.v
theories/F64.v
theories/Model_corr.v
theories/Spec_corr.v
theories/Proof_corr_take.v
theories/Proof_corr_loops.v
theories/Proof_corr_three.v
theories/Proof_corr_pairs.v
theories/Proof_corr_all.v
theories/Proof_corr_main.v
theories/Proof_corr_pm.v
theories/Proof_corr_prop.v
theories/Proof_corr_ex.v
theories/Proof_corr_few.v
theories/Prop_corr.v
theories/F64R.v
theories/F64E.v
theories/Model_cand.v
theories/Spec_cand.v
theories/Proof_cand.v
theories/Proof_cand2.v
theories/Prop_cand.v
theories/Lib.v
theories/Model_track.v
theories/Spec_track.v
theories/Proof_track_search.v
theories/Proof_track_rank.v
theories/Proof_track_reg.v
theories/Proof_track_link.v
theories/Proof_track_step.v
theories/Proof_track_back.v
theories/Proof_track_cap.v
theories/Proof_track_add.v
theories/Proof_track_ex.v
theories/Proof_track_just.v
theories/Proof_track_just2.v
theories/Prop_track.v
theories/Prop_add.v
theories/Prop_track2.v
theories/Spec_track2.v
theories/Proof_track_found.v
theories/Prop_track3.v
theories/Proof_track_closed.v
theories/Spec_track3.v
theories/Proof_track_score.v
theories/Proof_unread.v
theories/Proof_keep.v
theories/Proof_track_back2.v
theories/Prop_track4.v
theories/Model_f64.v
theories/Spec_f64.v
theories/Proof_f64.v
theories/Proof_f642.v
theories/Proof_f643.v
theories/Prop_f64.v
theories/Spec_limits.v
theories/Proof_limits.v
theories/Prop_limits.v
theories/Model_fb.v
theories/Spec_fb.v
theories/Proof_fb.v
theories/Proof_fb_run.v
theories/Proof_keep2.v
theories/Prop_fb.v
theories/Spec_trail.v
theories/Proof_trail.v
theories/Prop_trail.v
theories/Proof_rerun.v
theories/Prop_rerun.v
theories/Model_rec.v
theories/Spec_rec.v
theories/Prop_rec.v
theories/Model_seg.v
theories/Spec_seg.v
theories/Proof_seg.v
theories/Proof_seg2.v
theories/Proof_seg3.v
theories/Proof_seg4.v
theories/Proof_seg5.v
theories/Proof_seg6.v
theories/Prop_seg.v
theories/Prop_seg2.v
theories/Model_peak2.v
theories/Prop_peak2.v
theories/Model_misc.v
theories/Spec_misc.v
theories/Proof_misc.v
theories/Proof_misc2.v
theories/Prop_misc.v
theories/Model_img.v
theories/Spec_img.v
theories/Proof_img.v
theories/Prop_img.v
theories/Model_blur.v
theories/Proof_blur.v
theories/Prop_blur.v
theories/Model_chain.v
theories/Spec_chain.v
theories/Proof_chain.v
theories/Proof_chain2.v
theories/Prop_chain.v
theories/Model_geo.v
theories/Spec_geo.v
theories/Proof_geo.v
theories/Proof_geo2.v
theories/Proof_geo3.v
theories/Proof_geo4.v
theories/Proof_geo5.v
theories/Proof_geo6.v
theories/Proof_geo7.v
theories/Proof_geo8.v
theories/Proof_geo9.v
theories/Proof_geo10.v
theories/Proof_geo11.v
theories/Prop_geo.v
theories/Prop_nlay.v
theories/Model_arr.v
theories/Prop_arr.v
theories/Spec_geo2.v
theories/Proof_geo12.v
theories/Prop_geo2.v
theories/Spec_geo4.v
theories/Prop_radial.v
theories/Model_geo2.v
theories/Spec_geo3.v
theories/Proof_geo13.v
theories/Proof_geo14.v
theories/Proof_geo15.v
theories/Proof_geo16.v
theories/Prop_geo4.v
theories/Prop_geo3.v
theories/Model_text.v
theories/Proof_text.v
theories/Proof_text2.v
theories/Model_io.v
theories/Spec_io.v
theories/Proof_io.v
theories/Proof_io2.v
theories/Proof_io3.v
theories/Proof_io4.v
theories/Prop_io.v
theories/Prop_targ.v
theories/Model_crash.v
theories/Spec_crash.v
theories/Proof_crash.v
theories/Prop_crash.v
theories/Prop_crash2.v
theories/Model_files.v
theories/Spec_files.v
theories/Proof_files.v
theories/Proof_files2.v
theories/Proof_files3.v
theories/Proof_files4.v
theories/Proof_files5.v
theories/Proof_files6.v
theories/Proof_files7.v
theories/Proof_grow.v
theories/Proof_grow2.v
theories/Prop_files.v
theories/Proof_grow3.v
theories/Prop_grow.v
theories/Model_par.v
theories/Spec_par.v
theories/Proof_par.v
theories/Proof_par2.v
theories/Proof_par3.v
theories/Proof_par4.v
theories/Proof_par5.v
theories/Prop_par.v
theories/Model_calcrash.v
theories/Spec_calcrash.v
theories/Proof_calcrash.v
theories/Prop_calcrash.v
theories/Spec_num.v
theories/Proof_num.v
theories/Prop_num.v
theories/Model_setup.v
theories/Spec_setup.v
theories/Prop_setup.v
theories/Model_cal.v
theories/Spec_cal.v
theories/Proof_cal.v
theories/Proof_cal2.v
theories/Prop_cal.v
theories/Model_orient.v
theories/Spec_orient.v
theories/Proof_orient.v
theories/Proof_orient2.v
theories/Proof_orient3.v
theories/Proof_orient4.v
theories/Proof_orient5.v
theories/Prop_orient.v
theories/Prop_exact.v
theories/Model_est.v
theories/Spec_est.v
theories/Proof_est.v
theories/Prop_est.v
theories/Model_wrap.v
theories/Spec_wrap.v
theories/Prop_wrap.v
theories/Model_block.v
theories/Proof_block.v
theories/Prop_block.v
