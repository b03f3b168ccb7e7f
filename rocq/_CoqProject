-Q theories Verif
theories/Prelude.v
theories/Flt.v
theories/Stats_model.v
theories/Stats_proofs.v
theories/Linalg_model.v
theories/Linalg_proofs.v
theories/Linalg_vcov.v
theories/Linalg_thms.v
theories/Did_model.v
theories/Did_spec.v
theories/Did_proofs.v
theories/Did_equiv.v
theories/Did_more.v
theories/Within_proofs.v
theories/Boot_model.v
theories/Boot_proofs.v
theories/Boot_more.v
theories/Twfe_model.v
theories/Twfe_proofs.v
theories/Synth_model.v
theories/Synth_proofs.v
theories/Synth_more.v
theories/Properties_Linalg.v
theories/Properties_Did.v
theories/Properties_Boot.v
theories/Properties_Synth.v
theories/Properties_Twfe.v
theories/Estim_model.v
theories/Estim_proofs.v
theories/Properties_Estim.v
theories/Multi_model.v
theories/Multi_proofs.v
theories/Multi_thms.v
theories/Properties_Multi.v
theories/Trends_model.v
theories/Trends_proofs.v
theories/Results_model.v
theories/Results_proofs.v
theories/Properties_Trends.v
theories/Linalg_more.v
theories/Properties_More.v
theories/Bacon_model.v
theories/Bacon_proofs.v
theories/Bacon_thms.v
theories/Properties_Bacon.v
theories/Staggered_model.v
theories/Staggered_proofs.v
theories/Staggered_est.v
theories/Staggered_thms.v
theories/Staggered_more.v
theories/Staggered_fit.v
theories/Properties_Staggered.v
theories/Sun_model.v
theories/Sun_proofs.v
theories/Sun_thms.v
theories/Sun_more.v
theories/Sun_cs.v
theories/Sun_inf.v
theories/Sun_boot.v
theories/Sun_ex.v
theories/Properties_Sun.v
theories/Triple_model.v
theories/Triple_proofs.v
theories/Triple_thms.v
theories/Triple_fit.v
theories/Triple_ex.v
theories/Properties_Triple.v
theories/Lp.v
theories/Honest_model.v
theories/Honest_proofs.v
theories/Honest_sd.v
theories/Honest_fit.v
theories/Honest_ex.v
theories/Properties_Honest.v
theories/Fit_more.v
theories/Properties_Fit.v
theories/Pretrends_model.v
theories/Pretrends_proofs.v
theories/Pretrends_thms.v
theories/Pretrends_ex.v
theories/Properties_Pretrends.v
theories/Power_model.v
theories/Power_proofs.v
theories/Power_thms.v
theories/Properties_Power.v
theories/Prep_model.v
theories/Prep_proofs.v
theories/Prep_balance.v
theories/Prep_valid.v
theories/Prep_rank.v
theories/Prep_ex.v
theories/Properties_Prep.v
theories/Diag_model.v
theories/Diag_level.v
theories/Diag_proofs.v
theories/Diag_thms.v
theories/Diag_ex.v
theories/Properties_Diag.v
theories/Dgp_model.v
theories/Dgp_proofs.v
theories/Dgp_thms.v
theories/Dgp_event.v
theories/Dgp_more.v
theories/Dgp_stag.v
theories/Dgp_ex.v
theories/Properties_Dgp.v
theories/Staggered_cov.v
theories/Triple_more.v
theories/Properties_Extra.v
theories/Trop_model.v
theories/Trop_proofs.v
theories/Trop_thms.v
theories/Trop_conv.v
theories/Trop_rec.v
theories/Trop_obj.v
theories/Trop_sel.v
theories/Trop_ex.v
theories/Trop_rows.v
theories/Properties_Trop.v
theories/Linalg_minnorm.v
theories/Trop_joint.v
theories/Trop_jproofs.v
theories/Trop_jfit.v
theories/Trop_jthms.v
theories/Trop_jmore.v
theories/Trop_jfin.v
theories/Trop_jex.v
theories/Properties_TropJoint.v
theories/Vis_model.v
theories/Vis_proofs.v
theories/Vis_thms.v
theories/Vis_power.v
theories/Vis_ex.v
theories/Properties_Vis.v
theories/Data_model.v
theories/Data_proofs.v
theories/Data_thms.v
theories/Properties_Data.v
theories/Trop_rust.v
theories/Trop_rust_proofs.v
theories/Trop_rust_thms.v
theories/Rust_ols.v
theories/Rust_ols_proofs.v
theories/Rust_ols_thms.v
theories/Properties_Rust.v
theories/Trop_rjoint.v
theories/Trop_rjoint_proofs.v
theories/Trop_rjoint_thms.v
theories/Trop_rjoint_ex.v
theories/Properties_Rjoint.v
theories/Trop_svd2.v
theories/Trop_more2.v
theories/Properties_Trop2.v
theories/Linalg_dual.v
theories/Absorb_thms.v
theories/Absorb_ex.v
theories/Did_cluster.v
theories/Properties_Absorb.v
theories/Linalg_rank.v
theories/Linalg_span.v
theories/Span_thms.v
theories/Span_ex.v
theories/Properties_Span.v
theories/Tight_thms.v
theories/Properties_Tight.v
theories/Scale_flt.v
theories/Staggered_scale.v
theories/Staggered_equiv.v
theories/Staggered_rows.v
theories/Staggered_equiv_ex.v
theories/Properties_Equiv.v
theories/Sdid_model.v
theories/Sdid_proofs.v
theories/Sdid_thms.v
theories/Sdid_rows.v
theories/Sdid_ex.v
theories/Sdid_covs.v
theories/Sdid_covex.v
theories/Properties_Sdid.v
theories/Trop_loo.v
theories/Properties_Loo.v
theories/Reg_equiv.v
theories/Reg_effects.v
theories/Triple_equiv.v
theories/Effects_ex.v
theories/Properties_Effects.v
theories/Sun_equiv.v
theories/Sun_eqex.v
theories/Properties_SunEquiv.v
theories/Export_model.v
theories/Export_proofs.v
theories/Properties_Export.v
theories/Bacon_equiv.v
theories/Bacon_rows.v
theories/Bacon_eqex.v
theories/Properties_BaconEquiv.v
theories/Tight2_thms.v
theories/Properties_Tight2.v
theories/Honest_scale.v
theories/Honest_smooth.v
theories/Honest_scex.v
theories/Properties_HonestScale.v
theories/Twfe_equiv.v
theories/Twfe_labels.v
theories/Properties_TwfeEquiv.v
theories/Trop_rjshift.v
theories/Properties_Tight3.v
theories/Summary_model.v
theories/Summary_proofs.v
theories/Properties_Summary.v
theories/Boot_equiv.v
theories/Properties_BootEquiv.v
theories/Honest_flip.v
theories/Properties_HonestFlip.v
theories/Linreg_model.v
theories/Linreg_proofs.v
theories/Properties_Linreg.v
theories/Sun_rows.v
theories/Sun_rowex.v
theories/Properties_SunRows.v
theories/Rep_proofs.v
theories/Rep_thms.v
theories/Rep_ex.v
theories/Properties_Rep.v
theories/Tight4_thms.v
theories/Properties_Tight4.v
theories/One_proofs.v
theories/One_thms.v
theories/One_cs.v
theories/One_twfe.v
theories/One_ex.v
theories/Properties_One.v
theories/Tight5_thms.v
theories/Properties_Tight5.v
theories/Shift_proofs.v
theories/Shift_sun.v
theories/Shift_bacon.v
theories/Shift_ex.v
theories/Mono_proofs.v
theories/Mono_bacon.v
theories/Mono_ex.v
theories/Properties_Shift.v
theories/Properties_Mono.v
theories/Tight6_thms.v
theories/Properties_Tight6.v
theories/Listed_model.v
theories/Listed_proofs.v
theories/Listed_ex.v
theories/Properties_Listed.v
theories/Tight7_thms.v
theories/Properties_Tight7.v
theories/Gap_model.v
theories/Gap_proofs.v
theories/Gap_thms.v
theories/Gap_fit.v
theories/Properties_Gap.v
theories/Tight8_thms.v
theories/Properties_Tight8.v
theories/Synth_conv.v
theories/Properties_Conv.v
theories/Swap_proofs.v
theories/Swap_triple.v
theories/Swap_ex.v
theories/Properties_Swap.v
theories/Tight9_thms.v
theories/Properties_Tight9.v
theories/Tight10_thms.v
theories/Properties_Tight10.v
theories/Swap_multi.v
theories/Swap_multi_thms.v
theories/Properties_Swapm.v
theories/Tight11_thms.v
theories/Properties_Tight11.v
theories/Sensplot_model.v
theories/Sensplot_thms.v
theories/Properties_Sensplot.v
theories/Tight12_thms.v
theories/Properties_Tight12.v
theories/Rankw_model.v
theories/Rankw_thms.v
theories/Properties_Rankw.v
theories/Counts_thms.v
theories/Properties_Counts.v
theories/Rep_multi.v
theories/Tight13_thms.v
theories/Properties_Tight13.v
theories/Rep_sun.v
theories/Rep_sunex.v
theories/Early_thms.v
theories/Early_ex.v
theories/Properties_Early.v
theories/Tight14_thms.v
theories/Properties_Tight14.v
theories/PScore_model.v
theories/PScore_thms.v
theories/Properties_PScore.v
theories/Logit_model.v
theories/Logit_thms.v
theories/Properties_Logit.v
