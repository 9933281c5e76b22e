-Q theories Verif
theories/Base.v
theories/BaseFacts.v
theories/M_utils.v
theories/S_utils.v
theories/P_utils.v
theories/P_utils2.v
theories/X_utils.v
theories/C_utils.v
theories/M_sig.v
theories/S_sig.v
theories/P_sig.v
theories/X_sig.v
theories/P_sigval.v
theories/C_sig.v
theories/M_process.v
theories/S_process.v
theories/P_proc1.v
theories/P_proc2.v
theories/P_proc3.v
theories/P_proc4.v
theories/P_proc5.v
theories/P_proc6.v
theories/X_process.v
theories/C_process.v
theories/M_sph0.v
theories/P_sph1.v
theories/P_sph2.v
theories/P_sph3.v
theories/P_sph4.v
theories/P_sph5.v
theories/M_sph.v
theories/P_sph6.v
theories/P_sph7.v
theories/P_sph8.v
theories/S_linalg.v
theories/S_sph.v
theories/P_linalg.v
theories/P_sph9.v
theories/P_sph10.v
theories/P_sph11.v
theories/P_sph12.v
theories/P_sph13.v
theories/X_sph.v
theories/C_sph.v
theories/M_grids.v
theories/S_grids.v
theories/P_grids1.v
theories/P_grids2.v
theories/P_grids3.v
theories/P_grids4.v
theories/C_grids.v
theories/M_decoder.v
theories/S_decoder.v
theories/P_dec1.v
theories/P_dec2.v
theories/P_dec3.v
theories/P_dec4.v
theories/P_dec5.v
theories/X_dec1.v
theories/C_dec1.v
theories/M_decoder2.v
theories/S_decoder2.v
theories/P_dec6.v
theories/P_dec7.v
theories/P_dec8.v
theories/P_dec9.v
theories/P_dec10.v
theories/X_dec2.v
theories/C_dec2.v
theories/M_decoder3.v
theories/S_decoder3.v
theories/P_dec11.v
theories/P_dec12.v
theories/P_dec13.v
theories/X_dec3.v
theories/C_dec3.v
theories/M_parsa.v
theories/S_parsa.v
theories/P_parsa1.v
theories/P_parsa2.v
theories/P_parsa3.v
theories/P_parsa4.v
theories/P_parsa5.v
theories/X_parsa.v
theories/C_parsa.v
theories/M_parsa2.v
theories/S_parsa2.v
theories/P_parsa6.v
theories/P_parsa7.v
theories/P_parsa8.v
theories/X_parsa2.v
theories/C_parsa2.v
theories/M_parsa3.v
theories/S_parsa3.v
theories/P_parsa9.v
theories/P_parsa10.v
theories/P_parsa11.v
theories/P_parsa12.v
theories/P_parsa13.v
theories/P_parsa14.v
theories/P_parsa15.v
theories/P_parsa16.v
theories/P_parsa17.v
theories/P_parsa18.v
theories/P_parsa19.v
theories/X_parsa3.v
theories/C_parsa3.v
theories/M_io.v
theories/S_io.v
theories/P_io1.v
theories/P_io2.v
theories/P_io3.v
theories/P_io4.v
theories/X_io1.v
theories/X_io2.v
theories/X_io3.v
theories/C_io.v
theories/P_io5.v
theories/P_io6.v
theories/P_io7.v
theories/X_io4.v
theories/X_io5.v
theories/C_io2.v
theories/S_lsq.v
theories/P_lsq.v
theories/M_io2.v
theories/S_io2.v
theories/P_io8.v
theories/X_io6.v
theories/C_io3.v
theories/M_sph2.v
theories/S_sph2.v
theories/P_sph14.v
theories/P_sph15.v
theories/P_sph16.v
theories/X_sph2.v
theories/C_sph2.v
theories/M_decoder4.v
theories/S_magls.v
theories/P_magls1.v
theories/P_magls2.v
theories/P_magls3.v
theories/P_magls4.v
theories/P_magls5.v
theories/X_magls.v
theories/C_magls.v
theories/M_process2.v
theories/S_ctf.v
theories/P_ctf1.v
theories/P_ctf2.v
theories/P_ctf3.v
theories/P_ctf4.v
theories/P_ctf5.v
theories/P_ctf6.v
theories/X_ctf.v
theories/C_ctf.v
theories/M_plot.v
theories/S_plot.v
theories/P_plot1.v
theories/P_plot2.v
theories/P_plot3.v
theories/P_plot4.v
theories/P_plot5.v
theories/P_plot6.v
theories/P_plot7.v
theories/X_plot.v
theories/C_plot.v
theories/M_sig2.v
theories/S_sig2.v
theories/P_sig2a.v
theories/P_sig2b.v
theories/P_sig2c.v
theories/P_sig2d.v
theories/P_sig2e.v
theories/P_sig2f.v
theories/P_sig2g.v
theories/X_sig2.v
theories/X_sig2b.v
theories/X_sig2c.v
theories/C_sig2.v
theories/M_process3.v
theories/S_process3.v
theories/P_lfilter.v
theories/P_ambeo.v
theories/X_ambeo.v
theories/M_io3.v
theories/S_io3.v
theories/P_io9.v
theories/X_io7.v
theories/C_ambeo.v
theories/M_zp.v
theories/S_zp.v
theories/P_cplx.v
theories/P_zp1.v
theories/P_zp2.v
theories/P_zp3.v
theories/X_zp.v
theories/M_plot2.v
theories/S_plot2.v
theories/P_plot8.v
theories/X_plot2.v
theories/C_diag.v
theories/M_process4.v
theories/S_process4.v
theories/P_ff1.v
theories/P_ff2.v
theories/P_ff3.v
theories/P_ff4.v
theories/P_ff5.v
theories/P_ff6.v
theories/X_ff.v
theories/S_butter.v
theories/P_but1.v
theories/P_but2.v
theories/P_but3.v
theories/P_but4.v
theories/X_but.v
theories/S_chain.v
theories/P_chain1.v
theories/P_chain2.v
theories/P_chain3.v
theories/X_chain.v
theories/C_filt.v
theories/M_sph3.v
theories/S_sph3.v
theories/P_csph1.v
theories/P_csph2.v
theories/P_csph3.v
theories/P_csph4.v
theories/P_csph5.v
theories/P_csph6.v
theories/P_csph7.v
theories/P_csph8.v
theories/X_csph.v
theories/C_sph3.v
theories/M_misc.v
theories/S_misc.v
theories/P_misc.v
theories/P_misc2.v
theories/P_misc3.v
theories/X_misc.v
theories/C_misc.v
theories/S_retain.v
theories/P_retain.v
theories/P_retain2.v
theories/X_retain.v
theories/C_dec4.v
theories/M_lgauss.v
theories/S_lgauss.v
theories/P_gl1.v
theories/P_gl2.v
theories/P_gl3.v
theories/P_gl4.v
theories/P_gl5.v
theories/X_gl.v
theories/C_gauss.v
theories/S_modal.v
theories/P_modal.v
theories/P_modal2.v
theories/P_modal3.v
theories/X_modal.v
theories/P_sphv.v
theories/C_modal.v
theories/P_decv.v
theories/P_svd1.v
theories/P_svd2.v
theories/S_svd.v
theories/P_svd3.v
theories/P_svd4.v
theories/X_svd.v
theories/C_dec5.v
theories/S_eig.v
theories/P_eig1.v
theories/P_eig2.v
theories/X_eig.v
theories/C_eig.v
theories/S_music.v
theories/P_music.v
theories/P_music2.v
theories/X_music.v
theories/C_music.v
theories/M_firwin.v
theories/S_firwin.v
theories/P_firwin.v
theories/P_fbank.v
theories/P_firwin2.v
theories/P_firwin3.v
theories/X_firwin.v
theories/C_firwin.v
theories/M_minph.v
theories/S_minph.v
theories/P_minph1.v
theories/P_minph2.v
theories/P_minph3.v
theories/P_minph4.v
theories/X_minph.v
theories/C_minph.v
theories/M_comp.v
theories/S_comp.v
theories/P_fta1.v
theories/P_fta2.v
theories/X_fta.v
theories/C_fta.v
theories/S_count.v
theories/P_count.v
theories/X_count.v
theories/C_count.v
theories/M_hmem.v
theories/S_hmem.v
theories/P_hmem1.v
theories/P_hmem2.v
theories/X_hmem.v
theories/C_hmem.v
theories/S_cover.v
theories/P_cover1.v
theories/P_cover2.v
theories/X_cover.v
theories/C_cover.v
theories/S_cover2.v
theories/P_cover3.v
theories/X_cover2.v
theories/C_cover2.v
theories/P_cover4.v
theories/X_cover3.v
theories/C_cover3.v
theories/M_render.v
theories/S_render.v
theories/P_render.v
theories/X_render.v
theories/C_render.v
theories/P_vbip.v
theories/X_vbip.v
theories/C_vbip.v
theories/M_crms.v
theories/S_crms.v
theories/P_crms.v
theories/X_crms.v
theories/C_crms.v
theories/S_order.v
theories/P_order.v
theories/X_order.v
theories/X_order2.v
theories/C_order.v
theories/M_cond.v
theories/S_cond.v
theories/X_cond.v
theories/X_cond2.v
theories/C_cond.v
theories/S_noise.v
theories/X_noise.v
theories/X_noise2.v
theories/C_noise.v
theories/M_warn.v
theories/X_warn.v
theories/C_warn.v
